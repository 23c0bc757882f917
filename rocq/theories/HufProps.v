(** * C123: what the compressor behind ZipFiles writes stands for the content *)
From Verif Require Import GoBase GoStr InflModel InflSpec InflMain InflProps LzModel LzSpec LzProofs LzProps HufModel HufSpec HufProofs HcModel HcCodes.
Local Open Scope Z_scope.

(** ** with any generator of codes that does its job: at any level, however the content is divided into writes and
    whatever an earlier file left in the window, the compressor ends without a panic, and its bytes stand for the content *)
Theorem compress_stands_for gen lv win bs : gen_ok gen → Z.of_nat (length win) = 65536 → Forall (λ x, 0 ≤ x < 256) (concat bs) →
  ∃ x, compress gen lv win bs = Ret x ∧ Forall (λ x, 0 ≤ x < 256) x ∧ stands_for x (concat bs) ∧ inflate x = Some (concat bs).
Proof.
  intros Hg Hw Hb. unfold compress. destruct (compress_blocks_exact lv win bs Hw Hb) as (bl & -> & Hbl). cbn [mbind go_bind]. apply blocks_chain in Hbl.
  destruct (write_stream_ok gen Hg bl 0 _ _ Hbl) as (w & -> & Hs & Hm). cbn [mbind go_bind]. rewrite Z.add_0_l in Hm.
  assert (Hl : (8 * Nat.div (length w) 8 = length w)%nat). { apply Nat2Z.inj. rewrite Nat2Z.inj_mul, Nat2Z.inj_div. change (Z.of_nat 8) with 8. pose proof (Z.div_mod (Z.of_nat (length w)) 8). lia. }
  destruct (bytes_of_bits (Nat.div (length w) 8) w) as (B1 & B2 & _); [lia|]. rewrite Hl, take_ge in B1 by lia.
  eexists. split; [done|]. split; [done|]. assert (stands_for (bytes_of (Nat.div (length w) 8) w) (concat bs)) as X.
  { exists w, []. rewrite app_nil_r. split; [done|]. by eapply chain_stream. }
  split; [done|]. by apply inflate_rfc1951.
Qed.
Print Assumptions compress_stands_for.

(** ** the codes that are made: for any frequencies, at most as many symbols as codes of the greatest length, they are
    the codes of RFC 1951 for their lengths, for the symbols that occur and no others, and none is longer than asked;
    bitCounts ends and does not panic *)
Theorem generate_rfc1951 f max : (1 ≤ max ≤ 15)%nat → Z.of_nat (length f) ≤ 2 ^ Z.of_nat max → Forall (λ x, 0 ≤ x) f → 0 < sum_Z f ≤ 16385 → ∃ cs, generate f max = Ret cs ∧ codes_for f max cs.
Proof. apply generate_ok. Qed.
Print Assumptions generate_rfc1951.
Example generate_case : generate [1; 0; 1; 2; 4; 8] 15 = Ret [[true; true; true; false]; []; [true; true; true; true]; [true; true; false]; [true; false]; [false]] ∧
  generate [1; 0; 1; 2; 4; 8] 3 = Ret [[true; false; false]; []; [true; false; true]; [true; true; false]; [true; true; true]; [false]] ∧
  generate [0; 7; 0] 15 = Ret [[]; [false]; []] ∧
  Z.of_nat (length [1; 0; 1; 2; 4; 8]) ≤ 2 ^ Z.of_nat 3 ∧ Forall (λ x, 0 ≤ x) [1; 0; 1; 2; 4; 8] ∧ 0 < sum_Z [1; 0; 1; 2; 4; 8] ≤ 16385.
Proof. split_and!; try by vm_compute. apply (bool_decide_unpack _). by vm_compute. Qed.

(** ** the compressor as a whole *)
Theorem compress_inflate lv win bs : Z.of_nat (length win) = 65536 → Forall (λ x, 0 ≤ x < 256) (concat bs) →
  ∃ x, compress generate lv win bs = Ret x ∧ Forall (λ x, 0 ≤ x < 256) x ∧ stands_for x (concat bs) ∧ inflate x = Some (concat bs).
Proof. apply compress_stands_for, generate_ok. Qed.
Print Assumptions compress_inflate.
(** with fixed codes, and with codes of its own *)
Definition uneven : gostr := str "abcccaaaacabbabacaaaacaccbaaacbabacabcaaacccaaabbaabacaaabcaaacccbbbaaacbbaacbacbcabcccaaaacabbaccbabab".
Example compress_inflate_case : compress generate level5 old_window [str "abcdabcdabcdx"] = Ret [74; 76; 74; 78; 129; 225; 10; 64; 0; 0; 0; 255; 255] ∧
  (∃ r, compress generate level5 old_window [uneven] = Ret (84 :: r) ∧ inflate (84 :: r) = Some uneven ∧ (length r < length uneven)%nat) ∧ Z.of_nat (length old_window) = 65536 ∧ Forall (λ x, 0 ≤ x < 256) uneven.
Proof.
  split_and!; [by vm_compute| |by vm_compute|apply (bool_decide_unpack _); by vm_compute].
  destruct (compress generate level5 old_window [uneven]) as [[|x r]| |] eqn:E; vm_compute in E; try discriminate E. injection E as <- <-. eexists. split; [reflexivity|]. split; [by vm_compute|]. apply (bool_decide_unpack _). by vm_compute.
Qed.
