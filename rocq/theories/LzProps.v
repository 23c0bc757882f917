(** * C122: the matcher of the compressor behind ZipFiles loses nothing *)
From Verif Require Import GoBase GoStr InflModel InflSpec InflProps LzModel LzSpec LzProofs.
Local Open Scope Z_scope.

(** ** at any level, however the content is divided into writes and whatever an earlier file left in the window, the
    compressor ends without a panic, and its blocks give the content back: lengths from 4 to 258, offsets from 1 to
    32768, at most 16384 tokens in a block, and the bytes that go with a block are those of its tokens *)
Theorem compress_blocks_exact lv w bs : Z.of_nat (length w) = 65536 → Forall (λ x, 0 ≤ x < 256) (concat bs) →
  ∃ blocks, compress_blocks lv w bs = Ret blocks ∧ blocks_for blocks (concat bs).
Proof. apply compress_ok. Qed.
Print Assumptions compress_blocks_exact.

(** ** any RFC 1951 coding of the blocks, with any codes, is read back as the content *)
Inductive replay1 : list item → gostr → gostr → Prop :=
  | replay1_nil o : replay1 [] o o
  | replay1_cons it l o o1 o2 : adds it o o1 → replay1 l o1 o2 → replay1 (it :: l) o o2.
Lemma replay1_app l l' o o1 o2 : replay1 l o o1 → replay1 l' o1 o2 → replay1 (l ++ l') o o2.
Proof. induction 1; [done|]. intros X. cbn. econstructor; [done|]. by auto. Qed.
Lemma replay_fwd l o o' : replay l o o' → replay1 l o o'.
Proof. induction 1 as [|l it o o1 o2 _ IH Ha]; [constructor|]. eapply replay1_app; [exact IH|]. econstructor; [exact Ha|constructor]. Qed.
Lemma replay1_prefix l o o' : replay1 l o o' → o `prefix_of` o'.
Proof.
  induction 1 as [|it l o o1 o2 Ha _ IH]; [done|]. etrans; [|exact IH]. destruct it as [c|n d]; cbn [adds] in Ha; [subst o1; by eexists|apply Ha].
Qed.
Lemma items_of_replay L D l o o' w : replay1 l o o' → items_bits L D l w → items L D o o' w.
Proof.
  intros Hr. revert w. induction Hr as [o|it l o o1 o2 Ha _ IH]; intros w (ws & e & Hf & He & ->).
  - inversion_clear Hf. cbn. by constructor.
  - inversion_clear Hf as [|? b ? ws' Hb Hf']. cbn [mjoin list_join]. rewrite <- app_assoc. econstructor; [exact Hb|exact Ha|]. apply IH. by exists ws', e.
Qed.
Inductive chain : list (list token * option gostr) → gostr → gostr → Prop :=
  | chain_nil o : chain [] o o
  | chain_cons ts input l o o1 o2 : block_ok o ts input o1 → chain l o1 o2 → chain ((ts, input) :: l) o o2.
Lemma chain_app l l' o o1 o2 : chain l o o1 → chain l' o1 o2 → chain (l ++ l') o o2.
Proof. induction 1; [done|]. intros X. cbn. econstructor; [done|]. by auto. Qed.
Lemma blocks_chain l d : blocks_for l d → chain l [] d.
Proof. induction 1 as [|l o ts input o' _ IH Hb]; [constructor|]. eapply chain_app; [exact IH|]. econstructor; [exact Hb|constructor]. Qed.
Lemma chain_prefix l o o' : chain l o o' → o `prefix_of` o'.
Proof. induction 1 as [|ts input l o o1 o2 Hb _ IH]; [done|]. etrans; [|exact IH]. destruct Hb as (_ & _ & _ & Hr & _). by eapply replay1_prefix, replay_fwd. Qed.
Lemma chain_stream l o d pos w : chain l o d → Forall (λ x, 0 ≤ x < 256) d → stream_bits pos l w → stream pos o d w.
Proof.
  intros Hc. revert pos w. induction Hc as [o|ts input l o o1 o2 Hb Hc IH]; intros pos w Hd Hs.
  - inversion_clear Hs as [w' (pad & n & nn & H1 & H2 & H3 & H4 & ->)|]. constructor. apply block_stored; try done. by rewrite app_nil_r.
  - inversion_clear Hs as [|? ? ? w1 w2 Hb1 Hs1]. eapply stream_more; [|by apply IH]. destruct Hb as (_ & _ & _ & Hr & Hi). apply replay_fwd in Hr.
    destruct Hb1 as [data w1 -> (pad & n & nn & H1 & H2 & H3 & H4 & ->)|w1 Hw|L D w1a w1b Ht Hw].
    + specialize (Hi _ eq_refl). apply block_stored; try done. apply chain_prefix in Hc as [z Hz]. rewrite Hz, Hi in Hd. apply Forall_app in Hd as [Hd _]. by apply Forall_app in Hd as [_ Hd].
    + apply block_fixed. by eapply items_of_replay.
    + eapply block_dynamic; [done|]. by eapply items_of_replay.
Qed.
Theorem compress_blocks_read_back lv w bs blocks x b rest : Z.of_nat (length w) = 65536 → Forall (λ x, 0 ≤ x < 256) (concat bs) → compress_blocks lv w bs = Ret blocks →
  stream_bits 0 blocks b → x ≫= byte_seq = b ++ rest → stands_for x (concat bs) ∧ inflate x = Some (concat bs).
Proof.
  intros Hw Hb E Hs Hx. destruct (compress_blocks_exact lv w bs Hw Hb) as (bl & E' & Hbl). rewrite E in E'. injection E' as <-.
  assert (stands_for x (concat bs)) as X. { exists b, rest. split; [done|]. by eapply chain_stream; [apply blocks_chain|..]. }
  split; [done|]. by apply inflate_rfc1951.
Qed.
Print Assumptions compress_blocks_read_back.

Definition old_window : gostr := replicate (Z.to_nat 65536) 7.
Example compress_blocks_case :
  compress_blocks level5 old_window [str "abcd"; str "abcdabcdx"] = Ret [([TLit 97; TLit 98; TLit 99; TLit 100; TMatch 5 3; TLit 120], Some (str "abcdabcdabcdx"))] ∧
  compress_blocks level5 old_window [str "abcdabce abcdx"] = Ret [([TLit 97; TLit 98; TLit 99; TLit 100; TLit 97; TLit 98; TLit 99; TLit 101; TLit 32; TMatch 1 8; TLit 120], Some (str "abcdabce abcdx"))] ∧
  compress_blocks level5 old_window [replicate 300 97] = Ret [([TLit 97; TMatch 255 0; TMatch 38 0], Some (replicate 300 97))] ∧
  compress_blocks level5 old_window [] = Ret [] ∧
  Z.of_nat (length old_window) = 65536 ∧ Forall (λ x, 0 ≤ x < 256) (concat [str "abcd"; str "abcdabcdx"]).
Proof. split_and!; [by vm_compute| by vm_compute|by vm_compute|by vm_compute|by vm_compute|]. apply (bool_decide_unpack _). by vm_compute. Qed.
(** the empty content: one stored block *)
Example compress_read_back_case : stream_bits 0 [] ([true; false; false; false; false; false; false; false] ++ replicate 16 false ++ replicate 16 true) ∧ inflate [1; 0; 0; 255; 255] = Some [] ∧
  [1; 0; 0; 255; 255] ≫= byte_seq = ([true; false; false; false; false; false; false; false] ++ replicate 16 false ++ replicate 16 true) ++ [].
Proof.
  split_and!; [|by vm_compute|by vm_compute]. apply (bits_last 0 ([false; false] ++ replicate 5 false ++ replicate 16 false ++ replicate 16 true ++ [])). exists (replicate 5 false), (replicate 16 false), (replicate 16 true). split_and!; try by vm_compute. cbn. lia.
Qed.
