(** * A text has one checksum *)
From Verif Require Import GoBase GoStr ZfmtModel ZfmtSpec ZfmtProofs ZfmtCrc.
Local Open Scope Z_scope.

Lemma reflect_0 n : reflect n 0 = 0.
Proof. induction n as [|n IH]; [done|]. cbn [reflect]. rewrite Z.shiftr_0_l, IH, Z.bits_0. cbn [Z.b2z]. by rewrite Z.shiftl_0_l. Qed.
Lemma reflect_shift k : ∀ n a, reflect (k + n) (Z.shiftl a (Z.of_nat k)) = reflect n a.
Proof.
  induction k as [|k IH]; intros n a. { by rewrite Z.shiftl_0_r. }
  cbn [Nat.add reflect]. rewrite Z.shiftl_spec_low by lia. cbn [Z.b2z]. rewrite Z.shiftl_0_l, Z.lxor_0_l.
  replace (Z.shiftr (Z.shiftl a (Z.of_nat (S k))) 1) with (Z.shiftl a (Z.of_nat k)); [apply IH|].
  rewrite Z.shiftr_shiftl_l by lia. f_equal. lia.
Qed.
Lemma reflect_high n : ∀ m a, 0 ≤ a < 2 ^ Z.of_nat n → reflect (n + m) a = Z.shiftl (reflect n a) (Z.of_nat m).
Proof.
  induction n as [|n IH]; intros m a Ha.
  - assert (a = 0) as -> by (cbn in Ha; lia). cbn [reflect Nat.add]. by rewrite reflect_0, Z.shiftl_0_l.
  - cbn [Nat.add reflect]. rewrite IH.
    + rewrite Z.shiftl_lxor, Z.shiftl_shiftl by lia. do 2 f_equal. lia.
    + rewrite Z.shiftr_div_pow2 by lia. rewrite Nat2Z.inj_succ, Z.pow_succ_r in Ha by lia. change (2 ^ 1) with 2. split; [apply Z.div_pos; lia|apply Z.div_lt_upper_bound; lia].
Qed.
Lemma iter_0 n : Nat.iter n crc_shift 0 = 0.
Proof. induction n as [|n IH]; [done|]. cbn [Nat.iter nat_rect]. change (nat_rect _ _ _ n) with (Nat.iter n crc_shift 0). by rewrite IH. Qed.
(** the remainder *)
Definition rem (n : nat) (a : Z) : Z := Nat.iter n crc_shift (reflect (32 + n) a).
Lemma rem_lxor n a b : rem n (Z.lxor a b) = Z.lxor (rem n a) (rem n b).
Proof. unfold rem. by rewrite reflect_lxor, iter_lxor. Qed.
Lemma rem_0 n : rem n 0 = 0.
Proof. unfold rem. by rewrite reflect_0, iter_0. Qed.
Lemma rem_P n k : (k < n)%nat → rem n (Z.shiftl crc_polynomial (Z.of_nat k)) = 0.
Proof.
  intros H. unfold rem. replace (32 + n)%nat with (k + (33 + (n - k - 1)))%nat by lia. rewrite reflect_shift, reflect_high by done.
  assert (E : ∀ y, Nat.iter n crc_shift y = Nat.iter k crc_shift (Nat.iter 1 crc_shift (Nat.iter (n - k - 1) crc_shift y))) by (intros y; rewrite <- !Nat.iter_add; f_equal; lia).
  rewrite E, iter_high.
  replace (Nat.iter 1 crc_shift (reflect 33 crc_polynomial)) with 0 by (by vm_compute). apply iter_0.
Qed.
Lemma multiple_small a : multiple crc_polynomial a → 0 ≤ a < 2 ^ 32 → a = 0.
Proof.
  intros [ks ->] Ha. set (n := S (foldr Nat.max O ks)). set (a := foldr _ _ ks) in *.
  assert (E : rem n a = 0).
  { assert (Hk : Forall (λ k, (k < n)%nat) ks). { unfold n. clear. induction ks as [|k ks IH]; constructor; cbn [foldr]; [lia|]. eapply Forall_impl; [exact IH|]. cbn. lia. }
    subst a. clear Ha. clearbody n. induction Hk as [|k ks H _ IH]; cbn [foldr]; [apply rem_0|]. by rewrite rem_lxor, rem_P, IH by done. }
  unfold rem in E. rewrite reflect_high in E by done. rewrite iter_high in E. rewrite <- (reflect_twice 32 a) by done. by rewrite E, reflect_0.
Qed.
Lemma multiple_lxor P a b : multiple P a → multiple P b → multiple P (Z.lxor a b).
Proof.
  intros [ks ->] [ls ->]. exists (ks ++ ls). induction ks as [|k ks IH]; cbn [foldr app]; [by rewrite Z.lxor_0_l|]. by rewrite Z.lxor_assoc, IH.
Qed.
Lemma crc_unique x c c' : crc_of x c → crc_of x c' → c = c'.
Proof.
  intros (r & Hr & H & ->) (r' & Hr' & H' & ->). do 2 f_equal. unfold congruent in *. pose proof (multiple_lxor _ _ _ H H') as HH. set (t := Z.lxor (Z.shiftl _ _) _) in HH.
  assert (E : Z.lxor (Z.lxor t r) (Z.lxor t r') = Z.lxor r r') by (apply Z.bits_inj'; intros k _; rewrite !Z.lxor_spec; by destruct (Z.testbit t k), (Z.testbit r k), (Z.testbit r' k)).
  rewrite E in HH. apply multiple_small in HH; [by apply Z.lxor_eq|]. by apply lxor_range.
Qed.
