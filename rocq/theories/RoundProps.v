(** * utils.Round: theorems *)
From Coq Require Import ZArith Reals Lra Lia Bool List.
From Flocq Require Import Core Relative IEEE754.BinarySingleNaN.
From Verif Require Import RoundModel RoundSpec.
Open Scope R_scope.

Notation RN := nearest_double.
Notation fexp := (FLT_exp (-1074) 53).
Notation F := (generic_format radix2 fexp).
Global Instance prec53 : Prec_gt_0 53. Proof. reflexivity. Qed.
Global Instance vfexp : Valid_exp fexp. Proof. apply FLT_exp_valid. reflexivity. Qed.
Lemma RN_le x y : x <= y -> RN x <= RN y.
Proof. apply round_le; auto with typeclass_instances. Qed.
Lemma RN_F x : F x -> RN x = x.
Proof. apply round_generic; auto with typeclass_instances. Qed.
Lemma F_B2R (f : f64) : F (B2R f).
Proof. apply (generic_format_B2R prec emax). Qed.
Lemma F_RN x : F (RN x).
Proof. apply generic_format_round; auto with typeclass_instances. Qed.
(** multiples of 2^e below 2^(e+53) *)
Lemma F_mult m e : (-1074 <= e)%Z -> (Z.abs m <= 2 ^ 53)%Z -> F (IZR m * bpow radix2 e).
Proof.
  intros He Hm. destruct (Z.eq_dec (Z.abs m) (2 ^ 53)) as [E|E].
  - assert (HF : F (bpow radix2 (e + 53))) by (apply generic_format_FLT_bpow; [reflexivity|lia]).
    destruct (Z.abs_spec m) as [[_ Ha]|[_ Ha]].
    + replace (IZR m * bpow radix2 e) with (bpow radix2 (e + 53)); [exact HF|]. rewrite bpow_plus. replace m with (2 ^ 53)%Z by lia. simpl (bpow radix2 53). lra.
    + replace (IZR m * bpow radix2 e) with (- bpow radix2 (e + 53)); [now apply generic_format_opp|].
      rewrite bpow_plus. replace m with (- 2 ^ 53)%Z by lia. rewrite opp_IZR. simpl (bpow radix2 53). lra.
  - apply generic_format_FLT. exists (Float radix2 m e); [reflexivity| |exact He]. simpl. change (Z.pow_pos 2 53) with (2 ^ 53)%Z. lia.
Qed.
Lemma F_dyadic x e : (-1021 <= e)%Z -> F x -> bpow radix2 (e - 1) <= Rabs x < bpow radix2 e -> exists m, x = IZR m * bpow radix2 (e - 53) /\ (Z.abs m < 2 ^ 53)%Z.
Proof.
  intros He Hx Hm. exists (Ztrunc (scaled_mantissa radix2 fexp x)). pose proof Hx as Hx'. unfold generic_format in Hx'. unfold F2R in Hx'. simpl in Hx'. assert (Hc : cexp radix2 fexp x = (e - 53)%Z).
  { unfold cexp. rewrite (mag_unique radix2 x e Hm). unfold FLT_exp. lia. }
  rewrite Hc in Hx'. split; [exact Hx'|]. apply lt_IZR. rewrite abs_IZR. apply Rmult_lt_reg_r with (bpow radix2 (e - 53)); [apply bpow_gt_0|]. rewrite <- (Rabs_pos_eq (bpow radix2 (e - 53))) at 1 by apply bpow_ge_0. rewrite <- Rabs_mult, <- Hx'. eapply Rlt_le_trans; [apply Hm|]. right. change (IZR (2 ^ 53)) with (bpow radix2 53). rewrite <- bpow_plus. f_equal. lia.
Qed.
Lemma F_IZR z : (Z.abs z <= 2 ^ 53)%Z -> F (IZR z).
Proof. intros H. replace (IZR z) with (IZR z * bpow radix2 0) by (simpl; lra). apply F_mult; [lia|exact H]. Qed.
(** values of concrete floats *)
Definition is_dyadic (x : f64) (z : Z) (k : Z) : bool :=
  match x with
  | B754_finite s m e _ => let m' := cond_Zopp s (Zpos m) in if (e <=? 0)%Z then (m' * 2 ^ k =? z * 2 ^ (- e))%Z else (m' * 2 ^ e * 2 ^ k =? z)%Z
  | _ => false
  end.
Lemma is_dyadic_ok x z k : (0 <= k)%Z -> is_dyadic x z k = true -> is_finite x = true /\ B2R x = IZR z / IZR (2 ^ k).
Proof.
  intros Hk. destruct x as [s|s| |s m e He]; try discriminate. unfold is_dyadic. cbv zeta. set (m' := cond_Zopp s (Zpos m)). intros H. split; [reflexivity|]. simpl. unfold F2R. simpl. fold m'. assert (Hk2 : 0 < IZR (2 ^ k)) by (apply IZR_lt; lia). apply Rmult_eq_reg_r with (IZR (2 ^ k)); [|lra]. unfold Rdiv. rewrite (Rmult_assoc (IZR z)), Rinv_l, Rmult_1_r by lra.
  destruct (Z.leb_spec e 0) as [He0|He0]; apply Z.eqb_eq in H.
  - assert (Hb : IZR (2 ^ (- e)) * bpow radix2 e = 1). { change (2 ^ (- e))%Z with (radix2 ^ (- e))%Z. rewrite IZR_Zpower by lia. rewrite <- bpow_plus. replace (- e + e)%Z with 0%Z by lia. reflexivity. }
    apply (f_equal IZR) in H. rewrite !mult_IZR in H. replace (IZR m' * bpow radix2 e * IZR (2 ^ k)) with (IZR m' * IZR (2 ^ k) * bpow radix2 e) by ring. rewrite H, Rmult_assoc, Hb. ring.
  - rewrite <- (IZR_Zpower radix2) by lia. change (radix2 ^ e)%Z with (2 ^ e)%Z. rewrite <- !mult_IZR. now rewrite H.
Qed.
Lemma half_R : is_finite half = true /\ B2R half = / 2.
Proof. destruct (is_dyadic_ok half 1 1) as [H1 H2]; [lia|vm_compute; reflexivity|]. split; [exact H1|]. rewrite H2. change (2 ^ 1)%Z with 2%Z. lra. Qed.
Lemma pow10_check : forallb (fun n => is_dyadic (pow10 (Z.of_nat n)) (10 ^ Z.of_nat n) 0) (seq 0 23) = true.
Proof. vm_compute. reflexivity. Qed.
Lemma pow10_R n : (0 <= n <= 22)%Z -> is_finite (pow10 n) = true /\ B2R (pow10 n) = IZR (10 ^ n).
Proof.
  intros Hn. pose proof pow10_check as H. rewrite forallb_forall in H. specialize (H (Z.to_nat n)). rewrite Z2Nat.id in H by lia. destruct (is_dyadic_ok (pow10 n) (10 ^ n) 0) as [H1 H2]; [lia|apply H; apply in_seq; lia|]. split; [exact H1|]. rewrite H2. change (2 ^ 0)%Z with 1%Z. lra.
Qed.
Lemma powerRZ_Z n : (0 <= n)%Z -> powerRZ 10 n = IZR (10 ^ n).
Proof. intros H. destruct n; [reflexivity| |lia]. simpl powerRZ. rewrite pow_IZR. now rewrite positive_nat_Z. Qed.

(** ** the operations in range *)
Lemma RN_big x : Rabs x <= bpow radix2 1000 -> Rabs (RN x) <= bpow radix2 1000.
Proof.
  intros H. assert (HF : F (bpow radix2 1000)) by (apply generic_format_FLT_bpow; [reflexivity|lia]). apply Rabs_le_inv in H as [H1 H2]. apply Rabs_le. split.
  - rewrite <- (RN_F (- bpow radix2 1000)) by now apply generic_format_opp. now apply RN_le.
  - rewrite <- (RN_F (bpow radix2 1000)) by exact HF. now apply RN_le.
Qed.
Lemma no_overflow x : Rabs x <= bpow radix2 1000 -> Rlt_bool (Rabs (RN x)) (bpow radix2 emax) = true.
Proof. intros H. apply Rlt_bool_true. eapply Rle_lt_trans; [apply RN_big, H|]. apply bpow_lt. reflexivity. Qed.
Lemma fadd_R a b : is_finite a = true -> is_finite b = true -> Rabs (B2R a + B2R b) <= bpow radix2 1000 -> is_finite (fadd a b) = true /\ B2R (fadd a b) = RN (B2R a + B2R b).
Proof.
  intros Ha Hb Hs. pose proof (Bplus_correct prec emax prec_pos prec_emax mode_NE a b Ha Hb) as H. change (round radix2 (SpecFloat.fexp prec emax) (round_mode mode_NE) (B2R a + B2R b)) with (RN (B2R a + B2R b)) in H. rewrite no_overflow in H by exact Hs. destruct H as (H1 & H2 & _). split; [exact H2|exact H1].
Qed.
Lemma fmul_R a b : is_finite a = true -> is_finite b = true -> Rabs (B2R a * B2R b) <= bpow radix2 1000 -> is_finite (fmul a b) = true /\ B2R (fmul a b) = RN (B2R a * B2R b).
Proof.
  intros Ha Hb Hs. pose proof (Bmult_correct prec emax prec_pos prec_emax mode_NE a b) as H. change (round radix2 (SpecFloat.fexp prec emax) (round_mode mode_NE) (B2R a * B2R b)) with (RN (B2R a * B2R b)) in H. rewrite no_overflow in H by exact Hs. destruct H as (H1 & H2 & _). rewrite Ha, Hb in H2. split; [exact H2|exact H1].
Qed.
Lemma fdiv_R a b : is_finite a = true -> B2R b <> 0 -> Rabs (B2R a / B2R b) <= bpow radix2 1000 -> is_finite (fdiv a b) = true /\ B2R (fdiv a b) = RN (B2R a / B2R b).
Proof.
  intros Ha Hb Hs. pose proof (Bdiv_correct prec emax prec_pos prec_emax mode_NE a b Hb) as H. change (round radix2 (SpecFloat.fexp prec emax) (round_mode mode_NE) (B2R a / B2R b)) with (RN (B2R a / B2R b)) in H. rewrite no_overflow in H by exact Hs. destruct H as (H1 & H2 & _). rewrite Ha in H2. split; [exact H2|exact H1].
Qed.
Lemma ftrunc_R a : is_finite (ftrunc a) = is_finite a /\ B2R (ftrunc a) = IZR (Ztrunc (B2R a)).
Proof.
  destruct (Bnearbyint_correct prec emax prec_emax mode_ZR a) as (H1 & H2 & _). split; [exact H2|]. unfold ftrunc. rewrite H1. unfold round, F2R, scaled_mantissa, cexp. simpl. unfold FIX_exp. simpl. now rewrite !Rmult_1_r.
Qed.
(** the value computed, for precisions with an exact power and results in range *)
Lemma round_to_R f n : (0 <= n <= 22)%Z -> is_finite f = true -> Rabs (B2R f) <= bpow radix2 900 -> let p := IZR (10 ^ n) in
  let b := RN (RN (B2R f + RN (/ 2 / p)) * p) in is_finite (round_to f n) = true /\ B2R (round_to f n) = RN (IZR (Ztrunc b) / p).
Proof.
  intros Hn Hf Hx. cbv zeta. destruct (pow10_R n Hn) as [Pf PR]. destruct half_R as [Hhf HhR]. set (p := IZR (10 ^ n)) in *. 
  assert (Hp : 1 <= p <= bpow radix2 80).
  { unfold p. split; [apply IZR_le; pose proof (Z.pow_pos_nonneg 10 n); lia|]. rewrite <- (IZR_Zpower radix2) by lia. apply IZR_le. transitivity (10 ^ 22)%Z; [apply Z.pow_le_mono_r; lia|]. vm_compute. discriminate. }
  unfold round_to. cbv zeta. assert (HB : forall e1 e2, (e1 <= e2)%Z -> bpow radix2 e1 <= bpow radix2 e2) by (intros; now apply bpow_le).
  assert (Hd : 0 < / 2 / p <= 1). { assert (0 < / p <= 1). { split; [apply Rinv_0_lt_compat; lra|]. rewrite <- Rinv_1. apply Rinv_le; lra. } unfold Rdiv. nra. }
  destruct (fdiv_R half (pow10 n)) as [H1f H1]; [exact Hhf|rewrite PR; lra|rewrite HhR, PR; rewrite Rabs_pos_eq by lra; change 1 with (bpow radix2 0) in Hd; eapply Rle_trans; [apply Hd|apply HB; lia]|]. rewrite HhR, PR in H1.
  assert (Hh1 : 0 <= RN (/ 2 / p) <= 1). { split; [rewrite <- (RN_F 0) by apply generic_format_0; apply RN_le; lra|]. rewrite <- (RN_F 1) by (apply (F_IZR 1); lia). apply RN_le. lra. }
  assert (H900 : bpow radix2 901 = 2 * bpow radix2 900) by (rewrite (bpow_plus radix2 900 1 : bpow radix2 901 = _); simpl (bpow radix2 1); lra). assert (H901 : 1 <= bpow radix2 900) by (change 1 with (bpow radix2 0); apply HB; lia).
  assert (Hsum : Rabs (B2R f + RN (/ 2 / p)) <= bpow radix2 901). { eapply Rle_trans; [apply Rabs_triang|]. rewrite (Rabs_pos_eq (RN _)) by lra. lra. }
  destruct (fadd_R f (fdiv half (pow10 n)) Hf H1f) as [H2f H2]; [rewrite H1; eapply Rle_trans; [exact Hsum|apply HB; lia]|]. rewrite H1 in H2.
  assert (HRN : forall x e, (-1000 <= e <= 1000)%Z -> Rabs x <= bpow radix2 e -> Rabs (RN x) <= bpow radix2 e).
  { intros x e He H. assert (HF : F (bpow radix2 e)) by (apply generic_format_FLT_bpow; [reflexivity|lia]). apply Rabs_le_inv in H as [Ha Hb]. apply Rabs_le. split; [rewrite <- (RN_F (- bpow radix2 e)) by now apply generic_format_opp|rewrite <- (RN_F (bpow radix2 e)) by exact HF]; now apply RN_le. }
  assert (Hprod : Rabs (RN (B2R f + RN (/ 2 / p)) * p) <= bpow radix2 981).
  { rewrite Rabs_mult, (Rabs_pos_eq p) by lra. change 981%Z with (901 + 80)%Z. rewrite bpow_plus. apply Rmult_le_compat; [apply Rabs_pos|lra|apply HRN; [lia|exact Hsum]|lra]. }
  destruct (fmul_R (fadd f (fdiv half (pow10 n))) (pow10 n) H2f Pf) as [H3f H3]; [rewrite H2, PR; eapply Rle_trans; [exact Hprod|apply HB; lia]|]. rewrite H2, PR in H3.
  set (b := RN (RN (B2R f + RN (/ 2 / p)) * p)) in *. assert (Hb : Rabs b <= bpow radix2 981) by (apply HRN; [lia|exact Hprod]).
  destruct (ftrunc_R (fmul (fadd f (fdiv half (pow10 n))) (pow10 n))) as [H4f H4]. rewrite H3 in H4. rewrite H3f in H4f.
  assert (Ht : Rabs (IZR (Ztrunc b)) <= bpow radix2 981). { eapply Rle_trans; [|exact Hb]. rewrite <- abs_IZR, <- Ztrunc_abs. rewrite Ztrunc_floor by apply Rabs_pos. apply Zfloor_lb. }
  destruct (fdiv_R (ftrunc (fmul (fadd f (fdiv half (pow10 n))) (pow10 n))) (pow10 n)) as [H5f H5]; [exact H4f|rewrite PR; lra| |split; [exact H5f|now rewrite H5, H4, PR]].
  rewrite H4, PR. unfold Rdiv. rewrite Rabs_mult, (Rabs_pos_eq (/ p)) by (left; apply Rinv_0_lt_compat; lra). eapply Rle_trans; [|apply (HB 981 1000)%Z; lia]. rewrite <- (Rmult_1_r (bpow radix2 981)). apply Rmult_le_compat; [apply Rabs_pos|left; apply Rinv_0_lt_compat; lra|exact Ht|]. rewrite <- Rinv_1. apply Rinv_le; lra.
Qed.

(** ** precision 0 *)
Lemma F_trunc x : F x -> (Rabs x <= bpow radix2 1000) -> F (IZR (Ztrunc x)).
Proof.
  intros Hx Hb. destruct (Rle_or_lt (bpow radix2 53) (Rabs x)) as [H|H].
  - replace (IZR (Ztrunc x)) with x; [exact Hx|]. (* all such numbers are integers *)
    assert (HI : exists z, x = IZR z).
    { unfold generic_format, F2R in Hx. simpl in Hx. assert (Hc : (0 <= cexp radix2 fexp x)%Z). { unfold cexp, FLT_exp. assert (53 < mag radix2 x)%Z; [|lia]. apply mag_gt_bpow. exact H. }
      rewrite <- IZR_Zpower in Hx by exact Hc. rewrite <- mult_IZR in Hx. eexists. exact Hx. }
    destruct HI as [z ->]. now rewrite Ztrunc_IZR.
  - apply F_IZR. apply le_IZR. rewrite abs_IZR. change (IZR (2 ^ 53)) with (bpow radix2 53). left. eapply Rle_lt_trans; [|exact H]. rewrite <- abs_IZR, <- Ztrunc_abs. rewrite Ztrunc_floor by apply Rabs_pos. apply Zfloor_lb.
Qed.
Lemma F_half : F (/ 2).
Proof. replace (/ 2) with (IZR 1 * bpow radix2 (-1)) by (simpl; lra). apply F_mult; lia. Qed.
Lemma round0_R f : is_finite f = true -> Rabs (B2R f) <= bpow radix2 900 -> is_finite (round_to f 0) = true /\ B2R (round_to f 0) = IZR (Ztrunc (RN (B2R f + / 2))).
Proof.
  intros Hf Hx. destruct (round_to_R f 0 ltac:(lia) Hf Hx) as [H1 H2]. split; [exact H1|]. rewrite H2. change (IZR (10 ^ 0)) with 1. unfold Rdiv. rewrite Rinv_1, !Rmult_1_r. rewrite (RN_F (/ 2)) by apply F_half. rewrite (RN_F (RN _)) by apply F_RN. apply RN_F. apply F_trunc; [apply F_RN|]. apply RN_big.
  eapply Rle_trans; [apply Rabs_triang|]. rewrite (Rabs_pos_eq (/ 2)) by lra. apply Rle_trans with (2 * bpow radix2 900); [|change 2 with (bpow radix2 1); rewrite <- bpow_plus; apply bpow_le; lia]. assert (1 <= bpow radix2 900) by (change 1 with (bpow radix2 0); apply bpow_le; lia). lra.
Qed.
(** the sum and the integer part, for non-negative arguments *)
Lemma Zfloor_is x z : IZR z <= x < IZR z + 1 -> Zfloor x = z.
Proof. intros H. apply Zfloor_imp. rewrite plus_IZR. exact H. Qed.
Lemma trunc_sum x : F x -> 0 <= x < bpow radix2 52 -> x <> / 2 - bpow radix2 (-54) -> Ztrunc (RN (x + / 2)) = Zfloor (x + / 2).
Proof.
  intros Fx Hx Hne. assert (Hpos : 0 <= RN (x + / 2)) by (rewrite <- (RN_F 0) by apply generic_format_0; apply RN_le; lra). rewrite Ztrunc_floor by exact Hpos.
  destruct (Rlt_or_le x (/ 2)) as [Hlt|Hge].
  - rewrite (Zfloor_is (x + / 2) 0) by (simpl; lra). apply Zfloor_is. split; [exact Hpos|]. 
    assert (Hle : x <= / 2 - bpow radix2 (-53)).
    { destruct (Rlt_or_le x (/ 4)) as [H4|H4]; [assert (bpow radix2 (-53) <= bpow radix2 (-2)) by (apply bpow_le; lia); simpl (bpow radix2 (-2)) in *; lra|].
      destruct (F_dyadic x (-1)) as (m & Em & Hm); [lia|exact Fx|rewrite Rabs_pos_eq by lra; simpl; lra|]. change (-1 - 53)%Z with (-54)%Z in Em.
      assert (Hh : / 2 = IZR (2 ^ 53) * bpow radix2 (-54)). { change (IZR (2 ^ 53)) with (bpow radix2 53). rewrite <- bpow_plus. simpl. lra. }
      assert (H53 : bpow radix2 (-53) = 2 * bpow radix2 (-54)). { change 2 with (bpow radix2 1). rewrite <- bpow_plus. reflexivity. }
      assert (Hm2 : (m <= 2 ^ 53 - 2)%Z).
      { assert (m <> 2 ^ 53 - 1)%Z; [|lia]. intros ->. apply Hne. rewrite Em, minus_IZR, Hh. lra. }
      apply IZR_le in Hm2. rewrite minus_IZR in Hm2. rewrite Em, Hh, H53. pose proof (bpow_gt_0 radix2 (-54)). nra. }
    apply Rle_lt_trans with (1 - bpow radix2 (-53)); [|pose proof (bpow_gt_0 radix2 (-53)); simpl IZR; lra].
    assert (HF : F (1 - bpow radix2 (-53))). { replace (1 - bpow radix2 (-53)) with (IZR (2 ^ 53 - 1) * bpow radix2 (-53)); [apply F_mult; lia|]. rewrite minus_IZR. change (IZR (2 ^ 53)) with (bpow radix2 53). rewrite Rmult_minus_distr_r, <- bpow_plus. simpl (bpow radix2 (53 + -53)). lra. }
    rewrite <- (RN_F (1 - bpow radix2 (-53))) by exact HF. apply RN_le. lra.
  - destruct (Rlt_or_le x 1) as [H1|H1].
    + rewrite (Zfloor_is (x + / 2) 1) by lra. apply Zfloor_is. split; [rewrite <- (RN_F 1) at 1 by (apply (F_IZR 1); lia); apply RN_le; lra|].
      apply Rle_lt_trans with (3 / 2); [|lra]. assert (HF : F (3 / 2)). { replace (3 / 2) with (IZR 3 * bpow radix2 (-1)) by (simpl; lra). apply F_mult; lia. } rewrite <- (RN_F (3 / 2)) by exact HF. apply RN_le. lra.
    + (* 1 <= x: in the binade of x *)
      destruct (mag radix2 x) as [e He]. specialize (He ltac:(lra)). rewrite Rabs_pos_eq in He by lra. 
      assert (He1 : (1 <= e <= 52)%Z). { split. 2:{ assert (e - 1 < 52)%Z; [|lia]. apply (lt_bpow radix2). lra. } assert (0 < e)%Z; [|lia]. apply (lt_bpow radix2). simpl (bpow radix2 0). lra. }
      destruct (F_dyadic x e) as (m & Em & Hm); [lia|exact Fx|rewrite Rabs_pos_eq by lra; exact He|].
      assert (Hh : / 2 = IZR (2 ^ (52 - e)) * bpow radix2 (e - 53)). { change (2 ^ (52 - e))%Z with (radix2 ^ (52 - e))%Z. rewrite IZR_Zpower by lia. rewrite <- bpow_plus. replace (52 - e + (e - 53))%Z with (-1)%Z by lia. simpl. lra. }
      assert (Es : x + / 2 = IZR (m + 2 ^ (52 - e)) * bpow radix2 (e - 53)) by (rewrite Em, Hh, plus_IZR; ring).
      destruct (Rle_or_lt (x + / 2) (bpow radix2 e)) as [Hle|Hgt].
      * rewrite RN_F; [reflexivity|]. rewrite Es. apply F_mult; [lia|]. apply le_IZR. rewrite abs_IZR. apply Rmult_le_reg_r with (bpow radix2 (e - 53)); [apply bpow_gt_0|]. rewrite <- (Rabs_pos_eq (bpow radix2 (e - 53))) at 1 by apply bpow_ge_0. rewrite <- Rabs_mult, <- Es. rewrite Rabs_pos_eq by lra. change (IZR (2 ^ 53)) with (bpow radix2 53). rewrite <- bpow_plus. replace (53 + (e - 53))%Z with e by lia. exact Hle.
      * assert (Hz : bpow radix2 e = IZR (2 ^ e)) by (symmetry; apply (IZR_Zpower radix2); lia).
        assert (He51 : (e <= 51)%Z). { destruct (Z.eq_dec e 52) as [->|]; [|lia]. exfalso. change (52 - 52)%Z with 0%Z in Es. change (2 ^ 0)%Z with 1%Z in Es. change (52 - 53)%Z with (-1)%Z in *. assert (m + 1 <= 2 ^ 53)%Z as Hc by lia. apply IZR_le in Hc. change (IZR (2 ^ 53)) with (bpow radix2 53) in Hc. assert (bpow radix2 52 = bpow radix2 53 * bpow radix2 (-1)) as Hb by (rewrite <- bpow_plus; reflexivity). rewrite Es, Hb in Hgt. pose proof (bpow_gt_0 radix2 (-1)). nra. }
        rewrite (Zfloor_is (x + / 2) (2 ^ e)) by (rewrite <- Hz; lra). apply Zfloor_is. rewrite <- Hz. 
        assert (HFe : F (bpow radix2 e)) by (apply generic_format_FLT_bpow; [reflexivity|lia]). split; [rewrite <- (RN_F (bpow radix2 e)) at 1 by exact HFe; apply RN_le; lra|].
        apply Rle_lt_trans with (bpow radix2 e + / 2); [|lra]. assert (HF : F (bpow radix2 e + / 2)). { replace (bpow radix2 e + / 2) with (IZR (2 ^ (e + 1) + 1) * bpow radix2 (-1)). - apply F_mult; [lia|]. assert (2 ^ (e + 1) <= 2 ^ 52)%Z by (apply Z.pow_le_mono_r; lia). pose proof (Z.pow_pos_nonneg 2 (e + 1)). lia. - rewrite plus_IZR. change (2 ^ (e + 1))%Z with (radix2 ^ (e + 1))%Z. rewrite IZR_Zpower by lia. rewrite Rmult_plus_distr_r, <- bpow_plus. replace (e + 1 + -1)%Z with e by lia. simpl (bpow radix2 (-1)). lra. }
        rewrite <- (RN_F (bpow radix2 e + / 2)) by exact HF. apply RN_le. lra.
Qed.
(** large numbers are their own nearest integers, and the sum is rounded back *)
Lemma big_sum x : F x -> bpow radix2 53 <= x -> RN (x + / 2) = x /\ exists z, x = IZR z.
Proof.
  intros Fx Hx. pose proof (bpow_gt_0 radix2 53) as Hb0. assert (Hm : (53 < mag radix2 x)%Z) by (apply mag_gt_bpow; rewrite Rabs_pos_eq; lra). 
  assert (Hulp : 2 <= ulp radix2 fexp x). { rewrite ulp_neq_0 by lra. change 2 with (bpow radix2 1). apply bpow_le. unfold cexp, FLT_exp. lia. }
  split.
  - apply Rle_antisym; [|rewrite <- (RN_F x) at 1 by exact Fx; apply RN_le; lra]. apply round_N_le_midp; [exact vfexp|exact Fx|]. rewrite succ_eq_pos by lra. lra.
  - unfold generic_format, F2R in Fx. simpl in Fx. assert (Hc : (0 <= cexp radix2 fexp x)%Z) by (unfold cexp, FLT_exp; lia). rewrite <- IZR_Zpower in Fx by exact Hc. rewrite <- mult_IZR in Fx. eexists. exact Fx.
Qed.
Lemma rounds_right_0 f k : is_finite f = true -> Rabs (B2R f) <= bpow radix2 900 -> Ztrunc (RN (B2R f + / 2)) = k -> Rabs (IZR k - B2R f) <= / 2 -> rounds_right f 0.
Proof.
  intros Hf Hx Hk Hd. destruct (round0_R f Hf Hx) as [H1 H2]. split; [exact H1|]. exists k. unfold nearest_multiple. simpl powerRZ. rewrite Rmult_1_r. split; [exact Hd|]. unfold Rdiv. rewrite Rinv_1, Rmult_1_r. rewrite H2, <- Hk. symmetry. apply RN_F. rewrite <- H2. apply F_B2R.
Qed.
(** Round(f,0) is right from -1/2 on, except for the double below 1/2 and odd integers from 2^52 to 2^53 *)
Theorem round0_partial f : is_finite f = true -> - / 2 <= B2R f -> B2R f <> / 2 - bpow radix2 (-54) -> (B2R f < bpow radix2 52 \/ bpow radix2 53 <= B2R f <= bpow radix2 900) -> rounds_right f 0.
Proof.
  intros Hf Hm Hne Hr. set (x := B2R f) in *. assert (Hx : Rabs x <= bpow radix2 900). { assert (bpow radix2 52 <= bpow radix2 900) by (apply bpow_le; lia). assert (1 <= bpow radix2 900) by (change 1 with (bpow radix2 0); apply bpow_le; lia). apply Rabs_le. lra. }
  destruct Hr as [Hr|Hr].
  - destruct (Rlt_or_le x 0) as [Hn|Hp].
    + apply (rounds_right_0 f 0 Hf Hx); [|fold x; simpl; rewrite Rabs_pos_eq; lra]. fold x. assert (H0 : 0 <= RN (x + / 2)) by (rewrite <- (RN_F 0) by apply generic_format_0; apply RN_le; lra). rewrite Ztrunc_floor by exact H0. apply Zfloor_is. split; [exact H0|]. apply Rle_lt_trans with (/ 2); [|simpl; lra]. rewrite <- (RN_F (/ 2)) at 2 by apply F_half. apply RN_le. lra.
    + apply (rounds_right_0 f (Zfloor (x + / 2)) Hf Hx); [apply trunc_sum; [apply F_B2R|lra|exact Hne]|]. fold x. pose proof (Zfloor_lb (x + / 2)). pose proof (Zfloor_ub (x + / 2)). apply Rabs_le. lra.
  - destruct (big_sum x (F_B2R f) ltac:(apply Hr)) as [H1 [z Hz]]. apply (rounds_right_0 f z Hf Hx); [fold x; rewrite H1, Hz; apply Ztrunc_IZR|]. fold x. rewrite Hz, Rminus_diag_eq by reflexivity. rewrite Rabs_R0. lra.
Qed.
(** below -1/2 it is wrong for every number that is not a tie *)
Theorem round0_negative_refuted f : is_finite f = true -> - bpow radix2 52 < B2R f < - / 2 -> (forall z, B2R f + / 2 <> IZR z) -> ~ rounds_right f 0.
Proof.
  intros Hf Hx Hz (_ & k & Hk & HR). assert (Hb : Rabs (B2R f) <= bpow radix2 900). { assert (bpow radix2 52 <= bpow radix2 900) by (apply bpow_le; lia). apply Rabs_le. lra. }
  destruct (round0_R f Hf Hb) as [_ H2]. set (x := B2R f) in *. 
  assert (Fs : F (x + / 2)).
  { destruct (Rle_or_lt (- 1) x) as [Hs|Hs].
    - destruct (Req_dec x (-1)) as [->|Hn1]; [replace (-1 + / 2) with (IZR (-1) * bpow radix2 (-1)) by (simpl; lra); apply F_mult; lia|].
      destruct (F_dyadic x 0) as (m & Em & Hm); [lia|apply F_B2R|rewrite Rabs_left by lra; simpl; lra|]. change (0 - 53)%Z with (-53)%Z in Em.
      replace (x + / 2) with (IZR (m + 2 ^ 52) * bpow radix2 (-53)). { apply F_mult; [lia|]. assert (m < 0)%Z. { apply lt_IZR. pose proof (bpow_gt_0 radix2 (-53)). nra. } lia. }
      rewrite plus_IZR, Em. change (IZR (2 ^ 52)) with (bpow radix2 52). rewrite Rmult_plus_distr_r, <- bpow_plus. simpl (bpow radix2 (52 + -53)). lra.
    - destruct (mag radix2 x) as [e He]. specialize (He ltac:(lra)). assert (Hax : Rabs x = - x) by (apply Rabs_left; lra). assert (He1 : (1 <= e <= 52)%Z). { rewrite Hax in He. split; [assert (0 < e)%Z; [|lia]; apply (lt_bpow radix2); simpl (bpow radix2 0); lra|]. assert (e - 1 < 52)%Z; [|lia]. apply (lt_bpow radix2). lra. }
      destruct (F_dyadic x e) as (m & Em & Hm); [lia|apply F_B2R|exact He|]. 
      assert (Hh : / 2 = IZR (2 ^ (52 - e)) * bpow radix2 (e - 53)). { change (2 ^ (52 - e))%Z with (radix2 ^ (52 - e))%Z. rewrite IZR_Zpower by lia. rewrite <- bpow_plus. replace (52 - e + (e - 53))%Z with (-1)%Z by lia. simpl. lra. }
      replace (x + / 2) with (IZR (m + 2 ^ (52 - e)) * bpow radix2 (e - 53)) by (rewrite Em, Hh, plus_IZR; ring). apply F_mult; [lia|]. assert (m < 0)%Z. { apply lt_IZR. pose proof (bpow_gt_0 radix2 (e - 53)). simpl. nra. } assert (2 ^ (52 - e) <= 2 ^ 52)%Z by (apply Z.pow_le_mono_r; lia). pose proof (Z.pow_pos_nonneg 2 (52 - e)). lia. }
  rewrite (RN_F _ Fs) in H2. rewrite Ztrunc_ceil in H2 by lra. 
  (* the nearest integer is smaller *)
  assert (Hc : x + / 2 < IZR (Zceil (x + / 2))) by (destruct (Zceil_ub (x + / 2)) as [H|H]; [exact H|exfalso; now apply (Hz (Zceil (x + / 2)))]). 
  unfold nearest_multiple in Hk. fold x in Hk. simpl powerRZ in Hk, HR. rewrite Rmult_1_r in Hk. unfold Rdiv in HR. rewrite Rinv_1, Rmult_1_r in HR. rewrite RN_F in HR.
  - rewrite H2 in HR. apply Rabs_le_inv in Hk. lra.
  - apply F_IZR. apply le_IZR. rewrite abs_IZR. change (IZR (2 ^ 53)) with (bpow radix2 53). apply Rabs_le_inv in Hk. apply Rabs_le. assert (bpow radix2 53 = 2 * bpow radix2 52) as Hp by (change 2 with (bpow radix2 1); rewrite <- bpow_plus; reflexivity). assert (1 <= bpow radix2 52) by (change 1 with (bpow radix2 0); apply bpow_le; lia). lra.
Qed.

(** ** higher precisions *)
Lemma RN_rel x : bpow radix2 (-1000) <= x -> exists d, Rabs d <= bpow radix2 (-53) /\ RN x = x * (1 + d).
Proof.
  intros Hx. assert (0 < x) by (eapply Rlt_le_trans; [apply bpow_gt_0|exact Hx]). destruct (relative_error_N_FLT_ex radix2 (-1074) 53 ltac:(reflexivity) (fun x => negb (Z.even x)) x) as (d & Hd & E); [rewrite Rabs_pos_eq by lra; eapply Rle_trans; [|exact Hx]; apply bpow_le; lia|].
  exists d. split; [|exact E]. eapply Rle_trans; [exact Hd|]. right. change (/ 2) with (bpow radix2 (-1)). rewrite <- bpow_plus. reflexivity.
Qed.
(** at every precision up to 22 the result of a non-negative number is the double of a multiple of
    10^-n that is nearest up to the rounding errors of the two operations *)
Theorem round_near_partial f n : (0 <= n <= 22)%Z -> is_finite f = true -> 0 <= B2R f -> B2R f * powerRZ 10 n <= bpow radix2 100 -> let y := B2R f * powerRZ 10 n in
  is_finite (round_to f n) = true /\ exists k, Rabs (IZR k - y) <= / 2 + (y + 1) * bpow radix2 (-51) /\ B2R (round_to f n) = RN (IZR k / powerRZ 10 n).
Proof.
  intros Hn Hf Hx0 Hy0. cbv zeta. rewrite powerRZ_Z in * by lia. set (p := IZR (10 ^ n)) in *. set (x := B2R f) in *.
  assert (Hp : 1 <= p <= bpow radix2 80).
  { unfold p. split; [apply IZR_le; pose proof (Z.pow_pos_nonneg 10 n); lia|]. rewrite <- (IZR_Zpower radix2) by lia. apply IZR_le. transitivity (10 ^ 22)%Z; [apply Z.pow_le_mono_r; lia|]. vm_compute. discriminate. }
  set (y := x * p) in *. assert (Hxy : x <= y) by (unfold y; nra). 
  destruct (round_to_R f n Hn Hf) as [H1 H2]; [fold x; rewrite Rabs_pos_eq by exact Hx0; apply Rle_trans with (bpow radix2 100); [lra|apply bpow_le; lia]|]. fold p x in H2. split; [exact H1|].
  assert (Hip : bpow radix2 (-80) <= / p <= 1). { split; [change (-80)%Z with (- (80))%Z; rewrite bpow_opp; apply Rinv_le; lra|]. rewrite <- Rinv_1. apply Rinv_le; lra. } 
  assert (H81 : bpow radix2 (-81) = / 2 * bpow radix2 (-80)) by (change (/ 2) with (bpow radix2 (-1)); rewrite <- bpow_plus; reflexivity).
  assert (Hsm : bpow radix2 (-1000) <= bpow radix2 (-82)) by (apply bpow_le; lia). assert (H82 : bpow radix2 (-81) = 2 * bpow radix2 (-82)) by (change 2 with (bpow radix2 1); rewrite <- bpow_plus; reflexivity). pose proof (bpow_gt_0 radix2 (-82)) as H82p.
  destruct (RN_rel (/ 2 / p)) as (d1 & Hd1 & E1); [unfold Rdiv; lra|]. assert (Hu : bpow radix2 (-53) <= / 1024) by (change (/ 1024) with (bpow radix2 (-10)); apply bpow_le; lia). apply Rabs_le_inv in Hd1.
  destruct (RN_rel (x + RN (/ 2 / p))) as (d2 & Hd2 & E2); [rewrite E1; unfold Rdiv; nra|]. apply Rabs_le_inv in Hd2.
  assert (Hpp : p * / p = 1) by (apply Rinv_r; lra).
  assert (Es : (x + RN (/ 2 / p)) * p = y + / 2 * (1 + d1)). { rewrite E1. unfold y, Rdiv. replace ((x + / 2 * / p * (1 + d1)) * p) with (x * p + / 2 * (1 + d1) * (p * / p)) by ring. rewrite Hpp. ring. }
  set (s := y + / 2 * (1 + d1)) in *. assert (Hy : 0 <= y) by lra. assert (Hs : 0 < s) by (unfold s; lra).
  assert (Hu2 : bpow radix2 (-1000) <= / 4). { change (/ 4) with (bpow radix2 (-2)). apply bpow_le. lia. }
  destruct (RN_rel (RN (x + RN (/ 2 / p)) * p)) as (d3 & Hd3 & E3). { rewrite E2. replace ((x + RN (/ 2 / p)) * (1 + d2) * p) with (s * (1 + d2)) by (rewrite <- Es; ring). assert (/ 2 * (1 + d1) <= s) by (unfold s; lra). nra. } apply Rabs_le_inv in Hd3.
  rewrite E2 in E3. replace ((x + RN (/ 2 / p)) * (1 + d2) * p * (1 + d3)) with (s * (1 + d2) * (1 + d3)) in E3 by (rewrite <- Es; ring). rewrite <- E2 in E3.
  set (b := RN (RN (x + RN (/ 2 / p)) * p)) in *. set (u := bpow radix2 (-53)) in *. pose proof (bpow_gt_0 radix2 (-53)) as Hu0. fold u in Hu0.
  assert (H51 : bpow radix2 (-51) = 4 * u). { unfold u. change 4 with (bpow radix2 2). rewrite <- bpow_plus. reflexivity. }
  assert (Hb : Rabs (b - (y + / 2)) <= (y + 1) * (4 * u)).
  { assert (Ed : b - (y + / 2) = / 2 * d1 + s * (d2 + d3 + d2 * d3)) by (rewrite E3; unfold s; ring). rewrite Ed. assert (Hdd : - (3 * u) <= d2 + d3 + d2 * d3 <= 3 * u) by (split; nra). assert (Hsy : s <= y + 3 / 4) by (unfold s; lra). apply Rabs_le. split; nra. }
  assert (Hb0 : 0 <= b). { unfold b. rewrite <- (RN_F 0) by apply generic_format_0. apply RN_le. apply Rmult_le_pos; [|lra]. rewrite <- (RN_F 0) by apply generic_format_0. apply RN_le. rewrite E1. unfold Rdiv. nra. }
  exists (Ztrunc b). rewrite H51. split; [|exact H2]. rewrite Ztrunc_floor by exact Hb0. pose proof (Zfloor_lb b). pose proof (Zfloor_ub b). apply Rabs_le_inv in Hb. apply Rabs_le. lra.
Qed.

(** ** witnesses *)
Definition same (a b : f64) : bool := match a, b with
  | B754_finite s m e _, B754_finite s' m' e' _ => Bool.eqb s s' && (m =? m')%positive && (e =? e')%Z
  | _, _ => false end.
Lemma not_right f n m e x k : is_finite f = true -> (* the exact value and the result *)
  B2R f * powerRZ 10 n = x -> Rabs (IZR k - x) < / 2 -> B2R (round_to f n) = m -> nearest_double (IZR k / powerRZ 10 n) = e -> m <> e -> ~ rounds_right f n.
Proof.
  intros Hf Hx Hk Hm He Hne (_ & k' & Hk' & HR). unfold nearest_multiple in Hk'. rewrite Hx in Hk'. assert (k' = k) as ->. { apply Rabs_le_inv in Hk'. apply Rabs_def2 in Hk. assert (-1 < IZR k' - IZR k < 1) as [Ha Hb] by lra. rewrite <- minus_IZR in Ha, Hb. apply lt_IZR in Ha, Hb. lia. } apply Hne. now rewrite <- Hm, HR.
Qed.
(** the double below one half is rounded up; 2^52 + 1 goes to 2^52 + 2; -2 goes to -1; 0.15 goes to
    0.2 although it is below 15/100 *)
Theorem round_half_refuted : exists f, is_finite f = true /\ B2R f < / 2 /\ B2R (round_to f 0) = 1 /\ ~ rounds_right f 0.
Proof.
  exists (of_quot (2 ^ 53 - 1) (2 ^ 54)). set (f := of_quot _ _). destruct (is_dyadic_ok f (2 ^ 53 - 1) 54) as [Hf HR]; [lia|vm_compute; reflexivity|]. destruct (is_dyadic_ok (round_to f 0) 1 0) as [_ Hr]; [lia|vm_compute; reflexivity|]. change (IZR 1 / IZR (2 ^ 0)) with (1 / 1) in Hr.
  assert (Hr1 : B2R (round_to f 0) = 1) by (rewrite Hr; lra). change (2 ^ 53 - 1)%Z with 9007199254740991%Z in HR. change (2 ^ 54)%Z with 18014398509481984%Z in HR. assert (Hlt : B2R f < / 2) by (rewrite HR; lra). 
  split; [exact Hf|]. split; [exact Hlt|]. split; [exact Hr1|]. apply (not_right f 0 1 0 (B2R f) 0 Hf); [simpl; lra|rewrite HR; apply Rabs_def1; lra|exact Hr1| |lra]. simpl. unfold Rdiv. rewrite Rmult_0_l. apply RN_F, generic_format_0.
Qed.
Theorem round_odd_refuted : exists f, is_finite f = true /\ B2R f = IZR (2 ^ 52 + 1) /\ B2R (round_to f 0) = IZR (2 ^ 52 + 2) /\ ~ rounds_right f 0.
Proof.
  exists (of_Z (2 ^ 52 + 1)). set (f := of_Z _). destruct (is_dyadic_ok f (2 ^ 52 + 1) 0) as [Hf HR]; [lia|vm_compute; reflexivity|]. destruct (is_dyadic_ok (round_to f 0) (2 ^ 52 + 2) 0) as [_ Hr]; [lia|vm_compute; reflexivity|]. change (IZR (2 ^ 0)) with 1 in *. unfold Rdiv in HR, Hr. rewrite Rinv_1, Rmult_1_r in HR, Hr.
  split; [exact Hf|]. split; [exact HR|]. split; [exact Hr|]. apply (not_right f 0 (IZR (2 ^ 52 + 2)) (IZR (2 ^ 52 + 1)) (IZR (2 ^ 52 + 1)) (2 ^ 52 + 1) Hf); [simpl powerRZ; rewrite HR; lra|rewrite Rminus_diag_eq, Rabs_R0 by reflexivity; lra|exact Hr| |apply IZR_neq; lia]. simpl powerRZ. unfold Rdiv. rewrite Rinv_1, Rmult_1_r. apply RN_F, F_IZR. lia.
Qed.
Theorem round_negative_refuted : exists f, is_finite f = true /\ B2R f = -2 /\ B2R (round_to f 0) = -1 /\ ~ rounds_right f 0.
Proof.
  exists (of_Z (-2)). set (f := of_Z _). destruct (is_dyadic_ok f (-2) 0) as [Hf HR]; [lia|vm_compute; reflexivity|]. destruct (is_dyadic_ok (round_to f 0) (-1) 0) as [_ Hr]; [lia|vm_compute; reflexivity|]. change (IZR (2 ^ 0)) with 1 in *. unfold Rdiv in HR, Hr. rewrite Rinv_1, Rmult_1_r in HR, Hr.
  split; [exact Hf|]. split; [exact HR|]. split; [exact Hr|]. apply round0_negative_refuted; [exact Hf|rewrite HR; split; [|lra]|]. { assert (4 <= bpow radix2 52) by (change 4 with (bpow radix2 2); apply bpow_le; lia). lra. } intros z Hz. rewrite HR in Hz. assert (H2 : IZR (2 * z) = IZR (-3)) by (rewrite mult_IZR; lra). apply eq_IZR in H2. lia.
Qed.
Theorem round_tenth_refuted : exists f, is_finite f = true /\ B2R f < 15 / 100 /\ 15 / 100 < B2R (round_to f 1) /\ ~ rounds_right f 1.
Proof.
  exists (of_quot 15 100). set (f := of_quot _ _). destruct (is_dyadic_ok f 5404319552844595 55) as [Hf HR]; [lia|vm_compute; reflexivity|]. destruct (is_dyadic_ok (round_to f 1) 7205759403792794 55) as [_ Hr]; [lia|vm_compute; reflexivity|]. change (2 ^ 55)%Z with 36028797018963968%Z in *.
  split; [exact Hf|]. split; [rewrite HR; lra|]. split; [rewrite Hr; lra|]. apply (not_right f 1 (B2R (round_to f 1)) (nearest_double (1 / 10)) (B2R f * 10) 1 Hf); [simpl; lra|rewrite HR; apply Rabs_def1; lra|reflexivity|f_equal; simpl; lra|].
  assert (nearest_double (1 / 10) <= / 8); [|rewrite Hr; lra]. assert (HF : F (/ 8)) by (replace (/ 8) with (IZR 1 * bpow radix2 (-3)) by (simpl; lra); apply F_mult; lia). rewrite <- (RN_F (/ 8)) by exact HF. apply RN_le. lra.
Qed.
(** out of the range of powers of ten the result is not even a number *)
Theorem round_range_refuted : round_to (of_Z 1) 309 = B754_nan /\ round_to (of_Z 1) (-324) = B754_nan /\ (exists f, is_finite f = true /\ round_to f 308 = B754_infinity false).
Proof. split; [vm_compute; reflexivity|]. split; [vm_compute; reflexivity|]. exists (of_Z 10). split; vm_compute; reflexivity. Qed.
Example round_example : (forall x, x = of_quot 5 2 -> is_dyadic (round_to x 0) 3 0 = true) /\ same (round_to (of_quot 314159 100000) 2) (of_quot 314 100) = true /\ same (round_to (of_Z 12345) (-2)) (of_Z 12300) = true.
Proof. split; [intros x ->|split]; vm_compute; reflexivity. Qed.
Print Assumptions round0_partial.
Print Assumptions round0_negative_refuted.
Print Assumptions round_near_partial.
Print Assumptions round_half_refuted.
Print Assumptions round_odd_refuted.
Print Assumptions round_negative_refuted.
Print Assumptions round_tenth_refuted.
Print Assumptions round_range_refuted.
