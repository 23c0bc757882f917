(** * The numbers in FileSize *)
From Coq Require Import ZArith Reals Lra Lia Bool List.
From Flocq Require Import Core IEEE754.BinarySingleNaN.
From Verif Require Import RoundModel RoundSpec RoundProps Log2Model Log2Props BnewModel BnewReal FsizeModel FsizeSpec.
Open Scope R_scope.

Lemma ffloor_R (a : f64) : is_finite (ffloor a) = is_finite a /\ B2R (ffloor a) = IZR (Zfloor (B2R a)).
Proof.
  destruct (Bnearbyint_correct prec emax prec_emax mode_DN a) as (H1 & H2 & _). split; [exact H2|]. unfold ffloor. rewrite H1. unfold round, F2R, scaled_mantissa, cexp. simpl. unfold FIX_exp. simpl. now rewrite !Rmult_1_r.
Qed.
Lemma ln_1024 : ln 1024 = 10 * ln 2.
Proof. replace 1024 with (2 ^ 10) by lra. rewrite ln_pow by lra. simpl INR. lra. Qed.
Lemma f1024_R : is_finite (of_Z 1024) = true /\ B2R (of_Z 1024) = 1024.
Proof. destruct (of_Z_R 1024) as [H1 H2]; [discriminate|]. split; [exact H1|]. rewrite H2. apply RN_F, F_IZR. discriminate. Qed.
(** exp near 0 *)
Lemma exp_low t : 1 + t <= exp t.
Proof. destruct (Req_dec t 0) as [->|H]; [rewrite exp_0; lra|]. left. now apply exp_ineq1. Qed.
Lemma exp_high t : t < 1 -> exp t <= / (1 - t).
Proof.
  intros Ht. pose proof (exp_low (- t)) as H. rewrite exp_Ropp in H. pose proof (exp_pos t) as Hp.
  rewrite <- (Rinv_inv (exp t)). apply Rinv_le_contravar; lra.
Qed.
Lemma exp_z z : (0 <= z)%Z -> exp (IZR z * (10 * ln 2)) = IZR (1024 ^ z).
Proof.
  intros Hz. rewrite <- ln_1024. replace (IZR z * ln 1024) with (ln (IZR (1024 ^ z))); [apply exp_ln, IZR_lt, Z.pow_pos_nonneg; lia|].
  replace z with (Z.of_nat (Z.to_nat z)) by lia. rewrite <- pow_IZR. rewrite ln_pow by lra. now rewrite INR_IZR_INZ.
Qed.

Section log.
  Context (lg : f64 -> f64) (Hlg : accurate_log_up lg) (x : f64) (Hfin : is_finite x = true) (Hx : 10 <= B2R x <= 18446744073709551616).
  Let r := logn lg x (of_Z 1024).
  Let q := ln (B2R x) / (10 * ln 2).
  Lemma q_bounds : 1 / 4 <= q <= 6.4 + e.
  Proof.
    pose proof ln2_bounds as Hl. assert (Hd : 0 < 10 * ln 2) by lra. unfold q. split.
    - apply Rmult_le_reg_r with (10 * ln 2); [exact Hd|]. replace (ln (B2R x) / (10 * ln 2) * (10 * ln 2)) with (ln (B2R x)) by (field; lra).
      assert (3 * ln 2 <= ln (B2R x)); [|lra]. replace (3 * ln 2) with (ln (2 ^ 3)) by (rewrite ln_pow by lra; simpl INR; lra). left. apply ln_increasing; lra.
    - apply Rmult_le_reg_r with (10 * ln 2); [exact Hd|]. replace (ln (B2R x) / (10 * ln 2) * (10 * ln 2)) with (ln (B2R x)) by (field; lra).
      assert (ln (B2R x) <= 64 * ln 2). { replace (64 * ln 2) with (ln (2 ^ 64)) by (rewrite ln_pow by lra; rewrite INR_IZR_INZ; reflexivity). destruct (Req_dec (B2R x) (2 ^ 64)) as [->|Hne]; [lra|]. left. apply ln_increasing; lra. }
      pose proof e_pos. nra.
  Qed.
  Lemma logn_R : is_finite r = true /\ rel (B2R r) q (7 * e).
  Proof.
    pose proof ln2_bounds as Hl. pose proof e_pos as He. destruct f1024_R as [Kf KR].
    destruct (Hlg x Hfin ltac:(lra)) as [F1 A1]. destruct (Hlg (of_Z 1024) Kf ltac:(lra)) as [F0 A0]. rewrite KR, ln_1024 in A0. replace (bpow radix2 (-52)) with (2 * e) in A0, A1 by (rewrite e52_eq; unfold e52, e; lra).
    assert (Hln : 2 <= ln (B2R x)). { pose proof q_bounds as [H _]. replace (ln (B2R x)) with (q * (10 * ln 2)); [|unfold q; field; lra]. assert (3 * ln 2 <= ln (B2R x)); [replace (3 * ln 2) with (ln (2 ^ 3)) by (rewrite ln_pow by lra; simpl INR; lra); left; apply ln_increasing; lra|]. unfold q in *. replace (ln (B2R x) / (10 * ln 2) * (10 * ln 2)) with (ln (B2R x)) by (field; lra). lra. }
    rewrite (Rabs_pos_eq (ln (B2R x))) in A1 by lra. rewrite (Rabs_pos_eq (10 * ln 2)) in A0 by lra. apply Rabs_le_inv in A1, A0.
    set (l1 := B2R (lg x)) in *. set (l0 := B2R (lg (of_Z 1024))) in *. set (n1 := ln (B2R x)) in *. set (n0 := 10 * ln 2) in *.
    assert (R1 : rel l1 n1 (2 * e)) by (split; lra). assert (R0 : rel l0 n0 (2 * e)) by (split; lra).
    assert (R0' : rel (/ l0) (/ n0) (3 * e)). { eapply rel_inv; [| | | |exact R0]; try (unfold e; lra). subst n0. lra. }
    assert (Hi0 : 0 < / n0) by (apply Rinv_0_lt_compat; subst n0; lra).
    assert (Rq : rel (l1 / l0) q (5.5 * e)). { unfold q, Rdiv. eapply rel_mul; [| | | | |exact R1|exact R0']; try lra; unfold e; lra. }
    pose proof q_bounds as Hq. assert (Hlo : / 8 <= l1 / l0 <= 7). { destruct Rq as [Q1 Q2]. unfold e in *. split; nra. }
    assert (Hne : l0 <> 0). { destruct R0 as [Q1 _]. unfold e in Q1. subst n0. lra. }
    destruct (fdiv_R (lg x) (lg (of_Z 1024)) F1 Hne) as [Gf GR]. { fold l1 l0. apply huge. split; [lra|]. pose proof pow_consts. lra. }
    split; [exact Gf|]. unfold r, logn. rewrite GR. fold l1 l0. eapply rel_round; [| | | |exact Rq]; try (unfold e; lra). apply tiny. pose proof pow_consts. unfold e in *. lra.
  Qed.
  (** the exponent and what it says of [x] *)
  Lemma exponent : exists z, (0 <= z <= 6)%Z /\ ffloor r = ffloor r /\ is_finite (ffloor r) = true /\ B2R (ffloor r) = IZR z /\
    IZR (1024 ^ z) * (1 - 300 * e) <= B2R x <= IZR (1024 ^ (z + 1)) * (1 + 400 * e).
  Proof.
    destruct logn_R as [Rf RR]. destruct (ffloor_R r) as [G1 G2]. exists (Zfloor (B2R r)). set (z := Zfloor (B2R r)) in *.
    pose proof (Zfloor_lb (B2R r)) as Hlb. pose proof (Zfloor_ub (B2R r)) as Hub. fold z in Hlb, Hub. pose proof q_bounds as Hq. pose proof e_pos as He. destruct RR as [R1 R2].
    assert (Hz : (0 <= z <= 6)%Z). { unfold e in *. assert (-1 < z < 7)%Z; [|lia]. split; apply lt_IZR; lra. }
    split; [exact Hz|]. split; [reflexivity|]. split; [now rewrite G1|]. split; [exact G2|].
    assert (Hz' : 0 <= IZR z <= 6) by (split; apply IZR_le; lia). pose proof ln2_bounds as Hl.
    assert (Ex : B2R x = exp (q * (10 * ln 2))). { unfold q. replace (ln (B2R x) / (10 * ln 2) * (10 * ln 2)) with (ln (B2R x)) by (field; lra). now rewrite exp_ln by lra. }
    split.
    - assert (Hq2 : IZR z - 42 * e <= q) by (unfold e in *; nra).
      assert (exp (IZR z * (10 * ln 2) + - (300 * e)) <= B2R x). { rewrite Ex. destruct (Req_dec (IZR z * (10 * ln 2) + - (300 * e)) (q * (10 * ln 2))) as [->|Hne]; [lra|]. left. apply exp_increasing. assert (IZR z * (10 * ln 2) + - (300 * e) <= q * (10 * ln 2)); [|lra]. assert ((IZR z - 42 * e) * (10 * ln 2) <= q * (10 * ln 2)) by (apply Rmult_le_compat_r; lra). assert (42 * e * (10 * ln 2) <= 300 * e) by nra. lra. }
      rewrite exp_plus, exp_z in H by lia. pose proof (exp_low (- (300 * e))). assert (0 < IZR (1024 ^ z)) by (apply IZR_lt, Z.pow_pos_nonneg; lia). nra.
    - assert (Hq2 : q <= IZR (z + 1) + 55 * e) by (rewrite plus_IZR; unfold e in *; nra).
      assert (B2R x <= exp (IZR (z + 1) * (10 * ln 2) + 390 * e)). { rewrite Ex. destruct (Req_dec (IZR (z + 1) * (10 * ln 2) + 390 * e) (q * (10 * ln 2))) as [->|Hne]; [lra|]. left. apply exp_increasing. assert (q * (10 * ln 2) <= IZR (z + 1) * (10 * ln 2) + 390 * e); [|lra]. assert (q * (10 * ln 2) <= (IZR (z + 1) + 55 * e) * (10 * ln 2)) by (apply Rmult_le_compat_r; lra). assert (55 * e * (10 * ln 2) <= 390 * e) by nra. lra. }
      rewrite exp_plus, exp_z in H by lia. pose proof (exp_high (390 * e) ltac:(unfold e; lra)). assert (/ (1 - 390 * e) <= 1 + 400 * e). { apply Rmult_le_reg_r with (1 - 390 * e); [unfold e; lra|]. rewrite Rinv_l by (unfold e; lra). unfold e. lra. }
      assert (0 < IZR (1024 ^ (z + 1))) by (apply IZR_lt, Z.pow_pos_nonneg; lia). nra.
  Qed.
End log.

(** Pow is exact here *)
Lemma fpow_check : forallb (fun n => is_dyadic (fpow (of_Z 1024) (of_Z (Z.of_nat n))) (1024 ^ Z.of_nat n) 0) (seq 0 7) = true.
Proof. vm_compute. reflexivity. Qed.
Lemma fpow_trunc x y y' : Btrunc y = Btrunc y' -> fpow x y = fpow x y'.
Proof. intros E. unfold fpow. now rewrite E. Qed.
Lemma fpow_R y z : (0 <= z <= 6)%Z -> B2R y = IZR z -> B2R (fpow (of_Z 1024) y) = IZR (1024 ^ z).
Proof.
  intros Hz Hy. destruct (of_Z_R z) as [Z1 Z2]; [lia|]. rewrite (fpow_trunc _ y (of_Z z)).
  - pose proof fpow_check as H. rewrite forallb_forall in H. specialize (H (Z.to_nat z)). rewrite Z2Nat.id in H by lia. destruct (is_dyadic_ok (fpow (of_Z 1024) (of_Z z)) (1024 ^ z) 0) as [_ H2]; [lia|apply H; apply in_seq; lia|]. rewrite H2. change (2 ^ 0)%Z with 1%Z. lra.
  - rewrite !Btrunc_Z, Hy, Z2, RN_F by (apply F_IZR; lia). reflexivity.
Qed.
(** and the division by it *)
Lemma p1024 z : (0 <= z)%Z -> IZR (1024 ^ z) = bpow radix2 (10 * z).
Proof. intros Hz. rewrite (IZR_Zpower radix2 (10 * z)) || idtac. change 1024%Z with (2 ^ 10)%Z. rewrite <- Z.pow_mul_r by lia. rewrite <- IZR_Zpower by lia. reflexivity. Qed.
Lemma F_div x z : (0 <= z <= 6)%Z -> F x -> 10 <= x <= 18446744073709551616 -> F (x / IZR (1024 ^ z)).
Proof.
  intros Hz HF Hx. rewrite p1024 by lia. unfold Rdiv. rewrite <- bpow_opp. destruct (mag radix2 x) as [k Hk]. specialize (Hk ltac:(lra)). assert (Hk1 : (3 < k)%Z). { apply (lt_bpow radix2). apply Rle_lt_trans with (Rabs x); [|apply Hk]. change (bpow radix2 3) with 8. rewrite Rabs_pos_eq by lra. lra. }
  destruct (F_dyadic x k ltac:(lia) HF Hk) as (m & -> & Hm). rewrite Rmult_assoc, <- bpow_plus. apply F_mult; lia.
Qed.
Lemma val_R x y z : is_finite x = true -> 10 <= B2R x <= 18446744073709551616 -> (0 <= z <= 6)%Z -> B2R y = IZR z ->
  let v := fdiv x (fpow (of_Z 1024) y) in is_finite v = true /\ B2R v = B2R x / IZR (1024 ^ z).
Proof.
  intros Hf Hx Hz Hy. cbv zeta. pose proof (fpow_R y z Hz Hy) as HP. assert (H1 : 1 <= IZR (1024 ^ z)) by (apply (IZR_le 1); pose proof (Z.pow_pos_nonneg 1024 z); lia).
  destruct (fdiv_R x (fpow (of_Z 1024) y) Hf) as [G1 G2]; rewrite HP in *; [lra| |].
  - apply huge. assert (0 < / IZR (1024 ^ z) <= 1). { split; [apply Rinv_0_lt_compat; lra|]. rewrite <- Rinv_1. apply Rinv_le_contravar; lra. } unfold Rdiv. split; [nra|]. pose proof pow_consts. nra.
  - split; [exact G1|]. rewrite G2. apply RN_F, F_div; [lia|apply F_B2R|exact Hx].
Qed.
