(** * Log2 for integers *)
From Coq Require Import ZArith Reals Lra Lia Bool List.
From Flocq Require Import Core Relative IEEE754.BinarySingleNaN.
From Verif Require Import RoundModel RoundSpec RoundProps Log2Model Log2Spec.
Open Scope R_scope.

(** ** The logarithm of two *)
Fixpoint exp_num (m d : Z) (n : nat) : Z := match n with O => 1 | S k => exp_num m d k * Z.of_nat n * d + m ^ Z.of_nat n end%Z.
Fixpoint exp_den (d : Z) (n : nat) : Z := match n with O => 1 | S k => exp_den d k * Z.of_nat n * d end%Z.
Lemma exp_den_eq d n : IZR (exp_den d n) = INR (fact n) * IZR d ^ n.
Proof.
  induction n as [|n IH]; [simpl; lra|]. cbn [exp_den]. rewrite !mult_IZR, IH, <- INR_IZR_INZ. change (fact (S n)) with (S n * fact n)%nat. rewrite mult_INR. simpl pow. ring.
Qed.
Lemma exp_num_eq m d n : IZR d <> 0 -> sum_f_R0 (fun i => / INR (fact i) * (IZR m / IZR d) ^ i) n * IZR (exp_den d n) = IZR (exp_num m d n).
Proof.
  intros Hd. induction n as [|n IH]; [simpl; lra|]. rewrite tech5, Rmult_plus_distr_r. rewrite exp_den_eq at 2. cbn [exp_num exp_den]. rewrite plus_IZR, !mult_IZR, <- IH. rewrite <- !mult_IZR. rewrite <- pow_IZR. f_equal; [rewrite !mult_IZR; ring|].
  unfold Rdiv. rewrite Rpow_mult_distr, pow_inv. field. split; [now apply pow_nonzero|apply INR_fact_neq_0].
Qed.
Lemma exp_lower m d n : (0 < d)%Z -> (0 <= m)%Z -> (2 * exp_den d n <= exp_num m d n)%Z -> 2 <= exp (IZR m / IZR d).
Proof.
  intros Hd Hm H. assert (Hd' : 0 < IZR d) by (now apply IZR_lt). assert (Hm' : 0 <= IZR m / IZR d). { apply Rmult_le_pos; [now apply IZR_le|]. left. now apply Rinv_0_lt_compat. }
  apply Rle_trans with (sum_f_R0 (fun i => / INR (fact i) * (IZR m / IZR d) ^ i) n).
  - assert (Hden : 0 < IZR (exp_den d n)). { rewrite exp_den_eq. apply Rmult_lt_0_compat; [apply INR_fact_lt_0|now apply pow_lt]. }
    apply Rmult_le_reg_r with (IZR (exp_den d n)); [exact Hden|]. rewrite exp_num_eq by lra. rewrite <- mult_IZR. now apply IZR_le.
  - apply (sum_incr (fun i => / INR (fact i) * (IZR m / IZR d) ^ i)); [|intros i; apply Rmult_le_pos; [left; apply Rinv_0_lt_compat, INR_fact_lt_0|now apply pow_le]].
    unfold exp. destruct (exist_exp (IZR m / IZR d)) as [l Hl]. simpl. exact Hl.
Qed.
Definition c_num : Z := 6497320848556798.
Lemma inv_ln2_R : is_finite inv_ln2 = true /\ B2R inv_ln2 = IZR c_num / IZR (2 ^ 52).
Proof. apply is_dyadic_ok; [lia|]. vm_compute. reflexivity. Qed.
Lemma ln2_upper : IZR c_num / IZR (2 ^ 52) * ln 2 <= 1 + bpow radix2 (-52).
Proof.
  assert (H : 2 <= exp (IZR (2 ^ 52 + 1) / IZR c_num)). { apply (exp_lower _ _ 24); [reflexivity|discriminate|]. apply Z.leb_le. vm_compute. reflexivity. }
  assert (HL : ln 2 <= IZR (2 ^ 52 + 1) / IZR c_num). { rewrite <- (ln_exp (_ / _)). destruct H as [H|H]; [left; apply ln_increasing; lra|right; now rewrite <- H]. }
  change (bpow radix2 (-52)) with (/ IZR (2 ^ 52)). assert (Hc : 0 < IZR c_num) by (apply IZR_lt; reflexivity). assert (H52 : 0 < IZR (2 ^ 52)) by (apply IZR_lt; reflexivity). rewrite plus_IZR in HL.
  apply Rle_trans with (IZR c_num / IZR (2 ^ 52) * ((IZR (2 ^ 52) + 1) / IZR c_num)).
  - apply Rmult_le_compat_l; [|exact HL]. apply Rmult_le_pos; [lra|]. left. now apply Rinv_0_lt_compat.
  - right. field. lra.
Qed.
(** ** The product *)
Notation c := (B2R inv_ln2).
Definition e52 : R := / 4503599627370496.
Definition e48 : R := / 281474976710656.
Lemma e52_eq : bpow radix2 (-52) = e52.
Proof. reflexivity. Qed.
Lemma c_bounds : 144 / 100 <= c <= 145 / 100.
Proof. destruct inv_ln2_R as [_ ->]. unfold c_num. change (2 ^ 52)%Z with 4503599627370496%Z. lra. Qed.
Lemma c_ln2 : c * ln 2 <= 1 + e52.
Proof. destruct inv_ln2_R as [_ ->]. rewrite <- e52_eq. exact ln2_upper. Qed.
Lemma ln_le x : 0 < x -> ln x <= x - 1.
Proof. intros Hx. pose proof (exp_ineq1_le (ln x)) as H. rewrite exp_ln in H by exact Hx. lra. Qed.
Lemma ln_ge x : 0 < x -> 1 - / x <= ln x.
Proof. intros Hx. pose proof (ln_le (/ x) (Rinv_0_lt_compat x Hx)) as H. rewrite ln_Rinv in H by exact Hx. lra. Qed.
Section product.
Context (f L : R) (Hf : / 2 < f < 1) (HL : Rabs (L - ln f) <= e52 * Rabs (ln f)).
Lemma ln_f_neg : ln f < 0.
Proof. pose proof (ln_le f ltac:(lra)). lra. Qed.
Lemma L_bounds : - ln f * (1 - e52) <= - L <= - ln f * (1 + e52).
Proof. pose proof ln_f_neg as H. rewrite (Rabs_left (ln f)) in HL by exact H. apply Rabs_le_inv in HL. lra. Qed.
Lemma ln_double : - ln f = ln 2 - ln (2 * f).
Proof. rewrite ln_mult by lra. lra. Qed.
Lemma prod_neg : L * c <= 0.
Proof. pose proof ln_f_neg. pose proof L_bounds. pose proof c_bounds. unfold e52 in *. assert (0 <= - L) by nra. nra. Qed.
Lemma prod_upper : f <= 1 - e48 -> L * c <= - (11 / 8 * e48).
Proof.
  intros Hfe. pose proof (ln_le f ltac:(lra)) as H1. pose proof L_bounds as [H2 _]. pose proof c_bounds as H3. assert (H4 : 99 / 100 * e48 <= - L). { unfold e48, e52 in *. nra. }
  assert (H5 : 99 / 100 * e48 * (144 / 100) <= - L * c). { apply Rmult_le_compat; try lra. unfold e48. lra. } unfold e48 in *. lra.
Qed.
Lemma prod_lower_any : - (1 + 4 * e52) <= L * c.
Proof.
  pose proof L_bounds as [_ H2]. pose proof c_bounds as H3. pose proof c_ln2 as H4. assert (H0 : 0 <= ln (2 * f)). { pose proof (ln_ge (2 * f) ltac:(lra)) as H. assert (/ (2 * f) <= / 1) by (apply Rinv_le_contravar; lra). rewrite Rinv_1 in *. lra. }
  rewrite ln_double in H2. assert (H5 : - L * c <= (ln 2 - ln (2 * f)) * (1 + e52) * c) by (apply Rmult_le_compat_r; lra). assert (H6 : 0 <= ln (2 * f) * c) by (apply Rmult_le_pos; lra). assert (H7 : (ln 2 - ln (2 * f)) * c <= 1 + e52) by lra.
  assert (H8 : (ln 2 - ln (2 * f)) * c * (1 + e52) <= (1 + e52) * (1 + e52)) by (apply Rmult_le_compat_r; [unfold e52; lra|exact H7]). assert (H9 : (1 + e52) * (1 + e52) <= 1 + 4 * e52) by (unfold e52; lra). lra.
Qed.
Lemma prod_lower : / 2 + e48 / 2 <= f -> -1 <= L * c.
Proof.
  intros Hfe. pose proof L_bounds as [_ H2]. pose proof c_bounds as H3. pose proof c_ln2 as H4. assert (H0 : e48 / 2 <= ln (2 * f)).
  { pose proof (ln_ge (2 * f) ltac:(lra)) as H. assert (Hi : / (2 * f) <= 1 - e48 / 2); [|lra]. apply Rmult_le_reg_l with (2 * f); [lra|]. rewrite Rinv_r by lra. unfold e48 in *. nra. }
  rewrite ln_double in H2. assert (H5 : - L * c <= (ln 2 - ln (2 * f)) * (1 + e52) * c) by (apply Rmult_le_compat_r; lra). assert (H6 : e48 / 2 * (144 / 100) <= ln (2 * f) * c) by (apply Rmult_le_compat; unfold e48 in *; lra). assert (H7 : (ln 2 - ln (2 * f)) * c <= 1 + e52 - 72 / 100 * e48) by lra.
  assert (H8 : (ln 2 - ln (2 * f)) * c * (1 + e52) <= (1 + e52 - 72 / 100 * e48) * (1 + e52)) by (apply Rmult_le_compat_r; [unfold e52; lra|exact H7]). assert (H9 : (1 + e52 - 72 / 100 * e48) * (1 + e52) <= 1) by (unfold e52, e48; lra). lra.
Qed.
Lemma prod_small : 1 - e48 / 2 <= f -> - (3 / 4 * e48) <= L * c.
Proof.
  intros Ef. pose proof L_bounds as [_ H2]. pose proof c_bounds as H3. pose proof (ln_ge f ltac:(lra)) as H1. assert (Hi : / f <= 1 + 101 / 200 * e48). { apply Rmult_le_reg_l with f; [lra|]. rewrite Rinv_r by lra. unfold e48 in *. lra. }
  assert (H4 : - ln f <= 101 / 200 * e48) by lra. assert (H5 : - L <= 102 / 200 * e48). { apply Rle_trans with (1 := H2). unfold e52, e48 in *. nra. }
  assert (H6 : - L * c <= 102 / 200 * e48 * c) by (apply Rmult_le_compat_r; lra). unfold e48 in *. lra.
Qed.
End product.

(** ** The sum *)
Lemma RN_nearest x g : F g -> Rabs (RN x - x) <= Rabs (g - x).
Proof. intros Hg. destruct (round_N_pt radix2 fexp (fun t => negb (Z.even t)) x) as [_ H]. now apply H. Qed.
Lemma e48_eq : e48 = bpow radix2 (-48).
Proof. reflexivity. Qed.
Lemma F_k47 m : (Z.abs m <= 2 ^ 53)%Z -> F (IZR m * (2 * e48)).
Proof. intros H. replace (2 * e48) with (bpow radix2 (-47)) by (rewrite e48_eq; simpl; lra). now apply F_mult. Qed.
Lemma sum_below p k : (1 <= k <= 64)%Z -> p <= - (11 / 8 * e48) -> RN (p + IZR k) < IZR k.
Proof.
  intros Hk Hp. apply Rle_lt_trans with (RN (IZR k - 11 / 8 * e48)); [apply RN_le; lra|]. set (x0 := IZR k - 11 / 8 * e48). assert (Hg : F (IZR k - 2 * e48)). { replace (IZR k - 2 * e48) with (IZR (k * 2 ^ 47 - 1) * (2 * e48)); [apply F_k47; lia|]. rewrite minus_IZR, mult_IZR. change (IZR (2 ^ 47)) with 140737488355328. unfold e48. lra. }
  pose proof (RN_nearest x0 _ Hg) as H. destruct (Rlt_le_dec (RN x0) (IZR k)) as [|Hz]; [assumption|exfalso]. revert H. unfold x0 in *. rewrite Rabs_right by (unfold e48 in *; lra). rewrite Rabs_left by (unfold e48; lra). unfold e48 in *. lra.
Qed.
Lemma sum_near t n : (49 <= n <= 64)%Z -> 0 <= t <= 3 / 4 * e48 -> RN (IZR n - t) = IZR n.
Proof.
  intros Hn Ht. assert (HF : F (IZR n)) by (apply F_IZR; lia). pose proof (RN_nearest (IZR n - t) _ HF) as H. replace (IZR n - (IZR n - t)) with t in H by ring. rewrite (Rabs_right t) in H by lra. apply Rabs_le_inv in H. set (z := RN (IZR n - t)) in *.
  assert (Hz : z <= IZR n) by (unfold z; apply Rle_trans with (RN (IZR n)); [apply RN_le; lra|rewrite (RN_F _ HF); lra]). assert (Hn1 : 49 <= IZR n <= 64) by (split; apply IZR_le; lia).
  destruct (Req_dec z 64) as [E64|N64]. { assert (64 <= n)%Z by (apply le_IZR; lra). assert (n = 64)%Z as -> by lia. exact E64. }
  destruct (F_dyadic z 6) as (m & Em & _); [lia|apply F_RN|rewrite Rabs_right by (unfold e48 in *; lra); simpl; unfold e48 in *; lra|]. change (bpow radix2 (6 - 53)) with (/ 140737488355328) in Em.
  assert (Hm : (m = n * 140737488355328)%Z). { apply Z.le_antisymm; [apply le_IZR; rewrite mult_IZR; lra|]. apply Zlt_succ_le. unfold Z.succ. apply lt_IZR. rewrite plus_IZR, mult_IZR. unfold e48 in *. lra. }
  rewrite Em, Hm, mult_IZR. lra.
Qed.

(** ** On doubles *)
Lemma of_Z_R z : (Z.abs z <= 2 ^ 64)%Z -> is_finite (of_Z z) = true /\ B2R (of_Z z) = RN (IZR z).
Proof.
  intros Hz. pose proof (binary_normalize_correct prec emax prec_pos prec_emax mode_NE z 0 false) as H. cbv zeta in H. replace (F2R (Float radix2 z 0)) with (IZR z) in H by (unfold F2R; simpl; lra).
  change (round radix2 (SpecFloat.fexp prec emax) (round_mode mode_NE) (IZR z)) with (RN (IZR z)) in H. rewrite Rlt_bool_true in H; [destruct H as (H1 & H2 & _); split; [exact H2|exact H1]|].
  apply Rle_lt_trans with (bpow radix2 64); [|now apply bpow_lt]. apply abs_round_le_generic; [auto with typeclass_instances..| |].
  - apply generic_format_bpow. unfold FLT_exp. lia.
  - rewrite <- abs_IZR. change (bpow radix2 64) with (IZR (2 ^ 64)). now apply IZR_le.
Qed.
Lemma Btrunc_Z (x : f64) : Btrunc x = Ztrunc (B2R x).
Proof. apply eq_IZR. rewrite (Btrunc_correct prec emax prec_emax x). unfold round, scaled_mantissa, F2R, cexp, FIX_exp. simpl. now rewrite !Rmult_1_r. Qed.
Lemma small_bpow x : Rabs x <= 128 -> Rabs x <= bpow radix2 1000.
Proof. intros H. apply Rle_trans with (bpow radix2 7); [simpl; lra|now apply bpow_le]. Qed.
Lemma log2_float_R lg x k : accurate_log lg -> is_finite x = true -> (1 <= k <= 65)%Z -> bpow radix2 (k - 1) <= B2R x < bpow radix2 k ->
  let f := B2R x * bpow radix2 (- k) in
  (f = / 2 /\ B2R (log2_float lg x) = IZR (k - 1)) \/ (/ 2 < f < 1 /\ exists L, Rabs (L - ln f) <= e52 * Rabs (ln f) /\ B2R (log2_float lg x) = RN (RN (L * c) + IZR k)).
Proof.
  intros Hlg Hx Hk Hy f. pose proof (bpow_gt_0 radix2 (k - 1)) as Hpos. assert (Hs : is_finite_strict x = true) by (destruct x as [s|s| |s m e H]; try discriminate; [simpl in Hy; lra|reflexivity]).
  pose proof (Bfrexp_correct prec emax prec_pos x Hs) as HB. unfold log2_float. destruct (Bfrexp x) as [fr e] eqn:Ef. destruct HB as [HB1 HB2]. destruct (HB2 ltac:(reflexivity)) as [HB3 HB4].
  assert (Hmag : mag radix2 (B2R x) = k :> Z). { apply mag_unique. rewrite Rabs_pos_eq by lra. exact Hy. } rewrite Hmag in HB4. subst e.
  assert (Hfr : B2R fr = f). { unfold f. rewrite HB1, Rmult_assoc, <- bpow_plus. replace (k + - k)%Z with 0%Z by lia. simpl. ring. }
  assert (Hff : is_finite fr = true). { destruct fr as [s|s| |s m e0 H0]; try reflexivity; simpl in HB3; rewrite Rabs_R0 in HB3; lra. }
  assert (Hf0 : 0 < f) by (unfold f; apply Rmult_lt_0_compat; [lra|apply bpow_gt_0]). rewrite Hfr, Rabs_pos_eq in HB3 by lra. destruct half_R as [Hh1 Hh2].
  rewrite (Beqb_correct prec emax fr half Hff Hh1), Hh2, Hfr. destruct (Req_bool_spec f (/ 2)) as [Eh|Eh].
  - left. split; [exact Eh|]. destruct (of_Z_R (k - 1)) as [_ ->]; [lia|]. apply RN_F, F_IZR. lia.
  - right. assert (Hf : / 2 < f < 1) by lra. split; [exact Hf|]. destruct (Hlg fr Hff ltac:(rewrite Hfr; exact Hf)) as [Hl1 Hl2]. rewrite Hfr, e52_eq in Hl2. exists (B2R (lg fr)). split; [exact Hl2|].
    pose proof (prod_neg f _ Hf Hl2) as P1. pose proof (prod_lower_any f _ Hf Hl2) as P2. destruct inv_ln2_R as [Hc1 _].
    destruct (fmul_R (lg fr) inv_ln2 Hl1 Hc1) as [HM2 HM1]; [apply small_bpow, Rabs_le; unfold e52 in *; lra|].
    destruct (of_Z_R k) as [Hk1 Hk2]; [lia|]. rewrite (RN_F (IZR k)) in Hk2 by (apply F_IZR; lia). assert (Hkr : 1 <= IZR k <= 65) by (split; apply IZR_le; lia).
    assert (HRN : -2 <= RN (B2R (lg fr) * c) <= 0). { split; [rewrite <- (RN_F (-2)) by (apply (F_IZR (-2)); lia); apply RN_le; unfold e52 in *; lra|]. rewrite <- (RN_F 0) by (apply (F_IZR 0); lia). now apply RN_le. }
    destruct (fadd_R (fmul (lg fr) inv_ln2) (of_Z k) HM2 Hk1) as [_ HP]; rewrite HM1, Hk2 in *; [apply small_bpow, Rabs_le; lra|exact HP].
Qed.

(** ** The theorems *)
Lemma RN_Z_between a l : (0 <= l <= 1000)%Z -> (2 ^ l <= a < 2 ^ (l + 1))%Z -> bpow radix2 l <= RN (IZR a) <= bpow radix2 (l + 1).
Proof.
  intros Hl Ha. rewrite <- (RN_F (bpow radix2 l)), <- (RN_F (bpow radix2 (l + 1))) by (apply generic_format_FLT_bpow; [reflexivity|lia]). split; apply RN_le; rewrite <- IZR_Zpower by lia; apply IZR_le; simpl radix_val; lia.
Qed.
Lemma RN_le_F x y : F y -> x <= y -> RN x <= y.
Proof. intros Hy H. rewrite <- (RN_F y Hy). now apply RN_le. Qed.
Lemma RN_ge_F x y : F y -> y <= x -> y <= RN x.
Proof. intros Hy H. rewrite <- (RN_F y Hy). now apply RN_le. Qed.
Lemma F_11 : F (- (11 / 8 * e48)).
Proof. replace (- (11 / 8 * e48)) with (IZR (- 11) * bpow radix2 (-51)) by (rewrite e48_eq; simpl; lra). apply F_mult; lia. Qed.
Lemma F_3 : F (- (3 / 4 * e48)).
Proof. replace (- (3 / 4 * e48)) with (IZR (- 3) * bpow radix2 (-50)) by (rewrite e48_eq; simpl; lra). apply F_mult; lia. Qed.
Lemma F_low : F (- (1 + 4 * e52)).
Proof. replace (- (1 + 4 * e52)) with (IZR (- (2 ^ 50 + 1)) * bpow radix2 (-50)) by (rewrite <- e52_eq; simpl; lra). apply F_mult; lia. Qed.
Lemma Ztrunc_between r n : (0 <= n)%Z -> IZR n <= r < IZR (n + 1) -> Ztrunc r = n.
Proof. intros Hn H. rewrite Ztrunc_floor by (apply Rle_trans with (IZR n); [now apply IZR_le|lra]). apply Zfloor_imp. lra. Qed.
Lemma bpow_frac y k : (0 <= k)%Z -> bpow radix2 k * (y * bpow radix2 (- k)) = y.
Proof. intros Hk. rewrite (Rmult_comm y), <- Rmult_assoc, <- bpow_plus. replace (k + - k)%Z with 0%Z by lia. simpl. ring. Qed.

(** what comes out, before the truncation *)
Lemma log2_int_cases lg a l : accurate_log lg -> (0 <= l <= 63)%Z -> is_log2 a l ->
  (RN (IZR a) = bpow radix2 l /\ log2_int lg a = l) \/ (RN (IZR a) = bpow radix2 (l + 1) /\ log2_int lg a = (l + 1)%Z) \/
  (let f := RN (IZR a) * bpow radix2 (- (l + 1)) in / 2 < f < 1 /\ exists L, Rabs (L - ln f) <= e52 * Rabs (ln f) /\ log2_int lg a = Ztrunc (RN (RN (L * c) + IZR (l + 1)))).
Proof.
  intros Hlg Hl [_ Ha]. pose proof (RN_Z_between a l ltac:(lia) Ha) as [H1 H2]. assert (Ha64 : (a < 2 ^ 64)%Z). { apply Z.lt_le_trans with (1 := proj2 Ha). apply Z.pow_le_mono_r; lia. }
  assert (Ha0 : (0 < a)%Z). { apply Z.lt_le_trans with (2 := proj1 Ha). apply Z.pow_pos_nonneg; lia. } destruct (of_Z_R a) as [Hf Hx]; [lia|]. unfold log2_int. rewrite Btrunc_Z. destruct H2 as [H2|H2].
  - destruct (log2_float_R lg (of_Z a) (l + 1) Hlg Hf ltac:(lia)) as [[Hh ->]|(Hff & L & HL & ->)]; [rewrite Hx; replace (l + 1 - 1)%Z with l by lia; now split| |].
    + left. rewrite Ztrunc_IZR. split; [|lia]. rewrite Hx in Hh. pose proof (bpow_frac (RN (IZR a)) (l + 1) ltac:(lia)) as Hb. rewrite Hh in Hb. rewrite <- Hb, bpow_plus. simpl (bpow radix2 1). lra.
    + right. right. rewrite Hx in *. split; [exact Hff|]. exists L. now split.
  - destruct (log2_float_R lg (of_Z a) (l + 2) Hlg Hf ltac:(lia)) as [[_ ->]|(Hff & _)]; [rewrite Hx, H2; replace (l + 2 - 1)%Z with (l + 1)%Z by lia; split; [lra|apply bpow_lt; lia]| |].
    + right. left. split; [exact H2|]. rewrite Ztrunc_IZR. lia.
    + exfalso. rewrite Hx, H2 in Hff. rewrite <- bpow_plus in Hff. replace (l + 1 + - (l + 2))%Z with (-1)%Z in Hff by lia. simpl in Hff. lra.
Qed.
Lemma RN_small a l : (0 <= l <= 48)%Z -> is_log2 a l -> RN (IZR a) = IZR a.
Proof.
  intros Hl [_ Ha]. apply RN_F, F_IZR. assert (0 < 2 ^ l)%Z by (apply Z.pow_pos_nonneg; lia). assert (2 ^ (l + 1) <= 2 ^ 49)%Z by (apply Z.pow_le_mono_r; lia). lia.
Qed.
(** never below the integer part, and at most one above *)
Lemma sum_low f L l : (0 <= l <= 63)%Z -> / 2 < f < 1 -> Rabs (L - ln f) <= e52 * Rabs (ln f) -> ((l <= 48)%Z -> / 2 + e48 / 2 <= f) -> IZR l <= RN (RN (L * c) + IZR (l + 1)) <= IZR (l + 1).
Proof.
  intros Hl Hf HL Hs. rewrite plus_IZR. pose proof (prod_neg f L Hf HL) as P1. pose proof (prod_lower_any f L Hf HL) as P2. assert (Q1 : RN (L * c) <= 0) by (apply RN_le_F; [apply (F_IZR 0); lia|exact P1]).
  split; [|rewrite <- plus_IZR; apply RN_le_F; [apply F_IZR; lia|rewrite plus_IZR; lra]]. destruct (Z_le_gt_dec l 48) as [H48|H48].
  - pose proof (prod_lower f L Hf HL (Hs H48)) as P3. assert (Q2 : -1 <= RN (L * c)) by (apply RN_ge_F; [apply (F_IZR (-1)); lia|exact P3]). apply RN_ge_F; [apply F_IZR; lia|lra].
  - assert (Q2 : - (1 + 4 * e52) <= RN (L * c)) by (apply RN_ge_F; [apply F_low|exact P2]). rewrite <- (sum_near (e48 / 4) l) at 1 by (first [lia|unfold e48; lra]). apply RN_le. unfold e48, e52 in *. lra.
Qed.
Lemma frac_low a l : (0 <= l <= 48)%Z -> is_log2 a l -> / 2 < IZR a * bpow radix2 (- (l + 1)) -> / 2 + e48 / 2 <= IZR a * bpow radix2 (- (l + 1)).
Proof.
  intros Hl [_ Ha] H. pose proof (bpow_frac (IZR a) (l + 1) ltac:(lia)) as Hb. set (f := IZR a * bpow radix2 (- (l + 1))) in *. assert (Hp : bpow radix2 (l + 1) = 2 * IZR (2 ^ l)). { rewrite Z.add_comm, bpow_plus, <- (IZR_Zpower radix2 l) by lia. simpl. lra. }
  assert (H0 : (1 <= 2 ^ l <= 2 ^ 48)%Z) by (split; [apply (Z.pow_le_mono_r 2 0 l); lia|apply Z.pow_le_mono_r; lia]). change (2 ^ 48)%Z with 281474976710656%Z in H0. destruct H0 as [H0 H0']. apply IZR_le in H0. apply IZR_le in H0'. rewrite Hp in Hb.
  assert (Hlt : (2 ^ l < a)%Z). { apply lt_IZR. nra. } assert (Hle : IZR (2 ^ l) + 1 <= IZR a) by (rewrite <- plus_IZR; apply IZR_le; lia). unfold e48. nra.
Qed.
Theorem log2_int_near lg a l : accurate_log lg -> (0 <= l <= 63)%Z -> is_log2 a l -> (l <= log2_int lg a <= l + 1)%Z.
Proof.
  intros Hlg Hl Ha. destruct (log2_int_cases lg a l Hlg Hl Ha) as [[_ ->]|[[_ ->]|(Hf & L & HL & ->)]]; [lia|lia|]. destruct (sum_low _ L l Hl Hf HL) as [S1 S2].
  { intros H48. rewrite (RN_small a l) in * by (first [lia|exact Ha]). apply frac_low; [lia|exact Ha|apply Hf]. }
  rewrite Ztrunc_floor by (apply Rle_trans with (IZR l); [apply IZR_le; lia|exact S1]). split; [apply Zfloor_lub, S1|]. apply Z.lt_succ_r. apply lt_IZR. apply Rle_lt_trans with (1 := Zfloor_lb _). unfold Z.succ. rewrite (plus_IZR (l + 1) 1). lra.
Qed.
(** exact unless the argument is within a part in 2^48 below the next power of two *)
Theorem log2_int_exact lg a l : accurate_log lg -> (0 <= l <= 63)%Z -> is_log2 a l -> (2 ^ 48 * a <= 2 ^ (l + 1) * (2 ^ 48 - 1))%Z -> log2_int lg a = l.
Proof.
  intros Hlg Hl Ha H48. assert (HR : RN (IZR a) <= bpow radix2 (l + 1) * (1 - e48)).
  { replace (bpow radix2 (l + 1) * (1 - e48)) with (IZR (2 ^ 48 - 1) * bpow radix2 (l + 1 - 48)) by (unfold Z.sub at 2; rewrite bpow_plus; change (-48)%Z with (- (48))%Z; change (bpow radix2 (- (48))) with e48; change (IZR (2 ^ 48 - 1)) with 281474976710655; unfold e48; field).
    apply RN_le_F; [apply F_mult; lia|]. apply IZR_le in H48. rewrite !mult_IZR in H48. change (2 ^ (l + 1))%Z with (radix2 ^ (l + 1))%Z in H48. rewrite (IZR_Zpower radix2 (l + 1)) in H48 by lia. unfold Z.sub at 2. rewrite bpow_plus. change (bpow radix2 (- (48))) with e48. change (IZR (2 ^ 48)) with 281474976710656 in H48. change (IZR (2 ^ 48 - 1)) with 281474976710655 in *. unfold e48. lra. }
  pose proof (bpow_gt_0 radix2 (l + 1)) as Hb. destruct (log2_int_cases lg a l Hlg Hl Ha) as [[_ H]|[[H _]|(Hf & L & HL & ->)]]; [exact H|exfalso; rewrite H in HR; unfold e48 in *; nra|].
  destruct (sum_low _ L l Hl Hf HL) as [S1 S2]. { intros Hs. rewrite (RN_small a l) in * by (first [lia|exact Ha]). apply frac_low; [lia|exact Ha|apply Hf]. }
  apply Ztrunc_between; [lia|]. split; [exact S1|]. apply sum_below; [lia|]. apply RN_le_F; [apply F_11|]. apply (prod_upper _ L Hf HL). pose proof (bpow_frac (RN (IZR a)) (l + 1) ltac:(lia)) as Hbf. nra.
Qed.
(** so for everything below 2^49 - 1 *)
Theorem log2_int_small lg a : accurate_log lg -> (1 <= a < 2 ^ 49 - 1)%Z -> is_log2 a (log2_int lg a).
Proof.
  intros Hlg Ha. pose proof (Z.log2_spec a ltac:(lia)) as Hs. pose proof (Z.log2_nonneg a) as H0. assert (Hl : (Z.log2 a <= 48)%Z). { apply Z.lt_succ_r. apply Z.log2_lt_pow2; lia. }
  assert (H : is_log2 a (Z.log2 a)) by (split; [exact H0|exact Hs]). rewrite (log2_int_exact lg a (Z.log2 a)); [exact H|exact Hlg|lia|exact H|]. destruct H as [_ H]. destruct (Z.eq_dec (Z.log2 a) 48) as [E|E]; [rewrite E; lia|].
  assert (2 ^ (Z.log2 a + 1) <= 2 ^ 48)%Z by (apply Z.pow_le_mono_r; lia). nia.
Qed.
(** exact at every power of two of the types *)
Theorem log2_int_pow lg l : accurate_log lg -> (0 <= l <= 63)%Z -> log2_int lg (2 ^ l) = l.
Proof. intros Hlg Hl. assert (0 < 2 ^ l)%Z by (apply Z.pow_pos_nonneg; lia). apply log2_int_exact; [exact Hlg|exact Hl| |]; [split; [lia|]|]; rewrite Z.pow_add_r by lia; lia. Qed.
(** one too much close below the next power of two, whatever the logarithm *)
Theorem log2_int_above lg a l : accurate_log lg -> (48 <= l <= 63)%Z -> is_log2 a l -> (2 ^ (l + 1) * (2 ^ 49 - 1) <= 2 ^ 49 * a)%Z -> log2_int lg a = (l + 1)%Z.
Proof.
  intros Hlg Hl Ha H49. assert (HR : bpow radix2 (l + 1) * (1 - e48 / 2) <= RN (IZR a)).
  { replace (bpow radix2 (l + 1) * (1 - e48 / 2)) with (IZR (2 ^ 49 - 1) * bpow radix2 (l + 1 - 49)) by (unfold Z.sub at 2; rewrite bpow_plus; change (bpow radix2 (- (49))) with (/ 562949953421312); change (IZR (2 ^ 49 - 1)) with 562949953421311; unfold e48; field).
    apply RN_ge_F; [apply F_mult; lia|]. apply IZR_le in H49. rewrite !mult_IZR in H49. change (2 ^ (l + 1))%Z with (radix2 ^ (l + 1))%Z in H49. rewrite (IZR_Zpower radix2 (l + 1)) in H49 by lia. unfold Z.sub at 2. rewrite bpow_plus. change (bpow radix2 (- (49))) with (/ 562949953421312). change (IZR (2 ^ 49)) with 562949953421312 in H49. change (IZR (2 ^ 49 - 1)) with 562949953421311 in *. lra. }
  pose proof (bpow_gt_0 radix2 (l + 1)) as Hb. pose proof (bpow_frac (RN (IZR a)) (l + 1) ltac:(lia)) as Hbf. destruct (log2_int_cases lg a l Hlg ltac:(lia) Ha) as [[H _]|[[_ H]|(Hf & L & HL & ->)]]; [|exact H|].
  - exfalso. rewrite H, bpow_plus in HR. pose proof (bpow_gt_0 radix2 l). simpl (bpow radix2 1) in HR. unfold e48 in HR. nra.
  - assert (P1 := prod_neg _ L Hf HL). assert (P2 : - (3 / 4 * e48) <= L * c) by (apply (prod_small _ L Hf HL); nra). assert (Q1 : RN (L * c) <= 0) by (apply RN_le_F; [apply (F_IZR 0); lia|exact P1]). assert (Q2 : - (3 / 4 * e48) <= RN (L * c)) by (apply RN_ge_F; [apply F_3|exact P2]).
    replace (RN (L * c) + IZR (l + 1)) with (IZR (l + 1) - (- RN (L * c))) by ring. rewrite sum_near by (first [lia|lra]). apply Ztrunc_IZR.
Qed.
(** so Log2(2^49 - 1) is 49 and Log2 of the largest uint64 is 64 *)
Theorem log2_int_refuted : exists a, (1 <= a < 2 ^ 50)%Z /\ (forall lg, accurate_log lg -> log2_int lg a = 49%Z /\ ~ is_log2 a (log2_int lg a)) /\ log2_int go_log a = 49%Z /\ (forall lg, accurate_log lg -> log2_int lg (2 ^ 64 - 1) = 64%Z).
Proof.
  exists (2 ^ 49 - 1)%Z. split; [lia|]. split; [|split; [vm_compute; reflexivity|]]; intros lg Hlg.
  - assert (H : log2_int lg (2 ^ 49 - 1) = 49%Z) by (apply (log2_int_above lg _ 48 Hlg); [lia|split; lia|lia]). split; [exact H|]. rewrite H. intros [_ Hb]. lia.
  - apply (log2_int_above lg _ 63 Hlg); [lia|split; lia|lia].
Qed.
(** for floats: exact at every power of two, subnormal ones included, whatever the logarithm *)
Theorem log2_float_pow lg (x : f64) e : is_finite x = true -> B2R x = bpow radix2 e -> is_finite (log2_float lg x) = true /\ B2R (log2_float lg x) = IZR e.
Proof.
  intros Hx Hy. pose proof (bpow_gt_0 radix2 e) as Hpos. assert (Hs : is_finite_strict x = true) by (destruct x as [s|s| |s m e0 H]; try discriminate; [simpl in Hy; lra|reflexivity]).
  assert (He : (-1074 <= e < 1024)%Z). { split; [|apply (lt_bpow radix2); rewrite <- Hy; eapply Rle_lt_trans; [apply Rle_abs|apply (abs_B2R_lt_emax prec emax x)]]. pose proof (abs_B2R_ge_emin prec emax x Hs) as Hm. rewrite Hy, Rabs_pos_eq in Hm by lra. now apply le_bpow in Hm. }
  pose proof (Bfrexp_correct prec emax prec_pos x Hs) as HB. unfold log2_float. destruct (Bfrexp x) as [fr k] eqn:Ef. destruct HB as [HB1 HB2]. destruct (HB2 ltac:(reflexivity)) as [HB3 HB4]. rewrite Hy, mag_bpow in HB4. subst k.
  assert (Hfr : B2R fr = / 2). { rewrite Hy, bpow_plus in HB1. simpl (bpow radix2 1) in HB1. apply Rmult_eq_reg_r with (bpow radix2 e * 2); [lra|lra]. }
  assert (Hff : is_finite fr = true) by (destruct fr as [s|s| |s m e0 H0]; try reflexivity; simpl in Hfr; lra). destruct half_R as [Hh1 Hh2]. rewrite (Beqb_correct prec emax fr half Hff Hh1), Hh2, Hfr, Req_bool_true by reflexivity.
  replace (e + 1 - 1)%Z with e by lia. destruct (of_Z_R e) as [H1 H2]; [lia|]. split; [exact H1|]. rewrite H2. apply RN_F, F_IZR. lia.
Qed.

(** there is such a logarithm: the correctly rounded one *)
Definition best_log (x : f64) : f64 :=
  let y := ln (B2R x) in binary_normalize prec emax prec_pos prec_emax mode_NE (ZnearestE (scaled_mantissa radix2 fexp y)) (cexp radix2 fexp y) false.
Lemma best_log_accurate : accurate_log best_log.
Proof.
  intros x Hx Hf. set (y := ln (B2R x)). assert (Hlo : e52 / 2 <= - y).
  { pose proof (ln_le (B2R x) ltac:(lra)) as H. destruct (F_dyadic (B2R x) 0) as (m & Em & Hm); [lia|apply F_B2R|rewrite Rabs_pos_eq by lra; simpl; lra|]. assert (Hm' : IZR m <= 9007199254740991) by (apply IZR_le; lia). change (bpow radix2 (0 - 53)) with (/ 9007199254740992) in Em. fold y in H. unfold e52. lra. }
  assert (Hhi : - y <= 1). { pose proof (ln_ge (B2R x) ltac:(lra)) as H. fold y in H. assert (/ B2R x <= / / 2) by (apply Rinv_le_contravar; lra). rewrite Rinv_inv in *. lra. }
  pose proof (binary_normalize_correct prec emax prec_pos prec_emax mode_NE (ZnearestE (scaled_mantissa radix2 fexp y)) (cexp radix2 fexp y) false) as H. cbv zeta in H. change (F2R (Float radix2 (ZnearestE (scaled_mantissa radix2 fexp y)) (cexp radix2 fexp y))) with (RN y) in H.
  change (round radix2 (SpecFloat.fexp prec emax) (round_mode mode_NE) (RN y)) with (RN (RN y)) in H. rewrite (RN_F (RN y) (F_RN y)) in H. assert (Hy : Rabs y <= 128) by (apply Rabs_le; unfold e52 in *; lra). rewrite no_overflow in H by (apply small_bpow, Hy). destruct H as (H1 & H2 & _). split; [exact H2|].
  unfold best_log. fold y. rewrite H1. apply Rle_trans with (/ 2 * bpow radix2 (- 53 + 1) * Rabs y).
  - apply relative_error_N_FLT; [reflexivity|]. apply Rle_trans with (bpow radix2 (-53)); [apply bpow_le; lia|]. rewrite Rabs_left by (unfold e52 in *; lra). change (bpow radix2 (-53)) with (/ 9007199254740992). unfold e52 in Hlo. lra.
  - apply Rmult_le_compat_r; [apply Rabs_pos|]. change (- 53 + 1)%Z with (-52)%Z. rewrite e52_eq. unfold e52. lra.
Qed.
(** and the portable one of Go on small numbers *)
Example log2_int_ex : (forall a, (1 <= a < 2 ^ 49 - 1)%Z -> is_log2 a (log2_int best_log a)) /\ forallb (fun a => Z.eqb (log2_int go_log (Z.of_nat a)) (Z.log2 (Z.of_nat a))) (seq 1 40) = true /\
  log2_int go_log (2 ^ 49 - 2) = 48%Z /\ log2_int go_log 1000000 = 19%Z.
Proof. split; [intros a Ha; apply (log2_int_small _ _ best_log_accurate Ha)|]. repeat split; vm_compute; reflexivity. Qed.
(** the portable logarithm on 0.3, 0.9, 1e-5 and 3141.59, against the correctly rounded doubles *)
Theorem go_log_ex : forallb (fun t : f64 * f64 => same (fst t) (snd t))
  ((go_log (of_quot 3 10), Bopp (Bldexp mode_NE (of_Z 5422211472926497) (-52))) :: (go_log (of_quot 9 10), Bopp (Bldexp mode_NE (of_Z 7592025264898396) (-56))) ::
   (go_log (of_quot 1 100000), Bopp (Bldexp mode_NE (of_Z 6481200854248027) (-49))) :: (go_log (of_quot 314159 100), Bldexp mode_NE (of_Z 4533145672964035) (-49)) :: nil) = true.
Proof. vm_compute. reflexivity. Qed.
