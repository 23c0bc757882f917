(** * The numbers in bloom.New *)
From Coq Require Import ZArith Reals Lra Lia Bool List.
From Flocq Require Import Core Relative IEEE754.BinarySingleNaN.
From Verif Require Import RoundModel RoundSpec RoundProps Log2Model Log2Spec Log2Props BnewModel BnewSpec.
Open Scope R_scope.

(** ** ln 2 from both sides *)
Lemma ln2_le m d n : (0 < d)%Z -> (0 <= m)%Z -> (2 * exp_den d n <= exp_num m d n)%Z -> ln 2 <= IZR m / IZR d.
Proof.
  intros Hd Hm H. pose proof (exp_lower m d n Hd Hm H) as He. rewrite <- (ln_exp (_ / _)).
  destruct He as [He|He]; [left; apply ln_increasing; lra|right; now rewrite <- He].
Qed.
Lemma exp_neg_lower x N : 0 <= x <= 1 -> sum_f_R0 (fun i => / INR (fact i) * (- x) ^ i) (S (2 * N)) <= exp (- x).
Proof.
  intros Hx. set (Un := fun i => x ^ i / INR (fact i)).
  assert (Hdec : Un_decreasing Un).
  { intros i. unfold Un. change (fact (S i)) with (S i * fact i)%nat. rewrite mult_INR. simpl pow.
    assert (0 < INR (fact i)) by apply INR_fact_lt_0. assert (1 <= INR (S i)) by (rewrite S_INR; pose proof (pos_INR i); lra).
    assert (0 <= x ^ i) by (apply pow_le; lra). apply Rmult_le_reg_r with (INR (S i) * INR (fact i)); [nra|].
    field_simplify; [|lra|lra]. nra. }
  assert (Hcv : Un_cv Un 0) by apply cv_speed_pow_fact.
  assert (Hs : Un_cv (fun N => sum_f_R0 (tg_alt Un) N) (exp (- x))).
  { unfold exp. destruct (exist_exp (- x)) as [l Hl]. simpl. intros eps He. destruct (Hl eps He) as [N0 HN0]. exists N0. intros n Hn.
    specialize (HN0 n Hn). erewrite (sum_eq (tg_alt Un)); [exact HN0|]. intros i _. unfold tg_alt, Un. replace (- x) with ((-1) * x) by ring. rewrite Rpow_mult_distr. unfold Rdiv. ring. }
  destruct (alternated_series_ineq Un (exp (- x)) N Hdec Hcv Hs) as [H _].
  erewrite (sum_eq _ (tg_alt Un)); [exact H|]. intros i _. unfold tg_alt, Un. replace (- x) with ((-1) * x) by ring. rewrite Rpow_mult_distr. unfold Rdiv. ring.
Qed.
Lemma ln2_ge m d N : (0 < d)%Z -> (0 <= m <= d)%Z -> (exp_den d (S (2 * N)) <= 2 * exp_num (- m) d (S (2 * N)))%Z -> IZR m / IZR d <= ln 2.
Proof.
  intros Hd Hm H. assert (Hd' : 0 < IZR d) by now apply IZR_lt.
  assert (Hx : 0 <= IZR m / IZR d <= 1). { split; [apply Rmult_le_pos; [apply IZR_le; lia|left; now apply Rinv_0_lt_compat]|]. apply Rmult_le_reg_r with (IZR d); [exact Hd'|]. unfold Rdiv. rewrite Rmult_assoc, Rinv_l by lra. rewrite Rmult_1_r, Rmult_1_l. apply IZR_le; lia. }
  pose proof (exp_neg_lower _ N Hx) as He.
  assert (Hden : 0 < IZR (exp_den d (S (2 * N)))). { rewrite exp_den_eq. apply Rmult_lt_0_compat; [apply INR_fact_lt_0|now apply pow_lt]. }
  pose proof (exp_num_eq (- m) d (S (2 * N)) ltac:(lra)) as En. replace (IZR (- m) / IZR d) with (- (IZR m / IZR d)) in En by (rewrite opp_IZR; unfold Rdiv; ring).
  assert (Hh : / 2 <= exp (- (IZR m / IZR d))).
  { apply Rle_trans with (2 := He). apply Rmult_le_reg_r with (IZR (exp_den d (S (2 * N)))); [exact Hden|]. rewrite En. apply IZR_le in H. rewrite mult_IZR in H. lra. }
  assert (Hl : ln (/ 2) <= - (IZR m / IZR d)). { rewrite <- (ln_exp (- _)). destruct Hh as [Hh|Hh]; [left; apply ln_increasing; lra|right; now rewrite Hh]. }
  rewrite ln_Rinv in Hl by lra. lra.
Qed.
Lemma ln2_bounds : 69314718055994530941 / 100000000000000000000 <= ln 2 <= 69314718055994530942 / 100000000000000000000.
Proof.
  split.
  - apply (ln2_ge 69314718055994530941 100000000000000000000 12); [lia|lia|]. apply Z.leb_le. vm_compute. reflexivity.
  - apply (ln2_le 69314718055994530942 100000000000000000000 24); [lia|lia|]. apply Z.leb_le. vm_compute. reflexivity.
Qed.

(** ** relative errors *)
Definition e : R := / 9007199254740992.
Definition rel (a b u : R) : Prop := b * (1 - u) <= a <= b * (1 + u).
Lemma e_eq : bpow radix2 (-53) = e.
Proof. reflexivity. Qed.
Lemma e_pos : 0 < e.
Proof. unfold e. lra. Qed.
Lemma rel_mul a b u a' b' v w : 0 <= b -> 0 <= b' -> 0 <= u <= 1 -> 0 <= v <= 1 -> (1 + u) * (1 + v) <= 1 + w -> rel a b u -> rel a' b' v -> rel (a * a') (b * b') w.
Proof.
  intros Hb Hb' Hu Hv Hw [H1 H2] [H3 H4]. assert (0 <= b * (1 - u)) by (apply Rmult_le_pos; lra). assert (0 <= b' * (1 - v)) by (apply Rmult_le_pos; lra). assert (0 <= b * b') by now apply Rmult_le_pos.
  split.
  - apply Rle_trans with (b * (1 - u) * (b' * (1 - v))); [|apply Rmult_le_compat; lra]. replace (b * (1 - u) * (b' * (1 - v))) with (b * b' * ((1 - u) * (1 - v))) by ring. apply Rmult_le_compat_l; nra.
  - apply Rle_trans with (b * (1 + u) * (b' * (1 + v))); [apply Rmult_le_compat; lra|]. replace (b * (1 + u) * (b' * (1 + v))) with (b * b' * ((1 + u) * (1 + v))) by ring. apply Rmult_le_compat_l; lra.
Qed.
Lemma rel_inv a b v w : 0 < b -> 0 <= v < 1 -> 0 <= w -> 1 <= (1 + w) * (1 - v) -> rel a b v -> rel (/ a) (/ b) w.
Proof.
  intros Hb Hv Hw Hvw [H1 H2]. assert (Hp : 0 < b * (1 - v)) by (apply Rmult_lt_0_compat; lra). assert (Ha : 0 < a) by lra. assert (Hi : 0 < / b) by now apply Rinv_0_lt_compat.
  split.
  - apply Rle_trans with (/ (b * (1 + v))); [|apply Rinv_le_contravar; lra]. rewrite Rinv_mult. apply Rmult_le_compat_l; [lra|].
    apply Rmult_le_reg_r with (1 + v); [lra|]. rewrite Rinv_l by lra. nra.
  - apply Rle_trans with (/ (b * (1 - v))); [apply Rinv_le_contravar; lra|]. rewrite Rinv_mult. apply Rmult_le_compat_l; [lra|].
    apply Rmult_le_reg_r with (1 - v); [lra|]. rewrite Rinv_l by lra. lra.
Qed.
Lemma rel_round a b u w : 0 <= b -> 0 <= u <= 1 -> (1 + u) * (1 + e) <= 1 + w -> bpow radix2 (-1000) <= a -> rel a b u -> rel (RN a) b w.
Proof.
  intros Hb Hu Hw Ha Hr. destruct (RN_rel a Ha) as (d & Hd & ->). rewrite e_eq in Hd. apply Rabs_le_inv in Hd. replace b with (b * 1) by ring.
  pose proof e_pos. apply (rel_mul a b u (1 + d) 1 e); [lra..|unfold e; lra|exact Hw|exact Hr|split; lra].
Qed.
Lemma rel_refl a u : 0 <= a -> 0 <= u -> rel a a u.
Proof. intros Ha Hu. split; nra. Qed.
Lemma rel_pos a b u lo : 0 < b -> u < 1 -> lo <= b * (1 - u) -> rel a b u -> lo <= a.
Proof. intros Hb Hu Hlo [H _]. lra. Qed.
Lemma tiny x : / 2 ^ 100 <= x -> bpow radix2 (-1000) <= x.
Proof. intros H. eapply Rle_trans; [|exact H]. replace (/ 2 ^ 100) with (bpow radix2 (-100)); [apply bpow_le; lia|]. rewrite (bpow_powerRZ radix2 (-100)). reflexivity. Qed.
Lemma huge x : 0 <= x <= 2 ^ 100 -> Rabs x <= bpow radix2 1000.
Proof. intros H. rewrite Rabs_pos_eq by lra. apply Rle_trans with (1 := proj2 H). replace (2 ^ 100) with (bpow radix2 100); [apply bpow_le; lia|]. rewrite (bpow_powerRZ radix2 100). reflexivity. Qed.

(** ** the constants *)
Lemma ln2_R : is_finite ln2 = true /\ B2R ln2 = 6243314768165359 / 9007199254740992.
Proof. destruct (is_dyadic_ok ln2 6243314768165359 53) as [H1 H2]; [lia|vm_compute; reflexivity|]. split; [exact H1|]. rewrite H2. reflexivity. Qed.
Lemma ln2_sq_R : is_finite ln2_sq = true /\ B2R ln2_sq = 8655072057804175 / 18014398509481984.
Proof. destruct (is_dyadic_ok ln2_sq 8655072057804175 54) as [H1 H2]; [lia|vm_compute; reflexivity|]. split; [exact H1|]. rewrite H2. reflexivity. Qed.
Lemma ln2_rel : rel (B2R ln2) (ln 2) e.
Proof. destruct ln2_R as [_ ->]. pose proof ln2_bounds. unfold rel, e. lra. Qed.
Lemma ln2_sq_rel : rel (B2R ln2_sq) (ln 2 * ln 2) e.
Proof.
  destruct ln2_sq_R as [_ ->]. pose proof ln2_bounds as H. set (a := 69314718055994530941 / 100000000000000000000) in *. set (b := 69314718055994530942 / 100000000000000000000) in *.
  assert (a * a <= ln 2 * ln 2 <= b * b) by (unfold a, b in *; split; apply Rmult_le_compat; lra). unfold rel, e, a, b in *. lra.
Qed.

(** ** logarithms of rates *)
Section rate.
  Context (p : f64) (Hfin : is_finite p = true) (HP : 0 < B2R p < 1).
  Lemma rate_low : e <= ln (/ B2R p).
  Proof.
    pose proof (ln_le (B2R p) ltac:(lra)) as H. rewrite ln_Rinv by lra. destruct (Rle_dec (B2R p) (/ 2)) as [Hh|Hh]; [unfold e; lra|].
    destruct (F_dyadic (B2R p) 0) as (m & Em & Hm); [lia|apply F_B2R|rewrite Rabs_pos_eq by lra; simpl; lra|].
    assert (Hm' : IZR m <= 9007199254740991). { apply IZR_le. apply Z.abs_lt in Hm. change (2 ^ 53)%Z with 9007199254740992%Z in Hm. lia. }
    change (bpow radix2 (0 - 53)) with (/ 9007199254740992) in Em. unfold e. lra.
  Qed.
  Lemma rate_high : ln (/ B2R p) <= 745.
  Proof.
    assert (Hs : is_finite_strict p = true). { destruct p; simpl in *; try discriminate; [lra|reflexivity]. }
    pose proof (abs_B2R_ge_emin prec emax p Hs) as H. rewrite Rabs_pos_eq in H by lra. change (SpecFloat.emin prec emax) with (-1074)%Z in H.
    assert (Hl : / B2R p <= bpow radix2 1074). { replace (bpow radix2 1074) with (/ bpow radix2 (-1074)) by (rewrite <- bpow_opp; reflexivity). apply Rinv_le_contravar; [apply bpow_gt_0|exact H]. }
    assert (ln (/ B2R p) <= ln (bpow radix2 1074)). { destruct Hl as [Hl|Hl]; [left; apply ln_increasing; [apply Rinv_0_lt_compat; lra|exact Hl]|right; now rewrite Hl]. }
    replace (ln (bpow radix2 1074)) with (1074 * ln 2) in H0; [pose proof ln2_bounds; lra|].
    rewrite (bpow_powerRZ radix2 1074). change (powerRZ (IZR radix2) 1074) with (2 ^ 1074). rewrite ln_pow by lra. rewrite INR_IZR_INZ. reflexivity.
  Qed.
End rate.

(** ** the number of bits before rounding *)
Lemma fceil_R (a : f64) : is_finite (fceil a) = is_finite a /\ B2R (fceil a) = IZR (Zceil (B2R a)).
Proof.
  destruct (Bnearbyint_correct prec emax prec_emax mode_UP a) as (H1 & H2 & _). split; [exact H2|]. unfold fceil. rewrite H1. unfold round, F2R, scaled_mantissa, cexp. simpl. unfold FIX_exp. simpl. now rewrite !Rmult_1_r.
Qed.
Lemma to_u64_R wu x : is_finite x = true -> (0 <= Zceil (B2R x) < 2 ^ 64)%Z -> to_u64 wu (fceil x) = Zceil (B2R x).
Proof.
  intros Hf Hz. destruct (fceil_R x) as [H1 H2]. unfold to_u64. rewrite Btrunc_Z, H2, Ztrunc_IZR, H1, Hf. destruct (Z.leb_spec 0 (Zceil (B2R x))), (Z.ltb_spec (Zceil (B2R x)) (2 ^ 64)); try lia. reflexivity.
Qed.
Lemma to_int_R wi x : is_finite x = true -> (- 2 ^ 63 <= Zceil (B2R x) < 2 ^ 63)%Z -> to_int wi (fceil x) = Zceil (B2R x).
Proof.
  intros Hf Hz. destruct (fceil_R x) as [H1 H2]. unfold to_int. rewrite Btrunc_Z, H2, Ztrunc_IZR, H1, Hf. destruct (Z.leb_spec (- 2 ^ 63) (Zceil (B2R x))), (Z.ltb_spec (Zceil (B2R x)) (2 ^ 63)); try lia. reflexivity.
Qed.
Lemma capacity_R n : (1 <= n < 2 ^ 64)%Z -> is_finite (of_Z n) = true /\ rel (B2R (of_Z n)) (IZR n) e.
Proof.
  intros Hn. destruct (of_Z_R n) as [H1 H2]; [lia|]. split; [exact H1|]. rewrite H2. assert (1 <= IZR n) by (apply IZR_le; lia). pose proof e_pos.
  apply (rel_round _ _ 0); [lra|lra|lra| |apply rel_refl; lra]. apply tiny. apply Rle_trans with 1; [|lra]. apply Rmult_le_reg_r with (2 ^ 100); [lra|]. rewrite Rinv_l; lra.
Qed.
Lemma pow_consts : 18446744073709551616 * 4096 <= 2 ^ 100 /\ / 2 ^ 100 <= e / 1024.
Proof.
  assert (H : 2 ^ 100 = 1267650600228229401496703205376) by lra. rewrite H. unfold e. lra.
Qed.

Section bits.
  Context (lg : f64 -> f64) (Hlg : accurate_log01 lg) (n : Z) (Hn : (1 <= n < 2 ^ 64)%Z) (p : f64) (Hfin : is_finite p = true) (HP : 0 < B2R p < 1).
  Let T := ideal_bits (IZR n) (B2R p).
  Lemma factor_R : let f := fdiv (Bopp (lg p)) ln2_sq in is_finite f = true /\ rel (B2R f) (ln (/ B2R p) / (ln 2 * ln 2)) (6 * e) /\ e <= B2R f <= 2000.
  Proof.
    cbv zeta. destruct (Hlg p Hfin HP) as [HLf HL]. pose proof (rate_low p HP) as Hlo. pose proof (rate_high p Hfin HP) as Hhi. set (l := ln (/ B2R p)) in *.
    assert (Hl : ln (B2R p) = - l) by (unfold l; rewrite ln_Rinv by lra; ring). rewrite Hl, Rabs_Ropp, (Rabs_pos_eq l) in HL by (unfold e in Hlo; lra). rewrite e52_eq in HL. apply Rabs_le_inv in HL.
    assert (HLrel : rel (- B2R (lg p)) l (2 * e)) by (unfold rel, e, e52 in *; lra).
    pose proof ln2_bounds as H2. set (q := ln 2 * ln 2). assert (Hq : 48 / 100 <= q <= 481 / 1000) by (unfold q; split; nra).
    pose proof e_pos as He. assert (Hi : rel (/ B2R ln2_sq) (/ q) (2 * e)). { apply (rel_inv _ _ e); [lra|unfold e; lra|lra|unfold e; lra|exact ln2_sq_rel]. }
    assert (Hprod : rel (- B2R (lg p) / B2R ln2_sq) (l / q) (4 * e + 4 * e * e)). { unfold Rdiv. apply (rel_mul _ _ (2 * e) _ _ (2 * e)); [unfold e in *; lra|left; apply Rinv_0_lt_compat; lra|unfold e; lra|unfold e; lra|lra|exact HLrel|exact Hi]. }
    assert (Hlq : 2 * e <= l / q <= 1553). { split; [apply Rmult_le_reg_r with q|apply Rmult_le_reg_r with q]; try lra; replace (l / q * q) with l by (field; lra); unfold e in *; nra. }
    assert (Hval : e <= - B2R (lg p) / B2R ln2_sq <= 1554). { destruct Hprod as [Ha Hb]. unfold e in *. split; nra. }
    pose proof pow_consts as [Hc1 Hc2].
    destruct (fdiv_R (Bopp (lg p)) ln2_sq) as [F1 F2].
    - rewrite is_finite_Bopp. exact HLf.
    - destruct ln2_sq_R as [_ ->]. lra.
    - rewrite B2R_Bopp. apply huge. unfold e in *. lra.
    - rewrite B2R_Bopp in F2. split; [exact F1|]. rewrite F2. assert (Hr : rel (RN (- B2R (lg p) / B2R ln2_sq)) (l / q) (6 * e)).
      { apply (rel_round _ _ (4 * e + 4 * e * e)); [unfold e in *; lra|unfold e; lra|unfold e; lra|apply tiny; unfold e in *; lra|exact Hprod]. }
      split; [exact Hr|]. destruct Hr as [Ha Hb]. unfold e in *. split; nra.
  Qed.
  Lemma raw_R : let y := fmul (of_Z n) (fdiv (Bopp (lg p)) ln2_sq) in is_finite y = true /\ rel (B2R y) T (10 * e) /\ 0 < T.
  Proof.
    cbv zeta. destruct factor_R as (F1 & F2 & F3). destruct (capacity_R n Hn) as [N1 N2]. set (f := fdiv (Bopp (lg p)) ln2_sq) in *.
    assert (Hn1 : 1 <= IZR n) by (apply IZR_le; lia). assert (Hn2 : IZR n <= 18446744073709551616) by (apply IZR_le; lia). pose proof e_pos as He. pose proof pow_consts as [Hc1 Hc2].
    assert (Hb : / 2 <= B2R (of_Z n) <= 18446744073709551616 * 2) by (destruct N2; unfold e in *; lra).
    pose proof (rate_low p HP) as Hlo. pose proof ln2_bounds as H2. assert (Hq : 0 < ln 2 * ln 2) by nra.
    assert (HT : T = IZR n * (ln (/ B2R p) / (ln 2 * ln 2))) by (unfold T, ideal_bits, Rdiv; ring). assert (Hr : 0 < ln (/ B2R p) / (ln 2 * ln 2)) by (apply Rdiv_lt_0_compat; unfold e in *; lra).
    assert (HTpos : 0 < T) by (rewrite HT; apply Rmult_lt_0_compat; lra).
    assert (Hprod : rel (B2R (of_Z n) * B2R f) T (7 * e + 6 * e * e)). { rewrite HT. apply (rel_mul _ _ e _ _ (6 * e)); [lra|lra|unfold e; lra|unfold e; lra|lra|exact N2|exact F2]. }
    assert (Hv : e / 2 <= B2R (of_Z n) * B2R f <= 18446744073709551616 * 4000). { split; nra. }
    destruct (fmul_R (of_Z n) f N1 F1) as [M1 M2]; [apply huge; unfold e in *; lra|]. split; [exact M1|]. split; [|exact HTpos]. rewrite M2.
    apply (rel_round _ _ (7 * e + 6 * e * e)); [lra|unfold e; lra|unfold e; lra|apply tiny; unfold e in *; lra|exact Hprod].
  Qed.
End bits.

(** ** whole words *)
Lemma round_bits_small raw : (0 <= raw <= 2 ^ 60)%Z -> exists w, BloomModel.round_bits raw = (64 * w)%Z /\ (raw <= 64 * w <= raw + 63)%Z /\ (0 <= w)%Z.
Proof.
  intros H. exists ((raw + 63) / 64)%Z. unfold BloomModel.round_bits, GoBase.u64, GoBase.wrap_u. pose proof (Z.div_mod (raw + 63) 64 ltac:(lia)) as Hd. pose proof (Z.mod_pos_bound (raw + 63) 64 ltac:(lia)) as Hm.
  rewrite (Z.mod_small (raw + 64)) by lia. replace (raw + 64 - 1)%Z with (raw + 63)%Z by lia. rewrite (Z.mod_small (raw + 63)) by lia. assert (0 <= (raw + 63) / 64)%Z by (apply Z.div_pos; lia). rewrite Z.mod_small by lia. lia.
Qed.

Section numbers.
  Context (lg : f64 -> f64) (Hlg : accurate_log01 lg) (wu wi : f64 -> Z) (n : Z) (Hn : (1 <= n < 2 ^ 64)%Z) (p : f64) (Hfin : is_finite p = true) (HP : 0 < B2R p < 1).
  Let T := ideal_bits (IZR n) (B2R p).
  Context (HT : T <= 2 ^ 50).
  Let m := bit_count lg wu n p.
  Let K0 := ideal_hashes (IZR n) (IZR m).
  Lemma bits_number : exists w, m = (64 * w)%Z /\ (1 <= w <= 2 ^ 45)%Z /\ T * (1 - 10 * e) <= IZR m < T * (1 + 10 * e) + 64.
  Proof.
    destruct (raw_R lg Hlg n Hn p Hfin HP) as (F1 & F2 & F3). fold T in F2, F3. set (y := fmul (of_Z n) (fdiv (Bopp (lg p)) ln2_sq)) in *. destruct F2 as [L1 L2]. pose proof e_pos as He. assert (H50 : 2 ^ 50 = 1125899906842624) by lra. rewrite H50 in HT.
    assert (Hy : 0 < B2R y) by (apply Rlt_le_trans with (2 := L1); apply Rmult_lt_0_compat; [exact F3|unfold e; lra]).
    assert (Hy2 : B2R y <= 1125899906842624 + 10). { apply Rle_trans with (1 := L2). unfold e. lra. }
    pose proof (Zceil_ub (B2R y)) as U1. pose proof (Zceil_lb (B2R y)) as U2.
    assert (Hz : (1 <= Zceil (B2R y) < 2 ^ 50 + 12)%Z). { split; [apply Zlt_succ_le; unfold Z.succ; apply lt_IZR; rewrite plus_IZR; lra|apply lt_IZR; change (IZR (2 ^ 50 + 12)) with 1125899906842636; lra]. }
    destruct (round_bits_small (Zceil (B2R y))) as (w & E & Hw & Hw0); [lia|].
    assert (Em : m = (64 * w)%Z). { unfold m, bit_count, raw_bits. cbv zeta. fold y. rewrite to_u64_R; [exact E|exact F1|lia]. }
    exists w. split; [exact Em|]. split; [lia|]. assert (IZR (Zceil (B2R y)) <= IZR m <= IZR (Zceil (B2R y)) + 63). { rewrite <- (plus_IZR _ 63). split; apply IZR_le; lia. } lra.
  Qed.
  Lemma seeds_number : exists k : nat, seed_count wi n m = Z.of_nat k /\ (1 <= k <= 1200)%nat /\ K0 * (1 - 8 * e) <= INR k < K0 * (1 + 8 * e) + 1 /\
    ln (/ B2R p) / ln 2 * (1 - 10 * e) <= K0 <= 1150.
  Proof.
    destruct bits_number as (w & Em & Hw & Hm). assert (Hm1 : 64 <= IZR m) by (apply IZR_le; lia). assert (Hm2 : IZR m <= 2251799813685248) by (apply IZR_le; lia).
    destruct (of_Z_R m) as [M1 M2]; [lia|]. assert (M3 : RN (IZR m) = IZR m) by (apply RN_F, F_IZR; lia). rewrite M3 in M2. destruct (capacity_R n Hn) as [N1 N2]. destruct ln2_R as [L1 L2]. pose proof ln2_bounds as Hl. pose proof e_pos as He. pose proof pow_consts as [Hc1 Hc2].
    assert (Hn1 : 1 <= IZR n) by (apply IZR_le; lia). assert (Hn2 : IZR n <= 18446744073709551616) by (apply IZR_le; lia).
    assert (Hp1 : rel (B2R ln2 * IZR m) (ln 2 * IZR m) e). { destruct ln2_rel as [A B]. split; nra. }
    assert (Hv1 : 1 <= B2R ln2 * IZR m <= 2251799813685248). { rewrite L2. lra. }
    destruct (fmul_R ln2 (of_Z m) L1 M1) as [P1 P2]; [rewrite M2; apply huge; lra|]. rewrite M2 in P2.
    assert (Hp2 : rel (RN (B2R ln2 * IZR m)) (ln 2 * IZR m) (3 * e)). { apply (rel_round _ _ e); [nra|unfold e; lra|unfold e; lra|apply tiny; unfold e in *; lra|exact Hp1]. }
    assert (Hb : / 2 <= B2R (of_Z n) <= 18446744073709551616 * 2) by (destruct N2; unfold e in *; lra).
    assert (Hi : rel (/ B2R (of_Z n)) (/ IZR n) (2 * e)). { apply (rel_inv _ _ e); [lra|unfold e; lra|lra|unfold e; lra|exact N2]. }
    assert (Hp3 : rel (RN (B2R ln2 * IZR m) / B2R (of_Z n)) K0 (5 * e + 6 * e * e)). { unfold K0, ideal_hashes, Rdiv. apply (rel_mul _ _ (3 * e) _ _ (2 * e)); [nra|left; apply Rinv_0_lt_compat; lra|unfold e; lra|unfold e; lra|lra|exact Hp2|exact Hi]. }
    (* bounds of K0 *)
    assert (HK : ln (/ B2R p) / ln 2 * (1 - 10 * e) <= K0 <= 1150).
    { unfold K0, ideal_hashes. pose proof (rate_high p Hfin HP) as Hhi. pose proof (rate_low p HP) as Hlo. assert (ET : T * ln 2 = IZR n * (ln (/ B2R p) / ln 2)) by (unfold T, ideal_bits; field; lra).
      assert (Hr : 0 < ln (/ B2R p) / ln 2 <= 1075). { split; [apply Rdiv_lt_0_compat; lra|]. apply Rmult_le_reg_r with (ln 2); [lra|]. replace (ln (/ B2R p) / ln 2 * ln 2) with (ln (/ B2R p)) by (field; lra). lra. }
      split.
      - apply Rmult_le_reg_r with (IZR n); [lra|]. replace (ln 2 * IZR m / IZR n * IZR n) with (ln 2 * IZR m) by (field; lra). apply Rle_trans with (ln 2 * (T * (1 - 10 * e))); [right; rewrite <- Rmult_assoc, (Rmult_comm (ln 2) T), ET; ring|apply Rmult_le_compat_l; lra].
      - apply Rmult_le_reg_r with (IZR n); [lra|]. replace (ln 2 * IZR m / IZR n * IZR n) with (ln 2 * IZR m) by (field; lra). apply Rle_trans with (ln 2 * (T * (1 + 10 * e) + 64)); [apply Rmult_le_compat_l; lra|].
        replace (ln 2 * (T * (1 + 10 * e) + 64)) with (IZR n * (ln (/ B2R p) / ln 2) * (1 + 10 * e) + 64 * ln 2) by (rewrite <- ET; ring). unfold e. nra. }
    assert (HK1 : / IZR n <= K0). { unfold K0, ideal_hashes, Rdiv. rewrite <- (Rmult_1_l (/ IZR n)) at 1. apply Rmult_le_compat_r; [left; apply Rinv_0_lt_compat; lra|nra]. }
    assert (HK2 : / 18446744073709551616 <= K0). { eapply Rle_trans; [|exact HK1]. apply Rinv_le_contravar; lra. }
    assert (Hv2 : / 18446744073709551616 / 2 <= RN (B2R ln2 * IZR m) / B2R (of_Z n) <= 1160). { destruct Hp3 as [A B]. unfold e in *. split; nra. }
    destruct (fdiv_R (fmul ln2 (of_Z m)) (of_Z n) P1) as [Q1 Q2]; [lra|rewrite P2; apply huge; lra|]. rewrite P2 in Q2. set (z := fdiv (fmul ln2 (of_Z m)) (of_Z n)) in *.
    assert (Hz : rel (B2R z) K0 (8 * e)). { rewrite Q2. apply (rel_round _ _ (5 * e + 6 * e * e)); [lra|unfold e; lra|unfold e; lra|apply tiny; unfold e in *; lra|exact Hp3]. }
    destruct Hz as [Z1 Z2]. assert (Hz0 : 0 < B2R z <= 1160). { unfold e in *. split; nra. }
    pose proof (Zceil_ub (B2R z)) as U1. pose proof (Zceil_lb (B2R z)) as U2.
    assert (Hzc : (1 <= Zceil (B2R z) <= 1161)%Z). { split; [apply Zlt_succ_le; unfold Z.succ; apply lt_IZR; rewrite plus_IZR; lra|apply Zlt_succ_le; apply lt_IZR; change (IZR (Z.succ 1161)) with 1162; lra]. }
    exists (Z.to_nat (Zceil (B2R z))). unfold seed_count. fold z. rewrite to_int_R; [|exact Q1|lia]. split; [lia|]. split; [lia|]. split; [|exact HK]. rewrite INR_IZR_INZ, Z2Nat.id by lia. lra.
  Qed.

  (** the usual estimate is close to the rate asked for *)
  Lemma estimate_bound k : seed_count wi n m = Z.of_nat k -> estimate (IZR n) (IZR m) k <= B2R p * Rpower 2 (1001 / 1000 / K0).
  Proof.
    intros Ek. destruct seeds_number as (k' & Ek' & Hk & Hk2 & HK). assert (k = k') by lia. subst k'. clear Ek Ek'. destruct bits_number as (w & Em & Hw & Hm).
    assert (Hm1 : 64 <= IZR m) by (apply IZR_le; lia). assert (Hn1 : 1 <= IZR n) by (apply IZR_le; lia). pose proof ln2_bounds as Hl. pose proof (rate_high p Hfin HP) as Hhi. pose proof (rate_low p HP) as Hlo.
    assert (HK0 : 0 < K0) by (unfold K0, ideal_hashes; apply Rdiv_lt_0_compat; [apply Rmult_lt_0_compat|]; lra).
    set (x := INR k) in *. set (d := x - K0). assert (Ex : x = K0 + d) by (unfold d; ring).
    assert (Exn : x * IZR n / IZR m = ln 2 + d * ln 2 / K0). { unfold d, K0, ideal_hashes. field. repeat split; lra. }
    unfold estimate. fold x. rewrite Exn. set (t := d * ln 2 / K0).
    assert (Hbase : 0 <= 1 - exp (- (ln 2 + t)) <= exp (- (ln 2 - t))).
    { assert (Hex : exp (- ln 2) = / 2) by (rewrite exp_Ropp, exp_ln by lra; reflexivity).
      replace (- (ln 2 + t)) with (- ln 2 + - t) by ring. replace (- (ln 2 - t)) with (- ln 2 + t) by ring. rewrite !exp_plus, Hex.
      assert (Ht : 1 - exp (- t) * / 2 >= 0). { assert (- t <= ln 2). { unfold t. apply Rmult_le_reg_r with K0; [exact HK0|]. replace (- (d * ln 2 / K0) * K0) with (- d * ln 2) by (field; lra). unfold d. pose proof (pos_INR k). fold x in H. nra. }
        assert (exp (- t) <= exp (ln 2)). { destruct H as [H|H]; [left; now apply exp_increasing|right; now rewrite H]. } rewrite exp_ln in H0 by lra. lra. }
      assert (Hp : exp t * exp (- t) = 1) by (rewrite <- exp_plus, Rplus_opp_r; apply exp_0). pose proof (exp_pos t). pose proof (exp_pos (- t)). split; [lra|]. assert (0 <= exp (- t) * ((exp t - 1) * (exp t - 1))) by (apply Rmult_le_pos; [lra|apply Rle_0_sqr]). replace (exp (- t) * ((exp t - 1) * (exp t - 1))) with (exp t * exp (- t) * (exp t - 2) + exp (- t)) in H1 by ring. rewrite Hp in H1. lra. }
    apply Rle_trans with (exp (- (ln 2 - t)) ^ k); [now apply pow_incr|].
    assert (Epow : exp (- (ln 2 - t)) ^ k = exp (x * - (ln 2 - t))). { rewrite <- Rpower_pow by apply exp_pos. unfold Rpower. now rewrite ln_exp. }
    rewrite Epow. assert (Egoal : B2R p * Rpower 2 (1001 / 1000 / K0) = exp (ln (B2R p) + 1001 / 1000 / K0 * ln 2)). { unfold Rpower. rewrite exp_plus, exp_ln by lra. reflexivity. } rewrite Egoal.
    assert (Hle : x * - (ln 2 - t) <= ln (B2R p) + 1001 / 1000 / K0 * ln 2).
    { replace (x * - (ln 2 - t)) with (ln 2 * (- K0 + d * d / K0)) by (unfold t; rewrite Ex; field; lra).
      assert (Hln : ln (B2R p) = - ln (/ B2R p)) by (rewrite ln_Rinv by lra; ring). rewrite Hln. set (l := ln (/ B2R p)) in *.
      apply Rmult_le_reg_r with K0; [exact HK0|]. replace (ln 2 * (- K0 + d * d / K0) * K0) with (ln 2 * (d * d) - ln 2 * K0 * K0) by (field; lra). replace ((- l + 1001 / 1000 / K0 * ln 2) * K0) with (- l * K0 + 1001 / 1000 * ln 2) by (field; lra).
      assert (Hd : - (1 / 100000) <= d <= 1 + 1 / 100000). { unfold d, e in *. nra. } assert (Hdd : d * d <= 10001 / 10000) by nra.
      assert (Hlk : l * (1 - 10 * e) <= ln 2 * K0). { destruct HK as [HK _]. apply (Rmult_le_compat_l (ln 2)) in HK; [|lra]. replace (ln 2 * (l / ln 2 * (1 - 10 * e))) with (l * (1 - 10 * e)) in HK by (field; lra). exact HK. }
      assert (Hlk2 : l * K0 - l * 10 * e * K0 <= ln 2 * K0 * K0) by nra. assert (Hsmall : l * 10 * e * K0 <= / 100000). { assert (l * K0 <= 745 * 1150) by (apply Rmult_le_compat; unfold e in *; lra). unfold e. lra. }
      assert (ln 2 * (d * d) <= ln 2 * (10001 / 10000)) by (apply Rmult_le_compat_l; lra). lra. }
    destruct Hle as [Hle|Hle]; [left; now apply exp_increasing|right; now rewrite Hle].
  Qed.
End numbers.
