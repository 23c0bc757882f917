(** * C106: the size of a new Bloom filter *)
From Coq Require Import ZArith Reals Lra Lia Bool List.
From Flocq Require Import Core Relative IEEE754.BinarySingleNaN.
From Verif Require Import RoundModel RoundSpec RoundProps Log2Model Log2Spec Log2Props BnewModel BnewSpec BnewReal.
From Verif Require GoBase BloomModel BloomProps.
Open Scope R_scope.

Notation Ret := GoBase.Ret.
Notation f_bits := BloomModel.f_bits.
Notation f_cnt := BloomModel.f_cnt.
Notation f_seeds := BloomModel.f_seeds.

(** for every capacity and every rate between 0 and 1 (up to 2^50 bits), every accurate logarithm and
    every behaviour of conversions out of range: New returns a filter of zeroes with as many bits as
    the formula says, up to a factor of 1 +- 2^-49 and rounded up to whole words, and as many seeds,
    at least one, as the formula says, rounded up; the usual estimate of its rate exceeds the rate
    asked for by a factor of at most 2^(1.001 n / (m ln 2)) *)
Theorem new_exact lg wu wi rnd n p : accurate_log01 lg -> (1 <= n < 2 ^ 64)%Z -> is_finite p = true -> 0 < B2R p < 1 ->
  ideal_bits (IZR n) (B2R p) <= 2 ^ 50 ->
  exists f, new lg wu wi rnd n p = Ret f /\
    let m := f_cnt f in let k := length (f_seeds f) in let t := ideal_bits (IZR n) (B2R p) in let h := ideal_hashes (IZR n) (IZR m) in
    (m mod 64 = 0 /\ Z.of_nat (length (f_bits f)) = m / 64)%Z /\ Forall (fun b => b = 0%Z) (f_bits f) /\ f_seeds f = map rnd (seq 0 k) /\
    t * (1 - / 2 ^ 49) <= IZR m < t * (1 + / 2 ^ 49) + 64 /\
    (1 <= k)%nat /\ h * (1 - / 2 ^ 50) <= INR k < h * (1 + / 2 ^ 50) + 1 /\
    estimate (IZR n) (IZR m) k <= B2R p * Rpower 2 (1001 / 1000 / h).
Proof.
  intros Hlg Hn Hfin HP HT. destruct (bits_number lg Hlg wu n Hn p Hfin HP HT) as (w & Em & Hw & Hm). destruct (seeds_number lg Hlg wu wi n Hn p Hfin HP HT) as (k & Ek & Hk & Hk2 & HK).
  pose proof (estimate_bound lg Hlg wu wi n Hn p Hfin HP HT k Ek) as Hest. unfold new. cbv zeta. rewrite Ek. unfold make_ok. set (m := bit_count lg wu n p) in *.
  assert (Ew : (m / 64 = w)%Z) by (rewrite Em; rewrite Z.mul_comm; apply Z.div_mul; lia). rewrite Ew.
  replace ((0 <=? Z.of_nat k) && (Z.of_nat k <=? 2 ^ 45))%Z with true by (symmetry; apply andb_true_iff; split; apply Z.leb_le; lia).
  replace ((0 <=? w) && (w <=? 2 ^ 45))%Z with true by (symmetry; apply andb_true_iff; split; apply Z.leb_le; lia). simpl negb. cbv iota.
  eexists. split; [reflexivity|]. cbv zeta. cbn [BloomModel.f_cnt BloomModel.f_seeds BloomModel.f_bits]. rewrite Nat2Z.id, map_length, seq_length, repeat_length.
  split; [split; [rewrite Em, Z.mul_comm; apply Z.mod_mul; lia|rewrite Ew; lia]|]. split; [apply Forall_forall; intros b Hb; now apply repeat_spec in Hb|]. split; [reflexivity|].
  assert (He : e = / 2 ^ 53) by (unfold e; f_equal; lra). assert (H0 : 0 < / 2 ^ 53) by (rewrite <- He; apply e_pos). assert (H49 : / 2 ^ 49 = 16 * e) by (unfold e; lra). assert (H50 : / 2 ^ 50 = 8 * e) by (unfold e; lra). rewrite H49, H50.
  assert (Htp : 0 < ideal_bits (IZR n) (B2R p)) by (destruct (raw_R lg Hlg n Hn p Hfin HP) as (_ & _ & H); exact H). pose proof e_pos.
  split; [split; nra|]. split; [lia|]. split; [exact Hk2|exact Hest].
Qed.

Lemma new_cnt lg wu wi rnd n p f : new lg wu wi rnd n p = Ret f -> f_cnt f = bit_count lg wu n p.
Proof.
  unfold new. cbv zeta. generalize (seed_count wi n (bit_count lg wu n p)) as k. generalize (bit_count lg wu n p) as m. intros m k.
  destruct (make_ok k); [|discriminate]. destruct (make_ok (m / 64)); [|discriminate]. simpl negb. cbv iota. generalize (repeat 0%Z (Z.to_nat (m / 64))) as b. intros b E. now injection E as <-.
Qed.
(** such filters are those of C23-C26: no false negatives, answers determined by the set bits *)
Theorem new_is_filter lg wu wi rnd n p f : accurate_log01 lg -> (1 <= n < 2 ^ 64)%Z -> is_finite p = true -> 0 < B2R p < 1 ->
  ideal_bits (IZR n) (B2R p) <= 2 ^ 50 -> new lg wu wi rnd n p = Ret f ->
  exists raw seeds, GoBase.is_u64 raw /\ f = BloomModel.bloom_new raw seeds /\ seeds <> nil /\
    forall h rest, Forall (fun o => o <> BloomModel.FClear) rest ->
      BloomModel.bloom_contains (snd (BloomModel.frun (BloomModel.FAdd h :: rest) f)) h = Ret true.
Proof.
  intros Hlg Hn Hfin HP HT E. destruct (new_exact lg wu wi rnd n p Hlg Hn Hfin HP HT) as (f' & E' & H). rewrite E in E'. injection E' as <-.
  destruct (bits_number lg Hlg wu n Hn p Hfin HP HT) as (w & Em & Hw & Hm). cbv zeta in H. destruct H as ((_ & Hlen) & Hz & Hs & _ & Hk & _).
  assert (Ef : f_cnt f = bit_count lg wu n p). { exact (new_cnt _ _ _ _ _ _ _ E). }
  exists (f_cnt f), (f_seeds f). assert (Hr : GoBase.is_u64 (f_cnt f)) by (unfold GoBase.is_u64; lia).
  assert (Er : BloomModel.round_bits (f_cnt f) = f_cnt f). { destruct (round_bits_small (f_cnt f)) as (w' & Ew & Hw' & _); [lia|]. lia. }
  assert (Hf : f = BloomModel.bloom_new (f_cnt f) (f_seeds f)).
  { unfold BloomModel.bloom_new. rewrite Er. destruct (base.decide (f_cnt f = 0%Z)) as [H0|H0]; [lia|]. destruct f as [b c s]. cbn [BloomModel.f_bits BloomModel.f_cnt BloomModel.f_seeds] in *. f_equal.
    assert (Hb : length b = Z.to_nat (c / 64)) by lia. rewrite <- Hb. clear - Hz. induction Hz as [|x b -> _ IH]; [reflexivity|]. simpl. now rewrite <- IH. }
  split; [exact Hr|]. split; [exact Hf|]. split; [intros H0; rewrite H0 in Hk; simpl in Hk; lia|].
  intros h rest Hrest. rewrite Hf. apply (BloomProps.bloom_no_false_negative (f_cnt f) (f_seeds f) nil rest h nil Hr Hrest).
Qed.

(** ** the estimate is not below the rate asked for *)
Lemma bits_1000 lg wu : accurate_log01 lg -> bit_count lg wu 1000 half = 1472%Z.
Proof.
  intros Hlg. destruct half_R as [Hf Hh]. pose proof ln2_bounds as Hl.
  assert (ET : ideal_bits (IZR 1000) (B2R half) * ln 2 = 1000). { unfold ideal_bits. rewrite Hh, Rinv_inv. field. lra. }
  assert (HT : 1442 <= ideal_bits (IZR 1000) (B2R half) <= 1443) by nra.
  destruct (bits_number lg Hlg wu 1000 ltac:(lia) half Hf ltac:(rewrite Hh; lra) ltac:(assert (2 ^ 50 = 1125899906842624) by lra; lra)) as (w & Em & Hw & Hm).
  rewrite Em in *. rewrite mult_IZR in Hm. unfold e in Hm. assert (22 < w < 24)%Z by (split; apply lt_IZR; nra). lia.
Qed.
Theorem new_estimate_refuted lg wu wi rnd : accurate_log01 lg -> exists f, new lg wu wi rnd 1000 half = Ret f /\ B2R half = / 2 /\
  f_cnt f = 1472%Z /\ length (f_seeds f) = 2%nat /\ / 2 < estimate 1000 (IZR (f_cnt f)) (length (f_seeds f)).
Proof.
  intros Hlg. destruct half_R as [Hf Hh]. pose proof ln2_bounds as Hl.
  assert (ET : ideal_bits (IZR 1000) (B2R half) * ln 2 = 1000). { unfold ideal_bits. rewrite Hh, Rinv_inv. field. lra. }
  assert (HT : ideal_bits (IZR 1000) (B2R half) <= 2 ^ 50). { assert (2 ^ 50 = 1125899906842624) by lra. nra. }
  destruct (new_exact lg wu wi rnd 1000 half Hlg ltac:(lia) Hf ltac:(rewrite Hh; lra) HT) as (f & E & H). exists f. split; [exact E|]. split; [exact Hh|]. cbv zeta in H. destruct H as (_ & _ & _ & _ & Hk & Hk2 & _).
  assert (Ef : f_cnt f = 1472%Z). { rewrite <- (bits_1000 lg wu Hlg). exact (new_cnt _ _ _ _ _ _ _ E). }
  split; [exact Ef|]. rewrite Ef in *. assert (H50 : 2 ^ 50 = 1125899906842624) by lra. rewrite H50 in Hk2. unfold ideal_hashes in Hk2.
  assert (Hk3 : length (f_seeds f) = 2%nat). { rewrite INR_IZR_INZ in Hk2. assert (1 < Z.of_nat (length (f_seeds f)) < 3)%Z by (split; apply lt_IZR; lra). lia. }
  split; [exact Hk3|]. rewrite Hk3. unfold estimate. simpl (INR 2).
  assert (Hex : 35 / 10 <= exp (2000 / 1472)). { replace (2000 / 1472) with (INR 8 * (250 / 1472)) by (simpl; lra). pose proof (exp_ineq1_le (250 / 1472)) as Hi. assert (Hp : exp (INR 8 * (250 / 1472)) = exp (250 / 1472) ^ 8). { rewrite <- (Rpower_pow 8) by apply exp_pos. unfold Rpower. now rewrite ln_exp. } rewrite Hp. apply Rle_trans with ((1 + 250 / 1472) ^ 8); [lra|]. apply pow_incr. lra. }
  replace ((1 + 1) * 1000 / 1472) with (2000 / 1472) by lra. rewrite exp_Ropp. assert (/ exp (2000 / 1472) <= / (35 / 10)) by (apply Rinv_le_contravar; lra). assert (/ (35 / 10) = 2 / 7) by lra. simpl pow. nra.
Qed.

(** ** rates that are no rates, and capacity 0: accepted, and the filter then contains everything *)
Definition all_of (f : BloomModel.filter) : Prop := forall h, BloomModel.bloom_contains f h = Ret true.
Theorem new_degenerate_refuted lg rnd : lg (of_Z 1) = B754_zero false -> lg (B754_zero false) = B754_infinity true ->
  (* rate 1 *)
  (exists f, new lg amd64_u64 amd64_int rnd 1000 (of_Z 1) = Ret f /\ all_of f) /\
  (* rate 0 *)
  (exists f, new lg amd64_u64 amd64_int rnd 1000 (B754_zero false) = Ret f /\ all_of f) /\
  (* rate 2 *)
  (exists f, new go_log amd64_u64 amd64_int rnd 1 (of_Z 2) = Ret f /\ all_of f) /\
  new go_log amd64_u64 amd64_int rnd 100 (of_Z 2) = GoBase.Panic GoBase.PMake /\
  (* capacity 0 *)
  new go_log amd64_u64 amd64_int rnd 0 half = GoBase.Panic GoBase.PMake.
Proof.
  intros H1 H0. assert (Hall : forall b c, all_of (BloomModel.Filter b c nil)) by (intros b c h; reflexivity).
  split; [|split; [|split; [|split]]].
  - exists (BloomModel.Filter nil 0 nil). split; [|apply Hall]. unfold new, bit_count, raw_bits. rewrite H1. vm_compute. reflexivity.
  - exists (BloomModel.Filter nil 0 nil). split; [|apply Hall]. unfold new, bit_count, raw_bits. rewrite H0. vm_compute. reflexivity.
  - exists (BloomModel.Filter nil 0 nil). split; [|apply Hall]. vm_compute. reflexivity.
  - vm_compute. reflexivity.
  - vm_compute. reflexivity.
Qed.

(** ** examples *)
(** there is an accurate logarithm: the correctly rounded one *)
Lemma best_log_accurate01 : accurate_log01 best_log.
Proof.
  intros x Hx Hf. pose proof (rate_low x Hf) as Hlo. pose proof (rate_high x Hx Hf) as Hhi. rewrite ln_Rinv in Hlo, Hhi by lra. set (y := ln (B2R x)) in *.
  pose proof (binary_normalize_correct prec emax prec_pos prec_emax mode_NE (ZnearestE (scaled_mantissa radix2 fexp y)) (cexp radix2 fexp y) false) as H. cbv zeta in H. change (F2R (Float radix2 (ZnearestE (scaled_mantissa radix2 fexp y)) (cexp radix2 fexp y))) with (RN y) in H.
  change (round radix2 (SpecFloat.fexp prec emax) (round_mode mode_NE) (RN y)) with (RN (RN y)) in H. rewrite (RN_F (RN y) (F_RN y)) in H. assert (Hy : Rabs y <= bpow radix2 1000). { rewrite <- Rabs_Ropp. apply huge. assert (2 ^ 100 = 1267650600228229401496703205376) by lra. unfold e in Hlo. lra. } rewrite no_overflow in H by exact Hy. destruct H as (H1 & H2 & _). split; [exact H2|].
  unfold best_log. fold y. rewrite H1. apply Rle_trans with (/ 2 * bpow radix2 (- 53 + 1) * Rabs y).
  - apply relative_error_N_FLT; [reflexivity|]. apply Rle_trans with (bpow radix2 (-53)); [apply bpow_le; lia|]. rewrite Rabs_left by (unfold e in *; lra). rewrite e_eq. exact Hlo.
  - apply Rmult_le_compat_r; [apply Rabs_pos|]. change (- 53 + 1)%Z with (-52)%Z. rewrite e52_eq. unfold e52. lra.
Qed.
Example new_estimate_ex rnd : exists f, new best_log (fun _ => 0%Z) (fun _ => 0%Z) rnd 1000 half = Ret f /\ / 2 < estimate 1000 1472 2.
Proof. destruct (new_estimate_refuted best_log (fun _ => 0%Z) (fun _ => 0%Z) rnd best_log_accurate01) as (f & E & _ & Ec & Ek & H). exists f. split; [exact E|]. now rewrite Ec, Ek in H. Qed.
(** a million elements at one per cent: 9585088 bits and 7 hash functions *)
Example new_ex : bit_count go_log amd64_u64 1000000 (of_quot 1 100) = 9585088%Z /\ seed_count amd64_int 1000000 9585088 = 7%Z /\ bit_count go_log amd64_u64 1000 half = 1472%Z /\ seed_count amd64_int 1000 1472 = 2%Z.
Proof. vm_compute. repeat split. Qed.
Print Assumptions new_exact.
