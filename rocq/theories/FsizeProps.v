(** * Properties of FileSize *)
From Coq Require Import ZArith Reals Lra Lia Bool List.
From Flocq Require Import Core Relative IEEE754.BinarySingleNaN.
From Verif Require Import GoBase GoStr ConvModel ConvSpec ConvProps RoundModel RoundSpec RoundProps Log2Model Log2Props BnewModel BnewReal FsizeModel FsizeSpec FsizeReal.
Import ListNotations.
Open Scope R_scope.

(** ** decimal text *)
Lemma half_even_near n d : (0 < d)%Z -> (2 * Z.abs (half_even n d * d - n) <= d)%Z.
Proof.
  intros Hd. unfold half_even. cbv zeta. pose proof (Z.div_mod n d ltac:(lia)) as H. pose proof (Z.mod_pos_bound n d Hd) as Hm.
  set (q := (n / d)%Z) in *. set (r := (n mod d)%Z) in *. destruct (Z.ltb_spec (2 * r) d) as [H1|H1]; cbn [orb]; [nia|]. destruct (Z.eqb_spec (2 * r) d) as [H2|H2]; cbn [andb]; [destruct (Z.even q); nia|nia].
Qed.
Lemma scaled_near d m e : Rabs (IZR (scaled d m e) - F2R (Float radix2 (Zpos m) e) * IZR (10 ^ Z.of_nat d)) <= / 2.
Proof.
  unfold scaled, F2R. cbv zeta. cbn [Fnum Fexp]. destruct (Z.leb_spec 0 e) as [He|He].
  - rewrite !mult_IZR. rewrite <- (IZR_Zpower radix2 e) by lia. change (radix2 : Z) with 2%Z. replace (_ - _) with 0 by ring. rewrite Rabs_R0. lra.
  - set (n := (Zpos m * 10 ^ Z.of_nat d)%Z). set (b := (2 ^ (- e))%Z). assert (Hb : (0 < b)%Z) by (apply Z.pow_pos_nonneg; lia). pose proof (half_even_near n b Hb) as H. set (h := half_even n b) in *.
    assert (Hb' : 0 < IZR b) by now apply IZR_lt. assert (Eb : bpow radix2 e = / IZR b). { unfold b. change 2%Z with (radix2 : Z). rewrite IZR_Zpower by lia. rewrite <- bpow_opp. f_equal. lia. }
    rewrite Eb. replace (IZR h - IZR (Z.pos m) * / IZR b * IZR (10 ^ Z.of_nat d)) with ((IZR h * IZR b - IZR n) / IZR b) by (unfold n; rewrite mult_IZR; field; lra).
    unfold Rdiv. rewrite Rabs_mult, (Rabs_pos_eq (/ IZR b)) by (left; now apply Rinv_0_lt_compat). apply Rmult_le_reg_r with (IZR b); [exact Hb'|]. rewrite Rmult_assoc, Rinv_l, Rmult_1_r by lra.
    apply IZR_le in H. rewrite mult_IZR, abs_IZR, minus_IZR, mult_IZR in H. lra.
Qed.
(** from half way to the even neighbour *)
Lemma half_even_tie n d : (0 < d)%Z -> (2 * Z.abs (half_even n d * d - n) = d)%Z -> Z.even (half_even n d) = true.
Proof.
  intros Hd. unfold half_even. cbv zeta. pose proof (Z.div_mod n d ltac:(lia)) as H. pose proof (Z.mod_pos_bound n d Hd) as Hm.
  set (q := (n / d)%Z) in *. set (r := (n mod d)%Z) in *. destruct (Z.ltb_spec (2 * r) d) as [H1|H1]; cbn [orb]; [intros; exfalso; nia|]. destruct (Z.eqb_spec (2 * r) d) as [H2|H2]; cbn [andb].
  - destruct (Z.even q) eqn:E; intros _; [exact E|]. rewrite Z.add_1_r, Z.even_succ, <- Z.negb_even, E. reflexivity.
  - intros; exfalso; nia.
Qed.
Lemma scaled_tie d m e : Rabs (IZR (scaled d m e) - F2R (Float radix2 (Zpos m) e) * IZR (10 ^ Z.of_nat d)) = / 2 -> Z.even (scaled d m e) = true.
Proof.
  unfold scaled, F2R. cbv zeta. cbn [Fnum Fexp]. destruct (Z.leb_spec 0 e) as [He|He].
  - rewrite !mult_IZR. rewrite <- (IZR_Zpower radix2 e) by lia. change (radix2 : Z) with 2%Z. replace (_ - _) with 0 by ring. rewrite Rabs_R0. lra.
  - set (n := (Zpos m * 10 ^ Z.of_nat d)%Z). set (b := (2 ^ (- e))%Z). assert (Hb : (0 < b)%Z) by (apply Z.pow_pos_nonneg; lia). intros HT. apply half_even_tie; [exact Hb|]. set (h := half_even n b) in *.
    assert (Hb' : 0 < IZR b) by now apply IZR_lt. assert (Eb : bpow radix2 e = / IZR b). { unfold b. change 2%Z with (radix2 : Z). rewrite IZR_Zpower by lia. rewrite <- bpow_opp. f_equal. lia. }
    rewrite Eb in HT. replace (IZR h - IZR (Z.pos m) * / IZR b * IZR (10 ^ Z.of_nat d)) with ((IZR h * IZR b - IZR n) / IZR b) in HT by (unfold n; rewrite mult_IZR; field; lra).
    unfold Rdiv in HT. rewrite Rabs_mult, (Rabs_pos_eq (/ IZR b)) in HT by (left; now apply Rinv_0_lt_compat). apply eq_IZR. rewrite mult_IZR, abs_IZR, minus_IZR, mult_IZR.
    replace (Rabs (IZR h * IZR b - IZR n)) with (Rabs (IZR h * IZR b - IZR n) * / IZR b * IZR b) by (field; lra). rewrite HT. lra.
Qed.
Lemma padded_ok d : forall n, (0 <= n < 10 ^ Z.of_nat d)%Z -> Forall digit (padded d n) /\ length (padded d n) = d /\ forall a, value_from a (padded d n) = (a * 10 ^ Z.of_nat d + n)%Z.
Proof.
  induction d as [|d IH]; intros n Hn; [split; [constructor|]; split; [reflexivity|]; intros a; simpl in *; lia|]. rewrite Nat2Z.inj_succ, Z.pow_succ_r in * by lia. cbn [padded].
  pose proof (Z.div_mod n 10 ltac:(lia)) as H. pose proof (Z.mod_pos_bound n 10 ltac:(lia)) as Hm. destruct (IH (n / 10)%Z) as (H1 & H2 & H3); [lia|]. split; [|split].
  - apply Forall_app. split; [exact H1|]. constructor; [unfold digit; lia|constructor].
  - rewrite app_length, H2. simpl. lia.
  - intros a. rewrite value_from_app, H3. simpl. lia.
Qed.
Lemma fixed_text_number d n : (0 <= n < 10 ^ Z.of_nat 400)%Z -> number (fixed_text d n) d n.
Proof.
  intros Hn. pose proof (Z.pow_pos_nonneg 10 (Z.of_nat d) ltac:(lia) ltac:(lia)) as HP. set (b := (10 ^ Z.of_nat d)%Z) in *.
  pose proof (Z.div_mod n b ltac:(lia)) as H. pose proof (Z.mod_pos_bound n b HP) as Hm. assert (Hq : (0 <= n / b)%Z) by (apply Z.div_pos; lia).
  destruct (fmt_digits_ok 400 (n / b)) as (W1 & W2 & W3 & W4); [split; [exact Hq|]; eapply Z.le_lt_trans; [|apply Hn]; apply Z.div_le_upper_bound; nia|lia|]. destruct (padded_ok d (n mod b)) as (P1 & P2 & P3); [fold b; lia|].
  exists (fmt_digits 400 (n / b)), (padded d (n mod b)). repeat split; [exact W1|exact W2|exact W4|exact P1|exact P2|]. unfold value in *. rewrite value_from_app, W3, P3. fold b. lia.
Qed.
Lemma fmt_f_number d x : is_finite x = true -> 0 < B2R x <= 2048 -> (d <= 1)%nat ->
  exists m, fmt_f d x = fixed_text d m /\ number (fixed_text d m) d m /\ Rabs (IZR m - B2R x * IZR (10 ^ Z.of_nat d)) <= / 2 /\
    (Rabs (IZR m - B2R x * IZR (10 ^ Z.of_nat d)) = / 2 -> Z.even m = true).
Proof.
  intros Hf Hx Hd. destruct x as [s|s| |s m e He]; simpl in Hf; try discriminate; [simpl in Hx; lra|]. destruct s.
  { exfalso. destruct Hx as [Hx _]. assert (F2R (Float radix2 (- Zpos m) e) < 0) by now apply F2R_lt_0. simpl in *. lra. }
  pose proof (scaled_near d m e) as H. exists (scaled d m e). split; [reflexivity|]. split; [|split; [exact H|exact (scaled_tie d m e)]]. apply fixed_text_number. cbn [B2R cond_Zopp] in Hx. set (v := F2R (Float radix2 (Zpos m) e)) in *.
  assert (H10 : 1 <= IZR (10 ^ Z.of_nat d) <= 10) by (clear -Hd; split; apply IZR_le; destruct d as [|[|]]; vm_compute; (discriminate || lia)). apply Rabs_le_inv in H. assert (v * IZR (10 ^ Z.of_nat d) <= 20480) by nra. assert (0 < v * IZR (10 ^ Z.of_nat d)) by nra.
  assert (-1 < scaled d m e < 20481)%Z as Hs by (split; apply lt_IZR; lra). split; [lia|]. eapply Z.lt_trans; [apply Hs|]. reflexivity.
Qed.

(** ** the theorems *)
Definition fraction (d : nat) : R := / IZR (10 ^ Z.of_nat d).
Lemma sizes_names z : (0 <= z <= 6)%Z -> nth_error sizes (Z.to_nat z) = Some (unit_name z).
Proof. intros Hz. assert (z = 0 \/ z = 1 \/ z = 2 \/ z = 3 \/ z = 4 \/ z = 5 \/ z = 6)%Z as [-> |[-> |[-> |[-> |[-> |[-> | ->]]]]]] by lia; reflexivity. Qed.
Lemma of_Z_rel s : (10 <= s < 2 ^ 64)%Z -> is_finite (of_Z s) = true /\ 10 <= B2R (of_Z s) <= 18446744073709551616 /\ Rabs (B2R (of_Z s) - IZR s) <= IZR s * e /\ ((s <= 2 ^ 53)%Z -> B2R (of_Z s) = IZR s).
Proof.
  intros Hs. destruct (of_Z_R s) as [F1 F2]; [lia|]. split; [exact F1|]. rewrite F2. assert (Hs' : 10 <= IZR s <= 18446744073709551616) by (split; apply IZR_le; lia). split; [|split].
  - split; [rewrite <- (RN_F 10) by (apply (F_IZR 10); discriminate); apply RN_le; lra|]. rewrite <- (RN_F 18446744073709551616); [apply RN_le; lra|]. replace 18446744073709551616 with (IZR 1 * bpow radix2 64) by (simpl; lra). apply F_mult; lia.
  - destruct (RN_rel (IZR s)) as (d & Hd & E); [apply tiny; pose proof pow_consts; unfold e in *; lra|]. rewrite E, e_eq in *. replace (IZR s * (1 + d) - IZR s) with (IZR s * d) by ring. rewrite Rabs_mult, Rabs_pos_eq by lra. apply Rmult_le_compat_l; lra.
  - intros H53. apply RN_F, F_IZR. lia.
Qed.
Theorem humanate_number lg wi s : accurate_log_up lg -> (10 <= s < 2 ^ 64)%Z ->
  exists t d m z, humanate_bytes lg wi s (of_Z 1024) sizes = Ret (t ++ str " " ++ unit_name z) /\ number t d m /\ (0 <= z <= 6)%Z /\
    (* two digits at least, and one digit after the point or none *)
    ((d = 1%nat /\ 10 <= m <= 100) \/ (d = 0%nat /\ 10 <= m <= 1024))%Z /\
    (* within half a unit of the last digit *)
    Rabs (IZR m * fraction d * IZR (1024 ^ z) - IZR s) <= / 2 * fraction d * IZR (1024 ^ z) + (if (s <=? 2 ^ 53)%Z then 0 else IZR s * bpow radix2 (-53)) /\
    (* from half way to the even digit *)
    ((s <= 2 ^ 53)%Z -> Rabs (IZR m * fraction d * IZR (1024 ^ z) - IZR s) = / 2 * fraction d * IZR (1024 ^ z) -> Z.even m = true) /\
    (* the unit is the right one, but for sizes next to a power of 1024 *)
    IZR (1024 ^ z) * (1 - bpow radix2 (-44)) <= IZR s <= IZR (1024 ^ (z + 1)) * (1 + bpow radix2 (-44)).
Proof.
  intros Hlg Hs. destruct (of_Z_rel s Hs) as (F1 & F2 & F3 & F4). destruct (exponent lg Hlg (of_Z s) F1 F2) as (z & Hz & _ & E1 & E2 & E3). set (x := of_Z s) in *. set (ee := ffloor (logn lg x (of_Z 1024))) in *.
  destruct (ffloor_R ee) as [E4 E5]. rewrite E2, Zfloor_IZR in E5. destruct (val_R x (ffloor ee) z F1 F2 Hz E5) as [V1 V2]. set (v := fdiv x (fpow (of_Z 1024) (ffloor ee))) in *.
  set (P := IZR (1024 ^ z)) in *. assert (HP : 1 <= P) by (apply (IZR_le 1); pose proof (Z.pow_pos_nonneg 1024 z); lia). assert (EP : IZR (1024 ^ (z + 1)) = 1024 * P) by (unfold P; rewrite Z.pow_add_r, mult_IZR by lia; change (IZR (1024 ^ 1)) with 1024; ring). rewrite EP in *.
  assert (Ev : B2R x = B2R v * P) by (rewrite V2; field; lra). pose proof e_pos as He. assert (He' : e <= / 1000000000) by (unfold e; lra).
  assert (Hv : 1 - 300 * e <= B2R v <= 1024 * (1 + 400 * e)). { rewrite Ev in E3. split; (apply Rmult_le_reg_r with P; [lra|]); lra. }
  set (d := if Bltb v (of_Z 10) then 1%nat else 0%nat). assert (Hd : (d <= 1)%nat) by (unfold d; destruct (Bltb _ _); lia).
  destruct (fmt_f_number d v V1 ltac:(lra) Hd) as (m & T1 & T2 & T3 & T4).
  exists (fixed_text d m), d, m, z. split; [|split; [exact T2|split; [exact Hz|split; [|split; [|split]]]]].
  - unfold humanate_bytes. destruct (Z.ltb_spec s 10); [lia|]. cbv zeta. fold x ee. unfold to_int. rewrite Btrunc_Z, E2, Ztrunc_IZR, E1. destruct (Z.leb_spec (- 2 ^ 63) z), (Z.ltb_spec z (2 ^ 63)); try lia. cbn [andb]. destruct (Z.ltb_spec z 0); [lia|].
    rewrite sizes_names by lia. fold v. fold d. now rewrite T1.
  - destruct (of_Z_R 10) as [G1 G2]; [discriminate|]. rewrite RN_F in G2 by (apply F_IZR; discriminate). pose proof (Bltb_correct prec emax v (of_Z 10) V1 G1) as HB. rewrite G2 in HB. unfold d in T3 |- *. rewrite HB in T3 |- *. apply Rabs_le_inv in T3. destruct (Rlt_bool_spec (B2R v) 10) as [Hlt|Hge].
    + left. split; [reflexivity|]. change (IZR (10 ^ Z.of_nat 1)) with 10 in T3. assert (9 < m < 101)%Z; [|lia]. split; apply lt_IZR; lra.
    + right. split; [reflexivity|]. change (IZR (10 ^ Z.of_nat 0)) with 1 in T3. assert (9 < m < 1025)%Z; [|lia]. split; apply lt_IZR; lra.
  - rewrite e_eq. fold P. unfold fraction. set (D := IZR (10 ^ Z.of_nat d)) in *. assert (HD : 1 <= D) by (apply (IZR_le 1); pose proof (Z.pow_pos_nonneg 10 (Z.of_nat d)); lia).
    replace (IZR m * / D * P - IZR s) with ((IZR m - B2R v * D) * (/ D * P) + (B2R x - IZR s)) by (rewrite Ev; field; lra). assert (HDP : 0 < / D * P) by (apply Rmult_lt_0_compat; [apply Rinv_0_lt_compat|]; lra).
    eapply Rle_trans; [apply Rabs_triang|]. apply Rplus_le_compat.
    + rewrite Rabs_mult, (Rabs_pos_eq (/ D * P)) by lra. rewrite Rmult_assoc. apply Rmult_le_compat_r; lra.
    + destruct (Z.leb_spec s (2 ^ 53)); [rewrite F4 by lia; rewrite Rminus_diag_eq by reflexivity; rewrite Rabs_R0; lra|exact F3].
  - intros H53 HT. apply T4. unfold fraction in HT. fold P in HT. set (D := IZR (10 ^ Z.of_nat d)) in *. assert (HD : 1 <= D) by (apply (IZR_le 1); pose proof (Z.pow_pos_nonneg 10 (Z.of_nat d)); lia).
    assert (HDP : 0 < / D * P) by (apply Rmult_lt_0_compat; [apply Rinv_0_lt_compat|]; lra). rewrite <- (F4 H53), Ev in HT.
    replace (IZR m * / D * P - B2R v * P) with ((IZR m - B2R v * D) * (/ D * P)) in HT by (field; lra). rewrite Rabs_mult, (Rabs_pos_eq (/ D * P)) in HT by lra. apply Rmult_eq_reg_r with (/ D * P); [rewrite HT; ring|lra].
  - rewrite EP. fold P. apply Rabs_le_inv in F3. replace (bpow radix2 (-44)) with (512 * e) by (unfold e; simpl; lra). assert (0 < IZR s) by (apply IZR_lt; lia). split; unfold e in *; nra.
Qed.
(** sizes below 10 bytes *)
Theorem file_size_small lg wi s : (0 <= s < 10)%Z -> exists t, file_size lg wi s = Ret (t ++ str " B") /\ number t 0 s.
Proof.
  intros Hs. exists (fmt_digits 20 s). unfold file_size, humanate_bytes. rewrite (u64_id s) by (unfold is_u64; lia). destruct (Z.ltb_spec s 10); [|lia]. split; [reflexivity|].
  destruct (fmt_digits_ok 20 s) as (W1 & W2 & W3 & W4); [lia|lia|]. exists (fmt_digits 20 s), []. rewrite !app_nil_r. repeat split; auto.
Qed.
Lemma file_size_is lg wi s : (0 <= s < 2 ^ 63)%Z -> file_size lg wi s = humanate_bytes lg wi s (of_Z 1024) sizes.
Proof. intros Hs. unfold file_size. now rewrite (u64_id s) by (unfold is_u64; lia). Qed.
(** the sizes that a file can have *)
Theorem file_size_number lg wi s : accurate_log_up lg -> (10 <= s < 2 ^ 63)%Z ->
  exists t d m z, file_size lg wi s = Ret (t ++ str " " ++ unit_name z) /\ number t d m /\ (0 <= z <= 6)%Z /\
    (* two digits at least, and one digit after the point or none *)
    ((d = 1%nat /\ 10 <= m <= 100) \/ (d = 0%nat /\ 10 <= m <= 1024))%Z /\
    (* within half a unit of the last digit *)
    Rabs (IZR m * fraction d * IZR (1024 ^ z) - IZR s) <= / 2 * fraction d * IZR (1024 ^ z) + (if (s <=? 2 ^ 53)%Z then 0 else IZR s * bpow radix2 (-53)) /\
    (* from half way to the even digit *)
    ((s <= 2 ^ 53)%Z -> Rabs (IZR m * fraction d * IZR (1024 ^ z) - IZR s) = / 2 * fraction d * IZR (1024 ^ z) -> Z.even m = true) /\
    (* the unit is the right one, but for sizes next to a power of 1024 *)
    IZR (1024 ^ z) * (1 - bpow radix2 (-44)) <= IZR s <= IZR (1024 ^ (z + 1)) * (1 + bpow radix2 (-44)).
Proof. intros Hlg Hs. rewrite file_size_is by lia. apply humanate_number; [exact Hlg|lia]. Qed.
Lemma pow_cases k : (0 <= k <= 7)%Z -> (1024 ^ k = 1 \/ 1024 ^ k = 1024 \/ 1024 ^ k = 1048576 \/ 1024 ^ k = 1073741824 \/ 1024 ^ k = 1099511627776 \/ 1024 ^ k = 1125899906842624 \/ 1024 ^ k = 1152921504606846976 \/ 1024 ^ k = 1180591620717411303424)%Z.
Proof. intros Hk. assert (k = 0 \/ k = 1 \/ k = 2 \/ k = 3 \/ k = 4 \/ k = 5 \/ k = 6 \/ k = 7)%Z as [-> |[-> |[-> |[-> |[-> |[-> |[-> | ->]]]]]]] by lia; vm_compute; tauto. Qed.

(** the unit *)
Theorem file_size_unit lg wi s : accurate_log_up lg -> (10 <= s < 2 ^ 63)%Z ->
  (forall k, (0 <= k <= 7)%Z -> ~ Rabs (IZR s - IZR (1024 ^ k)) <= IZR (1024 ^ k) * bpow radix2 (-44)) ->
  exists t z, file_size lg wi s = Ret (t ++ str " " ++ unit_name z) /\ (exists d m, number t d m) /\ right_unit s z.
Proof.
  intros Hlg Hs Hk. rewrite file_size_is by lia. destruct (humanate_number lg wi s Hlg ltac:(lia)) as (t & d & m & z & H1 & H2 & Hz & _ & _ & _ & H3 & H4). exists t, z. split; [exact H1|]. split; [now exists d, m|].
  pose proof (Hk z ltac:(lia)) as K1. pose proof (Hk (z + 1)%Z ltac:(lia)) as K2. split; [lia|]. set (u := bpow radix2 (-44)) in *. assert (Hu : 0 < u) by apply bpow_gt_0.
  assert (0 < IZR (1024 ^ z)) by (apply IZR_lt, Z.pow_pos_nonneg; lia). assert (0 < IZR (1024 ^ (z + 1))) by (apply IZR_lt, Z.pow_pos_nonneg; lia). split.
  - apply le_IZR. destruct (Rle_or_lt (IZR (1024 ^ z)) (IZR s)) as [|Hlt]; [assumption|]. exfalso. apply K1. apply Rabs_le. split; nra.
  - apply lt_IZR. destruct (Rle_or_lt (IZR (1024 ^ (z + 1))) (IZR s)) as [Hge|]; [|assumption]. exfalso. apply K2. apply Rabs_le. split; nra.
Qed.
Lemma not_near s k : (0 <= k <= 7)%Z -> (0 <= s < 2 ^ 50 - 64)%Z -> s <> (1024 ^ k)%Z -> ~ Rabs (IZR s - IZR (1024 ^ k)) <= IZR (1024 ^ k) * bpow radix2 (-44).
Proof.
  intros Hk Hs Hne H. rewrite <- minus_IZR in H. rewrite <- abs_IZR in H. change (bpow radix2 (-44)) with (/ 17592186044416) in H.
  assert (Hi : (Z.abs (s - 1024 ^ k) * 17592186044416 <= 1024 ^ k)%Z) by (apply le_IZR; rewrite mult_IZR; lra).
  destruct (pow_cases k Hk) as [E|[E|[E|[E|[E|[E|[E|E]]]]]]]; rewrite E in *; lia.
Qed.
Theorem file_size_unit_below lg wi s : accurate_log_up lg -> (10 <= s < 2 ^ 50 - 64)%Z -> (forall k, s <> 1024 ^ k)%Z ->
  exists t z, file_size lg wi s = Ret (t ++ str " " ++ unit_name z) /\ (exists d m, number t d m) /\ right_unit s z.
Proof. intros Hlg Hs Hk. apply file_size_unit; [exact Hlg|lia|]. intros k Hk7. apply not_near; [exact Hk7|lia|apply Hk]. Qed.

(** a number of 1024, though the next unit is there for that *)
Theorem file_size_1024_refuted : (forall lg wi, accurate_log_up lg -> exists t, file_size lg wi 1048575 = Ret (t ++ str " KB") /\ number t 0 1024) /\
  (forall wi, file_size go_log wi 1048575 = Ret (str "1024 KB")).
Proof.
  split; [|intros wi; vm_compute; reflexivity]. intros lg wi Hlg. rewrite file_size_is by lia. destruct (humanate_number lg wi 1048575 Hlg ltac:(lia)) as (t & d & m & z & H1 & H2 & Hz & H3 & H4 & _ & H5 & H6). exists t.
  change (bpow radix2 (-44)) with (/ 17592186044416) in *. assert (z = 1)%Z as ->.
  { assert (1024 ^ z * (17592186044416 - 1) <= 1048575 * 17592186044416)%Z by (apply le_IZR; rewrite !mult_IZR, minus_IZR; lra). assert (1048575 * 17592186044416 <= 1024 ^ (z + 1) * (17592186044416 + 1))%Z by (apply le_IZR; rewrite !mult_IZR, plus_IZR; lra).
    rewrite Z.pow_add_r in * by lia. assert (z = 0 \/ z = 1 \/ z = 2 \/ z = 3 \/ z = 4 \/ z = 5 \/ z = 6)%Z as [-> |[-> |[-> |[-> |[-> |[-> | ->]]]]]] by lia; lia. }
  change (1048575 <=? 2 ^ 53)%Z with true in H4. change (IZR (1024 ^ 1)) with 1024 in H4. apply Rabs_le_inv in H4. unfold fraction in H4. destruct H3 as [[-> Hm]|[-> Hm]].
  - change (IZR (10 ^ Z.of_nat 1)) with 10 in H4. assert (IZR m <= 100) by (apply IZR_le; lia). lra.
  - change (IZR (10 ^ Z.of_nat 0)) with 1 in H4. rewrite Rinv_1 in H4. assert (m = 1024)%Z as ->; [|split; [exact H1|exact H2]]. assert (1023 < m < 1025)%Z; [|lia]. split; apply lt_IZR; lra.
Qed.
(** negative sizes are taken for huge ones *)
Theorem file_size_negative_refuted : (forall lg wi s, accurate_log_up lg -> (- 2 ^ 63 <= s < 0)%Z ->
    exists t d m, file_size lg wi s = Ret (t ++ str " EB") /\ number t d m /\ 8 <= IZR m * fraction d <= 16) /\
  (forall wi, file_size go_log wi (-1) = Ret (str "16 EB") /\ file_size go_log wi (- 2 ^ 63) = Ret (str "8.0 EB")).
Proof.
  split; [|intros wi; split; vm_compute; reflexivity]. intros lg wi s Hlg Hs. assert (Hu : u64 s = (s + 2 ^ 64)%Z). { unfold u64, wrap_u. symmetry. apply (Z.mod_unique_pos _ _ (-1)); lia. }
  unfold file_size. rewrite Hu. set (s' := (s + 2 ^ 64)%Z) in *. assert (Hs' : (2 ^ 63 <= s' < 2 ^ 64)%Z) by (unfold s'; lia).
  destruct (humanate_number lg wi s' Hlg ltac:(lia)) as (t & d & m & z & H1 & H2 & Hz & H3 & H4 & _ & H5 & H6). exists t, d, m.
  assert (Hr : 9223372036854775808 <= IZR s' <= 18446744073709551616) by (split; apply IZR_le; lia).
  change (bpow radix2 (-44)) with (/ 17592186044416) in *. assert (z = 6)%Z as ->.
  { assert (9223372036854775808 * 17592186044416 <= 1024 ^ (z + 1) * (17592186044416 + 1))%Z by (apply le_IZR; rewrite !mult_IZR, plus_IZR; lra).
    rewrite Z.pow_add_r in * by lia. assert (z = 0 \/ z = 1 \/ z = 2 \/ z = 3 \/ z = 4 \/ z = 5 \/ z = 6)%Z as [-> |[-> |[-> |[-> |[-> |[-> | ->]]]]]] by lia; lia. }
  split; [exact H1|]. split; [exact H2|]. destruct (Z.leb_spec s' (2 ^ 53)); [lia|]. change (bpow radix2 (-53)) with (/ 9007199254740992) in *. change (IZR (1024 ^ 6)) with 1152921504606846976 in H4. apply Rabs_le_inv in H4. unfold fraction in *. destruct H3 as [[-> Hm]|[-> Hm]].
  - change (IZR (10 ^ Z.of_nat 1)) with 10 in *. assert (IZR m <= 100) by (apply IZR_le; lia). assert (79 < m)%Z as Hm' by (apply lt_IZR; lra). assert (80 <= IZR m) by (apply IZR_le; lia). lra.
  - change (IZR (10 ^ Z.of_nat 0)) with 1 in *. rewrite Rinv_1 in *. assert (m < 17)%Z as Hm' by (apply lt_IZR; lra). assert (IZR m <= 16) by (apply IZR_le; lia). assert (10 <= IZR m) by (apply IZR_le; lia). lra.
Qed.
(** the powers of 1024 themselves, with the portable logarithm *)
Theorem file_size_powers wi : file_size go_log wi 1024 = Ret (str "1.0 KB") /\ file_size go_log wi (1024 ^ 2) = Ret (str "1.0 MB") /\ file_size go_log wi (1024 ^ 3) = Ret (str "1.0 GB") /\
  file_size go_log wi (1024 ^ 4) = Ret (str "1.0 TB") /\ file_size go_log wi (1024 ^ 5) = Ret (str "1.0 PB") /\ file_size go_log wi (1024 ^ 6) = Ret (str "1.0 EB").
Proof. repeat split; vm_compute; reflexivity. Qed.

(** ** examples *)
(** there is an accurate logarithm: the correctly rounded one *)
Lemma best_log_accurate_up : accurate_log_up best_log.
Proof.
  intros x Hx Hf. pose proof (ln_ge (B2R x) ltac:(lra)) as Hlo. pose proof (ln_le (B2R x) ltac:(lra)) as Hhi. assert (/ B2R x <= / 2) by (apply Rinv_le_contravar; lra). set (y := ln (B2R x)) in *.
  pose proof (binary_normalize_correct prec emax prec_pos prec_emax mode_NE (ZnearestE (scaled_mantissa radix2 fexp y)) (cexp radix2 fexp y) false) as H0. cbv zeta in H0. change (F2R (Float radix2 (ZnearestE (scaled_mantissa radix2 fexp y)) (cexp radix2 fexp y))) with (RN y) in H0.
  change (round radix2 (SpecFloat.fexp prec emax) (round_mode mode_NE) (RN y)) with (RN (RN y)) in H0. rewrite (RN_F (RN y) (F_RN y)) in H0. assert (Hy : Rabs y <= bpow radix2 1000). { apply huge. assert (2 ^ 100 = 1267650600228229401496703205376) by lra. lra. } rewrite no_overflow in H0 by exact Hy. destruct H0 as (H1 & H2 & _). split; [exact H2|].
  unfold best_log. fold y. rewrite H1. apply Rle_trans with (/ 2 * bpow radix2 (- 53 + 1) * Rabs y).
  - apply relative_error_N_FLT; [reflexivity|]. apply Rle_trans with (bpow radix2 (-1)); [apply bpow_le; lia|]. rewrite Rabs_pos_eq by lra. change (bpow radix2 (-1)) with (/ 2). lra.
  - apply Rmult_le_compat_r; [apply Rabs_pos|]. change (- 53 + 1)%Z with (-52)%Z. rewrite e52_eq. unfold e52. lra.
Qed.
Example file_size_ex wi : (exists t, file_size best_log wi 1048575 = Ret (t ++ str " KB") /\ number t 0 1024) /\
  file_size go_log wi 1500 = Ret (str "1.5 KB") /\ file_size go_log wi 1000 = Ret (str "1000 B") /\ file_size go_log wi 10239 = Ret (str "10.0 KB") /\ file_size go_log wi 7 = Ret (str "7 B") /\
  file_size go_log wi (2 ^ 50 - 1) = Ret (str "1.0 PB") /\ file_size go_log wi 2560 = Ret (str "2.5 KB") /\ file_size go_log wi 10752 = Ret (str "10 KB") /\ file_size go_log wi 11776 = Ret (str "12 KB").
Proof. split; [apply file_size_1024_refuted, best_log_accurate_up|]. repeat split; vm_compute; reflexivity. Qed.
