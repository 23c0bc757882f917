(** * GetTimeDir: the directory of a day *)
From Verif Require Import DateModel DateSpec ConvSpec ConvProps.
Local Open Scope Z_scope.

(** ** the calendar repeats every 400 years *)
Definition civil (d : Z) : date := let '(y, yd) := abs_year d in let '(m, dd) := month_day y yd in (y, m, dd).
Definition cycle : Z := 146097.
Lemma abs_year_shift d : abs_year d = let '(y, yd) := abs_year (d mod cycle) in (y + 400 * (d / cycle), yd).
Proof.
  unfold abs_year, days_per_400_years. change (365 * 400 + 97) with cycle. cbv zeta.
  assert (H : d mod cycle / cycle = 0) by (apply Z.div_small, Z.mod_pos_bound; done). rewrite H. rewrite Z.mul_0_r, Z.sub_0_r.
  rewrite (Z.mod_eq d cycle) by done. f_equal. lia.
Qed.
Lemma is_leap_shift y k : is_leap (y + 400 * k) = is_leap y.
Proof.
  unfold is_leap. replace ((y + 400 * k) mod 4) with (y mod 4) by (rewrite <- (Z_mod_plus_full y (100 * k) 4); f_equal; lia).
  replace ((y + 400 * k) mod 100) with (y mod 100) by (rewrite <- (Z_mod_plus_full y (4 * k) 100); f_equal; lia).
  replace ((y + 400 * k) mod 400) with (y mod 400) by (rewrite <- (Z_mod_plus_full y k 400); f_equal; lia). done.
Qed.
Definition shift_date (k : Z) (a : date) : date := let '(y, m, d) := a in (y + 400 * k, m, d).
Lemma civil_shift d : civil d = shift_date (d / cycle) (civil (d mod cycle)).
Proof.
  unfold civil. rewrite abs_year_shift. destruct (abs_year (d mod cycle)) as [y yd]. unfold month_day. rewrite is_leap_shift.
  destruct (is_leap y && (yd =? 31 + 29 - 1)); [done|]. destruct (if _ <=? _ then _ else _). done.
Qed.
(** ** one cycle is checked by computation *)
Definition mlen (y m : Z) : Z := if m =? 2 then (if is_leap y then 29 else 28) else if (m =? 4) || (m =? 6) || (m =? 9) || (m =? 11) then 30 else 31.
Definition nextf (a : date) : date :=
  let '(y, m, d) := a in if d <? mlen y m then (y, m, d + 1) else if m <? 12 then (y, m + 1, 1) else (y + 1, 1, 1).
Definition valid_date (a : date) : bool := let '(y, m, d) := a in (1 <=? m) && (m <=? 12) && (1 <=? d) && (d <=? mlen y m).
Definition date_eqb (a b : date) : bool := let '(y, m, d) := a in let '(y', m', d') := b in (y =? y') && (m =? m') && (d =? d').
(** with the years counted from 1, for speed *)
Definition civil1 (d : Z) : date := let '(y, yd) := abs_year d in let y := y - absolute_zero_year + 1 in let '(m, dd) := month_day y yd in (y, m, dd).
Fixpoint check_days (n : nat) (r : Z) (a : date) : bool :=
  match n with O => true | S n => let b := civil1 (r + 1) in valid_date a && date_eqb b (nextf a) && check_days n (r + 1) b end.
Lemma check_days_ok n r : check_days n r (civil1 r) = true → ∀ i, r ≤ i < r + Z.of_nat n → valid_date (civil1 i) = true ∧ civil1 (i + 1) = nextf (civil1 i).
Proof.
  revert r. induction n as [|n IH]; intros r H i Hi; [lia|]. cbn [check_days] in H. cbv zeta in H. apply andb_true_iff in H as [H H3]. apply andb_true_iff in H as [H1 H2].
  destruct (decide (i = r)) as [->|Hne]; [|apply (IH (r + 1)); [done|lia]]. split; [done|]. revert H2.
  generalize (civil1 (r + 1)), (nextf (civil1 r)). intros [[y m] d] [[y' m'] d']. cbn. rewrite !andb_true_iff, !Z.eqb_eq. intros [[-> ->] ->]. done.
Qed.
Lemma check_cycle : check_days (Z.to_nat cycle) 0 (1, 1, 1) = true.
Proof. vm_cast_no_check (eq_refl true). Qed.
Lemma civil1_civil d : civil d = shift_date (-730692556) (civil1 d).
Proof.
  unfold civil, civil1. destruct (abs_year d) as [y yd]. cbv zeta. remember (y - absolute_zero_year + 1) as y1 eqn:E.
  assert (y = y1 + 400 * -730692556) as -> by (unfold absolute_zero_year in E; lia).
  unfold month_day. rewrite is_leap_shift. destruct (is_leap y1 && (yd =? 31 + 29 - 1)); [done|]. destruct (if _ <=? _ then _ else _). done.
Qed.
Lemma mlen_shift k y m : mlen (y + 400 * k) m = mlen y m.
Proof. unfold mlen. by rewrite is_leap_shift. Qed.
Lemma nextf_shift k a : nextf (shift_date k a) = shift_date k (nextf a).
Proof. destruct a as [[y m] d]. cbn. rewrite mlen_shift. destruct (d <? mlen y m), (m <? 12); cbn; try done. by replace (y + 400 * k + 1) with (y + 1 + 400 * k) by lia. Qed.
Lemma valid_shift k a : valid_date (shift_date k a) = valid_date a.
Proof. destruct a as [[y m] d]. cbn. by rewrite mlen_shift. Qed.
Lemma civil_cycle r : 0 ≤ r < cycle → valid_date (civil r) = true ∧ civil (r + 1) = nextf (civil r).
Proof.
  intros Hr. destruct (check_days_ok (Z.to_nat cycle) 0 check_cycle r) as [H1 H2]; [unfold cycle in *; lia|].
  by rewrite !civil1_civil, valid_shift, nextf_shift, H2.
Qed.
Lemma civil_next d : valid_date (civil d) = true ∧ civil (d + 1) = nextf (civil d).
Proof.
  pose proof (Z.mod_pos_bound d cycle ltac:(done)) as Hr. set (r := d mod cycle) in *. set (q := d / cycle) in *.
  assert (Hd : d = cycle * q + r) by (apply Z.div_mod; done).
  destruct (civil_cycle r Hr) as [Hv Hn].
  assert (E : civil d = shift_date q (civil r)) by apply civil_shift. rewrite E. split.
  - by rewrite valid_shift.
  - rewrite nextf_shift, <- Hn. rewrite civil_shift, (civil_shift (r + 1)).
    destruct (decide (r + 1 = cycle)) as [He|He].
    + rewrite He. replace (d + 1) with ((q + 1) * cycle) by lia. rewrite Z.mod_mul, Z.div_mul by done.
      change (cycle mod cycle) with 0. change (cycle / cycle) with 1. destruct (civil 0) as [[y m] dd]. cbn. f_equal. f_equal. lia.
    + rewrite (Z.div_small (r + 1)), (Z.mod_small (r + 1)) by lia. replace (d + 1) with (r + 1 + q * cycle) by lia. rewrite Z.mod_add, Z.div_add by done.
      rewrite (Z.div_small (r + 1)), (Z.mod_small (r + 1)) by lia. destruct (civil (r + 1)) as [[y m] dd]. cbn. f_equal. f_equal. lia.
Qed.

(** ** against the calendar of the specification *)
Lemma is_leap_iff y : is_leap y = true ↔ leap y.
Proof.
  unfold is_leap, leap. rewrite andb_true_iff, orb_true_iff, negb_true_iff, !Z.eqb_eq, Z.eqb_neq. rewrite <- !Z.mod_divide by done. done.
Qed.
Lemma mlen_iff y m n : 1 ≤ m ≤ 12 → month_length y m n ↔ n = mlen y m.
Proof.
  intros Hm. unfold month_length, mlen. rewrite !elem_of_cons, elem_of_nil. destruct (Z.eqb_spec m 2) as [->|H2].
  - split.
    + intros [[H _]|[[H _]|[_ H]]]; [lia|lia|]. destruct (is_leap y) eqn:E.
      * apply is_leap_iff in E. tauto.
      * assert (Hl : ¬ leap y) by (rewrite <- is_leap_iff; congruence). tauto.
    + intros ->. right. right. split; [done|]. destruct (is_leap y) eqn:E.
      * apply is_leap_iff in E. tauto.
      * assert (Hl : ¬ leap y) by (rewrite <- is_leap_iff; congruence). tauto.
  - split.
    + intros [H|[H|H]]; [| |lia]; destruct (Z.eqb_spec m 4), (Z.eqb_spec m 6), (Z.eqb_spec m 9), (Z.eqb_spec m 11); cbn; lia.
    + intros H. destruct (Z.eqb_spec m 4), (Z.eqb_spec m 6), (Z.eqb_spec m 9), (Z.eqb_spec m 11); cbn in H; (left; lia) || (right; left; lia).
Qed.
Lemma month_length_range y m n : month_length y m n → 1 ≤ m ≤ 12.
Proof. unfold month_length. rewrite !elem_of_cons, elem_of_nil. lia. Qed.
Lemma next_day_iff a b : valid_date a = true → next_day a b ↔ b = nextf a.
Proof.
  destruct a as [[y m] d]. cbn. rewrite !andb_true_iff, !Z.leb_le. intros [[[H1 H2] H3] H4]. split.
  - intros H. inversion H as [y0 m0 d0 n Hl Hd|y0 m0 n Hl Hm|y0]; subst.
    + apply mlen_iff in Hl; [|lia]. subst. destruct (Z.ltb_spec d (mlen y m)); [done|lia].
    + apply mlen_iff in Hl; [|lia]. subst. rewrite Z.ltb_irrefl. destruct (Z.ltb_spec m 12); [done|lia].
    + reflexivity.
  - intros ->. destruct (Z.ltb_spec d (mlen y m)); [eapply next_same; [by apply mlen_iff|lia]|]. assert (d = mlen y m) as -> by lia.
    destruct (Z.ltb_spec m 12); [eapply next_month; [by apply mlen_iff|done]|]. assert (m = 12) as -> by lia. apply next_year.
Qed.
Lemma next_day_valid a b : next_day a b → valid_date a = true.
Proof.
  intros [y m d n Hl Hd|y m n Hl Hm|y]; [| |reflexivity]; pose proof (month_length_range _ _ _ Hl) as Hr; apply mlen_iff in Hl; [|lia| |lia]; subst; cbn; rewrite !andb_true_iff, !Z.leb_le.
  - lia.
  - assert (28 ≤ mlen y m); [|lia]. unfold mlen. destruct (m =? 2), (is_leap y), ((m =? 4) || (m =? 6) || (m =? 9) || (m =? 11)); lia.
Qed.
Lemma mlen_pos y m : 28 ≤ mlen y m.
Proof. unfold mlen. destruct (m =? 2), (is_leap y), ((m =? 4) || (m =? 6) || (m =? 9) || (m =? 11)); lia. Qed.
Lemma nextf_inj a a' : valid_date a = true → valid_date a' = true → nextf a = nextf a' → a = a'.
Proof.
  destruct a as [[y m] d], a' as [[y' m'] d']. cbn. rewrite !andb_true_iff, !Z.leb_le. intros [[[H1 H2] H3] H4] [[[H1' H2'] H3'] H4'].
  destruct (Z.ltb_spec d (mlen y m)), (Z.ltb_spec d' (mlen y' m')); [|destruct (Z.ltb_spec m' 12)|destruct (Z.ltb_spec m 12)|destruct (Z.ltb_spec m' 12), (Z.ltb_spec m 12)]; intros E; pose proof (f_equal (λ a : date, a.1.1) E) as E1; pose proof (f_equal (λ a : date, a.1.2) E) as E2; pose proof (f_equal (λ a : date, a.2) E) as E3; clear E; cbn in E1, E2, E3; try (exfalso; lia).
  - f_equal; [f_equal|]; lia.
  - subst. assert (m = m') as -> by lia. f_equal. lia.
  - assert (y = y') as -> by lia. assert (m = m') as -> by lia. f_equal. lia.
Qed.
Lemma nextf_lt a : date_lt a (nextf a).
Proof. destruct a as [[y m] d]. cbn. destruct (d <? mlen y m), (m <? 12); lia. Qed.
Lemma date_lt_trans a b c : date_lt a b → date_lt b c → date_lt a c.
Proof. destruct a as [[y m] d], b as [[y' m'] d'], c as [[y'' m''] d'']. cbn. lia. Qed.
Lemma civil_lt d d' : d < d' → date_lt (civil d) (civil d').
Proof.
  intros H. replace d' with (d + 1 + Z.of_nat (Z.to_nat (d' - d - 1))) by lia. generalize (Z.to_nat (d' - d - 1)) as k. induction k as [|k IH].
  - rewrite Z.add_0_r. rewrite (proj2 (civil_next d)). apply nextf_lt.
  - replace (d + 1 + Z.of_nat (S k)) with (d + 1 + Z.of_nat k + 1) by lia. rewrite (proj2 (civil_next _)). eapply date_lt_trans; [exact IH|apply nextf_lt].
Qed.
Lemma date_lt_irrefl a : ¬ date_lt a a.
Proof. destruct a as [[y m] d]. cbn. lia. Qed.
Lemma civil_lt_iff d d' : d < d' ↔ date_lt (civil d) (civil d').
Proof.
  split; [apply civil_lt|]. intros H. destruct (Z.lt_total d d') as [?|[->|Hl]]; [done|by apply date_lt_irrefl in H|].
  apply civil_lt in Hl. exfalso. eapply date_lt_irrefl, date_lt_trans; [exact H|exact Hl].
Qed.
Lemma civil_inj d d' : civil d = civil d' → d = d'.
Proof. intros E. destruct (Z.lt_total d d') as [H|[?|H]]; [|done|]; apply civil_lt in H; rewrite E in H; by apply date_lt_irrefl in H. Qed.

Definition epoch_day : Z := (unix_to_internal + internal_to_absolute) / seconds_per_day.
Lemma civil_epoch : civil epoch_day = (1970, 1, 1).
Proof. by vm_compute. Qed.
Lemma civil_next' d d' : d' = d + 1 → nextf (civil d) = civil d'.
Proof. intros ->. symmetry. apply civil_next. Qed.
Lemma day_number_iff n a : day_number n a ↔ a = civil (n + epoch_day).
Proof.
  split.
  - induction 1 as [|n a b H IH Hn|n a b H IH Hn].
    + by rewrite Z.add_0_l, civil_epoch.
    + subst. apply next_day_iff in Hn; [|apply civil_next]. subst. replace (n + 1 + epoch_day) with (n + epoch_day + 1) by lia. by rewrite (proj2 (civil_next _)).
    + pose proof (next_day_valid _ _ Hn) as Hv. apply next_day_iff in Hn; [|done]. rewrite IH in Hn. apply nextf_inj; [done|apply civil_next|].
      rewrite <- Hn. symmetry. apply civil_next'. lia.
  - intros ->. destruct (Z.le_ge_cases 0 n) as [Hn|Hn].
    + rewrite <- (Z2Nat.id n) by done. generalize (Z.to_nat n) as k. induction k as [|k IH]; [rewrite Z.add_0_l, civil_epoch; constructor|].
      replace (Z.of_nat (S k)) with (Z.of_nat k + 1) by lia. eapply day_after; [exact IH|]. apply next_day_iff; [apply civil_next|].
      symmetry. apply civil_next'. lia.
    + replace n with (- Z.of_nat (Z.to_nat (- n))) by lia. generalize (Z.to_nat (- n)) as k. induction k as [|k IH]; [change (- Z.of_nat 0) with 0; rewrite Z.add_0_l, civil_epoch; constructor|].
      replace (- Z.of_nat (S k)) with (- Z.of_nat k - 1) by lia. eapply day_before; [exact IH|]. apply next_day_iff; [apply civil_next|].
      symmetry. apply civil_next'. lia.
Qed.

(** ** padded numerals *)
Lemma value_cons c s : value (c :: s) = (c - 48) * 10 ^ Z.of_nat (length s) + value s.
Proof.
  assert (H : ∀ n, value_from n s = n * 10 ^ Z.of_nat (length s) + value s).
  { induction s as [|d s IH]; intros n; [cbn; lia|]. cbn [value_from length]. rewrite IH. unfold value. cbn [value_from]. rewrite (IH (10 * 0 + (d - 48))).
    replace (Z.of_nat (S (length s))) with (Z.of_nat (length s) + 1) by lia. rewrite Z.pow_add_r by lia. change (10 ^ 1) with 10. unfold value. lia. }
  unfold value at 1. cbn [value_from]. rewrite H. lia.
Qed.
Lemma value_range s : Forall digit s → 0 ≤ value s < 10 ^ Z.of_nat (length s).
Proof. intros H. pose proof (value_bound s H 0 ltac:(done)). pose proof (value_from_mono s H 0 ltac:(done)). unfold value. lia. Qed.
Lemma value_before s t : Forall digit s → Forall digit t → length s = length t → value s < value t → str_before s t.
Proof.
  intros Hs. revert t. induction Hs as [|c s Hc Hs IH]; intros t Ht Hl Hv; [destruct t; [cbn in Hv; lia|done]|].
  destruct t as [|d t]; [done|]. apply Forall_cons in Ht as [Hd Ht]. rewrite !value_cons in Hv. simpl in Hl. injection Hl as Hl. rewrite Hl in Hv.
  pose proof (value_range s Hs) as Rs. pose proof (value_range t Ht) as Rt. rewrite Hl in Rs. unfold digit in *.
  destruct (Z.lt_total c d) as [H|[->|H]].
  - by exists [], c, d, s, t.
  - destruct (IH t) as (p & x & y & u & v & -> & -> & Hxy); [done|done|lia|]. by exists (d :: p), x, y, u, v.
  - exfalso. nia.
Qed.
Lemma value_inj s t : Forall digit s → Forall digit t → length s = length t → value s = value t → s = t.
Proof.
  intros Hs. revert t. induction Hs as [|c s Hc Hs IH]; intros t Ht Hl Hv; [by destruct t|].
  destruct t as [|d t]; [done|]. apply Forall_cons in Ht as [Hd Ht]. rewrite !value_cons in Hv. simpl in Hl. injection Hl as Hl. rewrite Hl in Hv.
  pose proof (value_range s Hs) as Rs. pose proof (value_range t Ht) as Rt. rewrite Hl in Rs. unfold digit in *.
  assert (c = d) as -> by nia. f_equal. apply IH; [done|done|lia].
Qed.
Lemma padded_len w n s : padded w n s → (w < length s)%nat → 10 ^ Z.of_nat (length s - 1) ≤ n.
Proof.
  intros (Hd & <- & _ & Hh) Hl. specialize (Hh Hl). destruct s as [|c s]; [simpl in Hl; lia|]. apply Forall_cons in Hd as [Hc Hd]. rewrite value_cons.
  pose proof (value_range s Hd). simpl in Hh. assert (c ≠ 48) by congruence. unfold digit in Hc. replace (length (c :: s) - 1)%nat with (length s) by (simpl; lia).
  assert (0 < 10 ^ Z.of_nat (length s)) by (apply Z.pow_pos_nonneg; lia). nia.
Qed.
Lemma padded_unique w n s t : padded w n s → padded w n t → s = t.
Proof.
  intros Hs Ht. assert (Hle : ∀ s t, padded w n s → padded w n t → (length s ≤ length t)%nat).
  { clear. intros s t Hs Ht. destruct (decide (length s ≤ length t)%nat) as [|Hn]; [done|]. exfalso.
    assert (Hw : (w < length s)%nat) by (destruct Ht as (_ & _ & ? & _); lia). pose proof (padded_len _ _ _ Hs Hw) as H1.
    destruct Ht as (Hd & Hv & _ & _). pose proof (value_range t Hd) as H2. rewrite Hv in H2.
    assert (10 ^ Z.of_nat (length t) ≤ 10 ^ Z.of_nat (length s - 1)) by (apply Z.pow_le_mono_r; lia). lia. }
  pose proof (Hle s t Hs Ht). pose proof (Hle t s Ht Hs). destruct Hs as (H1 & H2 & _), Ht as (H3 & H4 & _). apply value_inj; [done|done|lia|congruence].
Qed.
Lemma padded_zeros k s : value (replicate k 48 ++ s) = value s.
Proof. induction k as [|k IH]; [done|]. cbn [replicate app]. rewrite value_cons, IH. lia. Qed.
Lemma append_int_padded x w : Z.abs x < 2 ^ 62 → (0 < w)%nat → ∃ s, append_int x w = (if decide (x < 0) then [45] else []) ++ s ∧ padded w (Z.abs x) s.
Proof.
  intros Hx Hw. unfold append_int. rewrite u64_id by (unfold is_u64; lia). destruct (fmt_digits_ok 20 (Z.abs x)) as (H1 & H2 & H3 & H4); [lia|lia|].
  revert H1 H2 H3 H4. generalize (fmt_digits 20 (Z.abs x)) as ds. intros ds H1 H2 H3 H4. exists (replicate (w - length ds) 48 ++ ds). split.
  - f_equal. destruct (Z.ltb_spec x 0); [by rewrite decide_True|by rewrite decide_False by lia].
  - unfold padded. rewrite app_length, replicate_length, padded_zeros, Forall_app. split; [split; [|done]; apply Forall_replicate; unfold digit; lia|].
    split; [done|]. split; [lia|]. intros Hl. replace (w - length ds)%nat with 0%nat by lia. cbn [replicate app]. apply H4. lia.
Qed.
Lemma date_path_unique a s t : (let '(y, m, d) := a in 0 ≤ m ∧ 0 ≤ d) → date_path a s → date_path a t → s = t.
Proof.
  destruct a as [[y m] d]. intros [Hm Hd] (sy & sm & sd & -> & H1 & H2 & H3) (ty & tm & td & -> & H4 & H5 & H6).
  rewrite (padded_unique _ _ _ _ H1 H4), (padded_unique _ _ _ _ H2 H5), (padded_unique _ _ _ _ H3 H6). done.
Qed.

Lemma append_int_path a : valid_date a = true → (let '(y, m, d) := a in Z.abs y < 2 ^ 62) →
  date_path a (let '(y, m, d) := a in append_int y 4 ++ [47] ++ append_int m 2 ++ [47] ++ append_int d 2).
Proof.
  destruct a as [[y m] d]. cbn [valid_date]. rewrite !andb_true_iff, !Z.leb_le. intros [[[H1 H2] H3] H4] Hy.
  assert (mlen y m ≤ 31) by (unfold mlen; destruct (m =? 2), (is_leap y), ((m =? 4) || (m =? 6) || (m =? 9) || (m =? 11)); lia).
  destruct (append_int_padded y 4) as (sy & -> & Py); [done|lia|]. destruct (append_int_padded m 2) as (sm & -> & Pm); [lia|lia|]. destruct (append_int_padded d 2) as (sd & -> & Pd); [lia|lia|].
  rewrite (decide_False (P := m < 0)), (decide_False (P := d < 0)) by lia. rewrite Z.abs_eq in Pm by lia. rewrite Z.abs_eq in Pd by lia.
  exists sy, sm, sd. split; [|done]. by rewrite <- !app_assoc.
Qed.
(** the clock shows a time within 146 billion years of now *)
Definition clock_ok (sec offset : Z) : Prop := Z.abs (sec + offset) ≤ 2 ^ 62.
Lemma year_bound d : 0 ≤ d < 2 ^ 50 → let '(y, m, dd) := civil d in Z.abs y < 2 ^ 62.
Proof.
  intros Hd. unfold civil, abs_year, days_per_400_years, days_per_100_years, days_per_4_years. cbv zeta. rewrite !Z.shiftr_div_pow2 by lia.
  destruct (month_day _ _) as [m dd]. unfold absolute_zero_year. change (365 * 400 + 97) with 146097. change (365 * 100 + 24) with 36524. change (365 * 4 + 1) with 1461. change (2 ^ 2) with 4.
  Z.div_mod_to_equations. lia.
Qed.
Lemma time_dir_civil sec offset : clock_ok sec offset →
  let a := civil ((sec + offset) / 86400 + epoch_day) in
  get_time_dir sec offset = (let '(y, m, d) := a in append_int y 4 ++ [47] ++ append_int m 2 ++ [47] ++ append_int d 2) ∧ (let '(y, m, d) := a in Z.abs y < 2 ^ 62).
Proof.
  intros H. unfold clock_ok in H.
  assert (E : abs_time sec offset / seconds_per_day = (sec + offset) / 86400 + epoch_day).
  { unfold abs_time. rewrite u64_id by (unfold is_u64; change (unix_to_internal + internal_to_absolute) with 9223372028715321600; lia).
    change (unix_to_internal + internal_to_absolute) with (epoch_day * 86400). change seconds_per_day with 86400. by rewrite Z.div_add. }
  cbv zeta. split.
  - unfold get_time_dir, abs_date. rewrite E. unfold civil. destruct (abs_year _) as [y yd]. destruct (month_day y yd) as [m d]. done.
  - apply year_bound. change epoch_day with 106751991073094. Z.div_mod_to_equations. lia.
Qed.

(** ** C91: the path of the local day *)
Theorem time_dir_exact sec offset : clock_ok sec offset →
  ∃ a, day_number ((sec + offset) / 86400) a ∧ ∀ s, date_path a s ↔ s = get_time_dir sec offset.
Proof.
  intros H. destruct (time_dir_civil sec offset H) as [E Hy]. exists (civil ((sec + offset) / 86400 + epoch_day)). split; [by apply day_number_iff|].
  rewrite E. destruct (civil_next ((sec + offset) / 86400 + epoch_day)) as [Hv _]. pose proof (append_int_path _ Hv Hy) as Hp.
  intros s. split; [|by intros ->]. intros Hs. eapply date_path_unique; [|exact Hs|exact Hp].
  revert Hv. destruct (civil _) as [[y m] d]. cbn. rewrite !andb_true_iff, !Z.leb_le. lia.
Qed.
(** every day has one date and every date at most one day *)
Theorem day_number_unique : (∀ n, ∃ a, day_number n a) ∧ (∀ n a b, day_number n a → day_number n b → a = b) ∧ (∀ n n' a, day_number n a → day_number n' a → n = n').
Proof.
  split; [intros n; eexists; by apply day_number_iff|]. split.
  - intros n a b H1 H2. apply day_number_iff in H1 as ->, H2 as ->. done.
  - intros n n' a H1 H2. apply day_number_iff in H1, H2. assert (n + epoch_day = n' + epoch_day); [|lia]. apply civil_inj. congruence.
Qed.

(** ** C92: one directory per day, in the order of time *)
Lemma digit_no_slash s : Forall digit s → 47 ∉ s.
Proof. intros H Hin. rewrite Forall_forall in H. apply H in Hin. unfold digit in Hin. lia. Qed.
Lemma split_slash a b c d : 47 ∉ a → 47 ∉ c → a ++ 47 :: b = c ++ 47 :: d → a = c ∧ b = d.
Proof.
  revert c. induction a as [|x a IH]; intros c Ha Hc E.
  - destruct c as [|y c]; [by injection E as <-|]. injection E as <- _. exfalso. apply Hc. by left.
  - destruct c as [|y c]; [injection E as -> _; exfalso; apply Ha; by left|]. injection E as -> E. apply not_elem_of_cons in Ha as [_ Ha]. apply not_elem_of_cons in Hc as [_ Hc].
    destruct (IH c Ha Hc E) as [-> ->]. done.
Qed.
Lemma date_path_inj a b s : (let '(y, m, d) := a in 0 ≤ m ∧ 0 ≤ d) → (let '(y, m, d) := b in 0 ≤ m ∧ 0 ≤ d) → date_path a s → date_path b s → a = b.
Proof.
  destruct a as [[y m] d], b as [[y' m'] d']. intros _ _ (sy & sm & sd & E & Hy & Hm & Hd) (sy' & sm' & sd' & E' & Hy' & Hm' & Hd'). subst s.
  assert (Hs : ∀ y sy, padded 4 (Z.abs y) sy → 47 ∉ (if decide (y < 0) then [45] else []) ++ sy).
  { intros z sz (Hz & _) Hin. apply elem_of_app in Hin as [Hin|Hin]; [|by apply digit_no_slash in Hin]. destruct (decide (z < 0)); [|by apply elem_of_nil in Hin]. apply elem_of_list_singleton in Hin. done. }
  rewrite !app_assoc in E'. rewrite <- !app_assoc in E'. rewrite !(app_assoc (if decide _ then _ else _)) in E'.
  apply split_slash in E' as [E1 E2]; [|by apply Hs|by apply Hs]. apply split_slash in E2 as [E2 E3]; [|by apply digit_no_slash, Hm|by apply digit_no_slash, Hm'].
  assert (Hyy : y = y').
  { destruct Hy as (Dy & Vy & Ly & _), Hy' as (Dy' & Vy' & Ly' & _). destruct (decide (y < 0)), (decide (y' < 0)).
    - injection E1 as E1. subst. lia.
    - destruct sy' as [|c r]; [simpl in Ly'; lia|]. injection E1 as <- _. apply Forall_cons in Dy' as [Dc _]. unfold digit in Dc. lia.
    - destruct sy as [|c r]; [simpl in Ly; lia|]. injection E1 as -> _. apply Forall_cons in Dy as [Dc _]. unfold digit in Dc. lia.
    - cbn in E1. subst. lia. }
  destruct Hm as (_ & <- & _), Hm' as (_ & <- & _), Hd as (_ & <- & _), Hd' as (_ & <- & _). subst. done.
Qed.
Lemma time_dir_parts sec offset : clock_ok sec offset → let a := civil ((sec + offset) / 86400 + epoch_day) in
  date_path a (get_time_dir sec offset) ∧ (let '(y, m, d) := a in 1 ≤ m ≤ 12 ∧ 1 ≤ d ≤ 31).
Proof.
  intros H. destruct (time_dir_civil sec offset H) as [E Hy]. cbv zeta in *. rewrite E. destruct (civil_next ((sec + offset) / 86400 + epoch_day)) as [Hv _]. split; [by apply append_int_path|].
  revert Hv. destruct (civil _) as [[y m] d]. cbn. rewrite !andb_true_iff, !Z.leb_le. assert (mlen y m ≤ 31) by (unfold mlen; destruct (m =? 2), (is_leap y), ((m =? 4) || (m =? 6) || (m =? 9) || (m =? 11)); lia). lia.
Qed.
Theorem time_dir_same_day s o s' o' : clock_ok s o → clock_ok s' o' →
  get_time_dir s o = get_time_dir s' o' ↔ (s + o) / 86400 = (s' + o') / 86400.
Proof.
  intros H H'. destruct (time_dir_parts s o H) as [P R]. destruct (time_dir_parts s' o' H') as [P' R']. split.
  - intros E. rewrite E in P. assert (Ec : civil ((s + o) / 86400 + epoch_day) = civil ((s' + o') / 86400 + epoch_day)); [|apply civil_inj in Ec; lia].
    eapply date_path_inj; [| |exact P|exact P'].
    + revert R. destruct (civil ((s + o) / 86400 + epoch_day)) as [[y m] d]. lia.
    + revert R'. destruct (civil ((s' + o') / 86400 + epoch_day)) as [[y m] d]. lia.
  - intros E. rewrite (proj1 (time_dir_civil s o H)), (proj1 (time_dir_civil s' o' H')). cbv zeta. by rewrite E.
Qed.
Lemma str_before_app s t u v : str_before s t → str_before (s ++ u) (t ++ v).
Proof. intros (p & x & y & a & b & -> & -> & Hxy). exists p, x, y, (a ++ u), (b ++ v). by rewrite <- !app_assoc. Qed.
Lemma str_before_prefix p s t : str_before s t → str_before (p ++ s) (p ++ t).
Proof. intros (q & x & y & a & b & -> & -> & Hxy). exists (p ++ q), x, y, a, b. by rewrite <- !app_assoc. Qed.
Lemma str_before_asym s t : str_before s t → ¬ str_before t s.
Proof.
  intros (p & x & y & u & v & -> & -> & Hxy) (q & x' & y' & u' & v' & E1 & E2 & Hxy'). revert q E1 E2. induction p as [|c p IH]; intros q E1 E2.
  - destruct q as [|e q]; [injection E1 as -> _; injection E2 as -> _; lia|]. injection E1 as -> _. injection E2 as -> _. lia.
  - destruct q as [|e q]; [injection E1 as -> _; injection E2 as -> _; lia|]. injection E1 as -> E1. injection E2 as E2. by eapply IH.
Qed.
Lemma padded_fixed w n s : padded w n s → n < 10 ^ Z.of_nat w → length s = w.
Proof.
  intros H Hn. destruct (decide (length s = w)) as [|Hl]; [done|]. assert (Hw : (w < length s)%nat) by (destruct H as (_ & _ & ? & _); lia).
  pose proof (padded_len _ _ _ H Hw). assert (10 ^ Z.of_nat w ≤ 10 ^ Z.of_nat (length s - 1)) by (apply Z.pow_le_mono_r; lia). lia.
Qed.
Lemma date_path_before a b s t :
  (let '(y, m, d) := a in 0 ≤ y ≤ 9999 ∧ 1 ≤ m ≤ 12 ∧ 1 ≤ d ≤ 31) → (let '(y, m, d) := b in 0 ≤ y ≤ 9999 ∧ 1 ≤ m ≤ 12 ∧ 1 ≤ d ≤ 31) →
  date_path a s → date_path b t → date_lt a b → str_before s t.
Proof.
  destruct a as [[y m] d], b as [[y' m'] d']. intros (Ry & Rm & Rd) (Ry' & Rm' & Rd') (sy & sm & sd & -> & Hy & Hm & Hd) (sy' & sm' & sd' & -> & Hy' & Hm' & Hd').
  rewrite (decide_False (P := y < 0)), (decide_False (P := y' < 0)) by lia. rewrite Z.abs_eq in Hy by lia. rewrite Z.abs_eq in Hy' by lia.
  pose proof (padded_fixed _ _ _ Hy ltac:(change (10 ^ Z.of_nat 4) with 10000; lia)) as Ly. pose proof (padded_fixed _ _ _ Hy' ltac:(change (10 ^ Z.of_nat 4) with 10000; lia)) as Ly'.
  pose proof (padded_fixed _ _ _ Hm ltac:(change (10 ^ Z.of_nat 2) with 100; lia)) as Lm. pose proof (padded_fixed _ _ _ Hm' ltac:(change (10 ^ Z.of_nat 2) with 100; lia)) as Lm'.
  pose proof (padded_fixed _ _ _ Hd ltac:(change (10 ^ Z.of_nat 2) with 100; lia)) as Ld. pose proof (padded_fixed _ _ _ Hd' ltac:(change (10 ^ Z.of_nat 2) with 100; lia)) as Ld'.
  cbn [app]. intros [Hlt|[<- [Hlt|[<- Hlt]]]].
  - apply str_before_app. apply value_before; [apply Hy|apply Hy'|lia|]. destruct Hy as (_ & -> & _), Hy' as (_ & -> & _). done.
  - rewrite (padded_unique _ _ _ _ Hy Hy'). apply str_before_prefix. apply (str_before_prefix [47]). apply str_before_app. apply value_before; [apply Hm|apply Hm'|lia|].
    destruct Hm as (_ & -> & _), Hm' as (_ & -> & _). done.
  - rewrite (padded_unique _ _ _ _ Hy Hy'), (padded_unique _ _ _ _ Hm Hm'). apply str_before_prefix. apply (str_before_prefix [47]). apply str_before_prefix. apply (str_before_prefix [47]).
    apply value_before; [apply Hd|apply Hd'|lia|]. destruct Hd as (_ & -> & _), Hd' as (_ & -> & _). done.
Qed.
(** days from 1 January 0000 to 31 December 9999 *)
Definition four_digit_day (n : Z) : Prop := -719528 ≤ n ≤ 2932896.
Lemma four_digit_year n : four_digit_day n → let '(y, m, d) := civil (n + epoch_day) in 0 ≤ y ≤ 9999.
Proof.
  intros [H1 H2].
  assert (Ha : civil (-719528 + epoch_day) = (0, 1, 1)) by (by vm_compute). assert (Hb : civil (2932896 + epoch_day) = (9999, 12, 31)) by (by vm_compute).
  assert (Hl : civil (n + epoch_day) = (0, 1, 1) ∨ date_lt (0, 1, 1) (civil (n + epoch_day))).
  { destruct (decide (n = -719528)) as [->|]; [by left|]. right. rewrite <- Ha. apply civil_lt. lia. }
  assert (Hr : civil (n + epoch_day) = (9999, 12, 31) ∨ date_lt (civil (n + epoch_day)) (9999, 12, 31)).
  { destruct (decide (n = 2932896)) as [->|]; [by left|]. right. rewrite <- Hb. apply civil_lt. lia. }
  destruct (civil (n + epoch_day)) as [[y m] d]. split.
  - destruct Hl as [[= -> _ _]|Hl]; [lia|]. cbn in Hl. lia.
  - destruct Hr as [[= -> _ _]|Hr]; [lia|]. cbn in Hr. lia.
Qed.
Theorem time_dir_order s o s' o' : clock_ok s o → clock_ok s' o' → four_digit_day ((s + o) / 86400) → four_digit_day ((s' + o') / 86400) →
  str_before (get_time_dir s o) (get_time_dir s' o') ↔ (s + o) / 86400 < (s' + o') / 86400.
Proof.
  intros H H' F F'.
  assert (Hlt : ∀ s o s' o', clock_ok s o → clock_ok s' o' → four_digit_day ((s + o) / 86400) → four_digit_day ((s' + o') / 86400) →
    (s + o) / 86400 < (s' + o') / 86400 → str_before (get_time_dir s o) (get_time_dir s' o')).
  { clear. intros s o s' o' H H' F F' Hlt. destruct (time_dir_parts s o H) as [P R]. destruct (time_dir_parts s' o' H') as [P' R']. cbv zeta in *.
    apply four_digit_year in F. apply four_digit_year in F'. eapply date_path_before; [| |exact P|exact P'|apply civil_lt; lia].
    - revert F R. destruct (civil ((s + o) / 86400 + epoch_day)) as [[y m] d]. lia.
    - revert F' R'. destruct (civil ((s' + o') / 86400 + epoch_day)) as [[y m] d]. lia. }
  split; [|by apply Hlt]. intros Hb. destruct (Z.lt_total ((s + o) / 86400) ((s' + o') / 86400)) as [?|[E|Hg]]; [done| |].
  - apply time_dir_same_day in E; [|done|done]. rewrite E in Hb. exfalso. by eapply str_before_asym.
  - exfalso. eapply str_before_asym; [exact Hb|]. by apply Hlt.
Qed.
(** beyond the year 9999 the order of names is no longer that of time *)
Theorem time_dir_order_refuted : ∃ s s', clock_ok s 0 ∧ clock_ok s' 0 ∧ s / 86400 < s' / 86400 ∧ str_before (get_time_dir s' 0) (get_time_dir s 0).
Proof.
  exists 253402300799, 253402300800. unfold clock_ok. split; [lia|]. split; [lia|]. split; [by vm_compute|].
  exists [], 49, 57, (str "0000/01/01"), (str "999/12/31"). by vm_compute.
Qed.
(** leap days, ends of years and centuries, before 1970, zones *)
Example time_dir_examples :
  get_time_dir 1709164800 0 = str "2024/02/29" ∧ get_time_dir 4107542400 0 = str "2100/03/01" ∧ get_time_dir 4107542399 0 = str "2100/02/28" ∧
  get_time_dir 951782400 0 = str "2000/02/29" ∧ get_time_dir 1704067199 0 = str "2023/12/31" ∧ get_time_dir 1704067199 28800 = str "2024/01/01" ∧
  get_time_dir (-1) 0 = str "1969/12/31" ∧ get_time_dir (-62167219201) 0 = str "-0001/12/31" ∧ clock_ok 1704067199 28800 ∧ four_digit_day (1704067199 / 86400).
Proof. repeat split; vm_compute; congruence. Qed.
