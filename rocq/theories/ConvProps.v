(** * Integer/string conversions: theorems *)
From Verif Require Import GoBase GoStr ConvModel ConvSpec.
Local Open Scope Z_scope.

Lemma value_from_app n a b : value_from n (a ++ b) = value_from (value_from n a) b.
Proof. revert n. induction a as [|c a IH]; intros n; [done|]. simpl. apply IH. Qed.
Lemma value_from_mono ds : Forall digit ds → ∀ n, 0 ≤ n → n ≤ value_from n ds.
Proof. induction 1 as [|c ds Hc _ IH]; intros n Hn; simpl; [lia|]. unfold digit in Hc. etransitivity; [|apply IH; lia]. lia. Qed.
Lemma value_bound ds : Forall digit ds → ∀ n, 0 ≤ n → value_from n ds < (n + 1) * 10 ^ Z.of_nat (length ds).
Proof.
  induction 1 as [|c ds Hc _ IH]; intros n Hn; cbn [value_from length]; [change (10 ^ Z.of_nat 0) with 1; lia|]. unfold digit in Hc. specialize (IH (10 * n + (c - 48)) ltac:(lia)).
  rewrite Nat2Z.inj_succ, Z.pow_succ_r by lia. eapply Z.lt_le_trans; [apply IH|]. pose proof (Z.pow_pos_nonneg 10 (Z.of_nat (length ds))). nia.
Qed.
Lemma fmt_digits_ok k : ∀ u, 0 ≤ u < 10 ^ Z.of_nat k → (0 < k)%nat → Forall digit (fmt_digits k u) ∧ fmt_digits k u ≠ [] ∧ value (fmt_digits k u) = u ∧ ((1 < length (fmt_digits k u))%nat → head (fmt_digits k u) ≠ Some 48).
Proof.
  induction k as [|k IH]; intros u Hu Hk; [lia|]. cbn [fmt_digits]. destruct (Z.ltb_spec u 10).
  - split_and!; [|done|unfold value; simpl; lia|simpl; lia]. constructor; [unfold digit; lia|constructor].
  - rewrite Nat2Z.inj_succ, Z.pow_succ_r in Hu by lia. destruct k as [|k]; [change (10 ^ Z.of_nat 0) with 1 in Hu; lia|].
    destruct (IH (u / 10)) as (H1 & H2 & H3 & H4); [Z.div_mod_to_equations; lia|lia|]. 
    assert (Hm : digit (48 + u mod 10)) by (unfold digit; Z.div_mod_to_equations; lia). split_and!.
    + apply Forall_app. split; [done|]. by constructor.
    + by destruct (fmt_digits _ _).
    + unfold value in *. rewrite value_from_app, H3. simpl. Z.div_mod_to_equations; lia.
    + intros _. destruct (fmt_digits (S k) (u / 10)) as [|c [|d l]] eqn:E; [done| |simpl in *; intros [= ->]; by apply H4; [lia|]].
      simpl. intros [= ->]. unfold value in H3. simpl in H3. Z.div_mod_to_equations; lia.
Qed.

Local Instance digit_dec c : Decision (digit c).
Proof. unfold digit. apply _. Defined.
Lemma digit_of_digit c : digit c → digit_of c = Some (c - 48).
Proof. intros H. unfold digit_of. assert (between 48 57 c = true) as -> by (by apply between_iff). done. Qed.
Lemma digit_of_other c : ¬ digit c → digit_of c = None ∨ ∃ d, digit_of c = Some d ∧ 10 ≤ d.
Proof.
  intros H. unfold digit_of. destruct (between 48 57 c) eqn:E; [by apply between_iff in E|]. destruct (between 97 122 (lower c)) eqn:E2; [|by left]. right. eexists. split; [done|]. apply between_iff in E2. lia.
Qed.
Lemma parse_digit_step n c r : 0 ≤ n ≤ max_u64 → digit c → parse_digits n (c :: r) = if decide (10 * n + (c - 48) ≤ max_u64) then parse_digits (10 * n + (c - 48)) r else PRange max_u64.
Proof.
  intros Hn Hc. cbn [parse_digits]. rewrite digit_of_digit by done. unfold digit in Hc. destruct (Z.leb_spec 10 (c - 48)); [lia|]. change (max_u64 / 10 + 1) with 1844674407370955162. unfold max_u64 in *.
  destruct (Z.leb_spec 1844674407370955162 n) as [Hb|Hb]; [rewrite decide_False by lia; done|]. rewrite (u64_id (n * 10)) by (unfold is_u64; lia).
  destruct (decide _) as [Hd|Hd].
  - rewrite u64_id by (unfold is_u64; lia). destruct (Z.ltb_spec (n * 10 + (c - 48)) (n * 10)); [lia|]. destruct (Z.ltb_spec 18446744073709551615 (n * 10 + (c - 48))); [lia|]. simpl. f_equal. lia.
  - assert (u64 (n * 10 + (c - 48)) < n * 10) as Hw.
    { unfold u64, wrap_u. replace (n * 10 + (c - 48)) with (n * 10 + (c - 48) - 2 ^ 64 + 1 * 2 ^ 64) by lia. rewrite Z.mod_add by lia. rewrite Z.mod_small by lia. lia. }
    apply Z.ltb_lt in Hw. by rewrite Hw.
Qed.
Lemma parse_digits_ok ds : Forall digit ds → ∀ n, 0 ≤ n ≤ max_u64 → parse_digits n ds = if decide (value_from n ds ≤ max_u64) then POk (value_from n ds) else PRange max_u64.
Proof.
  induction 1 as [|c ds Hc Hds IH]; intros n Hn; [simpl; rewrite decide_True by lia; done|]. rewrite parse_digit_step by done. cbn [value_from]. destruct (decide _) as [Hd|Hd].
  - apply IH. unfold digit in Hc. lia.
  - rewrite decide_False; [done|]. pose proof (value_from_mono ds Hds (10 * n + (c - 48))). unfold digit in Hc. lia.
Qed.
Lemma parse_digits_bad ds c r : Forall digit ds → ¬ digit c → ∀ n, 0 ≤ n ≤ max_u64 → parse_digits n (ds ++ c :: r) = if decide (value_from n ds ≤ max_u64) then PSyntax else PRange max_u64.
Proof.
  intros Hds Hc. induction Hds as [|d ds Hd Hds IH]; intros n Hn; cbn [app].
  - simpl. rewrite decide_True by lia. destruct (digit_of_other c Hc) as [->|(d & -> & Hd)]; [done|]. destruct (Z.leb_spec 10 d); [done|lia].
  - rewrite parse_digit_step by done. cbn [value_from]. destruct (decide (10 * n + (d - 48) ≤ max_u64)) as [H1|H1].
    + apply IH. unfold digit in Hd. lia.
    + rewrite decide_False; [done|]. pose proof (value_from_mono ds Hds (10 * n + (d - 48))). unfold digit in Hd. lia.
Qed.
(** the sign *)
Inductive signed : gostr → bool → gostr → Prop :=
  | sg_plus r : signed (43 :: r) false r
  | sg_minus r : signed (45 :: r) true r
  | sg_none c r : c ≠ 43 → c ≠ 45 → signed (c :: r) false (c :: r).
Lemma signed_total c r : ∃ b t, signed (c :: r) b t.
Proof. destruct (decide (c = 43)) as [->|]; [by eexists _, _; constructor|]. destruct (decide (c = 45)) as [->|]; eexists _, _; by constructor. Qed.
Definition finish (neg : bool) (un : Z) : Z := if neg then clamp (- un) else clamp un.
Lemma finish_ok (neg : bool) un : 0 ≤ un ≤ max_u64 →
  (if negb neg && (2 ^ 63 <=? un) then i64 (2 ^ 63 - 1) else if neg && (2 ^ 63 <? un) then i64 (- i64 (2 ^ 63)) else if neg then i64 (- i64 un) else i64 un) = finish neg un.
Proof.
  intros Hu. unfold max_u64 in Hu. unfold finish, clamp. assert (Hi : i64 (2 ^ 63) = - 2 ^ 63) by (by vm_compute). destruct neg; simpl.
  - destruct (Z.ltb_spec (2 ^ 63) un); [rewrite Hi; change (i64 (- - 2 ^ 63)) with (- 2 ^ 63); lia|]. destruct (decide (un = 2 ^ 63)) as [->|]; [rewrite Hi; change (i64 (- - 2 ^ 63)) with (- 2 ^ 63); lia|].
    rewrite (i64_id un) by (unfold is_i64; lia). rewrite i64_id by (unfold is_i64; lia). lia.
  - destruct (Z.leb_spec (2 ^ 63) un); [change (i64 (2 ^ 63 - 1)) with (2 ^ 63 - 1); lia|]. rewrite i64_id by (unfold is_i64; lia). lia.
Qed.
Lemma parse_digits_range s : ∀ n, 0 ≤ n ≤ max_u64 → match parse_digits n s with POk v => 0 ≤ v ≤ max_u64 | PRange v => v = max_u64 | PSyntax => True end.
Proof.
  induction s as [|c s IH]; intros n Hn; [done|]. destruct (decide (digit c)) as [Hc|Hc]; [|destruct (digit_of_other c Hc) as [E|(d & E & Hd)]; cbn [parse_digits]; rewrite E; [done|by destruct (Z.leb_spec 10 d); [|lia]]].
  - rewrite parse_digit_step by done. unfold digit in Hc. destruct (decide _); [|done]. apply IH. lia.
Qed.
Lemma parse_value s b t : signed s b t → string_to_int64 s = match parse_uint t with PSyntax => 0 | POk u => finish b u | PRange u => finish b u end.
Proof.
  assert (HF : ∀ (b : bool) t, match parse_uint t with PSyntax => 0 | POk un => 
      (if negb b && (2 ^ 63 <=? un) then i64 (2 ^ 63 - 1) else if b && (2 ^ 63 <? un) then i64 (- i64 (2 ^ 63)) else if b then i64 (- i64 un) else i64 un)
      | PRange un => (if negb b && (2 ^ 63 <=? un) then i64 (2 ^ 63 - 1) else if b && (2 ^ 63 <? un) then i64 (- i64 (2 ^ 63)) else if b then i64 (- i64 un) else i64 un) end
    = match parse_uint t with PSyntax => 0 | POk u => finish b u | PRange u => finish b u end).
  { intros b' t'. unfold parse_uint. destruct t' as [|c t']; [done|]. pose proof (parse_digits_range (c :: t') 0 ltac:(unfold max_u64; lia)) as Hr. destruct (parse_digits 0 (c :: t')); [by apply finish_ok|done|]. subst. apply finish_ok. unfold max_u64; lia. }
  intros [r|r|c r H1 H2]; unfold string_to_int64.
  - apply (HF false).
  - apply (HF true).
  - apply Z.eqb_neq in H1, H2. rewrite H1, H2. apply (HF false).
Qed.
(** the fast path agrees with the slow one *)
Lemma atoi_digits_ok s : Forall byte s → ∀ n, 0 ≤ n → n * 10 ^ Z.of_nat (length s) + 10 ^ Z.of_nat (length s) ≤ 10 ^ 18 → 
  atoi_digits n s = match parse_digits n s with POk v => Some v | _ => None end.
Proof.
  induction 1 as [|c s Hb _ IH]; intros n Hn Hl; [done|]. cbn [length] in Hl. rewrite Nat2Z.inj_succ, Z.pow_succ_r in Hl by lia. pose proof (Z.pow_pos_nonneg 10 (Z.of_nat (length s)) ltac:(lia) ltac:(lia)) as HP.
  assert (Hn2 : n * 10 + 10 ≤ 10 ^ 18) by nia. unfold byte in Hb. destruct (decide (digit c)) as [Hc|Hc].
  - rewrite parse_digit_step; [|unfold max_u64; lia|done]. unfold digit in Hc. cbn [atoi_digits]. rewrite (Z.mod_small (c - 48)) by lia. destruct (Z.ltb_spec 9 (c - 48)); [lia|]. rewrite decide_True by (unfold max_u64; lia).
    rewrite i64_id by (unfold is_i64; lia). replace (n * 10 + (c - 48)) with (10 * n + (c - 48)) by lia. apply IH; [lia|nia].
  - cbn [atoi_digits]. assert (9 < (c - 48) mod 256) as H9.
    { unfold digit in Hc. destruct (decide (c < 48)); [|rewrite Z.mod_small; lia]. replace (c - 48) with (c - 48 + 256 + (-1) * 256) by lia. rewrite Z.mod_add, Z.mod_small by lia. lia. }
    apply Z.ltb_lt in H9. rewrite H9. cbn [parse_digits]. destruct (digit_of_other c Hc) as [->|(d & -> & Hd)]; [done|]. destruct (Z.leb_spec 10 d); [done|lia].
Qed.

(** ** C50 *)
(** StringToInt and StringToInt64 are the same function *)
Theorem conv_same s : Forall byte s → string_to_int s = string_to_int64 s.
Proof.
  intros Hs. unfold string_to_int. destruct ((0 <? length s)%nat && (length s <? 19)%nat) eqn:El; [|done]. apply andb_true_iff in El as [E1 E2]. apply Nat.ltb_lt in E1, E2.
  destruct s as [|c r]; [done|]. destruct (signed_total c r) as (b & t & Hst). rewrite (parse_value _ _ _ Hst). 
  assert (HP : ∀ t', Forall byte t' → (length t' ≤ 18)%nat → atoi_digits 0 t' = match parse_digits 0 t' with POk v => Some v | _ => None end).
  { intros t' Ht Hl. apply atoi_digits_ok; [done|done|]. assert (10 ^ Z.of_nat (length t') ≤ 10 ^ 18) by (apply Z.pow_le_mono_r; lia). lia. }
  assert (HR : ∀ t', (length t' ≤ 18)%nat → match parse_digits 0 t' with POk v => 0 ≤ v < 10 ^ 18 | PRange _ => False | PSyntax => True end).
  { intros t' Hl. assert (HG : ∀ n, 0 ≤ n → n * 10 ^ Z.of_nat (length t') + 10 ^ Z.of_nat (length t') ≤ 10 ^ 18 → match parse_digits n t' with POk v => 0 ≤ v < 10 ^ 18 | PRange _ => False | PSyntax => True end).
    { clear Hl. induction t' as [|x t' IH]; intros n Hn Hl. { cbn [parse_digits]. change (10 ^ Z.of_nat (length [])) with 1 in Hl. lia. }
      cbn [length] in Hl. rewrite Nat2Z.inj_succ, Z.pow_succ_r in Hl by lia. pose proof (Z.pow_pos_nonneg 10 (Z.of_nat (length t')) ltac:(lia) ltac:(lia)) as HPp. assert (n * 10 + 10 ≤ 10 ^ 18) by nia.
      destruct (decide (digit x)) as [Hc|Hc]; [|destruct (digit_of_other x Hc) as [E|(d & E & Hd)]; cbn [parse_digits]; rewrite E; [done|by destruct (Z.leb_spec 10 d); [|lia]]].
      rewrite parse_digit_step; [|unfold max_u64; lia|done]. unfold digit in Hc. rewrite decide_True by (unfold max_u64; lia). apply IH; [lia|nia]. }
    apply HG; [lia|]. assert (10 ^ Z.of_nat (length t') ≤ 10 ^ 18) by (apply Z.pow_le_mono_r; lia). lia. }
  apply Forall_cons_1 in Hs as Hs'. destruct Hs' as [_ Hr]. cbn [length] in E2.
  inversion Hst as [r0 E|r0 E|c0 r0 H43 H45 E]; subst; cbn [Z.eqb orb].
  - change (43 =? 45) with false. cbn. unfold parse_uint. destruct t as [|x t]; [done|]. rewrite HP by (done || lia). pose proof (HR (x :: t) ltac:(lia)) as Hv. destruct (parse_digits 0 (x :: t)); [|done|done]. unfold finish, clamp. lia.
  - change (45 =? 45) with true. cbn. unfold parse_uint. destruct t as [|x t]; [done|]. rewrite HP by (done || lia). pose proof (HR (x :: t) ltac:(lia)) as Hv. destruct (parse_digits 0 (x :: t)) as [v| |]; [|done|done]. rewrite i64_id by (unfold is_i64; lia). unfold finish, clamp. lia.
  - apply Z.eqb_neq in H43, H45. rewrite H43, H45. cbn [orb]. unfold parse_uint. rewrite HP by (done || simpl; lia). pose proof (HR (c :: r) ltac:(simpl; lia)) as Hv. destruct (parse_digits 0 (c :: r)) as [v| |]; [|done|done]. unfold finish, clamp. cbn. lia.
Qed.
Lemma decimal_signed s v : decimal s v → ∃ b t, signed s b t ∧ t ≠ [] ∧ Forall digit t ∧ v = if b then - value t else value t.
Proof.
  intros [ds Hn Hd|ds Hn Hd|ds Hn Hd].
  - destruct ds as [|c ds]; [done|]. apply Forall_cons_1 in Hd as Hd'. destruct Hd' as [Hc _]. exists false, (c :: ds). split_and!; [|done..]. unfold digit in Hc. constructor; lia.
  - exists false, ds. split_and!; [constructor|done..].
  - exists true, ds. split_and!; [constructor|done..].
Qed.
(** every decimal integer gives its value, or the nearest bound *)
Theorem conv_decimal s v : decimal s v → string_to_int64 s = clamp v.
Proof.
  intros Hd. apply decimal_signed in Hd as (b & t & Hst & Hn & Hd & ->). rewrite (parse_value _ _ _ Hst). unfold parse_uint. destruct t as [|c t]; [done|]. rewrite parse_digits_ok; [|done|unfold max_u64; lia].
  fold (value (c :: t)). pose proof (value_from_mono _ Hd 0 ltac:(lia)) as Hp. fold (value (c :: t)) in Hp. unfold max_u64. destruct (decide _); unfold finish, clamp; destruct b; lia.
Qed.
Lemma fmt_bytes ds : Forall digit ds → Forall byte ds.
Proof. intros H. eapply Forall_impl; [exact H|]. unfold digit, byte. intros. lia. Qed.
Lemma int_to_string_decimal n : is_i64 n → decimal (int_to_string n) n ∧ Forall byte (int_to_string n).
Proof.
  intros Hn. unfold is_i64 in Hn. unfold int_to_string. destruct (Z.ltb_spec n 0).
  - rewrite u64_id by (unfold is_u64; lia). destruct (fmt_digits_ok 20 (- n)) as (H1 & H2 & H3 & _); [lia|lia|]. split; [pose proof (dec_minus _ H2 H1) as Hm; rewrite H3, Z.opp_involutive in Hm; exact Hm|]. constructor; [unfold byte; lia|by apply fmt_bytes].
  - destruct (fmt_digits_ok 20 n) as (H1 & H2 & H3 & _); [lia|lia|]. split; [|by apply fmt_bytes]. pose proof (dec_plain _ H2 H1) as Hm; rewrite H3 in Hm; exact Hm.
Qed.
Theorem conv_round_trip n : is_i64 n → string_to_int (int_to_string n) = n ∧ string_to_int64 (int_to_string n) = n.
Proof.
  intros Hn. destruct (int_to_string_decimal n Hn) as [Hd Hb]. rewrite conv_same by done. rewrite (conv_decimal _ _ Hd). unfold clamp, is_i64 in *. lia.
Qed.
(** the rendering is the decimal numeral without leading zeros *)
Theorem conv_canonical n : is_i64 n → decimal (int_to_string n) n ∧ (∀ c d r, int_to_string n = c :: d :: r → c = 48 → False) ∧ (∀ d e r, int_to_string n = 45 :: d :: e :: r → d ≠ 48).
Proof.
  intros Hn. split; [by apply int_to_string_decimal|]. unfold is_i64 in Hn. unfold int_to_string. destruct (Z.ltb_spec n 0).
  - rewrite u64_id by (unfold is_u64; lia). destruct (fmt_digits_ok 20 (- n)) as (H1 & H2 & H3 & H4); [lia|lia|]. revert H1 H2 H3 H4. generalize (fmt_digits 20 (- n)). intros ds H1 H2 H3 H4. split; [intros c d r [= <-]; lia|]. intros d e r [= E]. rewrite E in H4. simpl in H4. intros ->. apply H4; [lia|done].
  - destruct (fmt_digits_ok 20 n) as (H1 & H2 & H3 & H4); [lia|lia|]. revert H1 H2 H3 H4. generalize (fmt_digits 20 n). intros ds H1 H2 H3 H4. split.
    + intros c d r E ->. rewrite E in H4. apply H4; [simpl; lia|done].
    + intros d e r E. rewrite E in H1. apply Forall_cons_1 in H1 as [H1 _]. unfold digit in H1. lia.
Qed.
(** text that is not a decimal integer gives 0 ... *)
Theorem conv_not_decimal_partial s : (s = [] ∨ s = str "+" ∨ s = str "-" → string_to_int64 s = 0) ∧
  ∀ b t ds c r, signed s b t → t = ds ++ c :: r → Forall digit ds → ¬ digit c → value ds ≤ max_u64 → string_to_int64 s = 0.
Proof.
  split; [intros [->|[->| ->]]; by vm_compute|]. intros b t ds c r Hst -> Hds Hc Hv. rewrite (parse_value _ _ _ Hst). unfold parse_uint. destruct (ds ++ c :: r) eqn:E; [by destruct ds|]. rewrite <- E. rewrite parse_digits_bad; [|done|done|unfold max_u64; lia]. unfold value in Hv. by rewrite decide_True.
Qed.
(** ... unless its digits overflow before the first bad character *)
Theorem conv_overflow_first s b ds c r : signed s b (ds ++ c :: r) → Forall digit ds → ¬ digit c → max_u64 < value ds → string_to_int64 s = if b then - 2 ^ 63 else 2 ^ 63 - 1.
Proof.
  intros Hst Hds Hc Hv. rewrite (parse_value _ _ _ Hst). unfold parse_uint. destruct (ds ++ c :: r) eqn:E; [by destruct ds|]. rewrite <- E. rewrite parse_digits_bad; [|done|done|unfold max_u64; lia]. unfold value in Hv. rewrite decide_False by lia. by destruct b.
Qed.
Lemma not_decimal_digits s v : decimal s v → ∀ c, c ∈ s → digit c ∨ c = 43 ∨ c = 45.
Proof.
  intros [ds Hn Hd|ds Hn Hd|ds Hn Hd] c Hc; [|apply elem_of_cons in Hc as [->|Hc]; [auto|]..]; left; rewrite Forall_forall in Hd; by apply Hd.
Qed.
Theorem conv_not_decimal_refuted : ∃ s, (∀ v, ¬ decimal s v) ∧ string_to_int s = 2 ^ 63 - 1 ∧ string_to_int64 s = 2 ^ 63 - 1.
Proof.
  exists (str "99999999999999999999x"). split_and!; [|by vm_compute..]. intros v Hd. destruct (not_decimal_digits _ _ Hd 120) as [H|[H|H]]; [apply elem_of_list_lookup; exists 20%nat; by vm_compute|unfold digit in H; lia|lia|lia].
Qed.
Example conv_example : int_to_string (- 2 ^ 63) = str "-9223372036854775808" ∧ string_to_int64 (str "+0042") = 42 ∧ string_to_int (str "12a") = 0 ∧ string_to_int (str "1_000") = 0 ∧ decimal (str "-7") (-7).
Proof. split_and!; [by vm_compute..|]. apply (dec_minus [55]); [done|]. constructor; [unfold digit; lia|constructor]. Qed.
Print Assumptions conv_same.
Print Assumptions conv_decimal.
Print Assumptions conv_round_trip.
Print Assumptions conv_canonical.
Print Assumptions conv_not_decimal_partial.
Print Assumptions conv_overflow_first.
Print Assumptions conv_not_decimal_refuted.
