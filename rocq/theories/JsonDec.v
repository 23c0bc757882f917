(** * JSON: strings, numbers and objects are decoded right *)
From stdpp Require Import gmap.
From Verif Require Import GoStr ConvModel ConvSpec ConvProps JsonModel JsonSpec JsonProofs.
Local Open Scope Z_scope.

(** ** UTF-8 *)
Lemma decode_cases b s : Forall byte (b :: s) →
  (decode_rune (b :: s) = (rune_error, 1%nat) ∧ ∀ c u, valid_rune c = true → b :: s ≠ encode_rune c ++ u) ∨
  ∃ c u, valid_rune c = true ∧ b :: s = encode_rune c ++ u ∧ decode_rune (b :: s) = (c, length (encode_rune c)).
Proof.
  intros Hb. destruct (decide (decode_rune (b :: s) = (rune_error, 1%nat))) as [E|E].
  - left. split; [done|]. intros c u Hv Eq. rewrite Eq, decode_encode in E by done. injection E as -> El. by vm_compute in El.
  - right. exists (decode_rune (b :: s)).1, (drop (decode_rune (b :: s)).2 (b :: s)). assert (Hv : valid_rune (decode_rune (b :: s)).1 = true) by (by apply decode_rune_valid).
    assert (Hs : b :: s = encode_rune (decode_rune (b :: s)).1 ++ drop (decode_rune (b :: s)).2 (b :: s)) by (rewrite encode_decode_ok by done; by rewrite take_drop).
    split_and!; [done|done|]. rewrite Hs at 1. by apply decode_encode.
Qed.
Lemma encode_low c : 0 ≤ c < 128 → encode_rune c = [c].
Proof. intros H. unfold encode_rune. assert (valid_rune c = true) as -> by (apply valid_rune_iff; lia). destruct (Z.ltb_spec c 128); [done|lia]. Qed.
Lemma encode_high c : valid_rune c = true → 128 ≤ c → Forall (λ b, 128 ≤ b) (encode_rune c).
Proof.
  intros Hv Hc. unfold encode_rune. rewrite Hv. apply valid_rune_iff in Hv. destruct (Z.ltb_spec c 128); [lia|]. destruct (Z.ltb_spec c 2048); [|destruct (Z.ltb_spec c 65536)]; repeat constructor; Z.div_mod_to_equations; lia.
Qed.
Lemma encode_cons c : ∃ b l, encode_rune c = b :: l.
Proof. pose proof (encode_rune_length c). destruct (encode_rune c); [simpl in *; lia|eauto]. Qed.
Lemma encode_inj c c' u u' : valid_rune c = true → valid_rune c' = true → encode_rune c ++ u = encode_rune c' ++ u' → c = c' ∧ u = u'.
Proof.
  intros Hv Hv' E. assert (decode_rune (encode_rune c ++ u) = decode_rune (encode_rune c' ++ u')) as Ed by (by rewrite E). rewrite !decode_encode in Ed by done. injection Ed as -> _. split; [done|]. by apply app_inv_head in E.
Qed.
Lemma encode_head c b l u r : valid_rune c = true → encode_rune c = b :: l → b < 128 → b :: r = encode_rune c ++ u → c = b ∧ l = [] ∧ r = u.
Proof.
  intros Hv E Hb Er. destruct (decide (c < 128)) as [Hc|Hc].
  - apply valid_rune_iff in Hv. rewrite encode_low in E, Er by lia. injection E as -> <-. by injection Er as ->.
  - pose proof (encode_high c Hv ltac:(lia)) as HF. rewrite E in HF. apply Forall_cons_1 in HF as [HF _]. lia.
Qed.

(** ** Escapes *)
Lemma hexv_val c x : hexv c x → hex_val c = Some x ∧ 0 ≤ x < 16.
Proof.
  intros [c' H|c' H|c' H]; unfold hex_val.
  - assert (between 48 57 c' = true) as -> by (by apply between_iff). split; [done|lia].
  - destruct (between 48 57 c') eqn:E; [apply between_iff in E; lia|]. assert (between 97 102 c' = true) as -> by (by apply between_iff). split; [f_equal; lia|lia].
  - destruct (between 48 57 c') eqn:E; [apply between_iff in E; lia|]. destruct (between 97 102 c') eqn:E2; [apply between_iff in E2; lia|]. assert (between 65 70 c' = true) as -> by (by apply between_iff). split; [f_equal; lia|lia].
Qed.
Lemma hex_val_hexv c x : hex_val c = Some x → hexv c x.
Proof.
  unfold hex_val. destruct (between 48 57 c) eqn:E1; [intros [= <-]; apply between_iff in E1; by constructor|]. destruct (between 97 102 c) eqn:E2; [intros [= <-]; apply between_iff in E2; replace (c - 87) with (c - 97 + 10) by lia; by constructor|].
  destruct (between 65 70 c) eqn:E3; [|done]. intros [= <-]; apply between_iff in E3. replace (c - 55) with (c - 65 + 10) by lia. by constructor.
Qed.
Lemma hex4_bound h x : hex4 h x → 0 ≤ x < 65536 ∧ length h = 4%nat.
Proof. intros [a b c d y z w v H1 H2 H3 H4]. apply hexv_val in H1 as [_ H1], H2 as [_ H2], H3 as [_ H3], H4 as [_ H4]. split; [lia|done]. Qed.
Lemma getu4_complete h x r : hex4 h x → getu4 (92 :: 117 :: h ++ r) = Some x.
Proof.
  intros [a b c d y z w v H1 H2 H3 H4]. apply hexv_val in H1 as [E1 _], H2 as [E2 _], H3 as [E3 _], H4 as [E4 _]. cbn [app]. unfold getu4. change ((92 =? 92) && (117 =? 117)) with true. cbn iota. rewrite E1, E2, E3, E4. cbn [mbind option_bind]. f_equal. lia.
Qed.
Lemma getu4_sound s x : getu4 s = Some x → ∃ h r, s = 92 :: 117 :: h ++ r ∧ hex4 h x.
Proof.
  destruct s as [|b [|u [|h1 [|h2 [|h3 [|h4 r]]]]]]; try done. unfold getu4. destruct (_ && _) eqn:E; [|done]. apply andb_true_iff in E as [E1 E2]. apply Z.eqb_eq in E1, E2. subst.
  destruct (hex_val h1) as [x1|] eqn:H1; [|done]. destruct (hex_val h2) as [x2|] eqn:H2; [|done]. destruct (hex_val h3) as [x3|] eqn:H3; [|done]. destruct (hex_val h4) as [x4|] eqn:H4; [|done]. cbn [mbind option_bind]. intros [= <-].
  exists [h1; h2; h3; h4], r. split; [done|]. replace (((x1 * 16 + x2) * 16 + x3) * 16 + x4) with (4096 * x1 + 256 * x2 + 16 * x3 + x4) by lia. constructor; by apply hex_val_hexv.
Qed.
Lemma hex4_fun h x y : hex4 h x → hex4 h y → x = y.
Proof. intros Hx Hy. pose proof (getu4_complete h x [] Hx). pose proof (getu4_complete h y [] Hy). congruence. Qed.
Lemma escapes_fun e x y : (e, x) ∈ escapes → (e, y) ∈ escapes → x = y.
Proof.
  intros Hx Hy. unfold escapes in *. rewrite !elem_of_cons, elem_of_nil in Hx, Hy. destruct_or! Hx; try done; injection Hx as -> ->; destruct_or! Hy; by simplify_eq.
Qed.

(** ** A string has one reading *)
Lemma toks_cases raw ts : toks raw ts →
  match raw with
  | [] => ts = []
  | b :: r =>
    if b =? 92 then
      match r with
      | e :: r' => (e ≠ 117 ∧ ∃ x ts', (e, x) ∈ escapes ∧ toks r' ts' ∧ ts = Char x :: ts') ∨ (e = 117 ∧ ∃ h x r2 ts', hex4 h x ∧ r' = h ++ r2 ∧ toks r2 ts' ∧ ts = Unit x :: ts')
      | [] => False
      end
    else (∃ c u ts', valid_rune c = true ∧ raw = encode_rune c ++ u ∧ toks u ts' ∧ ts = Char c :: ts') ∨
         ((∀ c u, valid_rune c = true → raw ≠ encode_rune c ++ u) ∧ ∃ ts', toks r ts' ∧ ts = Char 65533 :: ts')
  end.
Proof.
  intros [|c r ts' Hv H92 Ht|b r ts' Hb Ht|e x r ts' He Ht|h x r ts' Hh Ht]; [done| | | |].
  - destruct (encode_cons c) as (b & l & E). rewrite E. cbn [app]. destruct (Z.eqb_spec b 92) as [->|].
    + exfalso. apply H92. by eapply (proj1 (encode_head c 92 l r (l ++ r) Hv E ltac:(lia) ltac:(by rewrite E))).
    + left. exists c, r, ts'. rewrite E. done.
  - destruct (Z.eqb_spec b 92) as [->|]; [|right; split; [done|eauto]]. exfalso. by apply (Hb 92 r).
  - change (92 =? 92) with true. cbn iota. left. split; [by eapply esc_not_u|]. eauto.
  - change (92 =? 92) with true. cbn iota. right. split; [done|]. by eexists _, _, _, _.
Qed.
Lemma toks_fun raw ts : toks raw ts → ∀ ts', toks raw ts' → ts = ts'.
Proof.
  induction 1 as [|c r ts Hv H92 Ht IH|b r ts Hb Ht IH|e x r ts He Ht IH|h x r ts Hh Ht IH]; intros ts' H'; apply toks_cases in H'.
  - done.
  - destruct (encode_cons c) as (b & l & E). rewrite E in H'. cbn [app] in H'. destruct (Z.eqb_spec b 92) as [->|].
    { exfalso. apply H92. by eapply (proj1 (encode_head c 92 l r (l ++ r) Hv E ltac:(lia) ltac:(by rewrite E))). }
    change (b :: l ++ r) with ((b :: l) ++ r) in H'. rewrite <- E in H'. destruct H' as [(c' & u & ts2 & Hv' & Eq & Ht' & ->)|[Hbad _]]; [|by edestruct Hbad].
    apply encode_inj in Eq as [-> ->]; [|done..]. f_equal. by apply IH.
  - destruct (Z.eqb_spec b 92) as [->|]; [exfalso; by apply (Hb 92 r)|]. destruct H' as [(c' & u & ts2 & Hv' & Eq & _)|[_ (ts2 & Ht' & ->)]]; [by edestruct Hb|]. f_equal. by apply IH.
  - change (92 =? 92) with true in H'. cbn iota in H'. destruct H' as [(_ & y & ts2 & Hy & Ht' & ->)|[-> _]]; [|by eapply esc_not_u in He]. rewrite (escapes_fun _ _ _ He Hy). f_equal. by apply IH.
  - change (92 =? 92) with true in H'. cbn iota in H'. destruct H' as [[? _]|(_ & h' & y & r2 & ts2 & Hy & Eq & Ht' & ->)]; [done|]. apply app_inj_1 in Eq as [-> ->]; [|apply hex4_bound in Hh as [_ ->]; by apply hex4_bound in Hy as [_ ->]]. rewrite (hex4_fun _ _ _ Hh Hy). f_equal. by apply IH.
Qed.
Lemma chars_drop l r : Forall (λ b, 128 ≤ b) l → chars (l ++ r) → chars r.
Proof.
  induction 1 as [|b l Hb _ IH]; [done|]. cbn [app]. intros H. apply IH. inversion H; subst; [done|lia|lia].
Qed.
Lemma of_runes_cons c l : of_runes (c :: l) = encode_rune c ++ of_runes l.
Proof. done. Qed.
Lemma unquote_toks raw : chars raw → Forall byte raw → ∃ ts, toks raw ts ∧ ∀ f, (length raw ≤ f)%nat → unquote f raw = of_runes (characters ts).
Proof.
  induction raw as [raw IH] using (induction_ltof1 _ length). unfold ltof in IH. intros Hc Hb. inversion Hc as [E|b r H32 H34 H92 Hr E|e x r He Hr E|h x r Hh Hr E]; subst raw.
  - exists []. split; [constructor|]. by intros [|f].
  - destruct (decide (b < 128)) as [Hl|Hl].
    + destruct (IH r) as (ts & Ht & Hu); [simpl; lia|done|by apply Forall_cons_1 in Hb as [_ ?]|]. exists (Char b :: ts). split.
      * assert (encode_rune b ++ r = b :: r) as <- by (by rewrite encode_low by lia). constructor; [apply valid_rune_iff; lia|done|done].
      * intros [|f] Hf; [simpl in Hf; lia|]. cbn [unquote characters]. apply Z.eqb_neq in H92. rewrite H92. destruct (Z.ltb_spec b 128); [|lia]. rewrite of_runes_cons, encode_low by lia. cbn [app]. f_equal. apply Hu. simpl in Hf. lia.
    + destruct (decode_cases b r Hb) as [[Ed Hbad]|(c & u & Hv & Eq & Ed)].
      * destruct (IH r) as (ts & Ht & Hu); [simpl; lia|done|by apply Forall_cons_1 in Hb as [_ ?]|]. exists (Char 65533 :: ts). split; [by constructor|]. intros [|f] Hf; [simpl in Hf; lia|]. cbn [unquote characters]. apply Z.eqb_neq in H92. rewrite H92. destruct (Z.ltb_spec b 128); [lia|]. rewrite Ed, of_runes_cons. cbn [drop]. f_equal. apply Hu. simpl in Hf. lia.
      * destruct (encode_cons c) as (b' & l & Ec). pose proof Eq as Eq'. rewrite Ec in Eq'. injection Eq' as <- ->. assert (Hcc : 128 ≤ c). { apply valid_rune_iff in Hv. destruct (decide (c < 128)); [|lia]. rewrite encode_low in Ec by lia. injection Ec as -> _. lia. }
        assert (Hcu : chars u). { eapply (chars_drop (encode_rune c)); [by apply encode_high|]. by rewrite Ec. }
        destruct (IH u) as (ts & Ht & Hu); [simpl; rewrite app_length; lia|done|change (b :: l ++ u) with ((b :: l) ++ u) in Hb; by apply Forall_app in Hb as [_ ?]|]. exists (Char c :: ts). split; [rewrite Eq; constructor; [done|lia|done]|].
        intros [|f] Hf; [simpl in Hf; lia|]. cbn [unquote characters]. apply Z.eqb_neq in H92. rewrite H92. destruct (Z.ltb_spec b 128); [lia|]. rewrite Ed, of_runes_cons. f_equal. rewrite Eq, drop_app. apply Hu. simpl in Hf. rewrite app_length in Hf. lia.
  - destruct (IH r) as (ts & Ht & Hu); [simpl; lia|done|by apply Forall_cons_1 in Hb as [_ Hb]; apply Forall_cons_1 in Hb as [_ ?]|]. exists (Char x :: ts). split; [by constructor|]. intros [|f] Hf; [simpl in Hf; lia|]. cbn [unquote characters]. change (92 =? 92) with true. cbn iota.
    pose proof (esc_not_u e x He) as Hu'. apply Z.eqb_neq in Hu'. rewrite Hu'. rewrite of_runes_cons. rewrite Hu by (simpl in Hf; lia). clear - He. unfold escapes in He. repeat (apply elem_of_cons in He as [[= -> ->]|He]; [done|]). by apply elem_of_nil in He.
  - pose proof (hex4_bound _ _ Hh) as [Hx Hlen]. assert (Hbr : Forall byte r) by (apply Forall_cons_1 in Hb as [_ Hb]; apply Forall_cons_1 in Hb as [_ Hb]; by apply Forall_app in Hb as [_ ?]).
    assert (Hstep : ∀ f, unquote (S f) (92 :: 117 :: h ++ r) = if (55296 <=? x) && (x <? 57344) then
        (let dec := utf16_decode x (default (-1) (getu4 r)) in if dec =? rune_error then encode_rune rune_error ++ unquote f r else encode_rune dec ++ unquote f (drop 6 r)) else encode_rune x ++ unquote f r).
    { intros f. cbn [unquote]. change (92 =? 92) with true. change (117 =? 117) with true. cbn iota. rewrite (getu4_complete _ _ _ Hh). change (drop 6 (92 :: 117 :: h ++ r)) with (drop 4 (h ++ r)). assert (drop 4 (h ++ r) = r) as -> by (by rewrite <- Hlen, drop_app). done. }
    destruct (IH r) as (ts & Ht & Hu); [simpl; rewrite app_length; lia|done|done|].
    assert ((∃ y, getu4 r = Some y ∧ 55296 ≤ x < 56320 ∧ 56320 ≤ y < 57344) ∨ ¬ ∃ y, getu4 r = Some y ∧ 55296 ≤ x < 56320 ∧ 56320 ≤ y < 57344) as [(y & Hy & Hhi & Hlo)|Hno].
    { destruct (getu4 r) as [y|]; [|right; by intros (? & ? & _)]. destruct (decide (55296 ≤ x < 56320 ∧ 56320 ≤ y < 57344)); [left; eauto|right; by intros (? & [= <-] & ?)]. }
    + apply getu4_sound in Hy as (h2 & r2 & -> & Hh2). pose proof (hex4_bound _ _ Hh2) as [_ Hlen2]. assert (Hr2 : chars r2).
      { inversion Hr as [|? ? ? ? ? ? |? ? ? He ? |h3 ? ? Hh3 Hr3 E3]; subst; [done|by eapply esc_not_u in He|]. apply app_inj_1 in E3 as [_ <-]; [done|]. apply hex4_bound in Hh3 as [_ ->]. by rewrite Hlen2. }
      destruct (IH r2) as (ts2 & Ht2 & Hu2); [simpl; rewrite !app_length; simpl; rewrite app_length; lia|done| |].
      { apply Forall_cons_1 in Hbr as [_ Hbr]; apply Forall_cons_1 in Hbr as [_ Hbr]; by apply Forall_app in Hbr as [_ ?]. }
      exists (Unit x :: Unit y :: ts2). split; [by repeat constructor|]. intros [|f] Hf; [simpl in Hf; lia|]. rewrite Hstep. destruct (Z.leb_spec 55296 x); [|lia]. destruct (Z.ltb_spec x 57344); [|lia]. cbn [andb]. rewrite (getu4_complete _ _ _ Hh2). change (default (-1) (Some y)) with y. cbn zeta.
      assert (utf16_decode x y = 65536 + 1024 * (x - 55296) + (y - 56320)) as ->. { unfold utf16_decode. destruct (Z.leb_spec 55296 x); [|lia]. destruct (Z.ltb_spec x 56320); [|lia]. destruct (Z.leb_spec 56320 y); [|lia]. destruct (Z.ltb_spec y 57344); [|lia]. cbn [andb]. lia. }
      destruct (Z.eqb_spec (65536 + 1024 * (x - 55296) + (y - 56320)) rune_error) as [E|_]; [unfold rune_error in E; lia|]. cbn [characters]. rewrite decide_True by done. rewrite of_runes_cons. f_equal.
      change (drop 6 (92 :: 117 :: h2 ++ r2)) with (drop 4 (h2 ++ r2)). assert (drop 4 (h2 ++ r2) = r2) as -> by (by rewrite <- Hlen2, drop_app). apply Hu2. simpl in Hf. rewrite app_length in Hf. simpl in Hf. rewrite app_length in Hf. lia.
    + exists (Unit x :: ts). split; [by constructor|]. intros [|f] Hf; [simpl in Hf; lia|]. rewrite Hstep, Hu by (simpl in Hf; rewrite app_length in Hf; lia).
      assert (characters (Unit x :: ts) = (if decide (55296 ≤ x < 57344) then 65533 else x) :: characters ts) as ->.
      { cbn [characters]. destruct ts as [|[c|y] ts']; [done|done|]. rewrite decide_False; [done|]. intros [H1 H2]. apply Hno. exists y. split; [|done]. apply toks_cases in Ht. destruct r as [|b r']; [done|]. destruct (Z.eqb_spec b 92) as [->|].
        - destruct r' as [|e r']; [done|]. destruct Ht as [(_ & ? & ? & _ & _ & ?)|(-> & h2 & y' & r2 & ts2 & Hh2 & -> & _ & [= -> _])]; [done|]. by apply getu4_complete.
        - destruct Ht as [(? & ? & ? & _ & _ & _ & ?)|(_ & ? & _ & ?)]; done. }
      rewrite of_runes_cons. case_decide as Hs.
      * destruct (Z.leb_spec 55296 x); [|lia]. destruct (Z.ltb_spec x 57344); [|lia]. cbn [andb]. cbn zeta. assert (utf16_decode x (default (-1) (getu4 r)) = rune_error) as ->; [|done].
        destruct (getu4 r) as [y|]; [change (default (-1) (Some y)) with y in *|change (default (-1) None) with (-1) in *]; unfold utf16_decode.
        -- destruct (Z.leb_spec 55296 x), (Z.ltb_spec x 56320), (Z.leb_spec 56320 y), (Z.ltb_spec y 57344); try done. exfalso. apply Hno. exists y. split_and!; [done|lia..].
        -- destruct (Z.leb_spec 55296 x), (Z.ltb_spec x 56320); done.
      * destruct ((55296 <=? x) && (x <? 57344)) eqn:E; [|done]. apply andb_true_iff in E as [H1 H2]. rewrite Z.leb_le, Z.ltb_lt in *. lia.
Qed.
Definition unq (raw : gostr) : gostr := unquote (length raw) raw.
Lemma spells_iff raw k : chars raw → Forall byte raw → spells raw k ↔ k = unq raw.
Proof.
  intros Hc Hb. destruct (unquote_toks raw Hc Hb) as (ts & Ht & Hu). unfold unq. rewrite Hu by done. split; [|by intros ->; exists ts]. intros (ts' & Ht' & ->). by rewrite (toks_fun _ _ Ht _ Ht').
Qed.

(** ** Numbers *)
Lemma digits_split s : Forall digit s ∨ ∃ ds c r, s = ds ++ c :: r ∧ Forall digit ds ∧ ¬ digit c.
Proof.
  induction s as [|c s IH]; [by left|]. destruct (is_digit c) eqn:E.
  - apply is_digit_iff in E. destruct IH as [IH|(ds & x & r & -> & Hd & Hx)]; [left; by constructor|]. right. exists (c :: ds), x, r. split_and!; [done|by constructor|done].
  - right. exists [], c, s. split_and!; [done|constructor|]. intros H. apply is_digit_iff in H. congruence.
Qed.
Lemma parse_uint_ok t v : parse_uint t = POk v ↔ t ≠ [] ∧ Forall digit t ∧ v = value t ∧ v ≤ max_u64.
Proof.
  assert (Hm : 0 ≤ 0 ≤ max_u64) by (unfold max_u64; lia). split.
  - unfold parse_uint. destruct t as [|c t]; [done|]. intros E. split; [done|]. destruct (digits_split (c :: t)) as [Hd|(ds & x & r & Eq & Hd & Hx)].
    + rewrite parse_digits_ok in E by done. destruct (decide _) as [Hl|]; [|done]. injection E as <-. done.
    + rewrite Eq, parse_digits_bad in E by done. by destruct (decide _).
  - intros (Hn & Hd & -> & Hl). unfold parse_uint. destruct t as [|c t]; [done|]. rewrite parse_digits_ok by done. unfold value in Hl. by rewrite decide_True.
Qed.
Lemma value_nonneg ds : Forall digit ds → 0 ≤ value ds.
Proof. intros H. by apply value_from_mono. Qed.
Lemma decimal_fun s v v' : decimal s v → decimal s v' → v = v'.
Proof.
  intros H1 H2. apply decimal_signed in H1 as (b1 & t1 & S1 & _ & _ & ->), H2 as (b2 & t2 & S2 & _ & _ & ->). inversion S1; subst; inversion S2; subst; done || lia.
Qed.
Lemma parse_int_ok s n : parse_int s = Some n ↔ decimal s n ∧ is_i64 n.
Proof.
  unfold is_i64. split.
  - destruct s as [|c r]; [done|]. unfold parse_int. destruct (Z.eqb_spec c 45) as [->|H45]; cbn zeta.
    + change ((45 =? 43) || true) with true. cbn [negb andb]. cbn iota. destruct (parse_uint r) as [un| |] eqn:Ep; [|done|done]. apply parse_uint_ok in Ep as (Hn & Hd & -> & Hl). pose proof (value_nonneg r Hd) as H0.
      destruct (Z.ltb_spec (2 ^ 63) (value r)); [done|]. intros [= <-]. destruct (decide (value r = 2 ^ 63)) as [E|].
      * rewrite E. assert (i64 (- i64 (2 ^ 63)) = - 2 ^ 63) as -> by (by vm_compute). rewrite <- E at 1. split; [by constructor|lia].
      * rewrite (i64_id (value r)) by (unfold is_i64; lia). rewrite i64_id by (unfold is_i64; lia). split; [by constructor|lia].
    + rewrite orb_false_r. cbn [negb andb]. destruct (parse_uint (if c =? 43 then r else c :: r)) as [un| |] eqn:Ep; [|done|done]. apply parse_uint_ok in Ep as (Hn & Hd & -> & Hl). pose proof (value_nonneg _ Hd) as H0.
      destruct (Z.leb_spec (2 ^ 63) (value (if c =? 43 then r else c :: r))); [done|]. intros [= <-]. rewrite i64_id by (unfold is_i64; lia). destruct (Z.eqb_spec c 43) as [->|H43]; (split; [by constructor|lia]).
  - intros [Hd Hi]. apply decimal_signed in Hd as (b & t & Hs & Hn & Hd & ->). pose proof (value_nonneg t Hd) as H0. assert (Hp : parse_uint t = POk (value t)) by (apply parse_uint_ok; split_and!; [done|done|done|unfold max_u64; destruct b; lia]).
    destruct Hs as [r|r|c r H43 H45]; unfold parse_int.
    + change (43 =? 43) with true. change (43 =? 45) with false. cbn [orb negb andb]. cbn iota. rewrite Hp. destruct (Z.leb_spec (2 ^ 63) (value r)); [lia|]. by rewrite i64_id by (unfold is_i64; lia).
    + change (45 =? 43) with false. change (45 =? 45) with true. cbn [orb negb andb]. cbn iota. rewrite Hp. destruct (Z.ltb_spec (2 ^ 63) (value r)); [lia|]. f_equal. destruct (decide (value r = 2 ^ 63)) as [->|]; [by vm_compute|]. rewrite (i64_id (value r)) by (unfold is_i64; lia). by rewrite i64_id by (unfold is_i64; lia).
    + apply Z.eqb_neq in H43, H45. rewrite H43, H45. cbn [orb negb andb]. rewrite Hp. destruct (Z.leb_spec (2 ^ 63) (value (c :: r))); [lia|]. by rewrite i64_id by (unfold is_i64; lia).
Qed.
Lemma int32_fun v n n' : int32 v n → int32 v n' → n = n'.
Proof. intros (l & -> & H1 & _) (l' & [= <-] & H2 & _). by eapply decimal_fun. Qed.
Lemma dec_int32_ok v n : int32 v n → dec_int32 v = n.
Proof.
  intros (lit & -> & Hd & Hr). cbn [dec_int32]. assert (parse_int lit = Some n) as -> by (apply parse_int_ok; split; [done|unfold is_i64; lia]). destruct (Z.leb_spec (- 2 ^ 31) n); [|lia]. destruct (Z.ltb_spec n (2 ^ 31)); [done|lia].
Qed.
Lemma dec_int32_bad v : (∀ n, ¬ int32 v n) → dec_int32 v = 0.
Proof.
  intros H. destruct v as [| |lit| | |]; try done. cbn [dec_int32]. destruct (parse_int lit) as [n|] eqn:E; [|done]. apply parse_int_ok in E as [Hd _]. destruct ((- 2 ^ 31 <=? n) && (n <? 2 ^ 31)) eqn:Er; [|done]. apply andb_true_iff in Er as [E1 E2]. apply Z.leb_le in E1. apply Z.ltb_lt in E2. exfalso. apply (H n). by exists lit.
Qed.
Lemma int32_dec v : (∃ n, int32 v n) ∨ ∀ n, ¬ int32 v n.
Proof.
  destruct v as [| |lit| | |]; try (right; by intros n (? & ? & _)). destruct (parse_int lit) as [n|] eqn:E.
  - apply parse_int_ok in E as [Hd _]. destruct (decide (- 2 ^ 31 ≤ n < 2 ^ 31)); [left; exists n; by exists lit|]. right. intros n' (? & [= <-] & Hd' & ?). by rewrite (decimal_fun _ _ _ Hd Hd') in *.
  - right. intros n (? & [= <-] & Hd & ?). assert (parse_int lit = Some n); [|congruence]. apply parse_int_ok. split; [done|unfold is_i64; lia].
Qed.

(** ** Objects *)
Lemma dec_members_app m a b : dec_members m (a ++ b) = dec_members (dec_members m a) b.
Proof. revert m. induction a as [|[k v] a IH]; intros m; [done|]. cbn [app dec_members]. apply IH. Qed.
Lemma dec_members_other ms k : ∀ m, (∀ raw v, (raw, v) ∈ ms → unq raw ≠ k) → dec_members m ms !! k = m !! k.
Proof.
  induction ms as [|[raw v] ms IH]; intros m H; [done|]. cbn [dec_members]. rewrite IH; [|intros raw' v' Hm; apply (H raw' v'); by right]. apply lookup_insert_ne. apply (H raw v). by left.
Qed.
Lemma dec_members_last m a raw v b : (∀ raw' v', (raw', v') ∈ b → unq raw' ≠ unq raw) → dec_members m (a ++ (raw, v) :: b) !! unq raw = Some (dec_int32 v).
Proof. intros H. rewrite dec_members_app. cbn [dec_members]. rewrite dec_members_other by done. apply lookup_insert. Qed.
Lemma last_split (ms : list (gostr * json)) k : (∀ raw v, (raw, v) ∈ ms → unq raw ≠ k) ∨ ∃ a raw v b, ms = a ++ (raw, v) :: b ∧ unq raw = k ∧ ∀ raw' v', (raw', v') ∈ b → unq raw' ≠ k.
Proof.
  induction ms as [|[raw v] ms IH]; [left; intros ? ? H; by apply elem_of_nil in H|]. destruct IH as [IH|(a & raw' & v' & b & -> & Hk & Hb)].
  - destruct (decide (unq raw = k)) as [Hk|Hk]; [right; by exists [], raw, v, ms|]. left. intros raw' v' [[= -> ->]|H]%elem_of_cons; [done|by eapply IH].
  - right. by exists ((raw, v) :: a), raw', v', b.
Qed.
Lemma dec_members_iff ms k n : (∀ raw v, (raw, v) ∈ ms → chars raw ∧ Forall byte raw) →
  dec_members ∅ ms !! k = Some n ↔ ∃ v, last_member ms k v ∧ dec_int32 v = n.
Proof.
  intros Hw. split.
  - intros E. destruct (last_split ms k) as [H|(a & raw & v & b & -> & Hk & Hb)]; [by rewrite dec_members_other in E|]. assert (Hwr : chars raw ∧ Forall byte raw) by (apply (Hw raw v), elem_of_app; right; by left). exists v. split.
    + exists a, raw, b. split_and!; [done|by apply spells_iff; [tauto..|]|]. intros raw' v' Hin. assert (chars raw' ∧ Forall byte raw') as [? ?] by (apply (Hw raw' v'), elem_of_app; right; by right). rewrite spells_iff by done. intros ->. by apply (Hb raw' v' Hin).
    + rewrite <- Hk, dec_members_last in E; [by injection E|]. by rewrite Hk.
  - intros (v & (a & raw & b & -> & Hs & Hb) & <-). assert (chars raw ∧ Forall byte raw) as [? ?] by (apply (Hw raw v), elem_of_app; right; by left). apply spells_iff in Hs as ->; [|done..]. apply dec_members_last. intros raw' v' Hin. assert (chars raw' ∧ Forall byte raw') as [? ?] by (apply (Hw raw' v'), elem_of_app; right; by right). intros E. apply (Hb raw' v' Hin). by apply spells_iff.
Qed.
Lemma members_chars ms t : members ms t → Forall byte t → ∀ raw v, (raw, v) ∈ ms → chars raw ∧ Forall byte raw.
Proof.
  induction 1 as [k v w1 w2 w3 t w4 Hw1 Hk|k v w1 w2 w3 t w4 ms u Hw1 Hk Hw2 Hw3 Ht Hw4 Hms IH]; intros Hb raw v' Hin.
  - apply elem_of_list_singleton in Hin as [= -> ->]. apply Forall_app in Hb as [_ Hb]. apply Forall_cons_1 in Hb as [_ Hb]. apply Forall_app in Hb as [Hb _]. done.
  - apply elem_of_cons in Hin as [[= -> ->]|Hin].
    + apply Forall_app in Hb as [_ Hb]. apply Forall_cons_1 in Hb as [_ Hb]. apply Forall_app in Hb as [Hb _]. done.
    + eapply IH; [|done]. change (w1 ++ 34 :: k ++ 34 :: w2 ++ 58 :: w3 ++ t ++ w4 ++ 44 :: u) with (w1 ++ [34] ++ k ++ [34] ++ w2 ++ [58] ++ w3 ++ t ++ w4 ++ [44] ++ u) in Hb. rewrite !Forall_app in Hb. tauto.
Qed.
Lemma object_chars ms s : json_text (JObj ms) s → Forall byte s → ∀ raw v, (raw, v) ∈ ms → chars raw ∧ Forall byte raw.
Proof.
  intros (w1 & t & w2 & -> & _ & Ht & _) Hb. rewrite !Forall_app in Hb. destruct Hb as (_ & Hb & _). inversion Ht as [| | | | | | |w Hw|ms' t' Hms]; subst; [intros ? ? H; by apply elem_of_nil in H|]. eapply members_chars; [done|]. apply Forall_cons_1 in Hb as [_ Hb]. by apply Forall_app in Hb as [Hb _].
Qed.
