(** * JSON: the parser accepts exactly the grammar, strings are unquoted right *)
From stdpp Require Import gmap.
From Verif Require Import GoStr ConvModel ConvSpec ConvProps JsonModel JsonSpec.
Local Open Scope Z_scope.

(** ** Spaces *)
Lemma is_ws_iff c : is_ws c = true ↔ c = 32 ∨ c = 9 ∨ c = 10 ∨ c = 13.
Proof. unfold is_ws. rewrite !orb_true_iff, !Z.eqb_eq. naive_solver. Qed.
Lemma skip_ws_app w s : space w → skip_ws (w ++ s) = skip_ws s.
Proof. induction 1 as [|c w Hc _ IH]; [done|]. cbn [app skip_ws]. apply is_ws_iff in Hc. by rewrite Hc. Qed.
Lemma skip_ws_self c r : is_ws c = false → skip_ws (c :: r) = c :: r.
Proof. intros H. cbn [skip_ws]. by rewrite H. Qed.
Lemma skip_ws_split s : ∃ w, space w ∧ s = w ++ skip_ws s.
Proof.
  induction s as [|c s IH]; [by exists []; split; [constructor|]|]. cbn [skip_ws]. destruct (is_ws c) eqn:E; [|exists []; split; [constructor|done]].
  destruct IH as (w & Hw & Es). exists (c :: w). split; [constructor; [by apply is_ws_iff|done]|]. cbn [app]. by f_equal.
Qed.
Lemma skip_ws_cons s c r : skip_ws s = c :: r → ∃ w, space w ∧ s = w ++ c :: r ∧ is_ws c = false.
Proof.
  intros E. destruct (skip_ws_split s) as (w & Hw & Es). rewrite E in Es. exists w. split_and!; [done|done|]. clear Es Hw w. induction s as [|x s IH]; [done|]. cbn [skip_ws] in E. destruct (is_ws x) eqn:Ex; [auto|]. by injection E as -> ->.
Qed.
Lemma skip_ws_space w : space w → skip_ws w = [].
Proof. intros H. rewrite <- (app_nil_r w), skip_ws_app; done. Qed.
Lemma skip_ws_nil s : skip_ws s = [] → space s.
Proof. intros E. destruct (skip_ws_split s) as (w & Hw & Es). rewrite E, app_nil_r in Es. by subst. Qed.

(** ** Strings *)
Lemma is_esc_iff e : is_esc e = true ↔ ∃ x, (e, x) ∈ escapes.
Proof.
  unfold is_esc, escapes. rewrite !orb_true_iff, !Z.eqb_eq. split.
  - intros H. destruct_or! H; subst; eexists; repeat (apply elem_of_list_here || apply elem_of_list_further).
  - intros [x H]. repeat (apply elem_of_cons in H as [[= -> ->]|H]; [tauto|]). by apply elem_of_nil in H.
Qed.
Lemma is_hex_iff c : is_hex c = true ↔ ∃ x, hexv c x.
Proof.
  unfold is_hex. rewrite !orb_true_iff, !between_iff. split.
  - intros [[H|H]|H]; eexists; [by apply hex_dec|by apply hex_low|by apply hex_up].
  - intros [x [c' H|c' H|c' H]]; lia.
Qed.
Lemma esc_not_u e x : (e, x) ∈ escapes → e ≠ 117.
Proof. intros H ->. assert (is_esc 117 = true) as Hx by (apply is_esc_iff; eauto). by vm_compute in Hx. Qed.
Lemma scan_str_complete k r : chars k → scan_str (k ++ 34 :: r) = Some (k, r).
Proof.
  induction 1 as [|b k H1 H2 H3 _ IH|e x k He _ IH|h x k Hh _ IH]; [done| | |].
  - cbn [app scan_str]. destruct (Z.eqb_spec b 34); [lia|]. destruct (Z.eqb_spec b 92); [lia|]. destruct (Z.ltb_spec b 32); [lia|]. by rewrite IH.
  - cbn [app scan_str]. change (92 =? 34) with false. change (92 =? 92) with true. cbn [app]. assert (is_esc e = true) as -> by (apply is_esc_iff; eauto). by rewrite IH.
  - destruct Hh as [a b c d y z w v Ha Hb Hc Hd]. cbn [app scan_str]. change (92 =? 34) with false. change (92 =? 92) with true. change (is_esc 117) with false. change (117 =? 117) with true. cbn iota.
    assert (∀ c x, hexv c x → is_hex c = true) as Hx by (intros; apply is_hex_iff; eauto). rewrite (Hx _ _ Ha), (Hx _ _ Hb), (Hx _ _ Hc), (Hx _ _ Hd). cbn [andb]. by rewrite IH.
Qed.
Lemma scan_str_sound s : ∀ k r, scan_str s = Some (k, r) → chars k ∧ s = k ++ 34 :: r.
Proof.
  induction s as [s IH] using (induction_ltof1 _ length). unfold ltof in IH. intros k r E. destruct s as [|c s]; [done|]. cbn [scan_str] in E.
  destruct (Z.eqb_spec c 34) as [->|H34]; [injection E as <- <-; split; [constructor|done]|]. destruct (Z.eqb_spec c 92) as [->|H92].
  - destruct s as [|e s]; [done|]. destruct (is_esc e) eqn:Ee.
    + destruct (scan_str s) as [[t u]|] eqn:Es; [|done]. injection E as <- <-. apply IH in Es as [Ht ->]; [|simpl; lia]. apply is_esc_iff in Ee as [x Hx]. split; [by eapply chars_esc|done].
    + destruct (Z.eqb_spec e 117) as [->|]; [|done]. destruct s as [|h1 [|h2 [|h3 [|h4 s]]]]; try done. destruct (_ && _) eqn:Eh; [|done]. apply andb_true_iff in Eh as [Eh H4]. apply andb_true_iff in Eh as [Eh H3]. apply andb_true_iff in Eh as [H1 H2].
      destruct (scan_str s) as [[t u]|] eqn:Es; [|done]. injection E as <- <-. apply IH in Es as [Ht ->]; [|simpl; lia]. apply is_hex_iff in H1 as [x1 H1], H2 as [x2 H2], H3 as [x3 H3], H4 as [x4 H4]. split; [|done].
      apply (chars_u [h1; h2; h3; h4] _ t (hex4_ok _ _ _ _ _ _ _ _ H1 H2 H3 H4)). done.
  - destruct (Z.ltb_spec c 32); [done|]. destruct (scan_str s) as [[t u]|] eqn:Es; [|done]. injection E as <- <-. apply IH in Es as [Ht ->]; [|simpl; lia]. split; [by constructor|done].
Qed.

(** ** Numbers *)
Definition stop (r : gostr) : Prop := ∀ c, head r = Some c → ¬ digit c ∧ c ≠ 46 ∧ c ≠ 101 ∧ c ≠ 69.
Definition no_digit (r : gostr) : Prop := ∀ c, head r = Some c → ¬ digit c.
Lemma is_digit_iff c : is_digit c = true ↔ digit c.
Proof. unfold is_digit. by rewrite between_iff. Qed.
Lemma not_digit c : ¬ digit c → is_digit c = false.
Proof. intros H. destruct (is_digit c) eqn:E; [|done]. by apply is_digit_iff in E. Qed.
Lemma scan_digits_complete ds r : Forall digit ds → no_digit r → scan_digits (ds ++ r) = (ds, r).
Proof.
  intros Hd Hr. induction Hd as [|c ds Hc _ IH].
  - destruct r as [|c r]; [done|]. cbn [app scan_digits]. by rewrite not_digit by (by apply Hr).
  - cbn [app scan_digits]. apply is_digit_iff in Hc. by rewrite Hc, IH.
Qed.
Lemma scan_digits_sound s t u : scan_digits s = (t, u) → s = t ++ u ∧ Forall digit t ∧ no_digit u.
Proof.
  revert t u. induction s as [|c s IH]; intros t u E; cbn [scan_digits] in E; [by injection E as <- <-; split_and!; [done|constructor|]|].
  destruct (is_digit c) eqn:Ec.
  - destruct (scan_digits s) as [t' u'] eqn:Es. injection E as <- <-. destruct (IH _ _ eq_refl) as (-> & Ht & Hu). split_and!; [done| |done]. constructor; [by apply is_digit_iff|done].
  - injection E as <- <-. split_and!; [done|constructor|]. intros x [= <-] Hx. apply is_digit_iff in Hx. congruence.
Qed.
Lemma frac_exp_stop f e r : fraction f → exponent e → stop r → no_digit (f ++ e ++ r).
Proof.
  intros Hf He Hr. destruct Hf as [->|(ds & -> & _ & _)]; [|intros c [= <-]; unfold digit; lia]. destruct He as [->|(c & g & ds & -> & Hc & _)]; [intros c Hc; by apply Hr|]. intros x [= <-]. unfold digit. lia.
Qed.
Lemma scan_exp_complete e r : exponent e → stop r → scan_exp (e ++ r) = Some (e, r).
Proof.
  intros [->|(c & g & ds & -> & Hc & Hg & Hn & Hd)] Hr.
  - destruct r as [|c r]; [done|]. cbn [app scan_exp]. destruct (Hr c eq_refl) as (_ & _ & H1 & H2). apply Z.eqb_neq in H1, H2. by rewrite H1, H2.
  - cbn [app scan_exp]. assert ((c =? 101) || (c =? 69) = true) as -> by (rewrite orb_true_iff, !Z.eqb_eq; tauto).
    assert (Hs : scan_digits (ds ++ r) = (ds, r)) by (apply scan_digits_complete; [done|]; intros x Hx; by apply Hr).
    destruct Hg as [->|[->| ->]]; cbn [app].
    + destruct ds as [|d ds]; [done|]. apply Forall_cons_1 in Hd as Hd'. destruct Hd' as [Hd1 _]. unfold digit in Hd1. cbn [app]. assert ((d =? 43) || (d =? 45) = false) as -> by (rewrite orb_false_iff, !Z.eqb_neq; lia). cbn [app] in Hs. rewrite Hs. by rewrite decide_False.
    + change ((43 =? 43) || (43 =? 45)) with true. cbn iota. rewrite Hs. by rewrite decide_False.
    + change ((45 =? 43) || (45 =? 45)) with true. cbn iota. rewrite Hs. by rewrite decide_False.
Qed.
Lemma scan_frac_complete f e r : fraction f → exponent e → stop r → scan_frac (f ++ e ++ r) = Some (f, e ++ r).
Proof.
  intros Hf He Hr. assert (He' : no_digit (e ++ r) ∧ head (e ++ r) ≠ Some 46).
  { split; [by apply (frac_exp_stop []); [left|..]|]. destruct He as [->|(c & g & ds & -> & Hc & _)]; [|intros [= ->]; lia]. intros Hx. apply Hr in Hx. lia. }
  destruct He' as [H1 H2]. destruct Hf as [->|(ds & -> & Hn & Hd)].
  - change ([] ++ e ++ r) with (e ++ r). destruct (e ++ r) as [|c t]; [done|]. cbn [scan_frac]. destruct (Z.eqb_spec c 46) as [->|]; [by destruct H2|done].
  - cbn [app scan_frac]. change (46 =? 46) with true. cbn iota. rewrite scan_digits_complete by done. by rewrite decide_False.
Qed.
Lemma scan_int_complete i u : integer i → no_digit u → scan_int (i ++ u) = Some (i, u).
Proof.
  intros [->|(c & ds & -> & Hc & Hd)] Hu; [done|]. cbn [app scan_int]. destruct (Z.eqb_spec c 48); [lia|]. assert (is_digit c = true) as -> by (apply is_digit_iff; unfold digit; lia).
  change (c :: ds ++ u) with ((c :: ds) ++ u). rewrite scan_digits_complete; [done| |done]. constructor; [unfold digit; lia|done].
Qed.
Lemma scan_num_complete n r : number n → stop r → scan_num (n ++ r) = Some (n, r).
Proof.
  intros (g & i & f & e & -> & Hg & Hi & Hf & He) Hr. unfold scan_num. rewrite <- !app_assoc.
  assert (match g ++ i ++ f ++ e ++ r with c :: r0 => if c =? 45 then ([45], r0) else ([], g ++ i ++ f ++ e ++ r) | [] => ([], []) end = (g, i ++ f ++ e ++ r)) as ->.
  { destruct Hg as [->| ->]; [|done]. destruct Hi as [->|(c & ds & -> & Hc & _)]; [done|]. cbn [app]. destruct (Z.eqb_spec c 45); [lia|done]. }
  rewrite scan_int_complete by (done || by apply frac_exp_stop). cbn [mbind option_bind]. rewrite scan_frac_complete by done. cbn [mbind option_bind]. rewrite scan_exp_complete by done. done.
Qed.
Lemma scan_int_sound s i u : scan_int s = Some (i, u) → s = i ++ u ∧ integer i.
Proof.
  destruct s as [|c s]; [done|]. cbn [scan_int]. destruct (Z.eqb_spec c 48) as [->|H48]; [intros [= <- <-]; split; [done|by left]|]. destruct (is_digit c) eqn:Ec; [|done]. intros [= E]. apply is_digit_iff in Ec.
  destruct (scan_digits_sound (c :: s) _ _ E) as (E1 & Hd & Hu). split; [done|]. destruct i as [|c' ds]; [|injection E1 as <- _; apply Forall_cons_1 in Hd as [_ Hd]; right; exists c, ds; unfold digit in Ec; split_and!; [done|lia|lia|done]].
  simpl in E1. subst u. exfalso. by apply (Hu c).
Qed.
Lemma scan_frac_sound s f u : scan_frac s = Some (f, u) → s = f ++ u ∧ fraction f.
Proof.
  destruct s as [|c s]; cbn [scan_frac]; [intros [= <- <-]; split; [done|by left]|]. destruct (Z.eqb_spec c 46) as [->|]; [|intros [= <- <-]; split; [done|by left]].
  destruct (scan_digits s) as [t v] eqn:Es. destruct (decide _); [done|]. intros [= <- <-]. destruct (scan_digits_sound _ _ _ Es) as (-> & Hd & _). split; [done|]. right. by exists t.
Qed.
Lemma scan_exp_sound s e u : scan_exp s = Some (e, u) → s = e ++ u ∧ exponent e.
Proof.
  destruct s as [|c s]; cbn [scan_exp]; [intros [= <- <-]; split; [done|by left]|]. destruct ((c =? 101) || (c =? 69)) eqn:Ec; [|intros [= <- <-]; split; [done|by left]].
  rewrite orb_true_iff, !Z.eqb_eq in Ec. destruct (match s with [] => _ | x :: r' => _ end) as [g r] eqn:Eg. destruct (scan_digits r) as [t v] eqn:Es. destruct (decide _) as [|Hn]; [done|]. intros [= <- <-]. destruct (scan_digits_sound _ _ _ Es) as (-> & Hd & _).
  assert (s = g ++ t ++ v ∧ (g = [] ∨ g = [43] ∨ g = [45])) as [-> Hg].
  { destruct s as [|x s]; [injection Eg as <- E0; destruct t; [done|]; done|]. destruct ((x =? 43) || (x =? 45)) eqn:Ex; injection Eg as <- Er; subst; [|auto]. rewrite orb_true_iff, !Z.eqb_eq in Ex. split; [done|]. destruct Ex as [->| ->]; auto. }
  split; [by rewrite <- app_comm_cons, <- app_assoc|]. right. exists c, g, t. done.
Qed.
Lemma scan_num_sound s n u : scan_num s = Some (n, u) → s = n ++ u ∧ number n.
Proof.
  unfold scan_num. destruct (match s with [] => _ | c :: r => _ end) as [g r] eqn:Eg. assert (s = g ++ r ∧ sign g) as [-> Hg].
  { destruct s as [|c s]; [injection Eg as <- <-; split; [done|by left]|]. destruct (Z.eqb_spec c 45) as [->|]; injection Eg as <- <-; (split; [done|]); [by right|by left]. }
  destruct (scan_int r) as [[i r1]|] eqn:Ei; [|done]. cbn [mbind option_bind]. destruct (scan_frac r1) as [[f r2]|] eqn:Ef; [|done]. cbn [mbind option_bind]. destruct (scan_exp r2) as [[e r3]|] eqn:Ee; [|done]. cbn [mbind option_bind]. intros [= <- <-].
  apply scan_int_sound in Ei as [-> Hi]. apply scan_frac_sound in Ef as [-> Hf]. apply scan_exp_sound in Ee as [-> He]. split; [by rewrite <- !app_assoc|]. by exists g, i, f, e.
Qed.

(** ** Values *)
Scheme text_mut := Induction for text Sort Prop with elements_mut := Induction for elements Sort Prop with members_mut := Induction for members Sort Prop.
Combined Scheme text_all from text_mut, elements_mut, members_mut.

Lemma p_value_ws f d w s : space w → p_value f d (w ++ s) = p_value f d s.
Proof. intros Hw. destruct f as [|f]; [done|]. cbn [p_value]. by rewrite skip_ws_app. Qed.
Lemma number_head n : number n → ∃ c u, n = c :: u ∧ (c = 45 ∨ digit c).
Proof.
  intros (g & i & f & e & -> & Hg & Hi & _). destruct Hg as [->| ->]; [|by eexists _, _; split; [done|left]]. destruct Hi as [->|(c & ds & -> & Hc & _)]; eexists _, _; (split; [done|right; unfold digit; lia]).
Qed.
Lemma text_head v t : text v t → ∃ c u, t = c :: u ∧ is_ws c = false ∧ c ≠ 93 ∧ c ≠ 125.
Proof.
  intros H. destruct H as [| | |n Hn| | | | |]; [by exists 110, (str "ull")|by exists 116, (str "rue")|by exists 102, (str "alse")| |by eexists _, _; split_and!..].
  destruct (number_head n Hn) as (c & u & -> & Hc). exists c, u. unfold digit in Hc. split_and!; [done| |lia|lia]. destruct (is_ws c) eqn:E; [|done]. apply is_ws_iff in E. lia.
Qed.
Lemma elements_head l t r : elements l t → ∃ x u, skip_ws (t ++ r) = x :: u ∧ x ≠ 93.
Proof.
  assert (∀ v t, text v t → ∀ w r, space w → ∃ x u, skip_ws (w ++ t ++ r) = x :: u ∧ x ≠ 93) as HT.
  { intros v t' Ht w r' Hw. rewrite skip_ws_app by done. destruct (text_head v t' Ht) as (c & u & -> & Hc & H93 & _). cbn [app]. rewrite skip_ws_self by done. eauto. }
  intros [v w1 t' w2 Hw1 Ht _|v w1 t' w2 l' u Hw1 Ht _ _]; rewrite <- !app_assoc; by eapply HT.
Qed.
Lemma members_head ms t r : members ms t → ∃ u, skip_ws (t ++ r) = 34 :: u.
Proof. intros [? ? w1 ? ? ? ? Hw1|? ? w1 ? ? ? ? ? ? Hw1]; rewrite <- !app_assoc, skip_ws_app by done; cbn [app]; rewrite skip_ws_self by done; eauto. Qed.
Lemma space_stop w c r : space w → ¬ digit c → c ≠ 46 → c ≠ 101 → c ≠ 69 → stop (w ++ c :: r).
Proof.
  intros Hw H1 H2 H3 H4 x. destruct Hw as [|y w Hy _]; cbn; intros [= <-]; [done|]. unfold digit. lia.
Qed.

Lemma parse_complete :
  (∀ v t, text v t → ∀ f d r, stop r → (2 * length t ≤ f)%nat → (d + depth v ≤ max_depth)%nat → p_value f d (t ++ r) = Some (v, r)) ∧
  (∀ l t, elements l t → ∀ f d r, (2 * length t + 1 ≤ f)%nat → (d + list_max (map depth l) ≤ max_depth)%nat → p_elems f d (t ++ 93 :: r) = Some (l, r)) ∧
  (∀ ms t, members ms t → ∀ f d r, (2 * length t + 1 ≤ f)%nat → (d + list_max (map (λ p, depth p.2) ms) ≤ max_depth)%nat → p_members f d (t ++ 125 :: r) = Some (ms, r)).
Proof.
  apply text_all.
  - intros f d r _ Hf _. destruct f as [|f]; [simpl in Hf; lia|]. done.
  - intros f d r _ Hf _. destruct f as [|f]; [simpl in Hf; lia|]. done.
  - intros f d r _ Hf _. destruct f as [|f]; [simpl in Hf; lia|]. done.
  - intros n Hn f d r Hr Hf _. destruct (number_head n Hn) as (c & u & E & Hc). destruct f as [|f]; [subst; simpl in Hf; lia|].
    assert (is_ws c = false) as Hw. { destruct (is_ws c) eqn:Ew; [|done]. apply is_ws_iff in Ew. unfold digit in Hc. lia. }
    cbn [p_value]. rewrite E. cbn [app]. rewrite skip_ws_self by done. unfold digit in Hc.
    destruct (Z.eqb_spec c 123); [lia|]. destruct (Z.eqb_spec c 91); [lia|]. destruct (Z.eqb_spec c 34); [lia|]. destruct (Z.eqb_spec c 116); [lia|]. destruct (Z.eqb_spec c 102); [lia|]. destruct (Z.eqb_spec c 110); [lia|].
    change (c :: u ++ r) with ((c :: u) ++ r). rewrite <- E. by rewrite scan_num_complete.
  - intros t Ht f d r Hr Hf _. destruct f as [|f]; [simpl in Hf; lia|]. cbn [p_value app skip_ws]. change (is_ws 34) with false. cbn iota. change (34 =? 123) with false. change (34 =? 91) with false. change (34 =? 34) with true. cbn iota.
    rewrite <- app_assoc. cbn [app]. by rewrite scan_str_complete.
  - intros w Hw f d r Hr Hf Hd. destruct f as [|f]; [simpl in Hf; lia|]. cbn [p_value app skip_ws]. change (is_ws 91) with false. cbn iota. change (91 =? 123) with false. change (91 =? 91) with true. cbn iota.
    rewrite <- app_assoc, skip_ws_app by done. cbn [app]. cbn [depth] in Hd. destruct (Nat.leb_spec max_depth d); [lia|]. rewrite skip_ws_self by done. done.
  - intros l t Hl IH f d r Hr Hf Hd. destruct f as [|f]; [simpl in Hf; lia|]. cbn [p_value app skip_ws]. change (is_ws 91) with false. cbn iota. change (91 =? 123) with false. change (91 =? 91) with true. cbn iota.
    cbn [depth] in Hd. destruct (Nat.leb_spec max_depth d); [lia|]. rewrite <- app_assoc. destruct (elements_head l t ([93] ++ r) Hl) as (x & u & E & Hx). rewrite E. apply Z.eqb_neq in Hx. rewrite Hx. cbn [app]. rewrite IH; [done| |lia]. cbn [length] in Hf. rewrite app_length in Hf. cbn [length] in Hf. lia.
  - intros w Hw f d r Hr Hf Hd. destruct f as [|f]; [simpl in Hf; lia|]. cbn [p_value app skip_ws]. change (is_ws 123) with false. cbn iota. change (123 =? 123) with true. cbn iota.
    rewrite <- app_assoc, skip_ws_app by done. cbn [app]. cbn [depth] in Hd. destruct (Nat.leb_spec max_depth d); [lia|]. rewrite skip_ws_self by done. done.
  - intros ms t Hl IH f d r Hr Hf Hd. destruct f as [|f]; [simpl in Hf; lia|]. cbn [p_value app skip_ws]. change (is_ws 123) with false. cbn iota. change (123 =? 123) with true. cbn iota.
    cbn [depth] in Hd. destruct (Nat.leb_spec max_depth d); [lia|]. rewrite <- app_assoc. destruct (members_head ms t ([125] ++ r) Hl) as (u & E). rewrite E. change (34 =? 125) with false. cbn iota. cbn [app]. rewrite IH; [done| |lia]. cbn [length] in Hf. rewrite app_length in Hf. cbn [length] in Hf. lia.
  - intros v w1 t w2 Hw1 Ht IH Hw2 f d r Hf Hd. rewrite !app_length in Hf. destruct f as [|f]; [lia|]. cbn [p_elems]. rewrite <- !app_assoc, p_value_ws by done. cbn [map list_max] in Hd. simpl in Hd.
    rewrite IH; [|apply space_stop; [done|unfold digit; lia|lia..]|lia|lia]. cbn [mbind option_bind]. rewrite skip_ws_app by done. rewrite skip_ws_self by done. done.
  - intros v w1 t w2 l u Hw1 Ht IH Hw2 Hl IHl f d r Hf Hd. rewrite !app_length in Hf. cbn [length] in Hf. destruct f as [|f]; [lia|]. cbn [p_elems]. rewrite <- !app_assoc, p_value_ws by done. cbn [map list_max foldr] in Hd. simpl in Hd. fold (list_max (map depth l)) in Hd.
    rewrite IH; [|apply space_stop; [done|unfold digit; lia|lia..]|lia|lia]. cbn [mbind option_bind]. rewrite skip_ws_app by done. cbn [app]. rewrite skip_ws_self by done. change (44 =? 44) with true. cbn iota. by rewrite IHl by lia.
  - intros k v w1 w2 w3 t w4 Hw1 Hk Hw2 Hw3 Ht IH Hw4 f d r Hf Hd. rewrite !app_length in Hf. cbn [length] in Hf. rewrite app_length in Hf. cbn [length] in Hf. rewrite app_length in Hf. cbn [length] in Hf. rewrite !app_length in Hf. destruct f as [|f]; [lia|]. cbn [p_members]. rewrite <- !app_assoc, skip_ws_app by done. cbn [app]. rewrite skip_ws_self by done.
    change (34 =? 34) with true. cbn iota. rewrite <- app_assoc. cbn [app]. rewrite scan_str_complete by done. cbn [mbind option_bind]. rewrite <- app_assoc, skip_ws_app by done. cbn [app]. rewrite skip_ws_self by done. change (58 =? 58) with true. cbn iota.
    rewrite <- !app_assoc, p_value_ws by done. cbn [map list_max] in Hd. simpl in Hd. rewrite IH; [|apply space_stop; [done|unfold digit; lia|lia..]|lia|lia]. cbn [mbind option_bind]. rewrite skip_ws_app by done. rewrite skip_ws_self by done. done.
  - intros k v w1 w2 w3 t w4 ms u Hw1 Hk Hw2 Hw3 Ht IH Hw4 Hms IHms f d r Hf Hd. rewrite !app_length in Hf. cbn [length] in Hf. rewrite app_length in Hf. cbn [length] in Hf. rewrite app_length in Hf. cbn [length] in Hf. rewrite !app_length in Hf. cbn [length] in Hf. destruct f as [|f]; [lia|]. cbn [p_members]. rewrite <- !app_assoc, skip_ws_app by done. cbn [app]. rewrite skip_ws_self by done.
    change (34 =? 34) with true. cbn iota. rewrite <- app_assoc. cbn [app]. rewrite scan_str_complete by done. cbn [mbind option_bind]. rewrite <- app_assoc, skip_ws_app by done. cbn [app]. rewrite skip_ws_self by done. change (58 =? 58) with true. cbn iota.
    rewrite <- !app_assoc, p_value_ws by done. cbn [map list_max foldr] in Hd. simpl in Hd. fold (list_max (map (λ p, depth p.2) ms)) in Hd. rewrite IH; [|apply space_stop; [done|unfold digit; lia|lia..]|lia|lia]. cbn [mbind option_bind]. rewrite skip_ws_app by done. cbn [app]. rewrite skip_ws_self by done. change (44 =? 44) with true. cbn iota. by rewrite IHms by lia.
Qed.

Lemma space_app a b : space a → space b → space (a ++ b).
Proof. intros. by apply Forall_app. Qed.
Lemma parse_sound f :
  (∀ d s v r, p_value f d s = Some (v, r) → ∃ w t, s = w ++ t ++ r ∧ space w ∧ text v t ∧ (d ≤ max_depth → d + depth v ≤ max_depth)%nat) ∧
  (∀ d s l r, p_elems f d s = Some (l, r) → ∃ t, s = t ++ 93 :: r ∧ elements l t ∧ (d ≤ max_depth → d + list_max (map depth l) ≤ max_depth)%nat) ∧
  (∀ d s ms r, p_members f d s = Some (ms, r) → ∃ t, s = t ++ 125 :: r ∧ members ms t ∧ (d ≤ max_depth → d + list_max (map (λ p, depth p.2) ms) ≤ max_depth)%nat).
Proof.
  induction f as [|f (IHv & IHe & IHm)]; [done|]. split_and!.
  - intros d s v r E. cbn [p_value] in E. destruct (skip_ws s) as [|c u] eqn:Es; [done|]. apply skip_ws_cons in Es as (w & Hw & -> & Hc).
    destruct (Z.eqb_spec c 123) as [->|_].
    { destruct (Nat.leb_spec max_depth d) as [|Hd]; [done|]. destruct (skip_ws u) as [|x u'] eqn:Eu; [done|]. destruct (Z.eqb_spec x 125) as [->|_].
      - injection E as <- <-. apply skip_ws_cons in Eu as (w' & Hw' & -> & _). exists w, (123 :: w' ++ [125]). split_and!; [by rewrite <- app_comm_cons, <- app_assoc|done|by constructor|cbn; lia].
      - destruct (p_members f (S d) u) as [[ms u2]|] eqn:Em; [|done]. injection E as <- <-. apply IHm in Em as (t & -> & Ht & Hdep). exists w, (123 :: t ++ [125]). split_and!; [by rewrite <- app_comm_cons, <- app_assoc|done|by constructor|cbn [depth]; lia]. }
    destruct (Z.eqb_spec c 91) as [->|_].
    { destruct (Nat.leb_spec max_depth d) as [|Hd]; [done|]. destruct (skip_ws u) as [|x u'] eqn:Eu; [done|]. destruct (Z.eqb_spec x 93) as [->|_].
      - injection E as <- <-. apply skip_ws_cons in Eu as (w' & Hw' & -> & _). exists w, (91 :: w' ++ [93]). split_and!; [by rewrite <- app_comm_cons, <- app_assoc|done|by constructor|cbn; lia].
      - destruct (p_elems f (S d) u) as [[ms u2]|] eqn:Em; [|done]. injection E as <- <-. apply IHe in Em as (t & -> & Ht & Hdep). exists w, (91 :: t ++ [93]). split_and!; [by rewrite <- app_comm_cons, <- app_assoc|done|by constructor|cbn [depth]; lia]. }
    destruct (Z.eqb_spec c 34) as [->|_].
    { destruct (scan_str u) as [[t u2]|] eqn:Em; [|done]. injection E as <- <-. apply scan_str_sound in Em as [Ht ->]. exists w, (34 :: t ++ [34]). split_and!; [by rewrite <- app_comm_cons, <- app_assoc|done|by constructor|cbn; lia]. }
    destruct (Z.eqb_spec c 116) as [->|_].
    { destruct (has_prefix _ u) eqn:Ep; [|done]. injection E as <- <-. apply has_prefix_iff in Ep as [t ->]. exists w, (str "true"). split_and!; [done|done|constructor|cbn; lia]. }
    destruct (Z.eqb_spec c 102) as [->|_].
    { destruct (has_prefix _ u) eqn:Ep; [|done]. injection E as <- <-. apply has_prefix_iff in Ep as [t ->]. exists w, (str "false"). split_and!; [done|done|constructor|cbn; lia]. }
    destruct (Z.eqb_spec c 110) as [->|_].
    { destruct (has_prefix _ u) eqn:Ep; [|done]. injection E as <- <-. apply has_prefix_iff in Ep as [t ->]. exists w, (str "null"). split_and!; [done|done|constructor|cbn; lia]. }
    destruct (scan_num (c :: u)) as [[n u2]|] eqn:En; [|done]. injection E as <- <-. apply scan_num_sound in En as [En Hn]. exists w, n. rewrite En. split_and!; [done|done|by constructor|cbn; lia].
  - intros d s l r E. cbn [p_elems] in E. destruct (p_value f d s) as [[v u]|] eqn:Ev; [|done]. cbn [mbind option_bind] in E. apply IHv in Ev as (w & t & -> & Hw & Ht & Hdep). destruct (skip_ws u) as [|c u'] eqn:Eu; [done|]. apply skip_ws_cons in Eu as (w2 & Hw2 & -> & _).
    destruct (Z.eqb_spec c 44) as [->|_].
    + destruct (p_elems f d u') as [[l' u2]|] eqn:El; [|done]. injection E as <- <-. apply IHe in El as (t2 & -> & Ht2 & Hdep2). exists (w ++ t ++ w2 ++ 44 :: t2). split_and!; [by rewrite <- !app_assoc|by constructor|]. simpl. fold (list_max (map depth l')). lia.
    + destruct (Z.eqb_spec c 93) as [->|_]; [|done]. injection E as <- <-. exists (w ++ t ++ w2). split_and!; [by rewrite <- !app_assoc|by constructor|simpl; lia].
  - intros d s ms r E. cbn [p_members] in E. destruct (skip_ws s) as [|q s'] eqn:Es; [done|]. apply skip_ws_cons in Es as (w1 & Hw1 & -> & _). destruct (Z.eqb_spec q 34) as [->|_]; [|done].
    destruct (scan_str s') as [[k u]|] eqn:Ek; [|done]. cbn [mbind option_bind] in E. apply scan_str_sound in Ek as [Hk ->]. destruct (skip_ws u) as [|c u'] eqn:Eu; [done|]. apply skip_ws_cons in Eu as (w2 & Hw2 & -> & _). destruct (Z.eqb_spec c 58) as [->|_]; [|done].
    destruct (p_value f d u') as [[v u]|] eqn:Ev; [|done]. cbn [mbind option_bind] in E. apply IHv in Ev as (w3 & t & -> & Hw3 & Ht & Hdep). destruct (skip_ws u) as [|c u'] eqn:Eu; [done|]. apply skip_ws_cons in Eu as (w4 & Hw4 & -> & _).
    destruct (Z.eqb_spec c 44) as [->|_].
    + destruct (p_members f d u') as [[l' u2]|] eqn:El; [|done]. injection E as <- <-. apply IHm in El as (t2 & -> & Ht2 & Hdep2). exists (w1 ++ 34 :: k ++ 34 :: w2 ++ 58 :: w3 ++ t ++ w4 ++ 44 :: t2). split_and!; [repeat (rewrite <- !app_assoc; cbn [app]); done|by constructor|]. simpl. fold (list_max (map (λ p, depth p.2) l')). lia.
    + destruct (Z.eqb_spec c 125) as [->|_]; [|done]. injection E as <- <-. exists (w1 ++ 34 :: k ++ 34 :: w2 ++ 58 :: w3 ++ t ++ w4). split_and!; [repeat (rewrite <- !app_assoc; cbn [app]); done|by constructor|simpl; lia].
Qed.
Lemma parse_iff s v : parse s = Some v ↔ json_text v s ∧ (depth v ≤ max_depth)%nat.
Proof.
  unfold parse. split.
  - intros E. destruct (p_value _ 0 s) as [[v' u]|] eqn:Ev; [|done]. cbn [mbind option_bind] in E. destruct (skip_ws u) eqn:Eu; [|done]. injection E as ->. apply (proj1 (parse_sound _)) in Ev as (w & t & -> & Hw & Ht & Hd). apply skip_ws_nil in Eu. split; [by exists w, t, u|lia].
  - intros [(w1 & t & w2 & -> & Hw1 & Ht & Hw2) Hd]. rewrite p_value_ws by done. rewrite (proj1 parse_complete _ _ Ht); [cbn [mbind option_bind]; by rewrite skip_ws_space| | |lia].
    + intros c Hc. destruct Hw2 as [|x w Hx _]; [done|]. injection Hc as ->. unfold digit. lia.
    + rewrite !app_length. lia.
Qed.
Lemma json_text_unique s v v' : json_text v s → json_text v' s → (depth v ≤ max_depth)%nat → (depth v' ≤ max_depth)%nat → v = v'.
Proof. intros H1 H2 H3 H4. assert (parse s = Some v) as E1 by (by apply parse_iff). assert (parse s = Some v') as E2 by (by apply parse_iff). congruence. Qed.
