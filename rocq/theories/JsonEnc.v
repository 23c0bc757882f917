(** * JSON: the encoder writes a text of the value *)
From stdpp Require Import gmap sorting.
From Verif Require Import GoBase GoStr ConvModel ConvSpec ConvProps JsonModel JsonSpec JsonProofs JsonDec.
Local Open Scope Z_scope.

Lemma jval_rec' (P : jval → Prop) : P VNil → (∀ b, P (VBool b)) → (∀ z, P (VInt z)) → (∀ s, P (VStr s)) → (∀ l, Forall P l → P (VList l)) → (∀ m, Forall (λ p, P p.2) m → P (VMap m)) → P VBad → ∀ v, P v.
Proof.
  intros H1 H2 H3 H4 H5 H6 H7. fix IH 1. intros [| | | |l|m|]; [done|done|done|done| | |done].
  - apply H5. induction l as [|v l IHl]; constructor; [apply IH|done].
  - apply H6. induction m as [|p m IHl]; constructor; [apply IH|done].
Qed.

(** ** Strings *)
Lemma hex_digit_ok d : 0 ≤ d < 16 → hexv (hex_digit d) d.
Proof.
  intros H. unfold hex_digit. destruct (Z.ltb_spec d 10).
  - replace d with (48 + d - 48) at 2 by lia. constructor. lia.
  - replace d with (87 + d - 97 + 10) at 2 by lia. constructor. lia.
Qed.
Lemma characters_unit x ts : ¬ (55296 ≤ x < 57344) → characters (Unit x :: ts) = x :: characters ts.
Proof. intros H. cbn [characters]. rewrite (decide_False (P := 55296 ≤ x < 57344)) by done. destruct ts as [|[c|y] ts]; [done|done|]. by rewrite decide_False by lia. Qed.
Lemma html_safe_iff b : html_safe b = true ↔ 32 ≤ b < 128 ∧ b ≠ 34 ∧ b ≠ 38 ∧ b ≠ 60 ∧ b ≠ 62 ∧ b ≠ 92.
Proof. unfold html_safe. rewrite !andb_true_iff, negb_true_iff, !orb_false_iff, !Z.eqb_neq, Z.leb_le, Z.ltb_lt. lia. Qed.
Definition plain (b : Z) : Prop := 32 ≤ b < 256 ∧ b ≠ 38 ∧ b ≠ 60 ∧ b ≠ 62.
Lemma encode_bytes c : Forall byte (encode_rune c).
Proof.
  unfold encode_rune. assert (H : valid_rune (if valid_rune c then c else rune_error) = true) by (by destruct (valid_rune c) eqn:E). revert H. generalize (if valid_rune c then c else rune_error). intros x H. apply valid_rune_iff in H.
  destruct (Z.ltb_spec x 128); [|destruct (Z.ltb_spec x 2048); [|destruct (Z.ltb_spec x 65536)]]; repeat constructor; unfold byte; Z.div_mod_to_equations; lia.
Qed.
Definition good (t : gostr) (cs : list Z) : Prop := chars t ∧ Forall plain t ∧ ∃ ts, toks t ts ∧ characters ts = cs.
Lemma good_nil : good [] [].
Proof. split_and!; [constructor|constructor|]. exists []. split; [constructor|done]. Qed.
Lemma good_byte b t cs : html_safe b = true → good t cs → good (b :: t) (b :: cs).
Proof.
  rewrite html_safe_iff. intros Hb (H1 & H2 & ts & H3 & H4). split_and!; [constructor; [lia..|done]|constructor; [unfold plain; lia|done]|]. exists (Char b :: ts). split; [|cbn [characters]; by f_equal].
  assert (b :: t = encode_rune b ++ t) as -> by (by rewrite encode_low by lia). constructor; [apply valid_rune_iff; lia|lia|done].
Qed.
Lemma good_esc e x t cs : (e, x) ∈ escapes → good t cs → good (92 :: e :: t) (x :: cs).
Proof.
  intros He (H1 & H2 & ts & H3 & H4). split_and!; [by eapply chars_esc| |].
  - constructor; [unfold plain; lia|]. constructor; [|done]. clear - He. unfold escapes in He. rewrite !elem_of_cons, elem_of_nil in He. unfold plain. destruct_or! He; try done; injection He as -> ->; lia.
  - exists (Char x :: ts). split; [by constructor|cbn [characters]; by f_equal].
Qed.
Lemma good_unit h x t cs : hex4 h x → ¬ (55296 ≤ x < 57344) → good t cs → good (92 :: 117 :: h ++ t) (x :: cs).
Proof.
  intros Hh Hx (H1 & H2 & ts & H3 & H4). split_and!; [by eapply chars_u| |].
  - constructor; [unfold plain; lia|]. constructor; [unfold plain; lia|]. apply Forall_app. split; [|done]. assert (∀ c v, hexv c v → plain c) as Hp by (intros c v [c' H|c' H|c' H]; unfold plain; lia). destruct Hh. repeat constructor; by eapply Hp.
  - exists (Unit x :: ts). split; [by constructor|]. rewrite characters_unit by done. by f_equal.
Qed.
Lemma good_rune c t cs : valid_rune c = true → 128 ≤ c → good t cs → good (encode_rune c ++ t) (c :: cs).
Proof.
  intros Hv Hc (H1 & H2 & ts & H3 & H4). pose proof (encode_high c Hv Hc) as Hh. pose proof (encode_bytes c) as Hb. split_and!.
  - clear Hb. induction Hh as [|b l Hb _ IH]; [done|]. cbn [app]. constructor; [lia..|done].
  - apply Forall_app. split; [|done]. rewrite Forall_forall in Hh, Hb |- *. intros x Hx. specialize (Hh x Hx). specialize (Hb x Hx). unfold byte in Hb. unfold plain. cbn beta in Hh. lia.
  - exists (Char c :: ts). split; [constructor; [done|lia|done]|cbn [characters]; by f_equal].
Qed.
Lemma enc_str_good f : ∀ s, (length s ≤ f)%nat → Forall byte s → good (enc_str f s) (runes s).
Proof.
  induction f as [|f IH]; intros [|b s] Hf Hb; [apply good_nil|simpl in Hf; lia|apply good_nil|]. cbn [enc_str]. rewrite runes_cons. cbn [length] in Hf. apply Forall_cons_1 in Hb as Hb'. destruct Hb' as [Hb0 Hs]. unfold byte in Hb0. destruct (Z.ltb_spec b 128) as [Hl|Hl].
  - assert (decode_rune (b :: s) = (b, 1%nat)) as ->. { unfold decode_rune. by destruct (Z.ltb_spec b 128); [|lia]. } cbn [fst snd drop]. specialize (IH s ltac:(lia) Hs).
    destruct (html_safe b) eqn:Eh; [by apply good_byte|]. destruct ((b =? 92) || (b =? 34)) eqn:E1. { rewrite orb_true_iff, !Z.eqb_eq in E1. cbn [app]. apply good_esc; [|done]. unfold escapes. destruct E1 as [->| ->]; repeat (apply elem_of_list_here || apply elem_of_list_further). }
    destruct (Z.eqb_spec b 10) as [->|]. { apply good_esc; [|done]. repeat (apply elem_of_list_here || apply elem_of_list_further). }
    destruct (Z.eqb_spec b 13) as [->|]. { apply good_esc; [|done]. repeat (apply elem_of_list_here || apply elem_of_list_further). }
    destruct (Z.eqb_spec b 9) as [->|]. { apply good_esc; [|done]. repeat (apply elem_of_list_here || apply elem_of_list_further). }
    apply (good_unit [48; 48; hex_digit (b / 16); hex_digit (b mod 16)] b); [|lia|done]. assert (hex4 [48; 48; hex_digit (b / 16); hex_digit (b mod 16)] (4096 * 0 + 256 * 0 + 16 * (b / 16) + b mod 16)) as H4; [|pose proof (Z_div_mod_eq_full b 16); by replace (4096 * 0 + 256 * 0 + 16 * (b / 16) + b mod 16) with b in H4 by lia]. constructor; [by apply (hex_digit_ok 0)|by apply (hex_digit_ok 0)|apply hex_digit_ok; Z.div_mod_to_equations; lia..].
  - destruct (decode_cases b s Hb) as [[Ed _]|(c & u & Hv & Eq & Ed)].
    + rewrite Ed. cbn [fst snd]. change (drop 1 (b :: s)) with s. specialize (IH s ltac:(lia) Hs). change ((rune_error =? rune_error) && (1 =? 1)%nat) with true. cbn iota. apply (good_unit (str "fffd") 65533); [|lia|done]. change 65533 with (4096 * 15 + 256 * 15 + 16 * 15 + 13). apply hex4_ok; [by apply (hex_digit_ok 15)..|by apply (hex_digit_ok 13)].
    + rewrite Ed. cbn [fst snd]. rewrite Eq, drop_app, take_app. destruct (encode_cons c) as (b' & l & Ec). assert (128 ≤ c) as Hc. { apply valid_rune_iff in Hv. destruct (decide (c < 128)); [|lia]. rewrite encode_low in Eq by lia. injection Eq as -> _. lia. }
      assert (Hu : good (enc_str f u) (runes u)). { apply IH; [|rewrite Eq in Hb; by apply Forall_app in Hb as [_ ?]]. assert (length (b :: s) = length (encode_rune c ++ u)) as El by (by rewrite Eq). rewrite app_length, Ec in El. simpl in El. lia. }
      assert ((c =? rune_error) && (length (encode_rune c) =? 1)%nat = false) as ->. { destruct (Z.eqb_spec c rune_error) as [->|]; [done|done]. }
      destruct ((c =? 8232) || (c =? 8233)) eqn:E2; [|by apply good_rune]. rewrite orb_true_iff, !Z.eqb_eq in E2. destruct E2 as [->| ->].
      * apply (good_unit [50; 48; 50; 56] 8232); [|lia|done]. change 8232 with (4096 * 2 + 256 * 0 + 16 * 2 + 8). constructor; [by apply (hex_digit_ok 2)|by apply (hex_digit_ok 0)|by apply (hex_digit_ok 2)|by apply (hex_digit_ok 8)].
      * apply (good_unit [50; 48; 50; 57] 8233); [|lia|done]. change 8233 with (4096 * 2 + 256 * 0 + 16 * 2 + 9). constructor; [by apply (hex_digit_ok 2)|by apply (hex_digit_ok 0)|by apply (hex_digit_ok 2)|by apply (hex_digit_ok 9)].
Qed.
Lemma quote_good s : Forall byte s → ∃ raw, quote s = 34 :: raw ++ [34] ∧ chars raw ∧ Forall plain raw ∧ spells raw (utf8 s).
Proof.
  intros Hb. destruct (enc_str_good (length s) s ltac:(done) Hb) as (H1 & H2 & ts & H3 & H4). exists (enc_str (length s) s). split_and!; [done..|]. exists ts. split; [done|]. by rewrite H4.
Qed.
Lemma digits_integer ds : ds ≠ [] → Forall digit ds → ((1 < length ds)%nat → head ds ≠ Some 48) → integer ds.
Proof.
  intros Hn Hd Hh. destruct ds as [|c ds]; [done|]. apply Forall_cons_1 in Hd as [Hc Hd]. unfold digit in Hc. destruct (decide (c = 48)) as [->|]; [|right; exists c, ds; split_and!; [done|lia|lia|done]]. destruct ds as [|d ds]; [by left|]. exfalso. apply Hh; [simpl; lia|done].
Qed.
Lemma int_number z : is_i64 z → number (int_to_string z) ∧ Forall plain (int_to_string z).
Proof.
  intros Hz. unfold is_i64 in Hz. assert (∀ ds, Forall digit ds → Forall plain ds) as HP by (intros ds H; eapply Forall_impl; [exact H|]; intros c; unfold digit, plain; lia). unfold int_to_string. destruct (Z.ltb_spec z 0).
  - rewrite u64_id by (unfold is_u64; lia). destruct (fmt_digits_ok 20 (- z)) as (H1 & H2 & _ & H4); [lia|lia|]. split; [|constructor; [unfold plain; lia|by apply HP]]. exists [45], (fmt_digits 20 (- z)), [], []. split_and!; [by rewrite app_nil_r|by right|by apply digits_integer|by left|by left].
  - destruct (fmt_digits_ok 20 z) as (H1 & H2 & _ & H4); [lia|lia|]. split; [|by apply HP]. exists [], (fmt_digits 20 z), [], []. split_and!; [by rewrite app_nil_r|by left|by apply digits_integer|by left|by left].
Qed.

(** ** The order of the keys *)
Lemma str_lt_before a b : str_lt a b = true → before a b.
Proof.
  revert b. induction a as [|x a IH]; intros [|y b]; try done; [constructor|]. cbn [str_lt]. rewrite orb_true_iff, andb_true_iff, Z.ltb_lt, Z.eqb_eq. intros [H|[-> H]]; [by constructor|]. by apply before_cons, IH.
Qed.
Lemma str_lt_total a b : str_lt a b = false → a ≠ b → before b a.
Proof.
  revert b. induction a as [|x a IH]; intros [|y b]; try done; [constructor|]. cbn [str_lt]. rewrite orb_false_iff, andb_false_iff, Z.ltb_ge, Z.eqb_neq. intros [H1 H2] Hn. destruct (decide (x = y)) as [->|]; [|constructor; lia]. apply before_cons, IH; [naive_solver|congruence].
Qed.
Lemma before_trans a b c : before a b → before b c → before a c.
Proof.
  intros H. revert c. induction H as [y t|x y s t Hxy|x s t Hst IH]; intros c Hc; inversion Hc; subst; first [by apply before_nil|apply before_byte; lia|by apply before_cons, IH].
Qed.
Lemma insert_key_perm {A} (p : gostr * A) l : insert_key p l ≡ₚ p :: l.
Proof. induction l as [|q l IH]; [done|]. cbn [insert_key]. destruct (str_lt _ _); [|done]. rewrite IH. apply Permutation_swap. Qed.
Lemma sort_keys_perm {A} (l : list (gostr * A)) : sort_keys l ≡ₚ l.
Proof. induction l as [|p l IH]; [done|]. cbn [sort_keys foldr]. rewrite insert_key_perm. by f_equiv. Qed.
Lemma insert_key_sorted {A} (p : gostr * A) l : p.1 ∉ l.*1 → StronglySorted before l.*1 → StronglySorted before (insert_key p l).*1.
Proof.
  intros Hn H. induction l as [|q l IH]; [repeat constructor|]. cbn [insert_key]. rewrite fmap_cons in H, Hn. apply not_elem_of_cons in Hn as [Hn1 Hn2]. apply StronglySorted_inv in H as [H1 H2]. destruct (str_lt q.1 p.1) eqn:E.
  - rewrite fmap_cons. constructor; [by apply IH|]. assert ((insert_key p l).*1 ≡ₚ p.1 :: l.*1) as -> by (by rewrite insert_key_perm). constructor; [by apply str_lt_before|done].
  - rewrite !fmap_cons. assert (before p.1 q.1) as Hb by (apply str_lt_total; congruence). constructor; [by constructor|]. constructor; [done|]. eapply Forall_impl; [exact H2|]. intros x. by apply before_trans.
Qed.
Lemma sort_keys_sorted {A} (l : list (gostr * A)) : NoDup l.*1 → StronglySorted before (sort_keys l).*1.
Proof.
  induction l as [|p l IH]; [intros _; constructor|]. rewrite fmap_cons, NoDup_cons. intros [H1 H2]. cbn [sort_keys foldr]. apply insert_key_sorted; [|by apply IH]. fold (sort_keys l). by rewrite sort_keys_perm.
Qed.

(** ** Values *)
Lemma elements_commas js ts : js ≠ [] → Forall2 text js ts → elements js (commas ts).
Proof.
  intros Hn H. induction H as [|j t js ts Ht H IH]; [done|]. destruct H as [|j' t' js' ts' Ht' H'].
  - change (commas [t]) with t. pose proof (elem_one j [] t []) as He. cbn [app] in He. rewrite app_nil_r in He. apply He; [constructor|done|constructor].
  - change (commas (t :: t' :: ts')) with (t ++ 44 :: commas (t' :: ts')). apply (elem_more j [] t [] (j' :: js') (commas (t' :: ts'))); [constructor|done|constructor|by apply IH].
Qed.
Lemma members_commas js ts : js ≠ [] → Forall2 (λ p t, ∃ t', t = 34 :: p.1 ++ 34 :: 58 :: t' ∧ chars p.1 ∧ text p.2 t') js ts → members js (commas ts).
Proof.
  intros Hn H. induction H as [|[k j] t js ts (t1 & -> & Hk & Ht) H IH]; [done|]. cbn [fst snd] in *. destruct H as [|p' t' js' ts' Ht' H'].
  - change (commas [34 :: k ++ 34 :: 58 :: t1]) with (34 :: k ++ 34 :: 58 :: t1). pose proof (mem_one k j [] [] [] t1 []) as He. cbn [app] in He. rewrite app_nil_r in He. apply He; [constructor|done|constructor|constructor|done|constructor].
  - change (commas ((34 :: k ++ 34 :: 58 :: t1) :: t' :: ts')) with ((34 :: k ++ 34 :: 58 :: t1) ++ 44 :: commas (t' :: ts')). 
    pose proof (mem_more k j [] [] [] t1 [] (p' :: js') (commas (t' :: ts'))) as He. cbn [app] in He. cbn [app]. rewrite <- !app_assoc. cbn [app]. apply He; [constructor|done|constructor|constructor|done|constructor|by apply IH].
Qed.
Lemma commas_plain ts : Forall (Forall plain) ts → Forall plain (commas ts).
Proof.
  induction 1 as [|t ts Ht H IH]; [constructor|]. destruct ts as [|t' ts]; [done|]. change (commas (t :: t' :: ts)) with (t ++ 44 :: commas (t' :: ts)). apply Forall_app. split; [done|]. constructor; [unfold plain; lia|done].
Qed.
Lemma str_plain s : forallb (λ b, (32 <=? b) && (b <? 256) && negb ((b =? 38) || (b =? 60) || (b =? 62))) (str s) = true → Forall plain (str s).
Proof.
  intros H. apply Forall_forall. intros b Hb. apply elem_of_list_In in Hb. rewrite forallb_forall in H. specialize (H b Hb). rewrite !andb_true_iff, negb_true_iff, !orb_false_iff, !Z.eqb_neq, Z.leb_le, Z.ltb_lt in H. unfold plain. lia.
Qed.
Lemma Forall2_exists {A B C} (R : A → B → Prop) (P : A → B → C → Prop) l k :
  Forall2 (λ x y, ∃ z, P x y z) l k → ∃ zs, Forall2 (λ x z, ∃ y, P x y z) l zs ∧ Forall2 (λ y z, ∃ x, P x y z) k zs.
Proof.
  induction 1 as [|x y l k (z & Hz) _ (zs & IH1 & IH2)]; [exists []; split; constructor|]. exists (z :: zs). split; constructor; eauto.
Qed.
Lemma Forall_id_map {A} (P : A → Prop) l : Forall id (map P l) ↔ Forall P l.
Proof. induction l as [|x l IH]; [by rewrite !Forall_nil|]. cbn [map]. by rewrite !Forall_cons, IH. Qed.
Lemma enc_ok v : ∀ t, go_value v → enc v = Some t → ∃ j, text j t ∧ encodes v j ∧ Forall plain t.
Proof.
  induction v as [|b|z|s|l IH|m IH|] using jval_rec'; intros t Hg E; cbn [enc] in E.
  - apply (inj Some) in E as <-. exists JNull. split; [apply text_null|]. split; [constructor|by apply str_plain].
  - apply (inj Some) in E as <-. exists (JBool b). split; [destruct b; [apply text_true|apply text_false]|]. split; [constructor|destruct b; by apply str_plain].
  - injection E as <-. destruct (int_number z Hg) as [H1 H2]. exists (JNum (int_to_string z)). split_and!; [by constructor|constructor; by apply int_to_string_decimal|done].
  - injection E as <-. destruct (quote_good s Hg) as (raw & -> & Hc & Hp & Hs). exists (JStr raw). split_and!; [by constructor|by constructor|]. constructor; [unfold plain; lia|]. apply Forall_app. split; [done|]. repeat constructor; unfold plain; lia.
  - destruct (mapM enc l) as [ts|] eqn:Em; [|done]. apply (inj Some) in E as <-. apply mapM_Some in Em. cbn [go_value] in Hg. rewrite Forall_id_map in Hg.
    assert (Forall2 (λ v t, ∃ j, text j t ∧ encodes v j ∧ Forall plain t) l ts) as HF.
    { clear - IH Hg Em. induction Em as [|v t l ts Hv _ IHl]; [constructor|]. apply Forall_cons_1 in IH as [IH1 IH2], Hg as [Hg1 Hg2]. constructor; [by apply IH1|by apply IHl]. }
    destruct (Forall2_exists (λ _ _, True) _ _ _ HF) as (js & HF1 & HF2). assert (Forall2 text js ts) as HT by (clear - HF2; induction HF2 as [|y z l k (x & H & _)]; constructor; done).
    assert (Forall plain (91 :: commas ts ++ [93])) as Hp.
    { constructor; [unfold plain; lia|]. apply Forall_app. split; [|repeat constructor; unfold plain; lia]. apply commas_plain. clear - HF. induction HF as [|x y l k (j & _ & _ & H)]; constructor; done. }
    exists (JArr js). split_and!; [|constructor; clear - HF1; induction HF1 as [|y z l k (x & _ & H & _)]; constructor; done|done]. destruct js as [|j js]; [inversion HT; subst; apply (text_arr0 []); constructor|]. apply text_arr. by apply elements_commas.
  - destruct (mapM _ m) as [ms|] eqn:Em; [|done]. apply (inj Some) in E as <-. apply mapM_Some in Em. cbn [go_value] in Hg. destruct Hg as (Hnd & Hkb & Hg). rewrite Forall_id_map in Hg.
    assert (Forall2 (λ p q, p.1 = q.1 ∧ Forall byte p.1 ∧ ∃ j, text j q.2 ∧ encodes p.2 j ∧ Forall plain q.2) m ms) as HF.
    { clear - IH Hg Em Hkb. induction Em as [|[k v] q m ms Hv _ IHl]; [constructor|]. apply Forall_cons_1 in IH as [IH1 IH2], Hg as [Hg1 Hg2]. rewrite fmap_cons in Hkb. apply Forall_cons_1 in Hkb as [Hk1 Hk2]. constructor; [|by apply IHl]. cbn [fst snd] in *. destruct (enc v) as [t|] eqn:Ev; [|done]. injection Hv as <-. split_and!; [done|done|]. by apply IH1. }
    assert (ms.*1 = m.*1) as Hks by (clear - HF; induction HF as [|p q m ms (H & _)]; [done|]; rewrite !fmap_cons; by f_equal).
    pose proof (sort_keys_sorted ms) as Hst. rewrite Hks in Hst. specialize (Hst Hnd). apply Forall2_flip in HF. destruct (Permutation_Forall2 (symmetry (sort_keys_perm ms)) HF) as (m' & Hpm & HF'). revert Hst HF'. generalize (sort_keys ms). intros sm Hst HF'. apply Forall2_flip in HF'.
    assert (Forall2 (λ p q, ∃ r, (p.1 = q.1 ∧ chars r.1 ∧ Forall plain r.1 ∧ quote q.1 = 34 :: r.1 ++ [34] ∧ spells r.1 (utf8 p.1)) ∧ text r.2 q.2 ∧ encodes p.2 r.2 ∧ Forall plain q.2) m' sm) as HF2.
    { clear - HF'. induction HF' as [|p q m ms (Hk & Hb & j & H1 & H2 & H3) _ IH]; constructor; [|done]. destruct (quote_good _ Hb) as (raw & Hq & Hc & Hp & Hs). exists (raw, j). rewrite <- Hk. done. }
    destruct (Forall2_exists (λ _ _, True) _ _ _ HF2) as (js & HJ1 & HJ2). exists (JObj js).
    assert (HM : Forall2 (λ p t, ∃ t', t = 34 :: p.1 ++ 34 :: 58 :: t' ∧ chars p.1 ∧ text p.2 t') js (map (λ p, quote p.1 ++ 58 :: p.2) sm)).
    { clear - HJ2. induction HJ2 as [|q r sm js (p & (Hk & Hc & _ & Hq & _) & Ht & _) _ IH]; constructor; [|done]. exists q.2. split_and!; [|done|done]. rewrite Hq. cbn [app]. by rewrite <- app_assoc. }
    split_and!.
    + destruct js as [|j js]; [inversion HJ2; subst sm; apply (text_obj0 []); constructor|]. apply text_obj. by apply members_commas.
    + apply (enc_map _ m'); [by symmetry| |].
      * assert (m'.*1 = sm.*1) as -> by (clear - HF'; induction HF' as [|p q m ms (H & _)]; [done|]; rewrite !fmap_cons; by f_equal). done.
      * clear - HJ1. induction HJ1 as [|p r m js (q & (_ & _ & _ & _ & Hs) & _ & He & _) _ IH]; constructor; done.
    + constructor; [unfold plain; lia|]. apply Forall_app. split; [|repeat constructor; unfold plain; lia]. apply commas_plain. clear - HJ2. induction HJ2 as [|q r sm js (p & (_ & _ & Hp & Hq & _) & _ & _ & Hp2) _ IH]; cbn [map]; [constructor|]. constructor; [|done]. rewrite Hq. cbn [app]. constructor; [unfold plain; lia|]. rewrite <- app_assoc. apply Forall_app. split; [done|]. repeat constructor; try (unfold plain; lia). done.
  - done.
Qed.
Lemma enc_bad v : has_bad v → enc v = None.
Proof.
  induction 1 as [|v l Hv _ IH|k v m Hv _ IH]; [done| |]; cbn [enc].
  - assert (mapM enc l = None) as ->; [|done]. apply mapM_None. apply Exists_exists. eauto.
  - assert (mapM (λ p, t ← enc p.2; Some (p.1, t)) m = None) as ->; [|done]. apply mapM_None. apply Exists_exists. exists (k, v). split; [done|]. cbn [fst snd]. by rewrite IH.
Qed.
Lemma enc_total v : ¬ has_bad v → ∃ t, enc v = Some t.
Proof.
  induction v as [|b|z|s|l IH|m IH|] using jval_rec'; intros Hb; cbn [enc]; eauto.
  - assert (is_Some (mapM enc l)) as [ts ->]; [|cbn; eauto]. apply mapM_is_Some. apply Forall_forall. intros v Hv. rewrite Forall_forall in IH. destruct (IH v Hv) as [t Ht]; [|by exists t]. intros Hx. apply Hb. by econstructor.
  - assert (is_Some (mapM (λ p, t ← enc p.2; Some (p.1, t)) m)) as [ts ->]; [|cbn; eauto]. apply mapM_is_Some. apply Forall_forall. intros [k v] Hv. rewrite Forall_forall in IH. cbn [fst snd]. destruct (IH (k, v) Hv) as [t Ht]; [|cbn [snd] in Ht; exists (k, t); cbn beta; cbn [fst snd]; by rewrite Ht]. intros Hx. apply Hb. by econstructor.
  - exfalso. apply Hb. constructor.
Qed.
