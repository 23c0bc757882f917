(** * Base64 helpers: theorems *)
From Verif Require Import GoBase GoStr Base64Model.
Local Open Scope Z_scope.

(** ** Specification *)
Definition b64_letter (c : Z) : Prop := 65 ≤ c ≤ 90 ∨ 97 ≤ c ≤ 122 ∨ 48 ≤ c ≤ 57 ∨ c = 43 ∨ c = 47.
Definition eq_sign : Z := 61.

Lemma enc_char_table : ∀ v, 0 ≤ v < 64 → dec_char (enc_char v) = Some v ∧ b64_letter (enc_char v).
Proof.
  assert (H : forallb (λ n, bool_decide (dec_char (enc_char (Z.of_nat n)) = Some (Z.of_nat n)) &&
    (let c := enc_char (Z.of_nat n) in between 65 90 c || between 97 122 c || between 48 57 c || (c =? 43) || (c =? 47))) (seq 0 64) = true) by (by vm_compute).
  intros v Hv. rewrite forallb_forall in H. specialize (H (Z.to_nat v)). rewrite Z2Nat.id in H by lia. specialize (H ltac:(apply in_seq; lia)).
  apply andb_true_iff in H as [H1 H2]. apply bool_decide_eq_true in H1. split; [done|]. rewrite !orb_true_iff, !between_iff, !Z.eqb_eq in H2. unfold b64_letter. lia.
Qed.
Lemma mod64 v : 0 ≤ v mod 64 < 64. Proof. apply Z.mod_pos_bound. lia. Qed.
Lemma dec_enc v : dec_char (enc_char (v mod 64)) = Some (v mod 64). Proof. apply enc_char_table, mod64. Qed.
Lemma dec_pad : dec_char pad_char = None. Proof. by vm_compute. Qed.
Lemma enc_ind (P : list Z → Prop) : P [] → (∀ a, P [a]) → (∀ a b, P [a; b]) → (∀ a b c r, P r → P (a :: b :: c :: r)) → ∀ l, P l.
Proof. intros H0 H1 H2 H3. fix IH 1. intros [|a [|b [|c r]]]; [done|done|done|]. apply H3, IH. Qed.
Lemma cons_eq (a b : Z) l : a = b → a :: l = b :: l. Proof. by intros ->. Qed.
Lemma cons2_eq (a b c d : Z) l : a = b → c = d → a :: c :: l = b :: d :: l. Proof. by intros -> ->. Qed.
Lemma cons3_eq (a b c d e f : Z) l : a = b → c = d → e = f → a :: c :: e :: l = b :: d :: f :: l. Proof. by intros -> -> ->. Qed.
Lemma decode_fuel l : Forall byte l → ∀ n, (length (base64_encode l) ≤ n)%nat → decode_all n (base64_encode l) = l.
Proof.
  induction l as [|a|a b|a b c r IH] using enc_ind; intros Hl n Hn.
  - by destruct n.
  - apply Forall_cons_1 in Hl as [Ha _]. unfold byte in Ha. destruct n as [|n]; [simpl in Hn; lia|]. cbn [base64_encode decode_all decode_quantum]. rewrite !dec_enc, dec_pad. cbn. destruct n; apply cons_eq; Z.div_mod_to_equations; lia.
  - apply Forall_cons_1 in Hl as [Ha Hl]. apply Forall_cons_1 in Hl as [Hb _]. unfold byte in *. destruct n as [|n]; [simpl in Hn; lia|]. cbn [base64_encode decode_all decode_quantum]. rewrite !dec_enc, dec_pad. cbn. destruct n; apply cons2_eq; Z.div_mod_to_equations; lia.
  - apply Forall_cons_1 in Hl as [Ha Hl]. apply Forall_cons_1 in Hl as [Hb Hl]. apply Forall_cons_1 in Hl as [Hc Hl]. unfold byte in *. destruct n as [|n]; [simpl in Hn; lia|].
    assert (IH' : decode_all n (base64_encode r) = r) by (apply IH; [done|cbn [base64_encode app length] in Hn; lia]). revert IH'. cbn [base64_encode app]. generalize (base64_encode r). intros q IH'.
    cbn [decode_all decode_quantum]. rewrite !dec_enc. cbn -[decode_all]. rewrite IH'. apply cons3_eq; Z.div_mod_to_equations; lia.
Qed.

(** ** C49 *)
Theorem base64_round_trip l : Forall byte l → base64_decode (base64_encode l) = l.
Proof. intros Hl. by apply decode_fuel. Qed.
Theorem base64_length l : length (base64_encode l) = (4 * ((length l + 2) / 3))%nat.
Proof.
  induction l as [|a|a b|a b c r IH] using enc_ind; [done..|]. cbn [base64_encode]. rewrite app_length, IH. cbn [length]. 
  replace (S (S (S (length r))) + 2)%nat with (length r + 2 + 1 * 3)%nat by lia. rewrite Nat.div_add by lia. lia.
Qed.
Theorem base64_alphabet l : ∃ body k, base64_encode l = body ++ replicate k eq_sign ∧ Forall b64_letter body ∧ (k ≤ 2)%nat ∧ (k = 0 ↔ length l mod 3 = 0)%nat.
Proof.
  assert (HL : ∀ v, b64_letter (enc_char (v mod 64))) by (intros; apply enc_char_table, mod64).
  induction l as [|a|a b|a b c r (body & k & IH & HB & Hk & Hz)] using enc_ind.
  - exists [], 0%nat. split; [done|]. split; [constructor|]. split; [lia|]. done.
  - eexists [_; _], 2%nat. split; [done|]. split; [auto using Forall_cons, Forall_nil|]. cbn. split; [lia|split; [lia|]; intros E; vm_compute in E; lia].
  - eexists [_; _; _], 1%nat. split; [done|]. split; [auto using Forall_cons, Forall_nil|]. cbn. split; [lia|split; [lia|]; intros E; vm_compute in E; lia].
  - eexists (_ :: _ :: _ :: _ :: body), k. cbn [base64_encode app]. rewrite IH. split; [done|]. split; [auto using Forall_cons|]. split; [done|]. rewrite Hz. cbn [length].
    replace (S (S (S (length r)))) with (length r + 1 * 3)%nat by lia. by rewrite Nat.mod_add by lia.
Qed.
(** decoding never looks at line breaks (MIME wrapping) *)
Definition no_newlines (s : gostr) : gostr := filter (λ c, is_newline c = false) s.
Lemma skip_no_newlines s : no_newlines (skip_newlines s) = no_newlines s ∧ match skip_newlines s with c :: _ => is_newline c = false | [] => no_newlines s = [] end.
Proof.
  induction s as [|c s [IH IH']]; [done|]. simpl. unfold no_newlines in *. rewrite filter_cons. destruct (is_newline c) eqn:E.
  - rewrite decide_False by done. done.
  - rewrite filter_cons, decide_True by done. done.
Qed.
Lemma no_newlines_length s : (length (no_newlines s) ≤ length s)%nat.
Proof. unfold no_newlines. apply filter_length. Qed.
Lemma skip_id s : skip_newlines (no_newlines s) = no_newlines s.
Proof.
  induction s as [|c s IH]; [done|]. unfold no_newlines in *. rewrite filter_cons. destruct (decide (is_newline c = false)) as [E|E]; [|done]. simpl. by rewrite E.
Qed.
Lemma newline_not_letter c : is_newline c = true → dec_char c = None.
Proof.
  intros H. unfold is_newline in H. apply orb_true_iff in H as [H|H]; apply Z.eqb_eq in H as ->; by vm_compute.
Qed.
Lemma skip_nil_iff s : skip_newlines s = [] ↔ no_newlines s = [].
Proof.
  pose proof (skip_no_newlines s) as [H1 H2]. split; [intros E; by rewrite E in H2|]. intros E. rewrite E in H1. destruct (skip_newlines s) as [|c r]; [done|]. unfold no_newlines in H1. rewrite filter_cons, decide_True in H1 by done. done.
Qed.
Lemma quantum_newlines s : ∀ acc r b e, decode_quantum acc s = (r, b, e) → ∃ r', decode_quantum acc (no_newlines s) = (r', b, e) ∧ (e = false → r' = no_newlines r).
Proof.
  induction s as [|c s IH]; intros acc r b e E.
  { simpl in E. injection E as <- <- <-. exists []. done. }
  unfold no_newlines. rewrite filter_cons. cbn [decode_quantum] in E. destruct (dec_char c) as [v|] eqn:Ec.
  - assert (Hn : is_newline c = false). { destruct (is_newline c) eqn:En; [|done]. by rewrite newline_not_letter in Ec. } rewrite decide_True by done. cbn [decode_quantum]. rewrite Ec. fold (no_newlines s).
    destruct (length acc =? 3)%nat; [|by eapply IH]. injection E as <- <- <-. eexists. done.
  - destruct (is_newline c) eqn:En.
    { rewrite decide_False by done. by eapply IH. }
    rewrite decide_True by done. cbn [decode_quantum]. rewrite Ec, En. fold (no_newlines s). destruct (negb (c =? pad_char)); [injection E as <- <- <-; by eexists|].
    assert (HD : ∀ t, negb (bool_decide (skip_newlines t = [])) = negb (bool_decide (no_newlines t = []))). { intros t. f_equal. apply bool_decide_ext. apply skip_nil_iff. }
    destruct acc as [|a1 [|a2 [|a3 acc]]]; [injection E as <- <- <-; by eexists..| |].
    + rewrite skip_id. pose proof (skip_no_newlines s) as [H1 H2]. destruct (skip_newlines s) as [|c' r'] eqn:Es.
      { rewrite H2. injection E as <- <- <-. by eexists. }
      rewrite <- H1. unfold no_newlines. rewrite filter_cons, decide_True by done. fold (no_newlines r'). destruct (c' =? pad_char); [|injection E as <- <- <-; by eexists].
      injection E as <- <- <-. rewrite skip_id, HD. eexists. split; [done|]. intros _. symmetry. exact (proj1 (skip_no_newlines r')).
    + rewrite skip_id. injection E as <- <- <-. rewrite HD. eexists. split; [done|]. intros _. symmetry. exact (proj1 (skip_no_newlines s)).
Qed.
Lemma quantum_rest s : ∀ acc, (length (decode_quantum acc s).1.1 ≤ length s)%nat ∧ ((decode_quantum acc s).2 = false → s ≠ [] → (length (decode_quantum acc s).1.1 < length s)%nat).
Proof.
  assert (HS : ∀ t, (length (skip_newlines t) ≤ length t)%nat). { induction t as [|c t IH]; [done|]. simpl. destruct (is_newline c); simpl; lia. }
  induction s as [|c s IH]; intros acc; [done|]. cbn [decode_quantum length]. destruct (dec_char c).
  - destruct (length acc =? 3)%nat; simpl; [lia|]. destruct (IH (acc ++ [z])). lia.
  - destruct (is_newline c); [destruct (IH acc); lia|]. destruct (negb _); [simpl; lia|]. destruct acc as [|? [|? [|? ?]]]; simpl; [lia|lia| |pose proof (HS s); lia].
    pose proof (HS s). destruct (skip_newlines s) as [|c' r'] eqn:Es; [simpl; lia|]. destruct (c' =? pad_char); simpl in *; [|lia]. pose proof (HS r'). lia.
Qed.
Lemma decode_all_enough s : ∀ n m, (length s ≤ n)%nat → (length s ≤ m)%nat → decode_all n s = decode_all m s.
Proof.
  remember (length s) as k eqn:Ek. revert s Ek. induction k as [k IH] using lt_wf_ind. intros s -> n m Hn Hm. destruct s as [|c s]; [by destruct n, m|].
  destruct n as [|n]; [simpl in Hn; lia|]. destruct m as [|m]; [simpl in Hm; lia|]. cbn [decode_all]. pose proof (quantum_rest (c :: s) []) as [_ Hr]. destruct (decode_quantum [] (c :: s)) as [[r b] e]. destruct e; [done|].
  simpl in Hr. specialize (Hr eq_refl ltac:(done)). f_equal. eapply IH; [|reflexivity|simpl in *; lia..]. simpl. lia.
Qed.
(** what stands in front of the first bad character is kept: after the encoding of whole quanta the
    rest is decoded as if it stood alone, after a padded quantum nothing more is decoded *)
Theorem base64_prefix l g : Forall byte l → base64_decode (base64_encode l ++ g) = l ++ (if decide (length l mod 3 = 0)%nat then base64_decode g else []).
Proof.
  induction l as [|a|a b|a b c r IH] using enc_ind; intros Hl.
  - done.
  - apply Forall_cons_1 in Hl as [Ha _]. unfold byte in Ha. rewrite decide_False by (vm_compute; lia). unfold base64_decode. cbn [base64_encode decode_all decode_quantum app length]. rewrite !dec_enc, dec_pad. change (skip_newlines (pad_char :: g)) with (pad_char :: g). cbn -[skip_newlines quantum_bytes decode_all].
    match goal with |- context [skip_newlines ?x] => destruct (skip_newlines x) as [|z t] end; cbn; apply cons_eq; Z.div_mod_to_equations; lia.
  - apply Forall_cons_1 in Hl as [Ha Hl]. apply Forall_cons_1 in Hl as [Hb _]. unfold byte in *. rewrite decide_False by (vm_compute; lia). unfold base64_decode. cbn [base64_encode decode_all decode_quantum app length]. rewrite !dec_enc, dec_pad. cbn -[skip_newlines quantum_bytes decode_all].
    match goal with |- context [skip_newlines ?x] => destruct (skip_newlines x) as [|z t] end; cbn; apply cons2_eq; Z.div_mod_to_equations; lia.
  - apply Forall_cons_1 in Hl as [Ha Hl]. apply Forall_cons_1 in Hl as [Hb Hl]. apply Forall_cons_1 in Hl as [Hc Hl]. unfold byte in *. specialize (IH Hl).
    cbn [length]. replace (S (S (S (length r)))) with (length r + 1 * 3)%nat by lia. rewrite Nat.mod_add by lia. revert IH. cbn [base64_encode]. rewrite <- app_assoc. generalize (base64_encode r ++ g). intros q IH.
    cbn [app]. rewrite <- IH. unfold base64_decode at 1. cbn [length]. assert (HF : decode_all (S (S (S (length q)))) q = base64_decode q) by (apply decode_all_enough; lia). revert HF. generalize (S (S (S (length q)))). intros n HF. cbn [decode_all decode_quantum]. rewrite !dec_enc. cbn -[decode_all]. rewrite HF. apply cons3_eq; Z.div_mod_to_equations; lia.
Qed.
Lemma quantum_nl_only s : no_newlines s = [] → s ≠ [] → decode_quantum [] s = ([], [], false).
Proof.
  induction s as [|c s IH]; [done|]. intros H _. unfold no_newlines in H. rewrite filter_cons in H. destruct (decide _) as [|Hn]; [done|]. apply not_false_is_true in Hn. cbn [decode_quantum]. rewrite newline_not_letter, Hn by done.
  destruct s; [done|]. by apply IH.
Qed.
Theorem base64_newlines s : base64_decode s = base64_decode (no_newlines s).
Proof.
  unfold base64_decode. rewrite (decode_all_enough (no_newlines s) (length (no_newlines s)) (length s)); [|done|apply no_newlines_length].
  remember (length s) as k eqn:Ek. revert s Ek. induction k as [k IH] using lt_wf_ind. intros s ->. destruct s as [|c s]; [done|]. cbn [length decode_all].
  pose proof (quantum_rest (c :: s) []) as [_ Hr]. destruct (decode_quantum [] (c :: s)) as [[r b] e] eqn:Eq. apply quantum_newlines in Eq as Eq2. destruct Eq2 as (r' & Eq' & Hr').
  destruct (no_newlines (c :: s)) as [|c2 s2] eqn:En.
  - rewrite (quantum_nl_only (c :: s) En ltac:(done)) in Eq. injection Eq as <- <- <-. by destruct (length s).
  - rewrite Eq'. destruct e; [done|]. specialize (Hr' eq_refl) as ->. specialize (Hr eq_refl ltac:(done)). simpl in Hr. f_equal. 
    rewrite (decode_all_enough r (length s) (length r)) by lia. rewrite (decode_all_enough (no_newlines r) (length s) (length r)); [|pose proof (no_newlines_length r); lia..].
    apply (IH (length r)); [simpl; lia|done].
Qed.
Example base64_example : base64_encode (str "Hello") = str "SGVsbG8=" ∧ base64_decode (str "SGVs" ++ [13; 10] ++ str "bG8=") = str "Hello" ∧ base64_decode (str "SGVsbG!xxxx") = str "Hel".
Proof. split_and!; by vm_compute. Qed.
Print Assumptions base64_round_trip.
Print Assumptions base64_length.
Print Assumptions base64_alphabet.
Print Assumptions base64_newlines.
Print Assumptions base64_prefix.
