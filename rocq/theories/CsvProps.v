(** * ReadCsv and what WriteCsv wrote *)
From Verif Require Import GoStr TextModel CsvModel CsvSpec.
Local Open Scope Z_scope.

(** ** One byte at a time *)
Inductive mode := MStart | MPlain (cur : gostr) | MIn (cur : gostr) | MOut (cur : gostr).
Fixpoint auto (m : mode) (acc : list gostr) (s : gostr) : option (list gostr * gostr) :=
  match s with
  | [] => match m with MStart => Some (acc ++ [[]], []) | MPlain c | MOut c => Some (acc ++ [c], []) | MIn _ => None end
  | c :: t =>
    match m with
    | MStart => if decide (c = 10) then Some (acc ++ [[]], s) else if decide (c = 34) then auto (MIn []) acc t else if decide (c = 44) then auto MStart (acc ++ [[]]) t else auto (MPlain [c]) acc t
    | MPlain cur => if decide (c = 10) then Some (acc ++ [cur], s) else if decide (c = 34) then None else if decide (c = 44) then auto MStart (acc ++ [cur]) t else auto (MPlain (cur ++ [c])) acc t
    | MIn cur => if decide (c = 34) then auto (MOut cur) acc t else auto (MIn (cur ++ [c])) acc t
    | MOut cur => if decide (c = 34) then auto (MIn (cur ++ [34])) acc t else if decide (c = 44) then auto MStart (acc ++ [cur]) t else if decide (c = 10) then Some (acc ++ [cur], s) else None
    end
  end.
Definition esc (f : gostr) : gostr := f ≫= λ x, if decide (x = 34) then [34; 34] else [x].
Lemma esc_app a b : esc (a ++ b) = esc a ++ esc b.
Proof. apply bind_app. Qed.
Definition plain (b : gostr) : Prop := 44 ∉ b ∧ 34 ∉ b ∧ 10 ∉ b.
Lemma plain_cons c b : plain (c :: b) ↔ (c ≠ 44 ∧ c ≠ 34 ∧ c ≠ 10) ∧ plain b.
Proof. unfold plain. rewrite !not_elem_of_cons. naive_solver. Qed.
Lemma plain_snoc c b : plain (b ++ [c]) ↔ (c ≠ 44 ∧ c ≠ 34 ∧ c ≠ 10) ∧ plain b.
Proof. unfold plain. rewrite !not_elem_of_app, !elem_of_list_singleton. naive_solver. Qed.
Lemma auto_plain b cur acc t : plain b → auto (MPlain cur) acc (b ++ t) = auto (MPlain (cur ++ b)) acc t.
Proof.
  revert cur. induction b as [|c b IH]; intros cur; [by rewrite app_nil_r|]. intros [[H1 [H2 H3]] Hb]%plain_cons. simpl. rewrite !decide_False by done. rewrite IH by done. by rewrite <- app_assoc.
Qed.
Definition stops (t : gostr) : Prop := t = [] ∨ ∃ t', t = 10 :: t'.
Lemma auto_start_comma b acc t : plain b → auto MStart acc (b ++ 44 :: t) = auto MStart (acc ++ [b]) t.
Proof. destruct b as [|c b]; intros Hb; [done|]. pose proof (proj1 (plain_cons c b) Hb) as [[H1 [H2 H3]] Hb']. simpl. rewrite !decide_False by done. by rewrite auto_plain. Qed.
Lemma auto_start_end b acc t : plain b → stops t → auto MStart acc (b ++ t) = Some (acc ++ [b], t).
Proof.
  intros Hb Ht. destruct b as [|c b].
  - by destruct Ht as [->|[t' ->]].
  - pose proof (proj1 (plain_cons c b) Hb) as [[H1 [H2 H3]] Hb']. simpl. rewrite !decide_False by done. rewrite auto_plain by done. by destruct Ht as [->|[t' ->]].
Qed.
Lemma auto_in b cur acc t : 34 ∉ b → auto (MIn cur) acc (b ++ t) = auto (MIn (cur ++ b)) acc t.
Proof. revert cur. induction b as [|c b IH]; intros cur; [by rewrite app_nil_r|]. rewrite not_elem_of_cons. intros [Hc Hb]. simpl. rewrite decide_False by done. rewrite IH by done. by rewrite <- app_assoc. Qed.
Lemma auto_esc f cur acc t : auto (MIn cur) acc (esc f ++ t) = auto (MIn (cur ++ f)) acc t.
Proof.
  revert cur. induction f as [|c f IH]; intros cur; [by rewrite app_nil_r|]. unfold esc in *. simpl. destruct (decide (c = 34)) as [->|Hc]; simpl.
  - rewrite IH. by rewrite <- app_assoc.
  - rewrite decide_False by done. rewrite IH. by rewrite <- app_assoc.
Qed.
Lemma auto_row fs b acc t : is_row fs b → stops t → auto MStart acc (b ++ t) = Some (acc ++ fs, t).
Proof.
  intros HR. revert acc. induction HR as [f b Hf|f b fs t' Hf HR IH]; intros acc Ht.
  - destruct Hf as [b H1 H2 H3|f]; [by apply auto_start_end|]. unfold quoted. rewrite <- app_comm_cons. simpl. rewrite <- app_assoc. fold (esc f). rewrite auto_esc. simpl. by destruct Ht as [->|[t' ->]].
  - rewrite <- app_assoc, <- app_comm_cons. destruct Hf as [b H1 H2 H3|f].
    + rewrite auto_start_comma by done. rewrite IH by done. by rewrite <- app_assoc.
    + unfold quoted. rewrite <- app_comm_cons. simpl. rewrite <- app_assoc. fold (esc f). rewrite auto_esc. simpl. rewrite IH by done. by rewrite <- app_assoc.
Qed.
Lemma row_quoted_more f fs t : is_row fs t → is_row (f :: fs) (34 :: esc f ++ 34 :: 44 :: t).
Proof. intros H. change (is_row (f :: fs) (34 :: esc f ++ [34] ++ 44 :: t)). rewrite app_assoc, app_comm_cons. apply row_more; [apply field_quoted|done]. Qed.
Lemma auto_sound s : ∀ m acc fs t, auto m acc s = Some (fs, t) → ∃ fs' b, fs = acc ++ fs' ∧ s = b ++ t ∧ stops t ∧
  match m with
  | MStart => is_row fs' b
  | MPlain cur => plain cur → is_row fs' (cur ++ b)
  | MIn cur => is_row fs' (34 :: esc cur ++ b)
  | MOut cur => is_row fs' (34 :: esc cur ++ 34 :: b)
  end.
Proof.
  assert (P0 : plain []) by (split_and!; apply not_elem_of_nil).
  assert (HP : ∀ b, plain b → is_row [b] b) by (intros b (?&?&?); by constructor; constructor).
  assert (HQ : ∀ f, is_row [f] (34 :: esc f ++ [34])) by (intros f; constructor; apply field_quoted).
  induction s as [|c s IH]; intros m acc fs t He.
  - destruct m; simpl in He; simplify_eq.
    + exists [[]], []. split_and!; [done..|by left|by apply HP].
    + exists [cur], []. split_and!; [done..|by left|]. intros Hc. rewrite app_nil_r. by apply HP.
    + exists [cur], []. split_and!; [done..|by left|]. apply HQ.
  - destruct m; simpl in He.
    + destruct (decide (c = 10)) as [->|H10]; [|destruct (decide (c = 34)) as [->|H34]; [|destruct (decide (c = 44)) as [->|H44]]].
      * simplify_eq. exists [[]], []. split_and!; [done..|right; eauto|by apply HP].
      * apply IH in He as (fs' & b & -> & -> & Ht & HR). by exists fs', (34 :: b).
      * apply IH in He as (fs' & b & -> & -> & Ht & HR). exists ([] :: fs'), (44 :: b). split_and!; [by rewrite <- app_assoc|done..|]. apply (row_more [] [] fs' b); [|done]. destruct P0 as (?&?&?). by constructor.
      * apply IH in He as (fs' & b & -> & -> & Ht & HR). exists fs', (c :: b). split_and!; [done..|]. apply HR. by apply plain_cons.
    + destruct (decide (c = 10)) as [->|H10]; [|destruct (decide (c = 34)) as [->|H34]; [done|destruct (decide (c = 44)) as [->|H44]]].
      * simplify_eq. exists [cur], []. split_and!; [done..|right; eauto|]. intros Hc. rewrite app_nil_r. by apply HP.
      * apply IH in He as (fs' & b & -> & -> & Ht & HR). exists (cur :: fs'), (44 :: b). split_and!; [by rewrite <- app_assoc|done..|]. intros (?&?&?). by apply row_more; [constructor|].
      * apply IH in He as (fs' & b & -> & -> & Ht & HR). exists fs', (c :: b). split_and!; [done..|]. intros Hc. specialize (HR (proj2 (plain_snoc c cur) (conj (conj H44 (conj H34 H10)) Hc))). by rewrite <- app_assoc in HR.
    + destruct (decide (c = 34)) as [->|H34].
      * apply IH in He as (fs' & b & -> & -> & Ht & HR). by exists fs', (34 :: b).
      * apply IH in He as (fs' & b & -> & -> & Ht & HR). exists fs', (c :: b). split_and!; [done..|]. rewrite esc_app in HR. unfold esc in HR at 2. simpl in HR. rewrite decide_False in HR by done. by rewrite <- app_assoc in HR.
    + destruct (decide (c = 34)) as [->|H34]; [|destruct (decide (c = 44)) as [->|H44]; [|destruct (decide (c = 10)) as [->|H10]; [|done]]].
      * apply IH in He as (fs' & b & -> & -> & Ht & HR). exists fs', (34 :: b). split_and!; [done..|]. rewrite esc_app in HR. unfold esc in HR at 2. simpl in HR. by rewrite <- app_assoc in HR.
      * apply IH in He as (fs' & b & -> & -> & Ht & HR). exists (cur :: fs'), (44 :: b). split_and!; [by rewrite <- app_assoc|done..|]. by apply row_quoted_more.
      * simplify_eq. exists [cur], []. split_and!; [done..|right; eauto|]. apply HQ.
Qed.

(** ** Lines *)
Lemma drop_cr_snoc l c : drop_cr (l ++ [c]) = if decide (c = 13) then l else l ++ [c].
Proof. unfold drop_cr. rewrite reverse_snoc. destruct (decide (c = 13)) as [->|H]; [apply reverse_involutive|]. destruct c as [|p|]; try done. do 4 (destruct p as [p|p|]; try done). Qed.
Lemma drop_cr_cons c l : l ≠ [] → drop_cr (c :: l) = c :: drop_cr l.
Proof. intros Hl. destruct l as [|x l _] using rev_ind; [done|]. rewrite app_comm_cons, !drop_cr_snoc. by destruct (decide (x = 13)). Qed.
Lemma drop_cr_length l : (length (drop_cr l) ≤ length l)%nat.
Proof. destruct l as [|x l _] using rev_ind; [done|]. rewrite drop_cr_snoc. rewrite app_length. destruct (decide (x = 13)); rewrite ?app_length; simpl; lia. Qed.
Lemma drop_cr_sub l x : x ∈ drop_cr l → x ∈ l.
Proof. destruct l as [|y l _] using rev_ind; [done|]. rewrite drop_cr_snoc. destruct (decide (y = 13)); [|done]. intros. apply elem_of_app. by left. Qed.
Lemma ends_other c t : c ≠ 13 → line_ends (c :: t) = c :: line_ends t.
Proof. intros H. destruct c as [|p|]; try done. do 4 (destruct p as [p|p|]; try done). Qed.
Lemma ends_cr c t : c ≠ 10 → line_ends (13 :: c :: t) = 13 :: line_ends (c :: t).
Proof. intros H. destruct c as [|p|]; try done. do 4 (destruct p as [p|p|]; try done). Qed.
Lemma ends_line a t : 10 ∉ a → line_ends (a ++ 10 :: t) = drop_cr a ++ 10 :: line_ends t.
Proof.
  induction a as [|c a IH]; [done|]. rewrite not_elem_of_cons. intros [Hc Ha]. destruct (decide (c = 13)) as [->|Hn].
  - destruct a as [|x a]; [done|]. rewrite not_elem_of_cons in Ha. rewrite <- !app_comm_cons, ends_cr by naive_solver. rewrite drop_cr_cons by done. rewrite <- app_comm_cons. f_equal. apply IH. rewrite not_elem_of_cons. done.
  - rewrite <- app_comm_cons, ends_other by done. rewrite IH by done. destruct a as [|x a]; [|by rewrite (drop_cr_cons c (x :: a))]. change [c] with ([] ++ [c]). rewrite drop_cr_snoc, decide_False by done. done.
Qed.
Lemma ends_last a : 10 ∉ a → line_ends a = drop_cr a.
Proof.
  induction a as [|c a IH]; [done|]. rewrite not_elem_of_cons. intros [Hc Ha]. destruct (decide (c = 13)) as [->|Hn].
  - destruct a as [|x a]; [done|]. rewrite not_elem_of_cons in Ha. rewrite ends_cr by naive_solver. rewrite drop_cr_cons by done. f_equal. apply IH. rewrite not_elem_of_cons. done.
  - rewrite ends_other by done. rewrite IH by done. destruct a as [|x a]; [|by rewrite (drop_cr_cons c (x :: a))]. change [c] with ([] ++ [c]). rewrite drop_cr_snoc, decide_False by done. done.
Qed.
(** a line, or the rest of one, and what follows it *)
Definition whole (line rest : gostr) : Prop := (∃ p, line = p ++ [10] ∧ 10 ∉ p) ∨ (10 ∉ line ∧ rest = []).
Lemma read_line_spec s l rest : read_line s = Some (l, rest) → line_ends s = l ++ line_ends rest ∧ whole l rest ∧ (length l + length rest ≤ length s)%nat ∧ (length rest < length s)%nat.
Proof.
  unfold read_line. destruct s as [|c s]; [done|]. destruct (go_index [10] (c :: s)) as [i|] eqn:Ei; intros [= <- <-].
  - destruct (go_index_Some _ _ _ Ei) as [Hi Es]. set (a := take i (c :: s)) in *. assert (Ha : 10 ∉ a).
    { intros (j & Hj)%elem_of_list_lookup. pose proof (lookup_lt_Some _ _ _ Hj) as Hl. unfold a in Hl, Hj. rewrite take_length in Hl. rewrite lookup_take in Hj by lia. pose proof (go_index_first _ _ _ Ei j ltac:(lia)) as Hp.
      assert (has_prefix [10] (drop j (c :: s)) = true) as E; [|congruence]. apply has_prefix_iff. exists (drop (S j) (c :: s)). exact (drop_S (c :: s) 10 j Hj). }
    change (length [10]) with 1%nat in Es. rewrite Nat.add_1_r in Es. split_and!.
    + transitivity (line_ends (a ++ 10 :: drop (S i) (c :: s))); [exact (f_equal line_ends Es)|]. rewrite ends_line by done. by rewrite <- app_assoc.
    + left. exists (drop_cr a). split; [done|]. intros H%drop_cr_sub. done.
    + apply (f_equal length) in Es. rewrite !app_length in *. pose proof (drop_cr_length a). simpl in *. lia.
    + rewrite drop_length. simpl. lia.
  - apply go_index_char_None in Ei. split_and!; [rewrite ends_last by done; by rewrite app_nil_r| | |simpl; lia].
    + right. split; [|done]. intros H%drop_cr_sub. done.
    + pose proof (drop_cr_length (c :: s)). simpl in *. lia.
Qed.
Lemma length_nl_snoc p : length_nl (p ++ [10]) = 1%nat.
Proof. unfold length_nl. by rewrite reverse_snoc. Qed.
Lemma length_nl_none l : 10 ∉ l → length_nl l = 0%nat.
Proof.
  destruct l as [|x l _] using rev_ind; [done|]. rewrite not_elem_of_app, elem_of_list_singleton. intros [_ H]. unfold length_nl. rewrite reverse_snoc. destruct x as [|p|]; try done. do 4 (destruct p as [p|p|]; try done).
Qed.
Lemma whole_end l rest : whole l rest → length_nl l = length l ↔ l = [] ∨ l = [10].
Proof.
  intros [(p & -> & Hp)|[H ->]].
  - rewrite length_nl_snoc, app_length. simpl. destruct p as [|x p]; [split; [by right|done]|]. split; [simpl; lia|]. intros [E|E]; [done|]. by destruct p.
  - rewrite length_nl_none by done. split; [intros E; left; by destruct l|]. intros [->| ->]; [done|]. exfalso. apply H. left.
Qed.
Lemma whole_cut l rest : whole l rest → (l = cut_nl l ++ [10] ∧ 10 ∉ cut_nl l) ∨ (l = cut_nl l ∧ 10 ∉ l ∧ rest = []).
Proof.
  unfold cut_nl. intros [(p & -> & Hp)|[H ->]].
  - left. rewrite length_nl_snoc, app_length. simpl. replace (length p + 1 - 1)%nat with (length p) by lia. by rewrite take_app.
  - right. rewrite length_nl_none by done. rewrite Nat.sub_0_r, firstn_all. done.
Qed.
Lemma whole_drop l rest a t : whole l rest → l = a ++ t → (t ≠ [] ∨ rest = [] ) → whole t rest ∧ (t ≠ [] → 10 ∉ a).
Proof.
  intros [(p & -> & Hp)|[H ->]] E Ht.
  - destruct t as [|x t _] using rev_ind.
    + destruct Ht as [?| ->]; [done|]. split; [|done]. right. split; [apply not_elem_of_nil|done].
    + rewrite app_assoc in E. apply app_inj_tail in E as [-> <-]. rewrite not_elem_of_app in Hp. split; [left; exists t; naive_solver|naive_solver].
  - subst l. rewrite not_elem_of_app in H. split; [right; naive_solver|naive_solver].
Qed.

(** ** The loop over the fields follows the bytes *)
Definition mode_of (q : option gostr) : mode := match q with None => MStart | Some cur => MIn cur end.
Lemma not10_plain l i : 10 ∉ take i l → 44 ∉ take i l → 34 ∉ take i l → plain (take i l).
Proof. done. Qed.
Lemma auto_bare a acc t : 34 ∈ a → 44 ∉ a → 10 ∉ a → head a ≠ Some 34 → auto MStart acc (a ++ t) = None.
Proof.
  intros H34 H44 H10 Hh. destruct a as [|c a]; [by apply elem_of_nil in H34|]. rewrite not_elem_of_cons in H44, H10. assert (Hc : c ≠ 34) by (intros ->; done). simpl. rewrite !decide_False by naive_solver.
  apply elem_of_cons in H34 as [?|H34]; [congruence|]. clear Hh. revert H34. generalize [c]. destruct H44 as [_ H44], H10 as [_ H10]. induction a as [|x a IH]; intros cur H; [by apply elem_of_nil in H|].
  rewrite not_elem_of_cons in H44, H10. simpl. destruct (decide (x = 34)) as [->|Hx]; [by rewrite decide_False by naive_solver|]. rewrite !decide_False by naive_solver. apply IH; [naive_solver..|]. by apply elem_of_cons in H as [?|?]; [congruence|].
Qed.
Lemma index_split (c : Z) l i : go_index [c] l = Some i → l = take i l ++ c :: drop (S i) l ∧ c ∉ take i l ∧ (i < length l)%nat.
Proof.
  intros Ei. destruct (go_index_Some _ _ _ Ei) as [Hi Es]. change (length [c]) with 1%nat in Es. rewrite Nat.add_1_r in Es. split_and!; [done| |].
  - intros (j & Hj)%elem_of_list_lookup. pose proof (lookup_lt_Some _ _ _ Hj) as Hl. rewrite take_length in Hl. rewrite lookup_take in Hj by lia. pose proof (go_index_first _ _ _ Ei j ltac:(lia)) as Hp.
    assert (has_prefix [c] (drop j l) = true) as E; [|congruence]. apply has_prefix_iff. exists (drop (S j) l). exact (drop_S l c j Hj).
  - apply (f_equal length) in Es. rewrite !app_length, take_length, drop_length in Es. simpl in Es. lia.
Qed.
Lemma parse_auto fuel : ∀ q line rest acc, whole line rest → (length line + length rest < fuel)%nat →
  match auto (mode_of q) acc (line ++ line_ends rest) with
  | Some (fs, t) => ∃ rest', parse fuel q line rest acc = Ret (Parsed fs rest') ∧ (length rest' ≤ length rest)%nat ∧ (t = 10 :: line_ends rest' ∨ t = [] ∧ rest' = [])
  | None => parse fuel q line rest acc = Ret ParseErr
  end.
Proof.
  induction fuel as [|fuel IH]; [lia|]. intros q line rest acc Hw Hf. destruct q as [cur|]; cbn [mode_of].
  - (* inside quotes *)
    cbn [parse]. destruct (go_index [34] line) as [i|] eqn:Ei.
    + destruct (index_split _ _ _ Ei) as (El & Hni & Hil). remember (drop (S i) line) as l eqn:Edl. assert (Hll : (length l < length line)%nat) by (rewrite Edl, drop_length; lia).
      remember (take i line) as a eqn:Ea. clear Ea Edl Ei. assert (Hw2 : whole l rest).
      { destruct l as [|x l]; [|apply (whole_drop line rest (a ++ [34]) (x :: l)); [done|by rewrite <- app_assoc|by left]]. destruct Hw as [(p & E & _)|[_ ->]]; [|right; split; [apply not_elem_of_nil|done]]. rewrite E in El. apply app_inj_tail in El as [_ ?]. done. }
      rewrite El. rewrite <- app_assoc, <- app_comm_cons. rewrite auto_in by done. cbn [auto]. rewrite (decide_True (P := 34 = 34)) by done. cbn zeta. destruct l as [|x l].
      * assert (rest = []) as ->. { destruct Hw2 as [(p & E & _)|[_ E]]; [by destruct p|done]. }
        simpl. eexists. split; [done|]. split; [done|by right].
      * pose proof (whole_drop (x :: l) rest [x] l Hw2 eq_refl) as Hw3. destruct (decide (x = 34)) as [->|H34]; [|destruct (decide (x = 44)) as [->|H44]].
        -- assert (Hw4 : whole l rest). { apply Hw3. destruct l; [right|by left]. destruct Hw2 as [(p & E & _)|[_ E]]; [destruct p as [|? []]; by simplify_eq/=|done]. }
           rewrite (decide_True (P := head (34 :: l) = Some 34)) by done. rewrite <- app_comm_cons. cbn [auto tail]. rewrite decide_True by done. specialize (IH (Some ((cur ++ a) ++ [34])) l rest acc Hw4 ltac:(simpl in *; lia)). exact IH.
        -- assert (Hw4 : whole l rest). { apply Hw3. destruct l; [right|by left]. destruct Hw2 as [(p & E & _)|[_ E]]; [destruct p as [|? []]; by simplify_eq/=|done]. }
           rewrite (decide_False (P := head (44 :: l) = Some 34)) by done. rewrite (decide_True (P := head (44 :: l) = Some 44)) by done. rewrite <- app_comm_cons. cbn [auto tail]. rewrite (decide_False (P := 44 = 34)), (decide_True (P := 44 = 44)) by done. specialize (IH None l rest (acc ++ [cur ++ a]) Hw4 ltac:(simpl in *; lia)). exact IH.
        -- cbn zeta. rewrite (decide_False (P := head (x :: l) = Some 34)) by (simpl; congruence). rewrite (decide_False (P := head (x :: l) = Some 44)) by (simpl; congruence). rewrite <- app_comm_cons. cbn [auto]. rewrite !decide_False by done. destruct (decide (x = 10)) as [->|H10].
           ++ assert (l = []) as ->. { destruct l as [|y l]; [done|]. destruct (Hw3 ltac:(by left)) as [_ Hx]. exfalso. apply Hx; [done|left]. }
              simpl. eexists. split; [done|]. split; [done|]. by left.
           ++ destruct (decide (length_nl (x :: l) = length (x :: l))) as [E|]; [|done]. apply (whole_end _ _ Hw2) in E as [?|[= -> ->]]; done.
    + apply go_index_char_None in Ei. rewrite auto_in by done. destruct line as [|x line].
      * assert (rest = []) as ->. { destruct Hw as [(p & E & _)|[_ E]]; [by destruct p|done]. } done.
      * destruct (read_line rest) as [[l rest2]|] eqn:Er.
        -- destruct (read_line_spec _ _ _ Er) as (E & Hw2 & Hlen & Hlt). rewrite E. specialize (IH (Some (cur ++ x :: line)) l rest2 acc Hw2 ltac:(simpl in *; lia)). cbn [mode_of] in IH.
           destruct (auto _ _ _) as [[fs t]|]; [|done]. destruct IH as (rest' & H1 & H2 & H3). exists rest'. split; [done|]. split; [lia|done].
        -- assert (rest = []) as -> by (destruct rest; [done|simpl in Er; by case_match]). simpl. specialize (IH (Some (cur ++ x :: line)) [] [] acc ltac:(right; split; [apply not_elem_of_nil|done]) ltac:(simpl in *; lia)). exact IH.
  - (* at the start of a field *)
    assert (Hcase : (∃ l, line = 34 :: l) ∨ head line ≠ Some 34). { destruct line as [|x l]; [by right|]. destruct (decide (x = 34)) as [->|]; [left; eauto|right; by simplify_eq/=; congruence]. }
    destruct Hcase as [[l ->]|Hh].
    + simpl. apply (IH (Some [])); [|simpl in Hf; lia]. apply (whole_drop (34 :: l) rest [34] l); [done|done|]. destruct l; [right|by left]. destruct Hw as [(p & E & _)|[_ E]]; [destruct p as [|? []]; by simplify_eq/=|done].
    + assert (E : parse (S fuel) None line rest acc = match go_index [44] line with
        | Some i => if bool_decide (34 ∈ take i line) then Ret ParseErr else parse fuel None (drop (S i) line) rest (acc ++ [take i line])
        | None => let f := cut_nl line in if bool_decide (34 ∈ f) then Ret ParseErr else Ret (Parsed (acc ++ [f]) rest) end).
      { cbn [parse]. by rewrite decide_False. }
      rewrite E. clear E. destruct (go_index [44] line) as [i|] eqn:Ei.
      * destruct (index_split _ _ _ Ei) as (El & Hni & Hil). remember (drop (S i) line) as l eqn:Edl. assert (Hll : (length l < length line)%nat) by (rewrite Edl, drop_length; lia).
        remember (take i line) as a eqn:Ea. clear Ea Edl Ei. assert (Hr : l ≠ [] ∨ rest = []). { destruct l as [|x l]; [|by left]. right. destruct Hw as [(p & E & _)|[_ E]]; [|done]. rewrite E in El. apply app_inj_tail in El as [_ ?]. done. }
        assert (Hw2 : whole l rest) by (apply (whole_drop line rest (a ++ [44]) l); [done|by rewrite <- app_assoc|done]).
        assert (H10 : 10 ∉ a). { destruct (whole_drop line rest a (44 :: l) Hw El ltac:(by left)) as [_ HH]. by apply HH. }
        rewrite El, <- app_assoc, <- app_comm_cons. destruct (bool_decide_reflect (34 ∈ a)) as [H34|H34].
        -- rewrite auto_bare; try done. intros Hh2. apply Hh. rewrite El. by destruct a.
        -- rewrite auto_start_comma by done. apply (IH None); [done|lia].
      * apply go_index_char_None in Ei. cbn zeta. destruct (whole_cut line rest Hw) as [[E H10]|(E & H10 & ->)].
        -- remember (cut_nl line) as f eqn:Ef. clear Ef. assert (H44 : 44 ∉ f) by (rewrite E in Ei; by apply not_elem_of_app in Ei as []). rewrite E, <- app_assoc. simpl. destruct (bool_decide_reflect (34 ∈ f)) as [H34|H34].
           ++ rewrite auto_bare; try done. intros Hh2. apply Hh. rewrite E. by destruct f.
           ++ rewrite auto_start_end; [|done|right; eauto]. exists rest. split; [done|]. split; [done|by left].
        -- rewrite <- E. simpl. rewrite app_nil_r. destruct (bool_decide_reflect (34 ∈ line)) as [H34|H34].
           ++ pose proof (auto_bare line acc [] H34 Ei H10 Hh) as HH. rewrite app_nil_r in HH. by rewrite HH.
           ++ pose proof (auto_start_end line acc [] ltac:(done) ltac:(by left)) as HH. rewrite app_nil_r in HH. rewrite HH. exists []. split; [done|]. split; [done|by right].
Qed.

(** ** The loop over the rows *)
Lemma rows_nil rs s : is_rows rs s → s = [] → rs = [].
Proof. intros [] E; try done. by apply app_nil in E as []. Qed.
Lemma row_head fs b : is_row fs b → head b ≠ Some 10.
Proof.
  assert (Hf : ∀ f b, is_field f b → head b ≠ Some 10) by (intros ? ? [b' ? ? H|f]; [destruct b'; [done|simpl; intros [= ->]; apply H; left]|done]).
  intros [f b' H|f b' fs' t H _]; [by apply Hf in H|]. apply Hf in H. by destruct b'.
Qed.
Lemma row_length fs b : is_row fs b → length fs ≠ 0%nat.
Proof. by intros []. Qed.
Lemma rows_line rs s : is_rows rs (10 :: s) → is_rows rs s.
Proof.
  inversion 1 as [|? ? H1|r b H1 H2|r b rs' t H1 H2 H3 E1 E2]; subst; [done| |].
  - by apply row_head in H1.
  - destruct b as [|x b]; [done|]. injection E2 as -> E2. by apply row_head in H1.
Qed.
Lemma rows_row rs s : is_rows rs s → s ≠ [] → head s ≠ Some 10 → ∃ r b t rs', rs = r :: rs' ∧ s = b ++ t ∧ is_row r b ∧ b ≠ [] ∧ (t = [] ∧ rs' = [] ∨ ∃ t', t = 10 :: t' ∧ is_rows rs' t').
Proof.
  intros [|rs' t' H|r b H Hb|r b rs' t' H1 H2 H3] Hn Hh; [done|done| |].
  - exists r, b, [], []. rewrite app_nil_r. split_and!; try done. by left.
  - exists r, b, (10 :: t'), rs'. split_and!; try done. right. eauto.
Qed.
Lemma read_all_exact fuel : ∀ n s, (length s < fuel)%nat →
  ∃ o, read_all fuel n s = Ret o ∧ ∀ rs, o = Some rs ↔ is_rows rs (line_ends s) ∧ rectangular rs ∧ ∀ r, r ∈ rs → n = 0%nat ∨ length r = n.
Proof.
  induction fuel as [|fuel IH]; [lia|]. intros n s Hf. cbn [read_all]. destruct (read_line s) as [[line rest]|] eqn:Er.
  2: { assert (s = []) as -> by (destruct s; [done|simpl in Er; by case_match]). exists (Some []). split; [done|]. intros rs. simpl. split.
       - intros [= <-]. split_and!; [constructor|by intros r r' ?%elem_of_nil|by intros r ?%elem_of_nil].
       - intros [H _]. by rewrite (rows_nil _ _ H). }
  destruct (read_line_spec _ _ _ Er) as (Es & Hw & _ & Hlt). destruct (decide (length line = length_nl line)) as [Hb|Hb].
  - destruct (IH n rest ltac:(lia)) as (o & E & Ho). exists o. split; [done|]. intros rs. rewrite Ho, Es. symmetry in Hb. apply (whole_end _ _ Hw) in Hb as [->| ->]; [done|]. simpl. split; intros [H1 H2]; (split; [|done]); [by constructor|by apply rows_line].
  - assert (Hne : line ≠ [] ∧ line ≠ [10]). { split; intros ->; by apply Hb. }
    assert (Hh : line ++ line_ends rest ≠ [] ∧ head (line ++ line_ends rest) ≠ Some 10).
    { destruct line as [|x l]; [by destruct Hne|]. split; [done|]. simpl. intros [= ->]. destruct l as [|y l]; [by destruct Hne|]. destruct (whole_drop _ _ [10] (y :: l) Hw eq_refl ltac:(by left)) as [_ HH]. apply HH; [done|left]. }
    pose proof (parse_auto (S (S (length line + length rest))) None line rest [] Hw ltac:(lia)) as Hp. cbn [mode_of] in Hp. rewrite Es.
    destruct (auto MStart [] (line ++ line_ends rest)) as [[fs t]|] eqn:Ea.
    + destruct Hp as (rest' & Ep & Hlen & Ht). rewrite Ep. cbn [mbind go_bind]. destruct (auto_sound _ _ _ _ _ Ea) as (fs' & b & E & Eb & Hst & HR). simpl in E. subst fs'.
      assert (Hbne : b ≠ []). { intros ->. destruct Hst as [->|[t' ->]]; rewrite Eb in Hh; by destruct Hh. }
      assert (Hfirst : ∀ rs, is_rows rs (line ++ line_ends rest) ↔ ∃ rs', rs = fs :: rs' ∧ is_rows rs' (line_ends rest')).
      { intros rs. split.
        - intros H. destruct (rows_row _ _ H (proj1 Hh) (proj2 Hh)) as (r & b' & t' & rs' & -> & E' & HR' & Hb' & Hc).
          assert (Hst' : stops t') by (destruct Hc as [[-> _]|(t'' & -> & _)]; [by left|right; eauto]). rewrite E', (auto_row _ _ _ _ HR' Hst') in Ea. simpl in Ea. injection Ea as -> ->. exists rs'. split; [done|].
          destruct Hc as [[-> ->]|(t'' & -> & Hc)], Ht as [Ht|[Ht1 Ht2]]; simplify_eq; [constructor|done].
        - intros (rs' & -> & H). rewrite Eb. destruct Ht as [->|[-> ->]]; [by apply rows_more|]. simpl in H. assert (rs' = []) as ->. by exact (rows_nil _ _ H eq_refl).
          rewrite app_nil_r. by apply rows_last. }
      pose proof (row_length _ _ HR) as Hl. destruct (decide (n = 0%nat ∨ length fs = n)) as [Hn|Hn].
      * destruct (IH (length fs) rest' ltac:(lia)) as (o & E & Ho). rewrite E. cbn [mbind go_bind]. eexists. split; [done|]. intros rs. rewrite Hfirst. split.
        -- destruct o as [rs'|]; [|done]. intros [= <-]. destruct (proj1 (Ho rs') eq_refl) as (H1 & H2 & H3). split_and!; [by exists rs'| |].
           ++ assert (H4 : ∀ r, r ∈ fs :: rs' → length r = length fs) by (intros r [->|Hr]%elem_of_cons; [done|]; destruct (H3 r Hr); [by destruct Hl|done]). intros r r' Hr Hr'. by rewrite (H4 r), (H4 r').
           ++ intros r [->|Hr]%elem_of_cons; [naive_solver|]. destruct (H3 r Hr) as [?|Hr']; [by destruct Hl|]. destruct Hn as [?|<-]; [by left|by right].
        -- intros ((rs' & -> & H1) & H2 & H3). assert (o = Some rs') as ->; [|done]. apply Ho. split_and!; [done| |].
           ++ intros r r' Hr Hr'. apply H2; by right.
           ++ intros r Hr. right. apply H2; [by right|by left].
      * eexists. split; [done|]. intros rs. split; [done|]. rewrite Hfirst. intros ((rs' & -> & H1) & H2 & H3). destruct Hn. destruct (H3 fs ltac:(left)); auto.
    + rewrite Hp. cbn [mbind go_bind]. eexists. split; [done|]. intros rs. split; [done|]. intros [H _]. exfalso. destruct (rows_row _ _ H (proj1 Hh) (proj2 Hh)) as (r & b' & t' & rs' & -> & E' & HR' & Hb' & Hc).
      assert (Hst' : stops t') by (destruct Hc as [[-> _]|(t'' & -> & _)]; [by left|right; eauto]). rewrite E', (auto_row _ _ _ _ HR' Hst') in Ea. done.
Qed.

(** C79: ReadCsv returns a table exactly if the text denotes it, and nil exactly if there is none *)
Theorem read_csv_exact s rs : read_csv (Some s) = Ret (Some rs) ↔ denotes rs s.
Proof.
  destruct (read_all_exact (S (length s)) 0 s ltac:(lia)) as (o & E & Ho). cbn [read_csv]. rewrite E. unfold denotes. split.
  - intros [= ->]. destruct (proj1 (Ho rs) eq_refl) as (H1 & H2 & _). done.
  - intros [H1 H2]. f_equal. apply Ho. split_and!; try done. by left.
Qed.
Theorem read_csv_nil f : read_csv f = Ret None ↔ f = None ∨ ∃ s, f = Some s ∧ ∀ rs, ¬ denotes rs s.
Proof.
  destruct f as [s|]; [|split; [by left|done]]. destruct (read_all_exact (S (length s)) 0 s ltac:(lia)) as (o & E & Ho). split.
  - intros Hn. right. exists s. split; [done|]. intros rs H%read_csv_exact. congruence.
  - intros [?|(s' & [= <-] & Hn)]; [done|]. cbn [read_csv]. rewrite E. destruct o as [rs|]; [|done]. exfalso. apply (Hn rs), read_csv_exact. done.
Qed.
(** the text denotes at most one table *)
Theorem denotes_unique s rs rs' : denotes rs s → denotes rs' s → rs = rs'.
Proof. rewrite <- !read_csv_exact. congruence. Qed.

(** ** What the writer writes is read back *)
Definition no_cr (f : gostr) : gostr := List.filter (λ x, negb (x =? 13)) f.
Lemma no_cr_id f : 13 ∉ f → no_cr f = f.
Proof. unfold no_cr. induction f as [|c f IH]; [done|]. rewrite not_elem_of_cons. intros [Hc Hf]. simpl. rewrite (proj2 (Z.eqb_neq c 13)) by lia. simpl. by rewrite IH. Qed.
Lemma line_ends_cons c t : c ≠ 13 → line_ends (c :: t) = c :: line_ends t.
Proof. intros Hc. simpl. repeat case_match; try done; lia. Qed.
Lemma line_ends_plain a t : 13 ∉ a → line_ends (a ++ t) = a ++ line_ends t.
Proof. induction a as [|c a IH]; [done|]. rewrite not_elem_of_cons. intros [Hc Ha]. rewrite <- app_comm_cons, line_ends_cons by done. by rewrite IH. Qed.
Lemma line_ends_app a t : last a ≠ Some 13 → line_ends (a ++ t) = line_ends a ++ line_ends t.
Proof.
  induction a as [|c a IH]; [done|]. intros Hl. destruct a as [|d a].
  - rewrite <- app_comm_cons, !line_ends_cons; [done| |]; simpl in Hl; congruence.
  - assert (E : line_ends ((d :: a) ++ t) = line_ends (d :: a) ++ line_ends t) by (apply IH; by simpl in Hl).
    destruct (decide (c = 13)) as [->|Hc].
    + destruct (decide (d = 10)) as [->|Hd]; [exact E|].
      assert (Hs : ∀ x, line_ends (13 :: d :: x) = 13 :: line_ends (d :: x)) by (intros x; cbn -[line_ends]; simpl; repeat case_match; try done; lia).
      rewrite <- !app_comm_cons, !Hs. rewrite <- app_comm_cons in E. by rewrite E.
    + rewrite <- app_comm_cons, !line_ends_cons by done. by rewrite E.
Qed.
Lemma line_ends_quote f t : line_ends ((f ≫= λ x, if x =? 34 then [34; 34] else if x =? 13 then [] else if x =? 10 then [13; 10] else [x]) ++ t) = esc (no_cr f) ++ line_ends t.
Proof.
  unfold esc, no_cr. induction f as [|c f IH]; [done|]. cbn [mbind list_bind] in *. rewrite <- app_assoc. destruct (Z.eqb_spec c 34) as [->|H1]; [|destruct (Z.eqb_spec c 13) as [->|H2]; [|destruct (Z.eqb_spec c 10) as [->|H3]]].
  - change ([34; 34] ++ ?x) with (34 :: 34 :: x). rewrite !line_ends_cons by done. rewrite IH. done.
  - exact IH.
  - cbn [app]. change (line_ends (13 :: 10 :: ?x)) with (line_ends (10 :: x)). rewrite line_ends_cons by done. rewrite IH. done.
  - cbn [app]. rewrite line_ends_cons by done. rewrite IH. simpl. rewrite (proj2 (Z.eqb_neq c 13)) by done. simpl. rewrite decide_False by done. done.
Qed.
Lemma csv_field_spec f : ∃ b, is_field (no_cr f) b ∧ (b = [] → f = []) ∧ ∀ t, line_ends (csv_field f ++ t) = b ++ line_ends t.
Proof.
  unfold csv_field. destruct (csv_needs_quotes f) eqn:Eq.
  - exists (quoted (no_cr f)). split_and!; [constructor|done|]. intros t. unfold csv_quote, quoted. cbn [app]. rewrite line_ends_cons by done. rewrite <- app_assoc, line_ends_quote. cbn [app]. rewrite line_ends_cons by done. f_equal. rewrite <- app_assoc. done.
  - assert (H : 44 ∉ f ∧ 34 ∉ f ∧ 10 ∉ f ∧ 13 ∉ f).
    { unfold csv_needs_quotes in Eq. destruct f as [|c f]; [by split_and!; intros ?%elem_of_nil|]. apply orb_false_iff in Eq as [Eq _]. apply orb_false_iff in Eq as [_ Eq].
      split_and!; intros Hin; apply not_true_iff_false in Eq; apply Eq, existsb_exists; (eexists; split; [by apply elem_of_list_In|done]). }
    destruct H as (H1 & H2 & H3 & H4). exists f. rewrite no_cr_id by done. split_and!; [by constructor|done|]. intros t. by apply line_ends_plain.
Qed.
Lemma csv_row_spec fs t : fs ≠ [] → fs ≠ [[]] → ∃ b, is_row (map no_cr fs) b ∧ b ≠ [] ∧ line_ends (csv_row fs ++ t) = b ++ 10 :: line_ends t.
Proof.
  intros Hn Hn'. unfold csv_row. assert (H : ∃ b, is_row (map no_cr fs) b ∧ (b = [] → fs = [[]]) ∧ ∀ t, line_ends (go_join [44] (csv_field <$> fs) ++ t) = b ++ line_ends t).
  { clear Hn'. induction fs as [|f fs IH]; [done|]. destruct (csv_field_spec f) as (b & H1 & H2 & H3). destruct fs as [|g fs].
    - exists b. split_and!; [by constructor|intros E; by rewrite (H2 E)|done].
    - destruct (IH ltac:(done)) as (b' & H4 & H5 & H6). exists (b ++ 44 :: b'). split_and!; [by constructor|by destruct b|]. intros t'.
      change (go_join [44] (csv_field <$> f :: g :: fs)) with (csv_field f ++ [44] ++ go_join [44] (csv_field <$> g :: fs)). rewrite <- !app_assoc, H3. f_equal. change ([44] ++ ?x) with (44 :: x). rewrite line_ends_cons by done. by rewrite H6. }
  destruct H as (b & H1 & H2 & H3). exists b. split_and!; [done|by intros ?%H2|]. rewrite <- app_assoc, H3. cbn [app]. change (line_ends (13 :: 10 :: ?x)) with (line_ends (10 :: x)). by rewrite line_ends_cons.
Qed.
(** rows that the writer can express: a row of one empty field is written as an empty line *)
Definition writable (r : list gostr) : Prop := r ≠ [] ∧ r ≠ [[]].
Lemma csv_rows_spec rs : Forall writable rs → is_rows (map (map no_cr) rs) (line_ends (rs ≫= csv_row)).
Proof.
  induction 1 as [|r rs [H1 H2] _ IH]; [constructor|]. cbn [mbind list_bind]. destruct (csv_row_spec r (rs ≫= csv_row) H1 H2) as (b & H3 & H4 & ->). by apply rows_more.
Qed.
Lemma row_last fs b : is_row fs b → last b ≠ Some 10.
Proof.
  assert (Hf : ∀ f b, is_field f b → last b ≠ Some 10).
  { intros ? ? [b' ? ? H|f]; [intros Hl%last_Some_elem_of; done|]. unfold quoted. rewrite app_comm_cons, last_snoc. done. }
  induction 1 as [f b' H|f b' fs' t H HR IH]; [by eapply Hf|]. rewrite last_app, last_cons. by destruct (last t).
Qed.
Lemma rows_app rs a rs' b : is_rows rs a → (a = [] ∨ last a = Some 10) → is_rows rs' b → is_rows (rs ++ rs') (a ++ b).
Proof.
  intros H Ha Hb. revert Ha. induction H as [|rs t H IH|r c H Hc|r c rs t H1 H2 H3 IH]; intros Ha; [done| | |].
  - simpl. constructor. apply IH. destruct Ha as [?|Ha]; [done|]. rewrite last_cons in Ha. destruct (last t) eqn:E; [by right; injection Ha as ->|by left; apply last_None].
  - exfalso. destruct Ha as [?|Ha]; [done|]. by apply row_last in H.
  - rewrite <- app_assoc. simpl. apply rows_more; [done..|]. apply IH. destruct Ha as [?%app_nil|Ha]; [by destruct_and?|]. rewrite last_app, last_cons in Ha. destruct (last t) eqn:E; [by right; injection Ha as ->|by left; apply last_None].
Qed.
Lemma line_ends_last a : last a = Some 10 → last (line_ends a) = Some 10.
Proof.
  induction a as [|c a IH]; [done|]. destruct a as [|d a]; [by intros [= ->]|]. intros H.
  assert (Hl : last (line_ends (d :: a)) = Some 10) by (apply IH; exact H).
  assert (E : line_ends (c :: d :: a) = line_ends (d :: a) ∨ line_ends (c :: d :: a) = c :: line_ends (d :: a)) by (simpl; repeat case_match; auto). destruct E as [->| ->]; [done|]. by rewrite last_cons, Hl.
Qed.
Lemma rows_unique rs rs' s : is_rows rs s → is_rows rs' s → rs = rs'.
Proof.
  intros H. revert rs'. induction H as [|rs t H IH|r b H Hb|r b rs t H1 H2 H3 IH]; intros rs' H'.
  - symmetry. by apply (rows_nil _ _ H').
  - apply IH. by apply rows_line.
  - destruct (rows_row _ _ H' Hb (row_head _ _ H)) as (r' & b' & t' & rs'' & -> & E & HR & Hb' & Hc).
    assert (Hst : stops t') by (destruct Hc as [[-> _]|(t'' & -> & _)]; [by left|right; eauto]). pose proof (auto_row _ _ [] _ HR Hst) as E2. rewrite <- E in E2. pose proof (auto_row _ _ [] [] H ltac:(by left)) as E1. rewrite app_nil_r, E2 in E1. simpl in E1. injection E1 as -> ->. by destruct Hc as [[_ ->]|(? & ? & _)].
  - destruct (rows_row _ _ H') as (r' & b' & t' & rs'' & -> & E & HR & Hb' & Hc); [by destruct b|destruct b; [done|by apply (row_head _ _ H1)]|].
    assert (Hst : stops t') by (destruct Hc as [[-> _]|(t'' & -> & _)]; [by left|right; eauto]). pose proof (auto_row _ _ [] _ HR Hst) as E2. rewrite <- E in E2. pose proof (auto_row _ _ [] (10 :: t) H1 ltac:(right; eauto)) as E1. rewrite E2 in E1. simpl in E1. injection E1 as -> ->. destruct Hc as [[? _]|(? & [= <-] & Hc)]; [done|]. f_equal. by apply IH.
Qed.

(** C79: rows added with csv.Writer below a table whose last line is ended are read back below it, without
    the carriage returns in their fields *)
Lemma csv_append old rs new : (old = [] ∨ last old = Some 10) → is_rows rs (line_ends old) → Forall writable new →
  is_rows (rs ++ map (map no_cr) new) (line_ends (old ++ (new ≫= csv_row))).
Proof.
  intros Ho Hr Hn. rewrite line_ends_app by (destruct Ho as [->| ->]; done). apply rows_app; [done| |by apply csv_rows_spec]. destruct Ho as [->|Ho]; [by left|right]. by apply line_ends_last.
Qed.
Theorem csv_round_trip rs : Forall writable rs → rectangular rs → read_csv (Some (rs ≫= csv_row)) = Ret (Some (map (map no_cr) rs)).
Proof.
  intros Hw Hr. apply read_csv_exact. split; [by apply csv_rows_spec|]. intros r r'. rewrite !elem_of_list_In, !in_map_iff. intros (a & <- & Ha) (b & <- & Hb). rewrite !map_length. apply Hr; by apply elem_of_list_In.
Qed.
Theorem csv_round_trip_exact rs : Forall writable rs → rectangular rs → (∀ r f, r ∈ rs → f ∈ r → 13 ∉ f) → read_csv (Some (rs ≫= csv_row)) = Ret (Some rs).
Proof.
  intros Hw Hr Hc. rewrite csv_round_trip by done. f_equal. f_equal. clear Hw Hr. induction rs as [|r rs IH]; [done|]. simpl. f_equal; [|apply IH; intros r' f Hr' Hf; apply (Hc r' f); [by right|done]].
  assert (Hc' : ∀ f, f ∈ r → 13 ∉ f) by (intros f Hf; apply (Hc r f); [by left|done]). clear Hc IH. induction r as [|f r IH]; [done|]. simpl. rewrite no_cr_id by (apply Hc'; left). f_equal. apply IH. intros g Hg. apply Hc'. by right.
Qed.
(** the two conditions are needed: a row of one empty field is lost, and carriage returns are *)
Theorem csv_round_trip_refuted : read_csv (Some ([[str "a"]; [[]]; [str "b"]] ≫= csv_row)) = Ret (Some [[str "a"]; [str "b"]]) ∧ read_csv (Some (csv_row [[97; 13; 98]; [13; 10]])) = Ret (Some [[[97; 98]; [10]]]).
Proof. by vm_compute. Qed.

(** C80 *)
Definition csv_fixed : list gostr := [str "1"; str "2"; str "3"; str "4"; str "5,6"].
(** what WriteCsv was asked to write is never written; what was read before may be lost altogether, or its last row changed *)
Theorem csv_write_read_refuted :
  (∃ content, read_csv (Some (write_csv [] content)) = Ret (Some [csv_fixed]) ∧ content ≠ csv_fixed) ∧
  (∃ old content rs, read_csv (Some old) = Ret (Some rs) ∧ rs ≠ [] ∧ read_csv (Some (write_csv old content)) = Ret None) ∧
  (∃ old content, read_csv (Some old) = Ret (Some [[str "a"; str "b"]]) ∧ read_csv (Some (write_csv old content)) = Ret (Some [[str "a"; str "b1"; str "2"; str "3"; str "4"; str "5,6"]])).
Proof.
  split_and!.
  - exists [str "x"; str "y"]. split; [by vm_compute|done].
  - exists (str "a,b" ++ [10]), [str "c"; str "d"], [[str "a"; str "b"]]. split_and!; [by vm_compute|done|by vm_compute].
  - exists (str "a,b"), [str "c"; str "d"]. split; by vm_compute.
Qed.
(** below a table whose last line is ended: if it has five columns the fixed row is added, otherwise nothing can be read any more *)
Theorem csv_write_read_partial old content rs : (old = [] ∨ last old = Some 10) → read_csv (Some old) = Ret (Some rs) →
  read_csv (Some (write_csv old content)) = Ret (if decide (Forall (λ r, length r = 5%nat) rs) then Some (rs ++ [csv_fixed]) else None).
Proof.
  intros Ho [Hr Hrect]%read_csv_exact. pose proof (csv_append old rs [csv_fixed] Ho Hr ltac:(by repeat constructor)) as H. cbn [mbind list_bind] in H. rewrite app_nil_r in H.
  change (map (map no_cr) [csv_fixed]) with [csv_fixed] in H. change (old ++ csv_row csv_fixed) with (write_csv old content) in H. destruct (decide _) as [Hf|Hf].
  - apply read_csv_exact. split; [done|]. assert (H5 : ∀ r, r ∈ rs ++ [csv_fixed] → length r = 5%nat) by (intros r [Hx|Hx]%elem_of_app; [by eapply Forall_forall in Hf|by apply elem_of_list_singleton in Hx as ->]). intros r r' H1 H2. by rewrite (H5 r), (H5 r').
  - apply read_csv_nil. right. eexists. split; [done|]. intros rs' [H1 H2]. rewrite (rows_unique _ _ _ H1 H) in H2. apply Hf, Forall_forall. intros r Hin. apply (H2 r csv_fixed); apply elem_of_app; [by left|right; left].
Qed.
(** n calls on an empty file *)
Theorem csv_writes_partial contents : read_csv (Some (foldl write_csv [] contents)) = Ret (Some (replicate (length contents) csv_fixed)).
Proof.
  assert (H : ∀ l old k, (old = [] ∨ last old = Some 10) → read_csv (Some old) = Ret (Some (replicate k csv_fixed)) → read_csv (Some (foldl write_csv old l)) = Ret (Some (replicate (k + length l) csv_fixed))).
  { intros l. induction l as [|c l IH]; intros old k Ho Hk; [simpl length; by rewrite Nat.add_0_r|]. cbn [foldl length]. rewrite <- Nat.add_succ_comm. apply IH.
    - right. unfold write_csv, csv_row. by rewrite !app_assoc, last_app.
    - rewrite (csv_write_read_partial _ _ _ Ho Hk), decide_True by (by apply Forall_replicate). by rewrite <- replicate_cons_app. }
  apply (H contents [] 0%nat); [by left|done].
Qed.

(** concrete cases *)
Example csv_ex1 : read_csv (Some (str "a,""b """"c"""", d""" ++ [13; 10; 10] ++ str "e,f" ++ [13])) = Ret (Some [[str "a"; str "b ""c"", d"]; [str "e"; str "f"]]).
Proof. by vm_compute. Qed.
Example csv_ex2 : read_csv (Some (str "a,b" ++ [10] ++ str "c")) = Ret None ∧ read_csv (Some (str "a,b""c")) = Ret None ∧ read_csv (Some (str "a,""b""c")) = Ret None ∧ read_csv (Some (str "a,""b" ++ [10])) = Ret None ∧ read_csv (Some []) = Ret (Some []) ∧ read_csv None = Ret None.
Proof. by vm_compute. Qed.
Example csv_ex3 : denotes [[str "a"; []]; [str "x" ++ [10] ++ str "y"; str """"]] (str "a," ++ [10] ++ str """x" ++ [13; 10] ++ str "y"",""""""""").
Proof. apply read_csv_exact. by vm_compute. Qed.
Example csv_ex4 : read_csv (Some ([[str "a,b"; str "c""d"]; [[]; [10]]] ≫= csv_row)) = Ret (Some [[str "a,b"; str "c""d"]; [[]; [10]]]).
Proof. apply csv_round_trip_exact; [by repeat constructor| |].
  - intros r r'. rewrite !elem_of_cons, !elem_of_nil. naive_solver.
  - intros r f Hr. rewrite !elem_of_cons, elem_of_nil in Hr. destruct Hr as [->|[->|[]]]; rewrite !elem_of_cons, elem_of_nil; intros [->|[->|[]]]; apply (bool_decide_unpack _); by vm_compute.
Qed.
Example csv_ex5 : read_csv (Some (write_csv (write_csv (str "a,b,c,d,e" ++ [10]) []) [])) = Ret (Some [[str "a"; str "b"; str "c"; str "d"; str "e"]; csv_fixed; csv_fixed]).
Proof. by vm_compute. Qed.
Print Assumptions read_csv_exact.
Print Assumptions read_csv_nil.
Print Assumptions csv_round_trip.
Print Assumptions csv_round_trip_exact.
Print Assumptions csv_round_trip_refuted.
Print Assumptions csv_write_read_refuted.
Print Assumptions csv_write_read_partial.
Print Assumptions csv_writes_partial.
