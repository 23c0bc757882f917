(** * Running a wheel on a list of events *)
From Verif Require Import GoBase HeapModel WheelModel WheelSpec.
Local Open Scope Z_scope.

Global Instance prompt_dec B s v : Decision (prompt B s v).
Proof.
  destruct v; simpl; try apply _. destruct (decide (chan s = [])) as [Hc|Hc]; [|right; tauto].
  destruct (run s) eqn:E; [left; done|right; intros [_ ?]; done..].
Defined.
Fixpoint exec (s : sys) (l : list event) : option sys :=
  match l with [] => Some s | v :: l => match next 64 s v with Some s' => exec s' l | None => None end end.
Fixpoint exec_prompt (B : Z) (s : sys) (l : list event) : option sys :=
  match l with [] => Some s | v :: l => if decide (prompt B s v) then match next 64 s v with Some s' => exec_prompt B s' l | None => None end else None end.
Definition demo (tick size now : Z) (l : list event) : option sys := match new_wheel tick size now with Ret w => exec (init w now) l | _ => None end.
Definition demo_prompt (B tick size now : Z) (l : list event) : option sys := match new_wheel tick size now with Ret w => exec_prompt B (init w now) l | _ => None end.

Lemma steps_cons (ok : sys → event → Prop) n s v s1 l s' : ok s v → next n s v = Some s1 → steps ok s1 l s' → steps ok s (v :: l) s'.
Proof.
  intros Hv Hn H. induction H as [s1|s1 l s2 m u s3 H IH Hu Hm].
  - by apply (steps_snoc ok s [] s n v); [constructor|..].
  - rewrite app_comm_cons. eapply steps_snoc; [by apply IH|done|done].
Qed.
Lemma exec_steps l : ∀ s s', exec s l = Some s' → steps anyway s l s'.
Proof. induction l as [|v l IH]; intros s s' E; simpl in E; [injection E as <-; constructor|]. destruct (next 64 s v) eqn:En; [|done]. eapply steps_cons; [done|done|by apply IH]. Qed.
Lemma exec_prompt_steps B l : ∀ s s', exec_prompt B s l = Some s' → steps (prompt B) s l s'.
Proof. induction l as [|v l IH]; intros s s' E; simpl in E; [injection E as <-; constructor|]. destruct (decide _); [|done]. destruct (next 64 s v) eqn:En; [|done]. eapply steps_cons; [done|done|by apply IH]. Qed.
Lemma demo_run tick size now l s : demo tick size now l = Some s → wheel_run anyway tick size now l s.
Proof. unfold demo. destruct (new_wheel tick size now) as [w| |] eqn:E; [|done..]. intros H. exists w. split; [done|]. by apply exec_steps. Qed.
Lemma demo_prompt_run B tick size now l s : demo_prompt B tick size now l = Some s → wheel_run (prompt B) tick size now l s.
Proof. unfold demo_prompt. destruct (new_wheel tick size now) as [w| |] eqn:E; [|done..]. intros H. exists w. split; [done|]. by apply exec_prompt_steps. Qed.


(** what one step can change in the records *)
Lemma add_or_run_records n s t s' : add_or_run n s t = Some s' →
  entered s' = entered s ∧ started s `prefix_of` started s' ∧ dropped s' = dropped s ∧ stopped s' = stopped s ∧ periodic s' = periodic s ∧ clock s' = clock s ∧ run s' = run s ∧ chan s' = chan s.
Proof.
  unfold add_or_run. destruct (add _ _ _ _ _) as [[[] w]| |]; try done; intros [= <-]; simpl; split_and!; try done. by exists [Start (tid t) (texp t) (clock s)].
Qed.
Lemma next_records n s v s' : next n s v = Some s' →
  entered s `prefix_of` entered s' ∧ started s `prefix_of` started s' ∧ dropped s `prefix_of` dropped s' ∧ stopped s `prefix_of` stopped s' ∧
  (∀ t, t ∈ periodic s' → t ∈ periodic s ∨ used s t = false) ∧ clock s ≤ clock s' ∧ (internal v → entered s' = entered s ∧ clock s' = clock s ∧ periodic s' = periodic s ∧ stopped s' = stopped s ∧ dropped s' = dropped s).
Proof.
  intros E. assert (HP : ∀ X (l : list X), l `prefix_of` l) by done. assert (HA : ∀ X (l k : list X), l `prefix_of` l ++ k) by (intros X l k; by exists k).
  destruct v as [c|t e|t e|t e|t b| | | | | | | | |]; simpl in E.
  - destruct (decide _); [|done]. injection E as <-. simpl. split_and!; auto; done.
  - destruct (used s t) eqn:Eu; [done|]. destruct (add _ _ _ _ _) as [[[] w]| |]; try done; injection E as <-; simpl; split_and!; auto; done.
  - destruct (used s t) eqn:Eu; [done|]. apply add_or_run_records in E as (E1 & E2 & E3 & E4 & E5 & E6 & _). simpl in *. rewrite E1, E3, E4, E5, E6. split_and!; auto; try done.
    intros u [Hu| ->%elem_of_list_singleton]%elem_of_app; auto.
  - destruct (decide _); [|done]. apply add_or_run_records in E as (E1 & E2 & E3 & E4 & E5 & E6 & _). simpl in *. rewrite E1, E3, E4, E5, E6. split_and!; auto; done.
  - destruct (decide _); [done|]. destruct (stop _ _) as [u w]. destruct (decide _) as [<-|]; [|done]. injection E as <-. destruct u; simpl; split_and!; auto; done.
  - destruct (closed s); [done|]. destruct (wheap (wh s)); [done|]. destruct (_ <? _); [|done]. destruct (gpop _ _) as [[b hp]| |]; [|done..]. injection E as <-. simpl. split_and!; auto; done.
  - destruct (run s); try done. destruct (chan s); [done|]. destruct (advance _ _); try done. injection E as <-. simpl. split_and!; auto; done.
  - destruct (run s) as [|b [|t rest]| | |]; try done. injection E as <-. simpl. split_and!; auto; done.
  - destruct (run s); try done. destruct (add_or_run n s t) as [s1|] eqn:Ea; [|done]. injection E as <-. apply add_or_run_records in Ea as (E1 & E2 & E3 & E4 & E5 & E6 & _). simpl in *. rewrite E1, E3, E4, E5, E6. split_and!; auto; done.
  - destruct (run s) as [|b [|]| | |]; try done. injection E as <-. simpl. split_and!; auto; done.
  - injection E as <-. simpl. split_and!; auto; done.
  - destruct (cancelled s); [|done]. injection E as <-. simpl. split_and!; auto; done.
  - destruct (run s); try done. destruct (cancelled s); [|done]. injection E as <-. simpl. split_and!; auto; done.
  - destruct (run s); try done. destruct (chan s); [|done]. destruct (closed s); [|done]. injection E as <-. simpl. split_and!; auto; done.
Qed.
Lemma steps_inv (ok : sys → event → Prop) (P : sys → Prop) s0 l s :
  (∀ n s v s', P s → ok s v → next n s v = Some s' → P s') → P s0 → steps ok s0 l s → P s.
Proof. intros HP H0 H. induction H as [|s0 l s n v s' H IH Hv Hn]; [done|]. exact (HP n s v s' (IH H0) Hv Hn). Qed.
Lemma steps_mono (ok ok' : sys → event → Prop) s0 l s : (∀ s v, ok s v → ok' s v) → steps ok s0 l s → steps ok' s0 l s.
Proof. intros HO H. induction H as [|s0 l s n v s' H IH Hv Hn]; [constructor|]. eapply steps_snoc; eauto. Qed.
Lemma steps_app (ok : sys → event → Prop) s0 l s l' s' : steps ok s0 l s → steps ok s l' s' → steps ok s0 (l ++ l') s'.
Proof. intros H H'. induction H' as [|s l' s1 n v s2 H' IH Hv Hn]; [by rewrite app_nil_r|]. rewrite app_assoc. eapply steps_snoc; eauto. Qed.
