(** * Timing wheel: consequences of the invariants *)
From stdpp Require Import list_numbers.
From Verif Require Import GoBase HeapModel HeapSpec HeapProofs HeapMethods WheelModel WheelSpec WheelProofs WheelLevels WheelTime WheelLive WheelExec.
Local Open Scope Z_scope.

Lemma new_wheel_fresh tick size now w : new_wheel tick size now = Ret w → fresh_sys w.
Proof. unfold new_wheel. destruct (new_level tick size now); [|done..]. intros [= <-]. by split. Qed.
Lemma run_acct ok tick size now l s : wheel_run ok tick size now l s → acct s.
Proof. intros (w & E & H). eapply steps_inv; [|apply acct_init; by eapply new_wheel_fresh|exact H]. intros n s1 v s2 H1 _ H2. by eapply acct_step. Qed.
Lemma acct_steps ok s0 l s : acct s0 → steps ok s0 l s → acct s.
Proof. intros H0 H. eapply steps_inv; [|exact H0|exact H]. intros n s1 v s2 H1 _ H2. by eapply acct_step. Qed.
Lemma times_prefix t l l' : l `prefix_of` l' → (times t l ≤ times t l')%nat.
Proof. intros [k ->]. rewrite times_app. lia. Qed.
Lemma pending_pend s t : acct s → pending s t ↔ (0 < pend s t)%nat.
Proof. intros HA. unfold pending. rewrite (a_count s HA t). lia. Qed.
Lemma pend_timer s t : acct s → (0 < pend s t)%nat ↔ ∃ x, pendx s x ∧ tid x = t.
Proof.
  intros HA. unfold pend, inb. split.
  - destruct (wtb (wh s) t) as [r|] eqn:Er.
    + intros _. apply (a_live s HA) in Er. apply elem_of_list_fmap in Er as (x & -> & Hx). exists x. split; [left; by exists r|done].
    + simpl. intros H. apply times_pos in H. apply elem_of_list_fmap in H as (x & -> & Hx). exists x. split; [by right|done].
  - intros (x & [[r Hx]|Hx] & <-).
    + rewrite (a_in s HA r x Hx). lia.
    + assert (tid x ∈ tid <$> moved s) as H by (apply elem_of_list_fmap; by exists x). apply times_pos in H. lia.
Qed.
Lemma used_enters s t : used s t = true ↔ (0 < enters s t)%nat.
Proof. unfold used, enters. rewrite bool_decide_eq_true. apply times_pos. Qed.
Lemma entered_once (l : list (nat * Z * Z)) t e e' n n' : (times t l.*1.*1 ≤ 1)%nat → (t, e, n) ∈ l → (t, e', n') ∈ l → e = e'.
Proof.
  induction l as [|x l IH]; intros Hl H H'; [by apply elem_of_nil in H|]. cbn [fmap list_fmap] in Hl. change (x.1.1 :: _) with ([x.1.1] ++ l.*1.*1) in Hl. rewrite times_app, times_one in Hl.
  assert (Hin : ∀ e n, (t, e, n) ∈ l → (0 < times t l.*1.*1)%nat). { intros e1 n1 H1. apply times_pos. apply elem_of_list_fmap. exists (t, e1). split; [done|]. apply elem_of_list_fmap. by exists (t, e1, n1). }
  apply elem_of_cons in H as [<-|H]; apply elem_of_cons in H' as [E'|H'].
  - by injection E' as <- <-.
  - simpl in Hl. rewrite decide_True in Hl by done. specialize (Hin _ _ H'). lia.
  - subst x. simpl in Hl. rewrite decide_True in Hl by done. specialize (Hin _ _ H). lia.
  - apply IH; [|done|done]. destruct (decide _); lia.
Qed.
Lemma used_next n s v s' t : next n s v = Some s' → used s t = true → used s' t = true ∧ (t ∉ periodic s → t ∉ periodic s').
Proof.
  intros E Hu. apply next_records in E as (E1 & _ & _ & _ & E5 & _). split.
  - apply used_enters. apply used_enters in Hu. unfold enters in *. destruct E1 as [k ->]. rewrite !fmap_app, times_app. lia.
  - intros Hp Hp'. apply E5 in Hp' as [?|?]; [done|congruence].
Qed.
(** an AfterFunc timer that was dropped or stopped stays so *)
Record ended (t : nat) (s : sys) : Prop := { g_acct : acct s; g_used : used s t = true; g_per : t ∉ periodic s; g_end : (1 ≤ drops s t + stops s t)%nat }.
Lemma ended_next n s v s' t : ended t s → next n s v = Some s' → ended t s'.
Proof.
  intros [H1 H2 H3 H4] E. destruct (used_next n s v s' t E H2) as [H5 H6]. split; [by eapply acct_step|done|auto|].
  apply next_records in E as (_ & _ & E3 & E4 & _). unfold drops, stops in *. apply (times_prefix t) in E3, E4. lia.
Qed.
Lemma ended_counts t s : ended t s → starts s t = 0%nat ∧ (drops s t + stops s t)%nat = 1%nat ∧ ¬ pending s t.
Proof. intros [H1 H2 H3 H4]. destruct (a_once s H1 t H3) as [H5 _]. pose proof (a_count s H1 t). rewrite pending_pend by done. lia. Qed.
Lemma ended_steps ok t s0 l s : ended t s0 → steps ok s0 l s → ended t s.
Proof. intros H0 H. eapply steps_inv; [|exact H0|exact H]. intros n s1 v s2 H1 _ H2. by eapply ended_next. Qed.

Lemma run_idle_next n s v s' : closed s = false ∧ run s ≠ RCrashed → next n s v = Some s' → closed s' = false → run s' ≠ RCrashed.
Proof.
  intros [Hc Hr] E Hc'. destruct v as [c|t e|t e|t e|t b| | | | | | | | |]; simpl in E.
  - destruct (decide _); [|done]. by injection E as <-.
  - destruct (used s t) eqn:Eu; [done|]. destruct (add _ _ _ _ _) as [[[] w]| |]; try done; by injection E as <-.
  - destruct (used s t) eqn:Eu; [done|]. apply add_or_run_records in E as (_ & _ & _ & _ & _ & _ & -> & _). done.
  - destruct (decide _); [|done]. apply add_or_run_records in E as (_ & _ & _ & _ & _ & _ & -> & _). done.
  - destruct (decide _); [done|]. destruct (stop _ _) as [u w]. destruct (decide _) as [<-|]; [|done]. injection E as <-. by destruct u.
  - destruct (closed s); [done|]. destruct (wheap (wh s)); [done|]. destruct (_ <? _); [|done]. destruct (gpop _ _) as [[b hp]| |]; [|done..]. by injection E as <-.
  - destruct (run s); try done. destruct (chan s); [done|]. destruct (advance _ _); try done. by injection E as <-.
  - destruct (run s) as [|b [|t rest]| | |]; try done. by injection E as <-.
  - destruct (run s); try done. destruct (add_or_run n s t) as [s1|] eqn:Ea; [|done]. by injection E as <-.
  - destruct (run s) as [|b [|]| | |]; try done. by injection E as <-.
  - by injection E as <-.
  - destruct (cancelled s); [|done]. by injection E as <-.
  - destruct (run s); try done. destruct (cancelled s); [|done]. by injection E as <-.
  - destruct (run s); try done. destruct (chan s); [|done]. rewrite Hc in E. done.
Qed.
Lemma add_or_run_flags n s t s' : add_or_run n s t = Some s' → closed s' = closed s ∧ cancelled s' = cancelled s.
Proof. unfold add_or_run. destruct (add _ _ _ _ _) as [[[] w]| |]; try done; by intros [= <-]. Qed.
Lemma flags_next n s v s' : next n s v = Some s' → (closed s' = closed s ∨ cancelled s = true) ∧ (closed s = true → closed s' = true) ∧ (cancelled s = true → cancelled s' = true) ∧ (run s' = RExited → run s = RExited ∨ cancelled s = true).
Proof.
  intros E. destruct v as [c|t e|t e|t e|t b| | | | | | | | |]; simpl in E.
  - destruct (decide _); [|done]. injection E as <-. simpl. split_and!; auto; done.
  - destruct (used s t) eqn:Eu; [done|]. destruct (add _ _ _ _ _) as [[[] w]| |]; try done; injection E as <-; simpl; split_and!; auto; done.
  - destruct (used s t) eqn:Eu; [done|]. pose proof E as E'. apply add_or_run_records in E as (_ & _ & _ & _ & _ & _ & -> & _). apply add_or_run_flags in E' as [-> ->]. simpl. split_and!; auto; done.
  - destruct (decide _); [|done]. pose proof E as E'. apply add_or_run_records in E as (_ & _ & _ & _ & _ & _ & -> & _). apply add_or_run_flags in E' as [-> ->]. simpl. split_and!; auto; done.
  - destruct (decide _); [done|]. destruct (stop _ _) as [u w]. destruct (decide _) as [<-|]; [|done]. injection E as <-. destruct u; simpl; split_and!; auto; done.
  - destruct (closed s) eqn:Ec; [done|]. destruct (wheap (wh s)); [done|]. destruct (_ <? _); [|done]. destruct (gpop _ _) as [[b hp]| |]; [|done..]. injection E as <-. simpl. split_and!; auto; done.
  - destruct (run s); try done. destruct (chan s); [done|]. destruct (advance _ _); try done. injection E as <-. simpl. split_and!; auto; done.
  - destruct (run s) as [|b [|t rest]| | |]; try done. injection E as <-. simpl. split_and!; auto; done.
  - destruct (run s); try done. destruct (add_or_run n s t) as [s1|] eqn:Ea; [|done]. injection E as <-. apply add_or_run_flags in Ea as [E1 E2]. simpl. rewrite E1, E2. split_and!; auto; done.
  - destruct (run s) as [|b [|]| | |]; try done. injection E as <-. simpl. split_and!; auto; done.
  - injection E as <-. simpl. split_and!; auto; done.
  - destruct (cancelled s) eqn:Ec; [|done]. injection E as <-. simpl. split_and!; auto; done.
  - destruct (run s); try done. destruct (cancelled s) eqn:Ec; [|done]. injection E as <-. simpl. split_and!; auto; done.
  - destruct (run s); try done. destruct (chan s); [|done]. destruct (closed s) eqn:Ec; [|done]. injection E as <-. simpl. split_and!; auto; done.
Qed.

(** a task falls due for rescheduling only by being started *)
Lemma due_add_or_run n s t s' u : add_or_run n s t = Some s' → (times u (due s') + starts s u ≤ times u (due s) + starts s' u)%nat.
Proof.
  unfold add_or_run. destruct (add _ _ _ _ _) as [[[] w]| |]; try done; intros [= <-]; [done|]. unfold starts. simpl. rewrite fmap_app, times_app. destruct (decide _); [|lia]. rewrite times_app. simpl. lia.
Qed.
Lemma due_next n s v s' u : next n s v = Some s' → (times u (due s') + starts s u ≤ times u (due s) + starts s' u)%nat.
Proof.
  intros E. destruct v as [c|t e|t e|t e|t b| | | | | | | | |]; simpl in E.
  - destruct (decide _); [|done]. by injection E as <-.
  - destruct (used s t) eqn:Eu; [done|]. destruct (add _ _ _ _ _) as [[[] w]| |]; try done; by injection E as <-.
  - destruct (used s t) eqn:Eu; [done|]. by apply (due_add_or_run _ _ _ _ u) in E.
  - destruct (decide _); [|done]. apply (due_add_or_run _ _ _ _ u) in E. simpl in E. rewrite times_filter in E. change (starts (set_entered _ _) u) with (starts s u) in E. destruct (decide _); lia.
  - destruct (decide _); [done|]. destruct (stop _ _) as [b' w]. destruct (decide _) as [<-|]; [|done]. injection E as <-. by destruct b'.
  - destruct (closed s); [done|]. destruct (wheap (wh s)); [done|]. destruct (_ <? _); [|done]. destruct (gpop _ _) as [[b hp]| |]; [|done..]. by injection E as <-.
  - destruct (run s); try done. destruct (chan s); [done|]. destruct (advance _ _); try done. by injection E as <-.
  - destruct (run s) as [|b [|t rest]| | |]; try done. by injection E as <-.
  - destruct (run s); try done. destruct (add_or_run n s t) as [s1|] eqn:Ea; [|done]. injection E as <-. by apply (due_add_or_run _ _ _ _ u) in Ea.
  - destruct (run s) as [|b [|]| | |]; try done. by injection E as <-.
  - by injection E as <-.
  - destruct (cancelled s); [|done]. by injection E as <-.
  - destruct (run s); try done. destruct (cancelled s); [|done]. by injection E as <-.
  - destruct (run s); try done. destruct (chan s); [|done]. destruct (closed s); [|done]. by injection E as <-.
Qed.

Section Facts.
  Context (tick sz B : Z) (HS : sane tick sz B).
  Let Htick : 0 < tick := proj1 HS.
  Let Hsz : 2 ≤ sz := proj1 (proj2 HS).
  Let Hint : tick * sz ≤ 2 ^ 62 := proj1 (proj2 (proj2 HS)).
  Let HB : B * sz ≤ 2 ^ 62 := proj2 (proj2 (proj2 HS)).
  Notation bx s r := (bexp (wbk (wh s) r)).
  Notation cu s := (cur (wh s)).

  Lemma run_tm now l s : 0 ≤ now < B → wheel_run (prompt B) tick sz now l s → tm tick sz B s.
  Proof.
    intros Hn (w & E & H). assert (HB0 : 0 < B) by lia. destruct (tm_init tick sz B Htick Hsz Hint HB HB0 now Hn) as (w' & E' & _ & H'). rewrite E in E'. injection E' as <-.
    exact (tm_steps tick sz B Htick Hsz Hint HB HB0 _ _ _ H' H).
  Qed.
  Lemma run_bd now l s : 0 ≤ now < B → wheel_run (bounded B) tick sz now l s → bd tick sz B s.
  Proof.
    intros Hn (w & E & H). assert (HB0 : 0 < B) by lia. exact (bd_steps tick sz B Htick Hsz Hint HB HB0 _ _ _ (bd_init tick sz B Htick Hsz Hint HB HB0 now w Hn E) H).
  Qed.
  (** the wheel is quiet or can move *)
  Lemma quiet_or s : 0 < B → tm tick sz B s → quiet B s ∧ locked s = None ∨ ∃ v s', alone B s v ∧ next 64 s v = Some s'.
  Proof.
    intros HB0 HM. pose proof (m_lv _ _ _ s HM) as HL. destruct (run s) as [|b [|t rest]|b t rest| |] eqn:Er.
    - destruct (chan s) as [|b q] eqn:Ec.
      + destruct (next 64 s EvTake) as [s'|] eqn:En; [right; exists EvTake, s'; done|]. left. split; [|unfold locked; by rewrite Er]. intros n v s' Hi Hp E. destruct v; try done; [change (next 64 s EvTake = Some s') in E; congruence|simpl in E; rewrite ?Er, ?Ec in E; done..].
      + right. assert (HbQ : b ∈ Q s) by (unfold Q; rewrite Ec; apply elem_of_app; right; by left). destruct (bx_tick tick sz B Htick Hsz Hint HB HB0 s b HM HbQ) as (HE & _).
        destruct (advance_spec tick sz B Htick Hsz Hint HB HB0 (wh s) (bx s b) HL HE) as (ls & E & _). exists EvRecv. eexists. split; [done|]. simpl. by rewrite Er, Ec, E.
    - right. exists EvEnd. eexists. split; [done|]. simpl. by rewrite Er.
    - right. exists EvMove. eexists. split; [done|]. simpl. by rewrite Er.
    - right. assert (Hpt : pendx s t) by (right; unfold moved; rewrite Er; by left). pose proof (m_cur _ _ _ s HM t Hpt).
      destruct (add_total tick sz B Htick Hsz Hint HB HB0 (locked s) 64 (wh s) 0 t HL (lv_some _ _ _ _ HL) ltac:(lia) ltac:(lia)) as [(u & w' & E)|Hk].
      + exists EvPut. destruct u; eexists; (split; [done|]); simpl; rewrite Er; unfold add_or_run; by rewrite E.
      + exfalso. exact (put_free tick sz B Htick Hsz Hint HB HB0 s b t rest HM Er Hk).
    - destruct (next 64 s EvTake) as [s'|] eqn:En.
      + left. split; [|unfold locked; by rewrite Er]. intros n v s1 Hi Hp E. destruct v; try done; simpl in E, Hp; rewrite ?Er in *; try done. by destruct Hp.
      + left. split; [|unfold locked; by rewrite Er]. intros n v s1 Hi Hp E. destruct v; try done; simpl in E, Hp; rewrite ?Er in *; try done. by destruct Hp.
    - left. split; [|unfold locked; by rewrite Er]. intros n v s1 Hi Hp E. destruct v; try done; simpl in E, Hp; rewrite ?Er in *; try done. by destruct Hp.
  Qed.
  Lemma to_quiet s : 0 < B → tm tick sz B s → ∃ l s', steps (alone B) s l s' ∧ quiet B s' ∧ locked s' = None ∧ tm tick sz B s'.
  Proof.
    intros HB0. remember (todo s) as k eqn:Ek. revert s Ek. induction (lt_wf k) as [k _ IH]. intros s -> HM. destruct (quiet_or s HB0 HM) as [[HQ Hl]|(v & s1 & Hv & Hn)].
    - exists [], s. split_and!; [constructor|done..].
    - destruct (IH (todo s1)) with (s := s1) as (l & s' & H1 & H2 & H3 & H4); [exact (todo_step tick sz B Htick Hsz Hint HB HB0 64 s v s1 HM Hv Hn)|done|exact (tm_step tick sz B Htick Hsz Hint HB HB0 64 s v s1 HM (proj2 Hv) Hn)|].
      exists (v :: l), s'. split_and!; [by eapply steps_cons|done..].
  Qed.
  Lemma alone_records s l s' : steps (alone B) s l s' → entered s' = entered s ∧ clock s' = clock s ∧ periodic s' = periodic s ∧ stopped s' = stopped s ∧ dropped s' = dropped s.
  Proof.
    intros H. induction H as [|s0 l s n v s' H IH Hv Hn]; [done|]. destruct IH as (I1 & I2 & I3 & I4 & I5). apply next_records in Hn as (_ & _ & _ & _ & _ & _ & HI). destruct (HI (proj1 Hv)) as (J1 & J2 & J3 & J4 & J5).
    rewrite J1, J2, J3, J4, J5. done.
  Qed.
  (** the wheel's current time only grows *)
  Lemma cur_next n s v s' : 0 < B → tm tick sz B s → prompt B s v → next n s v = Some s' → cu s ≤ cu s'.
  Proof.
    intros HB0 HM Hok E. pose proof (m_lv _ _ _ s HM) as HL. pose proof (m_clock _ _ _ s HM) as Hck.
    assert (HA : ∀ s2 t s', wh s2 = wh s → texp t < B → add_or_run n s2 t = Some s' → cu s' = cu s).
    { intros s2 t s3 Ew Ht Ea. unfold add_or_run in Ea. rewrite Ew in Ea. destruct (add _ _ _ _ _) as [[u w]| |] eqn:Ea1; [|done..]. 
      destruct (add_spec tick sz B Htick Hsz Hint HB HB0 n _ (wh s) 0 t u w HL (lv_some _ _ _ _ HL) Ht Ea1) as (_ & R2 & _). destruct u; by injection Ea as <-. }
    destruct v as [c|t e|t e|t e|t b| | | | | | | | |]; simpl in E, Hok.
    - destruct (decide _); [|done]. by injection E as <-.
    - destruct (used s t); [done|]. destruct (add _ _ _ _ _) as [[u w]| |] eqn:Ea; [|done..].
      destruct (add_spec tick sz B Htick Hsz Hint HB HB0 n _ (wh s) 0 (Timer t e) u w HL (lv_some _ _ _ _ HL) ltac:(simpl; lia) Ea) as (_ & R2 & _). destruct u; injection E as <-; simpl; lia.
    - destruct (used s t); [done|]. apply HA in E; [lia|done|simpl; lia].
    - destruct (decide _); [|done]. apply HA in E; [lia|done|simpl; lia].
    - destruct (decide _); [done|]. unfold stop in E. destruct (wtb (wh s) t) as [r|]; (destruct (decide _) as [<-|]; [|done]); by injection E as <-.
    - destruct (closed s); [done|]. destruct (wheap (wh s)); [done|]. destruct (_ <? _); [|done]. destruct (gpop _ _) as [[b hp]| |]; [|done..]. by injection E as <-.
    - destruct (run s); try done. destruct (chan s) as [|b q] eqn:Ec; [done|]. destruct (advance _ _) as [ls| |] eqn:Ea; try done. injection E as <-.
      assert (HbQ : b ∈ Q s) by (unfold Q; rewrite Ec; apply elem_of_app; right; by left). destruct (bx_tick tick sz B Htick Hsz Hint HB HB0 s b HM HbQ) as (HE & HE2 & _).
      destruct (advance_spec tick sz B Htick Hsz Hint HB HB0 (wh s) (bx s b) HL HE) as (ls' & E' & _ & _ & Hc). rewrite Ea in E'. injection E' as <-. simpl in *. rewrite Hc. destruct (Z.leb_spec (cu s + tick) (bx s b)); lia.
    - destruct (run s) as [|b [|t rest]| | |]; try done. injection E as <-. simpl. by destruct (decide _).
    - destruct (run s) as [| |b t rest| |] eqn:Er; try done. destruct (add_or_run n s t) as [s1|] eqn:Ea; [|done]. injection E as <-. apply HA in Ea; [simpl; lia|done|].
      apply (m_cur _ _ _ s HM). right. unfold moved. rewrite Er. by left.
    - destruct (run s) as [|b [|]| | |]; try done. by injection E as <-.
    - by injection E as <-.
    - destruct (cancelled s); [|done]. by injection E as <-.
    - destruct (run s); try done. destruct (cancelled s); [|done]. by injection E as <-.
    - destruct (run s); try done. destruct (chan s); [|done]. destruct (closed s); [|done]. by injection E as <-.
  Qed.
  Lemma cur_steps s0 l s : 0 < B → tm tick sz B s0 → steps (prompt B) s0 l s → tm tick sz B s ∧ cu s0 ≤ cu s.
  Proof.
    intros HB0 H0 H. induction H as [|s0 l s n v s' H IH Hv Hn]; [done|]. destruct (IH H0) as [HM Hc]. split; [exact (tm_step tick sz B Htick Hsz Hint HB HB0 n s v s' HM Hv Hn)|].
    etransitivity; [exact Hc|]. by eapply cur_next.
  Qed.
End Facts.
