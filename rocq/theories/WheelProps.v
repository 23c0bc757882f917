(** * Timing wheel: theorems *)
From stdpp Require Import list_numbers.
From Verif Require Import GoBase HeapModel HeapSpec HeapProofs HeapMethods WheelModel WheelSpec WheelProofs WheelLevels WheelTime WheelLive WheelExec WheelFacts.
Local Open Scope Z_scope.

Lemma prompt_any ok tick size now l s : wheel_run ok tick size now l s → wheel_run anyway tick size now l s.
Proof. intros (w & E & H). exists w. split; [done|]. by eapply steps_mono; [|exact H]. Qed.

(** ** C39 *)
(** whatever the parameters and the interleaving: at most one of started, dropped, stopped, and at
    most once *)
Theorem wheel_at_most_once tick size now l s t : wheel_run anyway tick size now l s → t ∉ periodic s →
  (starts s t + drops s t + stops s t ≤ 1)%nat ∧ (starts s t + drops s t + stops s t ≤ enters s t)%nat.
Proof. intros H Ht. pose proof (run_acct _ _ _ _ _ _ H) as HA. pose proof (a_count s HA t). pose proof (a_once s HA t Ht). lia. Qed.
(** a periodic timer is never pending twice and never started more often than scheduled *)
Theorem wheel_periodic_once tick size now l s t : wheel_run anyway tick size now l s →
  (starts s t + drops s t + stops s t ≤ enters s t ≤ starts s t + drops s t + stops s t + 1)%nat.
Proof. intros H. pose proof (run_acct _ _ _ _ _ _ H) as HA. pose proof (a_count s HA t). pose proof (a_due s HA t). lia. Qed.

(** a delay below one tick: the timer is dropped, and never runs however the execution goes on *)
Definition lost_run : list event := [EvAfter 7 5].
Lemma lost_demo : match demo 10 20 0 lost_run with Some s => bool_decide (drops s 7 = 1%nat ∧ stops s 7 = 0%nat ∧ enters s 7 = 1%nat ∧ 7%nat ∉ periodic s) | None => false end = true.
Proof. by vm_compute. Qed.
Theorem wheel_afterfunc_lost_refuted : ∃ l s, wheel_run anyway 10 20 0 l s ∧ enters s 7 = 1%nat ∧ stops s 7 = 0%nat ∧
  ∀ l' s', steps anyway s l' s' → starts s' 7 = 0%nat ∧ stops s' 7 = 0%nat.
Proof.
  pose proof lost_demo as H. destruct (demo 10 20 0 lost_run) as [s|] eqn:E; [|done]. apply bool_decide_eq_true in H as (H1 & H2 & H3 & H4). apply demo_run in E. exists lost_run, s. split_and!; [done..|].
  assert (HE : ended 7 s). { split; [by eapply run_acct|apply used_enters; lia|done|lia]. }
  assert (HD : ∀ l' s', steps anyway s l' s' → (1 ≤ drops s' 7)%nat).
  { intros l' s' Hs. refine (steps_inv anyway (λ s, (1 ≤ drops s 7)%nat) s l' s' _ _ Hs); [|cbn beta; lia]. intros n a v b Ha _ Hn. apply next_records in Hn as (_ & _ & E3 & _). apply (times_prefix 7) in E3. unfold drops in *. lia. }
  intros l' s' Hs. destruct (ended_counts _ _ (ended_steps _ _ _ _ _ HE Hs)) as (J1 & J2 & _). specialize (HD l' s' Hs). lia.
Qed.

(** the wheel's own steps come to an end, in a bounded number and in any order *)
Theorem wheel_settles_partial tick size B now l s : sane tick size B → 0 ≤ now < B → wheel_run (prompt B) tick size now l s →
  (∃ N, ∀ l' s', steps (alone B) s l' s' → (length l' ≤ N)%nat) ∧ ∃ l' s', steps (alone B) s l' s' ∧ quiet B s' ∧ clock s' = clock s.
Proof.
  intros HS Hn H. pose proof (run_tm tick size B HS now l s Hn H) as HM. pose proof HS as (S1 & S2 & S3 & S4). split.
  - exists (todo s). intros l' s' Hs. pose proof (todo_steps tick size B S1 S2 S3 S4 ltac:(lia) _ _ _ HM Hs) as [_ Hl]. lia.
  - destruct (to_quiet tick size B HS s ltac:(lia) HM) as (l' & s' & H1 & H2 & H3 & _). exists l', s'. split_and!; [done|done|]. by apply (alone_records B) in H1 as (_ & -> & _).
Qed.
(** and then no timer whose time has passed is left *)
Theorem wheel_due_started_partial tick size B now l s t e n : sane tick size B → 0 ≤ now < B → wheel_run (prompt B) tick size now l s →
  closed s = false → run s ≠ RExited → quiet B s → (t, e, n) ∈ entered s → t ∉ periodic s → e < clock s →
  (starts s t = 1 ∨ drops s t = 1 ∨ stops s t = 1)%nat.
Proof.
  intros HS Hn H Hc Hx HQ Ht Hp He. pose proof (run_tm tick size B HS now l s Hn H) as HM. pose proof (run_acct _ _ _ _ _ _ H) as HA. pose proof HS as (S1 & S2 & S3 & S4).
  assert (Hcr : run s ≠ RCrashed).
  { destruct H as (w & E & H). assert (HI : closed s = false → run s ≠ RCrashed); [|by apply HI]. refine (steps_inv (prompt B) (λ s, closed s = false → run s ≠ RCrashed) _ _ _ _ _ H); [|done].
    intros m a v b Ha _ Hm Hb. assert (closed a = false) as Hca. { destruct (closed a) eqn:Ec; [|done]. apply flags_next in Hm as (_ & Hm & _). rewrite (Hm Ec) in Hb. done. }
    eapply run_idle_next; [|exact Hm|done]. auto. }
  destruct (a_once s HA t Hp) as [Ho _]. pose proof (a_count s HA t) as Hcn.
  assert (0 < enters s t)%nat. { apply times_pos. apply elem_of_list_fmap. exists (t, e). split; [done|]. apply elem_of_list_fmap. by exists (t, e, n). }
  destruct (decide (pend s t = 0%nat)) as [|Hpe]; [lia|]. exfalso.
  assert (0 < pend s t)%nat as Hpp by lia. apply (pend_timer s t HA) in Hpp as (x & Hx' & <-).
  destruct (quiet_pending tick size B S1 S2 S3 S4 ltac:(lia) s x HM Hx Hcr Hc HQ Hx') as [_ Hle].
  assert (∃ n', (tid x, texp x, n') ∈ entered s) as [n' Hn'].
  { destruct Hx' as [[r Hr]|Hr]; [destruct (a_exp s HA r x (or_introl Hr)) as (n' & ? & _)|destruct (a_exp s HA (0%nat, 0) x (or_intror Hr)) as (n' & ? & _)]; by exists n'. }
  pose proof (entered_once _ _ _ _ _ _ Ho Ht Hn'). lia.
Qed.
(** with delays of at least one tick nothing is dropped *)
Theorem wheel_afterfunc_runs_partial tick size B now l s t e n : sane tick size B → 0 ≤ now < B → wheel_run (patient B tick) tick size now l s →
  closed s = false → run s ≠ RExited → quiet B s → (t, e, n) ∈ entered s → t ∉ periodic s → e < clock s →
  (starts s t = 1 ∧ stops s t = 0 ∨ starts s t = 0 ∧ stops s t = 1)%nat.
Proof.
  intros HS Hn (w & E & H) Hc Hx HQ Ht Hp He. pose proof HS as (S1 & S2 & S3 & S4).
  assert (H' : wheel_run (prompt B) tick size now l s). { exists w. split; [done|]. eapply steps_mono; [|exact H]. by intros ? ? [? _]. }
  assert (dropped s = []) as Hd.
  { assert (HI : tm tick size B s ∧ dropped s = []); [|apply HI]. refine (steps_inv (patient B tick) (λ s, tm tick size B s ∧ dropped s = []) _ _ _ _ _ H).
    - intros m a v b [Ha Hda] [Hv Hpv] Hm. split; [exact (tm_step tick size B S1 S2 S3 S4 ltac:(lia) m a v b Ha Hv Hm)|].
      pose proof (m_clock _ _ _ a Ha) as Hck. pose proof (m_lv _ _ _ a Ha) as HL. destruct v as [c|t' e'|t' e'|t' e'|t' r| | | | | | | | |]; simpl in Hm, Hv, Hpv.
      + destruct (decide _); [|done]. by injection Hm as <-.
      + destruct (used a t'); [done|]. destruct (add _ _ _ _ _) as [[[] w']| |] eqn:Ea; try done; [by injection Hm as <-|]. exfalso.
        destruct (add_spec tick size B S1 S2 S3 S4 ltac:(lia) m _ (wh a) 0 (Timer t' e') false w' HL (lv_some _ _ _ _ HL) ltac:(simpl; lia) Ea) as (_ & _ & _ & _ & k & Hk & Hlt & Hs). simpl in Hlt, Hs.
        destruct k as [|k]; [rewrite T_0 in Hlt; pose proof (tr_le (cur (wh a)) tick S1); lia|].
        pose proof (Hs k ltac:(lia)) as H1. assert (tr (cur (wh a)) (T tick size (S k)) ≤ tr (cur (wh a)) (T tick size k)) as H2; [|lia].
        rewrite <- (T_tr tick size S1 S2 (cur (wh a)) k). apply tr_le. by apply T_pos.
      + destruct (used a t'); [done|]. apply add_or_run_records in Hm as (_ & _ & -> & _). done.
      + destruct (decide _); [|done]. apply add_or_run_records in Hm as (_ & _ & -> & _). done.
      + destruct (decide _); [done|]. destruct (stop _ _) as [u w']. destruct (decide _) as [<-|]; [|done]. injection Hm as <-. by destruct u.
      + pose proof (next_records m a EvTake b Hm) as (_ & _ & _ & _ & _ & _ & HI). by destruct (HI I) as (_ & _ & _ & _ & ->).
      + pose proof (next_records m a EvRecv b Hm) as (_ & _ & _ & _ & _ & _ & HI). by destruct (HI I) as (_ & _ & _ & _ & ->).
      + pose proof (next_records m a EvMove b Hm) as (_ & _ & _ & _ & _ & _ & HI). by destruct (HI I) as (_ & _ & _ & _ & ->).
      + pose proof (next_records m a EvPut b Hm) as (_ & _ & _ & _ & _ & _ & HI). by destruct (HI I) as (_ & _ & _ & _ & ->).
      + pose proof (next_records m a EvEnd b Hm) as (_ & _ & _ & _ & _ & _ & HI). by destruct (HI I) as (_ & _ & _ & _ & ->).
      + by injection Hm as <-.
      + destruct (cancelled a); [|done]. by injection Hm as <-.
      + destruct (run a); try done. destruct (cancelled a); [|done]. by injection Hm as <-.
      + destruct (run a); try done. destruct (chan a); [|done]. destruct (closed a); [|done]. by injection Hm as <-.
    - split; [|done]. destruct (tm_init tick size B S1 S2 S3 S4 ltac:(lia) now Hn) as (w' & E' & _ & HM). rewrite E in E'. by injection E' as <-. }
  pose proof (wheel_due_started_partial tick size B now l s t e n HS Hn H' Hc Hx HQ Ht Hp He) as Hr. pose proof (wheel_at_most_once _ _ _ _ _ _ (prompt_any _ _ _ _ _ _ H') Hp) as [H1 _].
  assert (drops s t = 0%nat) by (unfold drops; by rewrite Hd). lia.
Qed.

(** ** C40 *)
Definition early_run : list event :=
  [EvAfter 1 5; EvAfter 2 12; EvClock 6; EvTake; EvRecv; EvMove; EvPut; EvEnd; EvAfter 3 14;
   EvClock 16; EvTake; EvTake; EvRecv; EvMove; EvPut; EvEnd; EvRecv; EvMove; EvPut; EvEnd; EvTake; EvAfter 4 22; EvRecv; EvMove; EvPut; EvMove; EvPut].
Global Instance start_eq_dec : EqDecision start.
Proof. solve_decision. Defined.
Lemma early_demo : match demo 1 10 0 early_run with Some s => bool_decide (started s !! 3%nat = Some (Start 4 22 16)) | None => false end = true.
Proof. by vm_compute. Qed.
(** a bucket waiting in the channel is refilled for the next round: its timers start six ticks early *)
Theorem wheel_early_refuted : ∃ tick size now l s x, wheel_run anyway tick size now l s ∧ 1 ≤ tick ∧ 2 ≤ size ∧ x ∈ started s ∧ s_at x + tick ≤ s_exp x.
Proof.
  pose proof early_demo as H. destruct (demo 1 10 0 early_run) as [s|] eqn:E; [|done]. apply bool_decide_eq_true in H. apply demo_run in E.
  exists 1, 10, 0, early_run, s, (Start 4 22 16). split_and!; [done|lia|lia|by eapply elem_of_list_lookup_2|simpl; lia].
Qed.
Theorem wheel_on_time_partial tick size B now l s x : sane tick size B → 0 ≤ now < B → wheel_run (prompt B) tick size now l s →
  x ∈ started s → s_exp x < s_at x + tick.
Proof. intros HS Hn H. exact (m_early _ _ _ s (run_tm tick size B HS now l s Hn H) x). Qed.
(** once Run has received a bucket that expires after a timer's own expiration, the timer is not pending *)
Theorem wheel_processed_partial tick size B now l s n s1 l' s' b q t e m : sane tick size B → 0 ≤ now < B → wheel_run (prompt B) tick size now l s →
  chan s = b :: q → next n s EvRecv = Some s1 → steps (prompt B) s1 l' s' →
  (t, e, m) ∈ entered s' → t ∉ periodic s' → e < bexp (wbk (wh s) b) → ¬ pending s' t.
Proof.
  intros HS Hn H Hch Hr Hs Ht Hp He Hpe. pose proof HS as (S1 & S2 & S3 & S4). assert (HB0 : 0 < B) by lia. pose proof (run_tm tick size B HS now l s Hn H) as HM. pose proof (run_acct _ _ _ _ _ _ H) as HA.
  assert (HM1 : tm tick size B s1) by exact (tm_step tick size B S1 S2 S3 S4 HB0 n s EvRecv s1 HM I Hr).
  assert (HA' : acct s') by (eapply acct_steps; [|exact Hs]; by eapply acct_step).
  destruct (cur_steps tick size B HS s1 l' s' HB0 HM1 Hs) as [HM' Hcu].
  assert (bexp (wbk (wh s) b) ≤ cur (wh s1)) as Hb.
  { simpl in Hr. destruct (run s); try done. rewrite Hch in Hr. destruct (advance _ _) as [ls| |] eqn:Ea; try done. injection Hr as <-. 
    assert (HbQ : b ∈ Q s) by (unfold Q; rewrite Hch; apply elem_of_app; right; by left). destruct (bx_tick tick size B S1 S2 S3 S4 HB0 s b HM HbQ) as (HE & HE2 & _).
    pose proof (m_lv _ _ _ s HM) as HL. destruct (advance_spec tick size B S1 S2 S3 S4 HB0 (wh s) _ HL HE) as (ls' & E' & _ & _ & Hc). rewrite Ea in E'. injection E' as <-. simpl in *. rewrite Hc.
    pose proof (cur_tick tick size B S1 S2 S3 S4 HB0 (wh s) HL) as Hct. destruct (Z.leb_spec (cur (wh s) + tick) (bexp (wbk (wh s) b))); [lia|].
    assert (bexp (wbk (wh s) b) / tick < cur (wh s) / tick + 1) by (unfold tr in HE2, Hct; apply (Z.mul_lt_mono_pos_l tick); lia). rewrite <- HE2, <- Hct. unfold tr. apply Z.mul_le_mono_nonneg_l; lia. }
  apply (pending_pend s' t HA'), (pend_timer s' t HA') in Hpe as (x & Hx & <-). pose proof (m_cur _ _ _ s' HM' x Hx).
  assert (∃ n', (tid x, texp x, n') ∈ entered s') as [n' Hn'].
  { destruct Hx as [[r Hr']|Hr']; [destruct (a_exp s' HA' r x (or_introl Hr')) as (n' & ? & _)|destruct (a_exp s' HA' (0%nat, 0) x (or_intror Hr')) as (n' & ? & _)]; by exists n'. }
  destruct (a_once s' HA' _ Hp) as [Ho _]. pose proof (entered_once _ _ _ _ _ _ Ho Ht Hn'). lia.
Qed.

(** ** C41 *)
Definition rounded_run : list event := [EvAfter 1 19; EvClock 11; EvTake; EvRecv; EvMove; EvPut].
Lemma rounded_demo : match demo_prompt 1000 10 20 0 rounded_run with Some s => bool_decide (started s = [Start 1 19 11] ∧ entered s = [(1%nat, 19, 0)]) | None => false end = true.
Proof. by vm_compute. Qed.
(** delay 19 on a wheel with tick 10: started after 11 *)
Theorem wheel_delay_refuted : ∃ tick size now l s x d n, wheel_run (prompt 1000) tick size now l s ∧ (s_tid x, n + d, n) ∈ entered s ∧ x ∈ started s ∧ s_at x < n + d.
Proof.
  pose proof rounded_demo as H. destruct (demo_prompt 1000 10 20 0 rounded_run) as [s|] eqn:E; [|done]. apply bool_decide_eq_true in H as [H1 H2]. apply demo_prompt_run in E.
  exists 10, 20, 0, rounded_run, s, (Start 1 19 11), 19, 0. rewrite H1, H2. split_and!; [done|by left|by left|simpl; lia].
Qed.
(** it is early by less than one tick, and not at all when the tick is one millisecond *)
Theorem wheel_delay_partial tick size B now l s x : sane tick size B → 0 ≤ now < B → wheel_run (prompt B) tick size now l s → x ∈ started s →
  ∃ n d, (s_tid x, n + d, n) ∈ entered s ∧ s_exp x = n + d ∧ n + d - tick < s_at x ∧ n ≤ s_at x ∧ (tick = 1 → n + d ≤ s_at x).
Proof.
  intros HS Hn H Hx. pose proof (run_acct _ _ _ _ _ _ H) as HA. pose proof (wheel_on_time_partial tick size B now l s x HS Hn H Hx). destruct (a_start s HA x Hx) as (n & Hin & Hle).
  exists n, (s_exp x - n). replace (n + (s_exp x - n)) with (s_exp x) by lia. split_and!; [done|done|lia|done|lia].
Qed.

(** ** C42 *)
Definition moving_run : list event := [EvAfter 1 12; EvClock 11; EvTake; EvRecv; EvMove].
Definition moving_rest : list event := [EvStop 1 false; EvPut; EvEnd; EvClock 13; EvTake; EvRecv; EvMove; EvPut; EvEnd].
Lemma moving_demo : match demo_prompt 1000 1 10 0 moving_run with
  | Some s => match exec s moving_rest with Some s' => bool_decide ((starts s 1 + drops s 1 + stops s 1 < enters s 1)%nat ∧ starts s 1 = 0%nat ∧ starts s' 1 = 1%nat) | None => false end
  | None => false end = true.
Proof. by vm_compute. Qed.
(** Stop of a timer that Run is moving to a lower wheel returns false, and the task runs later *)
Theorem wheel_stop_moving_refuted : ∃ l s l' s', wheel_run (prompt 1000) 1 10 0 l s ∧ pending s 1 ∧ starts s 1 = 0%nat ∧ steps anyway s (EvStop 1 false :: l') s' ∧ starts s' 1 = 1%nat.
Proof.
  pose proof moving_demo as H. destruct (demo_prompt 1000 1 10 0 moving_run) as [s|] eqn:E; [|done]. destruct (exec s moving_rest) as [s'|] eqn:E'; [|done]. apply bool_decide_eq_true in H as (H1 & H2 & H3).
  apply demo_prompt_run in E. apply exec_steps in E'. exists moving_run, s, (tail moving_rest), s'. done.
Qed.
(** Stop, in any execution: its result when the timer is not being moved; a stopped timer never
    starts and cannot be stopped again; no other timer changes *)
Theorem wheel_stop_partial tick size now l s n t r s' : wheel_run anyway tick size now l s → next n s (EvStop t r) = Some s' → t ∉ periodic s → t ∉ tid <$> moved s →
  (r = true ↔ pending s t) ∧
  (r = true → ∀ l' s'', steps anyway s' l' s'' → starts s'' t = 0%nat ∧ ¬ pending s'' t ∧ ∀ m s3, next m s'' (EvStop t true) ≠ Some s3) ∧
  (∀ u, u ≠ t → (pending s' u ↔ pending s u) ∧ starts s' u = starts s u ∧ wtb (wh s') u = wtb (wh s) u) ∧ started s' = started s.
Proof.
  intros H E Hp Hmv. pose proof (run_acct _ _ _ _ _ _ H) as HA. pose proof (acct_step n s _ s' HA E) as HA'. pose proof E as E0. simpl in E. destruct (decide _) as [|Hlk]; [done|].
  pose proof (pending_pend s t HA) as Hpp. unfold pend in Hpp. rewrite (proj1 (times_notin _ _) Hmv) in Hpp. unfold inb in Hpp. unfold stop in E.
  destruct (wtb (wh s) t) as [q|] eqn:Et; (destruct (decide _) as [<-|]; [|done]); injection E as <-.
  - split_and!.
    + split; [|done]. intros _. apply Hpp. lia.
    + intros _ l' s'' Hs.
      assert (HE : ended t (set_stopped (set_wh s (set_tb (set_bk (wh s) q (Bucket (bexp (wbk (wh s) q)) (filter (λ x, tid x ≠ t) (btimers (wbk (wh s) q))))) t None)) t)).
      { split; [done| |done|].
        - change (used s t = true). apply used_enters. pose proof (a_count s HA t). unfold pend, inb in *. rewrite Et in *. lia.
        - unfold drops, stops. simpl. rewrite times_app, times_one, decide_True by done. lia. }
      pose proof (ended_steps _ _ _ _ _ HE Hs) as HE'. destruct (ended_counts _ _ HE') as (J1 & J2 & J3). split_and!; [done|done|]. intros m s3 E3.
      pose proof (ended_next m s'' _ s3 t HE' E3) as HE3. destruct (ended_counts _ _ HE3) as (_ & K2 & _).
      simpl in E3. destruct (decide _); [done|]. unfold stop in E3. destruct (wtb (wh s'') t) as [q'|]; (destruct (decide _) as [F|]; [|done]); [|done]. injection E3 as <-.
      unfold drops, stops in *. simpl in K2. rewrite times_app, times_one, decide_True in K2 by done. lia.
    + intros u Hu. split_and!; [|done|by apply (fupd_ne (wtb (wh s)) t u None Hu)]. rewrite !pending_pend by done. unfold pend, inb. simpl. by rewrite fupd_ne.
    + done.
  - split_and!; [|done| |done].
    + split; [done|]. intros Hpe. apply Hpp in Hpe. lia.
    + intros u Hu. done.
Qed.

(** ** C43 *)
(** with wheelSize 1 every overflow wheel is as narrow as the first: add recurses for ever *)
Lemma size_one : ∀ n w i, wsize w = 1 → (∀ j l, wlevels w !! j = Some l → l = Level 1 1 0) → (i < length (wlevels w))%nat → add n None w i (Timer 1 5) = Diverge.
Proof.
  induction n as [|n IH]; intros w i Hw Hl Hi; [done|]. cbn [add]. destruct (wlevels w !! i) as [l|] eqn:El; [|apply lookup_ge_None in El; lia]. rewrite (Hl _ _ El). cbn [lcur ltick linterval texp].
  replace (5 <? i64 (0 + 1)) with false by (by vm_compute). destruct (wlevels w !! S i) as [l'|] eqn:El'.
  - cbn [mbind go_bind]. apply IH; [done|done|by eapply lookup_lt_Some].
  - rewrite Hw. replace (new_level 1 1 0) with (Ret (Level 1 1 0)) by (by vm_compute). cbn [mbind go_bind]. apply IH; [done| |simpl; rewrite app_length; simpl; lia].
    intros j x Hx. simpl in Hx. apply lookup_app_Some in Hx as [Hx|[_ Hx]]; [by eapply Hl|]. by apply list_lookup_singleton_Some in Hx as [_ <-].
Qed.
Theorem wheel_size_one_refuted : ∃ w, new_wheel 1 1 0 = Ret w ∧ (∀ n, add n None w 0 (Timer 1 5) = Diverge) ∧ ∀ n, next n (init w 0) (EvAfter 1 5) = None.
Proof.
  assert (∃ w, new_wheel 1 1 0 = Ret w ∧ wsize w = 1 ∧ wlevels w = [Level 1 1 0]) as (w & E & Hw & Hl) by (eexists; by vm_compute). exists w. split; [done|].
  assert (Ha : ∀ n, add n None w 0 (Timer 1 5) = Diverge). { intros n. apply size_one; [done| |rewrite Hl; simpl; lia]. intros j l Hj. rewrite Hl in Hj. by apply list_lookup_singleton_Some in Hj as [_ <-]. }
  split; [done|]. intros n. change (match add n None w 0 (Timer 1 5) with Ret (true, w') => Some (set_wh (set_entered (init w 0) (Timer 1 5)) w') | Ret (false, w') => Some (set_dropped (set_wh (set_entered (init w 0) (Timer 1 5)) w') 1) | _ => None end = None).
  by rewrite Ha.
Qed.
(** with wheelSize at least 2 the add recurses at most 64 times; it can only wait for the bucket
    that Run is flushing *)
Theorem wheel_add_returns_partial tick size B now l s t e : sane tick size B → 0 ≤ now < B → wheel_run (bounded B) tick size now l s → e < B →
  (∃ b w, add 64 (locked s) (wh s) 0 (Timer t e) = Ret (b, w)) ∨ ∃ r, locked s = Some r.
Proof.
  intros HS Hn H He. pose proof HS as (S1 & S2 & S3 & S4). pose proof (run_bd tick size B HS now l s Hn H) as [HL _ _].
  destruct (add_total tick size B S1 S2 S3 S4 ltac:(lia) (locked s) 64 (wh s) 0 (Timer t e) HL (lv_some _ _ _ _ HL) He ltac:(lia)) as [?|(k & _ & Hk)]; [by left|right; by eexists].
Qed.
(** and in prompt executions Run gives that bucket back *)
Theorem wheel_calls_return_partial tick size B now l s t e : sane tick size B → 0 ≤ now < B → wheel_run (prompt B) tick size now l s → clock s ≤ e < B → used s t = false →
  ∃ l' s', steps (alone B) s l' s' ∧ (∃ s1, next 64 s' (EvAfter t e) = Some s1) ∧ ∃ s2, next 64 s' (EvSchedule t e) = Some s2.
Proof.
  intros HS Hn H He Hu. pose proof HS as (S1 & S2 & S3 & S4). destruct (to_quiet tick size B HS s ltac:(lia) (run_tm tick size B HS now l s Hn H)) as (l' & s' & H1 & _ & Hl & HM).
  exists l', s'. split; [done|]. pose proof (m_lv _ _ _ s' HM) as HL. assert (Hu' : used s' t = false). { apply (alone_records B) in H1 as (H1 & _). unfold used in *. by rewrite H1. }
  destruct (add_total tick size B S1 S2 S3 S4 ltac:(lia) None 64 (wh s') 0 (Timer t e) HL (lv_some _ _ _ _ HL) ltac:(simpl; lia) ltac:(lia)) as [(b & w & E)|(k & _ & Hk)]; [|done]. split.
  - cbn [next]. rewrite Hu'. cbn zeta. change (locked (set_entered s' (Timer t e))) with (locked s'). change (wh (set_entered s' (Timer t e))) with (wh s'). rewrite Hl, E. destruct b; by eexists.
  - cbn [next]. rewrite Hu'. unfold add_or_run. change (locked (set_periodic (set_entered s' (Timer t e)) t)) with (locked s'). change (wh (set_periodic (set_entered s' (Timer t e)) t)) with (wh s'). rewrite Hl, E. destruct b; by eexists.
Qed.

(** ** C44 *)
Definition crash_run : list event := [EvCancel; EvClose; EvNil].
Lemma crash_demo : match demo 1 10 0 crash_run with Some s => match run s with RCrashed => true | _ => false end | None => false end = true.
Proof. by vm_compute. Qed.
(** after the cancellation the queue closes its channel; Run's select may receive nil from it *)
Theorem wheel_cancel_crash_refuted : ∃ tick size now l s, wheel_run anyway tick size now l s ∧ run s = RCrashed.
Proof.
  pose proof crash_demo as H. destruct (demo 1 10 0 crash_run) as [s|] eqn:E; [|done]. apply demo_run in E. exists 1, 10, 0, crash_run, s. split; [done|]. by destruct (run s).
Qed.
(** Run neither returns nor crashes before the cancellation; after it, whenever Run is waiting it can return *)
Theorem wheel_cancel_partial tick size now l s : wheel_run anyway tick size now l s →
  (cancelled s = false → run s ≠ RCrashed ∧ run s ≠ RExited) ∧ (closed s = false → run s ≠ RCrashed) ∧
  (cancelled s = true → run s = RIdle → ∃ s', next 0 s EvExit = Some s' ∧ run s' = RExited).
Proof.
  intros (w & E & H). 
  assert (HI : (closed s = true → cancelled s = true) ∧ (closed s = false → run s ≠ RCrashed) ∧ (run s = RExited → cancelled s = true)).
  { refine (steps_inv anyway (λ s, (closed s = true → cancelled s = true) ∧ (closed s = false → run s ≠ RCrashed) ∧ (run s = RExited → cancelled s = true)) _ _ _ _ _ H); [|by split_and!].
    intros n a v b (A1 & A2 & A3) _ Hn. pose proof (flags_next n a v b Hn) as (F1 & F2 & F3 & F4). split_and!.
    - intros Hb. apply F3. destruct F1 as [F1|F1]; [|done]. apply A1. congruence.
    - intros Hb. destruct (closed a) eqn:Ec; [by rewrite F2 in Hb|]. eapply run_idle_next; [|exact Hn|done]. auto.
    - intros Hb. apply F3. destruct (F4 Hb); auto. }
  destruct HI as (I1 & I2 & I3). split_and!.
  - intros Hc. split; [|intros Hx; rewrite I3 in Hc; done]. apply I2. destruct (closed s); [|done]. rewrite I1 in Hc; done.
  - done.
  - intros Hc Hr. simpl. rewrite Hr, Hc. by eexists.
Qed.

(** ** C45 *)
(** the wait is [now - expiration], not [expiration - now]: the timer has always expired already *)
Lemma poll_once e k : k_fires k = None → k_clock k / 1000000 ≤ e < k_clock k / 1000000 + 9223372036854 → take_wait (k_clock k / 1000000) e ≤ 0 ∧
  take_run e k [KLook; KFire] = Some (Taker (k_clock k) (S (k_looks k)) None).
Proof.
  intros Hf He. assert (Hw : take_wait (k_clock k / 1000000) e ≤ 0). { unfold take_wait. set (d := k_clock k / 1000000 - e). rewrite (i64_id d) by (split; lia). rewrite i64_id by (split; lia). lia. }
  split; [done|]. cbn [take_run take_next]. rewrite Hf, (proj2 (Z.ltb_ge _ _)) by lia. cbn [k_fires k_clock k_looks]. rewrite Z.max_l, Z.add_0_r, Z.leb_refl by done. done.
Qed.
(** so while no bucket is due the goroutine polls: any number of looks without the clock moving *)
Theorem wheel_queue_polls_refuted : ∀ e k, k_fires k = None → k_clock k / 1000000 ≤ e < k_clock k / 1000000 + 9223372036854 →
  ∀ n, ∃ l k', take_run e k l = Some k' ∧ k_clock k' = k_clock k ∧ k_looks k' = (n + k_looks k)%nat ∧ k_fires k' = None.
Proof.
  intros e k Hf He n. revert k Hf He. induction n as [|n IH]; intros k Hf He; [exists [], k; done|]. destruct (poll_once e k Hf He) as [_ E].
  destruct (IH (Taker (k_clock k) (S (k_looks k)) None)) as (l & k' & E1 & E2 & E3 & E4); [done|done|]. exists (KLook :: KFire :: l), k'. split_and!; [|done|rewrite E3; simpl; lia|done].
  revert E. cbn [take_run]. destruct (take_next e k KLook) as [k1|]; [|done]. destruct (take_next e k1 KFire) as [k2|]; [|done]. by intros [= ->].
Qed.
(** it does not, however, hand out a bucket early *)
Theorem wheel_queue_due_partial n s s' : next n s EvTake = Some s' → ∃ b, chan s' = chan s ++ [b] ∧ b ∈ wheap (wh s) ∧ bexp (wbk (wh s) b) < clock s ∧ wheap (wh s) ≡ₚ b :: wheap (wh s').
Proof.
  simpl. intros E. destruct (closed s); [done|]. destruct (wheap (wh s)) as [|h q] eqn:Eh; [done|]. destruct (Z.ltb_spec (bexp (wbk (wh s) h)) (clock s)) as [Hd|]; [|done].
  destruct (gpop_spec (sooner (wbk (wh s))) 2 (hdown (sooner (wbk (wh s)))) ltac:(lia) (hdown_total _) (wheap (wh s))) as (x & h' & Ep & H0 & HP & _); [by rewrite Eh|].
  rewrite Eh in Ep, H0, HP. injection H0 as ->. rewrite Ep in E. injection E as <-. exists x. split_and!; [done|by left|done|done].
Qed.

(** ** C71 *)
Definition periodic_run : list event := [EvSchedule 1 12; EvClock 13; EvTake; EvRecv; EvMove; EvPut; EvEnd; EvTake; EvRecv; EvMove; EvPut; EvEnd].
Definition periodic_rest : list event := [EvStop 1 false; EvAgain 1 15; EvClock 16; EvTake; EvRecv; EvMove; EvPut; EvEnd].
Lemma periodic_demo : match demo_prompt 1000 1 10 0 periodic_run with
  | Some s => match exec_prompt 1000 s periodic_rest with Some s' => bool_decide (starts s 1 = 1%nat ∧ starts s' 1 = 2%nat) | None => false end
  | None => false end = true.
Proof. by vm_compute. Qed.
(** Stop of a periodic timer whose task has just been started returns false, and it is scheduled again *)
Theorem wheel_periodic_stop_refuted : ∃ l s l' s', wheel_run (prompt 1000) 1 10 0 l s ∧ starts s 1 = 1%nat ∧ steps (prompt 1000) s (EvStop 1 false :: l') s' ∧ starts s' 1 = 2%nat.
Proof.
  pose proof periodic_demo as H. destruct (demo_prompt 1000 1 10 0 periodic_run) as [s|] eqn:E; [|done]. destruct (exec_prompt 1000 s periodic_rest) as [s'|] eqn:E'; [|done]. apply bool_decide_eq_true in H as [H1 H2].
  apply demo_prompt_run in E. apply exec_prompt_steps in E'. exists periodic_run, s, (tail periodic_rest), s'. done.
Qed.
(** a Stop that returned true while the timer was pending ends a periodic timer too *)
Theorem wheel_periodic_stop_partial tick size now l s n t s' : wheel_run anyway tick size now l s → next n s (EvStop t true) = Some s' →
  ∀ l' s'', steps anyway s' l' s'' → starts s'' t = starts s t ∧ ¬ pending s'' t.
Proof.
  intros H E. pose proof (run_acct _ _ _ _ _ _ H) as HA. pose proof (acct_step n s _ s' HA E) as HA'.
  assert (Hs' : used s' t = true ∧ times t (due s') = 0%nat ∧ pend s' t = 0%nat ∧ starts s' t = starts s t).
  { simpl in E. destruct (decide _); [done|]. unfold stop in E. destruct (wtb (wh s) t) as [q|] eqn:Et; (destruct (decide _) as [F|]; [|done]); [|done]. injection E as <-.
    pose proof (a_due s HA t) as Hd. pose proof (a_count s HA t) as Hc. unfold pend, inb in *. rewrite Et in *. cbn [due set_stopped wh set_wh]. split_and!.
    - change (used s t = true). apply used_enters. lia.
    - change (times t (due s) = 0%nat). lia.
    - change (wtb (set_tb (set_bk (wh s) q (Bucket (bexp (wbk (wh s) q)) (filter (λ x, tid x ≠ t) (btimers (wbk (wh s) q))))) t None) t) with (fupd (wtb (wh s)) t None t). rewrite fupd_eq.
      change (moved _) with (moved s). lia.
    - done. }
  destruct Hs' as (U & D & P & S). intros l' s'' Hs. 
  assert (HI : acct s'' ∧ used s'' t = true ∧ times t (due s'') = 0%nat ∧ pend s'' t = 0%nat ∧ starts s'' t = starts s t).
  { refine (steps_inv anyway (λ s1, acct s1 ∧ used s1 t = true ∧ times t (due s1) = 0%nat ∧ pend s1 t = 0%nat ∧ starts s1 t = starts s t) _ _ _ _ _ Hs); [|done]. clear -HA.
    intros m a v b (A1 & A2 & A3 & A4 & A5) _ Hn. pose proof (acct_step m a v b A1 Hn) as B1. destruct (used_next m a v b t Hn A2) as [B2 _]. split; [done|split; [done|]].
    assert (HN : enters b t = enters a t).
    { destruct v as [c|u e|u e|u e|u q| | | | | | | | |]; try (pose proof (next_records m a _ b Hn) as (_ & _ & _ & _ & _ & _ & HI); by (unfold enters; destruct (HI I) as (-> & _))); simpl in Hn.
      - destruct (decide _); [|done]. by injection Hn as <-.
      - destruct (used a u) eqn:Eu; [done|]. assert (u ≠ t) by congruence. destruct (add _ _ _ _ _) as [[[] w]| |]; try done; injection Hn as <-; unfold enters; simpl; rewrite !fmap_app, times_app; simpl; rewrite times_one, decide_False by done; lia.
      - destruct (used a u) eqn:Eu; [done|]. assert (u ≠ t) by congruence. apply add_or_run_records in Hn as (Hn & _). unfold enters. rewrite Hn. simpl. rewrite !fmap_app, times_app. simpl. rewrite times_one, decide_False by done. lia.
      - destruct (decide _) as [Hd|]; [|done]. assert (u ≠ t) by (intros ->; apply times_pos in Hd; lia). apply add_or_run_records in Hn as (Hn & _). unfold enters. rewrite Hn. simpl. rewrite !fmap_app, times_app. simpl. rewrite times_one, decide_False by done. lia.
      - destruct (decide _); [done|]. destruct (stop _ _) as [u' w]. destruct (decide _) as [<-|]; [|done]. injection Hn as <-. by destruct u'.
      - by injection Hn as <-.
      - destruct (cancelled a); [|done]. by injection Hn as <-.
      - destruct (run a); try done. destruct (cancelled a); [|done]. by injection Hn as <-.
      - destruct (run a); try done. destruct (chan a); [|done]. destruct (closed a); [|done]. by injection Hn as <-. }
    pose proof (a_count a A1 t). pose proof (a_count b B1 t). pose proof (a_due b B1 t). pose proof (a_ds b B1 t).
    pose proof (due_next m a v b t Hn). apply next_records in Hn as (_ & R2 & R3 & R4 & _ & _). assert (starts a t ≤ starts b t)%nat. { unfold starts. destruct R2 as [k ->]. rewrite fmap_app, times_app. lia. }
    apply (times_prefix t) in R3, R4. fold (drops a t) (drops b t) in R3. fold (stops a t) (stops b t) in R4. 
    split_and!; lia. }
  destruct HI as (I1 & _ & _ & I4 & I5). split; [done|]. rewrite pending_pend by done. lia.
Qed.

(** ** Concrete executions that meet the hypotheses *)
(** two timers on different levels, the far one moved down, one stopped, both clocks passed *)
Definition day : list event :=
  [EvAfter 1 7; EvAfter 2 25; EvAfter 3 30; EvClock 8; EvTake; EvRecv; EvMove; EvPut; EvEnd; EvStop 3 true;
   EvClock 27; EvTake; EvRecv; EvMove; EvPut; EvEnd; EvTake; EvRecv; EvMove; EvPut; EvEnd; EvClock 40; EvTake; EvRecv; EvEnd].
Lemma day_demo : match demo_prompt (2 ^ 44) 1 10 0 day with
  | Some s => bool_decide (started s = [Start 1 7 8; Start 2 25 27] ∧ stopped s = [3%nat] ∧ dropped s = [] ∧ clock s = 40 ∧ wheap (wh s) = [] ∧ chan s = [] ∧ closed s = false ∧ periodic s = []
      ∧ entered s = [(1%nat, 7, 0); (2%nat, 25, 0); (3%nat, 30, 0)]) && match run s with RIdle => true | _ => false end
  | None => false end = true.
Proof. by vm_compute. Qed.
Example day_quiet : ∃ s, wheel_run (prompt (2 ^ 44)) 1 10 0 day s ∧ quiet (2 ^ 44) s ∧ closed s = false ∧ run s = RIdle ∧ clock s = 40 ∧ (2%nat, 25, 0) ∈ entered s ∧ 2%nat ∉ periodic s ∧ starts s 2 = 1%nat ∧ stops s 3 = 1%nat.
Proof.
  pose proof day_demo as H. destruct (demo_prompt (2 ^ 44) 1 10 0 day) as [s|] eqn:E; [|done]. apply andb_true_iff in H as [H Hr]. apply bool_decide_eq_true in H as (H1 & H2 & H3 & H4 & H5 & H6 & H7 & H8 & H9). apply demo_prompt_run in E.
  assert (run s = RIdle) as Er by (by destruct (run s)). exists s. rewrite H7, H8, H9, H4. unfold starts, stops. rewrite H1, H2. split_and!; try done.
  - intros n v s' Hi _ Hn. destruct v; try done; simpl in Hn; rewrite ?H5, ?H6, ?H7, ?Er in Hn; done.
  - by right; left.
  - by intros ?%elem_of_nil.
Qed.
Example sane_example : sane 1 20 (2 ^ 44) ∧ sane 1000 60 (2 ^ 44).
Proof. unfold sane. lia. Qed.
Example poll_example : k_clock (Taker 5000000 0 None) / 1000000 ≤ 100 < k_clock (Taker 5000000 0 None) / 1000000 + 9223372036854.
Proof. vm_compute. by split. Qed.

Print Assumptions wheel_at_most_once.
Print Assumptions wheel_periodic_once.
Print Assumptions wheel_afterfunc_lost_refuted.
Print Assumptions wheel_settles_partial.
Print Assumptions wheel_due_started_partial.
Print Assumptions wheel_afterfunc_runs_partial.
Print Assumptions wheel_early_refuted.
Print Assumptions wheel_on_time_partial.
Print Assumptions wheel_processed_partial.
Print Assumptions wheel_delay_refuted.
Print Assumptions wheel_delay_partial.
Print Assumptions wheel_stop_moving_refuted.
Print Assumptions wheel_stop_partial.
Print Assumptions wheel_size_one_refuted.
Print Assumptions wheel_add_returns_partial.
Print Assumptions wheel_calls_return_partial.
Print Assumptions wheel_cancel_crash_refuted.
Print Assumptions wheel_cancel_partial.
Print Assumptions wheel_queue_polls_refuted.
Print Assumptions wheel_queue_due_partial.
Print Assumptions wheel_periodic_stop_refuted.
Print Assumptions wheel_periodic_stop_partial.
