(** * Theorems about delayqueue.DelayQueue (C36, C37, C38) *)
From stdpp Require Import relations sorting.
From Verif Require Import GoBase HeapModel DelayQueueModel DelayQueueSpec DelayQueueProofs DelayQueueSolo DelayQueueLive DelayQueueExec.
Local Open Scope Z_scope.

(** C36: in every execution of any number of goroutines, with or without cancellation, what left
    the queue is what a delay queue gives out: pushed, due, earliest of those present; elements are
    distinct, nothing is lost, and what each goroutine removed it has returned, passed to the
    reader of its channel, or is about to. *)
Theorem delay_queue_delivers : ∀ (T : Type) may can now (c : cfg T), reachable may can now c →
  delay_history (hist c) (heap c) ∧
  NoDup (eid <$> pushed (hist c)) ∧ pushed (hist c) ≡ₚ removed (hist c) ++ heap c ∧
  StronglySorted Z.le (reading <$> hist c) ∧ Forall (λ v, reading v ≤ clock c) (hist c) ∧
  ∀ t, removed_by t (hist c) = returned_by t (rets c) ++ sent_by t (sent c) ++ (outq c t).2 ++ holding (th c t).
Proof.
  intros T may can now c Hr. destruct (reach_inv _ _ _ _ Hr) as (HM & HD & HA).
  split_and!; [apply HD|apply HD|apply hist_perm, HD|apply HD|apply HD|intros t; apply HA].
Qed.
Print Assumptions delay_queue_delivers.
(** the heap is only ever touched by the goroutine holding the mutex, and no access panics *)
Theorem delay_queue_exclusive : ∀ (T : Type) may can now (c : cfg T), reachable may can now c →
  (∀ t u, holds (th c t) = true → holds (th c u) = true → t = u) ∧ ∀ t, th c t ≠ Crash.
Proof.
  intros T may can now c Hr. destruct (reach_inv _ _ _ _ Hr) as (HM & HD & _). split; [intros t u H1 H2; by eapply mut_one|].
  intros t Hc. pose proof (d_pc _ HD t) as Hp. by rewrite Hc in Hp.
Qed.
Print Assumptions delay_queue_exclusive.
(** Peek and Empty, when they release the mutex, answer for the queue as it is then *)
Theorem delay_queue_peek_empty : ∀ (T : Type) may can now (c : cfg T), reachable may can now c →
  (∀ t e, th c t = LkUnlock (RPeek (Some e)) → e ∈ heap c ∧ ∀ x, x ∈ heap c → edl e ≤ edl x) ∧
  (∀ t, th c t = LkUnlock (RPeek None) → heap c = []) ∧
  (∀ t b, th c t = LkUnlock (REmpty b) → b = true ↔ heap c = []).
Proof.
  intros T may can now c Hr. destruct (reach_inv _ _ _ _ Hr) as (HM & HD & _). split_and!; intros t.
  - intros e Et. pose proof (d_pc _ HD t) as Hp. rewrite Et in Hp. simpl in Hp. split; [by eapply elem_of_list_lookup_2|]. intros x Hx. exact (head_min _ _ _ (d_ord _ HD) Hp Hx).
  - intros Et. pose proof (d_pc _ HD t) as Hp. rewrite Et in Hp. simpl in Hp. by destruct (heap c).
  - intros b Et. pose proof (d_pc _ HD t) as Hp. rewrite Et in Hp. simpl in Hp. subst. apply bool_decide_eq_true.
Qed.
Print Assumptions delay_queue_peek_empty.

(** the critical sections, as schedules *)
Definition x_push (t : nat) (v : nat) (d : Z) : list (cmd nat) := [XCall t (CPush v d); XAct t; XAct t; XAct t; XAct t].
Definition x_sleep (t : nat) : list (cmd nat) := [XCall t CTake; XAct t; XAct t; XAct t; XAct t].
Definition anyone (t : nat) (o : call nat) : Prop := True.
Definition anytime (t : nat) : Prop := True.
Lemma allowed_all l : Forall (allowed anyone anytime) l.
Proof. apply Forall_forall. intros x _. by destruct x. Qed.

(** REFUTED part of C37.  Take is called on an empty queue and cancelled; the next Push then
    blocks for ever, holding the mutex, so that no call ever gets it again. *)
Definition deadlock_schedule : list (cmd nat) := x_sleep 0 ++ [XCancel 0; XDone 0] ++ x_push 1 7 5 ++ [XAct 1].
Definition stuck_sender (c : cfg nat) : Prop := mut c ∧ th c 1%nat = PuSend ∧ ∀ t, can_recv (th c t) = false.
Lemma stuck_step c c' : stuck_sender c → istep anyone anytime c c' → stuck_sender c'.
Proof.
  intros (HM & Hs & Hr) [l Hst]. split; [by eapply mut_step|].
  assert (Hm : mutex c = Some 1%nat) by (apply HM; by rewrite Hs).
  assert (Hno : ∀ t, receives (th c t) = None) by (intros t; specialize (Hr t); by destruct (th c t)).
  split.
  - rewrite (step_other _ _ _ _ _ _ Hst); [done| |by rewrite Hs]. intros Hi.
    destruct (step_by _ _ _ _ _ _ Hst Hi) as [[E El']|[(u' & dl' & Hu & E)|[(u' & dl' & Hu & Hcn)|[(s' & r' & u' & El' & Hi' & Hs' & Hr' & E)|(x & Hu)]]]]; try congruence.
    unfold act in E. by rewrite Hs in E.
  - intros t. destruct Hst as [c n Hc|c u o b Hu Hmay Hb|c u Hu|c u c' E|c u k dl Hu Hdl|c u k dl Hu Hcn|c s r' k Hs' Hr'|c u e cap q Hq|c u e cap Hq Hu]; simpl; try apply Hr.
    + unfold upd. destruct (decide _); [by destruct o|apply Hr].
    + destruct (decide (t = u)) as [->|]; [|rewrite (act_frame _ _ _ _ E); [apply Hr|done]].
      destruct (decide (u = 1%nat)) as [->|Hne]; [unfold act in E; by rewrite Hs in E|].
      assert (holds (th c u) = false) as Hh by (destruct (holds (th c u)) eqn:Eh; [apply HM in Eh; congruence|done]).
      specialize (Hr u). act_cases E Et; rewrite Et in Hh, Hr; try done. simpl. unfold upd. by rewrite decide_True.
    + specialize (Hr u). by rewrite Hu in Hr.
    + specialize (Hr u). by rewrite Hu in Hr.
    + by rewrite Hno in Hr'.
    + unfold upd. destruct (decide _); [done|apply Hr].
Qed.
Lemma stuck_steps c c' : rtc (istep anyone anytime) c c' → stuck_sender c → stuck_sender c'.
Proof. induction 1; eauto using stuck_step. Qed.
Lemma deadlock_computes : option_map (λ c, (can_recv (th c 0%nat), can_recv (th c 1%nat), th c 1%nat)) (exec (init 0) deadlock_schedule) = Some (false, false, PuSend).
Proof. by vm_compute. Qed.
Lemma deadlock_reached c : exec (init 0) deadlock_schedule = Some c → reachable anyone anytime 0 c.
Proof. apply exec_steps, allowed_all. Qed.
Lemma deadlock_others t : t ≠ 0%nat → t ≠ 1%nat → Forall (λ x, t ∉ names x) deadlock_schedule.
Proof. intros H0 H1. repeat constructor; cbn [names]; set_solver. Qed.
Theorem delay_queue_push_deadlock_refuted : ∃ (c : cfg nat) s, reachable anyone anytime 0 c ∧ th c s = PuSend ∧
  ∀ c', rtc (istep anyone anytime) c c' → th c' s = PuSend ∧ mutex c' = Some s.
Proof.
  pose proof deadlock_computes as H0. pose proof deadlock_reached as Hr. pose proof deadlock_others as Ho.
  revert H0 Hr Ho. generalize deadlock_schedule. intros l H0 Hr Ho.
  destruct (exec (init 0) l) as [c|] eqn:E; [|done]. injection H0 as H0 H1 Hs1. exists c, 1%nat. specialize (Hr c eq_refl).
  assert (Hc : stuck_sender c).
  { split; [by destruct (reach_inv _ _ _ _ Hr)|]. split; [done|]. intros t.
    destruct (decide (t = 0%nat)) as [->|]; [done|]. destruct (decide (t = 1%nat)) as [->|]; [done|].
    rewrite (exec_idle l t (init 0) c); [done|by apply Ho|done]. }
  split_and!; [done|apply Hc|]. intros c' Hcc.
  destruct (stuck_steps _ _ Hcc Hc) as (HM & Hs & _).
  split; [done|]. apply HM. by rewrite Hs.
Qed.
Print Assumptions delay_queue_push_deadlock_refuted.

(** What does hold of C37: with one goroutine that calls Take or Channel and is not cancelled (any number push, pop,
    peek), under a fair scheduler and mutex, every call other than Take returns *)
Theorem delay_queue_calls_complete_partial : ∀ (T : Type) r now run lab,
  execution (solo_may (T := T) r) solo_can now run lab → fair (solo_may r) solo_can run lab → lock_fair run →
  ∀ n t, taking (th (run n) t) = false → th (run n) t ≠ Idle → ∃ m, (n ≤ m)%nat ∧ th (run m) t = Idle.
Proof. intros T r now run lab HE HF HL n t. by eapply completes. Qed.
Print Assumptions delay_queue_calls_complete_partial.
(** the taker's timer is never later than the first expiration, except while a Push that will wake
    it is under way *)
Theorem delay_queue_wakeup_partial : ∀ (T : Type) r now (c : cfg T), reachable (solo_may r) solo_can now c →
  ∀ u dl, th c r = TkWait u dl → mutex c = None → ∀ e, e ∈ heap c → ∃ d, dl = Some d ∧ d ≤ edl e.
Proof.
  intros T r now c Hr u dl Et Hm e He. destruct (solo_reach r now c Hr) as (HM & _ & HS).
  destruct (so_cover _ _ HS dl) as [Hc|[s Hs]]; [by rewrite Et|by apply Hc|].
  assert (holds (th c s) = true) as Hh by (by destruct (th c s)). apply HM in Hh. congruence.
Qed.
Print Assumptions delay_queue_wakeup_partial.
(** a Take under way returns an element, as long as there is one that nobody pops before *)
Theorem delay_queue_take_returns_partial : ∀ (T : Type) r now run lab,
  execution (solo_may (T := T) r) solo_can now run lab → fair (solo_may r) solo_can run lab → lock_fair run → clock_unbounded run →
  ∀ n e, in_take (th (run n) r) = true → e ∈ heap (run n) → ∃ m, (n ≤ m)%nat ∧ (e ∉ heap (run m) ∨ ∃ u x, th (run m) r = TkFound u x).
Proof. intros T r now run lab HE HF HL HC n e Ht He. exact (take_live r now run lab HE HF HL HC e n Ht He). Qed.
Print Assumptions delay_queue_take_returns_partial.
Theorem delay_queue_take_delivers_partial : ∀ (T : Type) r now run lab,
  execution (solo_may (T := T) r) solo_can now run lab → fair (solo_may r) solo_can run lab → lock_fair run →
  ∀ n x, th (run n) r = TkFound UTake x → ∃ m, (n ≤ m)%nat ∧ rets (run (S m)) = rets (run m) ++ [(r, RElem (Some x))] ∧ th (run (S m)) r = Idle.
Proof. intros T r now run lab HE HF HL n x. by eapply found_returned. Qed.
Print Assumptions delay_queue_take_delivers_partial.

(** a fair execution: Take sleeps on the empty queue, a Push wakes it, it waits for the timer,
    a second Push of an earlier element wakes it again, and it returns that element *)
Definition live_schedule : list (cmd nat) :=
  x_sleep 0 ++ x_push 1 7 10 ++ [XAct 1; XComm 1 0; XAct 1] ++ repeat (XAct 0) 5 ++
  x_push 2 8 3 ++ [XAct 2; XTick 2; XComm 2 0; XAct 2] ++ repeat (XAct 0) 5 ++
  [XTick 5; XTimer 0] ++ repeat (XAct 0) 6.
Definition live_run : nat → cfg nat := run_of (init 0) live_schedule.
Definition live_lab : nat → label := lab_of (init 0) live_schedule.
Lemma live_len : length live_schedule = 40%nat.
Proof. done. Qed.
Lemma live_S n : live_run (S n) = match exec1 (live_run n) (nth_cmd live_schedule (live_run n) n) with Some (_, c) => c | None => live_run n end.
Proof. done. Qed.
Lemma live_tail k : th (live_run (40 + k)) = th (live_run 40) ∧ mutex (live_run (40 + k)) = mutex (live_run 40) ∧ clock (live_run (40 + k)) = clock (live_run 40) + Z.of_nat k.
Proof. assert (length live_schedule ≤ 40)%nat as Hl by (rewrite live_len; lia). exact (run_tail anyone anytime (init 0) live_schedule 40 k Hl). Qed.
Lemma live_40 : mutex (live_run 40) = None ∧ clock (live_run 40) = 5.
Proof. by vm_compute. Qed.
Lemma live_idle t : th (live_run 40) t = Idle.
Proof.
  destruct (decide (t = 0%nat)) as [->|H0]; [by vm_compute|]. destruct (decide (t = 1%nat)) as [->|H1]; [by vm_compute|]. destruct (decide (t = 2%nat)) as [->|H2]; [by vm_compute|].
  unfold live_run. rewrite (run_of_idle live_schedule t (init 0) 40); [done|]. repeat constructor; simpl; set_solver.
Qed.
Lemma live_exec n : ∃ r, exec1 (live_run n) (nth_cmd live_schedule (live_run n) n) = Some r.
Proof.
  destruct (decide (n < 40)%nat) as [Hn|Hn].
  - do 40 (destruct n as [|n]; [eexists; by vm_compute|]). lia.
  - unfold nth_cmd. rewrite lookup_ge_None_2; [|rewrite live_len; lia]. cbn [exec1]. rewrite decide_True by lia. by eexists.
Qed.
Lemma live_allowed n : allowed (solo_may 0) solo_can (nth_cmd live_schedule (live_run n) n).
Proof.
  unfold nth_cmd. destruct (live_schedule !! n) as [x|] eqn:Ex; [|done]. apply elem_of_list_lookup_2 in Ex. revert x Ex. apply Forall_forall. repeat constructor.
Qed.
Example live_execution : execution (solo_may 0) solo_can 0 live_run live_lab ∧ fair (solo_may 0) solo_can live_run live_lab ∧ lock_fair live_run ∧ clock_unbounded live_run.
Proof.
  assert (Hi : ∀ n t, (40 ≤ n)%nat → th (live_run n) t = Idle ∧ mutex (live_run n) = None).
  { intros n t Hn. replace n with (40 + (n - 40))%nat by lia. destruct (live_tail (n - 40)) as (-> & -> & _). split; [apply live_idle|apply live_40]. }
  split_and!.
  - split; [done|]. intros n. destruct (live_exec n) as [[l c'] E].
    assert (live_lab n = l) as -> by (unfold live_lab, lab_of; change (run_of (init 0) live_schedule n) with (live_run n); by rewrite E).
    assert (live_run (S n) = c') as -> by (by rewrite live_S, E).
    exact (exec1_step _ _ _ _ _ _ (live_allowed n) E).
  - intros t n. exists (n + 40)%nat. split; [lia|]. right. intros (l & c' & Hst & Hin). destruct (Hi (n + 40)%nat t ltac:(lia)) as [Ht _].
    destruct (step_by _ _ _ _ _ _ Hst Hin) as [[E El']|[(u' & dl' & Hu & E)|[(u' & dl' & Hu & Hcn)|[(s' & r' & u' & El' & [->| ->] & Hs' & Hr' & E)|(x & Hu)]]]]; try congruence.
    + unfold act in E. by rewrite Ht in E.
    + by rewrite Ht in Hr'.
  - intros t n. exists (n + 40)%nat. split; [lia|]. left. by destruct (Hi (n + 40)%nat t ltac:(lia)) as [-> _].
  - intros z. exists (40 + S (Z.to_nat z))%nat. destruct (live_tail (S (Z.to_nat z))) as (_ & _ & ->). rewrite (proj2 live_40). lia.
Qed.
Example live_in_take : in_take (th (live_run 15) 0%nat) = true ∧ heap (live_run 15) = [Ent 0 7%nat 10] ∧
  taking (th (live_run 22) 2%nat) = false ∧ th (live_run 22) 2%nat = PuPeek (Ent 1 8%nat 3) ∧
  th (live_run 39) 0%nat = TkFound UTake (Ent 1 8%nat 3) ∧
  rets (live_run 40) = [(1%nat, RDone); (2%nat, RDone); (0%nat, RElem (Some (Ent 1 8%nat 3)))] ∧ heap (live_run 40) = [Ent 0 7%nat 10].
Proof. by vm_compute. Qed.

(** REFUTED part of C38.  Two goroutines are in Take, asleep with timers for the same element; both
    timers fire; one returns the element.  The other now waits for a wake-up that only another
    Take could bring about: a further element is pushed and expires, its context is cancelled,
    and it stays where it is. *)
Definition two_takers_schedule : list (cmd nat) :=
  x_push 1 7 5 ++ [XAct 1; XAct 1] ++ (XCall 0 CTake :: repeat (XAct 0) 5) ++ (XCall 2 CTake :: repeat (XAct 2) 5) ++
  [XTick 6; XTimer 0; XTimer 2; XAct 0; XAct 2] ++ repeat (XAct 0) 5 ++ x_push 1 8 0 ++ [XAct 1; XAct 1; XTick 7; XCancel 2].
Definition no_take (t : nat) (o : call nat) : Prop := match o with CTake | CChan _ => False | _ => True end.
Definition stuck_taker (c : cfg nat) : Prop :=
  sleeping c = false ∧ th c 2%nat = TkRecv UTake ∧ ∀ t, t ≠ 2%nat → taking (th c t) = false ∧ th c t ≠ PuSend.
Lemma taker_step c c' : stuck_taker c → istep no_take anytime c c' → stuck_taker c'.
Proof.
  intros (Hsl & Hs & Ho) [l Hst].
  assert (Hsend : ∀ t, th c t ≠ PuSend) by (intros t Ht; destruct (decide (t = 2%nat)) as [->|Hne]; [congruence|by apply (Ho t Hne)]).
  destruct Hst as [c n Hc|c u o b Hu Hmay Hb|c u Hu|c u c' E|c u k dl Hu Hdl|c u k dl Hu Hcn|c s r' k Hs' Hr'|c u e cap q Hq|c u e cap Hq Hu]; try by split_and!.
  - assert (u ≠ 2%nat) by congruence. split_and!; [done|simpl; unfold upd; by rewrite decide_False|]. intros t Ht. simpl. unfold upd. destruct (decide (t = u)) as [->|]; [by destruct o|by apply Ho].
  - destruct (decide (u = 2%nat)) as [->|Hne]; [unfold act in E; by rewrite Hs in E|].
    specialize (Ho u Hne) as Hu. split_and!.
    + act_cases E Et; rewrite Et in Hu; simpl; try done; by destruct Hu.
    + by rewrite (act_frame _ _ _ _ E).
    + intros t Ht. destruct (decide (t = u)) as [->|]; [|rewrite (act_frame _ _ _ _ E); [by apply Ho|done]].
      act_cases E Et; rewrite Et in Hu; simpl; unfold upd; rewrite ?decide_True by done; try done; try (by destruct Hu); try congruence.
  - exfalso. destruct (decide (u = 2%nat)) as [->|Hne]; [congruence|]. destruct (Ho u Hne) as [Hu' _]. by rewrite Hu in Hu'.
  - exfalso. destruct (decide (u = 2%nat)) as [->|Hne]; [congruence|]. destruct (Ho u Hne) as [Hu' _]. by rewrite Hu in Hu'.
  - by destruct (Hsend s).
  - exfalso. destruct (decide (u = 2%nat)) as [->|Hne]; [congruence|]. destruct (Ho u Hne) as [Hu' _]. by rewrite Hu in Hu'.
Qed.
Lemma taker_steps c c' : rtc (istep no_take anytime) c c' → stuck_taker c → stuck_taker c'.
Proof. induction 1; eauto using taker_step. Qed.
Lemma two_takers_computes : option_map (λ c, (th c 0%nat, th c 1%nat, th c 2%nat, sleeping c, cancelled c 2%nat, clock c, heap c)) (exec (init 0) two_takers_schedule) =
  Some (Idle, Idle, TkRecv UTake, false, true, 7, [Ent 1 8%nat 6]).
Proof. by vm_compute. Qed.
Lemma two_takers_reached c : exec (init 0) two_takers_schedule = Some c → reachable anyone anytime 0 c.
Proof. apply exec_steps, allowed_all. Qed.
Lemma two_takers_others t : t ≠ 0%nat → t ≠ 1%nat → t ≠ 2%nat → Forall (λ x, t ∉ names x) two_takers_schedule.
Proof. intros H0 H1 H2. repeat constructor; cbn [names]; set_solver. Qed.
Theorem delay_queue_two_takers_refuted : ∃ (c : cfg nat) t e, reachable anyone anytime 0 c ∧
  in_take (th c t) = true ∧ cancelled c t = true ∧ e ∈ heap c ∧ edl e < clock c ∧ (∀ u, u ≠ t → th c u = Idle) ∧
  ∀ c', rtc (istep no_take anytime) c c' → th c' t = th c t.
Proof.
  pose proof two_takers_computes as H0. pose proof two_takers_reached as Hr. pose proof two_takers_others as Ho.
  revert H0 Hr Ho. generalize two_takers_schedule. intros l H0 Hr Ho.
  destruct (exec (init 0) l) as [c|] eqn:E; [|done]. injection H0 as H0 H1 H2 Hsl Hcn Hck Hh. specialize (Hr c eq_refl).
  assert (Hi : ∀ u, u ≠ 2%nat → th c u = Idle).
  { intros u Hu. destruct (decide (u = 0%nat)) as [->|]; [done|]. destruct (decide (u = 1%nat)) as [->|]; [done|].
    rewrite (exec_idle l u (init 0) c); [done|by apply Ho|done]. }
  exists c, 2%nat, (Ent 1 8%nat 6). rewrite Hh, Hck, H2. split_and!; [done|done|done|by left|simpl; lia|done|].
  intros c' Hcc. apply (taker_steps _ _ Hcc). split_and!; [done|done|]. intros t Ht. by rewrite (Hi t Ht).
Qed.
Print Assumptions delay_queue_two_takers_refuted.
Lemma select_step {T : Type} may can l (c c' : cfg T) t u dl : step may can l c c' → th c t = TkWait u dl → cancelled c t = true →
  th c' t ≠ TkWait u dl ∨ ¬ involves l t ∧ th c' t = TkWait u dl ∧ cancelled c' t = true.
Proof.
  intros Hst Ht Hc.
  destruct Hst as [c i Hi|c v o b Hv Hmay Hb|c v Hv|c v c' E|c v k' dl' Hv Hdl|c v k' dl' Hv Hcn|c s r' k' Hs' Hr'|c v e cap q Hq|c v e cap Hq Hv]; simpl.
  - right. split_and!; [tauto|done..].
  - right. assert (t ≠ v) by congruence. split_and!; [tauto|unfold upd; by rewrite decide_False..].
  - right. split_and!; [tauto|done|unfold upd; by destruct (decide _)].
  - destruct (decide (v = t)) as [->|Hne]; [unfold act in E; by rewrite Ht in E|]. right. split_and!; [done|rewrite (act_frame _ _ _ _ E); [done|congruence]|].
    by act_cases E Et.
  - destruct (decide (v = t)) as [->|Hne]; [left; unfold upd; by rewrite decide_True|]. right. unfold upd. by rewrite decide_False.
  - destruct (decide (v = t)) as [->|Hne]; [left; destruct k'; simpl; unfold upd; by rewrite decide_True|]. right. destruct k'; simpl; unfold upd; by rewrite decide_False.
  - destruct (decide (r' = t)) as [->|Hne]; [left; unfold upd; by rewrite decide_True|]. assert (s ≠ t) by congruence. right. split_and!; [by intros [|]|unfold upd; by rewrite !decide_False|done].
  - right. split_and!; [tauto|done..].
  - right. assert (v ≠ t) by congruence. unfold upd. by rewrite decide_False.
Qed.
(** What does hold of C38, for any number of takers: a Take waiting in its select leaves it once its context is
    cancelled. *)
Theorem delay_queue_cancel_partial : ∀ (T : Type) may can now run lab, execution (T := T) may can now run lab → fair may can run lab →
  ∀ n t u dl, th (run n) t = TkWait u dl → cancelled (run n) t = true → ∃ m, (n ≤ m)%nat ∧ th (run m) t ≠ TkWait u dl.
Proof.
  intros T may can now run lab [_ HE] HF n t u dl Ht Hc. destruct (HF t n) as (m & Hm & Hor).
  assert (Hk : ∀ k, (∃ m, (n ≤ m)%nat ∧ th (run m) t ≠ TkWait u dl) ∨ th (run (n + k)%nat) t = TkWait u dl ∧ cancelled (run (n + k)%nat) t = true).
  { induction k as [|k [IH|[IH1 IH2]]]; [right; by rewrite Nat.add_0_r|by left|]. replace (n + S k)%nat with (S (n + k)) by lia.
    destruct (select_step _ _ _ _ _ _ _ _ (HE (n + k)%nat) IH1 IH2) as [Hne|(_ & H1 & H2)]; [left; exists (S (n + k)); split; [lia|done]|by right]. }
  destruct (Hk (m - n)%nat) as [Hd|[H1 H2]]; [done|]. replace (n + (m - n))%nat with m in H1, H2 by lia.
  destruct (select_step _ _ _ _ _ _ _ _ (HE m) H1 H2) as [Hne|(Hni & _)]; [exists (S m); split; [lia|done]|].
  exfalso. destruct Hor as [Hi|Hen]; [done|]. apply Hen. eexists _, _. split; [by eapply st_done|done].
Qed.
Print Assumptions delay_queue_cancel_partial.
(** a goroutine that is cancelled while it waits: its select can react *)
Example cancel_waiting : option_map (λ c, (th c 0%nat, cancelled c 0%nat)) (exec (init 0) (x_sleep 0 ++ [XCancel 0])) = Some (TkWait UTake None, true).
Proof. by vm_compute. Qed.
(** an execution for C36: two pushes, a Pop, and a Peek about to answer *)
Definition deliver_schedule : list (cmd nat) :=
  x_push 1 7 5 ++ [XAct 1; XAct 1] ++ x_push 2 8 3 ++ [XAct 2; XAct 2; XTick 4; XCall 3 CPop] ++ repeat (XAct 3) 5 ++ (XCall 1 CPeek :: repeat (XAct 1) 2).
Example deliver_case : option_map (λ c, (hist c, heap c, th c 1%nat, rets c)) (exec (init 0) deliver_schedule) =
  Some ([EvPush 1 (Ent 0 7%nat 5) 0 5; EvPush 2 (Ent 1 8%nat 3) 0 3; EvPop 3 (Ent 1 8%nat 3) 4], [Ent 0 7%nat 5], LkUnlock (RPeek (Some (Ent 0 7%nat 5))),
        [(1%nat, RDone); (2%nat, RDone); (3%nat, RElem (Some (Ent 1 8%nat 3)))]).
Proof. by vm_compute. Qed.
(** Peek and Empty that find the mutex free, from the call to the answer: Peek answers an
    element of the queue with the least expiration, or that there is none; Empty answers whether
    the queue is empty; both leave the queue as it is and the mutex free *)
Theorem delay_queue_peek_empty_call : ∀ (T : Type) may can now (c : cfg T) t, reachable may can now c → mutex c = None → th c t = Idle →
  (∃ r c', exec c (XCall t CPeek :: repeat (XAct t) 3) = Some c' ∧ rets c' = rets c ++ [(t, RPeek r)] ∧
     heap c' = heap c ∧ mutex c' = None ∧ th c' t = Idle ∧
     match r with Some e => e ∈ heap c ∧ ∀ x, x ∈ heap c → edl e ≤ edl x | None => heap c = [] end) ∧
  (∃ b c', exec c (XCall t CEmpty :: repeat (XAct t) 3) = Some c' ∧ rets c' = rets c ++ [(t, REmpty b)] ∧
     heap c' = heap c ∧ mutex c' = None ∧ th c' t = Idle ∧ (b = true ↔ heap c = [])).
Proof.
  intros T may can now c t Hr Hm Ht. destruct (reach_inv _ _ _ _ Hr) as (_ & HD & _).
  assert (Hu : ∀ (f : nat → pc T) x, upd f t x t = x) by (intros; unfold upd; by rewrite decide_True).
  assert (He : gempty (T:=ent T) [] = true) by done.
  assert (He' : ∀ (e : ent T) h, gempty (e :: h) = false) by done.
  assert (Hp : ∀ (e : ent T) h, gpeek (e :: h) = Ret e) by done.
  destruct c as [ck h m sl thr cn fr oq hi re se]. simpl in *. subst m. split.
  - destruct h as [|e h].
    + eexists None, _. split; [|split; [|split; [|split; [|split]]]].
      * cbn -[upd]. rewrite Ht. do 4 (cbn -[upd gempty gpeek]; unfold exec1, act, locked; cbn -[upd gempty gpeek]; rewrite ?Hu, ?He, ?He', ?Hp). cbn -[upd gempty gpeek]. reflexivity.
      * done.
      * done.
      * done.
      * simpl. by rewrite Hu.
      * done.
    + eexists (Some e), _. split; [|split; [|split; [|split; [|split]]]].
      * cbn -[upd]. rewrite Ht. do 4 (cbn -[upd gempty gpeek]; unfold exec1, act, locked; cbn -[upd gempty gpeek]; rewrite ?Hu, ?He, ?He', ?Hp). cbn -[upd gempty gpeek]. reflexivity.
      * done.
      * done.
      * done.
      * simpl. by rewrite Hu.
      * split; [by left|]. intros x Hx. exact (head_min _ _ _ (d_ord _ HD) eq_refl Hx).
  - eexists _, _. split; [|split; [|split; [|split; [|split]]]].
    * cbn -[upd gempty]. rewrite Ht. do 4 (cbn -[upd gempty]; unfold exec1, act, locked; cbn -[upd gempty]; rewrite ?Hu). cbn -[upd gempty]. reflexivity.
    * reflexivity.
    * done.
    * done.
    * simpl. by rewrite Hu.
    * by destruct h.
Qed.
Print Assumptions delay_queue_peek_empty_call.
Example peek_call_case : option_map (λ c, (rets c, heap c, mutex c)) (exec (init 0) (deliver_schedule ++ [XAct 1; XCall 2 CEmpty; XAct 2; XAct 2; XAct 2])) =
  Some ([(1%nat, RDone); (2%nat, RDone); (3%nat, RElem (Some (Ent 1 8%nat 3))); (1%nat, RPeek (Some (Ent 0 7%nat 5))); (2%nat, REmpty false)], [Ent 0 7%nat 5], None).
Proof. by vm_compute. Qed.
