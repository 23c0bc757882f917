(** * The timing wheel in every interleaving *)
From stdpp Require Import relations.
From Verif Require Import GoBase HeapModel WheelModel WheelFineModel WheelFineSpec WheelFineProofs WheelFineCover.
Local Open Scope Z_scope.

Lemma adds_iff c own t : acct c own → (∃ u, adds (th c u) t) ↔ own t ≠ None.
Proof.
  intros HA. split.
  - intros [u Hu%adds_hand]. apply (a_own c own HA) in Hu. congruence.
  - intros Hn. destruct (own t) as [u|] eqn:E; [|done]. exists u. by apply adds_hand, (a_own c own HA).
Qed.
Lemma pending_iff c own t : acct c own → pending c t ↔ tb (mm c) t ≠ None ∨ own t ≠ None.
Proof. intros HA. unfold pending. rewrite <- (adds_iff c own t HA). split; (intros [H|H]; [left|by right]); [by destruct H as [r ->]|]. destruct (tb (mm c) t); [eauto|done]. Qed.

(** C72: every submission ends exactly once or is pending, and only periodic timers are submitted again *)
Theorem wheel_account tick n now c : wheel_exec anything tick n now c → ∀ t,
  (pending c t → enters c t = (starts c t + drops c t + stops c t + 1)%nat) ∧
  (¬ pending c t → enters c t = (starts c t + drops c t + stops c t)%nat) ∧
  (t ∉ periodic (gh c) → (enters c t ≤ 1)%nat).
Proof.
  intros [HL [own HA]]%inv_exec t. rewrite (pending_iff c own t HA). pose proof (a_count c own HA t) as Hc. pose proof (a_due c own HA t) as Hd. split_and!.
  - intros Hp. destruct (tb (mm c) t), (own t); simpl in *; try lia. by destruct Hp.
  - intros Hp. destruct (tb (mm c) t); [destruct Hp; by left|]. destruct (own t); [destruct Hp; by right|]. simpl in *. lia.
  - intros Hp. apply (a_once c own HA t Hp).
Qed.
(** C72: a bucket nobody is working on holds exactly the timers that point to it, each once *)
Theorem wheel_buckets tick n now c : wheel_exec anything tick n now c → ∀ r, bmu (mm c) r = None →
  NoDup (tid <$> btimers (bk (mm c) r)) ∧ ∀ t, t ∈ (tid <$> btimers (bk (mm c) r)) ↔ tb (mm c) t = Some r.
Proof.
  intros [HL [own HA]]%inv_exec r Hr. assert (Hc : content c r = btimers (bk (mm c) r)) by (unfold content; by rewrite Hr). rewrite <- Hc. split; [apply (a_nodup c own HA)|].
  intros t. split; [|apply (a_live c own HA)]. intros (x & -> & Hx)%elem_of_list_fmap. by apply (a_in c own HA).
Qed.
(** C72: no two goroutines are inside the same mutex *)
Theorem wheel_exclusion tick n now c u w : wheel_exec anything tick n now c →
  (∀ r, r ∈ buckets_of (th c u) → r ∈ buckets_of (th c w) → u = w) ∧ (has_queue (th c u) = true → has_queue (th c w) = true → u = w).
Proof.
  intros [HL _]%inv_exec. split.
  - intros r Hu%(lk_b c HL) Hw%(lk_b c HL). congruence.
  - intros Hu%(lk_q c HL) Hw%(lk_q c HL). congruence.
Qed.
(** C72: no timer is forgotten: the bucket of a waiting timer is in the queue, in a channel or in the
    hands of a goroutine that will pass it on; with one Run that is not cancelled, the channel has a reader *)
Theorem wheel_none_forgotten tick n now c t r : wheel_exec sane tick n now c → tb (mm c) t = Some r → on_way c r.
Proof.
  intros Hx Ht. destruct (cover_exec sane tick n now c ltac:(done) Hx) as [_ HC]. apply (cv_swap c HC) in Ht as [He|[u Hu]].
  - apply (cv_exp c HC) in He as [?|[?|[u Hu]]]; [by left|right; by left|right; right; exists u; by apply brings_carries].
  - right; right. exists u. by apply swaps_carries.
Qed.
Theorem wheel_channel_read tick n now c v : wheel_exec sane_one_run tick n now c → outq (cc c) v ≠ [] → ∃ u, serves (th c u) v.
Proof.
  intros Hx Ho. destruct (cover_exec sane_one_run tick n now c ltac:(by intros ?? []) Hx) as [_ HC].
  destruct (solo_exec tick n now c) as [_ [o HS]]; [apply (step_mono sane_one_run); [by intros ?? []|done]|]. apply (cv_out c HC), (s_q c o HS) in Ho as [ru ->]. exists ru. by apply (s_r c _ HS).
Qed.
(** C72: every timer in a bucket belongs there: the bucket is the slot of the timer's tick, in the
    wheel of the bucket *)
Theorem wheel_slots tick n now c r x : wheel_exec sane tick n now c → x ∈ btimers (bk (mm c) r) → in_slot c r x.
Proof. intros Hx Hr. destruct (cover_exec sane tick n now c ltac:(done) Hx) as [HS _]. by apply (sl_in c HS). Qed.
(** C73: Stop returns true at most once per timer, and then the timer is never started again *)
Theorem wheel_stop_final tick n now c t : wheel_exec anything tick n now c →
  (true_stops c t ≤ 1)%nat ∧
  ((0 < true_stops c t)%nat → ∀ ok c', rtc (step ok) c c' → starts c' t = starts c t ∧ ¬ pending c' t) ∧
  ((0 < true_stops c t)%nat → t ∉ periodic (gh c) → starts c t = 0%nat).
Proof.
  intros Hx. pose proof (inv_exec _ _ _ _ _ Hx) as HI. destruct Hx as (l & _ & Hr).
  assert (∃ sl, sinv c sl) as [sl [_ Hsl]].
  { assert (∃ sl, sinv (init l n now) sl) as H0 by (exists []; split; [done|intros x; vm_compute; lia]). clear HI. revert H0. induction Hr as [c|c c1 c2 H1 H2 IH]; [done|]. intros [sl Hsl]. apply IH. destruct H1 as (x & _ & Hn). by apply (sinv_next c x c1 sl). }
  specialize (Hsl t). destruct HI as [HL [own HA]]. pose proof (a_due c own HA t) as Hd. split_and!; [lia| |].
  - intros H ok c' Hr'. split; [apply (stopped_final ok); [by split; [|exists own]|lia|done]|].
    assert (HI' : inv c') by (apply (inv_rtc ok c); [done|by split; [|exists own]]). destruct HI' as [_ [own' HA']]. rewrite (pending_iff c' own' t HA').
    assert (0 < stops c' t)%nat. { assert (Hst : (0 < stops c t)%nat) by lia. clear -Hr' Hst. induction Hr' as [c|c c1 c2 H1 H2 IH]; [done|]. apply IH. destruct H1 as (x & _ & Hn). pose proof (stops_mono c x c1 t Hn). lia. }
    pose proof (a_due c' own' HA' t) as Hd'. intros [Hn|Hn]; [destruct (tb (mm c') t)|destruct (own' t)]; simpl in Hd'; try done; lia.
  - intros H Hp. pose proof (a_once c own HA t Hp) as [H1 _]. pose proof (a_count c own HA t). lia.
Qed.
(** C73: a removal by Stop is reported: one call returned true, or is about to *)
Theorem wheel_stop_told tick n now c t : wheel_exec anything tick n now c → (0 < stops c t)%nat → (0 < true_stops c t)%nat ∨ ∃ u, reporting (th c u) t.
Proof.
  intros Hx Hs. destruct (told_exec _ _ _ _ _ Hx t Hs) as [?|[u Hu]]; [by left|right]. exists u. unfold st in Hu. unfold reporting. repeat case_match; congruence.
Qed.
(** C73: a step of Stop on timer [t] leaves every other timer alone *)
Definition stopping (p : pc) (t : nat) : Prop := match p with SLoad x _ | SLock _ x | SIn _ x | SUnl _ x _ => x = t | _ => False end.
Theorem wheel_stop_only_own c u t c' x : stopping (th c u) t → next c (LAct u) = Some c' → x ≠ t →
  tb (mm c') x = tb (mm c) x ∧ (pending c' x ↔ pending c x) ∧ (∀ r, x ∈ (tid <$> btimers (bk (mm c') r)) ↔ x ∈ (tid <$> btimers (bk (mm c) r))) ∧
  enters c' x = enters c x ∧ starts c' x = starts c x ∧ drops c' x = drops c x ∧ stops c' x = stops c x.
Proof.
  intros Hs Hn Hx. unfold next in Hn. destruct (crashed c); [done|]. unfold act, lock_b in Hn.
  assert (Hth : ∀ d p, th d = th c → stopping p t ∨ p = Idle → (∃ w, adds (th (goto d u p) w) x) ↔ ∃ w, adds (th c w) x).
  { intros d p E Hp. split; intros [w Hw]; exists w; simpl in *; rewrite E in *; unfold fupd in *; destruct (decide (w = u)) as [->|]; try done.
    - exfalso. destruct Hp as [Hp| ->]; [|done]. by destruct p.
    - exfalso. by destruct (th c u). }
  assert (Htb : ∀ d p, th d = th c → stopping p t ∨ p = Idle → tb (mm d) x = tb (mm c) x → pending (goto d u p) x ↔ pending c x).
  { intros d p E1 E2 E3. unfold pending. rewrite (Hth d p E1 E2). simpl. by rewrite E3. }
  destruct (th c u) eqn:Eu; try done; simpl in Hs; subst t0.
  - destruct (tb (mm c) t); simplify_eq; split_and!; try done; apply Htb; try done; [by left|by right].
  - destruct (bmu (mm c) r); [done|]. simplify_eq. split_and!; try done. apply Htb; try done. by left.
  - case_decide as Ht; simplify_eq; split_and!; try done.
    + simpl. by rewrite fupd_ne.
    + apply Htb; try done; [by left|]. simpl. by rewrite fupd_ne.
    + intros r0. simpl. unfold fupd. case_decide as E; [subst|done]. simpl. rewrite !elem_of_list_fmap. split; intros (y & Ey & Hy); exists y; (split; [done|]).
      * by apply elem_of_list_filter in Hy as [_ ?].
      * apply elem_of_list_filter. split; [congruence|done].
    + unfold stops. simpl. rewrite times_app, times_one, decide_False by done. lia.
    + apply Htb; try done. by left.
  - simplify_eq. split_and!; try done. apply Htb; try done. by left.
Qed.

(** ** Executions written as lists *)
Lemma exec_steps (ok : cfg → label → Prop) c l c' : (∀ c x, x ∈ l → ok c x) → exec c l = Some c' → rtc (step ok) c c'.
Proof.
  revert c. induction l as [|x l IH]; simpl; intros c Hok He; [by simplify_eq|]. destruct (next c x) as [c1|] eqn:En; [|done].
  eapply rtc_l; [exists x; split; [apply Hok; left|done]|]. apply IH; [|done]. intros d y Hy. apply Hok. by right.
Qed.
Definition who (l : label) : list nat :=
  match l with LTick _ | LCancel _ => [] | LCall u (CRun v) => [u; v] | LCall u _ | LAgain u _ | LAct u | LTimer u | LDone u | LRecv u | LNil u | LExit u => [u] | LWake s r => [s; r] end.
Lemma next_who c l c' w : next c l = Some c' → w ∉ who l → th c' w = th c w.
Proof.
  intros Hn Hw. unfold next in Hn. destruct (crashed c); [done|]. destruct l as [| | | |u| | | | | |].
  5: { apply (act_other c u); [|done]. intros ->. apply Hw. left. }
  all: repeat case_match; simplify_eq; simpl in *; rewrite ?not_elem_of_cons in Hw; try done; unfold fupd; repeat case_decide; subst; naive_solver.
Qed.
Lemma exec_who c l c' w : exec c l = Some c' → (∀ x, x ∈ l → w ∉ who x) → th c' w = th c w.
Proof.
  revert c. induction l as [|x l IH]; simpl; intros c He Hw; [by simplify_eq|]. destruct (next c x) as [c1|] eqn:En; [|done].
  rewrite (IH c1 He); [|intros y Hy; apply Hw; by right]. apply (next_who c x); [done|]. apply Hw. left.
Qed.
Definition acts (u n : nat) : list label := replicate n (LAct u).
Definition after (u t : nat) (e : Z) : list label := LCall u (CAfter (Timer t e)) :: acts u 11.
Definition w0 : cfg := init (Level 1 10 0) 10 0.
Lemma exec_app c l l' : exec c (l ++ l') = match exec c l with Some d => exec d l' | None => None end.
Proof. revert c. induction l as [|x l IH]; intros c; [done|]. simpl. destruct (next c x); [apply IH|done]. Qed.
Lemma w0_exec (ok : cfg → label → Prop) l c : (∀ c x, x ∈ l → ok c x) → exec w0 l = Some c → wheel_exec ok 1 10 0 c.
Proof. intros Hok He. exists (Level 1 10 0). split; [by vm_compute|]. by apply (exec_steps ok w0 l). Qed.
(** labels that [one_run] allows in every state *)
Definition plain (l : label) : bool := match l with LCancel _ | LCall _ (CRun _) => false | _ => true end.
Lemma w0_one_run u v l c : u ≠ v → forallb plain l = true → exec w0 (LCall u (CRun v) :: l) = Some c → wheel_exec one_run 1 10 0 c.
Proof.
  intros Huv Hl He. exists (Level 1 10 0). split; [by vm_compute|]. cbn [exec] in He. destruct (next w0 (LCall u (CRun v))) as [c1|] eqn:E1; [|done].
  eapply rtc_l; [exists (LCall u (CRun v)); split; [done|exact E1]|]. apply (exec_steps one_run c1 l); [|done]. intros d x Hx. rewrite forallb_forall in Hl. specialize (Hl x). rewrite <- elem_of_list_In in Hl. specialize (Hl Hx).
  destruct x; simpl in *; try done. by destruct o.
Qed.

(** C74, REFUTED: the run loop can wait for itself.  Goroutine 2 has decided on the bucket of its timer
    (expiration 5) and is delayed; the wheel advances to 8; goroutine 3 puts a timer with expiration 15 into
    the same bucket; goroutine 2 adds its own and sets the bucket's expiration back to 5.  When the
    bucket comes up, Run adds the timer with expiration 15 again, to the bucket whose mutex it holds *)
Definition self_schedule : list label :=
  [LCall 2 (CAfter (Timer 1 5)); LAct 2] ++ after 3 2 8 ++ [LTick 9] ++ acts 1 7 ++ [LRecv 0] ++ acts 0 10 ++
  after 3 3 15 ++ acts 2 10 ++ acts 1 7 ++ [LRecv 0] ++ acts 0 5.
Theorem wheel_run_self_wait_refuted : ∃ c, wheel_exec one_run 1 10 0 c ∧ serves (th c 0%nat) 1 ∧ th c 2%nat = Idle ∧ th c 3%nat = Idle ∧
  ∀ c', rtc (step anything) c c' → th c' 0%nat = th c 0%nat ∧ self_wait (th c' 0%nat) ∧ pending c' 1 ∧ starts c' 1 = 0%nat.
Proof.
  assert (Hv : (λ c, (th c 0%nat, th c 2%nat, th c 3%nat, tb (mm c) 1%nat, starts c 1)) <$> exec w0 (LCall 0 (CRun 1) :: self_schedule) =
    Some (ALock (0%nat, 5) 15 (Timer 3 15) (KFlush 1 (0%nat, 5) [Timer 1 5]), Idle, Idle, Some (0%nat, 5), 0%nat)) by (vm_compute; done).
  destruct (exec w0 (LCall 0 (CRun 1) :: self_schedule)) as [c|] eqn:He; [|done]. injection Hv as E1 E2 E3 E4 E5. exists c.
  pose proof (w0_one_run 0 1 self_schedule c ltac:(done) ltac:(done) He) as Hx. clear He. split_and!; try done; [by rewrite E1|].
  intros c' Hr. destruct (self_wait_forever anything c c' 0 _ _ _ _ _ (inv_exec _ _ _ _ _ Hx) E1 Hr) as [H1 H2]. destruct (H2 1%nat E4) as [H3 H4].
  split_and!; [done|by rewrite H1, E1|left; eauto|by rewrite H4].
Qed.
(** C74, in general: a run loop that waits for itself never moves again, and no timer left in that bucket
    is ever started or can be stopped *)
Theorem wheel_self_wait_forever tick n now c u : wheel_exec anything tick n now c → self_wait (th c u) →
  ∃ r, r ∈ buckets_of (th c u) ∧ ∀ ok c', rtc (step ok) c c' → th c' u = th c u ∧
    ∀ t, tb (mm c) t = Some r → pending c' t ∧ starts c' t = starts c t ∧ tb (mm c') t = Some r.
Proof.
  intros HI%inv_exec Hs. destruct (th c u) eqn:Eu; try done. destruct k as [| |v b rest]; try done. simpl in Hs. subst b. exists r. split; [left|].
  intros ok c' Hr. destruct (self_wait_forever ok c c' u _ _ _ _ _ HI Eu Hr) as [H1 H2]. split; [congruence|]. intros y Ht. destruct (H2 y Ht) as [H3 H4]. split_and!; [left; eauto|done..].
Qed.

(** C74, REFUTED: after the context is cancelled, Run can block for ever in the push of the bucket it is
    refilling, because the queue goroutine left while announced as sleeping *)
Definition cancel_schedule : list label :=
  [LCall 0 (CRun 1); LCall 2 (CAfter (Timer 1 12))] ++ acts 2 14 ++ [LTick 11] ++ acts 1 11 ++ [LCancel 1; LDone 1; LAct 1; LRecv 0] ++ acts 0 17.
Lemma deaf_of l c : exec w0 l = Some c → (∀ w, (w < 4)%nat → hears (th c w) = false) → (∀ x, x ∈ l → ∀ w, w ∈ who x → (w < 4)%nat) → deaf c.
Proof.
  intros He H1 H2 w. destruct (decide (w < 4)%nat) as [Hw|Hw]; [by apply H1|]. rewrite (exec_who w0 l c w He); [done|]. intros x Hx Hin. specialize (H2 x Hx w Hin). lia.
Qed.
Lemma who_below l : forallb (λ x, forallb (λ w, Nat.ltb w 4) (who x)) l = true → ∀ x, x ∈ l → ∀ w, w ∈ who x → (w < 4)%nat.
Proof.
  rewrite forallb_forall. intros H x Hx w Hw. apply elem_of_list_In in Hx. specialize (H x Hx). rewrite forallb_forall in H. apply elem_of_list_In in Hw. by apply Nat.ltb_lt, H.
Qed.
Theorem wheel_cancelled_run_stuck_refuted : ∃ c, wheel_exec anything 1 10 0 c ∧ serves (th c 0%nat) 1 ∧ cancelled (cc c) 1%nat = true ∧
  ∀ c', rtc (step anything) c c' → th c' 0%nat = th c 0%nat ∧ qmu (qq c') = Some 0%nat.
Proof.
  assert (Hv : (λ c, (th c 0%nat, th c 1%nat, th c 2%nat, th c 3%nat, cancelled (cc c) 1%nat)) <$> exec w0 cancel_schedule =
    Some (QSend (Timer 1 12) (KFlush 1 (1%nat, 1) []), TEnd, Idle, Idle, true)) by (vm_compute; done).
  destruct (exec w0 cancel_schedule) as [c|] eqn:He; [|done]. injection Hv as E1 E2 E3 E4 E5. exists c.
  assert (Hx : wheel_exec anything 1 10 0 c) by (apply (w0_exec anything cancel_schedule c (λ _ _ _, I) He)). pose proof (deaf_of cancel_schedule c He) as Hdf. clear He. split_and!; try done; [by rewrite E1|].
  assert (Hd : deaf c).
  { apply Hdf; [|by apply who_below; vm_compute]. intros w Hw. destruct w as [|[|[|[|w]]]]; [by rewrite E1|by rewrite E2|by rewrite E3|by rewrite E4|lia]. }
  intros c' Hr. destruct (jam_forever anything c c' 0 _ _ (inv_exec _ _ _ _ _ Hx) E1 Hd Hr) as (H1 & _ & _ & H2). split; [congruence|done].
Qed.
(** C74, REFUTED: once a Run has been cancelled while its queue was asleep, the next AfterFunc never
    returns, whatever is called afterwards, another Run included *)
Definition after_cancel_schedule : list label :=
  [LCall 0 (CRun 1)] ++ acts 1 4 ++ [LCancel 1; LDone 1; LAct 1; LExit 0; LCall 2 (CAfter (Timer 1 5))] ++ acts 2 9.
Theorem wheel_afterfunc_stuck_refuted : ∃ c, wheel_exec anything 1 10 0 c ∧ th c 0%nat = Idle ∧
  ∀ c', rtc (step anything) c c' → th c' 2%nat = QSend (Timer 1 5) KAfter ∧ qmu (qq c') = Some 2%nat ∧ heap (qq c') = heap (qq c).
Proof.
  assert (Hv : (λ c, (th c 0%nat, th c 1%nat, th c 2%nat, th c 3%nat)) <$> exec w0 after_cancel_schedule = Some (Idle, TEnd, QSend (Timer 1 5) KAfter, Idle)) by (vm_compute; done).
  destruct (exec w0 after_cancel_schedule) as [c|] eqn:He; [|done]. injection Hv as E1 E2 E3 E4. exists c.
  assert (Hx : wheel_exec anything 1 10 0 c) by (apply (w0_exec anything after_cancel_schedule c (λ _ _ _, I) He)). pose proof (deaf_of after_cancel_schedule c He) as Hdf. clear He. split_and!; try done.
  assert (Hd : deaf c).
  { apply Hdf; [|by apply who_below; vm_compute]. intros w Hw. destruct w as [|[|[|[|w]]]]; [by rewrite E1|by rewrite E2|by rewrite E3|by rewrite E4|lia]. }
  intros c' Hr. destruct (jam_forever anything c c' 2 _ _ (inv_exec _ _ _ _ _ Hx) E3 Hd Hr) as (H1 & _ & H2 & H3). done.
Qed.
(** C74: with one Run that is not cancelled, whoever is inside a call can move, or waits - directly or through
    others - for a goroutine that can, or for the run loop that waits for itself.  Missing: that the
    last case does not occur (it does, above) and that the scheduler is fair *)
Theorem wheel_progress_partial tick n now c u : wheel_exec one_run tick n now c → crashed c = false → busy (th c u) = true →
  ∃ w, rtc (waits c) u w ∧ (moves c w ∨ self_wait (th c w)).
Proof. intros [HL [o HS]]%solo_exec Hc Hb. by apply (progress c o). Qed.
(** C74: and a goroutine that waits in this sense has no step of its own *)
Theorem wheel_waits_blocked tick n now c u w : wheel_exec one_run tick n now c → crashed c = false → waits c u w → ¬ moves c u.
Proof. intros [HL [o HS]]%solo_exec Hc Hw. by apply (waits_stuck c o HS Hc u w). Qed.

(** ** Concrete executions *)
(** a timer of each kind: one started, one stopped, one pending in the higher wheel, one dropped *)
Definition mixed : list label :=
  [LCall 0 (CRun 1)] ++ after 2 1 3 ++ LCall 2 (CAfter (Timer 2 7)) :: acts 2 10 ++ LCall 2 (CAfter (Timer 3 40)) :: acts 2 13 ++ LCall 3 (CAfter (Timer 4 0)) :: acts 3 2 ++
  LCall 3 (CStop 2) :: acts 3 5 ++ [LTick 4] ++ acts 1 7 ++ [LRecv 0] ++ acts 0 10.
Example wheel_account_case : ∃ c, wheel_exec anything 1 10 0 c ∧ (λ t, (enters c t, starts c t, drops c t, stops c t, true_stops c t)) <$> [1; 2; 3; 4]%nat =
  [(1, 1, 0, 0, 0); (1, 0, 0, 1, 1); (1, 0, 0, 0, 0); (1, 0, 1, 0, 0)]%nat ∧ tb (mm c) 3%nat = Some (1%nat, 4).
Proof.
  assert (Hv : (λ c, ((λ t, (enters c t, starts c t, drops c t, stops c t, true_stops c t)) <$> [1; 2; 3; 4]%nat, tb (mm c) 3%nat)) <$> exec w0 mixed =
    Some ([(1, 1, 0, 0, 0); (1, 0, 0, 1, 1); (1, 0, 0, 0, 0); (1, 0, 1, 0, 0)]%nat, Some (1%nat, 4))) by (vm_compute; done).
  destruct (exec w0 mixed) as [c|] eqn:He; [|done]. apply (inj Some) in Hv. pose proof (f_equal fst Hv) as H1. pose proof (f_equal snd Hv) as H2. exists c. split; [apply (w0_exec anything mixed c (λ _ _ _, I) He)|]. by split.
Qed.
(** timer 3 waits in the higher wheel, whose bucket is in the queue *)
Example wheel_none_forgotten_case : ∃ c, wheel_exec sane 1 10 0 c ∧ tb (mm c) 3%nat = Some (1%nat, 4) ∧ heap (qq c) = [(0%nat, 7); (1%nat, 4)] ∧
  btimers (bk (mm c) (1%nat, 4)) = [Timer 3 40] ∧ ltick <$> levels (mm c) = [1; 10].
Proof.
  assert (Hv : (λ c, (tb (mm c) 3%nat, heap (qq c), btimers (bk (mm c) (1%nat, 4)), ltick <$> levels (mm c))) <$> exec w0 mixed = Some (Some (1%nat, 4), [(0%nat, 7); (1%nat, 4)], [Timer 3 40], [1; 10])) by (vm_compute; done).
  destruct (exec w0 mixed) as [c|] eqn:He; [|done]. injection Hv as E1 E2 E3 E4. exists c.
  split; [|clear He; done]. assert (Hs : Forall (λ l, match l with LCall _ (CAfter t) | LCall _ (CSchedule t) | LAgain _ t => 0 ≤ texp t < 100 | _ => True end) mixed) by (clear; repeat constructor; simpl; lia).
  apply (w0_exec sane mixed c); [|exact He]. clear He. intros d x Hx. rewrite Forall_forall in Hs. specialize (Hs x Hx). clear -Hs. unfold sane, sane_timer. destruct x as [|u o| | | | | | | | |]; try done; [destruct o; try done|]; lia.
Qed.
(** Stop has removed timer 2 and is about to return *)
Example wheel_stop_told_case : ∃ c, wheel_exec anything 1 10 0 c ∧ stops c 2 = 1%nat ∧ true_stops c 2 = 0%nat ∧ th c 3%nat = SLoad 2 true.
Proof.
  set (l := after 2 2 7 ++ LCall 3 (CStop 2) :: acts 3 4).
  assert (Hv : (λ c, (stops c 2, true_stops c 2, th c 3%nat)) <$> exec w0 l = Some (1%nat, 0%nat, SLoad 2 true)) by (vm_compute; done).
  destruct (exec w0 l) as [c|] eqn:He; [|done]. injection Hv as E1 E2 E3. exists c. split; [apply (w0_exec anything l c (λ _ _ _, I) He)|clear He; done].
Qed.
(** goroutine 3 waits for the bucket that goroutine 2 has locked; the queue goroutine waits for nobody *)
Definition contended : list label :=
  [LCall 2 (CAfter (Timer 1 3)); LAct 2; LAct 2; LCall 3 (CAfter (Timer 2 13)); LTick 4; LCall 4 (CAfter (Timer 3 3)); LAct 4; LAct 3; LAct 1].
Example wheel_progress_case : ∃ c, wheel_exec one_run 1 10 0 c ∧ crashed c = false ∧ busy (th c 4%nat) = true ∧ waits c 4 2 ∧ busy (th c 1%nat) = true.
Proof.
  assert (Hv : (λ c, (crashed c, th c 1%nat, th c 4%nat, bmu (mm c) (0%nat, 3))) <$> exec w0 (LCall 0 (CRun 1) :: contended) =
    Some (false, THead, ALock (0%nat, 3) 3 (Timer 3 3) KAfter, Some 2%nat)) by (vm_compute; done).
  destruct (exec w0 (LCall 0 (CRun 1) :: contended)) as [c|] eqn:He; [|done]. injection Hv as E1 E2 E3 E4. exists c.
  pose proof (w0_one_run 0 1 contended c ltac:(done) ltac:(done) He) as Hx. clear He. unfold waits. rewrite E2, E3. done.
Qed.
