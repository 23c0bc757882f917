(** * Timing wheel: nothing is lost or duplicated, in any execution *)
From Verif Require Import GoBase HeapModel WheelModel WheelSpec.
Local Open Scope Z_scope.

Lemma times_app t l l' : times t (l ++ l') = (times t l + times t l')%nat.
Proof. unfold times. by rewrite filter_app, app_length. Qed.
Lemma times_one t u : times t [u] = if decide (u = t) then 1%nat else 0%nat.
Proof. unfold times. rewrite filter_cons. by destruct (decide (u = t)). Qed.
Lemma times_notin t l : t ∉ l ↔ times t l = 0%nat.
Proof.
  unfold times. split.
  - intros H. apply length_zero_iff_nil, elem_of_nil_inv. intros x [-> Hx]%elem_of_list_filter. done.
  - intros H%length_zero_iff_nil Hin. apply (not_elem_of_nil t). rewrite <- H. by apply elem_of_list_filter.
Qed.
Lemma times_filter t u l : times t (filter (λ x, x ≠ u) l) = if decide (t = u) then 0%nat else times t l.
Proof.
  unfold times. rewrite list_filter_filter. destruct (decide (t = u)) as [->|Hn].
  - apply length_zero_iff_nil, elem_of_nil_inv. intros x [[-> ?] Hx]%elem_of_list_filter. done.
  - f_equal. apply list_filter_iff. naive_solver.
Qed.
Lemma fupd_eq {K V} `{EqDecision K} (f : K → V) k v : fupd f k v k = v.
Proof. unfold fupd. by rewrite decide_True. Qed.
Lemma fupd_ne {K V} `{EqDecision K} (f : K → V) k k' v : k' ≠ k → fupd f k v k' = f k'.
Proof. intros. unfold fupd. by rewrite decide_False. Qed.

Lemma nodup_filter t l : NoDup (tid <$> l) → NoDup (tid <$> filter (λ x, tid x ≠ t) l).
Proof.
  induction l as [|x l IH]; [done|]. rewrite fmap_cons, filter_cons. intros [Hx Hl]%NoDup_cons. destruct (decide _); [|by apply IH]. rewrite fmap_cons. apply NoDup_cons. split; [|by apply IH].
  intros (y & Ey & Hy)%elem_of_list_fmap. apply Hx. rewrite Ey. apply elem_of_list_fmap_1. by apply elem_of_list_filter in Hy as [_ ?].
Qed.
(** what [add] does to buckets and pointers, whatever the parameters *)
Definition added (w w' : wheel) (r : ref) (e : Z) (t : timer) : Prop :=
  (∀ x, wbk w' x = fupd (wbk w) r (Bucket e (btimers (wbk w r) ++ [t])) x) ∧ (∀ x, wtb w' x = fupd (wtb w) (tid t) (Some r) x).
Lemma add_weak n lk : ∀ w i t b w', add n lk w i t = Ret (b, w') →
  (b = false → wbk w' = wbk w ∧ wtb w' = wtb w ∧ wheap w' = wheap w) ∧
  (b = true → ∃ r e, lk ≠ Some r ∧ added w w' r e t).
Proof.
  induction n as [|n IH]; intros w i t b w' E; [done|]. cbn [add] in E.
  destruct (wlevels w !! i) as [l|]; [|done]. destruct (texp t <? _); [injection E as <- <-; by split|].
  destruct (texp t <? _).
  - destruct (ltick l =? 0); [done|]. destruct (wsize w =? 0); [done|]. destruct (negb _); [done|]. destruct (decide _) as [|Hlk]; [done|].
    set (r := (i, Z.rem _ _) : ref) in *. set (e := i64 _) in *. cbn [set_expiration] in E.
    set (w1 := set_bk _ r _) in *.
    assert (H1 : added w w1 r e t).
    { split; intros x; [|done]. cbn. destruct (decide (x = r)) as [->|Hx]; [by rewrite !fupd_eq|by rewrite !fupd_ne]. }
    destruct (negb _).
    + unfold push in E. destruct (gpush _ _ _ _) as [h| |]; [|done..]. cbn in E. injection E as <- <-. split; [done|]. intros _. by exists r, e.
    + cbn in E. injection E as <- <-. split; [done|]. intros _. by exists r, e.
  - destruct (wlevels w !! S i).
    + cbn in E. by apply IH in E.
    + destruct (new_level _ _ _) as [l'| |]; [|done..]. cbn in E. by apply IH in E.
Qed.

(** the timers of bucket [r] that are still in the wheel *)
Definition live (s : sys) (r : ref) : list timer :=
  match run s with
  | RFlush b rest | RMoved b _ rest => if decide (r = b) then rest else btimers (wbk (wh s) r)
  | _ => btimers (wbk (wh s) r)
  end.
Definition moved (s : sys) : list timer := match run s with RMoved _ t _ => [t] | _ => [] end.
Definition inb (s : sys) (t : nat) : nat := match wtb (wh s) t with Some _ => 1 | None => 0 end.
Definition pend (s : sys) (t : nat) : nat := (inb s t + times t (tid <$> moved s))%nat.

Record acct (s : sys) : Prop := {
  a_count : ∀ t, enters s t = (starts s t + drops s t + stops s t + pend s t)%nat;
  a_due : ∀ t, (pend s t + times t (due s) ≤ 1)%nat;
  a_in : ∀ r x, x ∈ live s r → wtb (wh s) (tid x) = Some r;
  a_nodup : ∀ r, NoDup (tid <$> live s r);
  a_live : ∀ t r, wtb (wh s) t = Some r → t ∈ tid <$> live s r;
  a_once : ∀ t, t ∉ periodic s → (enters s t ≤ 1)%nat ∧ t ∉ due s;
  a_exp : ∀ r x, x ∈ live s r ∨ x ∈ moved s → ∃ n, (tid x, texp x, n) ∈ entered s ∧ n ≤ clock s;
  a_start : ∀ x, x ∈ started s → ∃ n, (s_tid x, s_exp x, n) ∈ entered s ∧ n ≤ s_at x;
  a_time : ∀ t e n, (t, e, n) ∈ entered s → n ≤ clock s;
  a_ds : ∀ t, (times t (due s) ≤ starts s t)%nat;
}.
Definition fresh_sys (w : wheel) : Prop := (∀ r, btimers (wbk w r) = []) ∧ (∀ t, wtb w t = None).
Lemma acct_init w now : fresh_sys w → acct (init w now).
Proof.
  intros [Hb Ht]. assert (Hp : ∀ t, pend (init w now) t = 0%nat) by (intros t; unfold pend, inb; simpl; by rewrite Ht).
  split; [intros t; by rewrite Hp|intros t; rewrite Hp; cbn; lia|..]; unfold live; simpl; intros.
  - rewrite Hb in H. by apply elem_of_nil in H.
  - rewrite Hb. constructor.
  - by rewrite Ht in H.
  - split; [unfold enters, times; simpl; lia|apply not_elem_of_nil].
  - destruct H as [H|H]; [rewrite Hb in H|]; by apply elem_of_nil in H.
  - by apply elem_of_nil in H.
  - by apply elem_of_nil in H.
  - cbn. lia.
Qed.
(** submitting a timer that is neither in the wheel nor being moved, to an unlocked bucket *)
Lemma live_added s w r e t x : locked s ≠ Some r → added (wh s) w r e t →
  live (set_wh s w) x = if decide (x = r) then live s r ++ [t] else live s x.
Proof.
  intros Hl [Hb _]. unfold live, locked in *. simpl. rewrite Hb. unfold fupd.
  destruct (run s); destruct (decide (x = r)) as [->|]; try done; destruct (decide _); subst; try done.
Qed.
Lemma moved_wh s w : moved (set_wh s w) = moved s. Proof. done. Qed.
Lemma acct_same s s' : (∀ t, wtb (wh s') t = wtb (wh s) t) → (∀ r, live s' r = live s r) → moved s' = moved s → entered s' = entered s → started s' = started s →
  dropped s' = dropped s → stopped s' = stopped s → periodic s' = periodic s → due s' = due s → clock s ≤ clock s' → acct s → acct s'.
Proof.
  intros Ew El Em Ee Es Ed Ep Epe Edu Hc HA.
  assert (HP : ∀ t, pend s' t = pend s t) by (intros t; unfold pend, inb; by rewrite Ew, Em).
  split; intros.
  - pose proof (a_count s HA t). unfold enters, starts, drops, stops in *. rewrite HP, Ee, Es, Ed, Ep. done.
  - rewrite HP, Edu. apply HA.
  - rewrite Ew. rewrite El in H. by apply HA.
  - rewrite El. apply HA.
  - rewrite El. rewrite Ew in H. by apply HA.
  - rewrite Epe in H. rewrite Edu. unfold enters. rewrite Ee. by apply HA.
  - rewrite El, Em in H. rewrite Ee. destruct (a_exp s HA r x H) as (n & Hn & Hn'). exists n. split; [done|lia].
  - rewrite Es in H. rewrite Ee. by apply HA.
  - rewrite Ee in H. pose proof (a_time s HA _ _ _ H). lia.
  - rewrite Edu. unfold starts. rewrite Es. apply HA.
Qed.
Lemma inb_added s w r e t u : added (wh s) w r e t → inb (set_wh s w) u = if decide (u = tid t) then 1%nat else inb s u.
Proof. intros [_ Ht]. unfold inb. simpl. rewrite Ht. unfold fupd. by destruct (decide _). Qed.
Lemma wtb_inb s t : inb s t = 0%nat → wtb (wh s) t = None.
Proof. unfold inb. by destruct (wtb _ _). Qed.
(** a state in which timer [t] is submitted and nowhere *)
Record outside (s : sys) (t : timer) : Prop := {
  o_count : ∀ u, enters s u = (starts s u + drops s u + stops s u + pend s u + times u [tid t])%nat;
  o_due : ∀ u, (pend s u + times u (due s) + times u [tid t] ≤ 1)%nat;
  o_in : ∀ r x, x ∈ live s r → wtb (wh s) (tid x) = Some r;
  o_nodup : ∀ r, NoDup (tid <$> live s r);
  o_live : ∀ t r, wtb (wh s) t = Some r → t ∈ tid <$> live s r;
  o_once : ∀ t, t ∉ periodic s → (enters s t ≤ 1)%nat ∧ t ∉ due s;
  o_exp : ∀ r x, x ∈ live s r ∨ x ∈ moved s ∨ x = t → ∃ n, (tid x, texp x, n) ∈ entered s ∧ n ≤ clock s;
  o_start : ∀ x, x ∈ started s → ∃ n, (s_tid x, s_exp x, n) ∈ entered s ∧ n ≤ s_at x;
  o_time : ∀ t e n, (t, e, n) ∈ entered s → n ≤ clock s;
  o_ds : ∀ t, (times t (due s) ≤ starts s t)%nat;
}.
(** [s] with timer [t], which is nowhere in it, put into bucket [r] *)
Lemma acct_added s w r e t : locked s ≠ Some r → added (wh s) w r e t → 
  outside s t →
  acct (set_wh s w).
Proof.
  intros Hl HD [Hcount Hdue Hin Hnd Hlv Honce Hexp Hst Htime Hds].
  assert (Ht : wtb (wh s) (tid t) = None).
  { apply wtb_inb. specialize (Hdue (tid t)). unfold pend in Hdue. rewrite times_one, decide_True in Hdue by done. lia. }
  assert (HP : ∀ u, pend (set_wh s w) u = (pend s u + times u [tid t])%nat).
  { intros u. unfold pend. rewrite (inb_added _ _ _ _ _ _ HD), times_one, moved_wh. destruct (decide (u = tid t)) as [->|Hn].
    - rewrite decide_True by done. unfold inb. rewrite Ht. lia.
    - rewrite decide_False by done. lia. }
  split; intros.
  - rewrite HP. unfold enters, starts, drops, stops in *. simpl. rewrite Hcount. lia.
  - rewrite HP. simpl. specialize (Hdue t0). lia.
  - rewrite (live_added _ _ _ _ _ _ Hl HD) in H. simpl. rewrite (proj2 HD). destruct (decide (r0 = r)) as [->|Hr].
    + apply elem_of_app in H as [H| ->%elem_of_list_singleton]; [|by rewrite fupd_eq]. rewrite fupd_ne; [by apply Hin|]. intros E. apply Hin in H. congruence.
    + rewrite fupd_ne; [by apply Hin|]. intros E. apply Hin in H. congruence.
  - rewrite (live_added _ _ _ _ _ _ Hl HD). destruct (decide (r0 = r)) as [->|Hr]; [|done].
    rewrite fmap_app. apply NoDup_app. split_and!; [done| |by apply NoDup_singleton]. intros y (x & -> & Hx)%elem_of_list_fmap E%elem_of_list_singleton. apply Hin in Hx. congruence.
  - simpl in H. rewrite (proj2 HD) in H. rewrite (live_added _ _ _ _ _ _ Hl HD). destruct (decide (t0 = tid t)) as [->|Hn].
    + rewrite fupd_eq in H. injection H as <-. rewrite decide_True, fmap_app by done. apply elem_of_app. right. simpl. by left.
    + rewrite fupd_ne in H by done. apply Hlv in H. destruct (decide (r0 = r)) as [->|]; [|done]. rewrite fmap_app. apply elem_of_app. by left.
  - by apply Honce.
  - simpl. rewrite moved_wh in H. destruct H as [H|H]; [|apply (Hexp r0); auto]. rewrite (live_added _ _ _ _ _ _ Hl HD) in H. destruct (decide (r0 = r)) as [->|].
    + apply elem_of_app in H as [H| ->%elem_of_list_singleton]; apply (Hexp r); auto.
    + apply (Hexp r0); auto.
  - by apply Hst.
  - by eapply Htime.
  - apply Hds.
Qed.
(** the same, with [t] started instead *)
Lemma acct_started s t : 
  outside s t →
  acct (do_start s t).
Proof.
  intros [Hcount Hdue Hin Hnd Hlv Honce Hexp Hst Htime Hds]. split; intros.
  - change (pend (do_start s t) t0) with (pend s t0). unfold enters, starts, drops, stops in *. simpl. rewrite fmap_app, times_app, Hcount. simpl. lia.
  - change (pend (do_start s t) t0) with (pend s t0). simpl. specialize (Hdue t0). destruct (decide (tid t ∈ periodic s)); rewrite ?times_app; lia.
  - by apply Hin.
  - apply Hnd.
  - by apply Hlv.
  - simpl in *. split; [by apply Honce|]. destruct (decide (tid t ∈ periodic s)); [|by apply Honce]. intros [H1|H1%elem_of_list_singleton]%elem_of_app; [by apply Honce in H1|]. congruence.
  - destruct H as [H|H]; apply (Hexp r); auto.
  - simpl in *. apply elem_of_app in H as [H| ->%elem_of_list_singleton]; [by apply Hst|]. simpl. apply (Hexp (0%nat, 0)); auto.
  - by eapply Htime.
  - unfold starts. simpl. rewrite fmap_app, times_app. specialize (Hds t0). unfold starts in Hds. destruct (decide (tid t ∈ periodic s)); rewrite ?times_app; simpl; lia.
Qed.
Lemma acct_dropped s t : 
  outside s t →
  acct (set_dropped s (tid t)).
Proof.
  intros [Hcount Hdue Hin Hnd Hlv Honce Hexp Hst Htime Hds]. split; intros.
  - change (pend (set_dropped s (tid t)) t0) with (pend s t0). unfold enters, starts, drops, stops in *. simpl. rewrite times_app, Hcount. lia.
  - change (pend (set_dropped s (tid t)) t0) with (pend s t0). simpl. specialize (Hdue t0). lia.
  - by apply Hin.
  - apply Hnd.
  - by apply Hlv.
  - by apply Honce.
  - destruct H as [H|H]; apply (Hexp r); auto.
  - by apply Hst.
  - by eapply Htime.
  - apply Hds.
Qed.
Lemma outside_wh s t w : wbk w = wbk (wh s) → wtb w = wtb (wh s) → outside s t → outside (set_wh s w) t.
Proof.
  intros Eb Et HO. assert (El : ∀ r, live (set_wh s w) r = live s r) by (intros r; unfold live; simpl; by rewrite Eb).
  assert (Ep : ∀ u, pend (set_wh s w) u = pend s u) by (intros u; unfold pend, inb; simpl; by rewrite Et).
  split; intros.
  - rewrite Ep. apply HO.
  - rewrite Ep. apply HO.
  - simpl. rewrite Et. rewrite El in H. by apply HO.
  - rewrite El. apply HO.
  - rewrite El. simpl in H. rewrite Et in H. by apply HO.
  - by apply HO.
  - rewrite El in H. by apply (o_exp s t HO r).
  - by apply HO.
  - by apply (o_time s t HO t0 e).
  - by apply HO.
Qed.
Lemma acct_add_or_run n s t s' : outside s t → add_or_run n s t = Some s' → acct s'.
Proof.
  intros HO E. unfold add_or_run in E. destruct (add _ _ _ _ _) as [[[] w]| |] eqn:Ea; try done; injection E as <-; apply add_weak in Ea as [Ef Et].
  - destruct (Et eq_refl) as (r & e & Hl & HD). by eapply acct_added.
  - destruct (Ef eq_refl) as (Eb & Ew & _). by apply acct_started, outside_wh.
Qed.
Lemma outside_enter s t : acct s → pend s (tid t) = 0%nat → times (tid t) (due s) = 0%nat → (tid t ∈ periodic s ∨ enters s (tid t) = 0%nat) →
  outside (set_entered s t) t.
Proof.
  intros HA Hp Hd Ho.
  assert (He : ∀ u, enters (set_entered s t) u = (enters s u + times u [tid t])%nat) by (intros u; unfold enters; simpl; by rewrite !fmap_app, times_app).
  assert (Hin : ∀ x, x ∈ entered s → x ∈ entered (set_entered s t)) by (intros x Hx; simpl; apply elem_of_app; by left).
  split; intros.
  - rewrite He, (a_count s HA). unfold starts, drops, stops. simpl. change (pend (set_entered s t) u) with (pend s u). lia.
  - change (pend (set_entered s t) u) with (pend s u). simpl. pose proof (a_due s HA u). rewrite times_one. destruct (decide (tid t = u)) as [<-|]; lia.
  - by apply HA.
  - apply HA.
  - by apply HA.
  - rewrite He. simpl in *. destruct (a_once s HA t0 H) as [H1 H2]. split; [|done]. rewrite times_one. destruct (decide (tid t = t0)) as [<-|]; [|lia]. destruct Ho; [done|lia].
  - destruct H as [H|[H| ->]]; [destruct (a_exp s HA r x) as (n & H1 & H2); [by left|]|destruct (a_exp s HA r x) as (n & H1 & H2); [by right|]|].
    + exists n. auto.
    + exists n. auto.
    + exists (clock s). split; [simpl; apply elem_of_app; right; by left|simpl; lia].
  - destruct (a_start s HA x H) as (n & H1 & H2). exists n. auto.
  - simpl in H. apply elem_of_app in H as [H|H%elem_of_list_singleton]; [by apply (a_time s HA t0 e)|]. simplify_eq. simpl. lia.
  - apply HA.
Qed.
Lemma outside_periodic s t : outside s t → outside (set_periodic s (tid t)) t.
Proof.
  intros HO. split; intros.
  - by apply HO.
  - by apply HO.
  - by apply HO.
  - by apply HO.
  - by apply HO.
  - simpl in H. apply (o_once s t HO). intros Hin. apply H. apply elem_of_app. by left.
  - by apply (o_exp s t HO r).
  - by apply HO.
  - by apply (o_time s t HO t0 e).
  - by apply HO.
Qed.
Lemma acct_due s t : acct s → acct (set_due s (filter (λ x, x ≠ t) (due s))).
Proof.
  intros HA. split; intros.
  - by apply HA.
  - change (pend (set_due s (filter (λ x, x ≠ t) (due s))) t0) with (pend s t0). simpl. rewrite times_filter. pose proof (a_due s HA t0). destruct (decide _); lia.
  - by apply HA.
  - apply HA.
  - by apply HA.
  - simpl in *. destruct (a_once s HA t0 H) as [H1 H2]. split; [done|]. intros [_ H3]%elem_of_list_filter. done.
  - by apply (a_exp s HA r).
  - by apply HA.
  - by apply (a_time s HA t0 e).
  - simpl. rewrite times_filter. pose proof (a_ds s HA t0) as H. unfold starts in *. simpl. destruct (decide _); lia.
Qed.
Lemma times_pos t l : t ∈ l ↔ (0 < times t l)%nat.
Proof. split; [|intros H; destruct (decide (t ∈ l)) as [|Hn]; [done|apply times_notin in Hn; lia]]. intros H. destruct (times t l) eqn:E; [by apply times_notin in E|lia]. Qed.
Lemma outside_moved s b t rest : acct s → run s = RMoved b t rest → outside (set_run s (RFlush b rest)) t.
Proof.
  intros HA Hr. assert (El : ∀ r, live (set_run s (RFlush b rest)) r = live s r) by (intros r; unfold live; simpl; by rewrite Hr).
  assert (Ep : ∀ u, pend s u = (pend (set_run s (RFlush b rest)) u + times u [tid t])%nat) by (intros u; unfold pend, inb, moved; rewrite Hr; simpl; unfold times; simpl; lia).
  split; intros.
  - pose proof (a_count s HA u) as H. rewrite Ep in H. unfold enters, starts, drops, stops in *. simpl. lia.
  - pose proof (a_due s HA u) as H. rewrite Ep in H. simpl. lia.
  - rewrite El in H. by apply HA.
  - rewrite El. apply HA.
  - rewrite El. by apply HA.
  - by apply HA.
  - apply (a_exp s HA r). unfold moved. rewrite Hr. rewrite El in H. destruct H as [H|[H|H]]; [by left|by apply elem_of_nil in H|subst; right; by left].
  - by apply HA.
  - by apply (a_time s HA t0 e).
  - apply HA.
Qed.
Lemma acct_step n s v s' : acct s → next n s v = Some s' → acct s'.
Proof.
  intros HA E. assert (Hused : ∀ t, used s t = false → pend s t = 0%nat ∧ times t (due s) = 0%nat ∧ enters s t = 0%nat).
  { intros t Hu%bool_decide_eq_false. apply times_notin in Hu. pose proof (a_count s HA t) as Hc. pose proof (a_ds s HA t). unfold enters in *. rewrite Hu in Hc. split_and!; [lia|lia|done]. }
  destruct v as [c|t e|t e|t e|t b| | | | | | | | |]; simpl in E.
  - destruct (decide _); [|done]. injection E as <-. by apply (acct_same s).
  - destruct (used s t) eqn:Eu; [done|]. destruct (Hused t Eu) as (H1 & H2 & H3).
    pose proof (outside_enter s (Timer t e) HA H1 H2 (or_intror H3)) as HO.
    destruct (add _ _ _ _ _) as [[[] w]| |] eqn:Ea; try done; injection E as <-; apply add_weak in Ea as [Ef Et].
    + destruct (Et eq_refl) as (r & e' & Hl & HD). by eapply (acct_added (set_entered s (Timer t e))).
    + destruct (Ef eq_refl) as (Eb & Ew & _). apply (acct_dropped (set_wh (set_entered s (Timer t e)) w) (Timer t e)). by apply outside_wh.
  - destruct (used s t) eqn:Eu; [done|]. destruct (Hused t Eu) as (H1 & H2 & H3).
    pose proof (outside_enter s (Timer t e) HA H1 H2 (or_intror H3)) as HO. apply outside_periodic in HO. exact (acct_add_or_run _ _ _ _ HO E).
  - destruct (decide _) as [Hd|]; [|done]. set (s1 := set_due s _) in *. assert (HA1 : acct s1) by by apply acct_due.
    pose proof (a_due s HA t) as Hp. apply times_pos in Hd as Hd'.
    assert (HO : outside (set_entered s1 (Timer t e)) (Timer t e)).
    { apply outside_enter; [done|change (pend s1 t = 0%nat); change (pend s1 t) with (pend s t); lia|simpl; rewrite times_filter, decide_True by done; done|].
      left. simpl. destruct (decide (t ∈ periodic s)) as [|Hn]; [done|]. by apply (a_once s HA) in Hn as [_ Hn]. }
    exact (acct_add_or_run _ _ _ _ HO E).
  - destruct (decide _) as [|Hlk]; [done|]. unfold stop in E. destruct (wtb (wh s) t) as [r|] eqn:Et.
    + destruct (decide _) as [<-|]; [|done]. injection E as <-.
      assert (Hr : locked s ≠ Some r) by (intros Hl; apply Hlk; split; [done|by rewrite Hl]).
      set (w := set_tb _ t None). set (s1 := set_wh s w).
      assert (El : ∀ x, live s1 x = if decide (x = r) then filter (λ x, tid x ≠ t) (live s r) else live s x).
      { intros x. unfold live, locked in *. simpl. unfold fupd. destruct (run s); destruct (decide (x = r)) as [->|]; try done; destruct (decide _); subst; done. }
      assert (Ew : ∀ u, wtb w u = if decide (u = t) then None else wtb (wh s) u) by (intros u; simpl; done).
      assert (Ep : ∀ u, pend s u = (pend s1 u + times u [t])%nat).
      { intros u. unfold pend, inb. change (moved s1) with (moved s). change (wh s1) with w. rewrite Ew, times_one. destruct (decide (u = t)) as [->|]; [rewrite Et, decide_True by done; lia|rewrite decide_False by done; lia]. }
      assert (Hsub : ∀ x y, y ∈ live s1 x → y ∈ live s x ∧ tid y ≠ t).
      { intros x y Hy. rewrite El in Hy. destruct (decide (x = r)) as [->|]; [by apply elem_of_list_filter in Hy as [? ?]|]. split; [done|]. intros Hy'. apply (a_in s HA) in Hy. congruence. }
      split; intros.
      * change (pend (set_stopped s1 t) t0) with (pend s1 t0). pose proof (a_count s HA t0) as H. rewrite Ep in H. unfold enters, starts, drops, stops in *. simpl. rewrite times_app. lia.
      * change (pend (set_stopped s1 t) t0) with (pend s1 t0). pose proof (a_due s HA t0) as H. rewrite Ep in H. simpl. lia.
      * destruct (Hsub _ _ H) as [H1 H2]. change (wtb w (tid x) = Some r0). rewrite Ew, decide_False by done. by apply HA.
      * change (live (set_stopped s1 t) r0) with (live s1 r0). rewrite El. destruct (decide (r0 = r)) as [->|]; [|apply HA].
        apply nodup_filter, HA.
      * change (wtb w t0 = Some r0) in H. rewrite Ew in H. destruct (decide (t0 = t)) as [|Hn]; [done|]. apply (a_live s HA) in H. change (live (set_stopped s1 t) r0) with (live s1 r0). rewrite El.
        destruct (decide (r0 = r)) as [->|]; [|done]. apply elem_of_list_fmap in H as (x & -> & Hx). apply elem_of_list_fmap. exists x. split; [done|]. by apply elem_of_list_filter.
      * by apply HA.
      * apply (a_exp s HA r0). destruct H as [H|H]; [left; by apply Hsub|by right].
      * by apply HA.
      * by apply (a_time s HA t0 e).
      * apply HA.
    + destruct (decide _) as [<-|]; [|done]. by injection E as <-.
  - destruct (closed s); [done|]. destruct (wheap (wh s)) as [|h q] eqn:Eh; [done|]. destruct (_ <? _); [|done]. destruct (gpop _ _) as [[b hp]| |]; [|done..]. injection E as <-. by apply (acct_same s).
  - destruct (run s) eqn:Er; try done. destruct (chan s) as [|b q] eqn:Ec; [done|]. destruct (advance _ _) as [ls| |]; try done. injection E as <-.
    apply (acct_same s); try done; try (simpl; lia); [|unfold moved; by rewrite Er]. intros r. unfold live. rewrite Er. simpl. by destruct (decide (r = b)) as [->|].
  - destruct (run s) as [|b [|t rest]| | |] eqn:Er; try done. injection E as <-.
    assert (Ht : wtb (wh s) (tid t) = Some b).
    { apply (a_in s HA). unfold live. rewrite Er, decide_True by done. by left. }
    rewrite decide_True by done. set (w := set_tb _ _ _). set (s1 := set_run (set_wh s w) (RMoved b t rest)).
    assert (Hnd : NoDup (tid t :: (tid <$> rest))). { pose proof (a_nodup s HA b) as H. unfold live in H. by rewrite Er, decide_True in H by done. }
    apply NoDup_cons in Hnd as [Hnt Hnd].
    assert (El : ∀ r, live s r = if decide (r = b) then t :: rest else live s1 r). { intros r. unfold live. rewrite Er. simpl. by destruct (decide (r = b)) as [->|]. }
    assert (Elb : live s1 b = rest) by (unfold live; simpl; by rewrite decide_True).
    assert (Ew : ∀ u, wtb w u = if decide (u = tid t) then None else wtb (wh s) u) by (intros u; simpl; done).
    assert (Ep : ∀ u, pend s1 u = pend s u).
    { intros u. unfold pend, inb, moved. rewrite Er. change (run s1) with (RMoved b t rest). change (wh s1) with w. rewrite Ew. cbn [fmap list_fmap]. rewrite times_one.
      destruct (decide (u = tid t)) as [->|]; [rewrite Ht, decide_True by done; done|rewrite decide_False by done; done]. }
    assert (Hsub : ∀ r x, x ∈ live s1 r → x ∈ live s r ∧ tid x ≠ tid t).
    { intros r x Hx. rewrite El. destruct (decide (r = b)) as [->|Hn].
      - rewrite Elb in Hx. split; [by right|]. intros Hxt. apply Hnt. rewrite <- Hxt. by apply elem_of_list_fmap_1.
      - split; [done|]. intros Hxt. assert (x ∈ live s r) as Hx' by (rewrite El, decide_False by done; done). apply (a_in s HA) in Hx'. congruence. }
    split; intros.
    * rewrite Ep. pose proof (a_count s HA t0) as H. unfold enters, starts, drops, stops in *. simpl. lia.
    * rewrite Ep. apply (a_due s HA t0).
    * destruct (Hsub _ _ H) as [H1 H2]. change (wtb w (tid x) = Some r). rewrite Ew, decide_False by done. by apply HA.
    * destruct (decide (r = b)) as [->|Hn]; [by rewrite Elb|]. pose proof (a_nodup s HA r) as H. by rewrite El, decide_False in H by done.
    * change (wtb w t0 = Some r) in H. rewrite Ew in H. destruct (decide (t0 = tid t)) as [|Hn]; [done|]. apply (a_live s HA) in H. rewrite El in H.
      destruct (decide (r = b)) as [->|]; [|done]. rewrite Elb. cbn in H. by apply elem_of_cons in H as [|].
    * by apply HA.
    * change (entered s1) with (entered s). change (clock s1) with (clock s). destruct H as [H|H].
      -- apply (a_exp s HA r). left. by apply Hsub.
      -- apply (a_exp s HA b). left. simpl in H. apply elem_of_list_singleton in H as ->. rewrite El, decide_True by done. by left.
    * by apply HA.
    * by apply (a_time s HA t0 e).
    * apply HA.
  - destruct (run s) as [| |b t rest| |] eqn:Er; try done. destruct (add_or_run n s t) as [s1|] eqn:Ea; [|done]. injection E as <-.
    pose proof (outside_moved s b t rest HA Er) as HO. eapply (acct_add_or_run n _ _ _ HO). unfold add_or_run in *. simpl.
    replace (locked (set_run s (RFlush b rest))) with (locked s) by (unfold locked; by rewrite Er).
    destruct (add _ _ _ _ _) as [[[] w]| |]; try done; by injection Ea as <-.
  - destruct (run s) as [|b [|]| | |] eqn:Er; try done. injection E as <-. apply (acct_same s); try done; [|unfold moved; by rewrite Er].
    intros r. unfold live. rewrite Er. simpl. unfold fupd. by destruct (decide (r = b)).
  - injection E as <-. by apply (acct_same s).
  - destruct (cancelled s); [|done]. injection E as <-. by apply (acct_same s).
  - destruct (run s) eqn:Er; try done. destruct (cancelled s); [|done]. injection E as <-. apply (acct_same s); try done; [|unfold moved; by rewrite Er]. intros r. unfold live. by rewrite Er.
  - destruct (run s) eqn:Er; try done. destruct (chan s) eqn:Ec; [|done]. destruct (closed s); [|done]. injection E as <-. apply (acct_same s); try done; [|unfold moved; by rewrite Er]. intros r. unfold live. by rewrite Er.
Qed.
