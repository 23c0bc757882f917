(** * Timing wheel: prompt executions start every due timer *)
From stdpp Require Import list_numbers.
From Verif Require Import GoBase HeapModel HeapSpec HeapProofs HeapMethods WheelModel WheelSpec WheelProofs WheelLevels WheelTime.
Local Open Scope Z_scope.

Section Live.
  Context (tick sz B : Z) (Htick : 0 < tick) (Hsz : 2 ≤ sz) (Hint : tick * sz ≤ 2 ^ 62) (HB : B * sz ≤ 2 ^ 62) (HB0 : 0 < B).
  Notation T := (T tick sz).
  Notation lv := (lv tick sz B).
  Notation slot := (slot tick sz).
  Notation put := (put tick sz).
  Notation tm := (tm tick sz B).
  Let add_spec := add_spec tick sz B Htick Hsz Hint HB HB0.
  Let add_total := add_total tick sz B Htick Hsz Hint HB HB0.
  Let advance_spec := advance_spec tick sz B Htick Hsz Hint HB HB0.
  Let T_pos := T_pos tick sz Htick Hsz.
  Let T_S := T_S tick sz.
  Let bx_tick := bx_tick tick sz B Htick Hsz Hint HB HB0.
  Notation bx s r := (bexp (wbk (wh s) r)).
  Notation cu s := (cur (wh s)).

  Lemma head_first s h q r : tm s → wheap (wh s) = h :: q → r ∈ wheap (wh s) → bx s h ≤ bx s r.
  Proof.
    intros HM Eh Hr. apply elem_of_list_lookup in Hr as [i Hi].
    pose proof (hok_root (sooner (wbk (wh s))) (sooner_sw _) 2 (length (wheap (wh s))) (wheap (wh s)) ltac:(lia) (m_heap _ _ _ s HM) ltac:(lia) i (lookup_lt_Some _ _ _ Hi) r h Hi) as H.
    rewrite Eh in H. specialize (H eq_refl). unfold sooner in H. lia.
  Qed.
  (** Run never waits for a bucket it holds itself *)
  Lemma put_free s b t rest : tm s → run s = RMoved b t rest → ¬ ∃ k, at_level tick sz (cu s) (texp t) k ∧ locked s = Some (slot k (texp t)).
  Proof.
    intros HM Hr (k & [H1 H2] & Hk). destruct (m_busy _ _ _ s HM _ Hk) as [H3 H4]. change (slot k (texp t)).1 with k in *.
    pose proof (H4 t ltac:(right; unfold moved; rewrite Hr; by left)). lia.
  Qed.
  Lemma quiet_pending s x : tm s → run s ≠ RExited → run s ≠ RCrashed → closed s = false → quiet B s → pendx s x → run s = RIdle ∧ clock s ≤ texp x.
  Proof.
    intros HM Hx Hc Hcl HQ Hp. pose proof (m_lv _ _ _ s HM) as HL. destruct (run s) as [|b [|t rest]|b t rest| |] eqn:Er; try done.
    - split; [done|]. destruct (chan s) as [|b q] eqn:Ec.
      + destruct Hp as [[r Hp]|Hp]; [|unfold moved in Hp; rewrite Er in Hp; by apply elem_of_nil in Hp]. unfold live in Hp. rewrite Er in Hp.
        pose proof (m_in _ _ _ s HM r x Hp) as Hin.
        assert (r ∈ wheap (wh s)) as Hr. { assert (r ∈ Q s) as HrQ. { apply (m_q _ _ _ s HM). intros He. rewrite (m_empty _ _ _ s HM r He) in Hp. by apply elem_of_nil in Hp. } unfold Q, busy, locked in HrQ. by rewrite Er, Ec, !app_nil_r in HrQ. }
        destruct (wheap (wh s)) as [|h q] eqn:Eh; [by apply elem_of_nil in Hr|]. rewrite <- Eh in Hr. pose proof (head_first s h q r HM Eh Hr).
        destruct (Z.ltb_spec (bx s h) (clock s)) as [Hd|]; [|lia]. exfalso.
        destruct (gpop_spec (sooner (wbk (wh s))) 2 (hdown (sooner (wbk (wh s)))) ltac:(lia) (hdown_total _) (wheap (wh s))) as (y & h' & Ep & _); [by rewrite Eh|].
        eapply (HQ 0%nat EvTake); [done|done|]. simpl. rewrite Hcl, Eh, (proj2 (Z.ltb_lt _ _)), <- Eh, Ep by done. done.
      + exfalso. assert (HbQ : b ∈ Q s) by (unfold Q; rewrite Ec; apply elem_of_app; right; by left). destruct (bx_tick s b HM HbQ) as (HE & _).
        destruct (advance_spec (wh s) (bx s b) HL HE) as (ls & E & _). eapply (HQ 0%nat EvRecv); [done|done|]. simpl. by rewrite Er, Ec, E.
    - exfalso. eapply (HQ 0%nat EvEnd); [done|done|]. simpl. by rewrite Er.
    - exfalso. eapply (HQ 0%nat EvMove); [done|done|]. simpl. by rewrite Er.
    - exfalso. assert (Hpt : pendx s t) by (right; unfold moved; rewrite Er; by left). pose proof (m_cur _ _ _ s HM t Hpt).
      destruct (add_total (locked s) 64 (wh s) 0 t HL (lv_some _ _ _ _ HL) ltac:(lia) ltac:(lia)) as [(u & w' & E)|Hk]; [|by eapply put_free].
      destruct u; (eapply (HQ 64%nat EvPut); [done|done|]; simpl; rewrite Er; unfold add_or_run; by rewrite E).
  Qed.

  (** the work left, in steps *)
  Definition wt (i : nat) : nat := 5 * i + 5.
  Definition work (bk : ref → bucket) (c : nat) (r : ref) : nat := c + length (btimers (bk r)) * wt r.1.
  Definition todo (s : sys) : nat :=
    sum_list_with (work (wbk (wh s)) 3) (wheap (wh s)) + sum_list_with (work (wbk (wh s)) 2) (chan s) +
    match run s with RFlush b rest => 1 + length rest * wt b.1 | RMoved b t rest => length rest * wt b.1 + wt b.1 | _ => 0 end.
  Lemma sum_perm {X} (f : X → nat) l l' : l ≡ₚ l' → sum_list_with f l = sum_list_with f l'.
  Proof. induction 1; simpl; lia. Qed.
  Lemma sum_ext {X} (f g : X → nat) l : (∀ x, x ∈ l → f x = g x) → sum_list_with f l = sum_list_with g l.
  Proof. intros H. induction l as [|x l IH]; [done|]. simpl. rewrite H by left. f_equal. apply IH. intros y Hy. apply H. by right. Qed.
  Lemma sum_one {X} `{EqDecision X} (f g : X → nat) l r d : NoDup l → r ∈ l → (∀ x, x ≠ r → g x = f x) → g r = (f r + d)%nat → sum_list_with g l = (sum_list_with f l + d)%nat.
  Proof.
    intros Hnd Hr He Hd. induction l as [|x l IH]; [by apply elem_of_nil in Hr|]. apply NoDup_cons in Hnd as [Hx Hnd]. simpl. destruct (decide (x = r)) as [->|Hn].
    - rewrite (sum_ext g f l); [lia|]. intros y Hy. apply He. intros ->. done.
    - apply elem_of_cons in Hr as [->|Hr]; [done|]. rewrite IH, He by done. lia.
  Qed.
  Lemma todo_step n s v s' : tm s → alone B s v → next n s v = Some s' → (todo s' < todo s)%nat.
  Proof.
    intros HM [Hi Hp] E. pose proof (m_lv _ _ _ s HM) as HL. destruct v; try done; simpl in E, Hp.
    - destruct (closed s); [done|]. destruct (wheap (wh s)) as [|h q] eqn:Eh; [done|]. destruct (_ <? _); [|done].
      destruct (gpop_spec (sooner (wbk (wh s))) 2 (hdown (sooner (wbk (wh s)))) ltac:(lia) (hdown_total _) (wheap (wh s))) as (b & h' & Ep & _ & HP & _); [by rewrite Eh|].
      rewrite Eh in Ep. rewrite Ep in E. injection E as <-. destruct Hp as [Hc Hr]. unfold todo. simpl. rewrite Hc, Hr, (sum_perm _ _ _ HP). simpl. unfold work. lia.
    - destruct (run s) eqn:Er; try done. destruct (chan s) as [|b q] eqn:Ec; [done|]. destruct (advance _ _) as [ls| |]; try done. injection E as <-. unfold todo. simpl. rewrite Er, Ec. simpl. unfold work. lia.
    - destruct (run s) as [|b [|t rest]| | |] eqn:Er; try done. injection E as <-. unfold todo. simpl. rewrite Er. destruct (decide _); simpl; unfold wt; lia.
    - destruct (run s) as [| |b t rest| |] eqn:Er; try done. destruct (add_or_run n s t) as [s1|] eqn:Ea; [|done]. injection E as <-.
      assert (Hpt : pendx s t) by (right; unfold moved; rewrite Er; by left). pose proof (m_cur _ _ _ s HM t Hpt).
      assert (Hlk : locked s = Some b) by (unfold locked; by rewrite Er). destruct (m_busy _ _ _ s HM b Hlk) as [Hb1 Hb2]. specialize (Hb2 t ltac:(right; unfold moved; rewrite Er; by left)).
      assert (Hch : chan s = []). { destruct (m_chan _ _ _ s HM) as [|(b' & _ & H2 & _)]; [done|congruence]. }
      unfold add_or_run in Ea. destruct (add n (locked s) (wh s) 0 t) as [[u w]| |] eqn:Ead; [|done..].
      destruct (add_spec n (locked s) (wh s) 0 t u w HL (lv_some _ _ _ _ HL) ltac:(lia) Ead) as (R1 & R2 & R3 & R4).
      destruct u; injection Ea as <-; unfold todo; simpl; rewrite Er, Hch; simpl.
      + destruct R4 as (k & _ & [Pa Pl [Pd _] Pq] & Plk & Hs). destruct Pa as [Pa1 Pa2]. set (r := slot k (texp t)) in *.
        assert (k < b.1)%nat as Hk.
        { destruct (decide (k < b.1)%nat) as [|Hn]; [done|exfalso]. destruct (decide (k = b.1)) as [->|Hne]; [lia|]. specialize (Hs b.1 ltac:(lia)). rewrite T_S in Hs. pose proof (T_pos b.1). nia. }
        assert (Hw : ∀ x, x ≠ r → work (wbk w) 3 x = work (wbk (wh s)) 3 x) by (intros x Hx; unfold work; rewrite Pd; by rewrite fupd_ne).
        assert (Hwr : work (wbk w) 3 r = (work (wbk (wh s)) 3 r + wt k)%nat) by (unfold work; rewrite Pd, fupd_eq; simpl; rewrite app_length; simpl; lia).
        pose proof (m_nodup _ _ _ s HM) as Hnd. unfold Q in Hnd. apply NoDup_app in Hnd as (Hnd & _ & _).
        assert (HrQ : r ∈ Q s ↔ r ∈ wheap (wh s)).
        { unfold Q, busy. rewrite Hch, Hlk. simpl. rewrite elem_of_app, elem_of_list_singleton. split; [|tauto]. intros [?| ->]; [done|congruence]. }
        assert (sum_list_with (work (wbk w) 3) (wheap w) ≤ sum_list_with (work (wbk (wh s)) 3) (wheap (wh s)) + 3 + wt k)%nat.
        { destruct (decide (r ∈ wheap (wh s))) as [Hr|Hr].
          - assert (Hbx : bx s r = tr (texp t) (T k)).
            { pose proof (proj2 HrQ Hr) as HrQ'. destruct (m_pos _ _ _ s HM r HrQ') as (_ & j & Hj & Ej & Em & _). destruct (m_win _ _ _ s HM r HrQ') as [Hw1 Hw2].
              change r.1 with k in *. change r.2 with ((texp t / T k) mod sz) in *. rewrite Ej in *. unfold tr at 1. f_equal. symmetry. pose proof (T_pos k). 
              pose proof (tr_le (texp t) (T k) ltac:(lia)). assert (tr (cu s) (T k) ≤ tr (texp t) (T k)) by (apply tr_mono; lia).
              rewrite T_S in *. apply (same_slot (T k) sz (texp t / T k) j (tr (cu s) (T k))); try lia; unfold tr in *; lia. }
            unfold queued in Pq. fold r in Pq. rewrite Hbx, Z.eqb_refl in Pq. rewrite Pq. rewrite (sum_one _ _ _ r (wt k) Hnd Hr Hw Hwr). lia.
          - assert (Hbx : bx s r = -1). { destruct (decide (bx s r = -1)) as [|Hn]; [done|]. apply (m_q _ _ _ s HM) in Hn. by apply HrQ in Hn. }
            assert (0 ≤ tr (texp t) (T k)). { apply tr_nonneg; [apply T_pos|]. pose proof (lv_cur _ _ _ _ HL). lia. }
            unfold queued in Pq. fold r in Pq. rewrite (proj2 (Z.eqb_neq _ _)) in Pq by lia. destruct (gpush_spec (sooner (wbk w)) 2 ltac:(lia) (wheap (wh s)) r) as (h & Eh & HP & _).
            rewrite Pq in Eh. injection Eh as <-. rewrite (sum_perm _ _ _ HP). cbn [sum_list_with]. rewrite (sum_ext (work (wbk w) 3) (work (wbk (wh s)) 3)) by (intros x Hx; apply Hw; by intros ->).
            rewrite Hwr. unfold work. rewrite (m_empty _ _ _ s HM r Hbx). simpl. lia. }
        unfold wt in *. lia.
      + destruct R4 as [(Q1 & Q2 & Q3) _]. rewrite Q1, Q3. unfold wt. lia.
    - destruct (run s) as [|b [|]| | |] eqn:Er; try done. injection E as <-.
      assert (Hlk : locked s = Some b) by (unfold locked; by rewrite Er).
      assert (Hch : chan s = []). { destruct (m_chan _ _ _ s HM) as [|(b' & _ & H2 & _)]; [done|congruence]. }
      pose proof (m_nodup _ _ _ s HM) as Hnd. unfold Q, busy in Hnd. rewrite Hlk, Hch in Hnd. apply NoDup_app in Hnd as (_ & Hnd & _).
      unfold todo. simpl. rewrite Er, Hch. simpl. rewrite (sum_ext (work (fupd (wbk (wh s)) b new_bucket) 3) (work (wbk (wh s)) 3)); [lia|].
      intros x Hx. unfold work. rewrite fupd_ne; [done|]. intros ->. apply (Hnd b Hx). by left.
  Qed.
  Lemma todo_steps s0 l s : tm s0 → steps (alone B) s0 l s → tm s ∧ (length l + todo s ≤ todo s0)%nat.
  Proof.
    intros H0 H. induction H as [|s0 l s n v s' H IH Hv Hn]; [by split; [|simpl; lia]|]. destruct (IH H0) as [HM Hl]. split.
    - exact (tm_step tick sz B Htick Hsz Hint HB HB0 n s v s' HM (proj2 Hv) Hn).
    - rewrite app_length. simpl. pose proof (todo_step n s v s' HM Hv Hn). lia.
  Qed.

  (** ** Executions where the queue may run ahead of the run loop *)
  Record bd (s : sys) : Prop := {
    b_lv : lv (wh s);
    b_bx : ∀ r, bx s r = -1 ∨ 0 ≤ bx s r < B;
    b_exp : ∀ x, pendx s x → texp x < B;
  }.
  Lemma bd_same s s' : wh s' = wh s → run s' = run s → bd s → bd s'.
  Proof.
    intros Ew Er [H1 H2 H3]. split; rewrite ?Ew; [done|done|]. intros x Hx. apply H3. unfold pendx, live, moved in *. by rewrite Ew, Er in Hx.
  Qed.
  Lemma bd_add n s t u w : bd s → texp t < B → add n (locked s) (wh s) 0 t = Ret (u, w) → bd (set_wh s w).
  Proof.
    intros [H1 H2 H3] Ht E. destruct (add_spec n (locked s) (wh s) 0 t u w H1 (lv_some _ _ _ _ H1) Ht E) as (R1 & R2 & R3 & R4). destruct u.
    - destruct R4 as (k & _ & [Pa Pl Pd Pq] & Plk & _). split; [done| |].
      + intros r. simpl. rewrite (proj1 Pd). destruct (decide (r = slot k (texp t))) as [->|Hr]; [|rewrite fupd_ne by done; apply H2]. rewrite fupd_eq. simpl. right.
        pose proof (T_pos k). destruct Pa as [Pa1 Pa2]. pose proof (tr_cur tick sz B Htick Hsz (wh s) k H1) as [Hc _]. pose proof (tr_le (texp t) (T k) ltac:(lia)). split; [apply tr_nonneg; lia|lia].
      + intros x Hx. apply (pendx_added s w _ _ t x Plk Pd) in Hx as [Hx| ->]; [by apply H3|done].
    - destruct R4 as [(Q1 & Q2 & Q3) _]. split; simpl; rewrite ?Q1; [done|done|]. intros x Hx. apply H3. unfold pendx, live, moved in *. simpl in Hx. by rewrite Q1 in Hx.
  Qed.
  Lemma bd_add_or_run n s t s' : bd s → texp t < B → add_or_run n s t = Some s' → bd s'.
  Proof.
    intros H Ht E. unfold add_or_run in E. destruct (add n (locked s) (wh s) 0 t) as [[[] w]| |] eqn:Ea; try done; injection E as <-; pose proof (bd_add n s t _ w H Ht Ea) as H1; [done|].
    by apply (bd_same (set_wh s w)).
  Qed.
  Lemma advance_neg w : lv w → advance (wlevels w) (-1) = Ret (wlevels w).
  Proof.
    intros HL. destruct (wlevels w) as [|l ls] eqn:El; [done|]. simpl. destruct (lv_at _ _ _ _ HL 0%nat l) as [-> _]; [by rewrite El|]. simpl.
    pose proof (tr_cur tick sz B Htick Hsz w 0 HL). pose proof (T_pos 0). rewrite T_0 in *. assert (B ≤ 2 ^ 61) by nia. assert (tick ≤ 2 ^ 61) by nia.
    rewrite i64_id by (split; lia). by rewrite (proj2 (Z.leb_gt _ _)) by lia.
  Qed.
  Lemma advance_bd s r : bd s → ∃ ls, advance (wlevels (wh s)) (bx s r) = Ret ls ∧ lv (set_levels (wh s) ls).
  Proof.
    intros [H1 H2 H3]. destruct (H2 r) as [->|Hr].
    - rewrite advance_neg by done. eexists. split; [done|]. destruct H1 as [L1 L2 L3 L4]. by split.
    - destruct (advance_spec _ _ H1 Hr) as (ls & E & HL & _). by exists ls.
  Qed.
  Lemma bd_step n s v s' : bd s → bounded B s v → next n s v = Some s' → bd s'.
  Proof.
    intros HD Hok E. pose proof (b_lv s HD) as HL. destruct v as [c|t e|t e|t e|t b| | | | | | | | |]; simpl in E, Hok.
    - destruct (decide _); [|done]. injection E as <-. by apply (bd_same s).
    - destruct (used s t); [done|]. destruct (add _ _ _ _ _) as [[u w]| |] eqn:Ea; [|done..].
      apply (bd_add n (set_entered s (Timer t e))) in Ea; [|by apply (bd_same s)|done]. destruct u; injection E as <-; [done|]. by apply (bd_same (set_wh (set_entered s (Timer t e)) w)).
    - destruct (used s t); [done|]. apply bd_add_or_run in E; [done|by apply (bd_same s)|done].
    - destruct (decide _); [|done]. apply bd_add_or_run in E; [done|by apply (bd_same s)|done].
    - destruct (decide _) as [|Hlk]; [done|]. unfold stop in E. destruct (wtb (wh s) t) as [r|] eqn:Et; [|destruct (decide _) as [<-|]; [by injection E as <-|done]].
      destruct (decide _) as [<-|]; [|done]. injection E as <-. destruct HD as [H1 H2 H3]. split; simpl.
      + destruct H1 as [L1 L2 L3 L4]. by split.
      + intros x. unfold fupd. destruct (decide (x = r)) as [->|]; apply H2.
      + intros x [[r' Hx]|Hx]; apply H3; [|by right]. left. exists r'. unfold live in *. simpl in Hx. unfold fupd in Hx. destruct (run s); repeat destruct (decide _); simpl in Hx; subst; try done; by apply elem_of_list_filter in Hx as [_ Hx].
    - destruct (closed s); [done|]. destruct (wheap (wh s)) as [|h q] eqn:Eh; [done|]. destruct (_ <? _); [|done]. destruct (gpop _ _) as [[b hp]| |]; [|done..]. injection E as <-.
      destruct HD as [H1 H2 H3]. split; [|done|done]. destruct H1 as [L1 L2 L3 L4]. by split.
    - destruct (run s) eqn:Er; try done. destruct (chan s) as [|b q] eqn:Ec; [done|]. destruct (advance_bd s b HD) as (ls & Ea & HL'). rewrite Ea in E. injection E as <-.
      split; [done|apply HD|]. intros x [[r Hx]|Hx]; [|by apply elem_of_nil in Hx]. apply (b_exp s HD). left. exists r. unfold live in *. rewrite Er. simpl in Hx. by destruct (decide (r = b)) as [->|].
    - destruct (run s) as [|b [|t rest]| | |] eqn:Er; try done. injection E as <-. destruct HD as [H1 H2 H3]. split; simpl.
      + destruct H1 as [L1 L2 L3 L4]. destruct (decide _); by split.
      + intros r. destruct (decide _); apply H2.
      + intros x [[r Hx]|Hx].
        * apply H3. left. exists r. unfold live in *. rewrite Er. simpl in Hx. destruct (decide (r = b)); [by right|]. by destruct (decide _).
        * simpl in Hx. apply elem_of_list_singleton in Hx as ->. apply H3. left. exists b. unfold live. rewrite Er, decide_True by done. by left.
    - destruct (run s) as [| |b t rest| |] eqn:Er; try done. destruct (add_or_run n s t) as [s1|] eqn:Ea; [|done]. injection E as <-.
      assert (Hp : pendx s t) by (right; unfold moved; rewrite Er; by left).
      assert (HD1 : bd (set_run s (RFlush b rest))).
      { destruct HD as [H1 H2 H3]. split; [done|done|]. intros x [[r Hx]|Hx]; [|by apply elem_of_nil in Hx]. apply H3. left. exists r. unfold live in *. by rewrite Er. }
      eapply (bd_add_or_run n (set_run s (RFlush b rest)) t _ HD1); [by apply (b_exp s HD)|].
      unfold add_or_run in *. simpl. replace (locked (set_run s (RFlush b rest))) with (locked s) by (unfold locked; by rewrite Er).
      destruct (add _ _ _ _ _) as [[[] w]| |]; try done; by injection Ea as <-.
    - destruct (run s) as [|b [|]| | |] eqn:Er; try done. injection E as <-. destruct HD as [H1 H2 H3]. split; simpl.
      + destruct H1 as [L1 L2 L3 L4]. by split.
      + intros x. unfold fupd. destruct (decide (x = b)); [by left|apply H2].
      + intros x [[r Hx]|Hx]; [|by apply elem_of_nil in Hx]. apply H3. left. exists r. unfold live in *. rewrite Er. simpl in Hx. unfold fupd in Hx. by destruct (decide (r = b)).
    - injection E as <-. by apply (bd_same s).
    - destruct (cancelled s); [|done]. injection E as <-. by apply (bd_same s).
    - destruct (run s) eqn:Er; try done. destruct (cancelled s); [|done]. injection E as <-. destruct HD as [H1 H2 H3]. split; [done|done|]. intros x Hx. apply H3. unfold pendx, live, moved in *. by rewrite Er.
    - destruct (run s) eqn:Er; try done. destruct (chan s) eqn:Ec; [|done]. destruct (closed s); [|done]. injection E as <-. destruct HD as [H1 H2 H3]. split; [done|done|]. intros x Hx. apply H3. unfold pendx, live, moved in *. by rewrite Er.
  Qed.
  Lemma bd_steps s0 l s : bd s0 → steps (bounded B) s0 l s → bd s.
  Proof. intros H0 H. induction H as [|s0 l s n v s' H IH Hv Hn]; [done|]. exact (bd_step n s v s' (IH H0) Hv Hn). Qed.
  Lemma bd_init now w : 0 ≤ now < B → new_wheel tick sz now = Ret w → bd (init w now).
  Proof.
    intros Hnow E. destruct (tm_init tick sz B Htick Hsz Hint HB HB0 now Hnow) as (w' & E' & [Hf _] & HM). rewrite E in E'. injection E' as <-. split.
    - apply HM.
    - intros r. destruct (decide (bx (init w now) r = -1)) as [|Hr]; [by left|]. apply (m_q _ _ _ _ HM) in Hr. right. by apply (bx_tick _ _ HM).
    - intros x Hx. by apply (m_cur _ _ _ _ HM).
  Qed.
End Live.
