(** * Timing wheel: invariants of prompt executions *)
From stdpp Require Import list_numbers.
From Verif Require Import GoBase HeapModel HeapSpec HeapProofs HeapMethods WheelModel WheelSpec WheelProofs WheelLevels.
Local Open Scope Z_scope.

Lemma sooner_sw bk : strict_weak (sooner bk).
Proof. split; unfold sooner; intros; lia. Qed.
Lemma hok_ext {X} (f g : X → X → bool) d n h : (∀ x y, x ∈ h → y ∈ h → f x y = g x y) → hok f d n h → hok g d n h.
Proof. intros He Hh c H1 H2 x y Hx Hy. rewrite <- He by (by eapply elem_of_list_lookup_2). by eapply Hh. Qed.

Section Time.
  Context (tick sz B : Z) (Htick : 0 < tick) (Hsz : 2 ≤ sz) (Hint : tick * sz ≤ 2 ^ 62) (HB : B * sz ≤ 2 ^ 62) (HB0 : 0 < B).
  Notation T := (T tick sz).
  Notation lv := (lv tick sz B).
  Notation slot := (slot tick sz).
  Notation put := (put tick sz).
  Let add_spec := add_spec tick sz B Htick Hsz Hint HB HB0.
  Let advance_spec := advance_spec tick sz B Htick Hsz Hint HB HB0.
  Let T_pos := T_pos tick sz Htick Hsz.
  Let T_0 := T_0 tick sz.
  Let T_S := T_S tick sz.
  Let T_tr' := T_tr' tick sz Htick Hsz.

  Definition busy (s : sys) : list ref := match locked s with Some b => [b] | None => [] end.
  Definition Q (s : sys) : list ref := wheap (wh s) ++ chan s ++ busy s.
  Definition pendx (s : sys) (x : timer) : Prop := (∃ r, x ∈ live s r) ∨ x ∈ moved s.
  Notation bx s r := (bexp (wbk (wh s) r)).
  Notation cu s := (cur (wh s)).
  Record tm (s : sys) : Prop := {
    m_lv : lv (wh s);
    m_nodup : NoDup (Q s);
    m_q : ∀ r, r ∈ Q s ↔ bx s r ≠ -1;
    m_empty : ∀ r, bx s r = -1 → btimers (wbk (wh s) r) = [];
    m_pos : ∀ r, r ∈ Q s → (r.1 < length (wlevels (wh s)))%nat ∧ ∃ k, 0 ≤ k ∧ bx s r = T r.1 * k ∧ r.2 = k mod sz ∧ bx s r < B;
    m_win : ∀ r, r ∈ Q s → tr (cu s) (T r.1) ≤ bx s r ∧ bx s r + T r.1 ≤ tr (cu s) (T r.1) + T (S r.1);
    m_in : ∀ r x, x ∈ btimers (wbk (wh s) r) → bx s r ≤ texp x < bx s r + T r.1;
    m_heap : hok (sooner (wbk (wh s))) 2 (length (wheap (wh s))) (wheap (wh s));
    m_chan : chan s = [] ∨ ∃ b, chan s = [b] ∧ locked s = None ∧ bx s b < clock s ∧ (∀ r, r ∈ wheap (wh s) → tr (bx s b) (T r.1) ≤ bx s r) ∧ ∀ x, pendx s x → bx s b ≤ texp x;
    m_cur : ∀ x, pendx s x → cu s ≤ texp x < B;
    m_busy : ∀ b, locked s = Some b → tr (cu s) (T b.1) = bx s b ∧ ∀ x, x ∈ live s b ∨ x ∈ moved s → bx s b ≤ texp x < bx s b + T b.1;
    m_clock : cu s ≤ clock s;
    m_early : ∀ x, x ∈ started s → s_exp x < s_at x + tick;
  }.
  Lemma pendx_added s w r e t x : locked s ≠ Some r → added (wh s) w r e t → pendx (set_wh s w) x ↔ pendx s x ∨ x = t.
  Proof.
    intros Hl HD. unfold pendx. rewrite moved_wh. assert ((∃ r, x ∈ live (set_wh s w) r) ↔ (∃ r, x ∈ live s r) ∨ x = t) as ->; [|tauto]. split.
    - intros [r' Hx]. rewrite (live_added _ _ _ _ _ _ Hl HD) in Hx. destruct (decide (r' = r)) as [->|]; [|left; by exists r']. apply elem_of_app in Hx as [Hx|Hx%elem_of_list_singleton]; [left; by exists r|by right].
    - intros [[r' Hx]| ->].
      + exists r'. rewrite (live_added _ _ _ _ _ _ Hl HD). destruct (decide (r' = r)) as [->|]; [apply elem_of_app; by left|done].
      + exists r. rewrite (live_added _ _ _ _ _ _ Hl HD). rewrite decide_True by done. apply elem_of_app. right. by left.
  Qed.
  (** a timer goes into its slot *)
  Lemma tm_put s w t k : tm s → lv w → cur w = cu s → (length (wlevels (wh s)) ≤ length (wlevels w))%nat → put (wh s) w t k → locked s ≠ Some (slot k (texp t)) →
    cu s ≤ texp t < B → (∀ b, b ∈ chan s → bx s b ≤ texp t) → tm (set_wh s w).
  Proof.
    intros HM HL Hc Hlen Hp Hlk Ht Hch. destruct Hp as [[Hlo Hhi] Hk HD Hq].
    set (r := slot k (texp t)) in *. set (E := tr (texp t) (T k)) in *. pose proof (T_pos k) as HTk. pose proof (m_lv s HM) as HL0.
    pose proof (lv_cur _ _ _ _ HL0) as Hcu. assert (0 ≤ texp t) as He0 by lia.
    assert (HE : E ≤ texp t < E + T k) by (unfold E; pose proof (tr_le (texp t) (T k) HTk); pose proof (tr_lt (texp t) (T k) HTk); lia).
    assert (HE0 : 0 ≤ E) by (by apply tr_nonneg).
    assert (Hwin : tr (cu s) (T k) ≤ E ∧ E + T k ≤ tr (cu s) (T k) + T (S k)).
    { assert (tr (cu s) (T k) + T k ≤ E) as H1.
      { assert (cu s / T k + 1 ≤ texp t / T k) by (apply Z.div_le_lower_bound; [done|]; unfold tr in Hlo; lia). unfold E, tr. nia. }
      split; [lia|]. rewrite T_S in *. assert (T k * (texp t / T k) < T k * (cu s / T k + sz)) as H2 by (unfold E, tr in *; lia).
      apply Z.mul_lt_mono_pos_l in H2; [|done]. assert (T k * (texp t / T k + 1) ≤ T k * (cu s / T k + sz)) by (apply Z.mul_le_mono_nonneg_l; lia). unfold E, tr in *. lia. }
    assert (Hact : bx s r = -1 ∨ bx s r = E).
    { destruct (decide (bx s r = -1)) as [|Hn]; [by left|right]. apply (m_q s HM) in Hn as HrQ. destruct (m_pos s HM r HrQ) as (_ & j & Hj & Ej & Em & _). destruct (m_win s HM r HrQ) as [Hw1 Hw2].
      change r.1 with k in *. change r.2 with ((texp t / T k) mod sz) in *. rewrite Ej in *. unfold E, tr at 1. f_equal. symmetry.
      rewrite T_S in *. unfold E, tr at 2 in Hwin. apply (same_slot (T k) sz (texp t / T k) j (tr (cu s) (T k))); unfold E, tr in *; try lia. }
    assert (Hbk : ∀ x, wbk w x = if decide (x = r) then Bucket E (btimers (wbk (wh s) r) ++ [t]) else wbk (wh s) x) by (intros x; by rewrite (proj1 HD)).
    assert (Hbx : ∀ x, bexp (wbk w x) = if decide (x = r) then E else bx s x) by (intros x; rewrite Hbk; by destruct (decide _)).
    assert (HQ : NoDup (Q (set_wh s w)) ∧ (∀ x, x ∈ Q (set_wh s w) ↔ x ∈ Q s ∨ x = r) ∧ (∀ x, x ∈ wheap w → x ∈ wheap (wh s) ∨ x = r) ∧ hok (sooner (wbk w)) 2 (length (wheap w)) (wheap w)).
    { unfold queued in Hq. change (slot k (texp t)) with r in Hq. fold E in Hq. destruct Hact as [Hr|Hr]; rewrite Hr in Hq.
      - rewrite (proj2 (Z.eqb_neq _ _)) in Hq by lia. destruct (gpush_spec (sooner (wbk w)) 2 ltac:(lia) (wheap (wh s)) r) as (h & Eh & HP & Ho). rewrite Hq in Eh. injection Eh as <-.
        assert (HrQ : r ∉ Q s) by (intros H%(m_q s HM); lia).
        assert (HPQ : Q (set_wh s w) ≡ₚ r :: Q s) by (unfold Q; simpl; by rewrite HP).
        split_and!.
        + rewrite HPQ. apply NoDup_cons. split; [done|apply HM].
        + intros x. rewrite HPQ, elem_of_cons. tauto.
        + intros x Hx. rewrite HP in Hx. apply elem_of_cons in Hx as [|]; auto.
        + apply Ho; [apply sooner_sw|]. eapply hok_ext; [|apply HM]. intros x y Hx Hy. unfold sooner. rewrite !Hbx. rewrite !decide_False; [done| |]; intros ->; apply HrQ; unfold Q; apply elem_of_app; by left.
      - rewrite (proj2 (Z.eqb_eq _ _)) in Hq by done. assert (HrQ : r ∈ Q s) by (apply (m_q s HM); lia).
        assert (HEQ : Q (set_wh s w) = Q s) by (unfold Q; simpl; by rewrite Hq). rewrite HEQ. split_and!.
        + apply HM.
        + intros x. split; [tauto|]. by intros [| ->].
        + rewrite Hq. tauto.
        + rewrite Hq. eapply hok_ext; [|apply HM]. intros x y Hx Hy. unfold sooner. rewrite !Hbx. destruct (decide (x = r)) as [->|], (decide (y = r)) as [->|]; rewrite ?Hr; done. }
    destruct HQ as (HQ1 & HQ2 & HQ3 & HQ4).
    assert (Hbxr : ∀ x, x ∈ Q s → bexp (wbk w x) = bx s x).
    { intros x Hx. rewrite Hbx. destruct (decide (x = r)) as [->|]; [|done]. apply (m_q s HM) in Hx. destruct Hact; [done|done]. }
    assert (Hpx : ∀ x, pendx (set_wh s w) x ↔ pendx s x ∨ x = t) by (intros x; by eapply pendx_added).
    split.
    - done.
    - done.
    - intros x. rewrite HQ2. simpl. rewrite Hbx. destruct (decide (x = r)) as [->|Hx]; [split; [lia|auto]|]. rewrite (m_q s HM x). tauto.
    - intros x. simpl. rewrite Hbk. destruct (decide (x = r)) as [->|]; [simpl; lia|]. apply HM.
    - intros x Hx. apply HQ2 in Hx as [Hx| ->]; simpl.
      + destruct (m_pos s HM x Hx) as (H1 & H2). rewrite Hbxr by done. split; [lia|done].
      + split; [done|]. exists (texp t / T k). rewrite Hbx, decide_True by done. split_and!; [apply Z.div_pos; lia|done|done|lia].
    - intros x Hx. simpl. rewrite Hc. apply HQ2 in Hx as [Hx| ->]; [rewrite Hbxr by done; by apply HM|]. rewrite Hbx, decide_True by done. done.
    - intros x y. simpl. rewrite Hbk. destruct (decide (x = r)) as [->|]; simpl; [|apply HM]. intros [Hy| ->%elem_of_list_singleton]%elem_of_app; [|done].
      destruct Hact as [Hr|Hr]; [rewrite (m_empty s HM r Hr) in Hy; by apply elem_of_nil in Hy|]. rewrite <- Hr. by apply (m_in s HM r).
    - done.
    - destruct (m_chan s HM) as [|(b & H1 & H2 & H3 & H4 & H5)]; [by left|]. right. exists b. simpl.
      assert (b ∈ Q s) as HbQ by (unfold Q; rewrite H1; apply elem_of_app; right; by left). rewrite Hbxr by done. split_and!; [done|done|done| |].
      + intros x Hx. apply HQ3 in Hx as [Hx| ->]; [rewrite Hbxr by (unfold Q; apply elem_of_app; by left); by apply H4|]. rewrite Hbx, decide_True by done. apply tr_mono; [done|]. apply Hch. rewrite H1. by left.
      + intros x [Hx| ->]%Hpx; [by apply H5|]. apply Hch. rewrite H1. by left.
    - intros x [Hx| ->]%Hpx; simpl; rewrite Hc; [by apply HM|done].
    - intros b Hb. change (locked s = Some b) in Hb. assert (b ∈ Q s) as HbQ by (unfold Q, busy; rewrite Hb; apply elem_of_app; right; apply elem_of_app; right; by left).
      simpl. rewrite Hc, Hbxr by done. destruct (m_busy s HM b Hb) as [H1 H2]. split; [done|]. intros x. rewrite (live_added _ _ _ _ _ _ Hlk HD). rewrite decide_False by congruence. apply H2.
    - simpl. rewrite Hc. apply HM.
    - apply HM.
  Qed.
  Lemma tm_same s s' : wh s' = wh s → chan s' = chan s → run s' = run s → clock s ≤ clock s' → started s' = started s → tm s → tm s'.
  Proof.
    intros Ew Ec Er Hc Es HM. assert (EQ : Q s' = Q s) by (unfold Q, busy, locked; by rewrite Ew, Ec, Er). assert (El : ∀ r, live s' r = live s r) by (intros r; unfold live; by rewrite Er, Ew).
    assert (Em : moved s' = moved s) by (unfold moved; by rewrite Er). assert (Ek : locked s' = locked s) by (unfold locked; by rewrite Er).
    assert (Ep : ∀ x, pendx s' x ↔ pendx s x) by (intros x; unfold pendx; rewrite Em; by setoid_rewrite El).
    split; rewrite ?EQ, ?Ew, ?Es; try apply HM.
    - rewrite Ec, Ek. destruct (m_chan s HM) as [|(b & H1 & H2 & H3 & H4 & H5)]; [by left|]. right. exists b. split_and!; [done|done|lia|done|]. intros x Hx%Ep. by apply H5.
    - intros x Hx%Ep. by apply HM.
    - intros b Hb. rewrite El, Em. rewrite Ek in Hb. by apply HM.
    - pose proof (m_clock s HM). lia.
  Qed.
  Lemma tm_false s w : same_queue (wh s) w → lv w → cur w = cu s → (length (wlevels (wh s)) ≤ length (wlevels w))%nat → tm s → tm (set_wh s w).
  Proof.
    intros (Eb & Et & Eh) HL Hc Hlen HM. assert (EQ : Q (set_wh s w) = Q s) by (unfold Q; simpl; by rewrite Eh). assert (El : ∀ r, live (set_wh s w) r = live s r) by (intros r; unfold live; simpl; by rewrite Eb).
    assert (Ep : ∀ x, pendx (set_wh s w) x ↔ pendx s x) by (intros x; unfold pendx; rewrite moved_wh; by setoid_rewrite El).
    split; rewrite ?EQ; simpl; rewrite ?Eb, ?Hc, ?Eh; try apply HM.
    - done.
    - intros r Hr. destruct (m_pos s HM r Hr) as [H1 H2]. split; [lia|done].
    - destruct (m_chan s HM) as [|(b & H1 & H2 & H3 & H4 & H5)]; [by left|]. right. exists b. split_and!; [done|done|done|done|]. intros x Hx%Ep. by apply H5.
    - intros x Hx%Ep. by apply HM.
    - intros b Hb. rewrite El. by apply HM.
  Qed.
  Lemma tm_started s t : tm s → texp t < clock s + tick → tm (do_start s t).
  Proof.
    intros HM Ht. split; try apply HM. simpl. intros x [Hx| ->%elem_of_list_singleton]%elem_of_app; [by apply HM|done].
  Qed.
  (** a timer that level 0 does not take is due within a tick *)
  Lemma false_due w e k : lv w → e < tr (cur w) (T k) + T k → (∀ k', (0 ≤ k' < k)%nat → tr (cur w) (T k') + T (S k') ≤ e) → e < cur w + tick.
  Proof.
    intros HL H1 H2. destruct k as [|k].
    - rewrite T_0 in H1. pose proof (tr_le (cur w) tick Htick). lia.
    - specialize (H2 k ltac:(lia)). exfalso. rewrite <- (T_tr' (cur w) k (S k)) in H1 by lia. pose proof (tr_le (tr (cur w) (T k)) (T (S k)) (T_pos (S k))). lia.
  Qed.
  Lemma tm_add n s t b w : tm s → cu s ≤ texp t < B → (∀ b, b ∈ chan s → bx s b ≤ texp t) → add n (locked s) (wh s) 0 t = Ret (b, w) →
    tm (set_wh s w) ∧ (b = false → texp t < clock s + tick).
  Proof.
    intros HM Ht Hch E. pose proof (m_lv s HM) as HL. destruct (add_spec n (locked s) (wh s) 0 t b w HL (lv_some _ _ _ _ HL) ltac:(lia) E) as (R1 & R2 & R3 & R4). destruct b.
    - destruct R4 as (k & _ & Hp & Hlk & _). split; [|done]. by eapply tm_put.
    - destruct R4 as (Hq & k & _ & H1 & H2). split; [by apply tm_false|]. intros _. pose proof (false_due (wh s) (texp t) k HL H1 ltac:(intros; apply H2; lia)). pose proof (m_clock s HM). lia.
  Qed.
  Lemma tm_add_or_run n s t s' : tm s → cu s ≤ texp t < B → (∀ b, b ∈ chan s → bx s b ≤ texp t) → add_or_run n s t = Some s' → tm s'.
  Proof.
    intros HM Ht Hch E. unfold add_or_run in E. destruct (add n (locked s) (wh s) 0 t) as [[[] w]| |] eqn:Ea; try done; injection E as <-; apply tm_add in Ea as [H1 H2]; try done.
    apply tm_started; [done|]. by apply H2.
  Qed.
  Lemma chan_clock s e b : tm s → clock s ≤ e → b ∈ chan s → bx s b ≤ e.
  Proof. intros HM He Hb. destruct (m_chan s HM) as [Hc|(b' & Hc & _ & H3 & _)]; rewrite Hc in Hb; [by apply elem_of_nil in Hb|]. apply elem_of_list_singleton in Hb as ->. lia. Qed.
  Lemma tm_moved s b t rest : tm s → run s = RMoved b t rest → tm (set_run s (RFlush b rest)).
  Proof.
    intros HM Hr. set (s' := set_run s (RFlush b rest)).
    assert (El : ∀ r, live s' r = live s r) by (intros r; unfold live; rewrite Hr; done).
    assert (Ek : locked s' = locked s) by (unfold locked; by rewrite Hr). assert (EQ : Q s' = Q s) by (unfold Q, busy; by rewrite Ek).
    assert (Ep : ∀ x, pendx s' x → pendx s x). { intros x [[r Hx]|Hx]; [left; exists r; by rewrite El in Hx|]. by apply elem_of_nil in Hx. }
    split; rewrite ?EQ; try apply HM.
    - rewrite Ek. destruct (m_chan s HM) as [|(b' & H1 & H2 & H3 & H4 & H5)]; [by left|]. right. exists b'. split_and!; [done|done|done|done|]. intros x Hx%Ep. by apply H5.
    - intros x Hx%Ep. by apply HM.
    - intros b' Hb. rewrite El. rewrite Ek in Hb. destruct (m_busy s HM b' Hb) as [H1 H2]. split; [done|]. intros x [Hx|Hx]; [apply H2; by left|by apply elem_of_nil in Hx].
  Qed.
  Lemma tm_run s r : tm s → run s = RIdle → (r = RExited ∨ r = RCrashed) → tm (set_run s r).
  Proof.
    intros HM Hr Hr'. assert (El : ∀ x, live (set_run s r) x = live s x) by (intros x; unfold live; rewrite Hr; by destruct Hr' as [->| ->]).
    assert (Em : moved (set_run s r) = moved s) by (unfold moved; rewrite Hr; by destruct Hr' as [->| ->]). assert (Ek : locked (set_run s r) = locked s) by (unfold locked; rewrite Hr; by destruct Hr' as [->| ->]).
    assert (EQ : Q (set_run s r) = Q s) by (unfold Q, busy; by rewrite Ek). assert (Ep : ∀ x, pendx (set_run s r) x ↔ pendx s x) by (intros x; unfold pendx; rewrite Em; by setoid_rewrite El).
    split; rewrite ?EQ; try apply HM.
    - rewrite Ek. destruct (m_chan s HM) as [|(b & H1 & H2 & H3 & H4 & H5)]; [by left|]. right. exists b. split_and!; [done|done|done|done|]. intros x Hx%Ep. by apply H5.
    - intros x Hx%Ep. by apply HM.
    - intros b. rewrite Ek, El, Em. apply HM.
  Qed.
  (** a bucket expiration is a multiple of the tick *)
  Lemma bx_tick s r : tm s → r ∈ Q s → 0 ≤ bx s r < B ∧ tr (bx s r) tick = bx s r ∧ tr (bx s r) (T r.1) = bx s r.
  Proof.
    intros HM Hr. destruct (m_pos s HM r Hr) as (_ & k & Hk & E & _ & Hlt). pose proof (T_pos r.1). split_and!; [nia|done| |].
    - rewrite E. unfold WheelLevels.T. rewrite <- Z.mul_assoc. by apply tr_mult.
    - rewrite E. by apply tr_mult.
  Qed.
  Lemma cur_tick w : lv w → tr (cur w) tick = cur w.
  Proof.
    intros HL. pose proof (lv_some _ _ _ _ HL) as Hlen. destruct (lookup_lt_is_Some_2 (wlevels w) 0) as [l Hl]; [lia|]. destruct (lv_at _ _ _ _ HL _ _ Hl) as [-> _].
    rewrite T_0 in Hl. unfold cur at 2. by destruct (wlevels w); [|injection Hl as ->].
  Qed.
  Lemma tm_recv s b q ls : tm s → run s = RIdle → chan s = b :: q → advance (wlevels (wh s)) (bx s b) = Ret ls →
    tm (set_run (set_chan (set_wh s (set_levels (wh s) ls)) q) (RFlush b (btimers (wbk (wh s) b)))).
  Proof.
    intros HM Hr Hc E. destruct (m_chan s HM) as [Hn|(b' & H1 & H2 & H3 & H4 & H5)]; [congruence|]. rewrite Hc in H1. injection H1 as -> ->. rename b' into b.
    set (s' := set_run _ _). assert (HbQ : b ∈ Q s) by (unfold Q; rewrite Hc; apply elem_of_app; right; by left).
    destruct (bx_tick s b HM HbQ) as (HE1 & HE2 & HE3). pose proof (m_lv s HM) as HL.
    destruct (advance_spec (wh s) (bx s b) HL HE1) as (ls' & E' & HL' & Hlen & Hcur). rewrite E in E'. injection E' as <-.
    set (w := set_levels (wh s) ls) in *. pose proof (cur_tick (wh s) HL) as Hct. set (E0 := bx s b) in *.
    assert (Hc' : cur w = Z.max (cu s) E0).
    { rewrite Hcur. destruct (Z.leb_spec (cu s + tick) E0); [lia|]. assert (E0 / tick < cu s / tick + 1) by (unfold tr in HE2, Hct; apply (Z.mul_lt_mono_pos_l tick); lia). assert (E0 ≤ cu s); [|lia]. rewrite <- HE2, <- Hct. unfold tr. apply Z.mul_le_mono_nonneg_l; lia. }
    assert (El : ∀ r, live s' r = live s r). { intros r. unfold live. rewrite Hr. simpl. by destruct (decide (r = b)) as [->|]. }
    assert (Em : moved s' = moved s) by (unfold moved; by rewrite Hr).
    assert (Ep : ∀ x, pendx s' x ↔ pendx s x) by (intros x; unfold pendx; rewrite Em; by setoid_rewrite El).
    assert (HPQ : Q s' ≡ₚ Q s). { unfold Q, busy. rewrite H2, Hc. done. }
    assert (HPQ' : ∀ x, x ∈ Q s' ↔ x ∈ Q s) by (intros x; by rewrite HPQ).
    assert (Ew : wh s' = w) by done. pose proof (T_pos b.1) as HTb.
    split; rewrite ?Ew.
    - done.
    - rewrite HPQ. apply HM.
    - intros r. rewrite HPQ'. apply HM.
    - apply HM.
    - intros r Hrr%HPQ'. destruct (m_pos s HM r Hrr) as [P1 P2]. split; [by rewrite <- Hlen in P1|done].
    - intros r Hrr%HPQ'. destruct (m_win s HM r Hrr) as [W1 W2]. pose proof (T_pos r.1) as HTr. rewrite Hc'. change (wbk w r) with (wbk (wh s) r).
      assert (tr (Z.max (cu s) E0) (T r.1) ≤ bx s r) as U1.
      { destruct (Z.max_spec (cu s) E0) as [[_ ->]|[_ ->]]; [|done]. unfold Q, busy in Hrr. rewrite H2, Hc in Hrr. simpl in Hrr. apply elem_of_app in Hrr as [Hrr| ->%elem_of_list_singleton]; [by apply H4|]. lia. }
      split; [done|]. pose proof (tr_mono (cu s) (Z.max (cu s) E0) (T r.1) HTr ltac:(lia)). lia.
    - apply HM.
    - apply HM.
    - by left.
    - intros x Hx%Ep. rewrite Hc'. pose proof (m_cur s HM x Hx). pose proof (H5 x Hx). lia.
    - intros b' Hb'. simpl in Hb'. injection Hb' as <-. change (wbk w b) with (wbk (wh s) b). split.
      + rewrite Hc'. destruct (Z.max_spec (cu s) E0) as [[_ ->]|[Hle ->]]; [done|]. destruct (m_win s HM b HbQ) as [W1 _]. fold E0 in W1 |- *.
        pose proof (tr_mono E0 (cu s) (T b.1) HTb Hle). lia.
      + intros x. rewrite El, Em. unfold moved. rewrite Hr. intros [Hx|Hx]; [|by apply elem_of_nil in Hx]. apply (m_in s HM b). unfold live in Hx. by rewrite Hr in Hx.
    - rewrite Hc'. simpl. pose proof (m_clock s HM). lia.
    - apply HM.
  Qed.
  Lemma tm_step n s v s' : tm s → prompt B s v → next n s v = Some s' → tm s'.
  Proof.
    intros HM Hok E. pose proof (m_clock s HM) as Hck. destruct v as [c|t e|t e|t e|t b| | | | | | | | |]; simpl in E, Hok.
    - destruct (decide _); [|done]. injection E as <-. by apply (tm_same s).
    - destruct (used s t); [done|]. destruct (add _ _ _ _ _) as [[[] w]| |] eqn:Ea; try done; injection E as <-.
      + apply (tm_add n (set_entered s (Timer t e))) in Ea as [H1 _]; [done|by apply (tm_same s)|simpl; lia|]. intros b Hb. exact (chan_clock s e b HM (proj1 Hok) Hb).
      + apply (tm_add n (set_entered s (Timer t e))) in Ea as [H1 _]; [refine (tm_same _ _ _ _ _ _ _ H1); done|by apply (tm_same s)|simpl; lia|]. intros b Hb. exact (chan_clock s e b HM (proj1 Hok) Hb).
    - destruct (used s t); [done|]. apply tm_add_or_run in E; [done|by apply (tm_same s)|simpl; lia|]. intros b Hb. exact (chan_clock s e b HM (proj1 Hok) Hb).
    - destruct (decide _); [|done]. apply tm_add_or_run in E; [done|by apply (tm_same s)|simpl; lia|]. intros b Hb. exact (chan_clock s e b HM (proj1 Hok) Hb).
    - destruct (decide _) as [|Hlk]; [done|]. unfold stop in E. destruct (wtb (wh s) t) as [r|] eqn:Et; [|destruct (decide _) as [<-|]; [by injection E as <-|done]].
      destruct (decide _) as [<-|]; [|done]. injection E as <-.
      assert (Hr : locked s ≠ Some r) by (intros Hl; apply Hlk; split; [done|by rewrite Hl]).
      set (w := set_tb _ t None). apply (tm_same (set_wh s w)); try done.
      assert (Hbk : ∀ x, wbk w x = if decide (x = r) then Bucket (bx s r) (filter (λ x, tid x ≠ t) (btimers (wbk (wh s) r))) else wbk (wh s) x) by (intros x; done).
      assert (Hbx : ∀ x, bexp (wbk w x) = bx s x) by (intros x; rewrite Hbk; by destruct (decide (x = r)) as [->|]).
      assert (Hbt : ∀ x y, y ∈ btimers (wbk w x) → y ∈ btimers (wbk (wh s) x)). { intros x y. rewrite Hbk. destruct (decide (x = r)) as [->|]; [|done]. simpl. by intros [_ ?]%elem_of_list_filter. }
      assert (El : ∀ x, live (set_wh s w) x = if decide (x = r) then filter (λ x, tid x ≠ t) (live s r) else live s x).
      { intros x. unfold live, locked in *. simpl. unfold fupd. destruct (run s); destruct (decide (x = r)) as [->|]; try done; destruct (decide _); subst; done. }
      assert (Hsub : ∀ x y, y ∈ live (set_wh s w) x → y ∈ live s x).
      { intros x y. rewrite El. destruct (decide (x = r)) as [->|]; [|done]. by intros [_ ?]%elem_of_list_filter. }
      assert (Ep : ∀ x, pendx (set_wh s w) x → pendx s x). { intros x [[r' Hx]|Hx]; [left; exists r'; by apply Hsub|by right]. }
      change (Q (set_wh s w)) with (Q s) in *.
      split; change (Q (set_wh s w)) with (Q s); change (wh (set_wh s w)) with w; change (cur w) with (cu s).
      + destruct (m_lv s HM) as [L1 L2 L3 L4]. by split.
      + apply HM.
      + intros x. rewrite Hbx. apply HM.
      + intros x. rewrite Hbx. intros H%(m_empty s HM). apply elem_of_nil_inv. intros y Hy%Hbt. rewrite H in Hy. by apply elem_of_nil in Hy.
      + intros x Hx. rewrite Hbx. by apply HM.
      + intros x Hx. rewrite Hbx. by apply HM.
      + intros x y Hy. rewrite Hbx. apply (m_in s HM x). by apply Hbt.
      + eapply hok_ext; [|apply HM]. intros x y _ _. unfold sooner. by rewrite !Hbx.
      + destruct (m_chan s HM) as [|(b' & H1 & H2 & H3 & H4 & H5)]; [by left|]. right. exists b'. rewrite Hbx. split_and!; [done|done|done| |].
        * intros x Hx. rewrite Hbx. by apply H4.
        * intros x Hx%Ep. by apply H5.
      + intros x Hx%Ep. by apply HM.
      + intros b' Hb'. rewrite Hbx. destruct (m_busy s HM b' Hb') as [H1 H2]. split; [done|]. intros x [Hx|Hx]; apply H2; [left; by apply Hsub|by right].
      + done.
      + apply HM.
    - destruct (closed s); [done|]. destruct (wheap (wh s)) as [|h q] eqn:Eh; [done|]. destruct (Z.ltb_spec (bx s h) (clock s)) as [Hd|]; [|done].
      destruct (gpop_spec (sooner (wbk (wh s))) 2 (hdown (sooner (wbk (wh s)))) ltac:(lia) (hdown_total _) (wheap (wh s))) as (x & h' & Ep & H0 & HP & Ho'); [by rewrite Eh|].
      rewrite Eh in Ep, H0. simpl in H0. injection H0 as ->. rewrite Ep in E. injection E as <-. rename x into b. destruct Hok as [Hc0 Hrun].
      specialize (Ho' (hdown_order _ (sooner_sw _)) (m_heap s HM)).
      set (s' := set_chan _ _). assert (Hlk : locked s = None) by (unfold locked; by rewrite Hrun).
      assert (HPQ : Q s' ≡ₚ Q s). { unfold Q, busy. change (locked s') with (locked s). rewrite Hlk, Hc0. simpl. rewrite Hc0, !app_nil_r, HP. simpl. by rewrite <- Permutation_cons_append. }
      assert (HPQ' : ∀ x, x ∈ Q s' ↔ x ∈ Q s) by (intros x; by rewrite HPQ).
      assert (Hmin : ∀ r, r ∈ wheap (wh s) → bx s b ≤ bx s r).
      { intros r Hr. apply elem_of_list_lookup in Hr as [i Hi]. pose proof (hok_root (sooner (wbk (wh s))) (sooner_sw _) 2 (length (wheap (wh s))) (wheap (wh s)) ltac:(lia) (m_heap s HM) ltac:(lia) i (lookup_lt_Some _ _ _ Hi) r b Hi) as H.
        rewrite Eh in H. specialize (H eq_refl). unfold sooner in H. lia. }
      split; change (wbk (wh s')) with (wbk (wh s)); change (cur (wh s')) with (cu s).
      + destruct (m_lv s HM) as [L1 L2 L3 L4]. by split.
      + rewrite HPQ. apply HM.
      + intros r. rewrite HPQ'. apply HM.
      + apply HM.
      + intros r Hr%HPQ'. by apply HM.
      + intros r Hr%HPQ'. by apply HM.
      + apply HM.
      + exact Ho'.
      + right. exists b. split_and!; [simpl; by rewrite Hc0|done|done| |].
        * intros r Hr. assert (r ∈ wheap (wh s)) as Hr' by (rewrite HP; by right). specialize (Hmin r Hr').
          etransitivity; [apply tr_mono; [apply T_pos|exact Hmin]|]. assert (r ∈ Q s) as HrQ by (unfold Q; apply elem_of_app; by left). destruct (bx_tick s r HM HrQ) as (_ & _ & ->). done.
        * intros x Hx. change (pendx s x) in Hx. destruct Hx as [[r Hx]|Hx]; [|unfold moved in Hx; rewrite Hrun in Hx; by apply elem_of_nil in Hx].
          unfold live in Hx. rewrite Hrun in Hx. pose proof (m_in s HM r x Hx) as Hin.
          assert (r ∈ wheap (wh s)) as Hr. { assert (r ∈ Q s) as HrQ. { apply (m_q s HM). intros He. rewrite (m_empty s HM r He) in Hx. by apply elem_of_nil in Hx. } unfold Q, busy in HrQ. by rewrite Hlk, Hc0, !app_nil_r in HrQ. }
          specialize (Hmin r Hr). lia.
      + apply HM.
      + intros b' Hb'. by apply HM.
      + done.
      + apply HM.
    - destruct (run s) eqn:Er; try done. destruct (chan s) as [|b q] eqn:Ec; [done|]. destruct (advance _ _) as [ls| |] eqn:Ea; try done. injection E as <-. by apply tm_recv.
    - destruct (run s) as [|b [|t rest]| | |] eqn:Er; try done. injection E as <-. set (w := if decide _ then _ else _). set (s' := set_run _ _).
      assert (Hlk : locked s = Some b) by (unfold locked; by rewrite Er). assert (EQ : Q s' = Q s) by (unfold Q, busy; rewrite Hlk; simpl; unfold w; by destruct (decide _)).
      assert (Ebk : wbk w = wbk (wh s)) by (unfold w; by destruct (decide _)). assert (Els : wlevels w = wlevels (wh s)) by (unfold w; by destruct (decide _)). assert (Eh : wheap w = wheap (wh s)) by (unfold w; by destruct (decide _)).
      assert (Ecu : cur w = cu s) by (unfold cur; by rewrite Els).
      assert (Htin : t ∈ live s b) by (unfold live; rewrite Er, decide_True by done; by left).
      assert (El : ∀ r x, x ∈ live s' r → x ∈ live s r).
      { intros r x. unfold live. rewrite Er. simpl. rewrite Ebk. destruct (decide (r = b)); [by right|done]. }
      assert (Ep : ∀ x, pendx s' x → pendx s x). { intros x [[r Hx]|Hx]; [left; exists r; by apply El|]. simpl in Hx. apply elem_of_list_singleton in Hx as ->. left. by exists b. }
      split; rewrite ?EQ; simpl; rewrite ?Ebk, ?Els, ?Eh, ?Ecu.
      + destruct (m_lv s HM) as [L1 L2 L3 L4]. split; rewrite ?Els, ?Ecu; try done. unfold w. by destruct (decide _).
      + apply HM.
      + apply HM.
      + apply HM.
      + apply HM.
      + apply HM.
      + apply HM.
      + apply HM.
      + destruct (m_chan s HM) as [|(b' & H1 & H2 & _)]; [by left|congruence].
      + intros x Hx%Ep. by apply HM.
      + intros b' Hb'. unfold locked in Hb'. simpl in Hb'. injection Hb' as <-. destruct (m_busy s HM b Hlk) as [H1 H2]. split; [done|]. intros x [Hx|Hx]; apply H2; left; [by apply El|]. simpl in Hx. by apply elem_of_list_singleton in Hx as ->.
      + done.
      + apply HM.
    - destruct (run s) as [| |b t rest| |] eqn:Er; try done. destruct (add_or_run n s t) as [s1|] eqn:Ea; [|done]. injection E as <-.
      pose proof (tm_moved s b t rest HM Er) as HM1. assert (Hp : pendx s t) by (right; unfold moved; rewrite Er; by left).
      eapply (tm_add_or_run n (set_run s (RFlush b rest)) t _ HM1); [apply (m_cur s HM t Hp)| |].
      + intros b' Hb'. simpl in *. destruct (m_chan s HM) as [Hc|(b'' & _ & H2 & _)]; [rewrite Hc in Hb'; by apply elem_of_nil in Hb'|]. unfold locked in H2. by rewrite Er in H2.
      + unfold add_or_run in *. simpl. replace (locked (set_run s (RFlush b rest))) with (locked s) by (unfold locked; by rewrite Er).
        destruct (add _ _ _ _ _) as [[[] w]| |]; try done; by injection Ea as <-.
    - destruct (run s) as [|b [|]| | |] eqn:Er; try done. injection E as <-. set (s' := set_run _ _).
      assert (Hlk : locked s = Some b) by (unfold locked; by rewrite Er).
      assert (Hch : chan s = []). { destruct (m_chan s HM) as [|(b' & H1 & H2 & _)]; [done|congruence]. }
      assert (EQ : Q s = wheap (wh s) ++ [b]) by (unfold Q, busy; by rewrite Hlk, Hch). assert (EQ' : Q s' = wheap (wh s)) by (unfold Q, busy; simpl; by rewrite Hch, app_nil_r).
      pose proof (m_nodup s HM) as Hnd. rewrite EQ in Hnd. apply NoDup_app in Hnd as (Hnd1 & Hnd2 & _).
      assert (Hnb : ∀ r, r ∈ wheap (wh s) → r ≠ b) by (intros r Hr ->; apply (Hnd2 b Hr); by left).
      assert (Hin : ∀ r, r ∈ wheap (wh s) → r ∈ Q s) by (intros r Hr; rewrite EQ; apply elem_of_app; by left).
      assert (Hbk : ∀ x, wbk (wh s') x = if decide (x = b) then new_bucket else wbk (wh s) x) by done.
      assert (Hbx : ∀ x, x ≠ b → bexp (wbk (wh s') x) = bx s x) by (intros x Hx; rewrite Hbk; by rewrite decide_False).
      assert (El : ∀ r x, x ∈ live s' r → x ∈ live s r).
      { intros r x. unfold live. rewrite Er. simpl. unfold fupd. destruct (decide (r = b)); [|done]. done. }
      assert (Ep : ∀ x, pendx s' x → pendx s x). { intros x [[r Hx]|Hx]; [left; exists r; by apply El|]. by apply elem_of_nil in Hx. }
      split; rewrite ?EQ'; change (cur (wh s')) with (cu s).
      + destruct (m_lv s HM) as [L1 L2 L3 L4]. by split.
      + done.
      + intros r. rewrite Hbk. destruct (decide (r = b)) as [->|Hr]; [split; [by intros Hb%Hnb|by simpl]|]. rewrite <- (m_q s HM r), EQ. rewrite elem_of_app, elem_of_list_singleton. tauto.
      + intros r. rewrite Hbk. destruct (decide (r = b)); [done|apply HM].
      + intros r Hr. rewrite Hbx by by apply Hnb. apply (m_pos s HM). by apply Hin.
      + intros r Hr. rewrite Hbx by by apply Hnb. apply (m_win s HM). by apply Hin.
      + intros r x. rewrite Hbk. destruct (decide (r = b)); [by intros H%elem_of_nil|apply HM].
      + simpl. eapply hok_ext; [|apply HM]. intros x y Hx Hy. change (sooner (wbk (wh s)) x y = sooner (wbk (wh s')) x y). unfold sooner. by rewrite !Hbx by by apply Hnb.
      + left. done.
      + intros x Hx%Ep. by apply HM.
      + intros b' Hb'. done.
      + done.
      + apply HM.
    - injection E as <-. by apply (tm_same s).
    - destruct (cancelled s); [|done]. injection E as <-. by apply (tm_same s).
    - destruct (run s) eqn:Er; try done. destruct (cancelled s); [|done]. injection E as <-. by apply tm_run; [| |left].
    - destruct (run s) eqn:Er; try done. destruct (chan s) eqn:Ec; [|done]. destruct (closed s); [|done]. injection E as <-. by apply tm_run; [| |right].
  Qed.
  Lemma tm_init now : 0 ≤ now < B → ∃ w, new_wheel tick sz now = Ret w ∧ fresh_sys w ∧ tm (init w now).
  Proof.
    intros Hnow. pose proof (tr_nonneg now tick Htick ltac:(lia)) as H1. pose proof (tr_le now tick Htick) as H2. assert (B ≤ 2 ^ 61) by nia.
    set (l := Level tick (tick * sz) (tr now tick)).
    exists (Wheel sz [l] (λ _, new_bucket) (λ _, None) []). split_and!; [|by split|].
    { unfold new_wheel, new_level, truncate. rewrite (proj2 (Z.eqb_neq tick 0)) by lia. cbn [mbind go_bind]. rewrite (proj2 (Z.ltb_ge _ _)) by lia. cbn [mbind go_bind].
      rewrite tr_rem by lia. rewrite !i64_id; [done|split; nia..]. }
    split; simpl; try done.
    - split; simpl; [done|lia|unfold cur; simpl; lia|]. intros i x Hx. apply list_lookup_singleton_Some in Hx as [-> <-]. unfold cur. simpl. rewrite (T_S 0), T_0. assert (tr (tr now tick) tick = tr now tick) as -> by (by apply tr_mult). done.
    - apply NoDup_nil_2.
    - intros r. split; [by intros ?%elem_of_nil|done].
    - intros r Hr. by apply elem_of_nil in Hr.
    - intros r Hr. by apply elem_of_nil in Hr.
    - intros r x Hx. by apply elem_of_nil in Hx.
    - by left.
    - intros x [[r Hx]|Hx]; [|by apply elem_of_nil in Hx]. unfold live in Hx. simpl in Hx. by apply elem_of_nil in Hx.
    - intros x Hx. by apply elem_of_nil in Hx.
  Qed.
  Lemma tm_steps s0 l s : tm s0 → steps (prompt B) s0 l s → tm s.
  Proof. intros H0 H. induction H as [|s0 l s n v s' H IH Hv Hn]; [done|]. exact (tm_step n s v s' (IH H0) Hv Hn). Qed.
End Time.
