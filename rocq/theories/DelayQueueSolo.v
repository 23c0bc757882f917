(** * The delay queue with one taker that is never cancelled *)
From stdpp Require Import relations sorting.
From Verif Require Import GoBase HeapModel HeapSpec HeapProofs HeapMethods DelayQueueModel DelayQueueSpec DelayQueueProofs.
Local Open Scope Z_scope.

(** only goroutine [r] calls Take (or Channel); everybody may do the rest *)
Definition solo_may {T} (r : nat) (t : nat) (o : call T) : Prop := match o with CTake | CChan _ => t = r | _ => True end.
Definition solo_can (t : nat) : Prop := False.

Section Solo.
  Context {T : Type}.
  Notation ent := (ent T).
  Notation cfg := (cfg T).
  Notation pc := (pc T).

  Definition taking (p : pc) : bool :=
    match p with
    | TkLock _ | TkHead _ | TkNow _ _ | TkPop _ _ _ | TkFound _ _ | TkSleep _ _ | TkUnlock _ _ | TkWait _ _ | TkSwap _ | TkRecv _ | ChSend _ | ChClosed => true
    | _ => false
    end.
  (** the taker has announced that it sleeps *)
  Definition asleep (p : pc) : bool := match p with TkUnlock _ _ | TkWait _ _ | TkSwap _ => true | _ => false end.
  Definition can_recv (p : pc) : bool := match p with TkWait _ _ | TkSwap _ | TkRecv _ => true | _ => false end.
  Definition deadline (p : pc) : option (option Z) := match p with TkSleep _ dl | TkUnlock _ dl | TkWait _ dl => Some dl | _ => None end.
  Definition covers (dl : option Z) (x : ent) : Prop := ∃ d, dl = Some d ∧ d ≤ edl x.
  Definition announcing (p : pc) : bool := match p with PuPeek _ | PuCas | PuSend => true | _ => false end.

  Definition covered (c : cfg) (dl : option Z) : Prop :=
    (∀ x, x ∈ heap c → covers dl x) ∨
    ∃ s, match th c s with PuPeek e => ∀ x, x ∈ heap c → x ≠ e → covers dl x | PuCas | PuSend => True | _ => False end.


  Record solo (r : nat) (c : cfg) : Prop := {
    so_only : ∀ t, taking (th c t) = true → t = r;
    so_cancel : ∀ t, cancelled c t = false;
    so_sleep : sleeping c = true → asleep (th c r) = true;
    so_send : ∀ s, th c s = PuSend → sleeping c = false ∧ can_recv (th c r) = true;
    so_recv : ∀ u, th c r = TkRecv u → ∃ s, th c s = PuSend;
    so_wait : asleep (th c r) = true → sleeping c = true ∨ ∃ s, th c s = PuSend;
    so_cover : ∀ dl, deadline (th c r) = Some dl → covered c dl;
  }.
  (** a step of a goroutine that is not in Take and neither starts nor ends a send *)
  Lemma solo_other r (c c' : cfg) t p : solo r c → th c' = upd (th c) t p → taking (th c t) = false → taking p = false →
    th c t ≠ PuSend → p ≠ PuSend → sleeping c' = sleeping c → cancelled c' = cancelled c →
    (∀ dl, th c' r = th c r → deadline (th c r) = Some dl → covered c dl → covered c' dl) → solo r c'.
  Proof.
    intros [H1 H2 H3 H4 H5 H6 H7] Eth Hr1 Hr2 Hs1 Hs2 Es Ec Hh.
    assert (Hu : ∀ u, u ≠ t → th c' u = th c u) by (intros; rewrite Eth; unfold upd; by rewrite decide_False).
    assert (Ht : th c' t = p) by (rewrite Eth; unfold upd; by rewrite decide_True).
    assert (Hsend : ∀ s, th c s = PuSend → th c' s = PuSend).
    { intros s Hs. destruct (decide (s = t)) as [->|]; [done|]. by rewrite Hu. }
    assert (Hsend' : ∀ s, th c' s = PuSend → th c s = PuSend).
    { intros s Hs. destruct (decide (s = t)) as [->|]; [congruence|]. by rewrite <-Hu. }
    assert (Hcase : th c' r = th c r ∨ taking (th c' r) = false ∧ taking (th c r) = false).
    { destruct (decide (r = t)) as [->|]; [right; by rewrite Ht|left; by rewrite Hu]. }
    split.
    - intros u Htk. destruct (decide (u = t)) as [->|]; [rewrite Ht in Htk; congruence|]. rewrite Hu in Htk by done. by apply H1.
    - intros u. by rewrite Ec.
    - rewrite Es. intros Hs. specialize (H3 Hs). destruct Hcase as [->|[_ Hc]]; [done|]. by destruct (th c r).
    - rewrite Es. intros s Hs. specialize (H4 s (Hsend' s Hs)). destruct Hcase as [->|[_ Hc]]; [done|]. by destruct (th c r), H4.
    - intros u E. destruct Hcase as [Eq|[Hc _]]; [|by rewrite E in Hc]. rewrite Eq in E. destruct (H5 u E) as [s Hs]. eauto.
    - rewrite Es. intros E. destruct Hcase as [Eq|[Hc _]]; [|by destruct (th c' r)]. rewrite Eq in E. destruct (H6 E) as [|[s Hs]]; eauto.
    - intros dl E. destruct Hcase as [Eq|[Hc _]]; [|by destruct (th c' r)]. rewrite Eq in E. exact (Hh dl Eq E (H7 dl E)).
  Qed.
  Lemma solo_frame r (c c' : cfg) t p : solo r c → th c' = upd (th c) t p → taking (th c t) = false → taking p = false →
    announcing (th c t) = false → announcing p = false →
    sleeping c' = sleeping c → cancelled c' = cancelled c → (∀ x, x ∈ heap c' → x ∈ heap c) → solo r c'.
  Proof.
    intros HS Eth Hr1 Hr2 Ha1 Ha2 Es Ec Hh. eapply solo_other; eauto; [by intros E; rewrite E in Ha1|by intros ->|].
    intros dl _ _ [Hc|[s Hs]]; [left; eauto|]. right. exists s.
    destruct (decide (s = t)) as [->|]; [by destruct (th c t)|]. rewrite Eth. unfold upd. rewrite decide_False by done. destruct (th c s); try done. intros; apply Hs; eauto.
  Qed.
  (** a step of the taker *)
  Lemma solo_taker r (c c' : cfg) p : solo r c → taking (th c r) = true → th c' = upd (th c) r p → announcing p = false → cancelled c' = cancelled c →
    (sleeping c' = true → asleep p = true) →
    (∀ s, th c s = PuSend → sleeping c = false → can_recv (th c r) = true → sleeping c' = false ∧ can_recv p = true) →
    (∀ u, p = TkRecv u → ∃ s, th c s = PuSend) →
    (asleep p = true → sleeping c' = true ∨ ∃ s, th c s = PuSend) →
    (∀ dl, deadline p = Some dl → covered c dl ∧ heap c' = heap c) → solo r c'.
  Proof.
    intros [H1 H2 H3 H4 H5 H6 H7] Htk Eth Hp Ec G3 G4 G5 G6 G7.
    assert (Hu : ∀ u, u ≠ r → th c' u = th c u) by (intros; rewrite Eth; unfold upd; by rewrite decide_False).
    assert (Ht : th c' r = p) by (rewrite Eth; unfold upd; by rewrite decide_True).
    assert (Hsend : ∀ s, th c s = PuSend → th c' s = PuSend).
    { intros s Hs. destruct (decide (s = r)) as [->|]; [by rewrite Hs in Htk|]. by rewrite Hu. }
    assert (Hsend' : ∀ s, th c' s = PuSend → th c s = PuSend).
    { intros s Hs. destruct (decide (s = r)) as [->|]; [rewrite Ht in Hs; by rewrite Hs in Hp|]. by rewrite <-Hu. }
    split; rewrite ?Ht.
    - intros u Hk. destruct (decide (u = r)) as [->|]; [done|]. rewrite Hu in Hk by done. by apply H1.
    - intros u. by rewrite Ec.
    - done.
    - intros s Hs. apply Hsend' in Hs. destruct (H4 s Hs). eauto.
    - intros u E. destruct (G5 u E) as [s Hs]. eauto.
    - intros E. destruct (G6 E) as [|[s Hs]]; eauto.
    - intros dl E. destruct (G7 dl E) as [Hc Eh]. unfold covered. rewrite Eh. destruct Hc as [Hc|[s Hs]]; [by left|]. right. exists s.
      destruct (decide (s = r)) as [->|]; [by destruct (th c r)|]. by rewrite Hu.
  Qed.
  Lemma awake r (c : cfg) : solo r c → asleep (th c r) = false → can_recv (th c r) = false → sleeping c = false ∧ ∀ s, th c s ≠ PuSend.
  Proof.
    intros HS H1 H2. split.
    - destruct (sleeping c) eqn:E; [|done]. apply (so_sleep r c HS) in E. congruence.
    - intros s Hs. apply (so_send r c HS) in Hs as [_ Hs]. congruence.
  Qed.
  Lemma solo_act r (c c' : cfg) t : mut c → data c → data c' → solo r c → act c t = Some c' → solo r c'.
  Proof.
    intros HM HD HD' HS E. pose proof (d_pc c HD t) as Hpc. pose proof (d_ord c HD) as Ho. destruct (taking (th c t)) eqn:Htk.
    - assert (t = r) as -> by by apply (so_only r c HS). pose proof (awake r c HS) as Haw.
      assert (Hb : th c' r ≠ Crash) by (intros Hc; pose proof (d_pc c' HD' r) as Hp; by rewrite Hc in Hp). clear HD'.
      act_cases E Et; rewrite Et in Htk, Hpc, Haw; try done.
      all: try (exfalso; apply Hb; simpl; unfold upd; by rewrite decide_True).
      all: try (destruct (Haw eq_refl eq_refl) as [Hs1 Hs2];
        eapply (solo_taker r c _ _ HS); [by rewrite Et|reflexivity|done|done|try (simpl; congruence)|intros s Hs; by destruct (Hs2 s)|done|try done|try done]).
      + intros dl [= <-]. split; [|done]. left. rewrite (gempty_true _ Heqb). by intros x Hx%elem_of_nil.
      + intros dl [= <-]. split; [|done]. left. intros x Hx. exists (edl e). split; [done|]. exact (head_min _ _ _ Ho Hpc Hx).
      + by left.
      + intros dl' [= <-]. split; [|done]. apply (so_cover r c HS). by rewrite Et.
      + eapply (solo_taker r c _ _ HS); [by rewrite Et|reflexivity|done|done|done| |done| |].
        * intros s Hs _. by rewrite Et.
        * intros _. apply (so_wait r c HS). by rewrite Et.
        * intros dl' [= <-]. split; [|done]. apply (so_cover r c HS). by rewrite Et.
      + eapply (solo_taker r c _ _ HS); [by rewrite Et|reflexivity|done|done|done| |done|done|done].
        intros s Hs Hsl. congruence.
      + eapply (solo_taker r c _ _ HS); [by rewrite Et|reflexivity|done|done|done| | |done|done].
        * done.
        * intros _ _. destruct (so_wait r c HS) as [Hw|Hw]; [by rewrite Et|congruence|done].
    - assert (Hun : holds (th c t) = true → ∀ s, holds (th c s) = true → s = t) by (intros Ht s Hs; by eapply (mut_one c)).
      assert (Hb : th c' t ≠ Crash) by (intros Hc; pose proof (d_pc c' HD' t) as Hp; by rewrite Hc in Hp). clear HD'.
      act_cases E Et; rewrite Et in Htk, Hpc, Hun; try done.
      all: try (exfalso; apply Hb; simpl; unfold upd; by rewrite decide_True).
      all: try (eapply (solo_frame r c _ t); [done|simpl; reflexivity|by rewrite Et|done|by rewrite Et|done|done|done|simpl; done]).
      + destruct (push_ok (heap c) e Ho) as (h' & Eh' & HPp & Ho'). rewrite Heqg in Eh'. injection Eh' as ->.
        eapply (solo_other r c _ t); [done|simpl; reflexivity|by rewrite Et|done|by rewrite Et|done|done|done|]. simpl. intros dl _ _ Hc. right. exists t. simpl. unfold upd. rewrite decide_True by done.
        intros x Hx Hne. rewrite HPp in Hx. apply elem_of_cons in Hx as [->|Hx]; [done|]. destruct Hc as [Hc|[s Hs]]; [by apply Hc|].
        assert (s = t) as -> by (apply Hun; [done|]; by destruct (th c s)). by rewrite Et in Hs.
      + eapply (solo_other r c _ t); [done|simpl; reflexivity|by rewrite Et|done|by rewrite Et|done|done|done|]. simpl. intros dl _ _ Hc.
        right. exists t. simpl. unfold upd. by rewrite decide_True.
      + eapply (solo_other r c _ t); [done|simpl; reflexivity|by rewrite Et|done|by rewrite Et|done|done|done|]. simpl. intros dl _ _ Hc.
        unfold gpeek, idx in Heqg. destruct (heap c !! 0%nat) as [x|] eqn:E0; [|done]. injection Heqg as ->.
        left. simpl. intros y Hy. destruct Hc as [Hc|[s Hs]]; [by apply Hc|]. assert (s = t) as -> by (apply Hun; [done|]; by destruct (th c s)). rewrite Et in Hs.
        destruct (Hs a) as (d & -> & Hd); [by eapply elem_of_list_lookup_2|congruence|]. exists d. split; [done|]. pose proof (head_min _ _ _ Ho E0 Hy). lia.
      + rename select (sleeping c = true) into Hsl. assert (th c r ≠ PuCas) as Hr by (intros Hr; pose proof (so_sleep r c HS Hsl) as Ha; by rewrite Hr in Ha).
        assert (r ≠ t) as Hrt by congruence. assert (Hno : ∀ s, th c s ≠ PuSend) by (intros s Hs; apply (so_send r c HS) in Hs; destruct Hs; congruence).
        destruct HS as [H1 H2 H3 H4 H5 H6 H7]. split; simpl; unfold upd; rewrite ?(decide_False (P := r = t)) by done.
        * intros u. destruct (decide (u = t)); [done|]. apply H1.
        * done.
        * done.
        * intros s _. split; [done|]. specialize (H3 Hsl). destruct (th c r) eqn:Er; try done. exfalso. apply Hrt, Hun; [done|]. by rewrite Er.
        * intros u Hu. rewrite Hu in H3. by specialize (H3 Hsl).
        * intros _. right. exists t. destruct (decide (t = t)); done.
        * intros dl _. right. exists t. simpl. unfold upd. destruct (decide (t = t)); done.
      + eapply (solo_other r c _ t); [done|simpl; reflexivity|by rewrite Et|done|by rewrite Et|done|done|done|]. simpl. intros dl Heq Hdl Hc.
        exfalso. assert (r ≠ t) as Hrt by (intros ->; by rewrite Et in Hdl).
        assert (holds (th c r) = false) as Hr by (destruct (holds (th c r)) eqn:Eh; [|done]; by destruct (Hrt (Hun eq_refl r Eh))).
        destruct (so_wait r c HS) as [Hw|[s Hs]]; [by destruct (th c r)|congruence|]. assert (s = t) as -> by (apply Hun; [done|]; by rewrite Hs). congruence.
      + destruct (pop_head (heap c) e Ho) as (h' & Eh' & HPp & Ho'); [by destruct Hpc|]. rewrite Heqg in Eh'. injection Eh' as -> ->.
        eapply (solo_frame r c _ t); [done|simpl; reflexivity|by rewrite Et|done|by rewrite Et|done|done|done|]. simpl. intros x Hx. rewrite HPp. by right.
  Qed.
  Lemma solo_step r l (c c' : cfg) : mut c → data c → data c' → solo r c → step (solo_may r) solo_can l c c' → solo r c'.
  Proof.
    intros HM HD HD' HS Hs. destruct Hs as [c n Hn|c t o b Hi Hmay Hb|c t []|c t c' E|c t u dl Ht Hdl|c t u dl Ht Hcn|c s r' u Hs Hr|c t e cap q Hq|c t e cap Hq Ht].
    - destruct HS; by split.
    - assert (b = false) as -> by (destruct b; [by destruct Hb|done]).
      assert (solo r (set_outq (set_cancelled c t false) t (call_outq o (outq c t)))) as HS'.
      { destruct HS as [H1 H2 H3 H4 H5 H6 H7]. split; try done. intros u. simpl. unfold upd. by destruct (decide _). }
      destruct (decide (taking (start o) = true)) as [Htk|Htk].
      + assert (t = r) as -> by by destruct o. pose proof (awake r c HS) as Haw. rewrite Hi in Haw. destruct (Haw eq_refl eq_refl) as [Hs1 Hs2].
        destruct HS as [H1 H2 H3 H4 H5 H6 H7].
        split; simpl; unfold upd; rewrite ?(decide_True (P := r = r)) by done.
        * intros u. destruct (decide (u = r)); [done|]. apply H1.
        * intros u. by destruct (decide (u = r)).
        * congruence.
        * intros s. destruct (decide (s = r)); [by destruct o|]. intros Hs. by destruct (Hs2 s).
        * intros u. by destruct o.
        * by destruct o.
        * by destruct o.
      + eapply (solo_frame r _ _ t (start o) HS'); simpl; try done; [by rewrite Hi|by destruct (taking (start o))|by rewrite Hi|by destruct o].
    - exact (solo_act r c c' t HM HD HD' HS E).
    - assert (t = r) as -> by (apply (so_only r c HS); by rewrite Ht).
      eapply (solo_taker r c _ _ HS); [by rewrite Ht|reflexivity|done|done|done|done|done| |done]. intros _. apply (so_wait r c HS). by rewrite Ht.
    - by rewrite (so_cancel r c HS) in Hcn.
    - assert (r' = r) as -> by (apply (so_only r c HS); by destruct (th c r')). assert (r ≠ s) as Hne by (intros ->; by rewrite Hs in Hr).
      destruct (so_send r c HS s Hs) as [Hsl Hcr]. destruct HS as [H1 H2 H3 H4 H5 H6 H7].
      split; simpl; unfold upd; rewrite ?(decide_True (P := r = r)) by done; simpl; try done.
      + intros v. destruct (decide (v = r)); [done|]. destruct (decide (v = s)); [done|]. apply H1.
      + congruence.
      + intros v. destruct (decide (v = r)); [done|]. destruct (decide (v = s)) as [->|Hvs]; [done|]. intros Hv. exfalso. apply Hvs. apply (mut_one c s v HM); by rewrite ?Hs, ?Hv.
    - destruct HS; by split.
    - assert (t = r) as -> by (apply (so_only r c HS); by rewrite Ht). pose proof (awake r c HS) as Haw. rewrite Ht in Haw. destruct (Haw eq_refl eq_refl) as [Hs1 Hs2].
      eapply (solo_taker r c _ _ HS); [by rewrite Ht|reflexivity|done|done|simpl; congruence|intros s Hs; by destruct (Hs2 s)|done|done|done].
  Qed.
  Lemma solo_init r now : solo r (init now : cfg).
  Proof. split; try done. Qed.
  Lemma solo_reach r now (c : cfg) : reachable (solo_may r) solo_can now c → mut c ∧ data c ∧ solo r c.
  Proof.
    intros Hr. refine (rtc_ind_r (λ c, mut c ∧ data c ∧ solo r c) (init now) _ _ c Hr).
    - split_and!; [apply init_mut|apply init_data|apply solo_init].
    - intros x y _ [l Hs] (HM & HD & HA). pose proof (data_step _ _ _ _ _ HM HD Hs) as HD'. split_and!; [exact (mut_step _ _ _ _ _ HM Hs)|done|exact (solo_step _ _ _ _ HM HD HD' HA Hs)].
  Qed.
End Solo.
