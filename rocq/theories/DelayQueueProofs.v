(** * Invariants of the delay queue *)
From stdpp Require Import relations sorting.
From Verif Require Import GoBase HeapModel HeapSpec HeapProofs HeapMethods DelayQueueModel DelayQueueSpec.
Local Open Scope Z_scope.

Lemma before_sw T : strict_weak (before (T := T)).
Proof. split; unfold before; intros; lia. Qed.

Section Inv.
  Context {T : Type}.
  Notation ent := (ent T).
  Notation cfg := (cfg T).
  Notation pc := (pc T).

  Definition holds (p : pc) : bool :=
    match p with
    | PuNow _ _ | PuHeap _ _ _ | PuPeek _ | PuCas | PuSend | PuUnlock
    | TkHead _ | TkNow _ _ | TkPop _ _ _ | TkFound _ _ | TkSleep _ _ | TkUnlock _ _
    | PoHead | PoNow _ | PoPop _ _ | PoUnlock _ | LkHead _ | LkUnlock _ | Crash => true
    | _ => false
    end.

  (** ** The mutex *)
  Definition mut (c : cfg) : Prop := ∀ t, holds (th c t) = true ↔ mutex c = Some t.
  Lemma mut_one c t u : mut c → holds (th c t) = true → holds (th c u) = true → u = t.
  Proof. intros HM H1 H2. apply HM in H1, H2. congruence. Qed.
End Inv.

(** take an equation [act c t = Some c'] apart, one goal per outcome *)
Ltac upd_cases := unfold upd in *; repeat match goal with |- context [decide (?a = ?b)] => destruct (decide (a = b)); subst; simpl in * end.
Ltac act_cases E Et :=
  unfold act in E; destruct (th _ _) eqn:Et in E; try done; unfold locked in E;
  repeat match type of E with
  | Some _ = Some _ => fail 1
  | (let '(_, _) := ?x in _) = Some _ => destruct x as [cap q] eqn:Eq
  | (if decide ?P then _ else _) = Some _ => destruct (decide P) as [Hcap|]; [|done]
  | match ?x with None => _ | Some _ => _ end = Some _ => destruct x eqn:Em; [done|]
  | match ?x with true => _ | false => _ end = Some _ => destruct x eqn:?
  end;
  injection E as E; 
  repeat match type of E with
  | context [if ?x then _ else _] => destruct x eqn:?
  | context [match gpop ?f ?h with Ret _ => _ | Panic _ => _ | Diverge => _ end] => destruct (gpop f h) as [[? ?]| |] eqn:?
  | context [match ?x with Ret _ => _ | Panic _ => _ | Diverge => _ end] => destruct x as [?| |] eqn:?
  | context [take_returns _ _ ?u _] => destruct u; unfold take_returns in E
  end; subst.

Section Inv.
  Context {T : Type}.
  Notation ent := (ent T).
  Notation cfg := (cfg T).
  Notation pc := (pc T).

  Lemma mut_act (c c' : cfg) t : mut c → act c t = Some c' → mut c'.
  Proof.
    intros HM E u. pose proof (HM t) as Ht. pose proof (HM u) as Hu. act_cases E Et; rewrite Et in Ht; simpl in *; upd_cases; try tauto; try (rewrite Et in *; simpl in *; tauto);
      try (split; [intros Hh; rewrite Hu in Hh|]; intuition congruence); by split.
  Qed.
  Lemma mut_step may can l (c c' : cfg) : mut c → step may can l c c' → mut c'.
  Proof.
    intros HM Hs. destruct Hs as [c n|c t o b Hi|c t|c t c'|c t u dl Ht|c t u dl Ht|c s r u Hs Hr|c t e cap q|c t e cap Hq Ht]; try done.
    - intros v. specialize (HM v). simpl. upd_cases; [|done]. rewrite Hi in HM. destruct o; done.
    - by eapply mut_act.
    - intros v. specialize (HM v). simpl. upd_cases; [|done]. by rewrite Ht in HM.
    - intros v. specialize (HM v). destruct u; simpl; upd_cases; try done; by rewrite Ht in HM.
    - intros v. specialize (HM v). simpl. upd_cases; [|by rewrite Hs in HM|done]. destruct (th c r) eqn:E; try done; exact HM.
    - intros v. specialize (HM v). simpl. upd_cases; [|done]. by rewrite Ht in HM.
  Qed.

  (** ** The heap and the history *)
  Lemma hist_perm ev (b : list ent) : delay_history ev b → pushed ev ≡ₚ removed ev ++ b.
  Proof.
    unfold pushed, removed.
    induction 1 as [|ev b t e a d H IH|ev b b' t e n H IH HP|ev b b' t e n H IH HP|ev b b' H IH HP]; [done|..]; rewrite ?omap_app; simpl.
    - rewrite app_nil_r. etrans; [symmetry; apply Permutation_cons_append|]. rewrite <-Permutation_middle. by constructor.
    - by rewrite app_nil_r, IH, HP, <-app_assoc.
    - by rewrite app_nil_r, IH, HP, <-app_assoc.
    - by rewrite IH, HP.
  Qed.
  Lemma head_min (h : list ent) e x : hok before 2 (length h) h → h !! 0%nat = Some e → x ∈ h → edl e ≤ edl x.
  Proof.
    intros Ho He Hx. apply elem_of_list_lookup in Hx as [i Hi].
    pose proof (hok_root before (before_sw T) 2 (length h) h) as H. specialize (H ltac:(lia) Ho ltac:(lia) i (lookup_lt_Some _ _ _ Hi) x e Hi He).
    unfold before in H. lia.
  Qed.
  Lemma pop_head (h : list ent) e : hok before 2 (length h) h → h !! 0%nat = Some e →
    ∃ h', gpop (hdown before) h = Ret (e, h') ∧ h ≡ₚ e :: h' ∧ hok before 2 (length h') h'.
  Proof.
    intros Ho He. destruct (gpop_spec before 2 (hdown before) ltac:(lia) (hdown_total before) h) as (x & h' & E & H0 & HP & Ho'); [by intros ->|].
    rewrite He in H0. injection H0 as <-. exists h'. split_and!; [done|done|]. apply Ho'; [|done]. apply hdown_order, before_sw.
  Qed.
  Lemma push_ok (h : list ent) e : hok before 2 (length h) h →
    ∃ h', gpush before 2 h e = Ret h' ∧ h' ≡ₚ e :: h ∧ hok before 2 (length h') h'.
  Proof.
    intros Ho. destruct (gpush_spec before 2 ltac:(lia) h e) as (h' & E & HP & Ho'). exists h'. split_and!; [done|done|]. apply Ho'; [|done]. apply before_sw.
  Qed.

  Definition pids (c : cfg) : list nat := eid <$> pushed (hist c).
  Definition pc_ok (c : cfg) (p : pc) : Prop :=
    match p with
    | PuHeap e a d => (eid e < fresh c)%nat ∧ eid e ∉ pids c ∧ edl e = a + d ∧ a ≤ clock c ∧ Forall (λ v, reading v ≤ a) (hist c)
    | PuPeek e => e ∈ heap c
    | TkNow _ e | PoNow e => heap c !! 0%nat = Some e
    | TkPop _ e n => heap c !! 0%nat = Some e ∧ edl e < n ∧ n ≤ clock c ∧ Forall (λ v, reading v ≤ n) (hist c)
    | PoPop e n => heap c !! 0%nat = Some e ∧ edl e ≤ n ∧ n ≤ clock c ∧ Forall (λ v, reading v ≤ n) (hist c)
    | LkUnlock (RPeek r) => heap c !! 0%nat = r
    | LkUnlock (REmpty b) => b = bool_decide (heap c = [])
    | LkUnlock _ => False
    | Crash => False
    | _ => True
    end.
  Record data (c : cfg) : Prop := {
    d_ord : hok before 2 (length (heap c)) (heap c);
    d_hist : delay_history (hist c) (heap c);
    d_nodup : NoDup (pids c);
    d_fresh : Forall (λ i, i < fresh c)%nat (pids c);
    d_sorted : StronglySorted Z.le (reading <$> hist c);
    d_clock : Forall (λ v, reading v ≤ clock c) (hist c);
    d_pc : ∀ t, pc_ok c (th c t);
  }.
  Lemma gempty_false (h : list ent) : gempty h = false → ∃ e h', h = e :: h'.
  Proof. unfold gempty. intros H%bool_decide_eq_false. destruct h as [|e h']; [done|]. by exists e, h'. Qed.
  Lemma gempty_true (h : list ent) : gempty h = true → h = [].
  Proof. unfold gempty. intros H%bool_decide_eq_true. by destruct h. Qed.
  (** the other goroutines' positions are untouched by a step that changes only [t], keeps or
      extends the clock, and changes heap and history only while [t] holds the mutex *)
  Lemma data_keep (c c' : cfg) t : mut c → data c → heap c' = heap c → hist c' = hist c → (fresh c ≤ fresh c')%nat → clock c ≤ clock c' →
    (∀ u, u ≠ t → th c' u = th c u) → pc_ok c' (th c' t) → data c'.
  Proof.
    intros HM HD Eh Ehi Hf Hck Hu Hp. destruct HD as [H1 H2 H3 H4 H5 H6 H7].
    split; rewrite ?Eh, ?Ehi; unfold pids in *; rewrite ?Ehi; [done|done|done| |done| |].
    - eapply Forall_impl; [exact H4|]. simpl; lia.
    - eapply Forall_impl; [exact H6|]. simpl; lia.
    - intros u. destruct (decide (u = t)) as [->|Hne]; [done|]. rewrite (Hu u Hne). specialize (H7 u). destruct (th c u) as [| | | | | | | | | | | | | | | | | | | | | | | | |[]| | |]; simpl in *; rewrite ?Eh, ?Ehi; unfold pids in *; rewrite ?Ehi; try done; intuition lia.
  Qed.
  Lemma data_change (c c' : cfg) t v : mut c → data c → mutex c = Some t → hok before 2 (length (heap c')) (heap c') →
    delay_history (hist c ++ [v]) (heap c') → hist c' = hist c ++ [v] → fresh c' = fresh c → clock c' = clock c →
    Forall (λ w, reading w ≤ reading v) (hist c) → reading v ≤ clock c →
    (∀ e, pushed [v] = [e] → (eid e < fresh c)%nat ∧ eid e ∉ pids c) →
    (∀ u, u ≠ t → th c' u = th c u) → pc_ok c' (th c' t) → data c'.
  Proof.
    intros HM HD Hm H1' H2' Ehi Ef Eck Hrd Hv Hnew Hu Hp. destruct HD as [H1 H2 H3 H4 H5 H6 H7].
    split; rewrite ?Ehi, ?Ef, ?Eck; unfold pids in *; rewrite ?Ehi; [done|done| | | | |].
    - unfold pushed in *. rewrite omap_app, fmap_app. destruct v as [t' e a d| |]; simpl in *; rewrite ?app_nil_r; [|done..].
      destruct (Hnew e eq_refl) as [_ Hn]. apply NoDup_app. split_and!; [done| |apply NoDup_singleton]. by intros x Hx ->%elem_of_list_singleton.
    - unfold pushed in *. rewrite omap_app, fmap_app. apply Forall_app. split; [done|]. destruct v as [t' e a d| |]; simpl in *; constructor; [|done]. by destruct (Hnew e eq_refl).
    - rewrite fmap_app. simpl. clear -H5 Hrd. induction (hist c) as [|w h IH]; simpl; [by repeat constructor|].
      simpl in H5. apply StronglySorted_inv in H5 as [H5 H5']. apply Forall_cons in Hrd as [Hw Hrd]. constructor; [by apply IH|]. apply Forall_app. split; [done|]. by repeat constructor.
    - apply Forall_app. split; [done|]. by repeat constructor.
    - intros u. destruct (decide (u = t)) as [->|Hne]; [done|]. rewrite (Hu u Hne). specialize (H7 u).
      assert (holds (th c u) = false) as Hf by (destruct (holds (th c u)) eqn:Eq; [apply HM in Eq; congruence|done]). destruct (th c u); done.
  Qed.
  Lemma data_act (c c' : cfg) t : mut c → data c → act c t = Some c' → data c'.
  Proof.
    intros HM HD E. pose proof (d_pc c HD t) as Hpc. pose proof (HM t) as Hmt. act_cases E Et; rewrite Et in Hpc, Hmt; simpl in Hpc, Hmt.
    all: try (eapply (data_keep c _ t HM HD); simpl; try done; try lia; [intros; unfold upd; by rewrite decide_False|]; unfold upd; rewrite decide_True by done; simpl; done).
    all: pose proof (d_ord c HD) as Ho.
    all: try (match goal with H : gpush before 2 _ ?e = _ |- _ => destruct (push_ok (heap c) e Ho) as (h' & Eh' & HPp & Ho'); rewrite H in Eh'; try done; injection Eh' as -> end).
    all: try (match goal with H : gpop _ _ = _ |- _ => destruct (pop_head (heap c) e Ho ltac:(apply Hpc)) as (h' & Eh' & HPp & Ho'); rewrite H in Eh'; try done; injection Eh' as -> -> end).
    all: try (match goal with H : gempty _ = false |- _ => destruct (gempty_false _ H) as (x0 & h0 & Eh0) end).
    all: try (match goal with H : gpeek _ = _ |- _ => unfold gpeek, idx in H; rewrite ?Eh0 in H; simpl in H; try done end).
    all: try (eapply (data_keep c _ t HM HD); simpl; try done; try lia; [intros; unfold upd; by rewrite decide_False|]; unfold upd; rewrite decide_True by done; simpl).
    - split_and!; [lia| |done|lia|apply HD]. intros Hin. pose proof (d_fresh c HD) as HF. rewrite Forall_forall in HF. apply HF in Hin. lia.
    - destruct Hpc as (P1 & P2 & P3 & P4 & P5). eapply (data_change c _ t (EvPush t e at_ d) HM HD); simpl; try done.
      + by apply Hmt.
      + eapply dh_bag; [|symmetry; exact HPp]. by constructor; [apply HD|].
      + by intros ? [= <-].
      + intros. unfold upd. by rewrite decide_False.
      + unfold upd. rewrite decide_True by done. simpl. rewrite HPp. by left.
    - destruct (heap c) as [|y l] eqn:El; [by apply elem_of_nil in Hpc|]. done.
    - destruct (heap c) as [|y l] eqn:El; [by apply elem_of_nil in Hpc|]. done.
    - by rewrite Eh0; simpl; simplify_eq.
    - split_and!; [done|lia|lia|apply HD].
    - destruct Hpc as (P1 & P2 & P3 & P4). eapply (data_change c _ t (EvTake t e n) HM HD); simpl; try done.
      + by apply Hmt.
      + eapply dh_take; [apply HD|done| |done]. intros x Hx. exact (head_min _ _ _ Ho P1 Hx).
      + intros. unfold upd. by rewrite decide_False.
      + unfold upd. by rewrite decide_True.
    - by rewrite Eh0; simpl; simplify_eq.
    - split_and!; [done|lia|lia|apply HD].
    - destruct Hpc as (P1 & P2 & P3 & P4). eapply (data_change c _ t (EvPop t e n) HM HD); simpl; try done.
      + by apply Hmt.
      + eapply dh_pop; [apply HD|done| |done]. intros x Hx. exact (head_min _ _ _ Ho P1 Hx).
      + intros. unfold upd. by rewrite decide_False.
      + unfold upd. by rewrite decide_True.
    - unfold gempty. apply bool_decide_ext. destruct (heap c); done.
    - by rewrite (gempty_true _ Heqb0).
    - by rewrite Eh0; simpl; simplify_eq.
  Qed.
  Lemma data_step may can l (c c' : cfg) : mut c → data c → step may can l c c' → data c'.
  Proof.
    intros HM HD Hs. destruct Hs as [c n Hn|c t o b Hi|c t|c t c'|c t u dl Ht|c t u dl Ht|c s r u Hs Hr|c t e cap q|c t e cap Hq Ht].
    - apply (data_keep c _ 0 HM HD); simpl; try done. pose proof (d_pc c HD 0%nat) as Hp. destruct (th c 0) as [| | | | | | | | | | | | | | | | | | | | | | | | |[]| | |]; simpl in *; intuition lia.
    - apply (data_keep c _ t HM HD); simpl; try done; [intros; unfold upd; by rewrite decide_False|]. unfold upd. rewrite decide_True by done. by destruct o.
    - apply (data_keep c _ 0 HM HD); simpl; try done. apply HD.
    - by eapply data_act.
    - apply (data_keep c _ t HM HD); simpl; try done; [intros; unfold upd; by rewrite decide_False|]. unfold upd. by rewrite decide_True.
    - destruct u; (apply (data_keep c _ t HM HD); simpl; try done; [intros; unfold upd; by rewrite decide_False|]; unfold upd; by rewrite decide_True).
    - assert (data (goto c s PuUnlock)) as HD'.
      { apply (data_keep c _ s HM HD); simpl; try done; [intros; unfold upd; by rewrite decide_False|]. unfold upd. by rewrite decide_True. }
      assert (mut (goto c s PuUnlock)) as HM'.
      { intros v. specialize (HM v). simpl. upd_cases; [by rewrite Hs in HM|done]. }
      apply (data_keep (goto c s PuUnlock) _ r HM' HD'); simpl; try done; [intros v Hv; unfold upd; destruct (decide (v = r)); done|]. unfold upd. by rewrite decide_True.
    - apply (data_keep c _ 0 HM HD); simpl; try done. apply HD.
    - apply (data_keep c _ t HM HD); simpl; try done; [intros; unfold upd; by rewrite decide_False|]. unfold upd. by rewrite decide_True.
  Qed.

  (** ** What the callers got *)
  Definition chanlike (p : pc) : bool :=
    match p with
    | TkLock UChan | TkHead UChan | TkNow UChan _ | TkPop UChan _ _ | TkFound UChan _ | TkSleep UChan _ | TkUnlock UChan _
    | TkWait UChan _ | TkSwap UChan | TkRecv UChan | ChSend _ | ChClosed => true
    | _ => false
    end.
  Definition holding (p : pc) : list ent :=
    match p with TkFound _ e | ChSend e | PoUnlock (Some e) => [e] | _ => [] end.
  Definition acc (c : cfg) : Prop := ∀ t,
    removed_by t (hist c) = returned_by t (rets c) ++ sent_by t (sent c) ++ (outq c t).2 ++ holding (th c t) ∧
    (chanlike (th c t) = false → sent_by t (sent c) = [] ∧ (outq c t).2 = []).
  Lemma acc_act (c c' : cfg) t : data c → data c' → acc c → act c t = Some c' → acc c'.
  Proof.
    intros HD HD' HA E v. specialize (HA v) as [HA1 HA2]. pose proof (d_pc c HD t) as Hpc.
    assert (th c' t ≠ Crash) as Hcr by (intros Hc; pose proof (d_pc c' HD' t) as Hp; by rewrite Hc in Hp). clear HD HD'.
    act_cases E Et; rewrite Et in Hpc; unfold take_returns; simpl; unfold removed_by, returned_by in *; rewrite ?omap_app; simpl; unfold upd; (destruct (decide (v = t)) as [->|Hne];
      [rewrite Et in HA1, HA2; simpl in *|rewrite ?decide_False by congruence; simpl; rewrite ?app_nil_r; try done]).
    all: rewrite ?decide_True by done; simpl; rewrite ?app_nil_r in *; try done.
    all: try (exfalso; apply Hcr; simpl; unfold upd; by rewrite decide_True).
    - rewrite HA1. split; [by rewrite <-!app_assoc|done].
    - destruct (HA2 eq_refl) as [-> ->]. rewrite HA1. destruct (HA2 eq_refl) as [-> ->]. by rewrite !app_nil_r.
    - rewrite HA1. split; [by rewrite <-!app_assoc|done].
    - destruct (HA2 eq_refl) as [-> ->]. rewrite HA1. destruct (HA2 eq_refl) as [-> ->]. destruct r; rewrite ?decide_True by done; by rewrite !app_nil_r.
    - destruct r; rewrite ?decide_False by done; by rewrite !app_nil_r.
    - destruct r as [|[]| |]; try done; by rewrite !app_nil_r.
    - destruct r as [|[]| |]; try done; by rewrite !app_nil_r.
    - by rewrite Eq in HA1.
  Qed.
  Lemma acc_step may can l (c c' : cfg) : data c → data c' → acc c → step may can l c c' → acc c'.
  Proof.
    intros HD HD' HA Hs. destruct Hs as [c n Hn|c t o b Hi|c t|c t c' E|c t u dl Ht|c t u dl Ht|c s r u Hs Hr|c t e cap q Hq|c t e cap Hq Ht]; [done| |done|exact (acc_act _ _ _ HD HD' HA E)|..]; intros v; specialize (HA v) as [HA1 HA2]; simpl.
    - unfold upd. destruct (decide (v = t)) as [->|]; [|done]. rewrite Hi in *. destruct (HA2 eq_refl) as [E1 E2]. rewrite HA1. destruct o; simpl; rewrite ?E1, ?E2; done.
    - unfold upd. destruct (decide (v = t)) as [->|]; [|done]. by rewrite Ht in *.
    - destruct u; simpl; unfold upd, returned_by; rewrite ?omap_app; simpl; rewrite ?app_nil_r; destruct (decide (v = t)) as [->|]; try done; by rewrite Ht in *.
    - unfold upd. destruct (decide (v = r)) as [->|]; [|destruct (decide (v = s)) as [->|]; [by rewrite Hs in *|done]]. destruct (th c r); try done; by injection Hr as ->.
    - unfold upd, sent_by in *. rewrite omap_app. simpl. destruct (decide (v = t)) as [->|].
      + rewrite Hq in *. simpl in *. rewrite decide_True by done. split; [by rewrite HA1, <-!app_assoc|]. intros Hc. by destruct (HA2 Hc).
      + rewrite decide_False by done. by rewrite app_nil_r.
    - unfold upd, sent_by in *. rewrite omap_app. simpl. destruct (decide (v = t)) as [->|].
      + rewrite decide_True by done. rewrite Ht, Hq in *. simpl in *. split; [by rewrite HA1, <-!app_assoc|done].
      + rewrite decide_False by done. by rewrite app_nil_r.
  Qed.

  Lemma init_mut now : mut (init now : cfg).
  Proof. intros t. by split. Qed.
  Lemma init_data now : data (init now : cfg).
  Proof. split; simpl; try done; try constructor. Qed.
  Lemma init_acc now : acc (init now : cfg).
  Proof. intros t. done. Qed.
  Lemma reach_inv may can now (c : cfg) : reachable may can now c → mut c ∧ data c ∧ acc c.
  Proof.
    intros Hr. refine (rtc_ind_r (λ c, mut c ∧ data c ∧ acc c) (init now) _ _ c Hr).
    - split_and!; [apply init_mut|apply init_data|apply init_acc].
    - intros x y _ [l Hs] (HM & HD & HA). pose proof (data_step _ _ _ _ _ HM HD Hs) as HD'. split_and!; [exact (mut_step _ _ _ _ _ HM Hs)|done|exact (acc_step _ _ _ _ _ HD HD' HA Hs)].
  Qed.
End Inv.
