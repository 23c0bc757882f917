(** * Maps with callbacks: invariants *)
From stdpp Require Import gmap.
From Verif Require Import GoBase LockModel MapsModel RangeModel RangeSpec.

Section Proofs.
  Context {K W : Type} `{Countable K}.
  Notation val := (option W).
  Notation obj := (option (gmap K val)).
  Notation cmd := (cmd K W).
  Notation frame := (frame K W).
  Notation thread := (thread K W).

  (** ** Every execution is finite *)
  Definition smaller (a b : frame) : Prop :=
    f_defer a = f_defer b ∧ f_fun a = f_fun b ∧ f_cont a = f_cont b ∧ f_extra a = f_extra b ∧ f_left a ⊆ f_left b.
  Lemma smaller_refl a : smaller a a.
  Proof. by repeat split. Qed.
  Lemma smaller_trans a b c : smaller a b → smaller b c → smaller a c.
  Proof. intros (?&?&?&?&?) (?&?&?&?&?). repeat split; try congruence. set_solver. Qed.
  Lemma smallers_refl fs : Forall2 smaller fs fs.
  Proof. induction fs; constructor; auto using smaller_refl. Qed.
  Lemma smallers_trans a b c : Forall2 smaller a b → Forall2 smaller b c → Forall2 smaller a c.
  Proof. intros Hab. revert c. induction Hab; intros c' Hc; inversion Hc; subst; constructor; eauto using smaller_trans. Qed.
  Lemma shrink_smaller o fs : Forall2 smaller (shrink o <$> fs) fs.
  Proof. induction fs as [|[] fs IH]; constructor; [|exact IH]. repeat split; simpl. set_solver. Qed.
  Definition lrel (a b : thread) : Prop := ∃ t o mu o' mu' ev, tstep t o mu a o' mu' b ev.
  Definition measure (fr : frame) : nat := f_extra fr + size (f_left fr).

  Ltac inv_l := let t := fresh "t" in let H1 := fresh in intros (t & ? & ? & ? & ? & ? & H1); inversion H1; subst; clear H1.
  Lemma after_sn d (c : cmd) fs : (∀ fs', Forall2 smaller fs' fs → sn lrel (c, fs')) → sn lrel (after d c, fs).
  Proof. intros Hc. destruct d as [m|]; [|apply Hc, smallers_refl]. constructor. intros th. inv_l; apply Hc, smallers_refl. Qed.
  Lemma cmd_sn (c : cmd) : ∀ fs, (∀ fs', Forall2 smaller fs' fs → sn lrel (Done, fs') ∧ sn lrel (Throw, fs')) → sn lrel (c, fs).
  Proof.
    induction c as [| |g IH|h c IH|m c IH|m c IH|m c IH|d f IHf c IHc]; intros fs Hfs.
    - apply Hfs, smallers_refl.
    - apply Hfs, smallers_refl.
    - constructor. intros th. inv_l. by apply IH.
    - constructor. intros th. inv_l. apply IH. intros fs' Hs. apply Hfs. eapply smallers_trans; [exact Hs|]. apply shrink_smaller.
    - constructor. intros th. inv_l; try (by apply IH); constructor; intros th; inv_l; by apply IH.
    - constructor. intros th. inv_l; by apply IH.
    - constructor. intros th. inv_l; by apply IH.
    - constructor. intros th. inv_l.
      assert (Hloop : ∀ n fr fs', (measure fr < n)%nat → f_fun fr = f → f_cont fr = c → Forall2 smaller fs' fs → sn lrel (Done, fr :: fs') ∧ sn lrel (Throw, fr :: fs')).
      { clear - IHf IHc Hfs. induction n as [|n IHn]; intros fr fs' Hm Hf Hc Hs; [lia|]. assert (Hfs' : ∀ fs'', Forall2 smaller fs'' fs' → sn lrel (Done, fs'') ∧ sn lrel (Throw, fs'')) by (intros fs'' Hs'; apply Hfs; eapply smallers_trans; eauto).
        split; constructor; intros th; inv_l; simpl in *.
        - apply IHf. intros fs'' Hs'. inversion Hs' as [|fr'' ? l1 ? Hsm Hl1]; subst. destruct Hsm as (_ & E1 & E2 & E3 & E4). simpl in *. apply IHn; [|done|done|eapply smallers_trans; eauto].
          unfold measure in *. rewrite E3. simpl in *. apply subseteq_size in E4. rewrite size_difference in E4 by set_solver. rewrite size_singleton in E4. assert (size l ≠ 0%nat) by (intros E0; apply size_empty_inv in E0; set_solver). lia.
        - apply IHf. intros fs'' Hs'. inversion Hs' as [|fr'' ? l1 ? Hsm Hl1]; subst. destruct Hsm as (_ & E1 & E2 & E3 & E4). simpl in *. apply IHn; [|done|done|eapply smallers_trans; eauto].
          unfold measure in *. rewrite E3. simpl in *. apply subseteq_size in E4. lia.
        - apply after_sn. intros fs'' Hs'. apply IHc. intros fs3 Hs3. apply Hfs. do 2 (eapply smallers_trans; [eassumption|]). done.
        - apply after_sn. intros fs'' Hs'. by apply Hfs'. }
      refine (proj1 (Hloop (S (measure _)) _ _ (Nat.lt_succ_diag_r _) _ _ (smallers_refl _))); done.
  Qed.
  Lemma cmd_sn_nil (c : cmd) : sn lrel (c, []).
  Proof. apply cmd_sn. intros fs' Hs. inversion Hs. split; constructor; intros th; inv_l. Qed.

  Inductive one_of (R : thread → thread → Prop) : list thread → list thread → Prop :=
  | oo ths t a b : ths !! t = Some a → R a b → one_of R ths (<[t := b]> ths).
  Lemma one_of_sn (ths : list thread) : Forall (sn lrel) ths → sn (one_of lrel) ths.
  Proof.
    induction 1 as [|a ths Ha Hths IH]; [constructor; intros ths' Ho; inversion Ho; done|]. clear Hths. revert ths IH.
    induction Ha as [a Ha IHa]. intros ths IH. induction IH as [ths Hths IHt]. constructor. intros ths' Ho. inversion Ho as [x t p q Hl Hr]; subst. destruct t as [|t]; simpl in *.
    - injection Hl as <-. apply IHa; [done|]. by constructor.
    - apply IHt. by econstructor.
  Qed.
  Lemma conf_sn (c : conf K W) : Forall (sn lrel) (c_thr c) → sn cstep c.
  Proof.
    intros Hf. apply one_of_sn in Hf. remember (c_thr c) as ths eqn:E. revert c E. induction Hf as [ths _ IH]. intros c ->. constructor. intros c' Hs. inversion Hs as [o mu ths evs t th o' mu' th' ev Hl Hst]; subst. eapply IH; [|reflexivity]. simpl. econstructor; [done|]. by do 6 eexists.
  Qed.
  Lemma lrel_sn_step (c c' : conf K W) : cstep c c' → Forall (sn lrel) (c_thr c) → Forall (sn lrel) (c_thr c').
  Proof.
    intros Hs Hf. inversion Hs as [o mu ths evs t th o' mu' th' ev Hl Hst]; subst. simpl in *. apply Forall_insert; [done|]. rewrite Forall_lookup in Hf. destruct (Hf _ _ Hl) as [Hacc]. apply Hacc. by do 6 eexists.
  Qed.
  Lemma start_sn o (ps : list (client K W)) : Forall (sn lrel) (c_thr (start o ps)).
  Proof. simpl. rewrite Forall_fmap. apply Forall_forall. intros p _. apply cmd_sn_nil. Qed.

  (** ** Who holds the lock *)
  Inductive ok0 : cmd → Prop :=
  | o0_done : ok0 Done
  | o0_throw : ok0 Throw
  | o0_lk m c : okin m c → ok0 (Lk m c)
  with okin : lmode → cmd → Prop :=
  | oi_rd m g : (∀ o, okin m (g o)) → okin m (Rd g)
  | oi_wr h c : okin MW c → okin MW (Wr h c)
  | oi_ul m c : ok0 c → okin m (Ul m c)
  | oi_rng m f c : callback (bool_decide (m = MW)) f → ok0 c → okin m (Rng (Some m) f c).
  Inductive frames_ok (w : bool) (m : lmode) : list frame → Prop :=
  | fo_last fr : f_defer fr = Some m → callback w (f_fun fr) → ok0 (f_cont fr) → frames_ok w m [fr]
  | fo_cons fr fs : f_defer fr = None → callback w (f_fun fr) → unlocked w (f_cont fr) → frames_ok w m fs → frames_ok w m (fr :: fs).
  Inductive phase := Out | Wait (m : lmode) | In (m : lmode).
  Inductive tty : phase → thread → Prop :=
  | ty_out c : ok0 c → tty Out (c, [])
  | ty_wt m c : okin m c → tty (Wait m) (Wt m c, [])
  | ty_in m c : okin m c → tty (In m) (c, [])
  | ty_cb m c fs : unlocked (bool_decide (m = MW)) c → frames_ok (bool_decide (m = MW)) m fs → tty (In m) (c, fs).
  Record mutex_ok (ph : nat → phase) (mu : rwmutex) : Prop := {
    m_granted : ∀ t, t ∈ granted mu ↔ ph t = In MR ∨ (ph t = Wait MR ∧ t ∉ queued mu);
    m_queued : ∀ t, t ∈ queued mu → ph t = Wait MR;
    m_nodup : NoDup (granted mu ++ queued mu);
    m_owner : ∀ t, owner mu = Some t ↔ ph t = In MW ∨ ph t = Wait MW;
    m_excl : ∀ t, ph t = In MW → granted mu = [];
    m_free : owner mu = None → queued mu = [] }.
  Definition setp (ph : nat → phase) (t : nat) (p : phase) : nat → phase := λ u, if decide (u = t) then p else ph u.
  Lemma setp_eq ph t p : setp ph t p t = p.
  Proof. unfold setp. by rewrite decide_True. Qed.
  Lemma setp_ne ph t p u : u ≠ t → setp ph t p u = ph u.
  Proof. intros Hn. unfold setp. by rewrite decide_False. Qed.
  Lemma mutex_same ph mu t : mutex_ok ph mu → mutex_ok (setp ph t (ph t)) mu.
  Proof.
    intros Hm. assert (E : ∀ u, setp ph t (ph t) u = ph u) by (intros u; destruct (decide (u = t)) as [->|]; [apply setp_eq|by apply setp_ne]).
    destruct Hm as [M1 M2 M3 M4 M5 M6]. split; [intros u; rewrite E; apply M1|intros u; rewrite E; apply M2|done|intros u; rewrite E; apply M4|intros u; rewrite E; apply M5|done].
  Qed.
  Lemma frames_ok_shrink w m o fs : frames_ok w m fs → frames_ok w m (shrink o <$> fs).
  Proof. induction 1; simpl; constructor; done. Qed.
  Lemma remove_one_spec t (l : list nat) : NoDup l → ∀ u, u ∈ remove_one t l ↔ u ∈ l ∧ u ≠ t.
  Proof.
    induction 1 as [|x l Hx Hl IH]; intros u; simpl; [set_solver|]. destruct (decide (x = t)) as [->|Hn]; [set_solver|]. rewrite !elem_of_cons, IH. naive_solver.
  Qed.
  Lemma remove_one_nodup t (l : list nat) : NoDup l → NoDup (remove_one t l).
  Proof. intros Hl. induction Hl as [|x l Hx Hl IH]; simpl; [constructor|]. destruct (decide (x = t)); [done|]. constructor; [|done]. rewrite remove_one_spec by done. naive_solver. Qed.
  Lemma tstep_ty t o mu th o' mu' th' ev ph : tstep t o mu th o' mu' th' ev → mutex_ok ph mu → tty (ph t) th → ∃ p, mutex_ok (setp ph t p) mu' ∧ tty p th'.
  Proof.
    intros Hs Hm Ht. destruct Hs.
    - exists (ph t). split; [by apply mutex_same|]. inversion Ht as [? Ho|? ? Ho|m ? Ho|m ? ? Ho Hf]; subst; inversion Ho; subst; [by apply ty_in|by apply ty_cb].
    - exists (ph t). split; [by apply mutex_same|]. inversion Ht as [? Ho|? ? Ho|m ? Ho|m ? ? Ho Hf]; subst; inversion Ho; subst; [by apply ty_in|]. apply ty_cb; [done|]. by apply frames_ok_shrink.
    - exists (In MR). inversion Ht as [? Ho E1|? ? Ho|? ? Ho|m0 ? ? Ho Hf]; subst; inversion Ho; subst. symmetry in E1. split; [|by apply ty_in].
      destruct Hm as [M1 M2 M3 M4 M5 M6]. simpl in *. pose proof (M6 eq_refl) as ->. split; simpl.
      + intros u. rewrite elem_of_cons, M1. destruct (decide (u = t)) as [->|]; [rewrite setp_eq; naive_solver|rewrite setp_ne by done; naive_solver].
      + set_solver.
      + rewrite app_nil_r in *. constructor; [|done]. rewrite M1, E1. naive_solver.
      + intros u. destruct (decide (u = t)) as [->|]; [rewrite setp_eq; naive_solver|rewrite setp_ne by done; apply M4].
      + intros u. destruct (decide (u = t)) as [->|]; [rewrite setp_eq; naive_solver|rewrite setp_ne by done]. intros Hu. assert (None = Some u) by (apply M4; auto). done.
      + done.
    - exists (Wait MR). inversion Ht as [? Ho E1|? ? Ho|? ? Ho|m0 ? ? Ho Hf]; subst; inversion Ho; subst. symmetry in E1. split; [|by apply ty_wt].
      destruct Hm as [M1 M2 M3 M4 M5 M6]. simpl in *. assert (Hg : t ∉ g) by (rewrite M1, E1; naive_solver). assert (Hq : t ∉ q) by (intros Hq; apply M2 in Hq; congruence). split; simpl.
      + intros v. destruct (decide (v = t)) as [->|]; [rewrite setp_eq; set_solver|rewrite setp_ne by done]. rewrite M1. set_solver.
      + intros v. destruct (decide (v = t)) as [->|]; [by rewrite setp_eq|rewrite setp_ne by done]. rewrite elem_of_cons. naive_solver.
      + rewrite <- (Permutation_middle g q t). constructor; [|done]. rewrite elem_of_app. naive_solver.
      + intros v. destruct (decide (v = t)) as [->|]; [rewrite setp_eq, M4, E1; naive_solver|rewrite setp_ne by done; apply M4].
      + intros v. destruct (decide (v = t)) as [->|]; [rewrite setp_eq; naive_solver|rewrite setp_ne by done; apply M5].
      + done.
    - exists (In MR). inversion Ht as [? Ho|? ? Ho E1|? ? Ho|m0 ? ? Ho Hf]; subst; try (inversion Ho; fail). symmetry in E1. split; [|by apply ty_in].
      destruct Hm as [M1 M2 M3 M4 M5 M6]. simpl in *. split; simpl.
      + intros v. rewrite M1. destruct (decide (v = t)) as [->|]; [rewrite setp_eq; naive_solver|by rewrite setp_ne].
      + intros v Hv. rewrite setp_ne; [auto|congruence].
      + done.
      + intros v. rewrite M4. destruct (decide (v = t)) as [->|]; [rewrite setp_eq, E1; naive_solver|by rewrite setp_ne].
      + intros v. destruct (decide (v = t)) as [->|]; [rewrite setp_eq; naive_solver|rewrite setp_ne by done; apply M5].
      + done.
    - exists (Wait MW). inversion Ht as [? Ho E1|? ? Ho|? ? Ho|m0 ? ? Ho Hf]; subst; inversion Ho; subst. symmetry in E1. split; [|by apply ty_wt].
      destruct Hm as [M1 M2 M3 M4 M5 M6]. simpl in *. pose proof (M6 eq_refl) as ->. split; simpl.
      + intros v. rewrite M1. destruct (decide (v = t)) as [->|]; [rewrite setp_eq, E1; naive_solver|by rewrite setp_ne].
      + set_solver.
      + done.
      + intros v. destruct (decide (v = t)) as [->|]; [rewrite setp_eq; naive_solver|rewrite setp_ne by done]. rewrite <- M4. split; [intros [= ->]; done|done].
      + intros v. destruct (decide (v = t)) as [->|]; [rewrite setp_eq; naive_solver|rewrite setp_ne by done; apply M5].
      + done.
    - exists (In MW). inversion Ht as [? Ho|? ? Ho E1|? ? Ho|m0 ? ? Ho Hf]; subst; try (inversion Ho; fail). symmetry in E1. split; [|by apply ty_in].
      destruct Hm as [M1 M2 M3 M4 M5 M6]. simpl in *. split; simpl.
      + intros v. rewrite M1. destruct (decide (v = t)) as [->|]; [rewrite setp_eq, E1; naive_solver|by rewrite setp_ne].
      + intros v Hv. apply M2 in Hv as Hv'. rewrite setp_ne; [auto|congruence].
      + done.
      + intros v. rewrite M4. destruct (decide (v = t)) as [->|]; [rewrite setp_eq, E1; naive_solver|by rewrite setp_ne].
      + done.
      + done.
    - exists Out. inversion Ht as [? Ho|? ? Ho|? ? Ho E1|m0 ? ? Ho Hf]; subst; inversion Ho; subst.
      symmetry in E1. destruct Hm as [M1 M2 M3 M4 M5 M6]. simpl in *. pose proof (NoDup_app g q) as Hna. apply Hna in M3 as M3'. destruct M3' as (N1 & N2 & N3). split; [|by apply ty_out].
      split; simpl.
      + intros v. rewrite remove_one_spec by done. rewrite M1. destruct (decide (v = t)) as [->|]; [rewrite setp_eq; naive_solver|rewrite setp_ne by done; naive_solver].
      + intros v Hv. apply M2 in Hv as Hv'. rewrite setp_ne; [auto|congruence].
      + apply NoDup_app. split; [by apply remove_one_nodup|]. split; [|done]. intros v Hv. apply N2. by apply remove_one_spec in Hv as [Hv _].
      + intros v. rewrite M4. destruct (decide (v = t)) as [->|]; [rewrite setp_eq, E1; naive_solver|by rewrite setp_ne].
      + intros v. destruct (decide (v = t)) as [->|]; [rewrite setp_eq; naive_solver|rewrite setp_ne by done]. intros Hv. by rewrite (M5 v Hv).
      + done.
    - exists Out. inversion Ht as [? Ho|? ? Ho|? ? Ho E1|m0 ? ? Ho Hf]; subst; inversion Ho; subst.
      symmetry in E1. destruct Hm as [M1 M2 M3 M4 M5 M6]. simpl in *. pose proof (M5 t E1) as ->. simpl. split; [|by apply ty_out].
      assert (Hown : ∀ v, ph v = In MW ∨ ph v = Wait MW → v = t) by (intros v Hv; apply M4 in Hv; by injection Hv as ->). split; simpl.
      + intros v. destruct (decide (v = t)) as [->|]; [rewrite setp_eq; split; [intros Hv; apply M2 in Hv; congruence|naive_solver]|rewrite setp_ne by done]. split; [intros Hv; right; split; [by apply M2|set_solver]|]. intros [Hv|[Hv _]].
        * assert (Hx : v ∈ @nil nat) by (apply M1; auto). by apply elem_of_nil in Hx.
        * destruct (decide (v ∈ q)); [done|]. assert (Hx : v ∈ @nil nat) by (apply M1; auto). by apply elem_of_nil in Hx.
      + set_solver.
      + by rewrite app_nil_r.
      + intros v. split; [done|]. destruct (decide (v = t)) as [->|]; [rewrite setp_eq; naive_solver|rewrite setp_ne by done]. intros Hv. by apply Hown in Hv.
      + intros v. destruct (decide (v = t)) as [->|]; [rewrite setp_eq; naive_solver|rewrite setp_ne by done]. intros Hv. by destruct (Hown v (or_introl Hv)).
      + done.
    - exists (ph t). split; [by apply mutex_same|]. inversion Ht as [? Ho|? ? Ho|m ? Ho|m ? ? Ho Hf]; subst; inversion Ho; subst; apply ty_cb; [constructor|by constructor|constructor|by constructor].
    - exists (ph t). split; [by apply mutex_same|]. inversion Ht as [? Ho|? ? Ho|m1 ? Ho|m1 ? ? Ho Hf]; subst. apply ty_cb; inversion Hf; subst; simpl in *; [auto|auto|by constructor|by constructor].
    - exists (ph t). split; [by apply mutex_same|]. inversion Ht as [? Ho|? ? Ho|m1 ? Ho|m1 ? ? Ho Hf]; subst. apply ty_cb; inversion Hf; subst; simpl in *; [auto|auto|by constructor|by constructor].
    - exists (ph t). split; [by apply mutex_same|]. inversion Ht as [? Ho|? ? Ho|m1 ? Ho|m1 ? ? Ho Hf]; subst. inversion Hf; subst; simpl in *; subst; [apply ty_in; by constructor|by apply ty_cb].
    - exists (ph t). split; [by apply mutex_same|]. inversion Ht as [? Ho|? ? Ho|m1 ? Ho|m1 ? ? Ho Hf]; subst. inversion Hf; subst; simpl in *; subst; [apply ty_in; constructor; constructor|apply ty_cb; [constructor|done]].
  Qed.

  (** ** What the loops see *)
  Definition log_ok (m0 : gmap K val) (left : gset K) (lg : list (K * val)) : Prop :=
    NoDup (lg.*1) ∧ (∀ k, k ∈ lg.*1 ↔ k ∈ dom m0 ∧ k ∉ left) ∧ (∀ k v, (k, v) ∈ lg → m0 !! k = Some v).
  Lemma log_ok_next m0 left lg k v : log_ok m0 left lg → k ∈ left → m0 !! k = Some v → log_ok m0 (left ∖ {[k]}) (lg ++ [(k, v)]).
  Proof.
    intros (L1 & L2 & L3) Hk Hv. split; [|split].
    - rewrite fmap_app. apply NoDup_app. split; [done|]. split; [|apply NoDup_singleton]. intros x Hx. simpl. rewrite elem_of_list_singleton. intros ->. apply L2 in Hx. naive_solver.
    - intros x. rewrite fmap_app, elem_of_app, L2. simpl. rewrite elem_of_list_singleton, elem_of_difference, elem_of_singleton. destruct (decide (x = k)) as [->|]; [|naive_solver]. split; [intros _|naive_solver]. split; [by eapply elem_of_dom_2|naive_solver].
    - intros x y. rewrite elem_of_app, elem_of_list_singleton. intros [Hx|[= -> ->]]; auto.
  Qed.
  Lemma log_ok_end m0 left lg : log_ok m0 left lg → (∀ k, k ∈ left → k ∉ dom m0) → lg ≡ₚ map_to_list m0.
  Proof.
    intros (L1 & L2 & L3) Hl. apply NoDup_Permutation; [by eapply NoDup_fmap_1|apply NoDup_map_to_list|]. intros [k v]. rewrite elem_of_map_to_list. split; [apply L3|]. intros Hv.
    assert (Hk : k ∈ lg.*1). { apply L2. split; [by eapply elem_of_dom_2|]. intros Hk. apply (Hl k Hk). by eapply elem_of_dom_2. }
    apply elem_of_list_fmap in Hk as ([k' v'] & -> & Hk). simpl in *. apply L3 in Hk as Hv'. by simplify_eq.
  Qed.
  Lemma log_ok_init m0 left : (∀ k, k ∈ dom m0 → k ∈ left) → log_ok m0 left [].
  Proof. intros Hl. split; [constructor|]. split; [|intros k v Hx; by apply elem_of_nil in Hx]. intros k. split; [intros Hx; by apply elem_of_nil in Hx|]. intros [H1 H2]. by apply Hl in H1. Qed.

  (** a loop whose callback only reads *)
  Definition calm (o : obj) (fr : frame) : Prop :=
    f_start fr = o ∧ f_left fr ⊆ keys o ∧ (∀ k, k ∈ keys o → k ∈ f_left fr ∨ k ∈ f_seen fr) ∧ log_ok (default ∅ o) (f_left fr) (f_log fr).
  (** a loop that deletes *)
  Definition del_shape (P : K → val → bool) (o : obj) (th : thread) : Prop :=
    ∃ fr, th.2 = [fr] ∧ ((o = None ∧ f_start fr = None ∧ th.1 = Done ∧ f_log fr = []) ∨
      ∃ m0 m ex, o = Some m ∧ f_start fr = Some m0 ∧ log_ok m0 (f_left fr) (f_log fr) ∧ f_left fr ⊆ dom m0 ∧
        (∀ k v, m !! k = Some v ↔ m0 !! k = Some v ∧ (k ∈ f_left fr ∨ ex = Some k ∨ P k v = false)) ∧
        (∀ k v, m !! k = Some v → k ∉ f_left fr → k ∈ f_seen fr) ∧
        match ex with
        | None => th.1 = Done
        | Some k => k ∉ f_left fr ∧ (∀ v, m0 !! k = Some v → P k v = true) ∧ (th.1 = u_del k Done ∨ th.1 = Wr (drop_key k) Done)
        end).
  Definition tobj (o : obj) (th : thread) : Prop :=
    ∀ fr, last th.2 = Some fr →
      (callback false (f_fun fr) → unlocked false th.1 ∧ (∃ m, frames_ok false m th.2) ∧ Forall (calm o) th.2) ∧
      (∀ P, f_fun fr = del_if P → del_shape P o th).
  Definition ev_ok (e : event K W) : Prop :=
    (callback false (ev_fun e) → ev_start e = ev_end e ∧ ev_log e ≡ₚ pairs (ev_start e)) ∧
    (∀ P, ev_fun e = del_if P → without P (ev_start e) (ev_end e) ∧ ev_log e ≡ₚ pairs (ev_start e)).

  Lemma keys_default (o : obj) : keys o = dom (default ∅ o).
  Proof. destruct o; simpl; [done|]. by rewrite dom_empty_L. Qed.
  Lemma pairs_default (o : obj) : pairs o = map_to_list (default ∅ o).
  Proof. destruct o; simpl; [done|]. by rewrite map_to_list_empty. Qed.
  Lemma calm_init o d n f c : calm o (Frame d (keys o) ∅ n f c o []).
  Proof. split; [done|]. simpl. split; [done|]. split; [auto|]. apply log_ok_init. by rewrite keys_default. Qed.
  Lemma last_cons_ne {A} (x y : A) l : last (x :: y :: l) = last (y :: l).
  Proof. done. Qed.
  Lemma frames_last w m (fr : frame) fs : frames_ok w m (fr :: fs) → (fs = [] ∧ f_defer fr = Some m ∧ callback w (f_fun fr) ∧ ok0 (f_cont fr)) ∨ (fs ≠ [] ∧ f_defer fr = None ∧ callback w (f_fun fr) ∧ unlocked w (f_cont fr) ∧ frames_ok w m fs).
  Proof. inversion 1 as [|? ? ? ? ? Hf]; subst; [by left|]. right. destruct fs; [inversion Hf|]. done. Qed.
  Lemma tobj_step t o mu th o' mu' th' ev p : tstep t o mu th o' mu' th' ev → tty p th → tobj o th → tobj o' th' ∧ Forall ev_ok ev.
  Proof.
    intros Hs Ht Ho. assert (Hnil : ∀ c' o'', tobj o'' (c', [])) by (intros c' o'' fr [=]).
    assert (Hcb : ∀ c fs, th = (c, fs) → fs ≠ [] → unlocked true c).
    { intros c fs -> Hn. inversion Ht as [| | |m ? ? Hu _]; subst; try done. clear - Hu. destruct (bool_decide (m = MW)); [done|]. induction Hu; constructor; auto. }
    destruct Hs.
    - split; [|constructor]. destruct fs as [|fr0 fs]; [apply Hnil|]. intros fr Hl. destruct (Ho fr Hl) as [R1 R2]. split.
      + intros Hc. destruct (R1 Hc) as (U & F & C). simpl in *. inversion U; subst. auto.
      + intros P HP. destruct (R2 P HP) as (fr1 & E1 & [(-> & E2 & [=] & E3)|(m0 & m & ex & -> & E2 & HL & Hsub & Hm & Hsn & Hex)]). exists fr1. split; [done|]. right. exists m0, m, ex. repeat (split; [done|]). destruct ex as [k|]; [|done]. simpl in *. destruct Hex as (X1 & X2 & [X3|X3]); [|done]. split; [done|]. split; [done|]. right. unfold u_del, c_init in X3. by injection X3 as ->.
    - split; [|constructor]. destruct fs as [|fr0 fs]; [apply Hnil|]. intros fr Hl. simpl in Hl.
      assert (Hlast : ∃ fr', last (fr0 :: fs) = Some fr' ∧ f_fun fr' = f_fun fr). { clear - Hl. rewrite <- (fmap_cons (shrink (h o))) in Hl. rewrite fmap_last in Hl. apply fmap_Some in Hl as (fr' & Hl & ->). by exists fr'. }
      destruct Hlast as (fr' & Hl' & Ef). destruct (Ho fr' Hl') as [R1 R2]. rewrite <- Ef. split.
      + intros Hc. destruct (R1 Hc) as (U & _). simpl in U. inversion U. done.
      + intros P HP. destruct (R2 P HP) as (fr1 & E1 & [(-> & E2 & [=] & E3)|(m0 & m & ex & -> & E2 & HL & Hsub & Hm & Hsn & Hex)]). simpl in E1. injection E1 as -> ->. destruct ex as [k|]; [|done]. destruct Hex as (X1 & X2 & [X3|X3]); [done|]. simpl in X3. injection X3 as -> ->.
        exists (shrink (drop_key k (Some m)) fr1). split; [done|]. right. exists m0, (delete k m), None. split; [done|]. split; [done|]. simpl.
        assert (El : f_left fr1 ∩ dom (delete k m) = f_left fr1). { apply set_eq. intros x. rewrite elem_of_intersection. split; [naive_solver|]. intros Hx. split; [done|]. apply Hsub in Hx as Hx'. apply elem_of_dom in Hx' as [v Hv]. apply elem_of_dom. exists v. rewrite lookup_delete_ne by naive_solver. apply Hm. auto. }
        rewrite El. split; [done|]. split; [done|]. split; [|split; [|done]].
        * intros k' v. rewrite lookup_delete_Some, Hm. split; [intros (N & V & Hd); split; [done|]; destruct Hd as [|[[=]|]]; auto; congruence|]. intros (V & [Hd|[[=]|Hd]]); (split; [|split; [done|auto]]).
          -- by intros ->.
          -- intros ->. apply X2 in V. congruence.
        * intros k' v Hv Hn. apply elem_of_intersection. split; [|by eapply elem_of_dom_2]. apply lookup_delete_Some in Hv as [_ Hv]. by eapply Hsn.
    - split; [|constructor]. destruct fs; [apply Hnil|]. exfalso. specialize (Hcb _ _ eq_refl ltac:(done)). inversion Hcb.
    - split; [|constructor]. destruct fs; [apply Hnil|]. exfalso. specialize (Hcb _ _ eq_refl ltac:(done)). inversion Hcb.
    - split; [|constructor]. destruct fs; [apply Hnil|]. exfalso. specialize (Hcb _ _ eq_refl ltac:(done)). inversion Hcb.
    - split; [|constructor]. destruct fs; [apply Hnil|]. exfalso. specialize (Hcb _ _ eq_refl ltac:(done)). inversion Hcb.
    - split; [|constructor]. destruct fs; [apply Hnil|]. exfalso. specialize (Hcb _ _ eq_refl ltac:(done)). inversion Hcb.
    - split; [|constructor]. destruct fs; [apply Hnil|]. exfalso. specialize (Hcb _ _ eq_refl ltac:(done)). inversion Hcb.
    - split; [|constructor]. destruct fs; [apply Hnil|]. exfalso. specialize (Hcb _ _ eq_refl ltac:(done)). inversion Hcb.
    - split; [|constructor]. destruct fs as [|fr0 fs].
      + inversion Ht as [? Hk|? ? Hk|? ? Hk|? ? ? _ Hk]; subst; inversion Hk; subst. intros fr [= <-]. simpl. split.
        * intros Hc. split; [constructor|]. split; [exists m; by apply fo_last|]. constructor; [apply calm_init|constructor].
        * intros P ->. eexists. split; [done|]. simpl. destruct o as [m0|]; [right|by left]. exists m0, m0, None. split; [done|]. split; [done|]. split; [apply log_ok_init; auto|]. split; [done|]. split; [|split; [|done]].
          -- intros k v. split; [intros Hv; split; [done|]; left; by eapply elem_of_dom_2|naive_solver].
          -- intros k v Hv Hn. exfalso. apply Hn. by eapply elem_of_dom_2.
      + intros fr Hl. change (last (fr0 :: fs) = Some fr) in Hl. destruct (Ho fr Hl) as [R1 R2]. split.
        * intros Hc. destruct (R1 Hc) as (U & (m & F) & C). simpl in *. inversion U; subst. split; [constructor|]. split; [exists m; by apply fo_cons|]. constructor; [apply calm_init|done].
        * intros P HP. exfalso. destruct (R2 P HP) as (fr1 & E1 & [(-> & E2 & [=] & E3)|(m0 & m & ex & -> & E2 & HL & Hsub & Hm & Hsn & Hex)]). destruct ex as [k|]; [|done]. by destruct Hex as (_ & _ & [|]).
    - split; [|constructor]. subst. intros fr Hl.
      assert (Hlast : ∃ fr', last (Frame d l s n f c o0 lg :: fs) = Some fr' ∧ f_fun fr' = f_fun fr). { destruct fs; [injection Hl as <-; by eexists|]. by exists fr. }
      destruct Hlast as (fr' & Hl' & Ef). destruct (Ho fr' Hl') as [R1 R2]. rewrite <- Ef. split.
      + intros Hc. destruct (R1 Hc) as (U & (m1 & F) & C). simpl in *. apply frames_last in F as HF. split; [destruct HF as [(_ & _ & X & _)|(_ & _ & X & _)]; apply X|]. split.
        * exists m1. destruct HF as [(-> & X1 & X2 & X3)|(_ & X1 & X2 & X3 & X4)]; [by apply fo_last|by apply fo_cons].
        * inversion C as [|? ? (C1 & C2 & C3 & C4) C']; subst. constructor; [|done]. simpl in *. split; [done|]. simpl. split; [set_solver|]. split; [|by apply log_ok_next]. intros x Hx. destruct (decide (x = k)) as [->|]; [set_solver|]. destruct (C3 x Hx); set_solver.
      + intros P HP. destruct (R2 P HP) as (fr1 & E1 & [([=] & _)|(m0 & m2 & ex & [= <-] & E2 & HL & Hsub & Hm & Hsn & Hex)]). injection E1 as <- ->. injection Hl as <-. simpl in *. injection Hl' as <-. simpl in *. subst. destruct ex as [k'|]; [destruct Hex as (_ & _ & [X|X]); discriminate X|]. pose proof H1 as Hv. apply Hm in Hv as [Hv _].
        eexists. split; [done|]. right. unfold del_if. exists m0, m. destruct (P k v) eqn:EP; [exists (Some k)|exists None]; simpl.
        * split; [done|]. split; [done|]. split; [by apply log_ok_next|]. split; [set_solver|]. split; [|split].
          -- intros x y. rewrite Hm. destruct (decide (x = k)) as [->|]; [naive_solver|]. set_solver.
          -- intros x y Hx Hn. destruct (decide (x = k)) as [->|]; [set_solver|]. assert (x ∈ s) by (eapply Hsn; [done|set_solver]). set_solver.
          -- split; [set_solver|]. split; [intros y Hy; congruence|by left].
        * split; [done|]. split; [done|]. split; [by apply log_ok_next|]. split; [set_solver|]. split; [|split; [|done]].
          -- intros x y. rewrite Hm. destruct (decide (x = k)) as [->|]; [|set_solver]. split; [|naive_solver]. intros [Hy _]. split; [done|]. right. right. congruence.
          -- intros x y Hx Hn. destruct (decide (x = k)) as [->|]; [set_solver|]. assert (x ∈ s) by (eapply Hsn; [done|set_solver]). set_solver.
    - split; [|constructor]. subst. intros fr Hl.
      assert (Hlast : ∃ fr', last (Frame d l s (S n) f c o0 lg :: fs) = Some fr' ∧ f_fun fr' = f_fun fr). { destruct fs; [injection Hl as <-; by eexists|]. by exists fr. }
      destruct Hlast as (fr' & Hl' & Ef). destruct (Ho fr' Hl') as [R1 R2]. rewrite <- Ef. split.
      + intros Hc. exfalso. destruct (R1 Hc) as (_ & _ & C). inversion C as [|? ? (C1 & C2 & C3 & C4) C']; subst. simpl in *. destruct (C3 k); [by eapply elem_of_dom_2|done|done].
      + intros P HP. exfalso. destruct (R2 P HP) as (fr1 & E1 & [([=] & _)|(m0 & m2 & ex & [= <-] & E2 & HL & Hsub & Hm & Hsn & Hex)]). injection E1 as <- ->. simpl in *. by eapply H3, Hsn.
    - split.
      + destruct fs as [|fr0 fs]; [apply Hnil|]. intros fr Hl. destruct (Ho fr Hl) as [R1 R2]. split.
        * intros Hc. destruct (R1 Hc) as (U & (m1 & F) & C). simpl in *. apply frames_last in F as HF. destruct HF as [([=] & _)|(_ & X1 & X2 & X3 & X4)]. simpl in X1. subst d. split; [done|]. split; [by exists m1|]. by inversion C.
        * intros P HP. destruct (R2 P HP) as (fr1 & [=] & _).
      + destruct d as [m|]; [|constructor]. constructor; [|constructor]. inversion Ht as [| | |m1 ? ? _ F]; subst. apply frames_last in F as HF. destruct HF as [(-> & X1 & X2 & X3)|(_ & [=] & _)]. destruct (Ho _ eq_refl) as [R1 R2]. simpl in *. split; simpl.
        * intros Hc. destruct (R1 Hc) as (_ & _ & C). inversion C as [|? ? (C1 & C2 & C3 & C4) C']; subst. simpl in *. subst. split; [done|]. rewrite pairs_default. eapply log_ok_end; [done|]. intros k Hk Hd. rewrite <- keys_default in Hd. set_solver.
        * intros P ->. destruct (R2 P eq_refl) as (fr1 & [= <-] & [(-> & E2 & E3 & E4)|(m0 & m2 & ex & -> & E2 & HL & Hsub & Hm & Hsn & Hex)]); simpl in *; subst; [done|]. destruct ex as [k|]; [destruct Hex as (_ & _ & [X|X]); discriminate X|].
          assert (Hle : ∀ k, k ∈ l → k ∉ dom m0). { intros k Hk Hd. apply elem_of_dom in Hd as [v Hv]. assert (Hv2 : m2 !! k = Some v) by (apply Hm; auto). apply elem_of_dom_2 in Hv2. set_solver. }
          split; [|by eapply log_ok_end]. intros k v. rewrite Hm. split; [|naive_solver]. intros [Hv [Hd|[[=]|Hd]]]; [|done]. exfalso. apply (Hle k Hd). by eapply elem_of_dom_2.
    - split; [|constructor]. destruct fs as [|fr0 fs]; [apply Hnil|]. intros fr Hl. destruct (Ho fr Hl) as [R1 R2]. split.
      + intros Hc. destruct (R1 Hc) as (U & (m1 & F) & C). simpl in *. apply frames_last in F as HF. destruct HF as [([=] & _)|(_ & X1 & X2 & X3 & X4)]. simpl in X1. subst d. split; [constructor|]. split; [by exists m1|]. by inversion C.
      + intros P HP. destruct (R2 P HP) as (fr1 & [=] & _).
  Qed.

  (** ** The invariant *)
  Record inv (ph : nat → phase) (c : conf K W) : Prop := {
    i_mu : mutex_ok ph (c_mu c);
    i_out : ∀ t, c_thr c !! t = None → ph t = Out;
    i_ty : ∀ t th, c_thr c !! t = Some th → tty (ph t) th;
    i_obj : ∀ t th, c_thr c !! t = Some th → tobj (c_obj c) th;
    i_ev : Forall ev_ok (c_evs c) }.
  Lemma writer_alone ph mu t u : mutex_ok ph mu → ph t = In MW → u ≠ t → ∀ m, ph u ≠ In m.
  Proof.
    intros Hm Ht Hn m Hu. destruct m.
    - assert (Hg : u ∈ granted mu) by (apply (m_granted _ _ Hm); auto). rewrite (m_excl _ _ Hm t Ht) in Hg. by apply elem_of_nil in Hg.
    - assert (E1 : owner mu = Some t) by (apply (m_owner _ _ Hm); auto). assert (E2 : owner mu = Some u) by (apply (m_owner _ _ Hm); auto). congruence.
  Qed.
  Lemma tty_writes p th : tty p th → writes th → p = In MW.
  Proof.
    unfold writes. intros Ht Hw. inversion Ht as [c Hc|m c Hc|m c Hc|m c fs Hc Hf]; subst; simpl in Hw; destruct c; try done; inversion Hc; subst; try done. by case_bool_decide; subst.
  Qed.
  Lemma tty_accesses p th : tty p th → accesses th → ∃ m, p = In m.
  Proof.
    unfold accesses. intros Ht Hw. inversion Ht as [c Hc|m c Hc|m c Hc|m c fs Hc Hf]; subst; eauto; destruct c; try done; inversion Hc.
  Qed.
  Lemma tstep_obj t (o : obj) mu (th : thread) o' mu' th' ev : tstep t o mu th o' mu' th' ev → o' = o ∨ writes th.
  Proof. destruct 1; auto. by right. Qed.
  Lemma inv_step ph c c' : cstep c c' → inv ph c → ∃ ph', inv ph' c'.
  Proof.
    intros Hs [I1 I2 I3 I4 I5]. destruct Hs as [o mu ths evs t th o' mu' th' ev Hl Hst]. simpl in *. destruct (tstep_ty _ _ _ _ _ _ _ _ ph Hst I1 (I3 _ _ Hl)) as (p & M & T). destruct (tobj_step _ _ _ _ _ _ _ _ _ Hst (I3 _ _ Hl) (I4 _ _ Hl)) as [O E].
    exists (setp ph t p). split; simpl.
    - done.
    - intros u Hu. assert (Hlt : (t < length ths)%nat) by (by eapply lookup_lt_Some). apply lookup_ge_None in Hu. rewrite insert_length in Hu. rewrite setp_ne by lia. apply I2. by apply lookup_ge_None.
    - intros u x Hu. destruct (decide (u = t)) as [->|Hn]; [rewrite list_lookup_insert in Hu by (by eapply lookup_lt_Some); injection Hu as <-; by rewrite setp_eq|]. rewrite list_lookup_insert_ne in Hu by done. rewrite setp_ne by done. auto.
    - intros u x Hu. destruct (decide (u = t)) as [->|Hn]; [rewrite list_lookup_insert in Hu by (by eapply lookup_lt_Some); by injection Hu as <-|]. rewrite list_lookup_insert_ne in Hu by done.
      destruct (tstep_obj _ _ _ _ _ _ _ _ Hst) as [->|Hw]; [by eapply I4|]. pose proof (tty_writes _ _ (I3 _ _ Hl) Hw) as Hw'. intros fr Hfr. exfalso. specialize (I3 _ _ Hu). inversion I3 as [? ? E1|? ? ? E1|? ? ? E1|? ? ? ? ? E1]; subst; try done. symmetry in E1. by apply (writer_alone ph mu t u I1 Hw' Hn _ E1).
    - by apply Forall_app.
  Qed.

  Lemma call_ok0 (x : call K W) c : call_ok x → (∀ a, ok0 (c a)) → ok0 (call_cmd x c).
  Proof.
    intros Hx Hc. destruct x; simpl in *; repeat first [constructor | intros ? | case_match | apply Hc]; try done.
  Qed.
  Lemma client_ok0 (p : client K W) : client_ok p → ok0 (client_cmd p).
  Proof. induction 1; simpl; [constructor|]. by apply call_ok0. Qed.
  Lemma inv_start o (ps : list (client K W)) : Forall client_ok ps → inv (λ _, Out) (start o ps).
  Proof.
    intros Hp. split; simpl.
    - split; simpl; [intros t; split; [intros Hx; by apply elem_of_nil in Hx|naive_solver]|intros t Hx; by apply elem_of_nil in Hx|constructor|intros t; split; [done|naive_solver]|done|done].
    - done.
    - intros t th Ht. rewrite list_lookup_fmap in Ht. apply fmap_Some in Ht as (p & Hl & ->). constructor. apply client_ok0. rewrite Forall_lookup in Hp. eauto.
    - intros t th Ht. rewrite list_lookup_fmap in Ht. apply fmap_Some in Ht as (p & Hl & ->). by intros fr [=].
    - constructor.
  Qed.
  Lemma inv_reached o ps c : Forall client_ok ps → reached o ps c → ∃ ph, inv ph c.
  Proof. intros Hp Hr. unfold reached in Hr. assert (Hi : ∃ ph, inv ph (start o ps)) by (eexists; by apply inv_start). revert Hi. induction Hr as [|x y z Hs _ IH]; [done|]. intros [ph Hi]. apply IH. by eapply inv_step. Qed.

  (** ** Somebody can go on *)
  Lemma in_steps ph (c : conf K W) t th m : inv ph c → c_thr c !! t = Some th → ph t = In m → ∃ c', cstep c c'.
  Proof.
    intros Hi Hl Hp. pose proof (i_ty _ _ Hi _ _ Hl) as Ht. pose proof (i_mu _ _ Hi) as Hm. destruct c as [o [g q w] ths evs]. simpl in *. rewrite Hp in Ht.
    assert (Hgo : ∀ o' mu' th' ev, tstep t o (RW g q w) th o' mu' th' ev → ∃ c', cstep (Conf o (RW g q w) ths evs) c') by (intros ? ? ? ? ?; eexists; by econstructor).
    inversion Ht as [| |? c Hc|? c fs Hc Hf]; subst.
    - inversion Hc as [? gg Hg|h c' Hc'|? c' Hc'|? f c' Hf Hc']; subst.
      + eapply Hgo. apply t_rd.
      + eapply Hgo. apply t_wr.
      + destruct m.
        * eapply Hgo. apply t_runl. apply (m_granted _ _ Hm). auto.
        * assert (Hw : w = Some t) by (apply (m_owner _ _ Hm); auto). subst. eapply Hgo. apply t_wunl.
      + eapply Hgo. apply (t_rng t o _ _ _ _ _ 0).
    - inversion Hc; subst.
      + destruct fs as [|[d l s n f c o0 lg] fs]; [inversion Hf|]. destruct (set_choose_or_empty (l ∩ keys o)) as [[k Hk]|He].
        * apply elem_of_intersection in Hk as [Hk1 Hk2]. destruct o as [mm|]; [|set_solver]. simpl in Hk2. apply elem_of_dom in Hk2 as [v Hv]. eapply Hgo. by eapply t_next.
        * eapply Hgo. apply t_end. by apply leibniz_equiv.
      + destruct fs as [|[d l s n f c o0 lg] fs]; [inversion Hf|]. eapply Hgo. apply t_throw.
      + eapply Hgo. apply t_rd.
      + eapply Hgo. apply t_wr.
      + eapply Hgo. apply (t_rng t o _ _ _ _ _ 0).
  Qed.
  Lemma ph_lookup ph (c : conf K W) t : inv ph c → ph t ≠ Out → ∃ th, c_thr c !! t = Some th.
  Proof. intros Hi Hp. destruct (c_thr c !! t) as [th|] eqn:E; [by eexists|]. by apply (i_out _ _ Hi) in E. Qed.
  Lemma waitr_steps ph (c : conf K W) t : inv ph c → ph t = Wait MR → t ∉ queued (c_mu c) → ∃ c', cstep c c'.
  Proof.
    intros Hi Hp Hq. destruct (ph_lookup ph c t Hi) as [th Hl]; [by rewrite Hp|]. pose proof (i_ty _ _ Hi _ _ Hl) as Ht. rewrite Hp in Ht. inversion Ht as [|? c0 Hc| |]; subst. destruct c as [o [g q w] ths evs]. simpl in *. eexists. econstructor; [done|]. by apply t_rgo.
  Qed.
  Lemma waitw_steps ph (c : conf K W) t : inv ph c → ph t = Wait MW → ∃ c', cstep c c'.
  Proof.
    intros Hi Hp. pose proof (i_mu _ _ Hi) as Hm. destruct (granted (c_mu c)) as [|u g'] eqn:Eg.
    - destruct (ph_lookup ph c t Hi) as [th Hl]; [by rewrite Hp|]. pose proof (i_ty _ _ Hi _ _ Hl) as Ht. rewrite Hp in Ht. inversion Ht as [|? c0 Hc| |]; subst.
      assert (Hw : owner (c_mu c) = Some t) by (apply (m_owner _ _ Hm); auto). destruct c as [o [g q w] ths evs]. simpl in *. subst. eexists. econstructor; [done|]. apply t_wgo.
    - assert (Hu : u ∈ granted (c_mu c)) by (rewrite Eg; left). apply (m_granted _ _ Hm) in Hu as [Hu|[Hu Hq]].
      + destruct (ph_lookup ph c u Hi) as [th Hl]; [by rewrite Hu|]. by eapply in_steps.
      + by eapply waitr_steps.
  Qed.
  Lemma owner_steps ph (c : conf K W) t : inv ph c → owner (c_mu c) = Some t → ∃ c', cstep c c'.
  Proof.
    intros Hi Hw. apply (m_owner _ _ (i_mu _ _ Hi)) in Hw as [Hw|Hw]; [|by eapply waitw_steps]. destruct (ph_lookup ph c t Hi) as [th Hl]; [by rewrite Hw|]. by eapply in_steps.
  Qed.
  Lemma progress ph (c : conf K W) t th : inv ph c → c_thr c !! t = Some th → ¬ finished th → ∃ c', cstep c c'.
  Proof.
    intros Hi Hl Hn. pose proof (i_mu _ _ Hi) as Hm. pose proof (i_ty _ _ Hi _ _ Hl) as Ht. destruct (ph t) as [|[]|m] eqn:Ep.
    - inversion Ht as [c0 Hc| | |]; subst. inversion Hc as [| |m c1 Hc1]; subst; [by destruct Hn; left|by destruct Hn; right|]. destruct (owner (c_mu c)) as [u|] eqn:Ew; [by eapply owner_steps|].
      destruct c as [o [g q w] ths evs]. simpl in *. subst. destruct m; eexists; (econstructor; [done|]); [apply t_rlock|apply t_ann].
    - destruct (decide (t ∈ queued (c_mu c))) as [Hq|Hq]; [|by eapply waitr_steps]. destruct (owner (c_mu c)) as [u|] eqn:Ew; [by eapply owner_steps|]. rewrite (m_free _ _ Hm Ew) in Hq. by apply elem_of_nil in Hq.
    - by eapply waitw_steps.
    - by eapply in_steps.
  Qed.
End Proofs.
