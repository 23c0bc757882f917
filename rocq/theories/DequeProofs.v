(** * Deques and stacks over the linked list *)
From stdpp Require Import gmap.
From Verif Require Import GoBase GoState ListModel ListSpec ListRing ListProofs ListSteps ListRefine DequeSpec.

Section Deque.
  Context {T : Type}.
  Implicit Types (m : lmem T) (H : lspec T) (D : list (list T)).

  (** Memory m holds exactly the value sequences D, every list initialised. *)
  Definition cR m D : Prop := ∃ H, lR m H ∧ sstale H = [] ∧ (∀ l, l < length (sq H) → sini H !! l = Some true) ∧ D = vals_of H <$> sq H.

  Lemma vals_add H vs s : (∀ e, e ∈ s → e < fresh H) → vals_of (add_vals H vs) s = vals_of H s.
  Proof.
    intros Hs. unfold vals_of. apply list_omap_ext, Forall_Forall2_diag, Forall_forall. intros e He. simpl.
    apply lookup_app_l, Hs, He.
  Qed.
  Lemma seq_bnd m H l s e : lR m H → sq H !! l = Some s → e ∈ s → e < fresh H.
  Proof. intros HR Hl He. by eapply (R_bnd _ _ HR), own_in. Qed.
  Lemma vals_len m H l s : lR m H → sq H !! l = Some s → length (vals_of H s) = length s.
  Proof.
    intros HR Hl. assert (∀ e, e ∈ s → e < fresh H) as Hb by (intros; by eapply seq_bnd). clear Hl.
    unfold vals_of. induction s as [|e s IH]; [done|]. simpl.
    destruct (lookup_lt_is_Some_2 (svals H) e) as [v ->]; [apply Hb; left|]. simpl. f_equal. apply IH. intros; apply Hb; by right.
  Qed.
  Lemma vals_head m H l s : lR m H → sq H !! l = Some s → head (vals_of H s) = head s ≫= (svals H !!.).
  Proof.
    intros HR Hl. destruct s as [|e s]; [done|]. simpl.
    destruct (lookup_lt_is_Some_2 (svals H) e) as [v ->]; [eapply seq_bnd; [done|done|left]|done].
  Qed.
  Lemma vals_app H s1 s2 : vals_of H (s1 ++ s2) = vals_of H s1 ++ vals_of H s2.
  Proof. apply omap_app. Qed.
  Lemma vals_one m H l s e : lR m H → sq H !! l = Some s → e ∈ s → ∃ v, svals H !! e = Some v ∧ vals_of H [e] = [v].
  Proof.
    intros HR Hl He. destruct (lookup_lt_is_Some_2 (svals H) e) as [v Hv]; [by eapply seq_bnd|]. exists v.
    split; [done|]. unfold vals_of. simpl. by rewrite Hv.
  Qed.

  (** one list op *)
  Lemma cR_step m H o : lR m H → sstale H = [] → (∀ l, l < length (sq H) → sini H !! l = Some true) →
    exists_ok H o → no_clear_no_zero o →
    ∃ m', lstep m o = ((lspec_step H o).1, m') ∧ lR m' (lspec_step H o).2.
  Proof.
    intros HR Hst Hi Hex Hn. apply lstep_ok; [done|]. split_and!; [done|destruct o; simpl; rewrite ?Hst; set_solver|].
    destruct o; simpl in *; auto; left; apply Hi; tauto.
  Qed.

  Lemma cR_new m D : cR m D → ∃ m', lnew m = (Ret (length D), m') ∧ cR m' (D ++ [[]]).
  Proof.
    intros (H & HR & Hst & Hi & ->). destruct (cR_step m H LNew HR Hst Hi) as (m' & E & HR'); [done|done|].
    cbn [lstep lspec_step fst snd] in E, HR'. exists m'. split.
    - destruct (lnew m) as [[l| |] m2]; simpl in E; [|done..]. injection E as -> ->. by rewrite fmap_length.
    - eexists. split; [exact HR'|]. simpl. split_and!; [done| |by rewrite fmap_app].
      intros l. rewrite app_length. simpl. intros Hl. pose proof (R_n2 _ _ HR). destruct (decide (l < length (sq H))).
      + rewrite lookup_app_l by lia. by apply Hi.
      + rewrite lookup_app_r by lia. by replace (l - length (sini H)) with 0 by lia.
  Qed.

  Lemma cR_upd m' H l s' vs d : lR m' (set_seq (add_vals H vs) l s') → (∀ l2 s, sq H !! l2 = Some s → ∀ e, e ∈ s → e < fresh H) →
    sstale H = [] → (∀ l, l < length (sq H) → sini H !! l = Some true) →
    d = vals_of (add_vals H vs) s' → cR m' (<[l := d]> (vals_of H <$> sq H)).
  Proof.
    intros HR Hb Hst Hi ->. eexists. split; [exact HR|]. simpl. split_and!; [done|by rewrite insert_length|].
    rewrite list_fmap_insert. f_equal. apply list_eq. intros l2. rewrite !list_lookup_fmap.
    destruct (sq H !! l2) as [s|] eqn:E; [|done]. simpl. f_equal. symmetry. apply (vals_add H vs). eauto.
  Qed.
  Lemma cR_upd' m' H l s' d : lR m' (set_seq H l s') →
    sstale H = [] → (∀ l, l < length (sq H) → sini H !! l = Some true) →
    d = vals_of H s' → cR m' (<[l := d]> (vals_of H <$> sq H)).
  Proof.
    intros HR Hst Hi ->. eexists. split; [exact HR|]. simpl. split_and!; [done|by rewrite insert_length|].
    by rewrite list_fmap_insert.
  Qed.

  Lemma vals_fresh H v : vals_of (add_vals H [v]) [fresh H] = [v].
  Proof. unfold vals_of, fresh. simpl. rewrite lookup_app_r, Nat.sub_diag by lia. done. Qed.

  Lemma cR_lookup H l : l < length (sq H) → default [] ((vals_of H <$> sq H) !! l) = vals_of H (seq_of H l).
  Proof. intros Hl. rewrite list_lookup_fmap, (seq_of_lt _ _ Hl). done. Qed.

  Lemma cR_push_front m D l v : cR m D → l < length D →
    ∃ m' e, lpush_front l v m = (Ret e, m') ∧ cR m' (<[l := v :: default [] (D !! l)]> D).
  Proof.
    intros (H & HR & Hst & Hi & ->) Hl. rewrite fmap_length in Hl.
    destruct (push_front_ok m H l v HR Hl (Hi _ Hl)) as (m' & E & HR').
    exists m', (fresh H). split; [done|]. eapply cR_upd; [exact HR'| |done|done|].
    - intros l2 s Hs e He. by eapply seq_bnd.
    - rewrite cR_lookup by done. change (fresh H :: seq_of H l) with ([fresh H] ++ seq_of H l). rewrite vals_app, vals_fresh. simpl. f_equal.
      symmetry. apply vals_add. intros e He. eapply seq_bnd; [done|by apply seq_of_lt|done].
  Qed.
  Lemma cR_push_back m D l v : cR m D → l < length D →
    ∃ m' e, lpush_back l v m = (Ret e, m') ∧ cR m' (<[l := default [] (D !! l) ++ [v]]> D).
  Proof.
    intros (H & HR & Hst & Hi & ->) Hl. rewrite fmap_length in Hl.
    destruct (push_back_ok m H l v HR Hl (Hi _ Hl)) as (m' & E & HR').
    exists m', (fresh H). split; [done|]. eapply cR_upd; [exact HR'| |done|done|].
    - intros l2 s Hs e He. by eapply seq_bnd.
    - rewrite cR_lookup by done. rewrite vals_app, vals_fresh. f_equal.
      symmetry. apply vals_add. intros e He. eapply seq_bnd; [done|by apply seq_of_lt|done].
  Qed.

  Definition popped (r : go T * lmem T) (o : option T) : Prop :=
    match o with Some v => r.1 = Ret v | None => ∃ p, r.1 = Panic p end.

  Lemma cR_pop_front m D l : cR m D → l < length D →
    popped (lremove_front l m) (head (default [] (D !! l))) ∧ cR (lremove_front l m).2 (<[l := tail (default [] (D !! l))]> D).
  Proof.
    intros (H & HR & Hst & Hi & ->) Hl. rewrite fmap_length in Hl. pose proof (seq_of_lt _ _ Hl) as Hs.
    destruct (cR_step m H (LRemoveFront l) HR Hst Hi) as (m' & E & HR'); [done|done|].
    rewrite cR_lookup by done. cbn [lstep lspec_step fst snd] in E, HR'.
    destruct (seq_of H l) as [|e s] eqn:Es.
    - simpl in *. destruct (lremove_front l m) as [[v|p|] m2]; simpl in E; [done| |done]. injection E as ->. simpl. split; [by eexists|].
      rewrite list_insert_id; [by exists H|]. by rewrite list_lookup_fmap, Hs.
    - cbn [head tail fst snd] in E, HR'. destruct (vals_one m H l _ e HR Hs) as (v & Hv & Ev); [left|]. unfold val_out in E. rewrite Hv in E.
      assert (vals_of H (e :: s) = v :: vals_of H s) as Evs by (pose proof (vals_app H [e] s) as Ea; by rewrite Ev in Ea).
      rewrite Evs. simpl.
      destruct (lremove_front l m) as [[v'|p|] m2]; simpl in E; [|done|done]. injection E as -> ->. simpl. split; [done|].
      eapply cR_upd'; [exact HR'|done..].
  Qed.
  Lemma cR_pop_back m D l : cR m D → l < length D →
    popped (lremove_back l m) (last (default [] (D !! l))) ∧ cR (lremove_back l m).2 (<[l := removelast (default [] (D !! l))]> D).
  Proof.
    intros (H & HR & Hst & Hi & ->) Hl. rewrite fmap_length in Hl. pose proof (seq_of_lt _ _ Hl) as Hs.
    destruct (cR_step m H (LRemoveBack l) HR Hst Hi) as (m' & E & HR'); [done|done|].
    rewrite cR_lookup by done. cbn [lstep lspec_step fst snd] in E, HR'.
    destruct (last (seq_of H l)) as [e|] eqn:Es.
    - simpl in *. destruct (last_app_single _ _ Es) as [a Ea]. rewrite Ea in *. pose proof (R_nd _ _ HR _ _ Hs) as ND.
      destruct (vals_one m H l _ e HR Hs) as (v & Hv & Ev); [set_solver|]. unfold val_out in E. rewrite Hv in E.
      rewrite vals_app, Ev, last_snoc, removelast_last. simpl.
      destruct (lremove_back l m) as [[v'|p|] m2]; simpl in E; [|done|done]. injection E as -> ->. simpl. split; [done|].
      rewrite rem_split in HR' by done. rewrite app_nil_r in HR'. eapply cR_upd'; [exact HR'|done..].
    - apply last_None in Es. rewrite Es in *. simpl.
      destruct (lremove_back l m) as [[v|p|] m2]; simpl in E; [done| |done]. injection E as ->. simpl. split; [by eexists|].
      rewrite list_insert_id; [by exists H|]. by rewrite list_lookup_fmap, Hs.
  Qed.
  Lemma cR_len m D l : cR m D → l < length D → llen l m = (Ret (Z.of_nat (length (default [] (D !! l)))), m).
  Proof.
    intros (H & HR & Hst & Hi & ->) Hl. rewrite fmap_length in Hl. pose proof (seq_of_lt _ _ Hl) as Hs.
    rewrite cR_lookup by done. unfold llen, get_len, glift. by rewrite (R_len _ _ HR _ _ Hs), (vals_len m H l).
  Qed.
  Lemma cR_empty m D l : cR m D → l < length D → lempty l m = (Ret (Nat.eqb (length (default [] (D !! l))) 0), m).
  Proof.
    intros HR Hl. unfold lempty. pose proof (cR_len m D l HR Hl) as E. unfold llen in E.
    eapply eq_trans; [eapply gst_bind_Ret; exact E|]. unfold gret. do 2 f_equal.
    by destruct (default [] (D !! l)).
  Qed.
  Lemma cR_peek m D l : cR m D → l < length D →
    popped (st_peek l m) (last (default [] (D !! l))) ∧ (st_peek l m).2 = m.
  Proof.
    intros (H & HR & Hst & Hi & ->) Hl. rewrite fmap_length in Hl. pose proof (seq_of_lt _ _ Hl) as Hs.
    rewrite cR_lookup by done. unfold st_peek. cbv [mbind gst_bind]. rewrite (back_eff m H l HR Hl).
    destruct (last (seq_of H l)) as [e|] eqn:Es; simpl.
    - destruct (last_app_single _ _ Es) as [a Ea]. rewrite Ea in *.
      destruct (vals_one m H l _ e HR Hs) as (v & Hv & Ev); [set_solver|].
      rewrite vals_app, Ev, last_snoc. unfold get_val, glift. by rewrite (R_vals _ _ HR), Hv.
    - apply last_None in Es. rewrite Es. simpl. split; [by eexists|done].
  Qed.

  Lemma popped_fin (r : go T * lmem T) o : popped r o → (lfin LValue r).1 = pop_out o ∧ (lfin LValue r).2 = r.2.
  Proof. destruct r as [[v|p|] m2], o; simpl; naive_solver. Qed.

  Lemma dstep_ok m D o : cR m D → (∀ d, dwho o = Some d → d < length D) →
    (dstep m o).1 = (dspec_step D o).1 ∧ cR (dstep m o).2 (dspec_step D o).2.
  Proof.
    intros HR Hw. destruct o as [|d v|d v|d|d|d|d]; simpl in Hw; try specialize (Hw d eq_refl); unfold dstep.
    - destruct (cR_new m D HR) as (m' & E & HR'). unfold dq_new. by rewrite E.
    - destruct (cR_push_front m D d v HR Hw) as (m' & e & E & HR'). unfold dq_push_front. cbv [mbind gst_bind]. by rewrite E.
    - destruct (cR_push_back m D d v HR Hw) as (m' & e & E & HR'). unfold dq_push_back. cbv [mbind gst_bind]. by rewrite E.
    - destruct (cR_pop_front m D d HR Hw) as [Hp HR']. unfold dq_pop_front. apply popped_fin in Hp as [-> ->]. done.
    - destruct (cR_pop_back m D d HR Hw) as [Hp HR']. unfold dq_pop_back. apply popped_fin in Hp as [-> ->]. done.
    - unfold dq_len. by rewrite (cR_len m D d).
    - unfold dq_empty. by rewrite (cR_empty m D d).
  Qed.
  (** stacks are stored back to front *)
  Lemma sstep_ok m D o : cR m (reverse <$> D) → (∀ d, swho o = Some d → d < length D) →
    (sstep m o).1 = (sspec_step D o).1 ∧ cR (sstep m o).2 (reverse <$> (sspec_step D o).2).
  Proof.
    intros HR Hw. assert (∀ d, default [] ((reverse <$> D) !! d) = reverse (default [] (D !! d))) as Hd.
    { intros d. rewrite list_lookup_fmap. by destruct (D !! d). }
    assert (∀ q : list T, removelast (reverse q) = reverse (tail q)) as Hrl.
    { intros [|x q]; [done|]. by rewrite reverse_cons, removelast_last. }
    assert (∀ q : list T, last (reverse q) = head q) as Hlr.
    { intros [|x q]; [done|]. by rewrite reverse_cons, last_snoc. }
    assert (∀ d, d < length D → d < length (reverse <$> D)) as Hlt by (intros d; by rewrite fmap_length).
    destruct o as [|d v|d|d|d|d]; simpl in Hw; try specialize (Hlt d (Hw d eq_refl)); unfold sstep.
    - destruct (cR_new m _ HR) as (m' & E & HR'). unfold st_new. rewrite E. simpl. rewrite fmap_length, fmap_app. by rewrite fmap_length in E.
    - destruct (cR_push_back m _ d v HR Hlt) as (m' & e & E & HR'). unfold st_push. cbv [mbind gst_bind]. rewrite E. simpl.
      rewrite Hd in HR'. split; [done|]. by rewrite list_fmap_insert, reverse_cons.
    - destruct (cR_pop_back m _ d HR Hlt) as [Hp HR']. unfold st_pop. apply popped_fin in Hp as [-> ->]. rewrite Hd in HR' |- *.
      rewrite Hrl in HR'. rewrite Hlr. simpl. by rewrite list_fmap_insert.
    - destruct (cR_peek m _ d HR Hlt) as [Hp E]. apply popped_fin in Hp as [-> ->]. rewrite E, Hd, Hlr. done.
    - unfold st_len. rewrite (cR_len m _ d) by done. simpl. by rewrite Hd, reverse_length.
    - unfold st_empty. rewrite (cR_empty m _ d) by done. simpl. by rewrite Hd, reverse_length.
  Qed.

  Lemma cR0 : cR lmem0 [].
  Proof. exists lspec0. split; [apply lR0|]. split_and!; try done. simpl. intros; lia. Qed.

  Theorem deque_refines (ops : list (dop T)) : ∀ out, cspec dwho dspec_step [] ops = Some out → (steps dstep lmem0 ops).1 = out.
  Proof.
    generalize cR0. generalize (@nil (list T)) (@lmem0 T). induction ops as [|o ops IH]; intros D m HR out E; simpl in E; [by injection E as <-|].
    case_decide as Hw; [|done]. apply fmap_Some in E as (out' & E & ->).
    destruct (dstep_ok m D o HR Hw) as [E1 HR']. simpl. destruct (dstep m o) as [r m1]. simpl in *.
    specialize (IH _ m1 HR' _ E). destruct (steps dstep m1 ops). simpl in *. by rewrite E1, IH.
  Qed.
  Theorem stack_refines (ops : list (sop T)) : ∀ out, cspec swho sspec_step [] ops = Some out → (steps sstep lmem0 ops).1 = out.
  Proof.
    assert (cR lmem0 (reverse <$> @nil (list T))) as HR0 by apply cR0. revert HR0.
    generalize (@nil (list T)) (@lmem0 T). induction ops as [|o ops IH]; intros D m HR out E; simpl in E; [by injection E as <-|].
    case_decide as Hw; [|done]. apply fmap_Some in E as (out' & E & ->).
    destruct (sstep_ok m D o HR Hw) as [E1 HR']. simpl. destruct (sstep m o) as [r m1]. simpl in *.
    specialize (IH _ m1 HR' _ E). destruct (steps sstep m1 ops). simpl in *. by rewrite E1, IH.
  Qed.
End Deque.
