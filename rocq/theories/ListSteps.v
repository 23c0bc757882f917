(** * Every call follows the sequence specification *)
From stdpp Require Import gmap.
From Verif Require Import GoBase GoState ListModel ListSpec ListRing ListProofs.

Section Seqs.
  Implicit Types (s a b : list nat).
  Lemma rem_split a e b : NoDup (a ++ e :: b) → rem e (a ++ e :: b) = a ++ b.
  Proof.
    intros ND. rewrite <-Permutation_middle in ND. apply NoDup_cons in ND as [He _].
    unfold rem. rewrite filter_app, filter_cons_False by tauto.
    assert (∀ c : list nat, e ∉ c → filter (λ x, x ≠ e) c = c) as Hid.
    { intros c Hc. induction c as [|x c IH]; [done|]. apply not_elem_of_cons in Hc as [? ?].
      rewrite filter_cons_True by congruence. f_equal. auto. }
    rewrite !Hid; [done|set_solver..].
  Qed.
  Lemma rem_notin e s : e ∉ s → rem e s = s.
  Proof.
    intros Hc. unfold rem. induction s as [|x c IH]; [done|]. apply not_elem_of_cons in Hc as [? ?].
    rewrite filter_cons_True by congruence. f_equal. auto.
  Qed.
  Lemma ins_after_split a x n b : x ∉ a → ins_after x n (a ++ x :: b) = a ++ x :: n :: b.
  Proof.
    induction a as [|y a IH]; intros Hn; simpl; [by rewrite decide_True|].
    apply not_elem_of_cons in Hn as [? ?]. rewrite decide_False by done. by rewrite IH.
  Qed.
  Lemma ins_before_split a x n b : x ∉ a → ins_before x n (a ++ x :: b) = a ++ n :: x :: b.
  Proof.
    induction a as [|y a IH]; intros Hn; simpl; [by rewrite decide_True|].
    apply not_elem_of_cons in Hn as [? ?]. rewrite decide_False by done. by rewrite IH.
  Qed.
  Lemma succ_in_split a e b : e ∉ a → succ_in e (a ++ e :: b) = head b.
  Proof.
    induction a as [|y a IH]; intros Hn; simpl; [by rewrite decide_True|].
    apply not_elem_of_cons in Hn as [? ?]. rewrite decide_False by done. by apply IH.
  Qed.
  Lemma succ_in_notin e s : e ∉ s → succ_in e s = None.
  Proof.
    induction s as [|y a IH]; intros Hn; simpl; [done|].
    apply not_elem_of_cons in Hn as [? ?]. rewrite decide_False by done. by apply IH.
  Qed.
  Lemma nodup_notin a e b : NoDup (a ++ e :: b) → e ∉ a ∧ e ∉ b.
  Proof. intros ND. rewrite <-Permutation_middle in ND. apply NoDup_cons in ND as [He _]. set_solver. Qed.
  Lemma last_app_single s e : last s = Some e → ∃ a, s = a ++ [e].
  Proof. intros E. apply last_Some in E as [a ->]. eauto. Qed.

  Lemma anywhere_at f ss l s : ss !! l = Some s → (∀ l2 s2, l2 ≠ l → ss !! l2 = Some s2 → f s2 = None) →
    anywhere f ss = f s.
  Proof.
    revert l. induction ss as [|t ss IH]; intros l Hl Hn; [done|]. unfold anywhere. simpl. fold (anywhere f ss). destruct l as [|l].
    - injection Hl as ->. destruct (f s); [done|].
      assert (∀ l2 s2, ss !! l2 = Some s2 → f s2 = None) as Hn' by (intros l2 s2 Hs; by apply (Hn (S l2) s2)).
      clear -Hn'. induction ss as [|t ss IH]; [done|]. unfold anywhere. simpl. rewrite (Hn' 0 t) by done.
      apply IH. intros l2 s2 Hs. by apply (Hn' (S l2)).
    - rewrite (Hn 0 t) by done. apply (IH l); [done|]. intros l2 s2 ? Hs. apply (Hn (S l2)); [congruence|done].
  Qed.
  Lemma anywhere_none f ss : (∀ l s, ss !! l = Some s → f s = None) → anywhere f ss = None.
  Proof.
    intros Hn. induction ss as [|t ss IH]; [done|]. unfold anywhere. simpl. rewrite (Hn 0 t) by done.
    apply IH. intros l2 s2 Hs. by apply (Hn (S l2)).
  Qed.
End Seqs.

Section Steps.
  Context {T : Type}.
  Implicit Types (m : lmem T) (H : lspec T) (s : list nat).
  Local Arguments ring : simpl never.
  Local Arguments rs : simpl never.

  Lemma seq_of_eq H l s : sq H !! l = Some s → seq_of H l = s.
  Proof. unfold seq_of. by intros ->. Qed.
  Lemma seq_of_lt H l : l < length (sq H) → sq H !! l = Some (seq_of H l).
  Proof. intros Hl. unfold seq_of. by destruct (lookup_lt_is_Some_2 _ _ Hl) as [s ->]. Qed.
  Lemma own_in m H l s e : lR m H → sq H !! l = Some s → e ∈ s → lown m !! e = Some l.
  Proof. intros HR Hl He. apply (R_own _ _ HR). eauto. Qed.
  Lemma own_iff m H l s e : lR m H → sq H !! l = Some s → (l, e) ∉ sstale H → lown m !! e = Some l ↔ e ∈ s.
  Proof. intros HR Hl Hs. rewrite (R_own _ _ HR), Hl. naive_solver. Qed.
  Lemma set_seq_id H l s : sq H !! l = Some s → set_seq H l s = H.
  Proof. intros Hl. unfold set_seq. rewrite list_insert_id by done. by destruct H. Qed.
  Lemma add_nil H l : l < length (sq H) → set_seq (add_vals H []) l (seq_of H l) = H.
  Proof.
    intros Hl%seq_of_lt. unfold set_seq, add_vals. simpl. rewrite app_nil_r, list_insert_id by done. by destruct H.
  Qed.

  (** neighbours *)
  Lemma nb_mid m H l s P p x Q : lR m H → sq H !! l = Some s → sini H !! l = Some true → rs l s = P ++ p :: x :: Q →
    lnx m !! p = Some x ∧ lpv m !! x = Some p.
  Proof.
    intros HR Hl Hi E. pose proof (R_ring _ _ HR _ _ Hl Hi) as Hr. rewrite E in Hr.
    apply ring_rot in Hr. simpl in Hr. split; [by rewrite (ring_next _ _ _ _ Hr)|exact (ring_prev _ _ _ _ _ Hr)].
  Qed.
  Lemma nb_end m H l s P p : lR m H → sq H !! l = Some s → sini H !! l = Some true → rs l s = P ++ [p] →
    lnx m !! p = Some (inl l) ∧ lpv m !! (inl l) = Some p.
  Proof.
    intros HR Hl Hi E. pose proof (R_ring _ _ HR _ _ Hl Hi) as Hr. rewrite E in Hr.
    assert (default p (head P) = inl l) as Eh.
    { unfold rs in E. destruct P as [|? P]; simpl in *; by injection E. }
    split; [|rewrite <-Eh; exact (ring_prev_head _ _ _ _ Hr)]. apply ring_rot in Hr. simpl in Hr. by rewrite (ring_next _ _ _ _ Hr), Eh.
  Qed.

  Ltac gred := cbv [mbind gst_bind gread gwrite gret glift gpanic lderef get_next get_prev get_own get_len get_val llen]; simpl.

  Lemma front_eff m H l : lR m H → l < length (sq H) →
    lfront l m = (Ret (inr <$> head (seq_of H l)), m).
  Proof.
    intros HR Hl%seq_of_lt. unfold lfront. gred. rewrite (R_len _ _ HR _ _ Hl).
    destruct (seq_of H l) as [|e s] eqn:E; [done|]. rewrite decide_False by (simpl; lia). f_equal.
    assert (sini H !! l = Some true) as Hi by (eapply (ini_of _ _ _ _ e); [done|done|left]).
    f_equal. by destruct (nb_mid m H l _ [] (inl l) (inr e) (inr <$> s) HR Hl Hi).
  Qed.
  Lemma back_eff m H l : lR m H → l < length (sq H) →
    lback l m = (Ret (inr <$> last (seq_of H l)), m).
  Proof.
    intros HR Hl%seq_of_lt. unfold lback. gred. rewrite (R_len _ _ HR _ _ Hl).
    destruct (last (seq_of H l)) as [e|] eqn:E.
    - apply last_app_single in E as [a E]. rewrite E, app_length in *. rewrite decide_False by (simpl; lia). do 2 f_equal.
      assert (sini H !! l = Some true) as Hi by (eapply (ini_of _ _ _ _ e); [done|done|set_solver]).
      destruct (nb_end m H l _ (rs l a) (inr e) HR Hl Hi) as [_ ?]; [by rewrite rs_app|done].
    - apply last_None in E. rewrite E. done.
  Qed.

  Lemma next_eff m H e : lR m H → (∀ l, (l, e) ∉ sstale H) →
    el_next e m = (Ret (inr <$> anywhere (succ_in e) (sq H)), m).
  Proof.
    intros HR Hst. unfold el_next. gred. destruct (lown m !! e) as [l|] eqn:Eo.
    - pose proof Eo as Eo'. apply (R_own _ _ HR) in Eo' as [(s & Hl & He)|]; [|by exfalso; eapply Hst].
      rewrite (anywhere_at _ _ l s); [|done|].
      2:{ intros l2 s2 Hne Hl2. apply succ_in_notin. intros He2. pose proof (own_in _ _ _ _ _ HR Hl2 He2). congruence. }
      assert (sini H !! l = Some true) as Hi by (by eapply ini_of).
      pose proof (R_nd _ _ HR _ _ Hl) as ND.
      apply elem_of_list_split in He as (a & b & ->). rewrite succ_in_split by (by destruct (nodup_notin _ _ _ ND)).
      destruct b as [|y b]; simpl.
      + destruct (nb_end m H l _ (rs l a) (inr e) HR Hl Hi) as [-> _]; [by rewrite rs_app|]. by rewrite decide_True.
      + destruct (nb_mid m H l _ (rs l a) (inr e) (inr y) (inr <$> b) HR Hl Hi) as [-> _]; [by rewrite rs_app|].
        by rewrite decide_False.
    - rewrite anywhere_none; [done|]. intros l s Hl. apply succ_in_notin. intros He. pose proof (own_in _ _ _ _ _ HR Hl He). congruence.
  Qed.
  Lemma prev_eff m H e : lR m H → (∀ l, (l, e) ∉ sstale H) →
    el_prev e m = (Ret (inr <$> anywhere (pred_in e) (sq H)), m).
  Proof.
    intros HR Hst. unfold el_prev. gred. destruct (lown m !! e) as [l|] eqn:Eo.
    - pose proof Eo as Eo'. apply (R_own _ _ HR) in Eo' as [(s & Hl & He)|]; [|by exfalso; eapply Hst].
      rewrite (anywhere_at _ _ l s); [|done|].
      2:{ intros l2 s2 Hne Hl2. apply succ_in_notin. rewrite elem_of_reverse. intros He2. pose proof (own_in _ _ _ _ _ HR Hl2 He2). congruence. }
      assert (sini H !! l = Some true) as Hi by (by eapply ini_of).
      pose proof (R_nd _ _ HR _ _ Hl) as ND.
      apply elem_of_list_split in He as (a & b & ->). unfold pred_in.
      rewrite reverse_app, reverse_cons, <-(assoc_L (++)). simpl.
      rewrite succ_in_split by (rewrite elem_of_reverse; by destruct (nodup_notin _ _ _ ND)).
      destruct (reverse a) as [|y a'] eqn:Er; simpl.
      + assert (a = []) as -> by (apply (f_equal reverse) in Er; by rewrite reverse_involutive in Er).
        destruct (nb_mid m H l _ [] (inl l) (inr e) (inr <$> b) HR Hl Hi) as [_ ->]; [done|]. by rewrite decide_True.
      + assert (a = reverse a' ++ [y]) as -> by (apply (f_equal reverse) in Er; by rewrite reverse_involutive, reverse_cons in Er).
        destruct (nb_mid m H l _ (rs l (reverse a')) (inr y) (inr e) (inr <$> b) HR Hl Hi) as [_ ->].
        { rewrite !rs_app, <-(assoc_L (++)). done. } by rewrite decide_False.
    - rewrite anywhere_none; [done|]. intros l s Hl. apply succ_in_notin. rewrite elem_of_reverse. intros He. pose proof (own_in _ _ _ _ _ HR Hl He). congruence.
  Qed.

  Lemma push_front_ok m H l v : lR m H → l < length (sq H) → sini H !! l = Some true →
    ∃ m', lpush_front l v m = (Ret (fresh H), m') ∧ lR m' (set_seq (add_vals H [v]) l (fresh H :: seq_of H l)).
  Proof.
    intros HR Hl%seq_of_lt Hi. unfold lpush_front. by eapply (insert_ok _ _ _ _ []).
  Qed.
  Lemma push_back_ok m H l v : lR m H → l < length (sq H) → sini H !! l = Some true →
    ∃ m', lpush_back l v m = (Ret (fresh H), m') ∧ lR m' (set_seq (add_vals H [v]) l (seq_of H l ++ [fresh H])).
  Proof.
    intros HR Hl%seq_of_lt Hi. unfold lpush_back. gred. destruct (rs_last l (seq_of H l)) as (P & p & E).
    destruct (nb_end m H l _ P p HR Hl Hi E) as [_ ->].
    eapply insert_ok; [done|done|done|exact E|]. rewrite rs_app, E, <-(assoc_L (++)). done.
  Qed.

  Lemma remove_step m H l e : lR m H → l < length (sq H) → e < fresh H → (l, e) ∉ sstale H →
    ∃ v m', svals H !! e = Some v ∧ lremove l e m = (Ret v, m') ∧ lR m' (set_seq H l (rem e (seq_of H l))).
  Proof.
    intros HR Hl%seq_of_lt He Hst. destruct (lookup_lt_is_Some_2 (svals H) e He) as [v Hv].
    unfold lremove. cbv [mbind gst_bind gread get_own get_val glift]. simpl.
    destruct (decide (e ∈ seq_of H l)) as [Hin|Hin].
    - rewrite decide_True by (by eapply own_iff). pose proof (R_nd _ _ HR _ _ Hl) as ND.
      apply elem_of_list_split in Hin as (a & b & E). rewrite E in *.
      destruct (remove_ok m H l a e b HR Hl) as (m' & Em & HR'). rewrite Em. rewrite rem_split by done.
      exists v, m'. rewrite (R_vals _ _ HR'). simpl. by rewrite Hv.
    - rewrite decide_False by (rewrite own_iff; [done..|]; done). simpl. exists v, m. rewrite (R_vals _ _ HR), Hv. split_and!; [done..|].
      by rewrite rem_notin, set_seq_id.
  Qed.

  Lemma rs_prev_of l a x b : ∃ P p, rs l (a ++ x :: b) = P ++ p :: inr x :: (inr <$> b) ∧
    (∀ n, rs l (a ++ n :: x :: b) = P ++ p :: inr n :: inr x :: (inr <$> b)) ∧ rs l a = P ++ [p].
  Proof.
    destruct (rs_last l a) as (P & p & E). exists P, p. split_and!; [|intros n|done]; by rewrite rs_app, E, <-(assoc_L (++)).
  Qed.

  Lemma move_before_split (a : list nat) e b x : NoDup (a ++ e :: b) → x ∈ a ++ b → ∃ c d, a ++ b = c ++ x :: d ∧ x ∉ c.
  Proof.
    intros ND Hx. assert (NoDup (a ++ b)) as ND2 by (rewrite <-Permutation_middle in ND; by apply NoDup_cons in ND as [_ ?]).
    apply elem_of_list_split in Hx as (c & d & E). exists c, d. split; [done|]. rewrite E in ND2. by destruct (nodup_notin _ _ _ ND2).
  Qed.

  (** ** PushBackList and PushFrontList *)
  Lemma back_loop_ok o l rest : ∀ m H pre suf e, lR m H → l < length (sq H) → (sini H !! l = Some true ∨ rest = []) →
    sq H !! o = Some (pre ++ rest ++ suf) → e = inr <$> head rest → (∀ l2 e', e' ∈ rest → (l2, e') ∉ sstale H) →
    ∃ m', lpush_back_loop (length rest) l e m = (Ret tt, m') ∧
          lR m' (set_seq (add_vals H (vals_of H rest)) l (seq_of H l ++ seq (fresh H) (length (vals_of H rest)))).
  Proof.
    induction rest as [|x rest IH]; intros m H pre suf e HR Hl Hi Ho He Hst.
    - exists m. simpl. split; [done|]. rewrite app_nil_r. by rewrite add_nil.
    - destruct Hi as [Hi|?]; [|done]. subst e. simpl.
      assert (x < length (svals H)) as Hx.
      { eapply (R_bnd _ _ HR), own_in; [done|exact Ho|]. set_solver. }
      destruct (lookup_lt_is_Some_2 _ _ Hx) as [v Hv].
      unfold vals_of. simpl. rewrite Hv. simpl. fold (vals_of H rest).
      destruct (push_back_ok m H l v HR Hl Hi) as (m1 & E1 & HR1).
      set (H1 := set_seq (add_vals H [v]) l (seq_of H l ++ [fresh H])) in *.
      assert (∃ suf', sq H1 !! o = Some (pre ++ (x :: rest) ++ suf')) as [suf' Ho1].
      { subst H1. simpl. destruct (decide (o = l)) as [->|Hne].
        - rewrite list_lookup_insert by done. exists (suf ++ [fresh H]). rewrite (seq_of_eq _ _ _ Ho). by rewrite <-!(assoc_L (++)).
        - rewrite list_lookup_insert_ne by done. eauto. }
      assert (∀ e', e' ∈ x :: rest → ∀ l2, (l2, e') ∉ sstale H1) as Hst1 by (intros; by apply Hst).
      pose proof (next_eff m1 H1 x HR1 (Hst1 x ltac:(left))) as En.
      assert (rest ≠ [] → anywhere (succ_in x) (sq H1) = head rest) as Hnext.
      { intros Hne. pose proof (R_nd _ _ HR1 _ _ Ho1) as ND.
        rewrite (anywhere_at _ _ o (pre ++ x :: rest ++ suf')); [|exact Ho1|].
        - rewrite succ_in_split; [by destruct rest|]. by destruct (nodup_notin _ _ _ ND).
        - intros l2 s2 Hne2 Hl2. apply succ_in_notin. intros Hin.
          pose proof (own_in _ _ _ _ x HR1 Hl2 Hin). assert (lown m1 !! x = Some o); [|congruence].
          eapply own_in; [done|exact Ho1|]. set_solver. }
      assert (vals_of H1 rest = vals_of H rest) as Evs.
      { unfold vals_of. apply list_omap_ext, Forall_Forall2_diag, Forall_forall. intros y Hy. simpl.
        apply lookup_app_l. eapply (R_bnd _ _ HR), own_in; [done|exact Ho|]. set_solver. }
      assert (length (sq H1) = length (sq H)) as El by (simpl; by rewrite insert_length).
      assert (seq_of H1 l = seq_of H l ++ [fresh H]) as Es.
      { apply seq_of_eq. simpl. by rewrite list_lookup_insert. }
      assert (fresh H1 = S (fresh H)) as Ef by (unfold fresh; simpl; rewrite app_length; simpl; lia).
      destruct (IH m1 H1 (pre ++ [x]) suf' (inr <$> head rest)) as (m2 & E2 & HR2); [done|by rewrite El|by left|..].
      { rewrite Ho1. by rewrite <-(assoc_L (++)). } { done. } { intros. apply Hst1. by right. }
      exists m2. split.
      + eapply eq_trans; [eapply gst_bind_Ret; unfold get_val, glift; rewrite (R_vals _ _ HR), Hv; reflexivity|].
        transitivity ((_x ⇠ lpush_back l v; e' ⇠ el_next x; lpush_back_loop (length rest) l e') m); [done|].
        eapply eq_trans; [eapply gst_bind_Ret; exact E1|].
        eapply eq_trans; [eapply gst_bind_Ret; exact En|].
        destruct rest as [|y rest]; [exact E2|]. rewrite Hnext by done. exact E2.
      + rewrite Evs, Es, Ef in HR2. unfold set_seq, add_vals in HR2 |- *. subst H1. simpl in *.
        rewrite list_insert_insert in HR2. rewrite <-!(assoc_L (++)) in HR2. exact HR2.
  Qed.

  Lemma front_loop_ok o l rest : ∀ m H pre suf e, lR m H → l < length (sq H) → (sini H !! l = Some true ∨ rest = []) →
    sq H !! o = Some (pre ++ reverse rest ++ suf) → e = inr <$> head rest → (∀ l2 e', e' ∈ rest → (l2, e') ∉ sstale H) →
    ∃ m', lpush_front_loop (length rest) l e m = (Ret tt, m') ∧
          lR m' (set_seq (add_vals H (vals_of H rest)) l (reverse (seq (fresh H) (length (vals_of H rest))) ++ seq_of H l)).
  Proof.
    induction rest as [|x rest IH]; intros m H pre suf e HR Hl Hi Ho He Hst.
    - exists m. simpl. split; [done|]. by rewrite add_nil.
    - destruct Hi as [Hi|?]; [|done]. subst e. simpl.
      assert (x < length (svals H)) as Hx.
      { eapply (R_bnd _ _ HR), own_in; [done|exact Ho|]. set_solver. }
      destruct (lookup_lt_is_Some_2 _ _ Hx) as [v Hv].
      unfold vals_of. simpl. rewrite Hv. simpl. fold (vals_of H rest).
      destruct (push_front_ok m H l v HR Hl Hi) as (m1 & E1 & HR1).
      set (H1 := set_seq (add_vals H [v]) l (fresh H :: seq_of H l)) in *.
      rewrite reverse_cons, <-(assoc_L (++)) in Ho. simpl in Ho.
      assert (∃ pre', sq H1 !! o = Some (pre' ++ reverse rest ++ x :: suf)) as [pre' Ho1].
      { subst H1. simpl. destruct (decide (o = l)) as [->|Hne].
        - rewrite list_lookup_insert by done. exists (fresh H :: pre). by rewrite (seq_of_eq _ _ _ Ho).
        - rewrite list_lookup_insert_ne by done. eauto. }
      assert (∀ e', e' ∈ x :: rest → ∀ l2, (l2, e') ∉ sstale H1) as Hst1 by (intros; by apply Hst).
      pose proof (prev_eff m1 H1 x HR1 (Hst1 x ltac:(left))) as En.
      assert (rest ≠ [] → anywhere (pred_in x) (sq H1) = head rest) as Hnext.
      { intros Hne. pose proof (R_nd _ _ HR1 _ _ Ho1) as ND.
        rewrite (anywhere_at _ _ o (pre' ++ reverse rest ++ x :: suf)); [|exact Ho1|].
        - rewrite (assoc_L (++)) in ND |- *. unfold pred_in. rewrite reverse_app, reverse_cons, <-(assoc_L (++)). simpl.
          rewrite succ_in_split; [by rewrite reverse_app, reverse_involutive; destruct rest|].
          rewrite elem_of_reverse. by destruct (nodup_notin _ _ _ ND).
        - intros l2 s2 Hne2 Hl2. apply succ_in_notin. rewrite elem_of_reverse. intros Hin.
          pose proof (own_in _ _ _ _ x HR1 Hl2 Hin). assert (lown m1 !! x = Some o); [|congruence].
          eapply own_in; [done|exact Ho1|]. set_solver. }
      assert (vals_of H1 rest = vals_of H rest) as Evs.
      { unfold vals_of. apply list_omap_ext, Forall_Forall2_diag, Forall_forall. intros y Hy. simpl.
        apply lookup_app_l. eapply (R_bnd _ _ HR), own_in; [done|exact Ho|]. set_solver. }
      assert (length (sq H1) = length (sq H)) as El by (simpl; by rewrite insert_length).
      assert (seq_of H1 l = fresh H :: seq_of H l) as Es.
      { apply seq_of_eq. simpl. by rewrite list_lookup_insert. }
      assert (fresh H1 = S (fresh H)) as Ef by (unfold fresh; simpl; rewrite app_length; simpl; lia).
      destruct (IH m1 H1 pre' (x :: suf) (inr <$> head rest)) as (m2 & E2 & HR2); [done|by rewrite El|by left|done|done| |].
      { intros. apply Hst1. by right. }
      exists m2. split.
      + eapply eq_trans; [eapply gst_bind_Ret; unfold get_val, glift; rewrite (R_vals _ _ HR), Hv; reflexivity|].
        eapply eq_trans; [eapply gst_bind_Ret; exact E1|].
        eapply eq_trans; [eapply gst_bind_Ret; exact En|].
        destruct rest as [|y rest]; [exact E2|]. rewrite Hnext by done. exact E2.
      + rewrite Evs, Es, Ef in HR2. unfold set_seq, add_vals in HR2 |- *. subst H1. simpl in *.
        rewrite list_insert_insert in HR2. rewrite <-!(assoc_L (++)) in HR2.
        rewrite reverse_cons, <-(assoc_L (++)). exact HR2.
  Qed.
End Steps.
