(** * The pointer structure follows the sequences *)
From stdpp Require Import gmap.
From Verif Require Import GoBase GoState ListModel ListSpec ListRing.

Section Proofs.
  Context {T : Type}.
  Implicit Types (m : lmem T) (H : lspec T) (s : list nat).

  Definition rs (l : nat) s : list ptr := inl l :: (inr <$> s).

  Local Arguments ring : simpl never.
  Local Arguments rs : simpl never.

  Record lR m H : Prop := LR {
    R_vals : lvals m = svals H;
    R_n1 : length (llens m) = length (sq H);
    R_n2 : length (sini H) = length (sq H);
    R_len : ∀ l s, sq H !! l = Some s → llens m !! l = Some (Z.of_nat (length s));
    R_nd : ∀ l s, sq H !! l = Some s → NoDup s;
    R_ring : ∀ l s, sq H !! l = Some s → sini H !! l = Some true → ring (lnx m) (lpv m) (rs l s);
    R_zero : ∀ l, sini H !! l = Some false → sq H !! l = Some [] ∧ lnx m !! (inl l) = None ∧ lpv m !! (inl l) = None;
    R_own : ∀ e l, lown m !! e = Some l ↔ (∃ s, sq H !! l = Some s ∧ e ∈ s) ∨ (l, e) ∈ sstale H;
    R_bnd : ∀ e l, lown m !! e = Some l → e < length (svals H);
    R_dis : ∀ l e s, (l, e) ∈ sstale H → sq H !! l = Some s → e ∉ s;
    R_fr : ∀ l, length (sq H) ≤ l → lnx m !! (inl l) = None ∧ lpv m !! (inl l) = None }.

  Lemma mid_perm {A} (P : list A) p x Q : P ++ p :: x :: Q ≡ₚ x :: P ++ p :: Q.
  Proof. rewrite <-!Permutation_middle. apply perm_swap. Qed.
  Lemma rs_elem l s x : x ∈ rs l s ↔ x = inl l ∨ ∃ e, x = inr e ∧ e ∈ s.
  Proof. unfold rs. rewrite elem_of_cons, elem_of_list_fmap. naive_solver. Qed.
  Lemma rs_nodup l s : NoDup (rs l s) ↔ NoDup s.
  Proof.
    unfold rs. rewrite NoDup_cons. split.
    - intros [_ Hn]. by apply NoDup_fmap_1 in Hn.
    - intros Hn. split; [|apply NoDup_fmap_2; [apply _|done]]. by intros (?&?&?)%elem_of_list_fmap.
  Qed.
  Lemma rs_last l s : ∃ P p, rs l s = P ++ [p].
  Proof.
    destruct (exists_last (l := rs l s)) as (P & p & E); [done|]. eauto.
  Qed.
  Lemma rs_app l s1 s2 : rs l (s1 ++ s2) = rs l s1 ++ (inr <$> s2).
  Proof. unfold rs. by rewrite fmap_app. Qed.
  Lemma rs_inj l s s' : rs l s = rs l s' → s = s'.
  Proof. unfold rs. intros [= E]. by apply (inj (fmap inr)) in E. Qed.

  Lemma ini_of m H l s e : lR m H → sq H !! l = Some s → e ∈ s → sini H !! l = Some true.
  Proof.
    intros HR Hl He. destruct (lookup_lt_is_Some_2 (sini H) l) as [b Hb].
    { rewrite (R_n2 _ _ HR). by eapply lookup_lt_Some. }
    destruct b; [done|]. destruct (R_zero _ _ HR _ Hb) as (E & _). rewrite Hl in E. injection E as ->. by apply elem_of_nil in He.
  Qed.

  Lemma lR_change m H l s s' m' vals' :
    lR m H → sq H !! l = Some s → sini H !! l = Some true →
    lvals m' = vals' → llens m' = <[l := Z.of_nat (length s')]> (llens m) →
    NoDup s' → ring (lnx m') (lpv m') (rs l s') →
    (∀ x, x ∉ rs l s → x ∉ rs l s' → lnx m' !! x = lnx m !! x ∧ lpv m' !! x = lpv m !! x) →
    (∀ e, lown m' !! e = if decide (e ∈ s') then Some l else if decide (e ∈ s) then None else lown m !! e) →
    (∀ e, e ∈ s' → e ∈ s ∨ lown m !! e = None) → (∀ e, e ∈ s' → e < length vals') → length (svals H) ≤ length vals' →
    lR m' (LSpec (<[l:=s']> (sq H)) (sini H) vals' (sstale H)).
  Proof.
    intros HR Hl Hi Hv Hlen ND Hring Hfr Hown Hsub Hb Hle.
    assert (l < length (sq H)) as Hlt by (by eapply lookup_lt_Some).
    assert (∀ e l2, e ∈ s' → (∃ s2, sq H !! l2 = Some s2 ∧ e ∈ s2) ∨ (l2, e) ∈ sstale H → l2 = l ∧ e ∈ s) as Hcl.
    { intros e l2 He Hc. pose proof Hc as Ho. rewrite <-(R_own _ _ HR) in Ho. destruct (Hsub e He) as [Hs|Hs]; [|congruence].
      split; [|done]. assert (lown m !! e = Some l) by (apply (R_own _ _ HR); eauto). congruence. }
    split; simpl.
    - done.
    - rewrite Hlen, !insert_length. apply HR.
    - rewrite insert_length. apply HR.
    - intros l2 s2 Hl2. rewrite Hlen. destruct (decide (l2 = l)) as [->|Hne].
      + rewrite list_lookup_insert in Hl2 by done. injection Hl2 as <-. apply list_lookup_insert. by rewrite (R_n1 _ _ HR).
      + rewrite list_lookup_insert_ne in Hl2 by done. rewrite list_lookup_insert_ne by done. by apply HR.
    - intros l2 s2 Hl2. destruct (decide (l2 = l)) as [->|Hne].
      + rewrite list_lookup_insert in Hl2 by done. by injection Hl2 as <-.
      + rewrite list_lookup_insert_ne in Hl2 by done. by eapply HR.
    - intros l2 s2 Hl2 Hi2. destruct (decide (l2 = l)) as [->|Hne].
      + rewrite list_lookup_insert in Hl2 by done. by injection Hl2 as <-.
      + rewrite list_lookup_insert_ne in Hl2 by done.
        assert (∀ x, x ∈ rs l2 s2 → lnx m' !! x = lnx m !! x ∧ lpv m' !! x = lpv m !! x) as Hag.
        { intros x Hx. apply Hfr.
          - intros Hx'. apply rs_elem in Hx as [->|(e & -> & He)], Hx' as [E|(e' & E & He')]; try congruence.
            injection E as <-.
            assert (lown m !! e = Some l) by (apply (R_own _ _ HR); eauto).
            assert (lown m !! e = Some l2) by (apply (R_own _ _ HR); eauto). congruence.
          - intros Hx'. apply rs_elem in Hx as [->|(e & -> & He)], Hx' as [E|(e' & E & He')]; try congruence.
            injection E as <-. destruct (Hcl e l2); [done|eauto|done]. }
        eapply ring_frame; [| |by apply (R_ring _ _ HR)]; intros; by apply Hag.
    - intros l2 Hi2. assert (l2 ≠ l) by congruence. rewrite list_lookup_insert_ne by done.
      destruct (R_zero _ _ HR _ Hi2) as (? & ? & ?).
      assert (∀ s, @inl nat nat l2 ∉ rs l s) as Hni by (intros s3 [?|(?&?&?)]%rs_elem; congruence).
      destruct (Hfr (inl l2)) as [-> ->]; auto.
    - intros e l2. rewrite Hown. destruct (decide (e ∈ s')) as [He|He].
      { split.
        - intros [= <-]. left. exists s'. by rewrite list_lookup_insert.
        - intros [(s2 & Hl2 & He2)|Hst].
          + destruct (decide (l2 = l)) as [->|Hne]; [done|]. rewrite list_lookup_insert_ne in Hl2 by done.
            destruct (Hcl e l2); [done|eauto|congruence].
          + destruct (Hcl e l2); [done|eauto|congruence]. }
      destruct (decide (e ∈ s)) as [Hs|Hs].
      { assert (lown m !! e = Some l) as Ho by (apply (R_own _ _ HR); eauto).
        split; [done|]. intros [(s2 & Hl2 & He2)|Hst].
        - destruct (decide (l2 = l)) as [->|Hne].
          + rewrite list_lookup_insert in Hl2 by done. congruence.
          + rewrite list_lookup_insert_ne in Hl2 by done.
            assert (lown m !! e = Some l2) by (apply (R_own _ _ HR); eauto). congruence.
        - assert (lown m !! e = Some l2) by (apply (R_own _ _ HR); eauto).
          assert (l2 = l) as -> by congruence. exfalso. by eapply (R_dis _ _ HR). }
      rewrite (R_own _ _ HR). destruct (decide (l2 = l)) as [->|Hne].
      + rewrite list_lookup_insert, Hl by done. naive_solver.
      + by rewrite list_lookup_insert_ne by done.
    - intros e l2. rewrite Hown. destruct (decide (e ∈ s')) as [He|He]; [auto|].
      destruct (decide (e ∈ s)); [done|]. intros Ho. apply (R_bnd _ _ HR) in Ho. lia.
    - intros l2 e s2 Hst Hl2. destruct (decide (l2 = l)) as [->|Hne].
      + rewrite list_lookup_insert in Hl2 by done. injection Hl2 as <-. intros He.
        destruct (Hcl e l He) as [_ Hs]; [by right|]. by eapply (R_dis _ _ HR).
      + rewrite list_lookup_insert_ne in Hl2 by done. by eapply HR.
    - intros l2. rewrite insert_length. intros Hl2.
      assert (∀ s, @inl nat nat l2 ∉ rs l s) as Hni by (intros s3 [[= ->]|(?&?&?)]%rs_elem; [lia|congruence]).
      destruct (Hfr (inl l2)) as [-> ->]; auto. by apply (R_fr _ _ HR).
  Qed.

  (** ** Closed forms of the pointer code *)
  Lemma link_eff m e p q : lnx m !! p = Some q → p ≠ inr e →
    link e (Some p) m = (Ret tt, LMem (<[p:=inr e]> (<[inr e:=q]> (lnx m))) (<[q:=inr e]> (<[inr e:=p]> (lpv m))) (lown m) (lvals m) (llens m)).
  Proof.
    intros Hp Hne. unfold link. cbv [mbind gst_bind lderef get_next get_prev set_next set_prev gread gwrite gret]. simpl.
    rewrite Hp, lookup_partial_alter. simpl. rewrite lookup_partial_alter_ne, lookup_partial_alter by done. done.
  Qed.
  Lemma unlink_eff m e p q : lpv m !! inr e = Some p → lnx m !! inr e = Some q → p ≠ inr e → q ≠ inr e →
    unlink e m = (Ret tt, LMem (<[p:=q]> (lnx m)) (<[q:=p]> (lpv m)) (lown m) (lvals m) (llens m)).
  Proof.
    intros Hp Hq Hne Hne'. unfold unlink. cbv [mbind gst_bind lderef get_next get_prev set_next set_prev gread gwrite gret]. simpl.
    rewrite Hp, Hq. simpl. rewrite lookup_partial_alter_ne by done. rewrite Hp, Hq. done.
  Qed.

  Lemma insert_ok m H l s P p Q v s' :
    lR m H → sq H !! l = Some s → sini H !! l = Some true →
    rs l s = P ++ p :: Q → rs l s' = P ++ p :: inr (fresh H) :: Q →
    ∃ m', linsert_value l v (Some p) m = (Ret (fresh H), m') ∧ lR m' (set_seq (add_vals H [v]) l s').
  Proof.
    intros HR Hl Hi E E'. pose proof (R_nd _ _ HR _ _ Hl) as ND. apply (rs_nodup l) in ND.
    pose proof (R_ring _ _ HR _ _ Hl Hi) as Hring.
    assert (fresh H ∉ s) as Hfr.
    { intros Hin. assert (lown m !! fresh H = Some l) as Ho by (apply (R_own _ _ HR); eauto).
      apply (R_bnd _ _ HR) in Ho. unfold fresh in Ho. lia. }
    assert (inr (fresh H) ∉ rs l s) as Hfr' by (intros [?|(? & [= <-] & ?)]%rs_elem; done).
    assert (rs l s' ≡ₚ inr (fresh H) :: rs l s) as HP.
    { rewrite E, E'. apply mid_perm. }
    assert (∀ e, e ∈ s' ↔ e = fresh H ∨ e ∈ s) as Hel.
    { intros e. transitivity (inr e ∈ rs l s'); [rewrite rs_elem; naive_solver|].
      rewrite HP, elem_of_cons, rs_elem. naive_solver. }
    pose proof Hring as Hring2. rewrite E in ND, Hring2, Hfr'.
    destruct (ring_link_mid _ _ _ _ _ _ ND Hfr' Hring2) as [Hnx Hring'].
    set (q := default p (head (Q ++ P))) in *.
    assert (p ≠ inr (fresh H)) as Hpe by (intros ->; apply Hfr'; set_solver).
    assert (q ∈ P ++ p :: Q) as Hq.
    { subst q. destruct Q as [|? Q]; simpl; [destruct P; simpl; set_solver|set_solver]. }
    eexists. split.
    - unfold linsert_value, linsert. eapply eq_trans; [eapply gst_bind_Ret; reflexivity|]. cbn [alloc].
      rewrite (R_vals _ _ HR). fold (fresh H).
      eapply eq_trans; [eapply gst_bind_Ret, link_eff; simpl; [exact Hnx|done]|]. simpl.
      eapply eq_trans; [eapply gst_bind_Ret; reflexivity|]. simpl.
      eapply eq_trans; [eapply gst_bind_Ret; unfold get_len, glift; simpl; by rewrite (R_len _ _ HR _ _ Hl)|].
      eapply eq_trans; [eapply gst_bind_Ret; reflexivity|]. reflexivity.
    - unfold set_seq, add_vals. simpl.
      assert (length s' = S (length s)) as Hls.
      { apply Permutation_length in HP. unfold rs in HP. simpl in HP. rewrite !fmap_length in HP. lia. }
      eapply (lR_change m H l s s'); simpl; try done.
      + f_equal. lia.
      + apply (rs_nodup l). rewrite HP, E. by apply NoDup_cons.
      + rewrite E'. exact Hring'.
      + intros x Hx Hx'. rewrite E in Hx. rewrite E' in Hx'.
        rewrite !lookup_insert_ne; [done|..]; intros <-; set_solver.
      + intros e. change (partial_alter (λ _, Some l) (fresh H) (lown m)) with (<[fresh H := l]> (lown m)).
        destruct (decide (e = fresh H)) as [->|Hne].
        * rewrite lookup_insert, decide_True by (apply Hel; by left). done.
        * rewrite lookup_insert_ne by done. destruct (decide (e ∈ s')) as [He|He].
          -- apply (R_own _ _ HR). left. exists s. split; [done|]. by apply Hel in He as [?|?].
          -- rewrite decide_False; [done|]. intros ?. apply He, Hel. by right.
      + intros e [->|?]%Hel; [right|by left]. destruct (lown m !! fresh H) as [l2|] eqn:Eo; [|done].
        apply (R_bnd _ _ HR) in Eo. unfold fresh in Eo. lia.
      + intros e He. rewrite app_length. simpl. apply Hel in He as [->|He]; [unfold fresh; lia|].
        assert (lown m !! e = Some l) as Ho by (apply (R_own _ _ HR); eauto). apply (R_bnd _ _ HR) in Ho. lia.
      + rewrite app_length. lia.
  Qed.

  Lemma remove_ok m H l s1 e s2 : lR m H → sq H !! l = Some (s1 ++ e :: s2) →
    ∃ m', lremove_ l e m = (Ret tt, m') ∧ lR m' (set_seq H l (s1 ++ s2)).
  Proof.
    intros HR Hl. assert (sini H !! l = Some true) as Hi by (eapply (ini_of _ _ _ _ e); [done|done|set_solver]).
    pose proof (R_nd _ _ HR _ _ Hl) as NDs. pose proof NDs as ND. apply (rs_nodup l) in ND.
    pose proof (R_ring _ _ HR _ _ Hl Hi) as Hring.
    destruct (rs_last l s1) as (P & p & E1).
    assert (rs l (s1 ++ e :: s2) = P ++ p :: inr e :: (inr <$> s2)) as E.
    { rewrite rs_app, E1, <-(assoc_L (++)). done. }
    assert (rs l (s1 ++ s2) = P ++ p :: (inr <$> s2)) as E'.
    { rewrite rs_app, E1, <-(assoc_L (++)). done. }
    rewrite E in ND, Hring. destruct (ring_unlink_mid _ _ _ _ _ _ ND Hring) as (Hpv & Hnx & Hring').
    set (Q := inr <$> s2) in *. set (q := default p (head (Q ++ P))) in *.
    assert (q ∈ P ++ p :: Q) as Hq.
    { subst q. clearbody Q. destruct Q as [|? Q]; simpl; [destruct P; simpl; set_solver|set_solver]. }
    assert (inr e ∉ P ++ p :: Q) as Hnotin.
    { rewrite mid_perm in ND. by apply NoDup_cons in ND as [ND _]. }
    assert (p ≠ inr e) by (intros ->; apply Hnotin; set_solver).
    assert (q ≠ inr e) by (intros E2; rewrite E2 in Hq; done).
    assert (e ∉ s1 ++ s2) as Hes. { intros Hin. apply Hnotin. rewrite <-E'. apply rs_elem. right. eauto. }
    eexists. split.
    - unfold lremove_. eapply eq_trans; [eapply gst_bind_Ret, unlink_eff; [exact Hpv|exact Hnx|done|done]|]. simpl.
      do 3 (eapply eq_trans; [eapply gst_bind_Ret; reflexivity|]; simpl).
      eapply eq_trans; [eapply gst_bind_Ret; unfold get_len, glift; simpl; by rewrite (R_len _ _ HR _ _ Hl)|]. reflexivity.
    - unfold set_seq. simpl. eapply (lR_change m H l (s1 ++ e :: s2) (s1 ++ s2)); simpl; try done.
      + by rewrite (R_vals _ _ HR).
      + f_equal. rewrite !app_length. simpl. lia.
      + rewrite <-Permutation_middle in NDs. by apply NoDup_cons in NDs as [_ ?].
      + rewrite E'. eapply ring_frame; [| |exact Hring']; intros x Hx.
        * apply lookup_partial_alter_ne. intros <-. done.
        * apply lookup_partial_alter_ne. intros <-. done.
      + intros x Hx Hx'. rewrite E in Hx. rewrite E' in Hx'. split.
        * rewrite (lookup_partial_alter_ne _ _ (inr e)) by (intros <-; set_solver). apply lookup_insert_ne. intros <-. set_solver.
        * rewrite (lookup_partial_alter_ne _ _ (inr e)) by (intros <-; set_solver). apply lookup_insert_ne. intros <-. set_solver.
      + intros e'. destruct (decide (e' = e)) as [->|Hne].
        * rewrite decide_False by done. rewrite decide_True by set_solver. apply (lookup_partial_alter (λ _, None) (lown m)).
        * rewrite lookup_partial_alter_ne by done. destruct (decide (e' ∈ s1 ++ s2)) as [He|He].
          -- apply (R_own _ _ HR). left. eexists. split; [done|]. set_solver.
          -- rewrite decide_False; [done|]. set_solver.
      + intros e' He. left. set_solver.
      + intros e' He. assert (lown m !! e' = Some l) as Ho; [|by apply (R_bnd _ _ HR) in Ho].
        apply (R_own _ _ HR). left. eexists. split; [done|]. set_solver.
  Qed.

  Lemma move_ok m H l s1 e s2 P p Q s' : lR m H → sq H !! l = Some (s1 ++ e :: s2) →
    rs l (s1 ++ s2) = P ++ p :: Q → rs l s' = P ++ p :: inr e :: Q →
    ∃ m', lmove e (Some p) m = (Ret tt, m') ∧ lR m' (set_seq H l s').
  Proof.
    intros HR Hl EP EP'. assert (sini H !! l = Some true) as Hi by (eapply (ini_of _ _ _ _ e); [done|done|set_solver]).
    pose proof (R_nd _ _ HR _ _ Hl) as NDs. pose proof NDs as ND. apply (rs_nodup l) in ND.
    pose proof (R_ring _ _ HR _ _ Hl Hi) as Hring.
    destruct (rs_last l s1) as (P1 & p1 & E1).
    assert (rs l (s1 ++ e :: s2) = P1 ++ p1 :: inr e :: (inr <$> s2)) as E.
    { rewrite rs_app, E1, <-(assoc_L (++)). done. }
    assert (rs l (s1 ++ s2) = P1 ++ p1 :: (inr <$> s2)) as E'.
    { rewrite rs_app, E1, <-(assoc_L (++)). done. }
    rewrite E in ND, Hring. destruct (ring_unlink_mid _ _ _ _ _ _ ND Hring) as (Hpv & Hnx & Hring').
    set (Q1 := inr <$> s2) in *. set (q1 := default p1 (head (Q1 ++ P1))) in *.
    assert (q1 ∈ P1 ++ p1 :: Q1) as Hq1.
    { subst q1. clearbody Q1. destruct Q1 as [|? ?]; simpl; [destruct P1; simpl; set_solver|set_solver]. }
    assert (inr e ∉ P1 ++ p1 :: Q1) as Hnotin.
    { rewrite mid_perm in ND. by apply NoDup_cons in ND as [ND _]. }
    assert (p1 ≠ inr e) by (intros ->; apply Hnotin; set_solver).
    assert (q1 ≠ inr e) by (intros E2; rewrite E2 in Hq1; done).
    assert (NoDup (s1 ++ s2)) as ND2 by (rewrite <-Permutation_middle in NDs; by apply NoDup_cons in NDs as [_ ?]).
    apply (rs_nodup l) in ND2.
    rewrite <-E' in Hring', Hq1, Hnotin. rewrite EP in Hring', Hq1, Hnotin, ND2.
    destruct (ring_link_mid _ _ _ _ _ (inr e) ND2 Hnotin Hring') as [Hnx2 Hring2].
    set (q := default p (head (Q ++ P))) in *.
    assert (q ∈ P ++ p :: Q) as Hq.
    { subst q. destruct Q as [|? ?]; simpl; [destruct P; simpl; set_solver|set_solver]. }
    assert (p ≠ inr e) by (intros ->; apply Hnotin; set_solver).
    assert (rs l s' ≡ₚ inr e :: rs l (s1 ++ s2)) as HP.
    { rewrite EP, EP'. apply mid_perm. }
    assert (∀ e', e' ∈ s' ↔ e' ∈ s1 ++ e :: s2) as Hel.
    { intros e'. transitivity (inr e' ∈ rs l s'); [rewrite rs_elem; naive_solver|].
      rewrite HP, elem_of_cons, rs_elem. set_solver. }
    eexists. split.
    - unfold lmove. rewrite decide_False by congruence.
      eapply eq_trans; [eapply gst_bind_Ret, unlink_eff; [exact Hpv|exact Hnx|done|done]|]. simpl.
      apply link_eff; simpl; [exact Hnx2|done].
    - unfold set_seq. simpl. eapply (lR_change m H l (s1 ++ e :: s2) s'); simpl; try done.
      + by rewrite (R_vals _ _ HR).
      + rewrite list_insert_id; [done|]. rewrite (R_len _ _ HR _ _ Hl). do 2 f_equal.
        apply Permutation_length in HP. unfold rs in HP. simpl in HP. rewrite !fmap_length in HP. rewrite app_length in *. simpl. lia.
      + apply (rs_nodup l). rewrite HP. apply NoDup_cons. rewrite EP. done.
      + rewrite EP'. exact Hring2.
      + intros x Hx Hx'. rewrite E in Hx. rewrite EP' in Hx'.
        assert (x ≠ p1 ∧ x ≠ p ∧ x ≠ inr e) as (? & ? & ?) by set_solver.
        rewrite !lookup_insert_ne; [done|try congruence..].
        * intros <-. rewrite <-EP, E' in Hq1. set_solver.
        * intros <-. set_solver.
      + intros e'. destruct (decide (e' ∈ s')) as [He|He].
        * apply (R_own _ _ HR). left. eexists. split; [done|]. by apply Hel.
        * rewrite decide_False; [done|]. by rewrite <-Hel.
      + intros e' He%Hel. by left.
      + intros e' He%Hel. assert (lown m !! e' = Some l) as Ho; [|by apply (R_bnd _ _ HR) in Ho].
        apply (R_own _ _ HR). eauto.
  Qed.
End Proofs.
