(** * Histories of list calls *)
From stdpp Require Import gmap.
From Verif Require Import GoBase GoState ListModel ListSpec ListRing ListProofs ListSteps.

Section Refine.
  Context {T : Type}.
  Implicit Types (m : lmem T) (H : lspec T) (s : list nat).
  Local Arguments ring : simpl never.
  Local Arguments rs : simpl never.

  Lemma not_in_stale m H o s e l2 : lR m H → sq H !! o = Some s → e ∈ s → (l2, e) ∉ sstale H.
  Proof.
    intros HR Ho He Hst. pose proof (own_in _ _ _ _ _ HR Ho He). assert (lown m !! e = Some l2) by (apply (R_own _ _ HR); by right).
    assert (l2 = o) as -> by congruence. by eapply (R_dis _ _ HR).
  Qed.

  Lemma lnew_ok m H b : lR m H →
    lR (LMem (if b : bool then <[inl (length (sq H)) := inl (length (sq H))]> (lnx m) else lnx m)
             (if b then <[inl (length (sq H)) := inl (length (sq H))]> (lpv m) else lpv m)
             (lown m) (lvals m) (llens m ++ [0%Z]))
       (LSpec (sq H ++ [[]]) (sini H ++ [b]) (svals H) (sstale H)).
  Proof.
    intros HR. pose proof (R_n1 _ _ HR) as Hn1. pose proof (R_n2 _ _ HR) as Hn2.
    assert (∀ l s, (sq H ++ [[]]) !! l = Some s → (l < length (sq H) ∧ sq H !! l = Some s) ∨ (l = length (sq H) ∧ s = [])) as Hlk.
    { intros l s [?|[? E]]%lookup_app_Some; [left; split; [by eapply lookup_lt_Some|done]|]. apply list_lookup_singleton_Some in E as [? <-]. right. split; [lia|done]. }
    assert (∀ l s x, l < length (sq H) → x ∈ rs l s → x ≠ inl (length (sq H))) as Hne.
    { intros l s x Hl [->|(?&->&?)]%rs_elem; [|done]. intros [= ->]. lia. }
    split; simpl.
    - apply HR.
    - rewrite !app_length. simpl. lia.
    - rewrite !app_length. simpl. lia.
    - intros l s [[? Hl]|[-> ->]]%Hlk; [rewrite lookup_app_l by lia; by apply HR|].
      rewrite lookup_app_r by lia. by rewrite Hn1, Nat.sub_diag.
    - intros l s [[? Hl]|[-> ->]]%Hlk; [by eapply HR|constructor].
    - intros l s [[? Hl]|[-> ->]]%Hlk Hi.
      + rewrite lookup_app_l in Hi by lia. eapply ring_frame; [| |by apply (R_ring _ _ HR)]; intros x Hx; destruct b; try done;
          apply lookup_insert_ne; apply not_eq_sym; by eapply Hne.
      + rewrite lookup_app_r in Hi by lia. rewrite Hn2, Nat.sub_diag in Hi. injection Hi as ->.
        unfold ring, rs. simpl. by rewrite !lookup_insert.
    - intros l Hi. apply lookup_app_Some in Hi as [Hi|[Hl Hi]].
      + destruct (R_zero _ _ HR _ Hi) as (Hs & E1 & E2). assert (l < length (sq H)) by (by eapply lookup_lt_Some).
        rewrite lookup_app_l by done. destruct b; [|done]. rewrite !lookup_insert_ne by (intros [= ?]; lia). done.
      + apply list_lookup_singleton_Some in Hi as [? ->]. assert (l = length (sq H)) as -> by lia.
        rewrite lookup_app_r, Nat.sub_diag by lia. split; [done|]. apply (R_fr _ _ HR). lia.
    - intros e l. rewrite (R_own _ _ HR). split.
      + intros [(s & Hl & He)|?]; [|by right]. left. exists s. split; [|done]. by apply lookup_app_l_Some.
      + intros [(s & Hl & He)|?]; [|by right]. apply Hlk in Hl as [[? Hl]|[-> ->]]; [left; eauto|set_solver].
    - apply HR.
    - intros l e s Hst [[? Hl]|[-> ->]]%Hlk; [by eapply HR|set_solver].
    - intros l. rewrite app_length. simpl. intros Hl. destruct (R_fr _ _ HR l) as [? ?]; [lia|].
      destruct b; [|done]. rewrite !lookup_insert_ne by (intros [= ?]; lia). done.
  Qed.

  Lemma clear_ok m H l : lR m H → l < length (sq H) →
    lR (LMem (<[inl l := inl l]> (lnx m)) (<[inl l := inl l]> (lpv m)) (lown m) (lvals m) (<[l:=0%Z]> (llens m)))
       (LSpec (<[l:=[]]> (sq H)) (<[l:=true]> (sini H)) (svals H) ((pair l <$> seq_of H l) ++ sstale H)).
  Proof.
    intros HR Hlt. pose proof (seq_of_lt _ _ Hlt) as Hl. pose proof (R_n1 _ _ HR) as Hn1. pose proof (R_n2 _ _ HR) as Hn2.
    assert (∀ l2 s, <[l:=[]]> (sq H) !! l2 = Some s → (l2 = l ∧ s = []) ∨ (l2 ≠ l ∧ sq H !! l2 = Some s)) as Hlk.
    { intros l2 s Hs. destruct (decide (l2 = l)) as [->|?].
      - rewrite list_lookup_insert in Hs by done. injection Hs as <-. by left.
      - rewrite list_lookup_insert_ne in Hs by done. by right. }
    assert (∀ l2 s x, l2 ≠ l → x ∈ rs l2 s → x ≠ inl l) as Hne.
    { intros l2 s x ? [->|(?&->&?)]%rs_elem; congruence. }
    split; simpl.
    - apply HR.
    - by rewrite !insert_length.
    - by rewrite !insert_length.
    - intros l2 s [[-> ->]|[? ?]]%Hlk; [by rewrite list_lookup_insert by lia|]. rewrite list_lookup_insert_ne by done. by apply HR.
    - intros l2 s [[-> ->]|[? ?]]%Hlk; [constructor|by eapply HR].
    - intros l2 s [[-> ->]|[? ?]]%Hlk Hi.
      + unfold ring, rs. simpl. by rewrite !lookup_insert.
      + rewrite list_lookup_insert_ne in Hi by done.
        eapply ring_frame; [| |by apply (R_ring _ _ HR)]; intros x Hx; apply lookup_insert_ne; apply not_eq_sym; by eapply Hne.
    - intros l2 Hi. destruct (decide (l2 = l)) as [->|?]; [by rewrite list_lookup_insert in Hi by lia|].
      rewrite list_lookup_insert_ne in Hi by done. rewrite list_lookup_insert_ne by done. rewrite !lookup_insert_ne by congruence. by apply (R_zero _ _ HR).
    - intros e l2. rewrite (R_own _ _ HR), elem_of_app, elem_of_list_fmap. split.
      + intros [(s & Hs & He)|?]; [|by right; right]. destruct (decide (l2 = l)) as [->|?].
        * right. left. exists e. rewrite Hl in Hs. injection Hs as ->. done.
        * left. exists s. by rewrite list_lookup_insert_ne.
      + intros [(s & Hs & He)|[(e' & [= -> ->] & He)|?]]; [|left; eauto|by right].
        apply Hlk in Hs as [[-> ->]|[? ?]]; [set_solver|left; eauto].
    - apply HR.
    - intros l2 e s Hst [[-> ->]|[? Hs]]%Hlk; [set_solver|]. apply elem_of_app in Hst as [(e' & [= -> ->] & He)%elem_of_list_fmap|Hst]; [done|].
      by eapply HR.
    - intros l2. rewrite insert_length. intros Hl2. rewrite !lookup_insert_ne by (intros [= ?]; lia). by apply (R_fr _ _ HR).
  Qed.

  Lemma omap_reverse {A B} (f : A → option B) (s : list A) : omap f (reverse s) = reverse (omap f s).
  Proof.
    induction s as [|y s IH]; [done|]. rewrite reverse_cons, omap_app, IH. simpl.
    destruct (f y); simpl; [symmetry; apply reverse_cons|by rewrite app_nil_r].
  Qed.
  Lemma val_out_eq m H e : lR m H → e < fresh H → ∃ v, svals H !! e = Some v ∧ get_val e m = (Ret v, m).
  Proof.
    intros HR He. destruct (lookup_lt_is_Some_2 (svals H) e He) as [v Hv]. exists v. split; [done|].
    unfold get_val, glift. by rewrite (R_vals _ _ HR), Hv.
  Qed.

  Definition call_ok H (o : lop T) : Prop := exists_ok H o ∧ not_stale H o ∧ not_zero H o.

  Ltac gred := cbv [mbind gst_bind gread gwrite gret glift gpanic lderef get_next get_prev get_own get_len get_val llen]; simpl.

  Lemma lstep_ok m H o : lR m H → call_ok H o →
    ∃ m', lstep m o = ((lspec_step H o).1, m') ∧ lR m' (lspec_step H o).2.
  Proof.
    intros HR (Hex & Hns & Hnz). destruct o as [| |l|l v|l v|l v x|l v x|l e|l|l|l e|l e|l e x|l e x|l o|l o|l|l|e|e|l|l|e|e v];
      simpl in Hex, Hns, Hnz.
    - (* New *) eexists. unfold lstep, lnew, lzero, lclear. gred. split; [by rewrite (R_n1 _ _ HR)|].
      pose proof (lnew_ok m H true HR) as HR'. simpl in HR'.
      rewrite insert_app_r_alt, (R_n1 _ _ HR), Nat.sub_diag by (rewrite (R_n1 _ _ HR); lia). exact HR'.
    - (* Zero *) eexists. unfold lstep, lzero. gred. split; [by rewrite (R_n1 _ _ HR)|].
      apply (lnew_ok m H false HR).
    - (* Clear *) eexists. unfold lstep, lclear. gred. split; [done|]. by apply clear_ok.
    - (* PushFront *) destruct (push_front_ok m H l v HR Hex Hnz) as (m' & E & HR'). exists m'. unfold lstep. by rewrite E.
    - (* PushBack *) destruct (push_back_ok m H l v HR Hex Hnz) as (m' & E & HR'). exists m'. unfold lstep. by rewrite E.
    - (* InsertBefore *) destruct Hex as [Hl He]. pose proof (seq_of_lt _ _ Hl) as Hs.
      unfold lstep, linsert_before. simpl. gred. destruct (decide (x ∈ seq_of H l)) as [Hx|Hx].
      + rewrite decide_True by (by eapply own_iff).
        assert (sini H !! l = Some true) as Hi by (by eapply ini_of). pose proof (R_nd _ _ HR _ _ Hs) as ND.
        apply elem_of_list_split in Hx as (a & b & E). rewrite E in *.
        destruct (rs_prev_of l a x b) as (P & p & E1 & E2 & _).
        destruct (nb_mid m H l _ P p (inr x) (inr <$> b) HR Hs Hi E1) as [_ ->].
        destruct (insert_ok m H l _ P p (inr x :: (inr <$> b)) v (a ++ fresh H :: x :: b) HR Hs Hi E1 (E2 _)) as (m' & Em & HR').
        rewrite Em. exists m'. rewrite ins_before_split by (by destruct (nodup_notin _ _ _ ND)). done.
      + rewrite decide_False by (rewrite own_iff; [done..|]; done). exists m. done.
    - (* InsertAfter *) destruct Hex as [Hl He]. pose proof (seq_of_lt _ _ Hl) as Hs.
      unfold lstep, linsert_after. simpl. gred. destruct (decide (x ∈ seq_of H l)) as [Hx|Hx].
      + rewrite decide_True by (by eapply own_iff).
        assert (sini H !! l = Some true) as Hi by (by eapply ini_of). pose proof (R_nd _ _ HR _ _ Hs) as ND.
        apply elem_of_list_split in Hx as (a & b & E). rewrite E in *.
        destruct (insert_ok m H l _ (rs l a) (inr x) (inr <$> b) v (a ++ x :: fresh H :: b) HR Hs Hi) as (m' & Em & HR');
          [by rewrite rs_app..|].
        rewrite Em. exists m'. rewrite ins_after_split by (by destruct (nodup_notin _ _ _ ND)). done.
      + rewrite decide_False by (rewrite own_iff; [done..|]; done). exists m. done.
    - (* Remove *) destruct Hex as [Hl He]. destruct (remove_step m H l e HR Hl He Hns) as (v & m' & Hv & E & HR').
      exists m'. unfold lstep. rewrite E. simpl. unfold val_out. by rewrite Hv.
    - (* RemoveFront *) pose proof (seq_of_lt _ _ Hex) as Hs. unfold lstep, lremove_front. simpl.
      unfold mbind, gst_bind. rewrite (front_eff _ _ _ HR Hex).
      destruct (seq_of H l) as [|e s] eqn:E; simpl; [by exists m|].
      assert (e < fresh H) as He by (eapply (R_bnd _ _ HR), own_in; [done|done|left]).
      destruct (remove_step m H l e HR Hex He) as (v & m' & Hv & Em & HR').
      { eapply not_in_stale; [done|done|left]. }
      rewrite Em. exists m'. simpl. unfold val_out. rewrite Hv. split; [done|].
      rewrite E in HR'. pose proof (rem_split [] e s (R_nd _ _ HR _ _ Hs)) as Er. simpl app in Er. by rewrite Er in HR'.
    - (* RemoveBack *) pose proof (seq_of_lt _ _ Hex) as Hs. unfold lstep, lremove_back. simpl.
      unfold mbind, gst_bind. rewrite (back_eff _ _ _ HR Hex).
      destruct (last (seq_of H l)) as [e|] eqn:E; simpl; [|by exists m].
      apply last_app_single in E as [a E].
      assert (e ∈ seq_of H l) as Hin by (rewrite E; set_solver).
      assert (e < fresh H) as He by (eapply (R_bnd _ _ HR), own_in; [done|done|done]).
      destruct (remove_step m H l e HR Hex He) as (v & m' & Hv & Em & HR').
      { by eapply not_in_stale. }
      rewrite Em. exists m'. simpl. unfold val_out. by rewrite Hv.
    - (* MoveToFront *) destruct Hex as [Hl He]. pose proof (seq_of_lt _ _ Hl) as Hs.
      unfold lstep, lmove_front. simpl. gred. destruct (decide (e ∈ seq_of H l)) as [Hx|Hx].
      + assert (sini H !! l = Some true) as Hi by (by eapply ini_of). pose proof (R_nd _ _ HR _ _ Hs) as ND.
        pose proof (proj2 (own_iff _ _ _ _ e HR Hs Hns) Hx) as Ho.
        apply elem_of_list_split in Hx as (a & b & E). rewrite E in *. rewrite rem_split by done.
        destruct a as [|y a].
        * destruct (nb_mid m H l _ [] (inl l) (inr e) (inr <$> b) HR Hs Hi) as [-> _]; [done|].
          rewrite decide_False by tauto. exists m. simpl. by rewrite set_seq_id.
        * destruct (nb_mid m H l _ [] (inl l) (inr y) (inr <$> (a ++ e :: b)) HR Hs Hi) as [-> _]; [done|].
          rewrite decide_True.
          2:{ split; [done|]. intros [= ->]. apply NoDup_cons in ND as [ND _]. set_solver. }
          destruct (move_ok m H l (y :: a) e b [] (inl l) (inr <$> ((y :: a) ++ b)) (e :: (y :: a) ++ b) HR Hs) as (m' & Em & HR'); [done..|].
          rewrite Em. exists m'. done.
      + rewrite decide_False; [by exists m|]. intros [Ho _]. by rewrite own_iff in Ho.
    - (* MoveToBack *) destruct Hex as [Hl He]. pose proof (seq_of_lt _ _ Hl) as Hs.
      unfold lstep, lmove_back. simpl. gred. destruct (decide (e ∈ seq_of H l)) as [Hx|Hx].
      + assert (sini H !! l = Some true) as Hi by (by eapply ini_of). pose proof (R_nd _ _ HR _ _ Hs) as ND.
        pose proof (proj2 (own_iff _ _ _ _ e HR Hs Hns) Hx) as Ho.
        apply elem_of_list_split in Hx as (a & b & E). rewrite E in *. rewrite rem_split by done.
        destruct b as [|y b _] using rev_ind.
        * destruct (nb_end m H l _ (rs l a) (inr e) HR Hs Hi) as [_ ->]; [by rewrite rs_app|].
          rewrite decide_False by tauto. exists m. simpl. rewrite app_nil_r. by rewrite set_seq_id.
        * destruct (nb_end m H l _ (rs l (a ++ e :: b)) (inr y) HR Hs Hi) as [_ ->].
          { change (e :: b ++ [y]) with ((e :: b) ++ [y]). by rewrite (assoc_L (++)), (rs_app l (a ++ e :: b)). }
          rewrite decide_True.
          2:{ split; [done|]. intros [= ->]. apply nodup_notin in ND as [_ ND]. set_solver. }
          destruct (move_ok m H l a e (b ++ [y]) (rs l (a ++ b)) (inr y) [] ((a ++ b ++ [y]) ++ [e]) HR Hs) as (m' & Em & HR').
          { by rewrite (assoc_L (++)), rs_app. } { by rewrite !(assoc_L (++)), !rs_app, <-(assoc_L (++)). }
          rewrite Em. exists m'. done.
      + rewrite decide_False; [by exists m|]. intros [Ho _]. by rewrite own_iff in Ho.
    - (* MoveBefore *) destruct Hex as (Hl & He & Hx), Hns as [Hns Hnx]. pose proof (seq_of_lt _ _ Hl) as Hs.
      unfold lstep, lmove_before. simpl. gred.
      destruct (decide (e ∈ seq_of H l ∧ x ∈ seq_of H l ∧ e ≠ x)) as [(Hin & Hxin & Hne)|Hno].
      + rewrite decide_True.
        2:{ split_and!; [by eapply own_iff|done|by eapply own_iff]. }
        assert (sini H !! l = Some true) as Hi by (by eapply ini_of). pose proof (R_nd _ _ HR _ _ Hs) as ND.
        apply elem_of_list_split in Hin as (a & b & E). rewrite E in *. rewrite rem_split by done.
        assert (x ∈ a ++ b) as Hxab by set_solver.
        destruct (move_before_split a e b x ND Hxab) as (c & d & Ecd & Hxc).
        rewrite Ecd, ins_before_split by done.
        destruct (rs_prev_of l c x d) as (P & p & E1 & E2 & E3).
        (* the pointer before x in the full list: p, unless e precedes x *)
        destruct (decide (lpv m !! inr x = Some (inr e))) as [Hpe|Hpe].
        * rewrite Hpe. unfold lmove. rewrite decide_True by done. exists m. split; [done|]. simpl.
          (* e was right before x *)
          assert (∃ d', b = x :: d') as [d' ->].
          { pose proof Hxab as Hxin'. apply elem_of_app in Hxab as [Ha|Hb].
            - exfalso. apply elem_of_list_split in Ha as (a1 & a2 & Ea). subst a.
              destruct (rs_prev_of l a1 x (a2 ++ e :: b)) as (P' & p' & E1' & _ & E3').
              destruct (nb_mid m H l _ P' p' (inr x) (inr <$> (a2 ++ e :: b)) HR Hs Hi) as [_ Hp'].
              { by rewrite <-(assoc_L (++)). }
              rewrite Hpe in Hp'. injection Hp' as <-.
              assert (inr e ∈ rs l a1) as He1 by (rewrite E3'; set_solver). apply rs_elem in He1 as [?|(? & [= <-] & He1)]; [done|].
              apply nodup_notin in ND as [ND _]. set_solver.
            - apply elem_of_list_split in Hb as (b1 & b2 & ->). destruct b1 as [|z b1 _] using rev_ind; [eauto|]. exfalso.
              destruct (nb_mid m H l _ (rs l (a ++ e :: b1)) (inr z) (inr x) (inr <$> b2) HR Hs Hi) as [_ Hp'].
              { transitivity (rs l ((a ++ e :: b1) ++ z :: x :: b2)); [f_equal|by rewrite rs_app].
                rewrite <-!(assoc_L (++)). done. }
              rewrite Hpe in Hp'. injection Hp' as <-. apply nodup_notin in ND as [_ ND]. set_solver. }
          assert (c = a ∧ d = d') as [-> ->].
          { assert (x ∉ a) as Hxa.
            { intros Hxa. apply elem_of_list_split in Hxa as (a1 & a2 & ->).
              rewrite <-(assoc_L (++)) in ND. simpl in ND. apply nodup_notin in ND as [_ ND]. set_solver. }
            clear -Ecd Hxa Hxc. revert c Ecd Hxc. induction a as [|a0 a IH]; intros c Ecd Hxc.
            - destruct c as [|c0 c]; [by injection Ecd|]. injection Ecd as ? ?. set_solver.
            - destruct c as [|c0 c]; [injection Ecd as ? ?; set_solver|]. injection Ecd as -> Ecd.
              destruct (IH ltac:(set_solver) c Ecd ltac:(set_solver)) as [-> ->]. done. }
          by rewrite set_seq_id.
        * assert (lpv m !! inr x = Some p) as Hp.
          { assert (∃ c', x ∉ c' ∧ ((a ++ e :: b = c' ++ x :: d ∧ ∃ a2, c = c' ∧ b = b ∧ a2 = c) ∨ True)) as _ by (exists []; split; [set_solver|by right]).
            (* locate x in a ++ e :: b *)
            apply elem_of_app in Hxab as [Ha|Hb].
            - apply elem_of_list_split in Ha as (a1 & a2 & ->).
              assert (c = a1) as ->.
              { assert (x ∉ a1) as Hxa1. { rewrite <-(assoc_L (++)) in ND. by destruct (nodup_notin _ _ _ ND). }
                rewrite <-(assoc_L (++)) in Ecd. simpl in Ecd. clear -Ecd Hxa1 Hxc.
                revert c Ecd Hxc. induction a1 as [|a0 a IH]; intros c Ecd Hxc.
                - destruct c as [|c0 c]; [done|]. injection Ecd as ? ?. set_solver.
                - destruct c as [|c0 c]; [injection Ecd as ? ?; set_solver|]. injection Ecd as -> Ecd.
                  f_equal. apply (IH ltac:(set_solver) c Ecd). set_solver. }
              destruct (nb_mid m H l _ P p (inr x) (inr <$> (a2 ++ e :: b)) HR Hs Hi) as [_ ?]; [|done].
              rewrite <-(assoc_L (++)), rs_app, E3, <-(assoc_L (++)). done.
            - apply elem_of_list_split in Hb as (b1 & b2 & ->).
              destruct b1 as [|z b1 _] using rev_ind.
              { exfalso. apply Hpe. destruct (nb_mid m H l _ (rs l a) (inr e) (inr x) (inr <$> b2) HR Hs Hi) as [_ ?]; [|done].
                by rewrite rs_app. }
              assert (c = a ++ b1 ++ [z]) as ->.
              { assert (x ∉ a ++ b1 ++ [z]) as Hxa1.
                { rewrite <-Permutation_middle in ND. apply NoDup_cons in ND as [_ ND].
                  rewrite (assoc_L (++)) in ND. by destruct (nodup_notin _ _ _ ND). }
                rewrite (assoc_L (++)) in Ecd. remember (a ++ b1 ++ [z]) as a1. clear -Ecd Hxa1 Hxc.
                revert c Ecd Hxc. induction a1 as [|a0 a IH]; intros c Ecd Hxc.
                - destruct c as [|c0 c]; [done|]. injection Ecd as ? ?. set_solver.
                - destruct c as [|c0 c]; [injection Ecd as ? ?; set_solver|]. injection Ecd as -> Ecd.
                  f_equal. apply (IH ltac:(set_solver) c Ecd). set_solver. }
              rewrite !(assoc_L (++)), (rs_app l (a ++ b1)) in E3. apply app_inj_2 in E3 as [E3 [= <-]]; [|done].
              destruct (nb_mid m H l _ (rs l (a ++ e :: b1)) (inr z) (inr x) (inr <$> b2) HR Hs Hi) as [_ ?]; [|done].
              transitivity (rs l ((a ++ e :: b1) ++ z :: x :: b2)); [f_equal|by rewrite rs_app].
                rewrite <-!(assoc_L (++)). done. }
          rewrite Hp. destruct (move_ok m H l a e b P p (inr x :: (inr <$> d)) (c ++ e :: x :: d) HR Hs) as (m' & Em & HR').
          { by rewrite Ecd. } { apply E2. }
          rewrite Em. exists m'. done.
      + rewrite decide_False; [by exists m|]. intros (Ho & Hne & Hox). apply Hno. rewrite own_iff in Ho, Hox by done. done.
    - (* MoveAfter *) destruct Hex as (Hl & He & Hx), Hns as [Hns Hnx]. pose proof (seq_of_lt _ _ Hl) as Hs.
      unfold lstep, lmove_after. simpl. gred.
      destruct (decide (e ∈ seq_of H l ∧ x ∈ seq_of H l ∧ e ≠ x)) as [(Hin & Hxin & Hne)|Hno].
      + rewrite decide_True.
        2:{ split_and!; [by eapply own_iff|done|by eapply own_iff]. }
        pose proof (R_nd _ _ HR _ _ Hs) as ND.
        apply elem_of_list_split in Hin as (a & b & E). rewrite E in *. rewrite rem_split by done.
        assert (x ∈ a ++ b) as Hxab by set_solver.
        destruct (move_before_split a e b x ND Hxab) as (c & d & Ecd & Hxc).
        rewrite Ecd, ins_after_split by done.
        destruct (move_ok m H l a e b (rs l c) (inr x) (inr <$> d) (c ++ x :: e :: d) HR Hs) as (m' & Em & HR').
        { by rewrite Ecd, rs_app. } { by rewrite rs_app. }
        rewrite Em. exists m'. done.
      + rewrite decide_False; [by exists m|]. intros (Ho & Hne & Hox). apply Hno. rewrite own_iff in Ho, Hox by done. done.
    - (* PushBackList *) destruct Hex as [Hl Ho]. pose proof (seq_of_lt _ _ Ho) as Hs.
      unfold lstep, lpush_back_list. simpl.
      destruct (back_loop_ok o l (seq_of H o) m H [] [] (inr <$> head (seq_of H o)) HR Hl Hnz) as (m' & Em & HR').
      { by rewrite app_nil_r. } { done. } { intros. by eapply not_in_stale. }
      exists m'. split; [|done].
      match goal with |- lfin _ (?mm m) = _ => assert (mm m = (Ret tt, m')) as -> end; [|done].
      eapply eq_trans; [eapply gst_bind_Ret; unfold get_len, glift; by rewrite (R_len _ _ HR _ _ Hs)|].
      eapply eq_trans; [eapply gst_bind_Ret, front_eff; done|]. rewrite Nat2Z.id. exact Em.
    - (* PushFrontList *) destruct Hex as [Hl Ho]. pose proof (seq_of_lt _ _ Ho) as Hs.
      unfold lstep, lpush_front_list. simpl.
      destruct (front_loop_ok o l (reverse (seq_of H o)) m H [] [] (inr <$> head (reverse (seq_of H o))) HR Hl) as (m' & Em & HR').
      { destruct Hnz as [?| ->]; [by left|by right]. }
      { by rewrite reverse_involutive, app_nil_r. } { done. } { intros l2 e' He'. rewrite elem_of_reverse in He'. exact (not_in_stale _ _ _ _ _ _ HR Hs He'). }
      assert (vals_of H (reverse (seq_of H o)) = reverse (vals_of H (seq_of H o))) as Ev.
      { apply omap_reverse. }
      rewrite Ev in HR'. exists m'. split; [|done].
      match goal with |- lfin _ (?mm m) = _ => assert (mm m = (Ret tt, m')) as -> end; [|done].
      eapply eq_trans; [eapply gst_bind_Ret; unfold get_len, glift; by rewrite (R_len _ _ HR _ _ Hs)|].
      eapply eq_trans; [eapply gst_bind_Ret, back_eff; done|]. rewrite Nat2Z.id, <-head_reverse, <-reverse_length. exact Em.
    - exists m. unfold lstep. by rewrite (front_eff _ _ _ HR Hex).
    - exists m. unfold lstep. by rewrite (back_eff _ _ _ HR Hex).
    - exists m. unfold lstep. by rewrite (next_eff _ _ _ HR Hns).
    - exists m. unfold lstep. by rewrite (prev_eff _ _ _ HR Hns).
    - exists m. unfold lstep. simpl. gred. by rewrite (R_len _ _ HR _ _ (seq_of_lt _ _ Hex)).
    - exists m. unfold lstep, lempty. simpl. gred. rewrite (R_len _ _ HR _ _ (seq_of_lt _ _ Hex)). simpl. split; [|done].
      do 2 f_equal. apply bool_decide_ext. destruct (seq_of H l); simpl; split; intros; by try lia.
    - exists m. unfold lstep. destruct (val_out_eq m H e HR Hex) as (v & Hv & E). rewrite E. simpl. unfold val_out. by rewrite Hv.
    - eexists. unfold lstep, set_val. gred. split; [done|].
      destruct HR. split; simpl; try done; rewrite ?insert_length; try done. congruence.
  Qed.

  Lemma lrun_ok ops : ∀ m H, lR m H → all_calls call_ok H ops →
    (lrun m ops).1 = (lspec_run H ops).1 ∧ lR (lrun m ops).2 (lspec_run H ops).2.
  Proof.
    induction ops as [|o ops IH]; intros m H HR Hok; [done|]. destruct Hok as [H1 H2].
    destruct (lstep_ok m H o HR H1) as (m1 & E & HR1). simpl. rewrite E.
    destruct (lspec_step H o) as [r H'] eqn:Es. simpl in *. destruct (IH m1 H' HR1 H2) as [E1 E2].
    destruct (lrun m1 ops), (lspec_run H' ops). simpl in *. by rewrite E1.
  Qed.

  Lemma lR0 : lR (T := T) lmem0 lspec0.
  Proof.
    split; simpl; try done.
    intros e l. rewrite lookup_empty. split; [done|]. intros [(s & ? & _)|?]; [done|set_solver].
  Qed.

  Theorem list_refines ops : all_calls call_ok lspec0 ops → (lrun lmem0 ops).1 = (lspec_run (T := T) lspec0 ops).1.
  Proof. intros Hok. by apply (lrun_ok ops _ _ lR0). Qed.

  (** Without Clear and zero values only existence of the handles matters. *)
  Lemma plain_ok ops : ∀ H, Forall no_clear_no_zero ops → all_calls exists_ok H ops →
    length (sini H) = length (sq H) → (∀ l, sini H !! l ≠ Some false) → sstale H = [] → all_calls (T := T) call_ok H ops.
  Proof.
    induction ops as [|o ops IH]; intros H Hn Hex Hlen Hini Hst; [done|].
    apply Forall_cons in Hn as [Hn1 Hn]. destruct Hex as [He Hex].
    assert (∀ l, l < length (sq H) → sini H !! l = Some true) as Hi.
    { intros l Hl. destruct (lookup_lt_is_Some_2 (sini H) l) as [b Hb]; [lia|]. destruct b; [done|]. by destruct (Hini l). }
    split.
    - split_and!; [done| |].
      + destruct o; simpl; rewrite ?Hst; set_solver.
      + destruct o; simpl in *; auto; left; apply Hi; tauto.
    - assert (length (sini (lspec_step H o).2) = length (sq (lspec_step H o).2) ∧
              (∀ l, sini (lspec_step H o).2 !! l ≠ Some false) ∧ sstale (lspec_step H o).2 = []) as (? & ? & ?); [|by apply IH].
      destruct o; simpl in *; repeat case_decide; simpl; rewrite ?insert_length; try done;
        try (destruct (head (seq_of H l)); simpl; rewrite ?insert_length; done);
        try (destruct (last (seq_of H l)); simpl; rewrite ?insert_length; done).
      rewrite !app_length. split_and!; [simpl; lia| |done]. intros l Hl. apply lookup_app_Some in Hl as [?|[_ Hl]]; [by eapply Hini|].
      by apply list_lookup_singleton_Some in Hl as [_ ?].
  Qed.

  Theorem list_refines_plain ops : Forall no_clear_no_zero ops → all_calls exists_ok lspec0 ops →
    (lrun lmem0 ops).1 = (lspec_run (T := T) lspec0 ops).1.
  Proof. intros Hn Hex. apply list_refines. by apply plain_ok. Qed.
End Refine.
