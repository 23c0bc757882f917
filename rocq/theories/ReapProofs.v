(** * Reap: proofs *)
From Verif Require Import GoBase HeapModel HeapSpec HeapProofs HeapMethods SiftSim ReapModel ReapSpec.

Section Proofs.
  Context {T : Type} (lf : T → T → bool).
  Implicit Types (s : rst T) (h : list (nat * T)) (H : hspec T).

  (** The order on (handle, value) pairs. *)
  Definition plf (a b : nat * T) : bool := lf a.2 b.2.
  Lemma plf_sw : strict_weak lf → strict_weak plf.
  Proof. intros SW. split; unfold plf; intros; [by apply (sw_asym _ SW)|by eapply (sw_trans _ SW)]. Qed.

  (** [s] stores the heap [h] of (handle, value) pairs; entries whose handle
      is not in [h] are the ones of the reference memory [E0], and all entries keep
      their E0 value. *)
  Definition rR (E0 : ents T) s h : Prop :=
    rh s = h.*1 ∧ length (re s) = length E0 ∧ NoDup (h.*1) ∧
    (∀ i e v, h !! i = Some (e, v) → re s !! e = Some (v, Z.of_nat i)) ∧
    (∀ e, e ∉ h.*1 → re s !! e = E0 !! e) ∧
    (∀ e, fst <$> re s !! e = fst <$> E0 !! e).

  Lemma rR_lookup E0 s h i e v : rR E0 s h → h !! i = Some (e, v) → rh s !! i = Some e.
  Proof. intros (Hh & _) Hi. rewrite Hh, list_lookup_fmap, Hi. done. Qed.
  Lemma rR_idx E0 s h i : rR E0 s h → idx (rh s) i = fst <$> idx h i.
  Proof.
    intros (Hh & _). unfold idx. rewrite Hh, list_lookup_fmap. by destruct (h !! i).
  Qed.

  Lemma rless_sim E0 s h i j : rR E0 s h → rsim eq (rless lf s i j) (hless plf h i j).
  Proof.
    intros HR. pose proof HR as (Hh & Hl & ND & Hin & _). unfold rless, hless. rewrite !(rR_idx E0 s h) by done.
    destruct (idx h i) as [[e v]| |] eqn:Ei; [|done..]. simpl. apply idx_Ret in Ei.
    unfold deref. rewrite (Hin _ _ _ Ei). simpl.
    destruct (idx h j) as [[f w]| |] eqn:Ej; [|done..]. simpl. apply idx_Ret in Ej.
    by rewrite (Hin _ _ _ Ej).
  Qed.

  Lemma rswap_sim E0 s h i j : rR E0 s h → rsim (rR E0) (rswap s i j) (hswap h i j).
  Proof.
    intros HR. pose proof HR as (Hh & Hl & ND & Hin & Hout & Hval). unfold rswap, hswap.
    rewrite !(rR_idx E0 s h) by done.
    destruct (idx h j) as [[ey vy]| |] eqn:Ej; [|done..]. simpl.
    destruct (idx h i) as [[ex vx]| |] eqn:Ei; [|done..]. simpl.
    apply idx_Ret in Ej, Ei.
    pose proof (lookup_lt_Some _ _ _ Ei). pose proof (lookup_lt_Some _ _ _ Ej).
    set (x := (ex, vx)) in *. set (y := (ey, vy)) in *.
    assert (SL := λ k, swapped_lookup h i j x y k ltac:(lia) ltac:(lia) Ei Ej).
    pose proof (swapped_Permutation h i j x y Ei Ej) as SP. unfold swapped in SL, SP.
    set (h' := <[j:=x]> (<[i:=y]> h)) in *.
    assert (Hh' : <[j:=ex]> (<[i:=ey]> (rh s)) = h'.*1).
    { unfold h'. rewrite !list_fmap_insert, Hh. done. }
    assert (Li : h' !! i = Some y). { rewrite SL. case_decide; subst; [congruence|]. by rewrite decide_True. }
    assert (Lj : h' !! j = Some x). { rewrite SL. by rewrite decide_True. }
    rewrite Hh'. unfold idx. rewrite !list_lookup_fmap, Li, Lj. cbn [mbind go_bind fmap option_fmap option_map fst x y].
    unfold set_index, deref. pose proof (Hin _ _ _ Ei) as Fx. pose proof (Hin _ _ _ Ej) as Fy.
    rewrite Fy. cbn [mbind go_bind fst].
    pose proof (lookup_lt_Some _ _ _ Fx). pose proof (lookup_lt_Some _ _ _ Fy).
    assert (INJ : ∀ a b e v w, h !! a = Some (e, v) → h !! b = Some (e, w) → a = b).
    { intros a b e v w Ha Hb. eapply (NoDup_lookup (h.*1) a b e); [done|by rewrite list_lookup_fmap, Ha|by rewrite list_lookup_fmap, Hb]. }
    assert (Hex : <[ey:=(vy, Z.of_nat i)]> (re s) !! ex = Some (vx, Z.of_nat (if decide (i = j) then i else i))).
    { destruct (decide (ey = ex)) as [->|Hne].
      - assert (i = j) by (by eapply INJ). rewrite list_lookup_insert by done. by case_decide; simplify_eq.
      - rewrite list_lookup_insert_ne by done. rewrite Fx. by case_decide. }
    replace (if decide (i = j) then i else i) with i in Hex by (by case_decide).
    rewrite Hex. simpl. split_and!; simpl.
    - done.
    - by rewrite !insert_length.
    - by rewrite SP.
    - intros k e v Hk. rewrite SL in Hk. case_decide as Hkj.
      { subst k. unfold x in Hk. simplify_eq. rewrite list_lookup_insert; [done|]. by rewrite insert_length. }
      case_decide as Hki.
      { subst k. unfold y in Hk. simplify_eq. rewrite list_lookup_insert_ne.
        - by rewrite list_lookup_insert.
        - intros ->. apply Hkj. by eapply INJ. }
      rewrite !list_lookup_insert_ne; [by apply Hin| |].
      + intros <-. apply Hkj. by eapply INJ.
      + intros <-. apply Hki. by eapply INJ.
    - intros e He. rewrite SP in He. rewrite !list_lookup_insert_ne; [by apply Hout| |].
      + intros <-. apply He. apply elem_of_list_fmap. exists y. split; [done|by eapply elem_of_list_lookup_2].
      + intros <-. apply He. apply elem_of_list_fmap. exists x. split; [done|by eapply elem_of_list_lookup_2].
    - intros e. rewrite <-Hval. destruct (decide (ex = e)) as [<-|].
      + rewrite list_lookup_insert by (by rewrite insert_length). by rewrite Fx.
      + rewrite list_lookup_insert_ne by done. destruct (decide (ey = e)) as [<-|].
        * rewrite list_lookup_insert by done. by rewrite Fy.
        * by rewrite list_lookup_insert_ne.
  Qed.

  Lemma rup_sim E0 s h j : rR E0 s h → rsim (rR E0) (rup lf s j) (hup plf 2 h j).
  Proof. intros HR. unfold rup. apply up_fuel_sim; [apply rless_sim|apply rswap_sim|done]. Qed.
  Lemma rdown_sim E0 s h i n : rR E0 s h →
    rsim (λ a b, rR E0 a.1 b.1 ∧ a.2 = b.2) (rdown lf s i n) (hdown plf h i n).
  Proof. intros HR. unfold rdown. apply (down_sim _ _ plf (rR E0)); [apply rless_sim|apply rswap_sim|done]. Qed.

  (** After pop: the last pair leaves, its entry is marked dead. *)
  Definition rRpop (E0 : ents T) (a : T * rst T) (b : (nat * T) * list (nat * T)) : Prop :=
    a.1 = b.1.2 ∧ E0 !! b.1.1 ≠ None ∧ rR (<[b.1.1 := (b.1.2, (-1)%Z)]> E0) a.2 b.2 ∧ b.1.1 ∉ b.2.*1.

  Lemma rpop_sim E0 s h : rR E0 s h → rsim (rRpop E0) (rpop_ s) (hpop h).
  Proof.
    intros HR. pose proof HR as (Hh & Hl & ND & Hin & Hout & Hval). unfold rpop_, hpop.
    rewrite !(rR_idx E0 s h) by done. replace (length (rh s)) with (length h) by (by rewrite Hh, fmap_length).
    destruct (idx h (length h - 1)) as [[e v]| |] eqn:Ee; [|done..]. simpl. apply idx_Ret in Ee.
    pose proof (Hin _ _ _ Ee) as Fe. unfold set_index, deref. rewrite Fe. simpl.
    pose proof (lookup_lt_Some _ _ _ Fe). pose proof (lookup_lt_Some _ _ _ Ee).
    rewrite list_lookup_insert by done. simpl.
    assert (Pe : h ≡ₚ (e, v) :: take (length h - 1) h).
    { rewrite <-(take_drop_middle h _ _ Ee) at 1. rewrite (drop_ge h (S (length h - 1))) by lia.
      symmetry. apply Permutation_cons_append. }
    set (h' := take (length h - 1) h) in *.
    assert (ND' : NoDup (e :: h'.*1)). { rewrite Pe in ND. done. }
    apply NoDup_cons in ND' as [Hne ND'].
    split; [done|]. split_and!; simpl.
    3: done.
    2: unfold rR; split_and!; simpl.
    { intros HN. specialize (Hval e). rewrite Fe, HN in Hval. done. }
    - rewrite Hh. symmetry. apply fmap_take.
    - by rewrite !insert_length.
    - done.
    - intros i f w Hi. unfold h' in Hi. apply lookup_take_Some in Hi as [Hi Hil].
      rewrite list_lookup_insert_ne; [by apply Hin|]. intros <-.
      assert (length h - 1 = i). { eapply (NoDup_lookup (h.*1) _ _ e); [done|by rewrite list_lookup_fmap, Ee|by rewrite list_lookup_fmap, Hi]. }
      lia.
    - intros f Hf. destruct (decide (e = f)) as [<-|Hef].
      + rewrite !list_lookup_insert; [done|by rewrite <-Hl|done].
      + rewrite !list_lookup_insert_ne by done. apply Hout. rewrite Pe. simpl. intros [->|?]%elem_of_cons; done.
    - intros f. destruct (decide (e = f)) as [<-|Hef].
      + rewrite !list_lookup_insert; [done|by rewrite <-Hl|done].
      + rewrite !list_lookup_insert_ne by done. apply Hval.
  Qed.

  Lemma reap_pop_sim E0 s h : rR E0 s h → rsim (rRpop E0) (reap_pop lf s) (gpop (hdown plf) h).
  Proof.
    intros HR. unfold reap_pop, gpop. replace (length (rh s)) with (length h) by (by rewrite (proj1 HR), fmap_length).
    eapply rsim_bind; [by eapply rswap_sim|]. intros s1 h1 HR1.
    eapply rsim_bind; [by eapply rdown_sim|]. intros [s2 b2] [h2 c2] [HR2 _]; simpl in *.
    by apply rpop_sim.
  Qed.

  Lemma rfix_sim E0 s h i : rR E0 s h → rsim (rR E0) (rfix lf s i) (gfix_nat plf 2 (hdown plf) h i).
  Proof.
    intros HR. unfold rfix, gfix_nat. replace (length (rh s)) with (length h) by (by rewrite (proj1 HR), fmap_length).
    eapply rsim_bind; [by eapply rdown_sim|]. intros [s2 b2] [h2 c2] [HR2 Eb]; simpl in *. subst.
    destruct c2; [done|]. by apply rup_sim.
  Qed.

  Lemma reap_remove_sim E0 s h e v i : rR E0 s h → h !! i = Some (e, v) →
    rsim (λ a b, a.1 = true ∧ rRpop E0 (b.1.2, a.2) b) (reap_remove lf s e) (gremove_nat plf 2 (hdown plf) h i).
  Proof.
    intros HR Hi. pose proof HR as (Hh & Hl & ND & Hin & Hout & Hval).
    unfold reap_remove, gremove_nat, deref. rewrite (Hin _ _ _ Hi). simpl.
    rewrite decide_False by lia. rewrite Nat2Z.id.
    replace (length (rh s)) with (length h) by (by rewrite Hh, fmap_length).
    assert (HP : ∀ s1 h1, rR E0 s1 h1 →
      rsim (λ a b, a.1 = true ∧ rRpop E0 (b.1.2, a.2) b) (r ← rpop_ s1; Ret (true, r.2)) (hpop h1)).
    { intros s1 h1 HR1. pose proof (rpop_sim E0 s1 h1 HR1) as HS.
      destruct (rpop_ s1) as [[? ?]| |], (hpop h1) as [[[? ?] ?]| |]; try done. simpl in *. split; [done|].
      destruct HS as (? & ? & ? & ?). by split_and!. }
    case_decide.
    - simpl. by apply HP.
    - pose proof (rswap_sim E0 s h i (length h - 1) HR) as HS.
      destruct (rswap s i (length h - 1)) as [s1| |], (hswap h i (length h - 1)) as [h1| |]; try done. simpl in *.
      pose proof (rdown_sim E0 s1 h1 i (length h - 1) HS) as HS2.
      destruct (rdown lf s1 i (length h - 1)) as [[s2 b2]| |], (hdown plf h1 i (length h - 1)) as [[h2 c2]| |]; try done.
      simpl in *. destruct HS2 as [HR2 ->]. destruct c2; [by apply HP|].
      pose proof (rup_sim E0 s2 h2 i HR2) as HS3.
      destruct (rup lf s2 i) as [s3| |], (hup plf 2 h2 i) as [h3| |]; try done. by apply HP.
  Qed.

  (** ** World invariant: the table describes the memory; every reap stores its live handles. *)
  Definition rI (E : ents T) (hr : list nat) h : Prop :=
    hr = h.*1 ∧ NoDup (h.*1) ∧ ∀ i e v, h !! i = Some (e, v) → E !! e = Some (v, Z.of_nat i).
  Definition pairs (H : hspec T) (r : nat) h : Prop := ∀ e v, (e, v) ∈ h ↔ in_reap H r e v.
  Definition tabR (E : ents T) (H : hspec T) : Prop :=
    length E = length (hs_tab H) ∧
    ∀ e r v b, hs_tab H !! e = Some (r, v, b) →
      r < hs_reaps H ∧ ∃ i, E !! e = Some (v, i) ∧ (b = false → i = (-1)%Z).

  Definition wR (w : world T) (H : hspec T) : Prop :=
    length (ws w) = hs_reaps H ∧ tabR (we w) H ∧
    ∀ r hr, ws w !! r = Some hr → ∃ h, rI (we w) hr h ∧ pairs H r h ∧
      (strict_weak lf → hok plf 2 (length h) h).

  Lemma rI_rR E hr h : rI E hr h → rR E (RSt E hr) h.
  Proof. intros (-> & ND & Hin). by split_and!. Qed.
  Lemma rR_rI E0 s h : rR E0 s h → rI (re s) (rh s) h.
  Proof. intros (-> & ? & ND & Hin & _). by split_and!. Qed.

  Lemma wR_upd w H H' r hr E' hr' h' :
    wR w H → ws w !! r = Some hr → hs_reaps H' = hs_reaps H → tabR E' H' →
    rI E' hr' h' → pairs H' r h' → (strict_weak lf → hok plf 2 (length h') h') →
    (∀ r' e v, r' ≠ r → in_reap H' r' e v ↔ in_reap H r' e v) →
    (∀ r' e v, r' ≠ r → in_reap H r' e v → E' !! e = we w !! e) →
    wR (World E' (<[r:=hr']> (ws w))) H'.
  Proof.
    intros (Hl & Ht & Hr) Hw Hn Ht' HI' HP' HO' Hoth Hfr. split_and!; simpl.
    - by rewrite insert_length, Hn.
    - done.
    - intros r1 hr1 Hr1. destruct (decide (r1 = r)) as [->|Hne].
      + rewrite list_lookup_insert in Hr1 by (by eapply lookup_lt_Some). simplify_eq. eauto.
      + rewrite list_lookup_insert_ne in Hr1 by done. destruct (Hr r1 hr1 Hr1) as (h & (HI1 & HI2 & HI3) & HP & HO).
        exists h. split_and!; [|intros e v; rewrite Hoth by done; apply HP|done].
        split_and!; [done|done|]. intros i e v Hi. rewrite (Hfr r1 e v Hne); [by apply HI3|].
        apply HP. by eapply elem_of_list_lookup_2.
  Qed.

  Lemma pairs_live H r h e : pairs H r h → e ∈ h.*1 ↔ ∃ v, in_reap H r e v.
  Proof.
    intros HP. rewrite elem_of_list_fmap. split.
    - intros ([e' v] & -> & Hin). exists v. by apply HP.
    - intros [v Hv]. exists (e, v). split; [done|]. by apply HP.
  Qed.
  Lemma in_reap_lt H r e v : in_reap H r e v → e < length (hs_tab H).
  Proof. apply lookup_lt_Some. Qed.

  Lemma hok_least h e v : strict_weak lf → hok plf 2 (length h) h → h !! 0 = Some (e, v) →
    ∀ e' v', (e', v') ∈ h → lf v' v = false.
  Proof.
    intros SW Hok H0 e' v' [k Hk]%elem_of_list_lookup.
    apply (hok_root plf (plf_sw SW) 2 (length h) h ltac:(lia) Hok (le_n _) k) with (x := (e', v')) (y := (e, v));
      [by eapply lookup_lt_Some|done|done].
  Qed.

  (** The effect of taking one pair out (Pop and Remove). *)
  Lemma wR_take w H r hr h e v s' h' :
    wR w H → ws w !! r = Some hr → rI (we w) hr h → pairs H r h →
    h ≡ₚ (e, v) :: h' → (strict_weak lf → hok plf 2 (length h') h') →
    rR (<[e := (v, (-1)%Z)]> (we w)) s' h' → e ∉ h'.*1 →
    wR (World (re s') (<[r := rh s']> (ws w))) (upd H e r v false).
  Proof.
    intros HW Hw HI HP P HO HR Hne. pose proof HW as (Hl & Ht & _). pose proof Ht as [Htl Htt].
    assert (He : in_reap H r e v) by (apply HP; rewrite P; left).
    pose proof (in_reap_lt _ _ _ _ He) as Hlt.
    pose proof HR as (Hh & HRl & ND & Hin & Hout & Hval). rewrite insert_length in HRl.
    eapply (wR_upd w H (upd H e r v false) r hr); [done|done|done| |by eapply rR_rI| |done| |].
    - split; [simpl; rewrite insert_length; congruence|]. simpl. intros f r' v' b Hf.
      destruct (decide (e = f)) as [<-|Hef].
      + rewrite list_lookup_insert in Hf by done. injection Hf as <- <- <-. split; [by eapply Htt|].
        exists (-1)%Z. split; [|done]. rewrite Hout by done. rewrite list_lookup_insert; [done|]. by rewrite Htl.
      + rewrite list_lookup_insert_ne in Hf by done. destruct (Htt _ _ _ _ Hf) as [Hr' (i & Hi & Hb)].
        split; [done|]. destruct b.
        * pose proof (Hval f) as Hvf. rewrite list_lookup_insert_ne, Hi in Hvf by done. simpl in Hvf.
          destruct (re s' !! f) as [[u n]|] eqn:Ef; [|done]. simpl in Hvf. injection Hvf as ->.
          exists n. split; [done|done].
        * exists i. split; [|done]. rewrite Hout; [by rewrite list_lookup_insert_ne|].
          intros Hf'. assert (Hf2 : f ∈ h.*1) by (rewrite P; by right).
          apply (pairs_live H r h f HP) in Hf2 as [u Hu]. unfold in_reap in Hu. congruence.
    - intros f u. unfold in_reap; simpl. destruct (decide (e = f)) as [<-|Hef].
      + rewrite list_lookup_insert by done. split; [|congruence].
        intros Hin'. exfalso. apply Hne. apply elem_of_list_fmap. by exists (e, u).
      + rewrite list_lookup_insert_ne by done. fold (in_reap H r f u). rewrite <-(HP f u), P, elem_of_cons.
        split; [by right|]. intros [?|?]; [congruence|done].
    - intros r' f u Hr'. unfold in_reap; simpl. destruct (decide (e = f)) as [<-|Hef].
      + rewrite list_lookup_insert by done. unfold in_reap in He. split; congruence.
      + by rewrite list_lookup_insert_ne.
    - intros r' f u Hr' Hf. assert (e ≠ f). { intros <-. unfold in_reap in *. congruence. }
      rewrite Hout; [by rewrite list_lookup_insert_ne|].
      intros Hf'. assert (Hf2 : f ∈ h.*1) by (rewrite P; by right).
      apply (pairs_live H r h f HP) in Hf2 as [u' Hu']. unfold in_reap in *. congruence.
  Qed.

  Lemma wR_lookup w H r : wR w H → r < hs_reaps H → ∃ hr h, ws w !! r = Some hr ∧ rI (we w) hr h ∧ pairs H r h ∧
      (strict_weak lf → hok plf 2 (length h) h).
  Proof.
    intros (Hl & _ & Hr) Hlt. destruct (lookup_lt_is_Some_2 (ws w) r ltac:(lia)) as [hr Hw].
    destruct (Hr r hr Hw) as (h & ?). exists hr, h. tauto.
  Qed.

  Lemma pairs_empty H r h : pairs H r h → h = [] ↔ is_empty H r.
  Proof.
    intros HP. split.
    - intros -> e v He%HP. by apply elem_of_nil in He.
    - intros He. destruct h as [|[e v] h]; [done|]. exfalso. apply (He e v), HP. left.
  Qed.

  Lemma wstep_spec w H o : wR w H → call_ok H o →
    let '(x, w') := wstep lf w o in
    ∃ H', hstep H o x H' ∧ wR w' H' ∧ (strict_weak lf → hmin lf H o x).
  Proof.
    intros HW Hok. pose proof HW as (Hl & Ht & Hr). destruct o as [|r v|r|r|r e|r e v|e|r|r]; cbn [wstep]; simpl in Hok.
    - (* New *)
      exists (HSpec (S (hs_reaps H)) (hs_tab H)). rewrite Hl. split; [constructor|]. split; [|done].
      split_and!; simpl.
      + rewrite app_length, Hl. simpl. lia.
      + destruct Ht as [Ht1 Ht2]. split; [done|]. intros e r v b He. simpl in *. destruct (Ht2 _ _ _ _ He). split; [lia|done].
      + intros r hr Hx. apply lookup_app_Some in Hx as [Hx|[Hle Hx]]; [by apply Hr|].
        apply list_lookup_singleton_Some in Hx as [Hx <-]. exists []. split_and!.
        * split_and!; [done|constructor|done].
        * intros e v. split; [by intros ?%elem_of_nil|]. intros He. apply Ht in He as [? _]. lia.
        * intros _ c ? Hc. simpl in Hc. lia.
    - (* Push *)
      destruct (wR_lookup w H r HW Hok) as (hr & h & Hw & HI & HP & HO). unfold wcall. rewrite Hw.
      unfold reap_push, rpush_. simpl.
      pose proof Ht as [Htl Htt]. set (n := length (we w)) in *.
      set (E1 := we w ++ [(v, Z.of_nat (length hr))]). set (s1 := RSt E1 (hr ++ [n])).
      assert (Hhl : length h = length hr) by (rewrite (proj1 HI); by rewrite fmap_length).
      assert (Hn : n ∉ h.*1).
      { intros Hx. apply (pairs_live H r h n HP) in Hx as [u Hu]. apply in_reap_lt in Hu. lia. }
      assert (HR1 : rR E1 s1 (hpush h (n, v))).
      { destruct HI as (-> & ND & Hin). unfold hpush, s1. split_and!; simpl; [by rewrite fmap_app|done| | |done|done].
        - rewrite fmap_app. simpl. apply NoDup_app. split_and!; [done| |apply NoDup_singleton].
          intros x Hx ->%elem_of_list_singleton. done.
        - intros i f u Hi. unfold E1. apply lookup_app_Some in Hi as [Hi|[Hle Hi]].
          + apply lookup_app_l_Some. by apply Hin.
          + apply list_lookup_singleton_Some in Hi as [Hi [= <- <-]]. unfold n.
            rewrite list_lookup_middle by done. do 3 f_equal. rewrite <-Hhl. lia. }
      pose proof (rup_sim E1 s1 _ (length (hpush h (n, v)) - 1) HR1) as HS.
      destruct (gpush_spec plf 2 ltac:(lia) h (n, v)) as (h' & E & P & O). unfold gpush in E. rewrite E in HS.
      replace (length (hr ++ [n])) with (length (hpush h (n, v))) by (unfold hpush; rewrite !app_length; simpl; lia).
      fold E1. change (RSt E1 (hr ++ [n])) with s1.
      apply rsim_Ret_r in HS as (s2 & -> & HR2). simpl.
      exists (HSpec (hs_reaps H) (hs_tab H ++ [(r, v, true)])).
      split. { rewrite Htl. by constructor. }
      split; [|done]. pose proof HR2 as (Hh2 & Hl2 & ND2 & Hin2 & Hout2 & Hval2).
      assert (HlE : length E1 = S n) by (unfold E1; rewrite app_length; simpl; lia).
      eapply (wR_upd w H _ r hr); [done|done|done| |by eapply rR_rI| | | |].
      + split. { simpl. rewrite Hl2, HlE, app_length. simpl. lia. }
        simpl. intros f r' u b Hf. apply lookup_app_Some in Hf as [Hf|[Hle Hf]].
        * destruct (Htt _ _ _ _ Hf) as [Hr' (i & Hi & Hb)]. split; [done|].
          destruct b.
          -- pose proof (Hval2 f) as Hvf. unfold E1 in Hvf. rewrite (lookup_app_l_Some _ _ _ _ Hi) in Hvf. simpl in Hvf.
             destruct (re s2 !! f) as [[x j]|] eqn:Ef; [|done]. simpl in Hvf. injection Hvf as ->. exists j. done.
          -- exists i. split; [|done]. rewrite Hout2; [unfold E1; by apply lookup_app_l_Some|].
             rewrite P. simpl. intros [Hfn|Hx]%elem_of_cons.
             ++ apply lookup_lt_Some in Hf. lia.
             ++ apply (pairs_live H r h f HP) in Hx as [u' Hu']. unfold in_reap in *. congruence.
        * apply list_lookup_singleton_Some in Hf as [Hf [= <- <- <-]]. split; [done|].
          assert (Hnv : (n, v) ∈ h') by (rewrite P; left). apply elem_of_list_lookup in Hnv as [i Hi].
          exists (Z.of_nat i). split; [|done]. replace f with n by lia. by apply Hin2.
      + intros f u. unfold in_reap; simpl. rewrite P, elem_of_cons, lookup_app_Some, (HP f u). unfold in_reap. split.
        * intros [[= -> ->]|Hf]; [|by left]. right. split; [lia|]. rewrite list_lookup_singleton_Some. split; [lia|done].
        * intros [Hf|[Hle Hf]]; [by right|]. apply list_lookup_singleton_Some in Hf as [Hf [= <-]]. left. f_equal. lia.
      + intros SW. apply O; [by apply plf_sw|by apply HO].
      + intros r' f u Hr'. unfold in_reap; simpl. rewrite lookup_app_Some, list_lookup_singleton_Some.
        split; [intros [?|(? & ? & [=])]; [done|congruence]|by left].
      + intros r' f u Hr' Hf. destruct (Htt _ _ _ _ Hf) as [_ (i & Hi & _)]. rewrite Hi.
        rewrite Hout2; [unfold E1; by apply lookup_app_l_Some|].
        rewrite P. simpl. intros [Hfn|Hx]%elem_of_cons.
        * apply lookup_lt_Some in Hf. lia.
        * apply (pairs_live H r h f HP) in Hx as [u' Hu']. unfold in_reap in *. congruence.
    - (* Pop *)
      destruct (wR_lookup w H r HW Hok) as (hr & h & Hw & HI & HP & HO). unfold wcall. rewrite Hw.
      pose proof (rI_rR _ _ _ HI) as HR. pose proof (reap_pop_sim _ _ _ HR) as HS.
      destruct (decide (h = [])) as [->|Hne].
      { simpl in HS. apply rsim_Panic_r in HS as ->. exists H. split; [|done].
        constructor; [done|]. by apply (pairs_empty H r []). }
      destruct (gpop_spec plf 2 (hdown plf) ltac:(lia) (hdown_total plf) h Hne) as ([e v] & h' & E & L & P & O).
      rewrite E in HS. apply rsim_Ret_r in HS as ([x s'] & -> & (Hx & _ & HR' & Hne')). simpl in *. subst x.
      exists (upd H e r v false). split.
      { constructor. apply HP. rewrite P. left. }
      split.
      + eapply wR_take; [done|done|exact HI|done|done| |done|done].
        intros SW. apply O; [apply hdown_order; by apply plf_sw|by apply HO].
      + intros SW e' v' He'. eapply hok_least; [done|by apply HO|done|]. by apply HP.
    - (* Peek *)
      destruct (wR_lookup w H r HW Hok) as (hr & h & Hw & HI & HP & HO). unfold wcall. rewrite Hw.
      pose proof HI as (-> & ND & Hin). unfold reap_peek, idx. simpl. destruct h as [|[e v] h].
      { simpl. exists H. split; [|done]. constructor; [done|]. by apply (pairs_empty H r []). }
      cbn [fmap list_fmap fst lookup list_lookup mbind go_bind]. unfold deref. rewrite (Hin 0 e v eq_refl). simpl.
      rewrite (list_insert_id (ws w) r) by done. destruct w as [E S]; simpl in *.
      exists H. split; [apply (hs_peek H r e v), HP; left|]. split; [done|].
      intros SW e' v' He'. eapply (hok_least ((e, v) :: h) e v SW (HO SW) eq_refl e'). by apply HP.
    - (* Remove *)
      destruct Hok as (v & b & Hrow). pose proof Ht as [Htl Htt]. destruct (Htt _ _ _ _ Hrow) as [Hlt (i & Hi & Hb)].
      destruct (wR_lookup w H r HW Hlt) as (hr & h & Hw & HI & HP & HO). unfold wcall. rewrite Hw.
      pose proof (rI_rR _ _ _ HI) as HR. destruct b.
      + assert (Hev : (e, v) ∈ h) by (by apply HP). apply elem_of_list_lookup in Hev as [k Hk].
        pose proof (reap_remove_sim _ _ _ _ _ _ HR Hk) as HS.
        destruct (gremove_nat_spec plf 2 (hdown plf) ltac:(lia) (hdown_total plf) h k) as (x & h' & E & L & P & O).
        { by eapply lookup_lt_Some. }
        assert (x = (e, v)) as -> by congruence.
        rewrite E in HS. apply rsim_Ret_r in HS as ([b s'] & -> & (Hb1 & (_ & _ & HR' & Hne'))). simpl in *. subst b.
        exists (upd H e r v false). split; [by constructor|]. split; [|done].
        eapply wR_take; [done|done|exact HI|done|done| |done|done].
        intros SW. apply O; [by apply plf_sw|apply hdown_order; by apply plf_sw|by apply HO].
      + rewrite (Hb eq_refl) in Hi. unfold reap_remove, deref. simpl. rewrite Hi. simpl.
        rewrite (list_insert_id (ws w) r) by done. destruct w as [E S]; simpl in *.
        exists H. split; [by econstructor|done].
    - (* SetValue *)
      destruct Hok as (u & b & Hrow). pose proof Ht as [Htl Htt]. destruct (Htt _ _ _ _ Hrow) as [Hlt (i & Hi & Hb)].
      destruct (wR_lookup w H r HW Hlt) as (hr & h & Hw & HI & HP & HO). unfold wcall. rewrite Hw.
      destruct b.
      + assert (Hev : (e, u) ∈ h) by (by apply HP). apply elem_of_list_lookup in Hev as [k Hk].
        pose proof HI as (Hhr & ND & Hin). pose proof (Hin _ _ _ Hk) as Fk.
        unfold reap_set, deref. simpl. rewrite Fk. simpl. rewrite decide_False by lia. rewrite Nat2Z.id.
        set (E1 := <[e:=(v, Z.of_nat k)]> (we w)). pose proof (lookup_lt_Some _ _ _ Fk) as Hel.
        pose proof (lookup_lt_Some _ _ _ Hk) as Hkl.
        assert (HR1 : rR E1 (RSt E1 hr) (<[k:=(e, v)]> h)).
        { assert (Hf : (<[k:=(e, v)]> h).*1 = h.*1).
          { rewrite list_fmap_insert. simpl. apply list_insert_id. by rewrite list_lookup_fmap, Hk. }
          split_and!; simpl; [by rewrite Hf|done|by rewrite Hf| |done|done].
          intros j f x Hj. unfold E1. destruct (decide (j = k)) as [->|Hjk].
          - rewrite list_lookup_insert in Hj by done. injection Hj as <- <-. by rewrite list_lookup_insert.
          - rewrite list_lookup_insert_ne in Hj by done. rewrite list_lookup_insert_ne; [by apply Hin|].
            intros <-. apply Hjk. eapply (NoDup_lookup (h.*1) _ _ e); [done|by rewrite list_lookup_fmap, Hj|by rewrite list_lookup_fmap, Hk]. }
        pose proof (rfix_sim _ _ _ k HR1) as HS.
        destruct (gfix_nat_spec plf 2 (hdown plf) ltac:(lia) (hdown_total plf) (<[k:=(e,v)]> h) k) as (h' & E & P & O).
        { by rewrite insert_length. }
        rewrite E in HS. apply rsim_Ret_r in HS as (s' & -> & HR'). simpl.
        exists (upd H e r v true). split; [by econstructor|]. split; [|done].
        pose proof HR' as (Hh2 & Hl2 & ND2 & Hin2 & Hout2 & Hval2).
        pose proof (in_reap_lt H r e u Hrow) as Het.
        assert (Hmem : ∀ f x, (f, x) ∈ h' ↔ (f = e ∧ x = v) ∨ (f ≠ e ∧ (f, x) ∈ h)).
        { intros f x. rewrite P. split.
          - intros [j Hj]%elem_of_list_lookup. destruct (decide (j = k)) as [->|Hjk].
            + rewrite list_lookup_insert in Hj by done. injection Hj as <- <-. by left.
            + rewrite list_lookup_insert_ne in Hj by done. right. split; [|by eapply elem_of_list_lookup_2].
              intros ->. apply Hjk. eapply (NoDup_lookup (h.*1) _ _ e); [done|by rewrite list_lookup_fmap, Hj|by rewrite list_lookup_fmap, Hk].
          - intros [[-> ->]|[Hfe [j Hj]%elem_of_list_lookup]].
            + eapply (elem_of_list_lookup_2 _ k). by rewrite list_lookup_insert.
            + eapply (elem_of_list_lookup_2 _ j). rewrite list_lookup_insert_ne; [done|]. intros <-. congruence. }
        assert (Hkeys : ∀ f, f ∈ h'.*1 ↔ f ∈ h.*1).
        { intros f. rewrite !elem_of_list_fmap. split.
          - intros ([f' x] & -> & [[-> ->]|[_ Hx]]%Hmem); [|by exists (f', x)].
            exists (e, u). split; [done|by eapply elem_of_list_lookup_2].
          - intros ([f' x] & -> & Hx). destruct (decide (f' = e)) as [->|].
            + exists (e, v). split; [done|]. apply Hmem. by left.
            + exists (f', x). split; [done|]. apply Hmem. by right. }
        eapply (wR_upd w H _ r hr); [done|done|done| |by eapply rR_rI| | | |].
        * split. { simpl. rewrite Hl2. unfold E1. rewrite !insert_length. done. }
          simpl. intros f r' x b Hf. destruct (decide (e = f)) as [<-|Hef].
          -- rewrite list_lookup_insert in Hf by done. injection Hf as <- <- <-. split; [done|].
             assert (Hev : (e, v) ∈ h') by (apply Hmem; by left). apply elem_of_list_lookup in Hev as [j Hj].
             exists (Z.of_nat j). split; [by apply Hin2|done].
          -- rewrite list_lookup_insert_ne in Hf by done. destruct (Htt _ _ _ _ Hf) as [Hr' (j & Hj & Hjb)].
             split; [done|]. destruct b.
             ++ pose proof (Hval2 f) as Hvf. unfold E1 in Hvf. rewrite list_lookup_insert_ne, Hj in Hvf by done.
                simpl in Hvf. destruct (re s' !! f) as [[y m]|] eqn:Ef; [|done]. simpl in Hvf. injection Hvf as ->. by exists m.
             ++ exists j. split; [|done]. rewrite Hout2; [unfold E1; by rewrite list_lookup_insert_ne|].
                rewrite Hkeys. intros Hx. apply (pairs_live H r h f HP) in Hx as [u' Hu']. unfold in_reap in *. congruence.
        * intros f x. rewrite Hmem. unfold in_reap; simpl. destruct (decide (e = f)) as [<-|Hef].
          -- rewrite list_lookup_insert by done. split; [intros [[_ ->]|[? _]]; done|]. intros [= <-]. by left.
          -- rewrite list_lookup_insert_ne by done. rewrite (HP f x). unfold in_reap. split.
             ++ intros [[-> _]|[_ ?]]; done.
             ++ intros ?. right. done.
        * intros SW. apply (O (plf_sw SW) (hdown_order plf (plf_sw SW)) h); [by rewrite insert_length|by apply HO|].
          intros j Hj. by rewrite list_lookup_insert_ne.
        * intros r' f x Hr'. unfold in_reap; simpl. destruct (decide (e = f)) as [<-|Hef].
          -- rewrite list_lookup_insert by done. split; congruence.
          -- by rewrite list_lookup_insert_ne.
        * intros r' f x Hr' Hf. assert (e ≠ f). { intros <-. unfold in_reap in *. congruence. }
          rewrite Hout2; [unfold E1; by rewrite list_lookup_insert_ne|].
          rewrite Hkeys. intros Hx. apply (pairs_live H r h f HP) in Hx as [u' Hu']. unfold in_reap in *. congruence.
      + rewrite (Hb eq_refl) in Hi. unfold reap_set, deref. simpl. rewrite Hi. simpl.
        rewrite (list_insert_id (ws w) r) by done. destruct w as [E S]; simpl in *.
        exists H. split; [by econstructor|done].
    - (* Value *)
      destruct Ht as [Htl Htt]. destruct (lookup_lt_is_Some_2 (hs_tab H) e Hok) as [[[r v] b] Hrow].
      destruct (Htt _ _ _ _ Hrow) as [_ (i & Hi & _)]. unfold entry_value, deref. rewrite Hi. simpl.
      exists H. split; [by econstructor|done].
    - (* Len *)
      destruct (wR_lookup w H r HW Hok) as (hr & h & Hw & HI & HP & HO). unfold wcall. rewrite Hw. simpl.
      rewrite (list_insert_id (ws w) r) by done. destruct w as [E S]; simpl in *.
      exists H. split; [|done]. unfold reap_len. simpl. constructor. destruct HI as (-> & ND & _).
      split; [done|]. intros e. by apply pairs_live.
    - (* Empty *)
      destruct (wR_lookup w H r HW Hok) as (hr & h & Hw & HI & HP & HO). unfold wcall. rewrite Hw. simpl.
      rewrite (list_insert_id (ws w) r) by done. destruct w as [E S]; simpl in *.
      exists H. split; [|done]. unfold reap_empty, reap_len. simpl. constructor.
      rewrite bool_decide_eq_true, <-(pairs_empty H r h HP). destruct HI as (-> & _). rewrite fmap_length.
      apply length_zero_iff_nil.
  Qed.

  Lemma call_ok_dec H o : {call_ok H o} + {¬ call_ok H o}.
  Proof.
    destruct o as [|r v|r|r|r e|r e v|e|r|r]; simpl; try apply (decide (_ < _)).
    - by left.
    - destruct (hs_tab H !! e) as [[[r' v] b]|] eqn:E.
      + destruct (decide (r' = r)) as [->|]; [left; eauto|right; intros (? & ? & ?); congruence].
      + right. intros (? & ? & ?); congruence.
    - destruct (hs_tab H !! e) as [[[r' v'] b]|] eqn:E.
      + destruct (decide (r' = r)) as [->|]; [left; eauto|right; intros (? & ? & ?); congruence].
      + right. intros (? & ? & ?); congruence.
  Qed.

  Lemma wrun_spec_gen (P : hspec T → rop T → rout T → Prop) w H ops : wR w H →
    (∀ H' o x, (strict_weak lf → hmin lf H' o x) → P H' o x) →
    hrun P H ops (wrun lf w ops).1.
  Proof.
    intros HW HP. revert w H HW. induction ops as [|o ops IH]; intros w H HW; cbn [wrun]; [constructor|].
    destruct (call_ok_dec H o) as [Hok|Hbad]; [|by constructor].
    pose proof (wstep_spec w H o HW Hok) as HS. destruct (wstep lf w o) as [x w1].
    destruct HS as (H1 & S1 & HW1 & Hm). specialize (IH w1 H1 HW1).
    destruct (wrun lf w1 ops) as [rs w2]. simpl in *. econstructor; [done|by apply HP|done].
  Qed.

  Lemma wR_new : wR wnew (HSpec 0 []).
  Proof. split_and!; [done|split; [done|done]|done]. Qed.

  Lemma reap_run_handles ops : hrun (λ _ _ _, True) (HSpec 0 []) ops (wrun lf wnew ops).1.
  Proof. by apply wrun_spec_gen; [apply wR_new|]. Qed.
  Lemma reap_run_min : strict_weak lf → ∀ ops, hrun (hmin lf) (HSpec 0 []) ops (wrun lf wnew ops).1.
  Proof. intros SW ops. apply wrun_spec_gen; [apply wR_new|auto]. Qed.
End Proofs.

Lemma reap_foreign_witness : ∃ ops : list (rop nat),
  (wrun Nat.ltb wnew (ops ++ [RLen 0])).1 =
     [RReap 0; RReap 1; RHandle 0; RHandle 1; RNat 1] ∧
  (wrun Nat.ltb wnew (ops ++ [RRemove 0 1; RLen 0; RLen 1])).1 =
     [RReap 0; RReap 1; RHandle 0; RHandle 1; RBool true; RNat 0; RNat 1].
Proof. exists [RNew; RNew; RPush 0 5; RPush 1 7]. by vm_compute. Qed.

Lemma reap_dead_rejected {T} (lf : T → T → bool) w r e v x :
  r < length (ws w) → we w !! e = Some (x, (-1)%Z) →
  wstep lf w (RRemove r e) = (RBool false, w) ∧ wstep lf w (RSet r e v) = (RBool false, w).
Proof.
  intros Hr He. destruct (lookup_lt_is_Some_2 (ws w) r Hr) as [hr Hw].
  cbn [wstep]. unfold wcall. rewrite Hw. unfold reap_remove, reap_set, deref. simpl. rewrite He. simpl.
  rewrite (list_insert_id (ws w) r) by done. by destruct w.
Qed.

Lemma reap_same_index {T} (lf : T → T → bool) w r e f x y i :
  we w !! e = Some (x, i) → we w !! f = Some (y, i) →
  wstep lf w (RRemove r e) = wstep lf w (RRemove r f).
Proof.
  intros He Hf. cbn [wstep]. unfold wcall. destruct (ws w !! r) as [hr|]; [|done].
  unfold reap_remove, deref. simpl. by rewrite He, Hf.
Qed.
