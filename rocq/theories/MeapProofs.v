(** * Meap: proofs *)
From stdpp Require Import gmap.
From Verif Require Import GoBase HeapModel HeapSpec HeapProofs HeapMethods SiftSim MeapModel MeapSpec.

Section Proofs.
  Context {K V : Type} `{Countable K} (lf : K * V → K * V → bool).
  Implicit Types (s : meap K V) (h : list (K * V)).

  (** The index map is exactly the inverse of the key list. *)
  Definition mR s h : Prop :=
    mh s = h ∧ ∀ k i, mm s !! k = Some i ↔ ∃ v, h !! i = Some (k, v).

  Lemma mR_inj s h i j k v w : mR s h → h !! i = Some (k, v) → h !! j = Some (k, w) → i = j.
  Proof.
    intros [_ HR] Hi Hj.
    assert (mm s !! k = Some i) by (apply HR; eauto). assert (mm s !! k = Some j) by (apply HR; eauto). congruence.
  Qed.

  Lemma mless_sim s h i j : mR s h → rsim eq (mless lf s i j) (hless lf h i j).
  Proof.
    intros [<- _]. unfold mless, hless. destruct (idx (mh s) i); [|done..]. simpl.
    by destruct (idx (mh s) j).
  Qed.

  Lemma mswap_sim s h i j : mR s h → rsim mR (mswap s i j) (hswap h i j).
  Proof.
    intros HR. pose proof HR as [Hh Hm]. unfold mswap, hswap. rewrite Hh.
    destruct (idx h j) as [y| |] eqn:Ej; [|done..]. simpl.
    destruct (idx h i) as [x| |] eqn:Ei; [|done..]. simpl.
    apply idx_Ret in Ej, Ei.
    pose proof (lookup_lt_Some _ _ _ Ei). pose proof (lookup_lt_Some _ _ _ Ej).
    assert (SL := λ k, swapped_lookup h i j x y k ltac:(lia) ltac:(lia) Ei Ej). unfold swapped in SL.
    set (h' := <[j:=x]> (<[i:=y]> h)) in *.
    assert (Li : h' !! i = Some y). { rewrite SL. case_decide; subst; [congruence|]. by rewrite decide_True. }
    assert (Lj : h' !! j = Some x). { rewrite SL. by rewrite decide_True. }
    unfold idx. rewrite Li, Lj. simpl. split; [done|]. simpl. destruct x as [kx vx], y as [ky vy]. simpl.
    intros k n. rewrite lookup_insert_Some, lookup_insert_Some, Hm. split.
    - intros [[<- <-]|[Hk [[<- <-]|[Hk2 [v Hv]]]]]; [by eauto..|].
      exists v. rewrite SL, !decide_False; [done|congruence|congruence].
    - intros [v Hv]. destruct (decide (n = j)) as [->|Hnj].
      { left. rewrite Lj in Hv. simplify_eq. done. }
      destruct (decide (n = i)) as [->|Hni].
      { right. rewrite Li in Hv. simplify_eq. split; [|by left]. intros ->. apply Hnj. by eapply mR_inj. }
      rewrite SL, !decide_False in Hv by done. right. split.
      { intros ->. apply Hni. by eapply mR_inj. }
      right. split; [|by eauto]. intros ->. apply Hnj. by eapply mR_inj.
  Qed.

  Lemma mup_sim s h j : mR s h → rsim mR (mup lf s j) (hup lf 2 h j).
  Proof. intros HR. unfold mup. apply up_fuel_sim; [apply mless_sim|apply mswap_sim|done]. Qed.
  Lemma mdown_sim s h i n : mR s h →
    rsim (λ a b, mR a.1 b.1 ∧ a.2 = b.2) (mdown lf s i n) (hdown lf h i n).
  Proof. intros HR. unfold mdown. apply down_sim; [apply mless_sim|apply mswap_sim|done]. Qed.

  Lemma mpop_sim s h : mR s h → rsim (λ a b, a.1 = b.1 ∧ mR a.2 b.2) (mpop_ s) (hpop h).
  Proof.
    intros HR. pose proof HR as [Hh Hm]. unfold mpop_, hpop. rewrite Hh.
    destruct (idx h (length h - 1)) as [[kx vx]| |] eqn:E; [|done..]. simpl. apply idx_Ret in E.
    pose proof (lookup_lt_Some _ _ _ E). split; [done|]. split; [done|]. simpl. intros k i.
    rewrite lookup_delete_Some, Hm. split.
    - intros [Hk [v Hv]]. exists v. pose proof (lookup_lt_Some _ _ _ Hv).
      destruct (decide (i = length h - 1)) as [->|]; [congruence|]. rewrite lookup_take; [done|lia].
    - intros [v Hv]. apply lookup_take_Some in Hv as [Hv Hi]. split; [|by eauto].
      intros ->. assert (length h - 1 = i) by (by eapply mR_inj). lia.
  Qed.

  Lemma mpush_sim s h k v : mR s h → mm s !! k = None → mR (mpush_ s k v) (hpush h (k, v)).
  Proof.
    intros [Hh Hm] Hk. unfold mpush_, hpush. rewrite Hh. split; [done|]. simpl. intros k' i.
    rewrite lookup_insert_Some, Hm. split.
    - intros [[<- <-]|[Hne [w Hw]]].
      + exists v. by rewrite list_lookup_middle.
      + exists w. by apply lookup_app_l_Some.
    - intros [w Hw]. apply lookup_app_Some in Hw as [Hw|[Hl Hw]].
      + right. split; [|by eauto]. intros ->. assert (mm s !! k' = Some i) by (apply Hm; eauto). congruence.
      + apply list_lookup_singleton_Some in Hw as [Hi [= -> ->]]. left. split; [done|lia].
  Qed.

  Lemma mset_R s h i k w v : mR s h → h !! i = Some (k, w) →
    mR (Meap (<[i:=(k, v)]> h) (mm s)) (<[i:=(k, v)]> h).
  Proof.
    intros HR Hi. pose proof HR as [Hh Hm]. split; [done|]. simpl. intros k' n. rewrite Hm.
    pose proof (lookup_lt_Some _ _ _ Hi).
    destruct (decide (n = i)) as [->|Hn].
    - rewrite list_lookup_insert by done. split; [intros [u Hu]|intros [u Hu]]; simplify_eq; eauto.
    - rewrite list_lookup_insert_ne by done. done.
  Qed.

  (** ** The public methods mirror the list heap. *)
  Lemma meap_pop_sim s h : mR s h →
    rsim (λ a b, a.1 = b.1 ∧ mR a.2 b.2) (meap_pop lf s) (gpop (hdown lf) h).
  Proof.
    intros HR. unfold meap_pop, gpop. rewrite (proj1 HR).
    eapply rsim_bind; [by apply mswap_sim|]. intros s1 h1 HR1.
    eapply rsim_bind; [by apply mdown_sim|]. intros [s2 b2] [h2 c2] [HR2 _]; simpl in *.
    by apply mpop_sim.
  Qed.

  Lemma meap_fix_sim s h i : mR s h → rsim mR (mfix lf s i) (gfix_nat lf 2 (hdown lf) h i).
  Proof.
    intros HR. unfold mfix, gfix_nat. rewrite (proj1 HR).
    eapply rsim_bind; [by apply mdown_sim|]. intros [s2 b2] [h2 c2] [HR2 Eb]; simpl in *. subst.
    destruct c2; [done|]. by apply mup_sim.
  Qed.

  Lemma meap_remove_sim s h k i : mR s h → mm s !! k = Some i →
    rsim (λ a b, mR a b.2) (meap_remove lf s k) (gremove_nat lf 2 (hdown lf) h i).
  Proof.
    intros HR Hk. unfold meap_remove, gremove_nat. rewrite Hk, (proj1 HR).
    assert (HP : ∀ s1 h1, mR s1 h1 → rsim (λ a b, mR a b.2) (r ← mpop_ s1; Ret r.2) (hpop h1)).
    { intros s1 h1 HR1. pose proof (mpop_sim s1 h1 HR1) as HS.
      destruct (mpop_ s1) as [[? ?]| |], (hpop h1) as [[? ?]| |]; try done. simpl in *. tauto. }
    case_decide.
    - simpl. by apply HP.
    - pose proof (mswap_sim s h i (length h - 1) HR) as HS.
      destruct (mswap s i (length h - 1)) as [s1| |], (hswap h i (length h - 1)) as [h1| |]; try done. simpl in *.
      pose proof (mdown_sim s1 h1 i (length h - 1) HS) as HS2.
      destruct (mdown lf s1 i (length h - 1)) as [[s2 b2]| |], (hdown lf h1 i (length h - 1)) as [[h2 c2]| |]; try done.
      simpl in *. destruct HS2 as [HR2 ->]. destruct c2; [by apply HP|].
      pose proof (mup_sim s2 h2 i HR2) as HS3.
      destruct (mup lf s2 i) as [s3| |], (hup lf 2 h2 i) as [h3| |]; try done. by apply HP.
  Qed.

  (** ** Refinement *)
  Definition mrel (M : gmap K V) s : Prop :=
    mR s (mh s) ∧ ∀ k v, M !! k = Some v ↔ (k, v) ∈ mh s.

  Lemma mrel_lookup M s k : mrel M s → is_Some (mm s !! k) ↔ is_Some (M !! k).
  Proof.
    intros [[_ Hm] HM]. split.
    - intros [i Hi]. apply Hm in Hi as [v Hv]. exists v. apply HM. by eapply elem_of_list_lookup_2.
    - intros [v Hv]. apply HM, elem_of_list_lookup in Hv as [i Hi]. exists i. apply Hm. eauto.
  Qed.

  Lemma mR_NoDup s h : mR s h → NoDup h.
  Proof.
    intros HR. apply NoDup_alt. intros i j [k v] Hi Hj. by eapply mR_inj.
  Qed.

  Lemma mrel_size M s : mrel M s → size M = length (mh s).
  Proof.
    intros [HR HM]. unfold size, map_size. apply Permutation_length.
    apply NoDup_Permutation; [apply NoDup_map_to_list|by eapply mR_NoDup|].
    intros [k v]. by rewrite elem_of_map_to_list, HM.
  Qed.

  Lemma mrel_empty M s : mrel M s → M = ∅ ↔ mh s = [].
  Proof.
    intros HM. rewrite <-map_size_empty_iff, (mrel_size M s HM). apply length_zero_iff_nil.
  Qed.

  (** Lookup in the map after the list changed by a permutation. *)
  Lemma mrel_delete M s s' h' k v : mrel M s → mR s' h' → mh s ≡ₚ (k, v) :: h' → mrel (delete k M) s'.
  Proof.
    intros [HR HM] HR' P. pose proof (proj1 HR') as E. split; [by rewrite E|].
    rewrite E. intros k' v'. rewrite lookup_delete_Some, HM, P.
    pose proof (mR_NoDup _ _ HR) as ND. rewrite P in ND. apply NoDup_cons in ND as [Hni _].
    split.
    - intros [Hne [[= -> ->]|?]%elem_of_cons]; done.
    - intros Hin. split; [|by right]. intros <-.
      assert (H1 : (k, v) ∈ mh s) by (rewrite P; left). assert (H2 : (k, v') ∈ mh s) by (rewrite P; by right).
      apply elem_of_list_lookup in H1 as [i Hi], H2 as [j Hj].
      assert (i = j) as -> by (by eapply (mR_inj s (mh s))). assert (v' = v) as -> by congruence. done.
  Qed.

  Lemma mrel_insert M s s' h' k v r : mrel M s → mR s' h' →
    h' ≡ₚ (k, v) :: r →
    (∀ k' v', k' ≠ k → (k', v') ∈ mh s ↔ (k', v') ∈ r) →
    mrel (<[k:=v]> M) s'.
  Proof.
    intros [HR HM] HR' P Hr. pose proof (proj1 HR') as E. split; [by rewrite E|].
    rewrite E. intros k' v'. rewrite lookup_insert_Some, HM, P, elem_of_cons. split.
    - intros [[-> ->]|[Hne Hin]]; [by left|right]. by apply Hr.
    - intros [[= -> ->]|Hin]; [by left|]. destruct (decide (k = k')) as [->|Hne].
      + left. split; [done|].
        assert (H1 : (k', v) ∈ h') by (rewrite P; left). assert (H2 : (k', v') ∈ h') by (rewrite P; by right).
        apply elem_of_list_lookup in H1 as [i Hi], H2 as [j Hj].
        assert (i = j) as -> by (by eapply (mR_inj s' h')). congruence.
      + right. split; [done|]. apply Hr; [done|done].
  Qed.

  Definition mok s : Prop := hok lf 2 (length (mh s)) (mh s).

  Lemma mok_min M s e : strict_weak lf → mrel M s → mok s → mh s !! 0 = Some e →
    ∀ k' v', M !! k' = Some v' → lf (k', v') e = false.
  Proof.
    intros SW [HR HM] Hok He k' v' Hk. apply HM, elem_of_list_lookup in Hk as [c Hc].
    apply (hok_root lf SW 2 (length (mh s)) (mh s) ltac:(lia) Hok (le_n _) c); [by eapply lookup_lt_Some|done|done].
  Qed.

  Lemma meap_step_spec M s o : mrel M s →
    let '(r, s') := meap_step lf s o in
    ∃ M', map_step M o r M' ∧ mrel M' s' ∧
      (strict_weak lf → mok s → min_step lf M o r ∧ mok s').
  Proof.
    intros HM. pose proof HM as [HR HMl]. destruct o as [k v| | |k|k|k| |]; cbn [meap_step].
    - (* Push *)
      unfold meap_push, meap_contains. pose proof (mrel_lookup M s k HM) as Hl.
      destruct (mm s !! k) as [i|] eqn:Hk.
      + rewrite bool_decide_true by eauto. simpl.
        pose proof Hk as Hk'. apply HR in Hk' as [w Hw]. unfold idx. rewrite Hw. simpl.
        pose proof (lookup_lt_Some _ _ _ Hw) as Hlt.
        pose proof (mset_R s (mh s) i k w v HR Hw) as HR1.
        pose proof (meap_fix_sim _ _ i HR1) as HS.
        destruct (gfix_nat_spec lf 2 (hdown lf) ltac:(lia) (hdown_total lf) (<[i:=(k,v)]> (mh s)) i) as (h' & E & P & O).
        { by rewrite insert_length. }
        rewrite E in HS. apply rsim_Ret_r in HS as (s' & -> & HR'). simpl.
        exists (<[k:=v]> M). split; [constructor|]. split.
        * pose proof (insert_Permutation (mh s) i (k,v) (k,w) Hw) as PI.
          eapply (mrel_insert M s s' h' k v (delete i (mh s))); [done|done| |].
          -- rewrite P. apply (Permutation_cons_inv (a := (k, w))). rewrite PI.
             rewrite (delete_Permutation (mh s) i (k, w) Hw) at 1. by rewrite Permutation_swap.
          -- intros k' v' Hne. rewrite (delete_Permutation (mh s) i (k,w) Hw) at 1. rewrite elem_of_cons.
             split; [intros [?|?]; [congruence|done]|by right].
        * intros SW Hok. split; [done|]. unfold mok. rewrite (proj1 HR').
          apply (O SW (hdown_order lf SW) (mh s)); [by rewrite insert_length|done|].
          intros k0 Hne. by rewrite list_lookup_insert_ne.
      + rewrite bool_decide_false by (by intros [? ?]).
        pose proof (mpush_sim s (mh s) k v HR Hk) as HR1.
        destruct (gpush_spec lf 2 ltac:(lia) (mh s) (k, v)) as (h' & E & P & O).
        unfold gpush in E. rewrite (proj1 HR1).
        pose proof (mup_sim _ _ (length (hpush (mh s) (k, v)) - 1) HR1) as HS. rewrite E in HS.
        apply rsim_Ret_r in HS as (s' & -> & HR'). simpl. exists (<[k:=v]> M).
        split; [constructor|]. split.
        * by eapply (mrel_insert M s s' h' k v (mh s)).
        * intros SW Hok. split; [done|]. unfold mok. rewrite (proj1 HR'). by apply O.
    - (* Pop *)
      pose proof (meap_pop_sim s (mh s) HR) as HS.
      destruct (decide (mh s = [])) as [Hnil|Hne].
      + assert (E : gpop (hdown lf) (mh s) = Panic PIndex) by (by rewrite Hnil). rewrite E in HS.
        apply rsim_Panic_r in HS as ->. simpl. assert (M = ∅) as -> by (by eapply mrel_empty).
        exists ∅. split; [constructor|]. auto.
      + destruct (gpop_spec lf 2 (hdown lf) ltac:(lia) (hdown_total lf) (mh s) Hne) as ([k v] & h' & E & L & P & O).
        rewrite E in HS. apply rsim_Ret_r in HS as ([e s'] & -> & [Ee HR']). simpl in *. subst e. simpl.
        exists (delete k M). split.
        { constructor. apply HMl. rewrite P. left. }
        split; [by eapply mrel_delete|].
        intros SW Hok. split; [by eapply (mok_min M s)|]. unfold mok. rewrite (proj1 HR').
        apply O; [by apply hdown_order|done].
    - (* Peek *)
      unfold meap_peek, idx. destruct (mh s !! 0) as [[k v]|] eqn:L; simpl.
      + exists M. split; [constructor; apply HMl; by eapply elem_of_list_lookup_2|]. split; [done|].
        intros SW Hok. split; [|done]. by eapply (mok_min M s).
      + assert (M = ∅) as ->. { eapply mrel_empty; [done|]. destruct (mh s); [done|done]. }
        exists ∅. split; [constructor|]. auto.
    - (* Get *)
      unfold meap_get. destruct (mm s !! k) as [i|] eqn:Hk.
      + apply HR in Hk as [v Hv]. unfold idx. rewrite Hv. simpl.
        assert (HMk : M !! k = Some v) by (apply HMl; by eapply elem_of_list_lookup_2).
        exists M. split; [rewrite <-HMk; constructor|by split; [done|intros _ ?; done]].
      + simpl. assert (HMk : M !! k = None).
        { apply eq_None_not_Some. rewrite <-(mrel_lookup M s k HM), Hk. by intros [? ?]. }
        exists M. split; [rewrite <-HMk; constructor|by split; [done|intros _ ?; done]].
    - (* Contains *)
      exists M. split; [|by split; [done|intros _ ?; done]]. unfold meap_contains.
      rewrite (bool_decide_ext _ _ (mrel_lookup M s k HM)). constructor.
    - (* Remove *)
      destruct (mm s !! k) as [i|] eqn:Hk.
      + pose proof (meap_remove_sim s (mh s) k i HR Hk) as HS. apply HR in Hk as [v Hv].
        destruct (gremove_nat_spec lf 2 (hdown lf) ltac:(lia) (hdown_total lf) (mh s) i) as (x & h' & E & L & P & O).
        { by eapply lookup_lt_Some. }
        rewrite E in HS. apply rsim_Ret_r in HS as (s' & -> & HR'). simpl in *.
        assert (x = (k, v)) as -> by congruence.
        exists (delete k M). split; [constructor|]. split; [by eapply mrel_delete|].
        intros SW Hok. split; [done|]. unfold mok. rewrite (proj1 HR').
        by apply (O SW (hdown_order lf SW)).
      + unfold meap_remove. rewrite Hk. simpl.
        assert (HMk : M !! k = None).
        { apply eq_None_not_Some. rewrite <-(mrel_lookup M s k HM), Hk. by intros [? ?]. }
        exists (delete k M). split; [constructor|]. by rewrite (delete_notin M k HMk).
    - exists M. split; [|by split; [done|intros _ ?; done]]. unfold meap_len. rewrite <-(mrel_size M s HM). constructor.
    - exists M. split; [|by split; [done|intros _ ?; done]]. unfold meap_empty, meap_len.
      assert (Hiff : length (mh s) = 0 ↔ M = ∅). { rewrite length_zero_iff_nil. symmetry. by apply mrel_empty. }
      rewrite (bool_decide_ext _ _ Hiff). constructor.
  Qed.

  Lemma mrel_new : mrel ∅ meap_new.
  Proof.
    split.
    - split; [done|]. simpl. intros k i. rewrite lookup_empty. split; [done|by intros [? ?]].
    - intros k v. rewrite lookup_empty. split; [done|by intros ?%elem_of_nil].
  Qed.

  Lemma meap_run_map_gen M s ops : mrel M s →
    let '(rs, s') := meap_run lf s ops in ∃ M', map_run (λ _ _ _, True) M ops rs M' ∧ mrel M' s'.
  Proof.
    revert M s. induction ops as [|o ops IH]; intros M s HM; cbn [meap_run].
    { exists M. split; [constructor|done]. }
    pose proof (meap_step_spec M s o HM) as Hs. destruct (meap_step lf s o) as [r s1].
    destruct Hs as (M1 & S1 & HM1 & _). specialize (IH M1 s1 HM1).
    destruct (meap_run lf s1 ops) as [rs s2]. destruct IH as (M2 & R2 & HM2).
    exists M2. split; [by econstructor|done].
  Qed.

  Lemma meap_run_min_gen M s ops : strict_weak lf → mrel M s → mok s →
    let '(rs, s') := meap_run lf s ops in ∃ M', map_run (min_step lf) M ops rs M'.
  Proof.
    intros SW. revert M s. induction ops as [|o ops IH]; intros M s HM Hok; cbn [meap_run].
    { exists M. constructor. }
    pose proof (meap_step_spec M s o HM) as Hs. destruct (meap_step lf s o) as [r s1].
    destruct Hs as (M1 & S1 & HM1 & Hp). destruct (Hp SW Hok) as [Hmin Hok1].
    specialize (IH M1 s1 HM1 Hok1).
    destruct (meap_run lf s1 ops) as [rs s2]. destruct IH as (M2 & R2).
    exists M2. by econstructor.
  Qed.

  Lemma meap_run_map ops :
    let '(rs, _) := meap_run lf meap_new ops in ∃ M, map_run (λ _ _ _, True) ∅ ops rs M.
  Proof.
    pose proof (meap_run_map_gen ∅ meap_new ops mrel_new) as HG.
    destruct (meap_run lf meap_new ops) as [rs s']. destruct HG as (M & ? & _). by exists M.
  Qed.
  Lemma meap_run_min : strict_weak lf → ∀ ops,
    let '(rs, _) := meap_run lf meap_new ops in ∃ M, map_run (min_step lf) ∅ ops rs M.
  Proof.
    intros SW ops. apply (meap_run_min_gen ∅ meap_new ops SW mrel_new).
    intros c ? Hc. simpl in Hc. lia.
  Qed.
End Proofs.
