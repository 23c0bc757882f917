(** * Theorems about the limiters (C27-C34) *)
From stdpp Require Import gmap sorting.
From Verif Require Import GoBase LimiterModel LimiterSpec LimiterProofs.
Local Open Scope Z_scope.

(** ** C27, C28: fixed window.  Readings are monotonic-clock nanoseconds. *)
Lemma fw_new_ok limit w t0 : 0 ≤ t0 < 2 ^ 63 → fw_ok limit w (fw_new limit w t0).
Proof. intros. unfold fw_ok, fw_new. simpl. split_and!; try done; lia. Qed.
Theorem fixed_window_per_window : ∀ limit w t0 ts,
  is_i64 limit → 0 ≤ w → 0 ≤ t0 → ascending t0 ts → Forall (λ t, t < 2 ^ 63) (t0 :: ts) →
  let bs := lrun fw_try (fw_new limit w t0) ts in
  ∀ s, in_window s (grants (starts w t0 ts) bs) ≤ Z.max 0 limit.
Proof.
  intros limit w t0 ts Hl Hw H0 Ha HF bs s. apply Forall_cons in HF as [Ht0 HF].
  pose proof (fw_run_exact limit w Hl Hw ts (fw_new limit w t0) [] t0 (fw_new_ok limit w t0 ltac:(lia)) ltac:(simpl; lia) Ha HF ltac:(constructor) eq_refl) as HE.
  pose proof (fw_exact_bound limit w _ _ _ _ HE ltac:(intros x; unfold in_window; simpl; lia) s) as HB. by rewrite app_nil_r in HB.
Qed.
Print Assumptions fixed_window_per_window.
Theorem fixed_window_any_interval : ∀ limit w t0 ts a b,
  is_i64 limit → 0 ≤ w → 0 ≤ t0 → ascending t0 ts → Forall (λ t, t < 2 ^ 63) (t0 :: ts) → b ≤ a + w →
  hits a b (grants ts (lrun fw_try (fw_new limit w t0) ts)) ≤ 2 * Z.max 0 limit.
Proof.
  intros limit w t0 ts a b Hl Hw H0 Ha HF Hab. apply Forall_cons in HF as [Ht0 HF].
  by apply (fw_two limit w Hl Hw a b Hab ts (fw_new limit w t0) t0 (fw_new_ok limit w t0 ltac:(lia)) ltac:(simpl; lia) Ha HF).
Qed.
Print Assumptions fixed_window_any_interval.
(** both bounds are attained *)
Example fixed_window_case : let ts := [9; 10; 11; 12; 21; 22; 23; 33] in
  let bs := lrun fw_try (fw_new 2 10 0) ts in
  ascending 0 ts ∧ bs = [true; true; true; true; false; true; true; true] ∧ hits 9 19 (grants ts bs) = 4 ∧
  starts 10 0 ts = [0; 0; 11; 11; 11; 22; 22; 33].
Proof. vm_compute. split_and!; done. Qed.

(** Answers are exactly determined: a call is granted iff fewer than limit calls of its window were. *)
Theorem fixed_window_exact : ∀ limit w t0 ts,
  is_i64 limit → 0 ≤ w → 0 ≤ t0 → ascending t0 ts → Forall (λ t, t < 2 ^ 63) (t0 :: ts) →
  fw_exact limit w t0 [] ts (lrun fw_try (fw_new limit w t0) ts).
Proof.
  intros limit w t0 ts Hl Hw H0 Ha HF. apply Forall_cons in HF as [Ht0 HF].
  exact (fw_run_exact limit w Hl Hw ts (fw_new limit w t0) [] t0 (fw_new_ok limit w t0 ltac:(lia)) ltac:(simpl; lia) Ha HF ltac:(constructor) eq_refl).
Qed.
Print Assumptions fixed_window_exact.
Lemma fw_exact_at limit w ts : ∀ s past bs i, fw_exact limit w s past ts bs → (i < length ts)%nat →
  ∃ b s', bs !! i = Some b ∧ starts w s ts !! i = Some s' ∧
    (b = true ↔ in_window s' (grants (take i (starts w s ts)) (take i bs)) + in_window s' past < limit).
Proof.
  induction ts as [|t ts IH]; intros s past [|b bs] i HE Hi; simpl in Hi; try lia; [done|]. destruct HE as [Hb HE]. destruct i as [|i].
  - exists b, (next_start w s t). split_and!; [done..|]. simpl. rewrite Hb. unfold in_window, grants. simpl. lia.
  - destruct (IH _ _ _ i HE ltac:(lia)) as (b' & s' & H1 & H2 & H3). exists b', s'. split_and!; [done..|]. rewrite H3. cbn [starts take]. rewrite grants_cons.
    destruct b; [|done]. rewrite !in_window_cons. lia.
Qed.
(** C28: refused only when limit calls of the current window have been granted *)
Theorem fixed_window_refusal : ∀ limit w t0 ts i,
  0 < limit → is_i64 limit → 0 ≤ w → 0 ≤ t0 → ascending t0 ts → Forall (λ t, t < 2 ^ 63) (t0 :: ts) →
  let bs := lrun fw_try (fw_new limit w t0) ts in
  bs !! i = Some false →
  ∃ s, starts w t0 ts !! i = Some s ∧ in_window s (grants (take i (starts w t0 ts)) (take i bs)) = limit.
Proof.
  intros limit w t0 ts i Hpos Hl Hw H0 Ha HF bs Hi.
  assert (i < length ts)%nat as Hlt. { apply lookup_lt_Some in Hi. subst bs. by rewrite lrun_length in Hi. }
  destruct (fw_exact_at limit w ts t0 [] bs i (fixed_window_exact _ _ _ _ Hl Hw H0 Ha HF) Hlt) as (b & s & H1 & H2 & H3).
  assert (b = false) as -> by congruence. exists s. split; [done|].
  assert (Forall (λ t, t < 2 ^ 63) (t0 :: take i ts)) as HF'. { apply Forall_cons in HF as [? HF]. apply Forall_cons. split; [done|by apply Forall_take]. }
  assert (ascending t0 (take i ts)) as Ha'. { rewrite <-(take_drop i ts) in Ha. by apply ascending_app in Ha as [? _]. }
  pose proof (fixed_window_per_window limit w t0 (take i ts) Hl Hw H0 Ha' HF' s) as HB. cbv zeta in HB.
  assert (∀ ts s n, take n (starts w s ts) = starts w s (take n ts)) as Est.
  { clear. induction ts as [|t ts IH]; intros s [|n]; try done. simpl. by rewrite IH. }
  assert (take i bs = lrun fw_try (fw_new limit w t0) (take i ts)) as Ebs.
  { subst bs. rewrite <-(take_drop i ts) at 1. rewrite lrun_app, take_app_alt; [done|]. rewrite lrun_length, take_length. lia. }
  rewrite Est, Ebs in *. unfold in_window at 2 in H3. simpl in H3.
  destruct (decide (in_window s (grants (starts w t0 (take i ts)) (lrun fw_try (fw_new limit w t0) (take i ts))) < limit)) as [D|D]; [|lia].
  exfalso. assert (false = true) by (apply H3; lia). done.
Qed.
Print Assumptions fixed_window_refusal.
(** C28: a call more than a window after the start of the current one is granted *)
Theorem fixed_window_next : ∀ limit w t0 ts t,
  0 < limit → is_i64 limit → 0 ≤ w → 0 ≤ t0 → ascending t0 (ts ++ [t]) → Forall (λ t, t < 2 ^ 63) (t0 :: ts ++ [t]) →
  w < t - default t0 (last (starts w t0 ts)) →
  last (lrun fw_try (fw_new limit w t0) (ts ++ [t])) = Some true.
Proof.
  intros limit w t0 ts t Hpos Hl Hw H0 Ha HF Hlt.
  destruct (lrun fw_try (fw_new limit w t0) (ts ++ [t]) !! length ts) as [b|] eqn:Eb.
  2:{ apply lookup_ge_None in Eb. rewrite lrun_length, app_length in Eb. simpl in Eb. lia. }
  assert (last (lrun fw_try (fw_new limit w t0) (ts ++ [t])) = Some b) as ->.
  { rewrite last_lookup, lrun_length, app_length. simpl. by replace (Nat.pred (length ts + 1)) with (length ts) by lia. }
  destruct b; [done|]. exfalso.
  destruct (fixed_window_refusal limit w t0 (ts ++ [t]) (length ts) Hpos Hl Hw H0 Ha HF Eb) as (s & Hs & Hcnt).
  assert (∀ ts s0, starts w s0 (ts ++ [t]) = starts w s0 ts ++ [next_start w (default s0 (last (starts w s0 ts))) t]) as Eapp.
  { clear. induction ts as [|u ts IH]; intros s0; [done|]. cbn [app starts]. rewrite IH.
    rewrite last_cons. by destruct (last (starts w (next_start w s0 u) ts)). }
  assert (∀ ts s0, length (starts w s0 ts) = length ts) as Elen. { clear. induction ts; intros; [done|]. simpl. by rewrite IHts. }
  rewrite Eapp in Hs. rewrite lookup_app_r in Hs by (rewrite Elen; lia). rewrite Elen, Nat.sub_diag in Hs. injection Hs as <-.
  unfold next_start in Hcnt. rewrite decide_True in Hcnt by lia.
  rewrite Eapp, take_app_alt in Hcnt by (by rewrite Elen).
  (* t is larger than every earlier start *)
  assert (in_window t (grants (starts w t0 ts) (take (length ts) (lrun fw_try (fw_new limit w t0) (ts ++ [t])))) = 0) as E0; [|lia].
  assert (∀ gs bs, Forall (λ x, x < t) gs → in_window t (grants gs bs) = 0) as Hz.
  { clear. intros gs bs HF. apply in_window_lt. revert bs.
    induction HF as [|x gs Hx _ IH]; intros bs; [by apply Forall_nil|]. destruct bs as [|b bs]; [by apply Forall_nil|]. rewrite grants_cons. destruct b; [constructor|]; auto. }
  apply Hz. clear -Hw Hlt Ha. apply ascending_app in Ha as [Ha _].
  assert (∀ ts t0 , ascending t0 ts → Forall (λ x, x ≤ default t0 (last (starts w t0 ts))) (starts w t0 ts)) as HM.
  { clear -Hw. induction ts as [|u ts IH]; intros t0 Ha; [constructor|]. destruct Ha as [Hu Ha]. simpl.
    assert (ascending (next_start w t0 u) ts) as Ha'. { eapply ascending_weaken; [exact Ha|]. unfold next_start. case_decide; lia. }
    specialize (IH _ Ha').
    assert (last (next_start w t0 u :: starts w (next_start w t0 u) ts) = Some (default (next_start w t0 u) (last (starts w (next_start w t0 u) ts)))) as ->.
    { rewrite last_cons. by destruct (last (starts w (next_start w t0 u) ts)). }
    simpl. constructor; [|done]. destruct (starts w (next_start w t0 u) ts) as [|x l] eqn:E; [done|].
    assert (next_start w t0 u ≤ x). { destruct ts; [done|]. simpl in E. injection E as <- _. destruct Ha'. unfold next_start at 2. case_decide; lia. }
    apply Forall_cons in IH as [? _]. lia. }
  eapply Forall_impl; [exact (HM ts t0 Ha)|]. simpl. intros x Hx. lia.
Qed.
Print Assumptions fixed_window_next.
Example fixed_window_next_case : last (starts 10 0 [9; 10; 11; 12; 13]) = Some 11 ∧
  last (lrun fw_try (fw_new 2 10 0) [9; 10; 11; 12; 13; 22]) = Some true ∧ last (lrun fw_try (fw_new 2 10 0) [9; 10; 11; 12; 13; 21]) = Some false.
Proof. by vm_compute. Qed.

(** ** C29: leaky bucket *)
Section Leaky.
  Context (peak v t0 tmax : Z).
  Definition lb_fits : Prop := 0 ≤ peak ∧ 0 ≤ v ∧ 0 ≤ t0 ∧ t0 ≤ tmax < 2 ^ 63 ∧ peak + v * ((tmax - t0) / 1000000000) < 2 ^ 63.
End Leaky.
(** Within the int64 range: readings up to tmax, and everything that could leak until then fits. *)
Theorem leaky_bucket_bounds_partial : ∀ peak v t0 tmax ts,
  lb_fits peak v t0 tmax → ascending t0 ts → Forall (λ t, t ≤ tmax) ts →
  (∀ a b, a ≤ b → hits a b (grants ts (lrun lb_try (lb_new peak v t0) ts)) ≤ peak + v * ((b - a) / 1000000000 + 1)) ∧
  (∀ n, 0 ≤ lb_level (lend lb_try (lb_new peak v t0) (take n ts)) ≤ peak) ∧
  (∀ n, lrun lb_try (lb_new peak v t0) ts !! n = Some false → lb_level (lend lb_try (lb_new peak v t0) (take (S n) ts)) = peak).
Proof.
  intros peak v t0 tmax ts (Hp & Hv & H0 & Htm & Hno) Ha HF.
  change 1000000000 with second in *.
  assert (lb_ok peak v t0 (lb_new peak v t0)) as Hok. { unfold lb_ok. simpl. split_and!; try done; lia. }
  assert (∀ n, ascending t0 (take n ts) ∧ Forall (λ t, t ≤ tmax) (take n ts)) as Hpre.
  { intros n. split; [|by apply Forall_take]. rewrite <-(take_drop n ts) in Ha. by apply ascending_app in Ha as [? _]. }
  split_and!.
  - intros a b Hab. eapply (lb_interval peak v t0 tmax Hp Hv H0 ltac:(lia) Hno a b ts _ t0 Hab Hok); [simpl; lia|done|done].
  - intros n. destruct (Hpre n) as [Ha' HF']. destruct (lb_end peak v t0 tmax Hp Hv H0 ltac:(lia) Hno (take n ts) _ t0 Hok ltac:(simpl; lia) Ha' HF') as [(_ & _ & ? & _) _]. done.
  - intros n Hn. assert (n < length ts)%nat as Hlt. { apply lookup_lt_Some in Hn. by rewrite lrun_length in Hn. }
    destruct (lookup_lt_is_Some_2 ts n Hlt) as [t Et]. destruct (Hpre n) as [Ha' HF'].
    destruct (lb_end peak v t0 tmax Hp Hv H0 ltac:(lia) Hno (take n ts) _ t0 Hok ltac:(simpl; lia) Ha' HF') as [Hok' Hlast].
    pose proof (take_S_r _ _ _ Et) as ES. rewrite ES.
    assert (ascending t0 (take n ts ++ [t])) as Hat by (rewrite <-ES; apply Hpre). apply ascending_app in Hat as [_ [Hle _]].
    assert (t ≤ tmax) as Htt. { rewrite Forall_lookup in HF. exact (HF n t Et). }
    destruct (lb_try_ok peak v t0 tmax Hp Hv H0 ltac:(lia) Hno _ t Hok' ltac:(lia) Htt) as (b & l' & E & Hb & Hok2 & _ & Hlev).
    assert (∀ l, lend lb_try l (take n ts ++ [t]) = (lb_try (lend lb_try l (take n ts)) t).2) as Eend.
    { generalize (take n ts). clear. induction l as [|u l IH]; intros l0; [done|]. simpl. by rewrite IH. }
    rewrite Eend, E. simpl.
    assert (b = false) as ->.
    { rewrite <-(take_drop_middle _ _ _ Et), lrun_app in Hn. rewrite lookup_app_r in Hn by (rewrite lrun_length, take_length; lia).
      rewrite lrun_length, take_length, Nat.min_l in Hn by lia. rewrite Nat.sub_diag in Hn. simpl in Hn. rewrite E in Hn. by injection Hn. }
    rewrite Hlev. destruct Hok2 as (_ & _ & Hr & _). rewrite Hlev in Hr. destruct (decide (leak v (lend lb_try (lb_new peak v t0) (take n ts)) t < peak)) as [D|D]; [|lia].
    exfalso. by apply Hb in D.
Qed.
Print Assumptions leaky_bucket_bounds_partial.
(** after a second without calls the next one is granted *)
Theorem leaky_bucket_recovers_partial : ∀ peak v t0 tmax ts t,
  lb_fits peak v t0 tmax → 0 < peak → 0 < v → ascending t0 (ts ++ [t]) → Forall (λ t, t ≤ tmax) (ts ++ [t]) →
  default t0 (last ts) + 1000000000 ≤ t → last (lrun lb_try (lb_new peak v t0) (ts ++ [t])) = Some true.
Proof.
  intros peak v t0 tmax ts t (Hp & Hv & H0 & Htm & Hno) Hp1 Hv1 Ha HF Hsec.
  change 1000000000 with second in *.
  assert (lb_ok peak v t0 (lb_new peak v t0)) as Hok. { unfold lb_ok. simpl. split_and!; try done; lia. }
  apply ascending_app in Ha as [Ha [Hle _]]. apply Forall_app in HF as [HF [Ht _]%Forall_cons].
  destruct (lb_end peak v t0 tmax Hp Hv H0 ltac:(lia) Hno ts _ t0 Hok ltac:(simpl; lia) Ha HF) as [Hok' Hlast].
  destruct (lb_try_ok peak v t0 tmax Hp Hv H0 ltac:(lia) Hno _ t Hok' ltac:(lia) Ht) as (b & l' & E & Hb & _ & _ & _).
  rewrite lrun_app. simpl. rewrite E. rewrite last_snoc. f_equal. apply Hb. unfold leak. rewrite decide_True by lia.
  destruct Hok' as (_ & _ & ? & _). set (x := lend _ _ _) in *. assert (1 ≤ (t - lb_last x) / second) by (apply Z.div_le_lower_bound; [done|lia]). nia.
Qed.
Print Assumptions leaky_bucket_recovers_partial.
Example leaky_case : let ts := [0; 1; 2; 3; second; second + 1; 3 * second] in
  lb_fits 3 1 0 (2 ^ 62) ∧ ascending 0 ts ∧
  lrun lb_try (lb_new 3 1 0) ts = [true; true; true; false; true; false; true].
Proof. vm_compute. split_and!; done. Qed.
(** Without the bound the product wraps: the level leaves 0..peak and an idle bucket refuses. *)
Theorem leaky_bucket_overflow_refuted : ∃ peak v t0 ts,
  is_i64 peak ∧ is_i64 v ∧ 0 < peak ∧ 0 < v ∧ ascending t0 ts ∧ Forall (λ t, 0 ≤ t < 2 ^ 63) ts ∧
  t0 + 2 * second ≤ default 0 (last ts) ∧ lrun lb_try (lb_new peak v t0) ts = [true; false] ∧
  peak < lb_level (lend lb_try (lb_new peak v t0) ts).
Proof.
  exists 5, (2 ^ 63 - 50), 0, [0; 2 * second]. 
  split; [unfold is_i64; lia|]. split; [unfold is_i64; lia|]. split; [lia|]. split; [lia|]. split; [simpl; unfold second; lia|].
  split; [repeat (apply Forall_cons; split; [unfold second; lia|]); by apply Forall_nil|].
  split; [simpl; lia|]. split; by vm_compute.
Qed.
Print Assumptions leaky_bucket_overflow_refuted.

(** ** C30: token bucket *)
Theorem token_bucket_bounds_partial : ∀ cap v t0 tmax ts,
  lb_fits cap v t0 tmax → ascending t0 ts → Forall (λ t, t ≤ tmax) ts →
  (∀ a b, a ≤ b → hits a b (grants ts (lrun tb_try (tb_new cap v t0) ts)) ≤ cap + v * ((b - a) / 1000000000 + 1)) ∧
  (∀ n, 0 ≤ tb_tokens (lend tb_try (tb_new cap v t0) (take n ts)) ≤ cap) ∧
  (∀ n, lrun tb_try (tb_new cap v t0) ts !! n = Some false → tb_tokens (lend tb_try (tb_new cap v t0) (take (S n) ts)) = 0).
Proof.
  intros cap v t0 tmax ts (Hp & Hv & H0 & Htm & Hno) Ha HF.
  change 1000000000 with second in *.
  assert (tb_ok cap v t0 (tb_new cap v t0)) as Hok. { unfold tb_ok. simpl. split_and!; try done; lia. }
  assert (∀ n, ascending t0 (take n ts) ∧ Forall (λ t, t ≤ tmax) (take n ts)) as Hpre.
  { intros n. split; [|by apply Forall_take]. rewrite <-(take_drop n ts) in Ha. by apply ascending_app in Ha as [? _]. }
  split_and!.
  - intros a b Hab. eapply (tb_interval cap v t0 tmax Hp Hv H0 ltac:(lia) Hno a b ts _ t0 Hab Hok); [simpl; lia|done|done].
  - intros n. destruct (Hpre n) as [Ha' HF']. destruct (tb_end cap v t0 tmax Hp Hv H0 ltac:(lia) Hno (take n ts) _ t0 Hok ltac:(simpl; lia) Ha' HF') as [(_ & _ & ? & _) _]. done.
  - intros n Hn. assert (n < length ts)%nat as Hlt. { apply lookup_lt_Some in Hn. by rewrite lrun_length in Hn. }
    destruct (lookup_lt_is_Some_2 ts n Hlt) as [t Et]. destruct (Hpre n) as [Ha' HF'].
    destruct (tb_end cap v t0 tmax Hp Hv H0 ltac:(lia) Hno (take n ts) _ t0 Hok ltac:(simpl; lia) Ha' HF') as [Hok' Hlast].
    pose proof (take_S_r _ _ _ Et) as ES. rewrite ES.
    assert (ascending t0 (take n ts ++ [t])) as Hat by (rewrite <-ES; apply Hpre). apply ascending_app in Hat as [_ [Hle _]].
    assert (t ≤ tmax) as Htt. { rewrite Forall_lookup in HF. exact (HF n t Et). }
    destruct (tb_try_ok cap v t0 tmax Hp Hv H0 ltac:(lia) Hno _ t Hok' ltac:(lia) Htt) as (b & l' & E & Hb & Hok2 & _ & Hlev).
    assert (∀ l, lend tb_try l (take n ts ++ [t]) = (tb_try (lend tb_try l (take n ts)) t).2) as Eend.
    { generalize (take n ts). clear. induction l as [|u l IH]; intros l0; [done|]. simpl. by rewrite IH. }
    rewrite Eend, E. simpl.
    assert (b = false) as ->.
    { rewrite <-(take_drop_middle _ _ _ Et), lrun_app in Hn. rewrite lookup_app_r in Hn by (rewrite lrun_length, take_length; lia).
      rewrite lrun_length, take_length, Nat.min_l in Hn by lia. rewrite Nat.sub_diag in Hn. simpl in Hn. rewrite E in Hn. by injection Hn. }
    rewrite Hlev. destruct Hok2 as (_ & _ & Hr & _). rewrite Hlev in Hr. destruct (decide (0 < issue cap v (lend tb_try (tb_new cap v t0) (take n ts)) t)) as [D|D]; [|lia].
    exfalso. by apply Hb in D.
Qed.
Print Assumptions token_bucket_bounds_partial.
Theorem token_bucket_recovers_partial : ∀ cap v t0 tmax ts t,
  lb_fits cap v t0 tmax → 0 < cap → 0 < v → ascending t0 (ts ++ [t]) → Forall (λ t, t ≤ tmax) (ts ++ [t]) →
  default t0 (last ts) + 1000000000 ≤ t → last (lrun tb_try (tb_new cap v t0) (ts ++ [t])) = Some true.
Proof.
  intros cap v t0 tmax ts t (Hp & Hv & H0 & Htm & Hno) Hp1 Hv1 Ha HF Hsec.
  change 1000000000 with second in *.
  assert (tb_ok cap v t0 (tb_new cap v t0)) as Hok. { unfold tb_ok. simpl. split_and!; try done; lia. }
  apply ascending_app in Ha as [Ha [Hle _]]. apply Forall_app in HF as [HF [Ht _]%Forall_cons].
  destruct (tb_end cap v t0 tmax Hp Hv H0 ltac:(lia) Hno ts _ t0 Hok ltac:(simpl; lia) Ha HF) as [Hok' Hlast].
  destruct (tb_try_ok cap v t0 tmax Hp Hv H0 ltac:(lia) Hno _ t Hok' ltac:(lia) Ht) as (b & l' & E & Hb & _ & _ & _).
  rewrite lrun_app. simpl. rewrite E. rewrite last_snoc. f_equal. apply Hb. unfold issue. rewrite decide_True by lia.
  destruct Hok' as (_ & _ & ? & _). set (x := lend _ _ _) in *. assert (1 ≤ (t - tb_last x) / second) by (apply Z.div_le_lower_bound; [done|lia]). nia.
Qed.
Print Assumptions token_bucket_recovers_partial.
Example token_case : let ts := [0; second; second + 1; 5 * second; 5 * second; 5 * second; 5 * second] in
  lb_fits 3 1 0 (2 ^ 62) ∧ ascending 0 ts ∧
  lrun tb_try (tb_new 3 1 0) ts = [false; true; false; true; true; true; false].
Proof. vm_compute. split_and!; done. Qed.
(** A rate of 2^62 per second: after two idle seconds the token count wraps to -2^63 and the
    bucket of capacity 1 grants more than 2^62 calls at one instant. *)
Theorem token_bucket_overflow_refuted : ∃ cap v t0 t, is_i64 cap ∧ is_i64 v ∧ 0 < cap ∧ 0 < v ∧ 0 ≤ t0 ≤ t ∧ t < 2 ^ 63 ∧
  ∀ n : nat, Z.of_nat n < 2 ^ 62 → lrun tb_try (tb_new cap v t0) (replicate n t) = replicate n true.
Proof.
  exists 1, (2 ^ 62), 0, (2 * second). do 2 (split; [unfold is_i64; lia|]). do 2 (split; [lia|]). do 2 (split; [unfold second; lia|]).
  assert (∀ n x, Z.of_nat n < x → x < 2 ^ 63 → lrun tb_try (TB 1 x (2 ^ 62) (2 * second)) (replicate n (2 * second)) = replicate n true) as Hpos.
  { induction n as [|n IH]; intros x Hx Hm; [done|]. cbn [replicate lrun]. unfold tb_try.
    change (time_sub (2 * second) (tb_last (TB 1 x (2 ^ 62) (2 * second)))) with 0. rewrite (decide_False (P := second ≤ 0)) by (unfold second; lia). cbn [tb_tokens tb_capacity tb_rate tb_last].
    rewrite decide_False by lia. rewrite i64_id by (unfold is_i64; lia). f_equal. apply IH; lia. }
  intros [|n] Hn; [done|]. cbn [replicate lrun].
  replace (tb_try (tb_new 1 (2 ^ 62) 0) (2 * second)) with (true, TB 1 (2 ^ 63 - 1) (2 ^ 62) (2 * second)) by by vm_compute.
  f_equal. apply Hpos; lia.
Qed.
Print Assumptions token_bucket_overflow_refuted.

(** ** C31, C32: sliding window *)
Lemma sw_new_ok limit window small : 0 < small → 0 < window < 2 ^ 63 → Z.rem window small = 0 →
  ∃ l, sw_new limit window small = Ret (Some l) ∧ sw_ok limit small (window / small) [] 0 ((0 / small - (window / small - 1)) * small) l ∧
    0 < window / small ∧ window / small * small = window.
Proof.
  intros Hs Hw Hr. unfold sw_new. rewrite decide_False by lia. rewrite decide_False by tauto.
  assert (window = window / small * small) as E. { rewrite Z.rem_mod_nonneg in Hr by lia. pose proof (Z.div_mod window small ltac:(lia)) as Hd. rewrite Hr in Hd. lia. }
  eexists. split; [reflexivity|]. split_and!; [|nia|done]. unfold sw_ok. simpl. rewrite Z.quot_div_nonneg by lia. rewrite i64_id by (unfold is_i64; nia).
  split_and!; try done; try (by intros ? ?%elem_of_nil); lia.
Qed.
(** C32: the answers are exactly those of counting grants per sub-window *)
Theorem sliding_window_exact : ∀ limit window small ts,
  is_i64 limit → 0 < small → 0 < window < 2 ^ 63 → Z.rem window small = 0 → ascending 0 ts → Forall (λ t, t < 2 ^ 63) ts →
  ∃ l, sw_new limit window small = Ret (Some l) ∧ exact (sw_allowed limit small (window / small)) [] ts (lrun sw_try l ts).
Proof.
  intros limit window small ts Hl Hs Hw Hr Ha HF. destruct (sw_new_ok limit window small Hs Hw Hr) as (l & E & Hok & Hn & Hnw). exists l. split; [done|].
  eapply (sw_run_exact limit small (window / small) Hs Hn ltac:(lia) Hl); [exact Hok|done|].
  apply Forall_forall. intros t Ht. rewrite Forall_forall in HF. specialize (HF t Ht). pose proof (ascending_ge _ _ _ Ha Ht). lia.
Qed.
Print Assumptions sliding_window_exact.
(** hence any window/small consecutive sub-windows hold at most limit grants *)
Theorem sliding_window_consecutive : ∀ limit window small ts l first,
  is_i64 limit → 0 < small → 0 < window < 2 ^ 63 → Z.rem window small = 0 → ascending 0 ts → Forall (λ t, t < 2 ^ 63) ts →
  sw_new limit window small = Ret (Some l) →
  Z.of_nat (length (filter (λ t, first ≤ sub_no small t < first + window / small) (grants ts (lrun sw_try l ts)))) ≤ Z.max 0 limit.
Proof.
  intros limit window small ts l first Hl Hs Hw Hr Ha HF E.
  destruct (sliding_window_exact limit window small ts Hl Hs Hw Hr Ha HF) as (l' & E' & HE). assert (l' = l) as -> by congruence.
  pose proof (exact_bound _ (λ t, first ≤ sub_no small t < first + window / small) (Z.max 0 limit) 0 [] ts _ HE Ha) as HB.
  simpl in HB. apply HB; [by intros ? ?%elem_of_nil| |lia].
  intros p t Hp Ht Hal. unfold sw_allowed, recent in Hal.
  assert (length (filter (λ t, (first ≤ sub_no small t < first + window / small)%Z) p) ≤
          length (filter (λ t', (sub_no small t - window / small < sub_no small t' ≤ sub_no small t)%Z) p))%nat as HM; [|lia].
  apply filter_length_mono. intros x Hx Hr'. specialize (Hp x Hx). unfold sub_no in *.
  assert (x / small ≤ t / small) by (apply Z.div_le_mono; lia). lia.
Qed.
Print Assumptions sliding_window_consecutive.
Example sliding_window_case : ∃ l, sw_new 2 30 10 = Ret (Some l) ∧
  lrun sw_try l [5; 12; 13; 29; 30; 31; 40; 59; 60] = [true; true; false; false; true; false; true; false; true].
Proof. eexists. split; [reflexivity|]. by vm_compute. Qed.

(** C31 is false of intervals of length window ... *)
Theorem sliding_window_interval_refuted : ∃ limit window small l ts a,
  0 < limit ∧ 0 < small ∧ 0 < window ∧ sw_new limit window small = Ret (Some l) ∧ ascending 0 ts ∧
  limit < hits a (a + 1) (grants ts (lrun sw_try l ts)) ∧ 1 < window.
Proof. eexists 1, 10, 10, _, [9; 10], 9. do 3 (split; [lia|]). split; [reflexivity|]. split; [simpl; lia|]. by vm_compute. Qed.
Print Assumptions sliding_window_interval_refuted.
(** ... but intervals of length window - small, and hence twice the limit for window + small, are safe *)
Lemma hits_filter a b (R : Z → Prop) `{∀ x, Decision (R x)} gs :
  (∀ t, t ∈ gs → a ≤ t ≤ b → R t) → hits a b gs ≤ Z.of_nat (length (filter R gs)).
Proof. intros HR. unfold hits. apply Nat2Z.inj_le. by apply filter_length_mono. Qed.
Lemma hits_split a m b gs : a ≤ m → hits a b gs ≤ hits a m gs + hits (m + 1) b gs.
Proof.
  intros Ham. induction gs as [|t gs IH]; [done|]. rewrite !hits_cons. repeat case_decide; lia.
Qed.
Theorem sliding_window_interval_partial : ∀ limit window small ts l a b,
  is_i64 limit → 0 < small → 0 < window < 2 ^ 63 → Z.rem window small = 0 → ascending 0 ts → Forall (λ t, t < 2 ^ 63) ts →
  sw_new limit window small = Ret (Some l) →
  (b - a ≤ window - small → hits a b (grants ts (lrun sw_try l ts)) ≤ Z.max 0 limit) ∧
  (small < window → b - a ≤ 2 * (window - small) → hits a b (grants ts (lrun sw_try l ts)) ≤ 2 * Z.max 0 limit) ∧
  (b - a < window → hits a b (grants ts (lrun sw_try l ts)) ≤ 2 * Z.max 0 limit).
Proof.
  intros limit window small ts l a b Hl Hs Hw Hr Ha HF E.
  assert (window / small * small = window) as Ew. { rewrite Z.rem_mod_nonneg in Hr by lia. pose proof (Z.div_mod window small ltac:(lia)) as Hd. rewrite Hr in Hd. lia. }
  assert (∀ a b, b - a ≤ window - small → hits a b (grants ts (lrun sw_try l ts)) ≤ Z.max 0 limit) as H1.
  { intros a' b' Hab. etrans; [|exact (sliding_window_consecutive limit window small ts l (a' / small) Hl Hs Hw Hr Ha HF E)].
    apply hits_filter. intros t _ Ht. unfold sub_no. split; [apply Z.div_le_mono; lia|].
    apply Z.div_lt_upper_bound; [done|]. pose proof (Z.mod_pos_bound a' small Hs) as Hm. rewrite Z.mod_eq in Hm by lia. nia. }
  split_and!.
  - apply H1.
  - intros Hlt Hab. pose proof (hits_split a (a + (window - small)) b (grants ts (lrun sw_try l ts)) ltac:(lia)) as HS.
    pose proof (H1 a (a + (window - small)) ltac:(lia)). pose proof (H1 (a + (window - small) + 1) b ltac:(lia)). lia.
  - intros Hab. (* split at the sub-window boundary after a *)
    set (m := (a / small + 1) * small - 1).
    assert (1 ≤ window / small) as H1n by (clear -Ew Hw Hs; nia).
    assert (a ≤ m) as Ham. { subst m. pose proof (Z.mod_pos_bound a small Hs) as Hm. rewrite Z.mod_eq in Hm by lia. lia. }
    pose proof (hits_split a m b (grants ts (lrun sw_try l ts)) Ham) as HS.
    assert (hits a m (grants ts (lrun sw_try l ts)) ≤ Z.max 0 limit) as HA.
    { etrans; [|exact (sliding_window_consecutive limit window small ts l (a / small) Hl Hs Hw Hr Ha HF E)].
      apply hits_filter. intros t _ Ht. unfold sub_no. split; [apply Z.div_le_mono; lia|]. apply Z.div_lt_upper_bound; [done|]. subst m. clear -Ht H1n Hs. nia. }
    assert (hits (m + 1) b (grants ts (lrun sw_try l ts)) ≤ Z.max 0 limit) as HB.
    { etrans; [|exact (sliding_window_consecutive limit window small ts l (a / small + 1) Hl Hs Hw Hr Ha HF E)].
      apply hits_filter. intros t _ Ht. unfold sub_no. split.
      - apply Z.div_le_lower_bound; [done|]. subst m. lia.
      - apply Z.div_lt_upper_bound; [done|]. subst m. pose proof (Z.mul_div_le a small Hs). pose proof (Z.mod_pos_bound a small Hs) as Hm. rewrite Z.mod_eq in Hm by lia. nia. }
    lia.
Qed.
Print Assumptions sliding_window_interval_partial.
(** the constructor: zero sub-window panics, otherwise only non-multiples are rejected *)
Theorem sliding_window_new : ∀ limit window small,
  match sw_new limit window small with
  | Ret (Some _) => small ≠ 0 ∧ Z.rem window small = 0
  | Ret None => small ≠ 0 ∧ Z.rem window small ≠ 0
  | Panic PDivZero => small = 0
  | _ => False
  end.
Proof. intros. unfold sw_new. repeat case_decide; try done. Qed.
Print Assumptions sliding_window_new.

(** ** C33, C34: sliding log *)
(** the caller's strategies, as (limit, window) *)
Definition pairs (h : sheap) (ps : list nat) : list (Z * Z) := default (0, 0) <$> ((λ p, pr <$> h !! p) <$> ps).
(** what sort.Slice promises about its result: a permutation, and no element belongs before its predecessor *)
Definition sort_slice (h : sheap) (ps sorted : list nat) : Prop :=
  sorted ≡ₚ ps ∧ ∀ i p q s s', sorted !! i = Some p → sorted !! S i = Some q → h !! p = Some s → h !! q = Some s' → before s' s = false.
Lemma pairs_Sorted h ps sorted : (∀ p, p ∈ ps → is_Some (h !! p)) → sort_slice h ps sorted → StronglySorted ple (pairs h sorted).
Proof.
  intros Hval [HP Hs]. assert (∀ p, p ∈ sorted → is_Some (h !! p)) as Hval'. { intros p Hp. apply Hval. by rewrite <-HP. }
  clear HP Hval ps. apply Sorted_StronglySorted; [apply ple_trans|]. unfold pairs.
  induction sorted as [|p l IH]; [constructor|]. simpl. constructor.
  - apply IH; [intros i q q' s s' H1 H2; exact (Hs (S i) q q' s s' H1 H2)|]. intros q Hq. apply Hval'. by right.
  - destruct l as [|q l]; [constructor|]. simpl. constructor.
    destruct (Hval' p) as [s Es]; [by left|]. destruct (Hval' q) as [s' Es']; [by right; left|]. rewrite Es, Es'. simpl. apply before_ple.
    exact (Hs 0%nat p q s s' eq_refl eq_refl Es Es').
Qed.
Theorem sliding_log_new_exact : ∀ small ps sorted h,
  small ≠ 0 → (∀ p, p ∈ ps → is_Some (h !! p)) → sort_slice h ps sorted →
  ∃ r h', sl_new small sorted h = (Ret r, h') ∧ (is_Some r ↔ consistent small (pairs h ps)) ∧ same_pairs h h' ∧ (∀ p, p ∉ ps → h' !! p = h !! p) ∧
    ∀ l, r = Some l → l = SL sorted small ∅ ∧ ∀ p s, p ∈ ps → h' !! p = Some s → st_smalls s = i64 (Z.quot (st_window s) small).
Proof.
  intros small ps sorted h Hsm Hval Hsort. pose proof (pairs_Sorted h ps sorted Hval Hsort) as HS. destruct Hsort as [HP _].
  assert (pairs h sorted ≡ₚ pairs h ps) as HPP. { unfold pairs. by rewrite HP. }
  assert (consistent small (pairs h ps) ↔ consistent small (pairs h sorted)) as Hcp. { split; apply consistent_perm; [by symmetry|done]. }
  destruct sorted as [|p0 srt].
  { exists None, h. split; [done|]. split; [|split_and!; [done|done|done]]. rewrite Hcp. split; [by intros [? ?]|]. by intros [? _]. }
  destruct (sl_check_ok small (p0 :: srt) Hsm h None) as (r & h' & E & Hr & Hsame & Hout & Hok).
  { intros p Hp. apply Hval. by rewrite <-HP. }
  unfold sl_new. rewrite E. change (default (0, 0) <$> ((λ p, pr <$> h !! p) <$> p0 :: srt)) with (pairs h (p0 :: srt)) in Hr. simpl in Hr.
  assert (chain small None (pairs h (p0 :: srt)) ↔ consistent small (pairs h (p0 :: srt))) as Hcc by exact (chain_consistent small _ _ HS).
  exists (if r then Some (SL (p0 :: srt) small ∅) else None), h'. split; [by destruct r|]. split_and!.
  - rewrite Hcp, <-Hcc. change (chain small None (pairs h (p0 :: srt))) with
      (True ∧ Z.rem (default (0, 0) (pr <$> h !! p0)).2 small = 0 ∧ chain small (Some (default (0, 0) (pr <$> h !! p0))) (pairs h srt)).
    rewrite <-Hr. destruct r; split; try done; try (by intros _; eexists); by intros [? ?].
  - done.
  - intros p Hp. apply Hout. by rewrite HP.
  - intros l Hl. destruct r; [|done]. injection Hl as <-. split; [done|]. intros p s Hp Hs. eapply (Hok eq_refl); [left; by rewrite HP|done].
Qed.
Print Assumptions sliding_log_new_exact.
(** hence the outcome does not depend on the order of the arguments *)
Theorem sliding_log_new_order : ∀ small ps ps' sorted sorted' h,
  small ≠ 0 → (∀ p, p ∈ ps → is_Some (h !! p)) → ps ≡ₚ ps' → sort_slice h ps sorted → sort_slice h ps' sorted' →
  ∃ r r' h1 h2, sl_new small sorted h = (Ret r, h1) ∧ sl_new small sorted' h = (Ret r', h2) ∧ (is_Some r ↔ is_Some r').
Proof.
  intros small ps ps' sorted sorted' h Hsm Hval HP Hs Hs'.
  assert (∀ p, p ∈ ps' → is_Some (h !! p)) as Hval' by (intros p Hp; apply Hval; by rewrite HP).
  destruct (sliding_log_new_exact small ps sorted h Hsm Hval Hs) as (r & h1 & E1 & H1 & _).
  destruct (sliding_log_new_exact small ps' sorted' h Hsm Hval' Hs') as (r' & h2 & E2 & H2 & _).
  exists r, r', h1, h2. split_and!; [done..|]. rewrite H1, H2. assert (pairs h ps ≡ₚ pairs h ps') as HPP by (unfold pairs; by rewrite HP).
  split; apply consistent_perm; [done|by symmetry].
Qed.
Print Assumptions sliding_log_new_order.

(** C33: as long as nobody else changes the strategies *)
Theorem sliding_log_exact : ∀ small ps sorted h l h' ts,
  0 < small → (∀ p, p ∈ ps → ∃ s, h !! p = Some s ∧ is_i64 (st_limit s) ∧ 0 < st_window s < 2 ^ 63) → sort_slice h ps sorted →
  sl_new small sorted h = (Ret (Some l), h') → ascending 0 ts → Forall (λ t, t < 2 ^ 63) ts →
  sl_exact small (pairs h ps) [] ts (sl_run l h' ts).
Proof.
  intros small ps sorted h l h' ts Hsm Hval Hsort E Ha HF.
  assert (∀ p, p ∈ ps → is_Some (h !! p)) as Hval'. { intros p Hp. destruct (Hval p Hp) as (s & Hs & _). by eexists. }
  destruct (sliding_log_new_exact small ps sorted h ltac:(lia) Hval' Hsort) as (r & h1 & E1 & Hc & Hsame & _ & Hl).
  rewrite E in E1. injection E1 as <- <-. destruct (Hl l eq_refl) as [-> Hsmalls].
  assert (consistent small (pairs h ps)) as Hcons by (apply Hc; by eexists). clear Hc Hl E.
  pose proof (pairs_Sorted h ps sorted Hval' Hsort) as HS. destruct Hsort as [HP _].
  assert (∃ ss, mapM (λ p, h' !! p) sorted = Some ss) as [ss Ess].
  { apply mapM_is_Some_2, Forall_forall. intros p Hp. assert (p ∈ ps) as Hp' by by rewrite <-HP. destruct (Hval' p Hp') as [s Hs].
    specialize (Hsame p). rewrite Hs in Hsame. simpl. destruct (h' !! p); [by eexists|done]. }
  assert (pr <$> ss = pairs h sorted) as Epr.
  { clear -Ess Hsame. unfold pairs. revert ss Ess. induction sorted as [|p l IH]; intros ss Ess; simpl in Ess; [by injection Ess as <-|].
    destruct (h' !! p) as [s|] eqn:Hs; [|done]. simpl in Ess. destruct (mapM (λ p, h' !! p) l) as [ss'|] eqn:El; [|done]. simpl in Ess. injection Ess as <-.
    cbn [fmap list_fmap]. rewrite (Hsame p), Hs. f_equal. by apply IH. }
  assert (∀ s, s ∈ ss → ∃ p, p ∈ ps ∧ h' !! p = Some s) as Hin.
  { intros s Hs. apply mapM_Some in Ess. apply elem_of_list_lookup in Hs as [i Hi]. destruct (Forall2_lookup_r _ _ _ _ _ Ess Hi) as (p & Hp & Hps).
    exists p. split; [|done]. rewrite <-HP. by eapply elem_of_list_lookup_2. }
  assert (∀ s, s ∈ ss → is_i64 (st_limit s) ∧ 0 < st_window s < 2 ^ 63 ∧ Z.rem (st_window s) small = 0 ∧ st_smalls s = i64 (Z.quot (st_window s) small)) as Hgood.
  { intros s Hs. destruct (Hin s Hs) as (p & Hp & Hlk). destruct (Hval p Hp) as (s1 & Hs1 & Hli & Hwi).
    specialize (Hsame p) as Hsp. rewrite Hs1, Hlk in Hsp. simpl in Hsp. injection Hsp as El Ew.
    split_and!; [by rewrite <-El|lia|lia| |by eapply Hsmalls].
    destruct Hcons as (_ & Hrem & _). specialize (Hrem (pr s)). apply Hrem. apply elem_of_list_fmap. exists (Some (pr s1)).
    split; [simpl; unfold pr; by rewrite El, Ew|]. apply elem_of_list_fmap. exists p. split; [by rewrite Hs1|done]. }
  assert (ss ≠ []) as Hne. { intros ->. destruct Hcons as (Hn & _). apply Hn. assert (pairs h sorted ≡ₚ pairs h ps) as HPP by (unfold pairs; by rewrite HP).
    rewrite <-Epr in HPP. simpl in HPP. by apply Permutation_nil_l in HPP. }
  assert (sl_exact small (pr <$> ss) [] ts (sl_run (SL sorted small ∅) h' ts)) as HX.
  { destruct ss as [|s0 ss'] eqn:Es0; [done|]. rewrite <-Es0 in *.
    eapply (sl_run_exact small Hsm h' ss ltac:(by rewrite Epr) Hgood ts Hne [] 0 (lo_of small s0 0)); [|done|].
    - unfold sl_ok. simpl. split_and!; try done; [by intros ? ?%elem_of_nil|]. intros s Hs. rewrite Es0 in Hs. injection Hs as <-. split; [done|lia].
    - apply Forall_forall. intros t Ht. rewrite Forall_forall in HF. specialize (HF t Ht). pose proof (ascending_ge _ _ _ Ha Ht). lia. }
  (* the specification does not see the order of the strategies *)
  assert (∀ x, x ∈ pr <$> ss ↔ x ∈ pairs h ps) as Hmem. { intros x. rewrite Epr. unfold pairs. by rewrite HP. }
  revert HX. generalize (sl_run (SL sorted small ∅) h' ts). clear -Hmem. generalize (@nil Z). induction ts as [|t ts IH]; intros past [|r rs] HX; try done.
  destruct HX as [Hans HX]. split; [|by apply IH]. unfold sl_answer in *. destruct r as [[e|]| |]; try done; setoid_rewrite <-Hmem; done.
Qed.
Print Assumptions sliding_log_exact.
Definition sl_demo : sheap := {[ 0%nat := st_new 2 20; 1%nat := st_new 3 40 ]}.
Example sliding_log_case : ∃ l h', sort_slice sl_demo [0; 1]%nat [1; 0]%nat ∧ sl_new 10 [1; 0]%nat sl_demo = (Ret (Some l), h') ∧
  sl_run l h' [0; 1; 2; 20; 21; 40] = [Ret None; Ret None; Ret (Some (2, 20)); Ret None; Ret (Some (3, 40)); Ret None].
Proof.
  do 2 eexists. split_and!; [|reflexivity|by vm_compute]. split; [constructor|].
  intros [|[|i]] p q s s' H1 H2 H3 H4; try done. injection H1 as <-. injection H2 as <-. vm_compute in H3, H4. injection H3 as <-. injection H4 as <-. by vm_compute.
Qed.
(** C34, last part, is false: the copy of the argument list shares the strategy objects, and
    building a second limiter from one of them changes the first. *)
Theorem sliding_log_alias_refuted : ∃ h l h1 l2 h2 ts,
  sl_new 10 [0]%nat h = (Ret (Some l), h1) ∧ sl_new 5 [0]%nat h1 = (Ret (Some l2), h2) ∧ ascending 0 ts ∧
  sl_run l h1 ts ≠ sl_run l h2 ts.
Proof.
  exists {[0%nat := st_new 1 10]}. do 4 eexists. exists [5; 15]. split_and!; [reflexivity|reflexivity|vm_compute; split_and!; done|]. by vm_compute.
Qed.
Print Assumptions sliding_log_alias_refuted.
Theorem sliding_log_zero_panics : ∀ p ps h s, h !! p = Some s → sl_new 0 (p :: ps) h = (Panic PDivZero, h).
Proof. intros p ps h s E. unfold sl_new. simpl. by rewrite E. Qed.
Print Assumptions sliding_log_zero_panics.
