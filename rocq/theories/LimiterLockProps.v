(** * The limiters under concurrency (C35): any number of goroutines, any interleaving *)
From stdpp Require Import gmap sorting.
From Verif Require Import GoBase LimiterModel LimiterSpec LimiterProofs LimiterProps LockModel LockSpec LockProofs LockProps LimiterLockModel LimiterLockProofs.
Local Open Scope Z_scope.

(** the clock as the goroutines saw it, in the order they read it *)
Definition clock {L R} (c : cfg L input unit R) : list Z := i_now <$> seen c.
Definition outcomes {L R} (c : cfg L input unit R) : list R := e_res <$> log c.

Theorem fixed_window_concurrent : ∀ limit w t0 c,
  is_i64 limit → 0 ≤ w → 0 ≤ t0 → ascending t0 (clock c) → Forall (λ t, t < 2 ^ 63) (t0 :: clock c) → Forall in_ok (seen c) →
  reach fw_body (fw_new limit w t0) c →
  fw_exact limit w t0 [] (readings c) (outcomes c) ∧
  ∀ a b, b ≤ a + w → hits a b (grants (readings c) (outcomes c)) ≤ 2 * Z.max 0 limit.
Proof.
  intros limit w t0 c Hl Hw H0 Ha HF Hok Hr.
  destruct (limiter_run fw_try fw_body (λ l i _, fw_body_ok l i) fw_uses _ c Hr Hok) as (E & Hp & _). unfold outcomes. rewrite E, answers_lrun.
  assert (ascending t0 (readings c)) by (by eapply ascending_prefix).
  assert (Forall (λ t, t < 2 ^ 63) (t0 :: readings c)). { apply Forall_cons in HF as [? HF]. apply Forall_cons. split; [done|]. destruct Hp as [k Hk]. unfold clock in HF. rewrite Hk in HF. by apply Forall_app in HF as [? _]. }
  split; [by apply fixed_window_exact|]. intros a b Hab. by apply fixed_window_any_interval.
Qed.
Print Assumptions fixed_window_concurrent.

Theorem leaky_bucket_concurrent_partial : ∀ peak v t0 tmax c,
  lb_fits peak v t0 tmax → ascending t0 (clock c) → Forall (λ t, t ≤ tmax) (clock c) → Forall in_ok (seen c) →
  reach lb_body (lb_new peak v t0) c →
  ∀ a b, a ≤ b → hits a b (grants (readings c) (outcomes c)) ≤ peak + v * ((b - a) / 1000000000 + 1).
Proof.
  intros peak v t0 tmax c Hfit Ha HF Hok Hr.
  destruct (limiter_run lb_try lb_body (λ l i _, lb_body_ok l i) lb_uses _ c Hr Hok) as (E & Hp & _). unfold outcomes. rewrite E, answers_lrun.
  eapply (leaky_bucket_bounds_partial peak v t0 tmax (readings c) Hfit); [by eapply ascending_prefix|].
  destruct Hp as [k Hk]. unfold clock in HF. rewrite Hk in HF. by apply Forall_app in HF as [? _].
Qed.
Print Assumptions leaky_bucket_concurrent_partial.

Theorem token_bucket_concurrent_partial : ∀ cap v t0 tmax c,
  lb_fits cap v t0 tmax → ascending t0 (clock c) → Forall (λ t, t ≤ tmax) (clock c) → Forall in_ok (seen c) →
  reach tb_body (tb_new cap v t0) c →
  ∀ a b, a ≤ b → hits a b (grants (readings c) (outcomes c)) ≤ cap + v * ((b - a) / 1000000000 + 1).
Proof.
  intros cap v t0 tmax c Hfit Ha HF Hok Hr.
  destruct (limiter_run tb_try tb_body (λ l i _, tb_body_ok l i) tb_uses _ c Hr Hok) as (E & Hp & _). unfold outcomes. rewrite E, answers_lrun.
  eapply (token_bucket_bounds_partial cap v t0 tmax (readings c) Hfit); [by eapply ascending_prefix|].
  destruct Hp as [k Hk]. unfold clock in HF. rewrite Hk in HF. by apply Forall_app in HF as [? _].
Qed.
Print Assumptions token_bucket_concurrent_partial.

Theorem sliding_window_concurrent : ∀ limit window small l c,
  is_i64 limit → 0 < small → 0 < window < 2 ^ 63 → Z.rem window small = 0 → sw_new limit window small = Ret (Some l) →
  ascending 0 (clock c) → Forall (λ t, t < 2 ^ 63) (clock c) → Forall in_ok (seen c) →
  reach sw_body l c → exact (sw_allowed limit small (window / small)) [] (readings c) (outcomes c).
Proof.
  intros limit window small l c Hl Hs Hw Hr E Ha HF Hok Hrc.
  destruct (limiter_run sw_try sw_body sw_body_ok sw_uses _ c Hrc Hok) as (E1 & Hp & _). unfold outcomes. rewrite E1, answers_lrun.
  destruct (sliding_window_exact limit window small (readings c) Hl Hs Hw Hr) as (l' & E' & HE).
  - by eapply ascending_prefix.
  - destruct Hp as [k Hk]. unfold clock in HF. rewrite Hk in HF. by apply Forall_app in HF as [? _].
  - by assert (l' = l) as -> by congruence.
Qed.
Print Assumptions sliding_window_concurrent.

Theorem sliding_log_concurrent : ∀ small ps sorted h l h' c,
  0 < small → (∀ p, p ∈ ps → ∃ s, h !! p = Some s ∧ is_i64 (st_limit s) ∧ 0 < st_window s < 2 ^ 63) → sort_slice h ps sorted →
  sl_new small sorted h = (Ret (Some l), h') → ascending 0 (clock c) → Forall (λ t, t < 2 ^ 63) (clock c) → Forall in_ok (seen c) →
  reach (sl_body h') l c → sl_exact small (pairs h ps) [] (readings c) (outcomes c).
Proof.
  intros small ps sorted h l h' c Hs Hv Hsort E Ha HF Hok Hrc.
  destruct (limiter_run (λ l, sl_try l h') (sl_body h') (sl_body_ok h') (sl_uses h') _ c Hrc Hok) as (E1 & Hp & _). unfold outcomes. rewrite E1.
  assert (∀ ts l, answers (λ l, sl_try l h') l ts = sl_run l h' ts) as ->.
  { clear. induction ts as [|t ts IH]; intros l; [done|]. simpl. destruct (sl_try l h' t). simpl. by rewrite IH. }
  eapply sliding_log_exact; try done; [by eapply ascending_prefix|].
  destruct Hp as [k Hk]. unfold clock in HF. rewrite Hk in HF. by apply Forall_app in HF as [? _].
Qed.
Print Assumptions sliding_log_concurrent.

(** two goroutines; the second calls while the first is inside, and is inside while the first has not returned *)
Example concurrent_case : ∃ c : cfg fw input unit bool, reach fw_body (fw_new 1 10 0) c ∧
  (r_tid <$> rets c) = [1; 0]%nat ∧ readings c = [3; 5] ∧ outcomes c = [true; false] ∧ ascending 0 (clock c) ∧ Forall in_ok (seen c).
Proof.
  eexists. split.
  - unfold reach, reachable.
    eapply rtc_l. { eapply (s_inv _ _ _ _ _ _ _ _ _ _ 0%nat tt). reflexivity. }
    eapply rtc_l. { eapply (s_lock _ _ _ _ _ _ _ _ 0%nat); reflexivity. }
    eapply rtc_l. { eapply (s_inv _ _ _ _ _ _ _ _ _ _ 1%nat tt). reflexivity. }
    eapply rtc_l. { eapply (s_ask _ _ _ _ _ _ _ _ _ _ 0%nat _ _ _ _ (In 3 (λ l, l))). reflexivity. }
    eapply rtc_l. { eapply (s_act _ _ _ _ _ _ _ _ _ _ 0%nat); reflexivity. }
    eapply rtc_l. { eapply (s_act _ _ _ _ _ _ _ _ _ _ 0%nat); reflexivity. }
    eapply rtc_l. { eapply (s_act _ _ _ _ _ _ _ _ _ _ 0%nat); reflexivity. }
    eapply rtc_l. { eapply (s_unlock _ _ _ _ _ _ _ _ _ _ 0%nat); reflexivity. }
    eapply rtc_l. { eapply (s_lock _ _ _ _ _ _ _ _ 1%nat); reflexivity. }
    eapply rtc_l. { eapply (s_ask _ _ _ _ _ _ _ _ _ _ 1%nat _ _ _ _ (In 5 (λ l, l))). reflexivity. }
    eapply rtc_l. { eapply (s_act _ _ _ _ _ _ _ _ _ _ 1%nat); reflexivity. }
    eapply rtc_l. { eapply (s_act _ _ _ _ _ _ _ _ _ _ 1%nat); reflexivity. }
    eapply rtc_l. { eapply (s_unlock _ _ _ _ _ _ _ _ _ _ 1%nat); reflexivity. }
    eapply rtc_l. { eapply (s_ret _ _ _ _ _ _ _ _ _ _ 1%nat); reflexivity. }
    eapply rtc_l. { eapply (s_ret _ _ _ _ _ _ _ _ _ _ 0%nat); reflexivity. }
    apply rtc_refl.
  - split_and!; [reflexivity|reflexivity|reflexivity|simpl; lia|]. repeat constructor; intros l; done.
Qed.
