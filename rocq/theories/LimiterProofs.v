(** * The limiters *)
From stdpp Require Import gmap sorting.
From Verif Require Import GoBase LimiterModel LimiterSpec.
Local Open Scope Z_scope.

Lemma time_sub_ok t u : 0 ≤ t < 2 ^ 63 → 0 ≤ u < 2 ^ 63 → time_sub t u = t - u.
Proof. intros. unfold time_sub. lia. Qed.
Lemma grants_cons t ts b bs : grants (t :: ts) (b :: bs) = if b then t :: grants ts bs else grants ts bs.
Proof. unfold grants. simpl. rewrite filter_cons. by destruct b. Qed.
Lemma hits_cons a b t gs : hits a b (t :: gs) = (if decide (a ≤ t ≤ b) then 1 else 0) + hits a b gs.
Proof. unfold hits. rewrite filter_cons. case_decide; simpl; lia. Qed.
Lemma hits_nonneg a b gs : 0 ≤ hits a b gs.
Proof. unfold hits. lia. Qed.
Lemma lrun_length {L} (f : L → Z → bool * L) ts : ∀ l, length (lrun f l ts) = length ts.
Proof. induction ts as [|t ts IH]; intros l; [done|]. simpl. destruct (f l t). simpl. by rewrite IH. Qed.
Lemma lrun_app {L} (f : L → Z → bool * L) ts1 : ∀ l ts2, lrun f l (ts1 ++ ts2) = lrun f l ts1 ++ lrun f (lend f l ts1) ts2.
Proof. induction ts1 as [|t ts1 IH]; intros l ts2; [done|]. simpl. destruct (f l t). simpl. by rewrite IH. Qed.
Lemma ascending_app t0 ts1 ts2 : ascending t0 (ts1 ++ ts2) ↔ ascending t0 ts1 ∧ ascending (default t0 (last ts1)) ts2.
Proof.
  revert t0. induction ts1 as [|t ts1 IH]; intros t0; [simpl; naive_solver|]. simpl. rewrite IH.
  destruct ts1; [simpl; naive_solver|]. change (last (t :: z :: ts1)) with (last (z :: ts1)).
  destruct (last (z :: ts1)) eqn:E; [|by apply last_None in E]. simpl. naive_solver.
Qed.
Lemma ascending_ge t0 ts t : ascending t0 ts → t ∈ ts → t0 ≤ t.
Proof.
  revert t0. induction ts as [|u ts IH]; intros t0; [by intros _ ?%elem_of_nil|]. intros [? Ha] [->|Hin]%elem_of_cons; [done|].
  specialize (IH u Ha Hin). lia.
Qed.
Lemma ascending_weaken t0 t1 ts : ascending t1 ts → t0 ≤ t1 → ascending t0 ts.
Proof. destruct ts; simpl; [done|]. intros [? ?] ?. split; [lia|done]. Qed.

Lemma in_window_cons s s' past : in_window s (s' :: past) = (if decide (s' = s) then 1 else 0) + in_window s past.
Proof. unfold in_window. rewrite filter_cons. case_decide; simpl; lia. Qed.
Lemma in_window_lt s past : Forall (λ x, x < s) past → in_window s past = 0.
Proof.
  intros HF. unfold in_window. induction HF as [|x past Hx _ IH]; [done|]. rewrite filter_cons, decide_False by lia. done.
Qed.

(** ** Fixed window *)
Section FW.
  Variables limit w : Z.
  Hypothesis Hlim : is_i64 limit.
  Hypothesis Hw : 0 ≤ w.
  Let M := Z.max 0 limit.

  Definition fw_ok (l : fw) : Prop := fw_limit l = limit ∧ fw_window l = w ∧ 0 ≤ fw_counter l ≤ M ∧ 0 ≤ fw_last l < 2 ^ 63.
  Lemma fw_try_ok l t : fw_ok l → fw_last l ≤ t → t < 2 ^ 63 →
    let s' := next_start w (fw_last l) t in
    let c' := if decide (s' = fw_last l) then fw_counter l else 0 in
    ∃ b l', fw_try l t = (b, l') ∧ (b = true ↔ c' < limit) ∧ fw_ok l' ∧ fw_last l' = s' ∧ fw_counter l' = c' + (if b then 1 else 0).
  Proof.
    intros (Hl & Hwin & Hc & Hlast) Hle Ht s' c'. unfold fw_try. rewrite time_sub_ok by lia.
    subst s' c'. unfold next_start. rewrite Hwin. unfold is_i64 in Hlim.
    destruct (decide (w < t - fw_last l)) as [Hnew|Hold].
    - rewrite (decide_True (P := t - fw_last l > w)) by lia. simpl. rewrite (decide_False (P := t = fw_last l)) by lia. rewrite Hl.
      case_decide; [eexists false, _|eexists true, _]; (split; [reflexivity|]); unfold fw_ok; simpl; rewrite ?i64_id by (unfold is_i64; lia); split_and!; try done; try lia; try (split; [done|lia]).
    - rewrite (decide_False (P := t - fw_last l > w)) by lia. rewrite (decide_True (P := fw_last l = fw_last l)) by done. rewrite Hl, Hwin.
      case_decide; [eexists false, _|eexists true, _]; (split; [reflexivity|]); unfold fw_ok; simpl; rewrite ?i64_id by (unfold is_i64; lia); split_and!; try done; try lia; try (split; [done|lia]).
  Qed.

  Lemma next_start_ge s t : s ≤ t → s ≤ next_start w s t ≤ t.
  Proof. unfold next_start. case_decide; lia. Qed.

  Lemma fw_run_exact ts : ∀ l past t0, fw_ok l → fw_last l ≤ t0 → ascending t0 ts → Forall (λ t, t < 2 ^ 63) ts →
    Forall (λ x, x ≤ fw_last l) past → in_window (fw_last l) past = fw_counter l →
    fw_exact limit w (fw_last l) past ts (lrun fw_try l ts).
  Proof.
    induction ts as [|t ts IH]; intros l past t0 Hok Hlt Ha Hub Hp Hc; [done|]. destruct Ha as [Ht Ha]. apply Forall_cons in Hub as [Hu Hub].
    destruct (fw_try_ok l t Hok ltac:(lia) Hu) as (b & l' & E & Hb & Hok' & Hs' & Hc'). simpl. rewrite E.
    pose proof (next_start_ge (fw_last l) t ltac:(lia)) as Hns.
    assert (in_window (next_start w (fw_last l) t) past = if decide (next_start w (fw_last l) t = fw_last l) then fw_counter l else 0) as Ein.
    { case_decide as D; [by rewrite D|]. apply in_window_lt. eapply Forall_impl; [exact Hp|]. simpl. intros. lia. }
    split; [by rewrite Hb, Ein|]. rewrite <-Hs'. apply (IH l' _ t); try done.
    - lia.
    - rewrite Hs'. destruct b; [apply Forall_cons; split; [done|]|]; (eapply Forall_impl; [exact Hp|]); simpl; intros; lia.
    - rewrite Hs', Hc', <-Ein. destruct b; [rewrite in_window_cons, decide_True by done|]; lia.
  Qed.
  Lemma fw_exact_bound s past ts bs : fw_exact limit w s past ts bs → (∀ x, in_window x past ≤ M) →
    ∀ x, in_window x (grants (starts w s ts) bs ++ past) ≤ M.
  Proof.
    revert s past bs. induction ts as [|t ts IH]; intros s past [|b bs] HE Hp x; try done. simpl in HE. destruct HE as [Hb HE].
    cbn [starts]. rewrite grants_cons. specialize (IH _ _ _ HE).
    assert (∀ y, in_window y (if b then next_start w s t :: past else past) ≤ M) as Hp'.
    { intros y. destruct b; [|apply Hp]. rewrite in_window_cons. pose proof (proj1 Hb eq_refl). specialize (Hp y). case_decide; subst; lia. }
    specialize (IH Hp' x). destruct b; [|done]. unfold in_window in *. rewrite !filter_app, !app_length in *. simpl.
    rewrite filter_cons in *. case_decide; simpl in *; lia.
  Qed.

  Section Interval.
    Variables a b : Z.
    Hypothesis Hab : b ≤ a + w.
    (** a window that started inside the interval outlasts it *)
    Lemma fw_late ts : ∀ l t0, fw_ok l → fw_last l ≤ t0 → ascending t0 ts → Forall (λ t, t < 2 ^ 63) ts → a ≤ fw_last l →
      hits a b (grants ts (lrun fw_try l ts)) ≤ M - fw_counter l.
    Proof.
      induction ts as [|t ts IH]; intros l t0 Hok Hlt Ha Hub Hs; [destruct Hok as (_ & _ & ? & _); unfold hits; simpl; lia|].
      destruct Ha as [Ht Ha]. apply Forall_cons in Hub as [Hu Hub].
      destruct (fw_try_ok l t Hok ltac:(lia) Hu) as (r & l' & E & Hb & Hok' & Hs' & Hc'). cbn [lrun]. rewrite E, grants_cons.
      pose proof (next_start_ge (fw_last l) t ltac:(lia)) as Hns. specialize (IH l' t Hok' ltac:(lia) Ha Hub ltac:(lia)).
      destruct (decide (next_start w (fw_last l) t = fw_last l)) as [D|D].
      - destruct r; [rewrite hits_cons; case_decide|]; lia.
      - (* beyond b *) assert (t > b) by (unfold next_start in D; case_decide; lia).
        assert (∀ ts' bs', Forall (λ x, b < x) ts' → hits a b (grants ts' bs') = 0) as Hz.
        { clear. intros ts' bs' HF. revert bs'. induction HF as [|x ts' Hx _ IH]; intros bs'; [done|]. destruct bs' as [|r bs']; [done|].
          rewrite grants_cons. destruct r; [rewrite hits_cons, decide_False by lia|]; by rewrite IH. }
        assert (hits a b (grants ts (lrun fw_try l' ts)) = 0) as E0.
        { apply Hz, Forall_forall. intros x Hx. pose proof (ascending_ge _ _ _ Ha Hx). lia. }
        destruct Hok as (_ & _ & ? & _). destruct r; [rewrite hits_cons, decide_False by lia|]; lia.
    Qed.
    Lemma fw_mid ts : ∀ l t0, fw_ok l → fw_last l ≤ t0 → ascending t0 ts → Forall (λ t, t < 2 ^ 63) ts → a ≤ t0 →
      hits a b (grants ts (lrun fw_try l ts)) ≤ M - fw_counter l + M.
    Proof.
      induction ts as [|t ts IH]; intros l t0 Hok Hlt Ha Hub Hs; [destruct Hok as (_ & _ & ? & _); unfold hits; simpl; lia|].
      destruct Ha as [Ht Ha]. apply Forall_cons in Hub as [Hu Hub].
      destruct (fw_try_ok l t Hok ltac:(lia) Hu) as (r & l' & E & Hb & Hok' & Hs' & Hc'). cbn [lrun]. rewrite E, grants_cons.
      pose proof (next_start_ge (fw_last l) t ltac:(lia)) as Hns. specialize (IH l' t Hok' ltac:(lia) Ha Hub ltac:(lia)).
      destruct (decide (next_start w (fw_last l) t = fw_last l)) as [D|D].
      - destruct r; [rewrite hits_cons; case_decide|]; lia.
      - assert (next_start w (fw_last l) t = t) as Et by (unfold next_start in *; case_decide; lia).
        pose proof (fw_late ts l' t Hok' ltac:(lia) Ha Hub ltac:(lia)) as HL.
        destruct Hok as (_ & _ & ? & _). destruct r; [rewrite hits_cons; case_decide|]; lia.
    Qed.
    Lemma fw_two ts : ∀ l t0, fw_ok l → fw_last l ≤ t0 → ascending t0 ts → Forall (λ t, t < 2 ^ 63) ts →
      hits a b (grants ts (lrun fw_try l ts)) ≤ 2 * M.
    Proof.
      induction ts as [|t ts IH]; intros l t0 Hok Hlt Ha Hub; [unfold hits; simpl; lia|].
      destruct (decide (a ≤ t)) as [Hat|Hat].
      - pose proof (fw_mid (t :: ts) l t Hok ltac:(destruct Ha; lia) ltac:(destruct Ha; split; [lia|done]) Hub Hat) as HM.
        destruct Hok as (_ & _ & ? & _). lia.
      - destruct Ha as [Ht Ha]. apply Forall_cons in Hub as [Hu Hub].
        destruct (fw_try_ok l t Hok ltac:(lia) Hu) as (r & l' & E & Hb & Hok' & Hs' & Hc'). cbn [lrun]. rewrite E, grants_cons.
        pose proof (next_start_ge (fw_last l) t ltac:(lia)) as Hns. specialize (IH l' t Hok' ltac:(lia) Ha Hub).
        destruct r; [rewrite hits_cons, decide_False by lia|]; lia.
    Qed.
  End Interval.
End FW.

(** ** Buckets *)
Lemma quot_div x : 0 ≤ x → Z.quot x second = x / second.
Proof. intros. apply Z.quot_div_nonneg; [lia|done]. Qed.
Lemma div_add_le x y : 0 ≤ x → 0 ≤ y → x / second + y / second ≤ (x + y) / second.
Proof.
  intros. apply Z.div_le_lower_bound; [done|]. pose proof (Z.mul_div_le x second ltac:(done)). pose proof (Z.mul_div_le y second ltac:(done)). lia.
Qed.

Section LB.
  Variables peak v t0 tmax : Z.
  Hypothesis Hpeak : 0 ≤ peak.
  Hypothesis Hv : 0 ≤ v.
  Hypothesis Ht0 : 0 ≤ t0.
  Hypothesis Htmax : tmax < 2 ^ 63.
  Hypothesis Hno : peak + v * ((tmax - t0) / second) < 2 ^ 63.

  Definition lb_ok (l : lb) : Prop := lb_peak l = peak ∧ lb_velocity l = v ∧ 0 ≤ lb_level l ≤ peak ∧ t0 ≤ lb_last l.
  Definition leak (l : lb) (t : Z) : Z := if decide (second ≤ t - lb_last l) then Z.max 0 (lb_level l - (t - lb_last l) / second * v) else lb_level l.
  Lemma lb_try_ok l t : lb_ok l → lb_last l ≤ t → t ≤ tmax →
    ∃ b l', lb_try l t = (b, l') ∧ (b = true ↔ leak l t < peak) ∧ lb_ok l' ∧
      lb_last l' = (if decide (second ≤ t - lb_last l) then t else lb_last l) ∧ lb_level l' = leak l t + (if b then 1 else 0).
  Proof.
    intros (Hp & Hvl & Hlev & Hlast) Hle Ht. unfold lb_try, leak. rewrite time_sub_ok by lia.
    assert (0 ≤ (t - lb_last l) / second ≤ (tmax - t0) / second) as Hq.
    { split; [apply Z.div_pos; [lia|done]|]. apply Z.div_le_mono; [done|lia]. }
    assert (0 ≤ v * ((tmax - t0) / second)) by (apply Z.mul_nonneg_nonneg; lia).
    destruct (decide (second ≤ t - lb_last l)) as [D|D].
    - rewrite quot_div by lia. rewrite Hvl.
      assert (0 ≤ (t - lb_last l) / second * v ≤ v * ((tmax - t0) / second)) by nia.
      rewrite (i64_id ((t - lb_last l) / second * v)) by (unfold is_i64; lia). rewrite (i64_id (lb_level l - _)) by (unfold is_i64; lia).
      cbn [lb_level lb_peak lb_velocity lb_last]. rewrite Hp.
      case_decide; [eexists false, _|eexists true, _]; (split; [reflexivity|]); unfold lb_ok; simpl.
      + split_and!; try done; try lia; try (split; [done|lia]).
      + rewrite i64_id by (unfold is_i64; lia). split_and!; try done; try lia.
    - rewrite Hp, Hvl. case_decide; [eexists false, _|eexists true, _]; (split; [reflexivity|]); unfold lb_ok; simpl.
      + split_and!; try done; try lia; try (split; [done|lia]).
      + rewrite i64_id by (unfold is_i64; lia). split_and!; try done; try lia.
  Qed.
  (** potential argument: everything granted up to time b *)
  Lemma lb_potential b ts : ∀ l u, lb_ok l → lb_last l ≤ u → u ≤ b → ascending u ts → Forall (λ t, t ≤ tmax) ts →
    ∀ a, hits a b (grants ts (lrun lb_try l ts)) ≤ peak - lb_level l + v * ((b - lb_last l) / second).
  Proof.
    induction ts as [|t ts IH]; intros l u Hok Hlt Hub Ha Hall a.
    { destruct Hok as (_ & _ & ? & _). assert (0 ≤ (b - lb_last l) / second) by (apply Z.div_pos; [lia|done]). unfold hits. simpl. nia. }
    destruct Ha as [Ht Ha]. apply Forall_cons in Hall as [Hu Hall].
    destruct (lb_try_ok l t Hok ltac:(lia) Hu) as (r & l' & E & Hb & Hok' & Hl' & Hlev'). cbn [lrun]. rewrite E, grants_cons.
    destruct (decide (t ≤ b)) as [Htb|Htb].
    - specialize (IH l' t Hok' ltac:(rewrite Hl'; case_decide; lia) Htb Ha Hall a).
      assert (hits a b (if r then t :: grants ts (lrun lb_try l' ts) else grants ts (lrun lb_try l' ts)) ≤
              (if r then 1 else 0) + hits a b (grants ts (lrun lb_try l' ts))) as Hh.
      { destruct r; cbv iota; [rewrite hits_cons; destruct (decide (a ≤ t ≤ b))|]; lia. }
      unfold leak in *. destruct (decide (second ≤ t - lb_last l)).
      + pose proof (div_add_le (t - lb_last l) (b - t) ltac:(lia) ltac:(lia)) as Hd. replace (t - lb_last l + (b - t)) with (b - lb_last l) in Hd by lia.
        rewrite Hl' in IH. nia.
      + rewrite Hl' in IH. lia.
    - assert (∀ l1, hits a b (grants ts (lrun lb_try l1 ts)) = 0) as Hz.
      { intros l1. assert (Forall (λ x, b < x) ts) as HF.
        { apply Forall_forall. intros x Hx. pose proof (ascending_ge _ _ _ Ha Hx). lia. }
        clear -HF. revert l1. induction HF as [|x ts' Hx _ IH]; intros l1; [done|]. simpl. destruct (lb_try l1 x) as [r l2].
        rewrite grants_cons. destruct r; [rewrite hits_cons, decide_False by lia|]; by rewrite IH. }
      destruct Hok as (_ & _ & ? & _). assert (0 ≤ (b - lb_last l) / second) by (apply Z.div_pos; [lia|done]).
      destruct r; [rewrite hits_cons, decide_False by lia|]; rewrite Hz; nia.
  Qed.
  Lemma lb_interval a b ts : ∀ l u, a ≤ b → lb_ok l → lb_last l ≤ u → ascending u ts → Forall (λ t, t ≤ tmax) ts →
    hits a b (grants ts (lrun lb_try l ts)) ≤ peak + v * ((b - a) / second + 1).
  Proof.
    induction ts as [|t ts IH]; intros l u Hab Hok Hlt Ha Hall.
    { assert (0 ≤ (b - a) / second) by (apply Z.div_pos; [lia|done]). unfold hits. simpl. nia. }
    destruct Ha as [Ht Ha]. apply Forall_cons in Hall as [Hu Hall].
    destruct (decide (t < a ∨ b < t)) as [Hout|Hin].
    - destruct (lb_try_ok l t Hok ltac:(lia) Hu) as (r & l' & E & Hb & Hok' & Hl' & Hlev'). cbn [lrun]. rewrite E, grants_cons.
      specialize (IH l' t Hab Hok' ltac:(rewrite Hl'; case_decide; lia) Ha Hall). destruct r; [rewrite hits_cons, decide_False by lia|]; lia.
    - destruct (lb_try_ok l t Hok ltac:(lia) Hu) as (r & l' & E & Hb & Hok' & Hl' & Hlev'). cbn [lrun]. rewrite E, grants_cons.
      pose proof (lb_potential b ts l' t Hok' ltac:(rewrite Hl'; case_decide; lia) ltac:(lia) Ha Hall a) as HP.
      assert (hits a b (if r then t :: grants ts (lrun lb_try l' ts) else grants ts (lrun lb_try l' ts)) ≤
              (if r then 1 else 0) + hits a b (grants ts (lrun lb_try l' ts))) as Hh.
      { destruct r; cbv iota; [rewrite hits_cons; destruct (decide (a ≤ t ≤ b))|]; lia. }
      assert ((b - lb_last l') / second ≤ (b - a) / second + 1) as Hd.
      { replace ((b - a) / second + 1) with ((b - a + 1 * second) / second) by (rewrite Z.div_add; [lia|done]).
        apply Z.div_le_mono; [done|]. rewrite Hl'. unfold second in *. case_decide; lia. }
      assert (0 ≤ leak l t). { unfold leak. destruct Hok as (_ & _ & ? & _). case_decide; lia. }
      destruct r; nia.
  Qed.
  Lemma lb_end ts : ∀ l u, lb_ok l → lb_last l ≤ u → ascending u ts → Forall (λ t, t ≤ tmax) ts →
    lb_ok (lend lb_try l ts) ∧ lb_last (lend lb_try l ts) ≤ default u (last ts).
  Proof.
    induction ts as [|t ts IH]; intros l u Hok Hlt Ha Hall; [done|]. destruct Ha as [Ht Ha]. apply Forall_cons in Hall as [Hu Hall].
    destruct (lb_try_ok l t Hok ltac:(lia) Hu) as (r & l' & E & Hb & Hok' & Hl' & Hlev'). simpl. rewrite E. simpl.
    destruct (IH l' t Hok' ltac:(rewrite Hl'; case_decide; lia) Ha Hall) as [H1 H2]. split; [done|]. destruct ts; [done|].
    change (last (t :: z :: ts)) with (last (z :: ts)). destruct (last (z :: ts)) eqn:F; [done|by apply last_None in F].
  Qed.
End LB.

Section TB.
  Variables cap v t0 tmax : Z.
  Hypothesis Hcap : 0 ≤ cap.
  Hypothesis Hv : 0 ≤ v.
  Hypothesis Ht0 : 0 ≤ t0.
  Hypothesis Htmax : tmax < 2 ^ 63.
  Hypothesis Hno : cap + v * ((tmax - t0) / second) < 2 ^ 63.

  Definition tb_ok (l : tb) : Prop := tb_capacity l = cap ∧ tb_rate l = v ∧ 0 ≤ tb_tokens l ≤ cap ∧ t0 ≤ tb_last l.
  Definition issue (l : tb) (t : Z) : Z := if decide (second ≤ t - tb_last l) then Z.min cap (tb_tokens l + (t - tb_last l) / second * v) else tb_tokens l.
  Lemma tb_try_ok l t : tb_ok l → tb_last l ≤ t → t ≤ tmax →
    ∃ b l', tb_try l t = (b, l') ∧ (b = true ↔ 0 < issue l t) ∧ tb_ok l' ∧
      tb_last l' = (if decide (second ≤ t - tb_last l) then t else tb_last l) ∧ tb_tokens l' = issue l t - (if b then 1 else 0).
  Proof.
    intros (Hp & Hvl & Hlev & Hlast) Hle Ht. unfold tb_try, issue. rewrite time_sub_ok by lia.
    assert (0 ≤ (t - tb_last l) / second ≤ (tmax - t0) / second) as Hq.
    { split; [apply Z.div_pos; [lia|done]|]. apply Z.div_le_mono; [done|lia]. }
    assert (0 ≤ v * ((tmax - t0) / second)) by (apply Z.mul_nonneg_nonneg; lia).
    destruct (decide (second ≤ t - tb_last l)) as [D|D].
    - rewrite quot_div by lia. rewrite Hvl.
      assert (0 ≤ (t - tb_last l) / second * v ≤ v * ((tmax - t0) / second)) by nia.
      rewrite (i64_id ((t - tb_last l) / second * v)) by (unfold is_i64; lia). rewrite (i64_id (tb_tokens l + _)) by (unfold is_i64; lia).
      cbn [tb_tokens tb_capacity tb_rate tb_last]. rewrite Hp.
      case_decide; [eexists false, _|eexists true, _]; (split; [reflexivity|]); unfold tb_ok; simpl.
      + split_and!; try done; try lia; try (split; [done|lia]).
      + rewrite i64_id by (unfold is_i64; lia). split_and!; try done; try lia.
    - rewrite Hp, Hvl. case_decide; [eexists false, _|eexists true, _]; (split; [reflexivity|]); unfold tb_ok; simpl.
      + split_and!; try done; try lia; try (split; [done|lia]).
      + rewrite i64_id by (unfold is_i64; lia). split_and!; try done; try lia.
  Qed.
  Lemma tb_potential b ts : ∀ l u, tb_ok l → tb_last l ≤ u → u ≤ b → ascending u ts → Forall (λ t, t ≤ tmax) ts →
    ∀ a, hits a b (grants ts (lrun tb_try l ts)) ≤ tb_tokens l + v * ((b - tb_last l) / second).
  Proof.
    induction ts as [|t ts IH]; intros l u Hok Hlt Hub Ha Hall a.
    { destruct Hok as (_ & _ & ? & _). assert (0 ≤ (b - tb_last l) / second) by (apply Z.div_pos; [lia|done]). unfold hits. simpl. nia. }
    destruct Ha as [Ht Ha]. apply Forall_cons in Hall as [Hu Hall].
    destruct (tb_try_ok l t Hok ltac:(lia) Hu) as (r & l' & E & Hb & Hok' & Hl' & Hlev'). cbn [lrun]. rewrite E, grants_cons.
    destruct (decide (t ≤ b)) as [Htb|Htb].
    - specialize (IH l' t Hok' ltac:(rewrite Hl'; case_decide; lia) Htb Ha Hall a).
      assert (hits a b (if r then t :: grants ts (lrun tb_try l' ts) else grants ts (lrun tb_try l' ts)) ≤
              (if r then 1 else 0) + hits a b (grants ts (lrun tb_try l' ts))) as Hh.
      { destruct r; cbv iota; [rewrite hits_cons; destruct (decide (a ≤ t ≤ b))|]; lia. }
      unfold issue in *. destruct (decide (second ≤ t - tb_last l)).
      + pose proof (div_add_le (t - tb_last l) (b - t) ltac:(lia) ltac:(lia)) as Hd. replace (t - tb_last l + (b - t)) with (b - tb_last l) in Hd by lia.
        rewrite Hl' in IH. nia.
      + rewrite Hl' in IH. lia.
    - assert (∀ l1, hits a b (grants ts (lrun tb_try l1 ts)) = 0) as Hz.
      { intros l1. assert (Forall (λ x, b < x) ts) as HF.
        { apply Forall_forall. intros x Hx. pose proof (ascending_ge _ _ _ Ha Hx). lia. }
        clear -HF. revert l1. induction HF as [|x ts' Hx _ IH]; intros l1; [done|]. simpl. destruct (tb_try l1 x) as [r l2].
        rewrite grants_cons. destruct r; [rewrite hits_cons, decide_False by lia|]; by rewrite IH. }
      destruct Hok as (_ & _ & ? & _). assert (0 ≤ (b - tb_last l) / second) by (apply Z.div_pos; [lia|done]).
      destruct r; [rewrite hits_cons, decide_False by lia|]; rewrite Hz; nia.
  Qed.
  Lemma tb_interval a b ts : ∀ l u, a ≤ b → tb_ok l → tb_last l ≤ u → ascending u ts → Forall (λ t, t ≤ tmax) ts →
    hits a b (grants ts (lrun tb_try l ts)) ≤ cap + v * ((b - a) / second + 1).
  Proof.
    induction ts as [|t ts IH]; intros l u Hab Hok Hlt Ha Hall.
    { assert (0 ≤ (b - a) / second) by (apply Z.div_pos; [lia|done]). unfold hits. simpl. nia. }
    destruct Ha as [Ht Ha]. apply Forall_cons in Hall as [Hu Hall].
    destruct (decide (t < a ∨ b < t)) as [Hout|Hin].
    - destruct (tb_try_ok l t Hok ltac:(lia) Hu) as (r & l' & E & Hb & Hok' & Hl' & Hlev'). cbn [lrun]. rewrite E, grants_cons.
      specialize (IH l' t Hab Hok' ltac:(rewrite Hl'; case_decide; lia) Ha Hall). destruct r; [rewrite hits_cons, decide_False by lia|]; lia.
    - destruct (tb_try_ok l t Hok ltac:(lia) Hu) as (r & l' & E & Hb & Hok' & Hl' & Hlev'). cbn [lrun]. rewrite E, grants_cons.
      pose proof (tb_potential b ts l' t Hok' ltac:(rewrite Hl'; case_decide; lia) ltac:(lia) Ha Hall a) as HP.
      assert (hits a b (if r then t :: grants ts (lrun tb_try l' ts) else grants ts (lrun tb_try l' ts)) ≤
              (if r then 1 else 0) + hits a b (grants ts (lrun tb_try l' ts))) as Hh.
      { destruct r; cbv iota; [rewrite hits_cons; destruct (decide (a ≤ t ≤ b))|]; lia. }
      assert ((b - tb_last l') / second ≤ (b - a) / second + 1) as Hd.
      { replace ((b - a) / second + 1) with ((b - a + 1 * second) / second) by (rewrite Z.div_add; [lia|done]).
        apply Z.div_le_mono; [done|]. rewrite Hl'. unfold second in *. case_decide; lia. }
      assert (issue l t ≤ cap). { unfold issue. destruct Hok as (_ & _ & ? & _). case_decide; lia. }
      destruct r; nia.
  Qed.
  Lemma tb_end ts : ∀ l u, tb_ok l → tb_last l ≤ u → ascending u ts → Forall (λ t, t ≤ tmax) ts →
    tb_ok (lend tb_try l ts) ∧ tb_last (lend tb_try l ts) ≤ default u (last ts).
  Proof.
    induction ts as [|t ts IH]; intros l u Hok Hlt Ha Hall; [done|]. destruct Ha as [Ht Ha]. apply Forall_cons in Hall as [Hu Hall].
    destruct (tb_try_ok l t Hok ltac:(lia) Hu) as (r & l' & E & Hb & Hok' & Hl' & Hlev'). simpl. rewrite E. simpl.
    destruct (IH l' t Hok' ltac:(rewrite Hl'; case_decide; lia) Ha Hall) as [H1 H2]. split; [done|]. destruct ts; [done|].
    change (last (t :: z :: ts)) with (last (z :: ts)). destruct (last (z :: ts)) eqn:F; [done|by apply last_None in F].
  Qed.
End TB.

(** ** Counting by sub-window *)
Lemma i64_add a b : i64 (i64 a + b) = i64 (a + b).
Proof.
  unfold i64, wrap_i. set (h := 2 ^ (64 - 1)). set (N := 2 ^ 64).
  replace ((a + h) mod N - h + b + h) with ((a + h) mod N + b) by lia. rewrite Zplus_mod_idemp_l. do 2 f_equal. lia.
Qed.

Section Sub.
  Variable small : Z.
  Hypothesis Hsm : 0 < small.

  Definition sub (t : Z) : Z := i64 (Z.quot t small * small).
  Lemma sub_ok t : 0 ≤ t < 2 ^ 63 → sub t = t / small * small ∧ 0 ≤ sub t ≤ t.
  Proof.
    intros Ht. unfold sub. rewrite Z.quot_div_nonneg by lia. pose proof (Z.mul_div_le t small Hsm).
    assert (0 ≤ t / small) by (apply Z.div_pos; lia). rewrite i64_id; [|unfold is_i64; nia]. split; [done|nia].
  Qed.
  Definition bump (k : Z) (m : gmap Z Z) : gmap Z Z := <[k := i64 (default 0 (m !! k) + 1)]> m.
  (** the counter map of a list of grants *)
  Definition cmap (g : list Z) : gmap Z Z := foldr (λ t m, bump (sub t) m) ∅ g.

  Lemma total_insert k c (m : gmap Z Z) : m !! k = None → total (<[k := c]> m) = i64 (total m + c).
  Proof.
    intros Hk. unfold total. rewrite map_fold_insert_L; [done| |done].
    intros j1 j2 z1 z2 y _ _ _. rewrite !i64_add. f_equal. lia.
  Qed.
  Lemma total_bump k m : total (bump k m) = i64 (total m + 1).
  Proof.
    unfold bump. destruct (m !! k) as [c|] eqn:E; simpl.
    - rewrite <-insert_delete_insert. rewrite total_insert by apply lookup_delete.
      rewrite <-(insert_delete m k c E) at 2. rewrite total_insert by apply lookup_delete.
      rewrite i64_add. rewrite Z.add_comm, i64_add. f_equal. lia.
    - rewrite total_insert by done. f_equal.
  Qed.
  Lemma total_cmap g : total (cmap g) = i64 (Z.of_nat (length g)).
  Proof.
    induction g as [|t g IH]; [done|]. change (cmap (t :: g)) with (bump (sub t) (cmap g)). rewrite total_bump, IH, i64_add.
    f_equal. simpl. lia.
  Qed.
  Lemma filter_cmap (P : Z → Prop) `{∀ x, Decision (P x)} g :
    filter (λ kc : Z * Z, P kc.1) (cmap g) = cmap (filter (λ t, P (sub t)) g).
  Proof.
    induction g as [|t g IH]; [apply map_filter_empty|]. change (cmap (t :: g)) with (bump (sub t) (cmap g)). rewrite filter_cons.
    unfold bump. destruct (decide (P (sub t))) as [D|D].
    - rewrite map_filter_insert_True by done. rewrite IH. simpl. unfold bump. f_equal. f_equal. f_equal. f_equal.
      rewrite <-IH. rewrite map_filter_lookup. destruct (cmap g !! sub t); simpl; [by rewrite option_guard_True|done].
    - rewrite map_filter_insert_not' by (simpl; intros; done). done.
  Qed.
  Lemma filter_and {A} (P Q R : A → Prop) `{∀ x, Decision (P x), ∀ x, Decision (Q x), ∀ x, Decision (R x)} (l : list A) :
    (∀ x, x ∈ l → (P x ∧ Q x ↔ R x)) → filter P (filter Q l) = filter R l.
  Proof.
    induction l as [|a l IH]; intros HR; [done|]. pose proof (HR a (elem_of_list_here _ _)) as Ha.
    rewrite !(filter_cons _ a l). rewrite <-IH by (intros x Hx; apply HR; by right).
    destruct (decide (Q a)); [rewrite filter_cons; destruct (decide (P a))|]; destruct (decide (R a)); naive_solver.
  Qed.

  (** start of the window of [n] sub-windows ending with that of [t] *)
  Lemma start_ok n t : 0 ≤ t < 2 ^ 63 → 0 < n → n * small < 2 ^ 63 →
    i64 (sub t - i64 (small * i64 (n - 1))) = (t / small - (n - 1)) * small.
  Proof.
    intros Ht Hn Hb. destruct (sub_ok t Ht) as [E Hr].
    rewrite (i64_id (n - 1)) by (unfold is_i64; nia). rewrite (i64_id (small * _)) by (unfold is_i64; nia).
    rewrite i64_id by (unfold is_i64; nia). rewrite E. ring.
  Qed.
  Lemma start_le n t t' : 0 ≤ t' < 2 ^ 63 → (t / small - (n - 1)) * small ≤ sub t' ↔ t / small - n < t' / small.
  Proof.
    intros Ht. destruct (sub_ok t' Ht) as [E _]. rewrite E. split; intros; nia.
  Qed.
  Lemma recent_filter n past t : (∀ t', t' ∈ past → 0 ≤ t' < 2 ^ 63 ∧ t' ≤ t) →
    recent small n past t = Z.of_nat (length (filter (λ t', (t / small - (n - 1)) * small ≤ sub t') past)).
  Proof.
    intros Hp. unfold recent, sub_no. f_equal. f_equal.
    induction past as [|x past IH]; [done|]. rewrite !filter_cons, IH by (intros; apply Hp; by right).
    destruct (Hp x (elem_of_list_here _ _)) as [H1 H2]. pose proof (start_le n t x H1) as HS.
    assert (x / small ≤ t / small) by (apply Z.div_le_mono; lia). clear IH Hp. repeat case_decide; try done; tauto.
  Qed.
  Lemma filter_length_mono (P Q : Z → Prop) `{∀ x, Decision (P x), ∀ x, Decision (Q x)} (l : list Z) :
    (∀ x, x ∈ l → P x → Q x) → (length (filter P l) ≤ length (filter Q l))%nat.
  Proof.
    induction l as [|a l IH]; intros HPQ; [done|]. specialize (IH (λ x Hx, HPQ x (elem_of_list_further _ _ _ Hx))).
    pose proof (HPQ a (elem_of_list_here _ _)). rewrite !filter_cons. repeat case_decide; simpl; try lia. tauto.
  Qed.
End Sub.

(** ** Sliding window *)
Section SW.
  Variables limit small n : Z.
  Hypothesis Hsm : 0 < small.
  Hypothesis Hn : 0 < n.
  Hypothesis Hb : n * small < 2 ^ 63.
  Hypothesis Hlim : is_i64 limit.

  (** [lo]: sub-windows starting before it have been forgotten *)
  Definition sw_ok (past : list Z) (u lo : Z) (l : sw) : Prop :=
    sw_limit l = limit ∧ sw_small l = small ∧ sw_smalls l = n ∧
    sw_counters l = cmap small (filter (λ t, lo ≤ sub small t) past) ∧
    (∀ t, t ∈ past → 0 ≤ t < 2 ^ 63 ∧ t ≤ u) ∧ lo ≤ (u / small - (n - 1)) * small ∧
    Z.of_nat (length (filter (λ t, lo ≤ sub small t) past)) ≤ Z.max 0 limit.
  Lemma sw_try_ok past u lo l t : sw_ok past u lo l → u ≤ t → 0 ≤ t < 2 ^ 63 →
    ∃ b l', sw_try l t = (b, l') ∧ (b = true ↔ sw_allowed limit small n past t) ∧
      sw_ok (if b then t :: past else past) t ((t / small - (n - 1)) * small) l'.
  Proof.
    intros (El & Es & En & Ec & Hp & Hlo & Hlen) Hut Ht. unfold sw_try. rewrite El, Es, En. change (i64 (Z.quot t small * small)) with (sub small t).
    rewrite start_ok by done. set (lo' := (t / small - (n - 1)) * small).
    assert (u / small ≤ t / small) as Hdiv by (apply Z.div_le_mono; lia).
    assert (lo ≤ lo') by (subst lo'; nia).
    assert (filter (λ kc : Z * Z, ¬ kc.1 < lo') (sw_counters l) = cmap small (filter (λ t, lo' ≤ sub small t) past)) as Em.
    { rewrite Ec. etrans; [exact (filter_cmap small (λ k, ¬ k < lo') _)|]. f_equal. apply filter_and. intros x _. lia. }
    rewrite Em, total_cmap. assert (∀ t', t' ∈ past → 0 ≤ t' < 2 ^ 63 ∧ t' ≤ t) as Hp'. { intros t' Hin. destruct (Hp t' Hin). lia. }
    pose proof (recent_filter small Hsm n past t Hp') as Hrec. fold lo' in Hrec.
    pose proof (filter_length_mono (λ t, lo' ≤ sub small t) (λ t, lo ≤ sub small t) past ltac:(intros x _; cbv beta; lia)) as Hmono.
    unfold is_i64 in Hlim. rewrite i64_id by (unfold is_i64; lia). unfold sw_allowed. rewrite Hrec.
    destruct (decide (limit ≤ Z.of_nat (length (filter (λ t0, lo' ≤ sub small t0) past)))) as [D|D].
    - eexists false, _. split; [reflexivity|]. split; [split; [done|lia]|]. unfold sw_ok. simpl. split_and!; try done. lia.
    - eexists true, _. split; [reflexivity|]. split; [split; [lia|done]|]. unfold sw_ok. cbn [sw_limit sw_small sw_smalls sw_counters].
      assert (lo' ≤ sub small t) as Hin. { destruct (sub_ok small Hsm t Ht) as [-> _]. subst lo'. nia. }
      rewrite !filter_cons, !decide_True by done. split_and!; try done.
      + intros t' [->|Hx]%elem_of_cons; [split; [done|lia]|by apply Hp'].
      + simpl. lia.
  Qed.
  Lemma sw_run_exact ts : ∀ past u lo l, sw_ok past u lo l → ascending u ts → Forall (λ t, 0 ≤ t < 2 ^ 63) ts →
    exact (sw_allowed limit small n) past ts (lrun sw_try l ts).
  Proof.
    induction ts as [|t ts IH]; intros past u lo l Hok Ha HF; [done|]. destruct Ha as [Ht Ha]. apply Forall_cons in HF as [Ht' HF].
    destruct (sw_try_ok past u lo l t Hok Ht Ht') as (b & l' & E & Hbb & Hok'). simpl. rewrite E. split; [done|]. by eapply IH.
  Qed.
End SW.

(** consequences of [exact] *)
Lemma exact_length al past ts bs : exact al past ts bs → length bs = length ts.
Proof. revert past bs. induction ts as [|t ts IH]; intros past [|b bs]; try done. intros [_ HE]. simpl. f_equal. by eapply IH. Qed.
Lemma exact_bound (al : list Z → Z → Prop) (R : Z → Prop) `{∀ x, Decision (R x)} (M : Z) u past ts bs :
  exact al past ts bs → ascending u ts → (∀ t, t ∈ past → t ≤ u) →
  (∀ p t, (∀ t', t' ∈ p → t' ≤ t) → R t → al p t → Z.of_nat (length (filter R p)) < M) →
  Z.of_nat (length (filter R past)) ≤ M →
  Z.of_nat (length (filter R past) + length (filter R (grants ts bs))) ≤ M.
Proof.
  revert u past bs. induction ts as [|t ts IH]; intros u past [|b bs] HE Ha Hp Hal HM; try done; [simpl; lia|].
  destruct HE as [Hb HE]. destruct Ha as [Ht Ha]. rewrite grants_cons.
  assert (∀ t', t' ∈ past → t' ≤ t) as Hp' by (intros t' Hin; specialize (Hp t' Hin); lia).
  destruct b; [|apply (IH t past bs); auto].
  pose proof (proj1 Hb eq_refl) as Hok. rewrite (filter_cons _ t (grants ts bs)).
  specialize (IH t (t :: past) bs HE Ha). rewrite (filter_cons _ t past) in IH.
  destruct (decide (R t)) as [D|D].
  - pose proof (Hal past t Hp' D Hok). assert (∀ t', t' ∈ t :: past → t' ≤ t) by (intros t' [->|?]%elem_of_cons; [done|auto]).
    simpl in *. specialize (IH ltac:(done) Hal ltac:(lia)). lia.
  - apply IH; [intros t' [->|?]%elem_of_cons; [done|auto]|done|done].
Qed.

(** ** Sliding log *)
Definition pr (s : strat) : Z * Z := (st_limit s, st_window s).
(** [before] as an order on (limit, window) *)
Definition ple (a b : Z * Z) : Prop := b.2 < a.2 ∨ (a.2 = b.2 ∧ b.1 ≤ a.1).
Lemma before_ple a b : before b a = false ↔ ple (pr a) (pr b).
Proof. unfold before, ple, pr. simpl. repeat case_decide; rewrite bool_decide_eq_false; lia. Qed.

(** what the constructor's loop requires of neighbours *)
Fixpoint chain (small : Z) (prev : option (Z * Z)) (l : list (Z * Z)) : Prop :=
  match l with
  | [] => True
  | s :: l => (match prev with Some s' => s.1 < s'.1 | None => True end) ∧ Z.rem s.2 small = 0 ∧ chain small (Some s) l
  end.
Definition same_pairs (h h' : sheap) : Prop := ∀ p, pr <$> h !! p = pr <$> h' !! p.
Lemma sl_check_ok small ps : small ≠ 0 → ∀ h prev, (∀ p, p ∈ ps → is_Some (h !! p)) →
  ∃ r h', sl_check small prev ps h = (Ret r, h') ∧
    (r = true ↔ chain small (prev ≫= λ q, pr <$> h !! q) (default (0,0) <$> ((λ p, pr <$> h !! p) <$> ps))) ∧ same_pairs h h' ∧
    (∀ p, p ∉ ps → h' !! p = h !! p) ∧
    (r = true → ∀ p s, (p ∈ ps ∨ (st_smalls <$> h !! p = (λ s, i64 (Z.quot (st_window s) small)) <$> h !! p)) → h' !! p = Some s → st_smalls s = i64 (Z.quot (st_window s) small)).
Proof.
  intros Hsm. induction ps as [|p ps IH]; intros h prev Hval.
  { exists true, h. split_and!; try done. intros _ p s [Hin|Heq]; [by apply elem_of_nil in Hin|]. intros Hs. rewrite Hs in Heq. simpl in Heq. by injection Heq. }
  destruct (Hval p (elem_of_list_here _ _)) as [s Es]. cbn [sl_check fmap list_fmap chain]. rewrite Es. cbn [fmap option_fmap option_map default from_option].
  set (bad := match prev with Some q => _ | None => _ end).
  assert (bad = true ↔ ¬ match prev ≫= λ q, pr <$> h !! q with Some s' => (pr s).1 < s'.1 | None => True end) as Hbad.
  { subst bad. destruct prev as [q|]; simpl; [|split; [done|tauto]]. destruct (h !! q) as [s'|]; simpl; [|split; [done|tauto]].
    rewrite bool_decide_eq_true. lia. }
  destruct bad eqn:Eb.
  { eexists false, h. split; [reflexivity|]. split_and!; try done. split; [done|]. intros [H1 _]. exfalso. tauto. }
  rewrite decide_False by done.
  destruct (decide (Z.rem (st_window s) small ≠ 0)) as [D|D].
  { eexists false, h. split; [reflexivity|]. split_and!; try done. split; [done|]. intros (_ & H1 & _). done. }
  apply dec_stable in D. set (s1 := Strat _ _ _). set (h1 := <[p := s1]> h).
  assert (same_pairs h h1) as Hsame. { intros q. subst h1. destruct (decide (q = p)) as [->|Hq]; [by rewrite lookup_insert, Es|by rewrite lookup_insert_ne]. }
  destruct (IH h1 (Some p)) as (r & h' & E & Hr & Hs & Ho & Hok).
  { intros q Hq. destruct (Hval q (elem_of_list_further _ _ _ Hq)) as [sq Esq]. specialize (Hsame q). rewrite Esq in Hsame. simpl in Hsame.
    destruct (h1 !! q); [by eexists|done]. }
  exists r, h'. split; [done|]. split_and!.
  - rewrite Hr. assert ((λ p0, pr <$> h1 !! p0) <$> ps = (λ p0, pr <$> h !! p0) <$> ps) as Em. { apply list_fmap_ext. intros i q _. by rewrite (Hsame q). }
    rewrite Em. simpl. rewrite <-(Hsame p), Es. simpl. split; [|tauto]. intros Hc. split_and!; try done.
    destruct (prev ≫= λ q, pr <$> h !! q) eqn:Eq; rewrite ?Eq in Hbad; [|done]. destruct Hbad as [_ Hbad]. apply Z.nle_gt. intros Hle. discriminate Hbad. simpl in *. lia.
  - intros q. by rewrite (Hsame q), (Hs q).
  - intros q Hq. rewrite not_elem_of_cons in Hq. destruct Hq. rewrite Ho by done. subst h1. by rewrite lookup_insert_ne.
  - intros Ht q sq Hq Hlk. apply (Hok Ht q sq); [|done].
    destruct (decide (q = p)) as [->|Hne]; [right; subst h1 s1; by rewrite lookup_insert|].
    destruct Hq as [[->|Hq]%elem_of_cons|Hq]; [done|by left|]. right. subst h1. by rewrite lookup_insert_ne.
Qed.
Lemma chain_consistent small s0 l : StronglySorted ple (s0 :: l) → chain small None (s0 :: l) ↔ consistent small (s0 :: l).
Proof.
  intros HS. split.
  - intros HC. split; [done|].
    assert (∀ l prev, chain small prev l → (∀ s, s ∈ l → Z.rem s.2 small = 0) ∧
              (∀ i s, l !! i = Some s → match prev with Some s' => s.1 < s'.1 | None => True end) ∧
              ∀ i j s s', (i < j)%nat → l !! i = Some s → l !! j = Some s' → s'.1 < s.1) as Hch.
    { clear. induction l as [|a l IH]; intros prev; [intros _; split_and!; [by intros s ?%elem_of_nil|done|done]|].
      intros (Hp & Hr & Hc). destruct (IH _ Hc) as (I1 & I2 & I3). split_and!.
      - intros s [->|Hs]%elem_of_cons; [done|by apply I1].
      - intros [|i] s; simpl; [intros [= ->]; done|]. intros Hl. specialize (I2 i s Hl). simpl in I2. destruct prev; [lia|done].
      - intros i [|j] s s' Hij; [lia|]. destruct i as [|i]; simpl.
        + intros [= ->] Hl. exact (I2 j s' Hl).
        + intros H1 H2. apply (I3 i j s s'); [lia|done|done]. }
    destruct (Hch _ _ HC) as (H1 & _ & H3). split; [done|]. intros i j s s' Hne Hi Hj.
    assert (∀ i j s s', (i < j)%nat → (s0 :: l) !! i = Some s → (s0 :: l) !! j = Some s' → ple s s') as Hord.
    { intros i' j' s1 s2 Hij Hi' Hj'. apply (elem_of_StronglySorted_app ple (take j' (s0 :: l)) (drop j' (s0 :: l))).
      - by rewrite take_drop.
      - apply elem_of_list_lookup. exists i'. by rewrite lookup_take.
      - apply elem_of_list_lookup. exists 0%nat. rewrite lookup_drop. by rewrite Nat.add_0_r. }
    destruct (decide (i < j)%nat).
    + pose proof (H3 i j s s' ltac:(lia) Hi Hj). pose proof (Hord i j s s' ltac:(lia) Hi Hj) as Ho. unfold ple in Ho. lia.
    + pose proof (H3 j i s' s ltac:(lia) Hj Hi). pose proof (Hord j i s' s ltac:(lia) Hj Hi) as Ho. unfold ple in Ho. lia.
  - intros (_ & Hrem & Hc). apply StronglySorted_Sorted in HS. remember (s0 :: l) as L eqn:EL. clear EL s0 l.
    enough (∀ prev, (match prev with Some p => Sorted ple (p :: L) ∧ (∀ s, L !! 0%nat = Some s → s.1 < p.1) | None => True end) → chain small prev L) as H by by apply (H None).
    induction L as [|a L IH]; intros prev Hp; [done|]. split_and!.
    + destruct prev; [|done]. by apply Hp.
    + apply Hrem. by left.
    + apply IH.
      * by apply Sorted_inv in HS as [? _].
      * intros s Hs. apply Hrem. by right.
      * intros i j s s' Hne Hi Hj. apply (Hc (S i) (S j)); [lia|done|done].
      * split; [done|]. intros s Hs. destruct L as [|b L]; [done|]. injection Hs as ->.
        apply Sorted_inv in HS as [_ HS]. inversion HS as [|? ? Hple]; subst. destruct (Hc 0%nat 1%nat a s ltac:(lia) eq_refl eq_refl) as [C1 C2].
        unfold ple in Hple. lia.
Qed.
Global Instance ple_trans : Transitive ple.
Proof. intros a b c. unfold ple. lia. Qed.
Lemma consistent_perm small l l' : l ≡ₚ l' → consistent small l → consistent small l'.
Proof.
  intros HP (Hne & Hrem & Hc). split_and!.
  - intros ->. apply Permutation_nil_r in HP. done.
  - intros s Hs. apply Hrem. by rewrite HP.
  - symmetry in HP. apply Permutation_inj in HP as (Hlen & f & Hinj & Hf). intros i j s s' Hij Hi Hj.
    apply (Hc (f i) (f j)); [intros E; apply Hij; by apply Hinj|by rewrite <-Hf|by rewrite <-Hf].
Qed.

Section SL.
  Variable small : Z.
  Hypothesis Hsm : 0 < small.
  Variable h : sheap.
  Variable ss : list strat.
  Hypothesis Hsorted : StronglySorted ple (pr <$> ss).
  Hypothesis Hgood : ∀ s, s ∈ ss → is_i64 (st_limit s) ∧ 0 < st_window s < 2 ^ 63 ∧ Z.rem (st_window s) small = 0 ∧ st_smalls s = i64 (Z.quot (st_window s) small).

  Lemma smalls_ok s : s ∈ ss → st_smalls s = st_window s / small ∧ 0 < st_smalls s ∧ st_smalls s * small < 2 ^ 63.
  Proof.
    intros Hs. destruct (Hgood s Hs) as (_ & Hw & Hr & ->). rewrite Z.quot_div_nonneg by lia.
    rewrite Z.rem_mod_nonneg in Hr by lia. pose proof (Z.div_mod (st_window s) small ltac:(lia)) as Hd. rewrite Hr in Hd.
    rewrite i64_id by (unfold is_i64; nia). split_and!; [done| |]; nia.
  Qed.
  Definition lo_of (s : strat) (t : Z) : Z := (t / small - (st_smalls s - 1)) * small.
  Lemma sl_start_ok s t : s ∈ ss → 0 ≤ t < 2 ^ 63 → sl_start (sub small t) small s = lo_of s t.
  Proof. intros Hs Ht. destruct (smalls_ok s Hs) as (_ & ? & ?). unfold sl_start, lo_of. by apply start_ok. Qed.
  Lemma violated_ok s past t : s ∈ ss → (∀ t', t' ∈ past → 0 ≤ t' < 2 ^ 63 ∧ t' ≤ t) →
    sl_violated small past t (pr s) ↔ st_limit s ≤ Z.of_nat (length (filter (λ t', lo_of s t ≤ sub small t') past)).
  Proof.
    intros Hs Hp. unfold sl_violated, pr. simpl. destruct (smalls_ok s Hs) as (<- & _ & _). by rewrite (recent_filter small Hsm).
  Qed.

  Definition sl_ok (past : list Z) (u lo : Z) (l : sl) : Prop :=
    mapM (λ p, h !! p) (sl_strats l) = Some ss ∧ sl_small l = small ∧
    sl_counters l = cmap small (filter (λ t, lo ≤ sub small t) past) ∧
    (∀ t, t ∈ past → 0 ≤ t < 2 ^ 63 ∧ t ≤ u) ∧
    ∀ s, head ss = Some s → lo ≤ lo_of s u ∧ Z.of_nat (length (filter (λ t, lo ≤ sub small t) past)) ≤ Z.max 0 (st_limit s).
  Lemma sl_try_ok past u lo l t : ss ≠ [] → sl_ok past u lo l → u ≤ t → 0 ≤ t < 2 ^ 63 →
    ∃ r l' lo', sl_try l h t = (r, l') ∧ sl_answer small (pr <$> ss) past t r ∧
      sl_ok (match r with Ret None => t :: past | _ => past end) t lo' l'.
  Proof.
    intros Hss (Em & Es & Ec & Hp & Hhd) Hut Ht. unfold sl_try. rewrite Em, Es. change (i64 (Z.quot t small * small)) with (sub small t).
    destruct ss as [|s0 ss'] eqn:Ess; [done|]. rewrite <-Ess in *. specialize (Hhd s0). rewrite Ess in Hhd at 1. specialize (Hhd eq_refl) as [Hlo Hlen].
    assert (s0 ∈ ss) as Hs0 by (rewrite Ess; by left). rewrite (sl_start_ok s0) by done. set (lo' := lo_of s0 t).
    assert (u / small ≤ t / small) as Hdiv by (apply Z.div_le_mono; lia).
    assert (lo ≤ lo') by (subst lo'; unfold lo_of in *; nia).
    assert (filter (λ kc : Z * Z, ¬ kc.1 < lo') (sl_counters l) = cmap small (filter (λ t, lo' ≤ sub small t) past)) as Emm.
    { rewrite Ec. etrans; [exact (filter_cmap small (λ k, ¬ k < lo') _)|]. f_equal. apply filter_and. intros x _. lia. }
    rewrite Emm. assert (∀ t', t' ∈ past → 0 ≤ t' < 2 ^ 63 ∧ t' ≤ t) as Hp'. { intros t' Hin. destruct (Hp t' Hin). lia. }
    assert (length (filter (λ t, (lo' ≤ sub small t)%Z) past) ≤ length (filter (λ t, (lo ≤ sub small t)%Z) past))%nat as Hmono.
    { apply filter_length_mono. intros x _. lia. }
    assert (∀ s, s ∈ ss → lo' ≤ lo_of s t) as Hge.
    { intros s Hs. assert (pr s0 = pr s ∨ ple (pr s0) (pr s)) as Hple.
      { rewrite Ess in Hs, Hsorted. apply elem_of_cons in Hs as [->|Hs]; [by left|right]. simpl in Hsorted. apply StronglySorted_inv in Hsorted as [_ HF].
        rewrite Forall_forall in HF. apply HF. by apply elem_of_list_fmap_1. }
      subst lo'. unfold lo_of. destruct (smalls_ok s Hs) as (E1 & _ & _). destruct (smalls_ok s0 Hs0) as (E2 & _ & _). rewrite E1, E2.
      assert (st_window s ≤ st_window s0). { unfold ple, pr in Hple. simpl in Hple. destruct Hple as [[= ? ?]|?]; lia. }
      assert (st_window s / small ≤ st_window s0 / small) by (apply Z.div_le_mono; lia). nia. }
    assert (∀ s, s ∈ ss → total (filter (λ kc : Z * Z, sl_start (sub small t) small s ≤ kc.1) (cmap small (filter (λ t, lo' ≤ sub small t) past))) =
              Z.of_nat (length (filter (λ t', lo_of s t ≤ sub small t') past))) as Hcount.
    { intros s Hs. rewrite sl_start_ok by done. etrans; [apply (f_equal total), (filter_cmap small (λ k, lo_of s t ≤ k))|].
      rewrite total_cmap. specialize (Hge s Hs).
      erewrite (filter_and _ _ (λ t', lo_of s t ≤ sub small t')) by (intros x _; cbv beta; lia).
      assert (length (filter (λ t', (lo_of s t ≤ sub small t')%Z) past) ≤ length (filter (λ t, (lo' ≤ sub small t)%Z) past))%nat by (apply filter_length_mono; intros x _; lia).
      destruct (Hgood s0 Hs0) as (Hl0 & _). unfold is_i64 in Hl0. apply i64_id. unfold is_i64. lia. }
    assert (((λ s, total (filter (λ kc : Z * Z, sl_start (sub small t) small s ≤ kc.1) (cmap small (filter (λ t, lo' ≤ sub small t) past)))) <$> ss) =
            (λ s, Z.of_nat (length (filter (λ t', lo_of s t ≤ sub small t') past))) <$> ss) as Ecounts.
    { apply list_fmap_ext. intros i s Hi. apply Hcount. by eapply elem_of_list_lookup_2. }
    rewrite Ecounts. set (cnt := λ s, Z.of_nat _).
    assert (zip ss (cnt <$> ss) = (λ s, (s, cnt s)) <$> ss) as ->. { generalize cnt. clear. intros f. induction ss as [|s l IH]; [done|]. simpl. f_equal. exact IH. }
    destruct (list_find _ _) as [[i [s c]]|] eqn:Efind.
    - apply list_find_Some in Efind as (Hi & Hv & Hfirst). rewrite list_lookup_fmap in Hi. destruct (ss !! i) as [s'|] eqn:Ei; [|done]. injection Hi as -> <-.
      assert (s ∈ ss) as Hs by (by eapply elem_of_list_lookup_2).
      eexists _, _, lo'. split; [reflexivity|]. split.
      + simpl. change (st_limit s, st_window s) with (pr s). split_and!.
        * by apply elem_of_list_fmap_1.
        * by apply violated_ok.
        * intros x (s1 & -> & Hs1)%elem_of_list_fmap Hv1. apply (violated_ok s1 past t Hs1 Hp') in Hv1. change (st_limit s1 ≤ cnt s1) in Hv1.
          apply elem_of_list_lookup in Hs1 as [j Hj]. destruct (decide (j < i)%nat) as [Hji|Hji].
          -- exfalso. refine (Hfirst j (s1, cnt s1) _ Hji Hv1). by rewrite list_lookup_fmap, Hj.
          -- destruct (decide (j = i)) as [->|Hne].
             ++ rewrite Ei in Hj. injection Hj as <-. right. split; [done|reflexivity].
             ++ assert (ple (pr s) (pr s1)) as Hple; [|unfold ple, pr in *; simpl in *; lia].
                apply (elem_of_StronglySorted_app ple (take j (pr <$> ss)) (drop j (pr <$> ss))).
                ** by rewrite take_drop.
                ** apply elem_of_list_lookup. exists i. rewrite lookup_take by lia. by rewrite list_lookup_fmap, Ei.
                ** apply elem_of_list_lookup. exists 0%nat. rewrite lookup_drop, Nat.add_0_r. by rewrite list_lookup_fmap, Hj.
      + unfold sl_ok. simpl. split_and!; try done. intros s1 Hs1. rewrite Ess in Hs1. injection Hs1 as <-. split; [done|lia].
    - apply list_find_None in Efind. rewrite Forall_fmap, Forall_forall in Efind. simpl in Efind.
      eexists _, _, lo'. split; [reflexivity|]. split.
      + simpl. intros x (s1 & -> & Hs1)%elem_of_list_fmap. rewrite (violated_ok s1 past t Hs1 Hp'). by apply Efind.
      + unfold sl_ok. cbn [sl_strats sl_small sl_counters].
        assert (lo' ≤ sub small t) as Hin.
        { destruct (sub_ok small Hsm t Ht) as [-> _]. destruct (smalls_ok s0 Hs0) as (_ & ? & _). subst lo'. unfold lo_of. nia. }
        rewrite !filter_cons, !decide_True by done. split_and!; try done.
        * intros t' [->|Hx]%elem_of_cons; [split; [done|lia]|by apply Hp'].
        * intros s1 Hs1. rewrite Ess in Hs1. injection Hs1 as <-. split; [done|]. specialize (Efind s0 Hs0). simpl in *. subst cnt. simpl in Efind. fold lo' in Efind. lia.
  Qed.
  Lemma sl_run_exact ts : ss ≠ [] → ∀ past u lo l, sl_ok past u lo l → ascending u ts → Forall (λ t, 0 ≤ t < 2 ^ 63) ts →
    sl_exact small (pr <$> ss) past ts (sl_run l h ts).
  Proof.
    intros Hss. induction ts as [|t ts IH]; intros past u lo l Hok Ha HF; [done|]. destruct Ha as [Ht Ha]. apply Forall_cons in HF as [Ht' HF].
    destruct (sl_try_ok past u lo l t Hss Hok Ht Ht') as (r & l' & lo' & E & Hans & Hok'). simpl. rewrite E. split; [done|]. by eapply IH.
  Qed.
End SL.
