From stdpp Require Import gmap sorting.
From Verif Require Import GoBase LimiterModel LimiterSpec LimiterProofs LockModel LockSpec LockProofs LimiterLockModel.
Local Open Scope Z_scope.

(** ** How many inputs a body consumes *)
Inductive uses {S I R} : body S I R → nat → Prop :=
| u_fin r : uses (Fin r) 0
| u_act f n : (∀ s, uses (f s).2 n) → uses (Act f) n
| u_ask k n : (∀ i, uses (k i) n) → uses (Ask k) (Datatypes.S n).
Lemma reach_uses {S I O R} (mode : O → lmode) (code : O → body S I R) (N : O → nat) s0 c :
  (∀ o, uses (code o) (N o)) → reachable mode code s0 c →
  (∀ e, e ∈ log c → length (e_ins e) = N (e_op e)) ∧
  ∀ t o iv ins p, thr c t = TIn o iv ins p → ∃ n, uses p n ∧ (length ins + n = N o)%nat.
Proof.
  intros Hu Hr. refine (rtc_ind_r (λ c, (∀ e, e ∈ log c → length (e_ins e) = N (e_op e)) ∧
    ∀ t o iv ins p, thr c t = TIn o iv ins p → ∃ n, uses p n ∧ (length ins + n = N o)%nat) (init s0) _ _ c Hr).
  { split; [by intros e ?%elem_of_nil|done]. }
  clear Hr c. intros c c' _ Hstep [IH1 IH2].
  assert (∀ t x, (match x with TIn o iv ins p => ∃ n, uses p n ∧ (length ins + n = N o)%nat | _ => True end) →
     ∀ u o iv ins p, upd (thr c) t x u = TIn o iv ins p → ∃ n, uses p n ∧ (length ins + n = N o)%nat) as Hupd.
  { intros t x Hx u o iv ins p. unfold upd. case_decide; [by intros ->|apply IH2]. }
  destruct Hstep as [n s w rs th lg rt sn t o Ht|n s th lg rt sn t o iv Ht Hm|n s rs th lg rt sn t o iv Ht Hm|n s w rs th lg rt sn t o iv ins f s' p Ht Ef
    |n s w rs th lg rt sn t o iv ins k i Ht|n s w rs th lg rt sn t o iv ins r Ht Hm|n s w rs th lg rt sn t o iv ins r Ht Hm|n s w rs th lg rt sn t o iv r Ht]; simpl in *.
  - split; [done|]. by apply Hupd.
  - split; [done|]. apply Hupd. by exists (N o).
  - split; [done|]. apply Hupd. by exists (N o).
  - split; [done|]. apply Hupd. destruct (IH2 _ _ _ _ _ Ht) as (m & Hp & E). exists m. split; [|done]. inversion Hp as [|f' n' Hf|]; subst. specialize (Hf s). by rewrite Ef in Hf.
  - split; [done|]. apply Hupd. destruct (IH2 _ _ _ _ _ Ht) as (m & Hp & E). inversion Hp as [| |k' n' Hk]; subst. exists n'. split; [done|]. rewrite app_length. simpl. lia.
  - split; [|by apply Hupd]. intros e [He| ->%elem_of_list_singleton]%elem_of_app; [by apply IH1|]. simpl. destruct (IH2 _ _ _ _ _ Ht) as (m & Hp & E). inversion Hp; subst. lia.
  - split; [|by apply Hupd]. intros e [He| ->%elem_of_list_singleton]%elem_of_app; [by apply IH1|]. simpl. destruct (IH2 _ _ _ _ _ Ht) as (m & Hp & E). inversion Hp; subst. lia.
  - split; [done|]. by apply Hupd.
Qed.

(** ** A limiter of one kind of call, all exclusive *)
Section Limiter.
  Context {L R : Type} (try_ : L → Z → R * L) (b : body L input R).
  Context (Hb : ∀ l i, in_ok i → alone b [i] l = ((try_ l (i_now i)).2, Fin (try_ l (i_now i)).1)).
  Context (Hu : uses b 1).
  Fixpoint answers (l : L) (ts : list Z) : list R :=
    match ts with [] => [] | t :: ts => (try_ l t).1 :: answers (try_ l t).2 ts end.
  Definition reach (l0 : L) (c : cfg L input unit R) : Prop := reachable (λ _, MW) (λ _, b) l0 c.
  (** the clock readings of the finished calls, in lock order *)
  Definition readings (c : cfg L input unit R) : list Z := i_now <$> concat (e_ins <$> log c).
  Lemma limiter_run l0 c : reach l0 c → Forall in_ok (seen c) →
    e_res <$> log c = answers l0 (readings c) ∧ readings c `prefix_of` (i_now <$> seen c) ∧ length (readings c) = length (log c).
  Proof.
    intros Hr Hok. pose proof (seen_inv (λ _, MW) (λ _, b) ltac:(done) l0 c ltac:(done) Hr) as Hs.
    pose proof (reach_inv (λ _, MW) (λ _, b) ltac:(done) l0 c Hr) as Hi. destruct (i_state _ _ _ _ Hi) as (sb & Hone & _).
    destruct (reach_uses (λ _, MW) (λ _, b) (λ _, 1%nat) l0 c (λ _, Hu) Hr) as [Hlen _].
    split_and!.
    - rewrite Hs in Hok. apply Forall_app in Hok as [Hok _]. unfold readings. clear Hs Hi Hr. revert l0 Hone Hok Hlen. generalize (log c) as lg.
      induction lg as [|e lg IH]; intros l0 Hone Hok Hlen; [done|]. destruct Hone as (s1 & E & Hone).
      assert (length (e_ins e) = 1%nat) as Hl by (apply Hlen; by left). destruct (e_ins e) as [|i [|]] eqn:Ei; try done.
      simpl in Hok. rewrite Ei in Hok. simpl in Hok. apply Forall_cons in Hok as [Hi Hok]. rewrite (Hb _ _ Hi) in E. injection E as E1 E2.
      simpl. rewrite Ei. simpl. rewrite E1, E2. f_equal. apply IH; [done|done|]. intros e' He'. apply Hlen. by right.
    - rewrite Hs, fmap_app. by eexists.
    - unfold readings. rewrite fmap_length. clear -Hlen. revert Hlen. generalize (log c) as lg. induction lg as [|e lg IH]; intros Hlen; [done|].
      cbn [fmap list_fmap concat]. rewrite app_length, (Hlen e) by by left. simpl. f_equal. apply IH. intros e' He'. apply Hlen. by right.
  Qed.
End Limiter.
Lemma answers_lrun {L} (try_ : L → Z → bool * L) ts : ∀ l, answers try_ l ts = lrun try_ l ts.
Proof. induction ts as [|t ts IH]; intros l; [done|]. simpl. destruct (try_ l t). simpl. by rewrite IH. Qed.
Lemma ascending_prefix t0 l l' : l `prefix_of` l' → ascending t0 l' → ascending t0 l.
Proof. intros [k ->] Ha. by apply ascending_app in Ha as [? _]. Qed.

(** ** The bodies compute the sequential functions *)
Lemma fw_body_ok l i : alone fw_body [i] l = ((fw_try l (i_now i)).2, Fin (fw_try l (i_now i)).1).
Proof.
  unfold fw_body, fw_try. cbn [alone]. destruct (decide (time_sub (i_now i) (fw_last l) > fw_window l)); cbn [alone fw_limit fw_counter fw_window fw_last];
    destruct (decide (fw_limit l ≤ _)); done.
Qed.
Lemma lb_body_ok l i : alone lb_body [i] l = ((lb_try l (i_now i)).2, Fin (lb_try l (i_now i)).1).
Proof.
  unfold lb_body, lb_try. cbn [alone]. destruct (decide (second ≤ time_sub (i_now i) (lb_last l))); cbn [alone lb_peak lb_level lb_velocity lb_last];
    destruct (decide (lb_peak l ≤ _)); done.
Qed.
Lemma tb_body_ok l i : alone tb_body [i] l = ((tb_try l (i_now i)).2, Fin (tb_try l (i_now i)).1).
Proof.
  unfold tb_body, tb_try. cbn [alone]. destruct (decide (second ≤ time_sub (i_now i) (tb_last l))); cbn [alone tb_capacity tb_tokens tb_rate tb_last];
    match goal with |- context [decide (?x = 0)] => destruct (decide (x = 0)) end; done.
Qed.
Lemma fw_uses : uses fw_body 1.
Proof.
  constructor. intros i. constructor. intros l. simpl. case_decide; repeat (constructor; intros; simpl); repeat case_decide; repeat (constructor; intros; simpl).
Qed.
Lemma lb_uses : uses lb_body 1.
Proof.
  constructor. intros i. constructor. intros l. simpl. case_decide; repeat (constructor; intros; simpl); repeat case_decide; repeat (constructor; intros; simpl).
Qed.
Lemma tb_uses : uses tb_body 1.
Proof.
  constructor. intros i. constructor. intros l. simpl. case_decide; repeat (constructor; intros; simpl); repeat case_decide; repeat (constructor; intros; simpl).
Qed.

(** *** the map loops *)
(** the sum over any iteration order, skipping the counters that do not satisfy [P] *)
Definition msum (P : Z → Prop) `{∀ x, Decision (P x)} (ks : list (Z * Z)) (a : Z) : Z :=
  foldl (λ a kc, if decide (P kc.1) then i64 (a + kc.2) else a) a ks.
Lemma foldl_foldr {A B} (g : A → B → B) (l : list A) : (∀ x y b, g x (g y b) = g y (g x b)) →
  ∀ b, foldl (λ b x, g x b) b l = foldr g b l.
Proof.
  intros Hc. induction l as [|x l IH]; intros b; [done|]. simpl. rewrite IH. clear IH. revert b.
  induction l as [|y l IH]; intros b; [done|]. simpl. by rewrite IH, Hc.
Qed.
Lemma msum_total (P : Z → Prop) `{∀ x, Decision (P x)} (m : gmap Z Z) ks : ks ≡ₚ map_to_list m →
  msum P ks 0 = total (filter (λ kc, P kc.1) m).
Proof.
  intros HP. set (g := λ (kc : Z * Z) (a : Z), if decide (P kc.1) then i64 (a + kc.2) else a).
  assert (∀ x y a, g x (g y a) = g y (g x a)) as Hcomm.
  { intros x y a. unfold g. repeat case_decide; rewrite ?i64_add; try done. f_equal. lia. }
  unfold msum. change (foldl _ 0 ks) with (foldl (λ b x, g x b) 0 ks). rewrite (foldl_foldr g ks Hcomm).
  rewrite (foldr_permutation_proper eq g 0 Hcomm _ _ HP).
  assert (foldr g 0 (map_to_list m) = map_fold (λ k c a, g (k, c) a) 0 m) as ->.
  { unfold map_fold. simpl. apply foldr_ext; try done. by intros [k c] a. }
  apply (map_fold_ind (λ r m, r = total (filter (λ kc, P kc.1) m))).
  - by rewrite map_filter_empty.
  - intros k c m' r Hk ->. unfold g. simpl. destruct (decide (P k)) as [D|D].
    + rewrite map_filter_insert_True by done. rewrite total_insert; [done|]. apply map_filter_lookup_None. by left.
    + rewrite map_filter_insert_not' by (simpl; intros; done). done.
Qed.
(** deleting the counters before [start], in any order *)
Definition mdrop (start : Z) (ks : list (Z * Z)) (m : gmap Z Z) : gmap Z Z :=
  foldl (λ m kc, if decide (kc.1 < start) then delete kc.1 m else m) m ks.
Lemma mdrop_lookup start ks : ∀ m j, mdrop start ks m !! j = if decide (j < start ∧ j ∈ ks.*1) then None else m !! j.
Proof.
  induction ks as [|[k c] ks IH]; intros m j.
  - rewrite decide_False; [done|]. by intros [_ ?%elem_of_nil].
  - change (mdrop start ((k, c) :: ks) m) with (mdrop start ks (if decide (k < start) then delete k m else m)). rewrite IH.
    destruct (decide (j < start ∧ j ∈ ((k, c) :: ks).*1)) as [[D1 D2]|D].
    + destruct (decide (j < start ∧ j ∈ ks.*1)) as [?|D']; [done|]. apply elem_of_cons in D2 as [E|D2]; [|tauto]. simpl in E. subst k.
      rewrite (decide_True (P := j < start)) by done. apply lookup_delete.
    + assert (¬ (j < start ∧ j ∈ ks.*1)) as D'. { intros [H1 H2]. apply D. split; [done|by right]. }
      rewrite decide_False by done. destruct (decide (k < start)) as [Hk|Hk]; [|done]. apply lookup_delete_ne. intros ->. apply D. split; [done|by left].
Qed.
Lemma mdrop_filter start ks (m : gmap Z Z) : ks ≡ₚ map_to_list m → mdrop start ks m = filter (λ kc, ¬ kc.1 < start) m.
Proof.
  intros HP. apply map_eq. intros j. rewrite mdrop_lookup, map_filter_lookup.
  destruct (m !! j) as [c|] eqn:E; simpl.
  - assert (j ∈ ks.*1) as Hin. { apply elem_of_list_fmap. exists (j, c). split; [done|]. rewrite HP. by apply elem_of_map_to_list. }
    destruct (decide (j < start)); [rewrite decide_True by done; by rewrite option_guard_False by tauto|].
    rewrite decide_False by tauto. by rewrite option_guard_True.
  - by case_decide.
Qed.
(** the loop reads current values, which are those of the snapshot *)
Lemma sw_loop_ok cur start ks : ∀ l count, NoDup ks.*1 → (∀ k c, (k, c) ∈ ks → sw_counters l !! k = Some c) →
  alone (sw_loop cur start ks count) [] l =
  alone (sw_loop cur start [] (msum (λ k, ¬ k < start) ks count)) [] (sw_with l (mdrop start ks (sw_counters l))).
Proof.
  induction ks as [|[k c] ks IH]; intros l count Hnd Hval; [by destruct l|].
  assert (sw_counters l !! k = Some c) as Hk by (apply Hval; by left). apply NoDup_cons in Hnd as [Hnin Hnd].
  assert (∀ k' c', (k', c') ∈ ks → k' ≠ k ∧ sw_counters l !! k' = Some c') as Hval'.
  { intros k' c' Hin. split; [|apply Hval; by right]. intros ->. apply Hnin. apply elem_of_list_fmap. by exists (k, c'). }
  cbn [sw_loop alone]. unfold msum, mdrop. cbn [foldl fst snd]. destruct (decide (k < start)) as [D|D].
  - rewrite (decide_False (P := ¬ k < start)) by tauto. cbv beta iota. rewrite IH; [done|done|]. intros k' c' Hin. destruct (Hval' _ _ Hin). simpl. by rewrite lookup_delete_ne by congruence.
  - rewrite (decide_True (P := ¬ k < start)) by done. cbv beta iota. rewrite Hk. simpl. rewrite IH; [done|done|]. intros k' c' Hin. by apply Hval'.
Qed.
Lemma sw_body_ok l i : in_ok i → alone sw_body [i] l = ((sw_try l (i_now i)).2, Fin (sw_try l (i_now i)).1).
Proof.
  intros Hi. unfold sw_body, sw_try. cbn [alone]. set (cur := i64 (Z.quot _ _ * _)). set (start := i64 (cur - _)).
  pose proof (Hi (map_to_list (sw_counters l))) as HP. set (ks := i_order i _) in *.
  rewrite sw_loop_ok.
  - rewrite (mdrop_filter start ks _ HP). rewrite (msum_total (λ k, ¬ k < start) (sw_counters l) ks HP). cbn [sw_loop alone sw_with sw_limit sw_counters].
    match goal with |- context [decide (sw_limit l ≤ ?x)] => destruct (decide (sw_limit l ≤ x)) end; done.
  - rewrite HP. apply NoDup_fst_map_to_list.
  - intros k c Hin. rewrite HP in Hin. by apply elem_of_map_to_list.
Qed.
Lemma sw_uses : uses sw_body 1.
Proof.
  constructor. intros i. constructor. intros l. simpl. generalize (i_order i (map_to_list (sw_counters l))), 0. intros ks. induction ks as [|[k c] ks IH]; intros cnt; simpl.
  - constructor. intros s. simpl. case_decide; repeat (constructor; intros; simpl).
  - constructor. intros s. case_decide; apply IH.
Qed.

Lemma sl_loop_ok cur start0 ss ks : ∀ l counts, length counts = length ss → NoDup ks.*1 → (∀ k c, (k, c) ∈ ks → sl_counters l !! k = Some c) →
  alone (sl_loop cur start0 ss ks counts) [] l =
  alone (sl_loop cur start0 ss [] (zip_with (λ s c, msum (λ k, ¬ k < start0 ∧ s.2 ≤ k) ks c) ss counts)) [] (sl_with l (mdrop start0 ks (sl_counters l))).
Proof.
  induction ks as [|[k c] ks IH]; intros l counts Hlen Hnd Hval.
  { assert (zip_with (λ (s : strat * Z) (c : Z), msum (λ k, ¬ k < start0 ∧ s.2 ≤ k) [] c) ss counts = counts) as ->; [|by destruct l].
    revert ss Hlen. induction counts as [|x counts IHc]; intros [|s ss] Hlen; simpl in *; try done. rewrite IHc; [done|lia]. }
  assert (sl_counters l !! k = Some c) as Hk by (apply Hval; by left). apply NoDup_cons in Hnd as [Hnin Hnd].
  assert (∀ k' c', (k', c') ∈ ks → k' ≠ k ∧ sl_counters l !! k' = Some c') as Hval'.
  { intros k' c' Hin. split; [|apply Hval; by right]. intros ->. apply Hnin. apply elem_of_list_fmap. by exists (k, c'). }
  cbn [sl_loop alone]. unfold mdrop. cbn [foldl fst snd]. destruct (decide (k < start0)) as [D|D].
  - cbv beta iota. rewrite IH; [|done|done|].
    + assert (zip_with (λ (s : strat * Z) (c0 : Z), msum (λ k0, ¬ k0 < start0 ∧ s.2 ≤ k0) ks c0) ss counts =
              zip_with (λ (s : strat * Z) (c0 : Z), msum (λ k0, ¬ k0 < start0 ∧ s.2 ≤ k0) ((k, c) :: ks) c0) ss counts) as ->; [|done].
      clear -D. revert counts. induction ss as [|s ss IHs]; intros [|x counts]; simpl; try done. rewrite IHs. f_equal. unfold msum. simpl.
      rewrite (decide_False (P := ¬ k < start0 ∧ s.2 ≤ k)) by tauto. done.
    + intros k' c' Hin. destruct (Hval' _ _ Hin). simpl. by rewrite lookup_delete_ne by congruence.
  - cbv beta iota. rewrite IH; [|rewrite zip_with_length; lia|done|].
    + rewrite Hk. simpl.
      assert (zip_with (λ (s : strat * Z) (c0 : Z), msum (λ k0, ¬ k0 < start0 ∧ s.2 ≤ k0) ks c0) ss
                (zip_with (λ (s : strat * Z) (c0 : Z), if decide (s.2 ≤ k) then i64 (c0 + c) else c0) ss counts) =
              zip_with (λ (s : strat * Z) (c0 : Z), msum (λ k0, ¬ k0 < start0 ∧ s.2 ≤ k0) ((k, c) :: ks) c0) ss counts) as ->; [|done].
      clear -D. revert counts. induction ss as [|s ss IHs]; intros [|x counts]; simpl; try done. rewrite IHs. f_equal. unfold msum. simpl.
      destruct (decide (s.2 ≤ k)); [rewrite (decide_True (P := ¬ k < start0 ∧ s.2 ≤ k)) by tauto|rewrite (decide_False (P := ¬ k < start0 ∧ s.2 ≤ k)) by tauto]; done.
    + intros k' c' Hin. by apply Hval'.
Qed.
Lemma sl_body_ok h l i : in_ok i → alone (sl_body h) [i] l = ((sl_try l h (i_now i)).2, Fin (sl_try l h (i_now i)).1).
Proof.
  intros Hi. unfold sl_body, sl_try. cbn [alone]. set (cur := i64 (Z.quot _ _ * _)).
  destruct (mapM (λ p, h !! p) (sl_strats l)) as [[|s0 ss]|]; [done| |done].
  set (strats := s0 :: ss). set (start0 := sl_start cur (sl_small l) s0). set (f := λ s, (s, sl_start cur (sl_small l) s)).
  pose proof (Hi (map_to_list (sl_counters l))) as HP. set (ks := i_order i _) in *.
  rewrite sl_loop_ok.
  - rewrite (mdrop_filter start0 ks _ HP). set (m := filter _ (sl_counters l)).
    assert (zip_with (λ (s : strat * Z) (c : Z), msum (λ k, ¬ k < start0 ∧ s.2 ≤ k) ks c) (f <$> strats) (replicate (length strats) 0) =
            (λ s, total (filter (λ kc : Z * Z, sl_start cur (sl_small l) s ≤ kc.1) m)) <$> strats) as ->.
    { clearbody strats. induction strats as [|s st IH]; [done|]. cbn [fmap list_fmap length replicate zip_with]. rewrite IH. f_equal.
      change (f s).2 with (sl_start cur (sl_small l) s). rewrite (msum_total (λ k, ¬ k < start0 ∧ sl_start cur (sl_small l) s ≤ k) (sl_counters l) ks HP). f_equal. subst m.
      rewrite map_filter_filter. apply map_filter_ext. intros k c _. simpl. tauto. }
    cbn [sl_loop]. assert ((f <$> strats).*1 = strats) as ->. { rewrite <-list_fmap_compose. exact (list_fmap_id strats). }
    destruct (list_find _ _) as [[j [s c]]|]; done.
  - by rewrite replicate_length, fmap_length.
  - rewrite HP. apply NoDup_fst_map_to_list.
  - intros k c Hin. rewrite HP in Hin. by apply elem_of_map_to_list.
Qed.
Lemma sl_uses h : uses (sl_body h) 1.
Proof.
  constructor. intros i. constructor. intros l. simpl. destruct (mapM _ _) as [[|s0 ss]|]; [constructor| |constructor].
  generalize (i_order i (map_to_list (sl_counters l))), (replicate (length (s0 :: ss)) 0). intros ks. induction ks as [|[k c] ks IH]; intros cnt; cbn [sl_loop].
  - destruct (list_find _ _) as [[? [? ?]]|]; [constructor|]. constructor. intros. simpl. constructor.
  - constructor. intros s. case_decide; apply IH.
Qed.
