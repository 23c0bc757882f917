(** * Timing wheel: the levels, and where [add] puts a timer *)
From stdpp Require Import list_numbers.
From Verif Require Import GoBase HeapModel HeapSpec HeapProofs HeapMethods WheelModel WheelSpec WheelProofs.
Local Open Scope Z_scope.

(** the last multiple of [T] up to [c] *)
Definition tr (c T : Z) : Z := T * (c / T).
Lemma tr_le c T : 0 < T → tr c T ≤ c.
Proof. intros. unfold tr. apply Z.mul_div_le. done. Qed.
Lemma tr_lt c T : 0 < T → c < tr c T + T.
Proof. intros. unfold tr. pose proof (Z.div_mod c T ltac:(lia)). pose proof (Z.mod_pos_bound c T ltac:(lia)). lia. Qed.
Lemma tr_mono a b T : 0 < T → a ≤ b → tr a T ≤ tr b T.
Proof. intros. unfold tr. apply Z.mul_le_mono_nonneg_l; [lia|]. by apply Z.div_le_mono. Qed.
Lemma tr_nonneg c T : 0 < T → 0 ≤ c → 0 ≤ tr c T.
Proof. intros. unfold tr. pose proof (Z.div_pos c T). nia. Qed.
Lemma tr_mult k T : 0 < T → tr (T * k) T = T * k.
Proof. intros. unfold tr. rewrite (Z.mul_comm T k), Z.div_mul by lia. lia. Qed.
Lemma tr_tr c T n : 0 < T → 0 < n → tr (tr c T) (T * n) = tr c (T * n).
Proof. intros. unfold tr. rewrite Z.div_mul_cancel_l by lia. rewrite Z.div_div by lia. done. Qed.
Lemma tr_rem c T : 0 < T → 0 ≤ c → c - Z.rem c T = tr c T.
Proof. intros. rewrite Z.rem_mod_nonneg by lia. unfold tr. pose proof (Z.div_mod c T ltac:(lia)). lia. Qed.
(** multiples of [T] at least [T] apart are determined by their index modulo the size *)
Lemma same_slot T n a b c : 0 < T → 0 < n → a mod n = b mod n → c ≤ T * a → T * a < c + T * n → c ≤ T * b → T * b < c + T * n → a = b.
Proof.
  intros HT Hn Hm Ha Ha' Hb Hb'. pose proof (Z.div_mod a n ltac:(lia)) as Ea. pose proof (Z.div_mod b n ltac:(lia)) as Eb. rewrite Hm in Ea.
  assert (a - b = n * (a / n - b / n)) by lia. assert (- n < a - b < n) by nia. assert (a / n - b / n = 0) by nia. lia.
Qed.

Section Levels.
  Context (tick sz B : Z) (Htick : 0 < tick) (Hsz : 2 ≤ sz) (Hint : tick * sz ≤ 2 ^ 62) (HB : B * sz ≤ 2 ^ 62) (HB0 : 0 < B).
  Lemma B_small : B ≤ 2 ^ 61.
  Proof. nia. Qed.
  Definition T (i : nat) : Z := tick * sz ^ Z.of_nat i.
  Lemma T_0 : T 0 = tick.
  Proof. unfold T. rewrite Z.pow_0_r. lia. Qed.
  Lemma T_S i : T (S i) = T i * sz.
  Proof. unfold T. rewrite Nat2Z.inj_succ, Z.pow_succ_r by lia. lia. Qed.
  Lemma T_pos i : 0 < T i.
  Proof. unfold T. pose proof (Z.pow_pos_nonneg sz (Z.of_nat i)). nia. Qed.
  Lemma T_grow i : 2 ^ Z.of_nat i ≤ T i.
  Proof. unfold T. pose proof (Z.pow_le_mono_l 2 sz (Z.of_nat i)). pose proof (Z.pow_pos_nonneg 2 (Z.of_nat i)). nia. Qed.
  Lemma T_tr c i : tr (tr c (T i)) (T (S i)) = tr c (T (S i)).
  Proof. rewrite T_S. apply tr_tr; [apply T_pos|lia]. Qed.
  Lemma T_tr0 c i : tr (tr c tick) (T i) = tr c (T i).
  Proof. unfold T. apply tr_tr; [done|]. apply Z.pow_pos_nonneg; lia. Qed.

  Definition cur (w : wheel) : Z := match wlevels w with l :: _ => lcur l | [] => 0 end.
  Record lv (w : wheel) : Prop := {
    lv_size : wsize w = sz;
    lv_some : (0 < length (wlevels w))%nat;
    lv_cur : 0 ≤ cur w < B;
    lv_at : ∀ i l, wlevels w !! i = Some l → l = Level (T i) (T (S i)) (tr (cur w) (T i)) ∧ (i ≠ 0%nat → T i < B);
  }.
  Lemma lv_bound i : (i = 0%nat ∨ T i < B) → T i ≤ 2 ^ 61 ∧ T (S i) ≤ 2 ^ 62.
  Proof. intros H. pose proof (T_pos i). rewrite T_S. destruct H as [->|H]; [rewrite T_0 in *; nia|nia]. Qed.
  Lemma tr_cur w i : lv w → 0 ≤ tr (cur w) (T i) < B.
  Proof. intros HL. pose proof (lv_cur w HL). split; [apply tr_nonneg; [apply T_pos|lia]|]. pose proof (tr_le (cur w) (T i) (T_pos i)). lia. Qed.
  Lemma new_level_ok w i : lv w → T (S i) < B → new_level (T (S i)) sz (tr (cur w) (T i)) = Ret (Level (T (S i)) (T (S (S i))) (tr (cur w) (T (S i)))).
  Proof.
    intros HL HT. unfold new_level, truncate. pose proof (T_pos (S i)). rewrite (proj2 (Z.eqb_neq _ _)) by lia. cbn [mbind go_bind].
    rewrite (proj2 (Z.ltb_ge _ _)) by lia. pose proof (tr_cur w i HL). rewrite tr_rem by lia. rewrite T_tr. pose proof (tr_cur w (S i) HL). pose proof (lv_bound (S i) ltac:(auto)) as [? ?].
    rewrite (T_S (S i)) in *. rewrite !i64_id; [done|split; nia..].
  Qed.
  Lemma lv_grow w i : lv w → length (wlevels w) = S i → T (S i) < B → lv (set_levels w (wlevels w ++ [Level (T (S i)) (T (S (S i))) (tr (cur w) (T (S i)))])).
  Proof.
    intros HL Hi HT. assert (Hc : cur (set_levels w (wlevels w ++ [Level (T (S i)) (T (S (S i))) (tr (cur w) (T (S i)))])) = cur w).
    { unfold cur. simpl. pose proof (lv_some w HL). destruct (wlevels w); [simpl in *; lia|done]. }
    split; rewrite ?Hc; simpl.
    - apply HL.
    - rewrite app_length. simpl. lia.
    - apply HL.
    - intros j l Hj. apply lookup_app_Some in Hj as [Hj|[Hj Hl]]; [by apply HL|]. apply list_lookup_singleton_Some in Hl as [Hj' <-]. assert (j = S i) as -> by lia. done.
  Qed.

  (** the slot of a timer expiring at [e] on level [k], and the bucket expiration *)
  Definition slot (k : nat) (e : Z) : ref := (k, (e / T k) mod sz).
  Record at_level (c e : Z) (k : nat) : Prop := {
    al_lo : tr c (T k) + T k ≤ e;
    al_hi : e < tr c (T k) + T (S k);
  }.
  Definition same_queue (w w' : wheel) : Prop := wbk w' = wbk w ∧ wtb w' = wtb w ∧ wheap w' = wheap w.
  Definition queued (w w' : wheel) (r : ref) (e : Z) : Prop :=
    if bexp (wbk w r) =? e then wheap w' = wheap w else gpush (sooner (wbk w')) 2 (wheap w) r = Ret (wheap w').
  Record put (w w' : wheel) (t : timer) (k : nat) : Prop := {
    p_at : at_level (cur w) (texp t) k;
    p_len : (k < length (wlevels w'))%nat;
    p_added : added w w' (slot k (texp t)) (tr (texp t) (T k)) t;
    p_queued : queued w w' (slot k (texp t)) (tr (texp t) (T k));
  }.
  Lemma add_spec n lk : ∀ w i t b w', lv w → (i < length (wlevels w))%nat → texp t < B → add n lk w i t = Ret (b, w') →
    lv w' ∧ cur w' = cur w ∧ (length (wlevels w) ≤ length (wlevels w'))%nat ∧
    if b then ∃ k, (i ≤ k)%nat ∧ put w w' t k ∧ lk ≠ Some (slot k (texp t)) ∧ (∀ k', (i ≤ k' < k)%nat → tr (cur w) (T k') + T (S k') ≤ texp t)
    else same_queue w w' ∧ ∃ k, (i ≤ k)%nat ∧ texp t < tr (cur w) (T k) + T k ∧ (∀ k', (i ≤ k' < k)%nat → tr (cur w) (T k') + T (S k') ≤ texp t).
  Proof.
    induction n as [|n IH]; intros w i t b w' HL Hi He E; [done|]. cbn [add] in E.
    destruct (wlevels w !! i) as [l|] eqn:El; [|apply lookup_ge_None in El; lia].
    destruct (lv_at w HL i l El) as [-> HT]. simpl in E.
    pose proof (lv_bound i ltac:(destruct (decide (i = 0%nat)); auto)) as [Hb1 Hb2]. pose proof (T_pos i). pose proof (tr_cur w i HL). pose proof (T_pos (S i)).
    pose proof B_small.
    rewrite (i64_id (tr (cur w) (T i) + T i)), (i64_id (tr (cur w) (T i) + T (S i))) in E by (split; lia).
    destruct (Z.ltb_spec (texp t) (tr (cur w) (T i) + T i)) as [Hlt|Hge].
    { injection E as <- <-. split_and!; [done|done|done|done|]. exists i. split_and!; [done|done|lia]. }
    destruct (Z.ltb_spec (texp t) (tr (cur w) (T i) + T (S i))) as [Hlt|Hge2].
    - rewrite (proj2 (Z.eqb_neq (T i) 0)) in E by lia. rewrite (lv_size w HL) in E. rewrite (proj2 (Z.eqb_neq sz 0)) in E by lia.
      rewrite Z.quot_div_nonneg in E by lia. pose proof (Z.div_pos (texp t) (T i) ltac:(lia) ltac:(lia)).
      rewrite Z.rem_mod_nonneg in E by lia. pose proof (Z.mod_pos_bound (texp t / T i) sz ltac:(lia)).
      rewrite (proj2 (Z.leb_le 0 _)), (proj2 (Z.ltb_lt _ sz)) in E by lia. cbn [andb negb] in E.
      rewrite (Z.mul_comm (texp t / T i)) in E. change (T i * (texp t / T i)) with (tr (texp t) (T i)) in E.
      pose proof (tr_nonneg (texp t) (T i) ltac:(lia) ltac:(lia)). pose proof (tr_le (texp t) (T i) ltac:(lia)).
      rewrite (i64_id (tr (texp t) (T i))) in E by (split; lia).
      change (i, (texp t / T i) mod sz) with (slot i (texp t)) in E.
      destruct (decide _) as [|Hlk]; [done|]. cbn [set_expiration] in E. set (r := slot i (texp t)) in *.
      set (w1 := set_bk _ r _) in *.
      assert (HAD : added w w1 r (tr (texp t) (T i)) t).
      { split; intros x; [|done]. cbn. destruct (decide (x = r)) as [->|Hx]; [by rewrite !fupd_eq|by rewrite !fupd_ne]. }
      rewrite fupd_eq in E. cbn [bexp] in E.
      assert (Hput : ∃ h, w' = set_heap w1 h ∧ b = true ∧ if bexp (wbk w r) =? tr (texp t) (T i) then h = wheap w else gpush (sooner (wbk w1)) 2 (wheap w) r = Ret h).
      { destruct (bexp (wbk w r) =? _); simpl in E.
        - injection E as <- <-. exists (wheap w). done.
        - unfold push in E. change (wheap w1) with (wheap w) in E. destruct (gpush _ _ _ _) as [h| |]; [|done..]. cbn in E. injection E as <- <-. by exists h. }
      destruct Hput as (h & -> & -> & Hh). split_and!; [|done|done|].
      + split; simpl; apply HL.
      + exists i. split_and!; [done| |done|lia]. split; [by split|done|done|]. unfold queued. fold r. destruct (_ =? _); done.
    - assert (HTB : T (S i) < B) by lia.
      destruct (wlevels w !! S i) as [l'|] eqn:El'.
      + cbn [mbind go_bind] in E. destruct (IH w (S i) t b w' HL ltac:(by eapply lookup_lt_Some) He E) as (R1 & R2 & R3 & R4). split_and!; [done|done|done|].
        destruct b.
        * destruct R4 as (k & Hk & Hp & Hlk & Hs). exists k. split_and!; [lia|done|done|]. intros k' Hk'. destruct (decide (k' = i)) as [->|]; [done|]. apply Hs. lia.
        * destruct R4 as (Hq & k & Hk & Hp & Hs). split; [done|]. exists k. split_and!; [lia|done|]. intros k' Hk'. destruct (decide (k' = i)) as [->|]; [done|]. apply Hs. lia.
      + rewrite (lv_size w HL), (new_level_ok w i HL HTB) in E. cbn [mbind go_bind] in E. apply lookup_ge_None in El'.
        assert (Hlen : length (wlevels w) = S i) by lia.
        set (w2 := set_levels _ _) in *. assert (HL2 : lv w2) by by apply lv_grow.
        assert (Hc : cur w2 = cur w) by (unfold cur; simpl; destruct (wlevels w); [simpl in *; lia|done]).
        destruct (IH w2 (S i) t b w' HL2 ltac:(simpl; rewrite app_length; simpl; lia) He E) as (R1 & R2 & R3 & R4). rewrite Hc in *. split_and!; [done|done|simpl in R3; rewrite app_length in R3; lia|].
        destruct b.
        * destruct R4 as (k & Hk & Hp & Hlk & Hs). exists k. split_and!; [lia| |done|].
          { destruct Hp as [P1 P2 P3 P4]. split; [by rewrite Hc in P1|done|done|done]. }
          intros k' Hk'. destruct (decide (k' = i)) as [->|]; [done|]. apply Hs. lia.
        * destruct R4 as (Hq & k & Hk & Hp & Hs). split; [done|]. exists k. split_and!; [lia|done|]. intros k' Hk'. destruct (decide (k' = i)) as [->|]; [done|]. apply Hs. lia.
  Qed.
  (** ** advance *)
  Lemma T_tr' c i j : (i ≤ j)%nat → tr (tr c (T i)) (T j) = tr c (T j).
  Proof. induction 1 as [|j Hj IH]; [apply tr_mult, T_pos|]. by rewrite <- T_tr, IH, T_tr. Qed.
  Lemma tr_eq c e T : 0 < T → tr c T ≤ e → e < tr c T + T → tr e T = tr c T.
  Proof. intros HT H1 H2. unfold tr in *. f_equal. symmetry. apply (Z.div_unique e T (c / T) (e - T * (c / T))); lia. Qed.
  Definition lvl (c : Z) (i : nat) : level := Level (T i) (T (S i)) (tr c (T i)).
  Lemma lv_levels w : lv w → wlevels w = lvl (cur w) <$> seq 0 (length (wlevels w)).
  Proof.
    intros HL. apply list_eq. intros i. rewrite list_lookup_fmap. destruct (wlevels w !! i) as [l|] eqn:El.
    - pose proof (lookup_lt_Some _ _ _ El). rewrite lookup_seq_lt by done. simpl. f_equal. by apply HL.
    - apply lookup_ge_None in El. rewrite lookup_seq_ge by done. done.
  Qed.
  Lemma advance_from c : ∀ n i e, 0 ≤ c < B → 0 ≤ e < B → (∀ j, (i ≤ j < i + n)%nat → T j ≤ 2 ^ 61) →
    advance (lvl c <$> seq i n) e = Ret (lvl (if tr c (T i) + T i <=? e then e else c) <$> seq i n).
  Proof.
    induction n as [|n IH]; intros i e Hc He HT; [done|]. cbn [seq fmap list_fmap advance]. change (lcur (lvl c i)) with (tr c (T i)). change (ltick (lvl c i)) with (T i). change (linterval (lvl c i)) with (T (S i)).
    pose proof (T_pos i). pose proof (HT i ltac:(lia)). pose proof (tr_le c (T i) ltac:(lia)). pose proof (tr_nonneg c (T i) ltac:(lia) ltac:(lia)).
    pose proof B_small. rewrite i64_id by (split; lia).
    destruct (Z.leb_spec (tr c (T i) + T i) e) as [Hle|Hgt]; [|done].
    unfold truncate. rewrite (proj2 (Z.eqb_neq (T i) 0)) by lia. cbn [mbind go_bind]. rewrite tr_rem by lia.
    pose proof (tr_le e (T i) ltac:(lia)). pose proof (tr_nonneg e (T i) ltac:(lia) ltac:(lia)). rewrite i64_id by (split; lia).
    change (list_fmap nat level (lvl c) (seq (S i) n)) with (lvl c <$> seq (S i) n).
    rewrite (IH (S i) (tr e (T i))) by (try lia; intros; apply HT; lia). cbn [mbind go_bind]. f_equal. f_equal. apply list_fmap_ext.
    intros _ j Hj%elem_of_list_lookup_2%elem_of_seq. unfold lvl. f_equal.
    destruct (Z.leb_spec (tr c (T (S i)) + T (S i)) (tr e (T i))) as [Hle2|Hgt2]; [apply T_tr'; lia|].
    assert (Heq : tr e (T (S i)) = tr c (T (S i))).
    { rewrite <- (T_tr' e i (S i)) by lia. apply tr_eq; [apply T_pos| |done]. rewrite <- (T_tr c i). etransitivity; [apply tr_le, T_pos|]. apply tr_mono; [done|]. pose proof (tr_lt c (T i)). lia. }
    rewrite <- (T_tr' c (S i) j), <- (T_tr' e (S i) j) by lia. by rewrite Heq.
  Qed.
  Lemma advance_spec w e : lv w → 0 ≤ e < B → ∃ ls, advance (wlevels w) e = Ret ls ∧ lv (set_levels w ls) ∧ length ls = length (wlevels w) ∧
    cur (set_levels w ls) = (if cur w + tick <=? e then tr e tick else cur w).
  Proof.
    intros HL He. eexists. split; [rewrite (lv_levels w HL) at 1; apply advance_from; [apply HL|done|]|].
    { intros j Hj. destruct (lookup_lt_is_Some_2 (wlevels w) j) as [l Hl]; [lia|]. destruct (lv_at w HL _ _ Hl) as [_ Hl']. apply lv_bound. destruct (decide (j = 0%nat)); auto. }
    rewrite T_0. pose proof (lv_some w HL) as Hlen. pose proof (lv_cur w HL) as Hcw.
    assert (Hc0 : tr (cur w) tick = cur w).
    { destruct (lookup_lt_is_Some_2 (wlevels w) 0) as [l Hl]; [lia|]. destruct (lv_at w HL _ _ Hl) as [-> _]. rewrite T_0 in Hl. unfold cur at 2. by destruct (wlevels w); [|injection Hl as ->]. }
    rewrite Hc0. set (c' := if cur w + tick <=? e then e else cur w).
    assert (Hcur : cur (set_levels w (lvl c' <$> seq 0 (length (wlevels w)))) = if cur w + tick <=? e then tr e tick else cur w).
    { unfold cur at 1. simpl. destruct (length (wlevels w)); [lia|]. simpl. rewrite T_0. subst c'. destruct (cur w + tick <=? e); [done|by rewrite Hc0]. }
    assert (Hc' : ∀ i, tr (cur (set_levels w (lvl c' <$> seq 0 (length (wlevels w))))) (T i) = tr c' (T i)).
    { intros i. rewrite Hcur. subst c'. destruct (cur w + tick <=? e); [|done]. rewrite <- T_0 at 1. apply T_tr'. lia. }
    split_and!; [|by rewrite fmap_length, seq_length|done]. split; simpl.
    - apply HL.
    - by rewrite fmap_length, seq_length.
    - rewrite Hcur. destruct (cur w + tick <=? e); [|done]. pose proof (tr_le e tick Htick). pose proof (tr_nonneg e tick Htick). lia.
    - intros i l Hl. rewrite Hc'. apply list_lookup_fmap_Some in Hl as (j & Hj & ->). apply lookup_seq in Hj as [-> Hj]. simpl. split; [done|].
      intros Hi. destruct (lookup_lt_is_Some_2 (wlevels w) i) as [l Hl]; [lia|]. by apply (lv_at w HL _ _ Hl).
  Qed.
  (** ** add terminates *)
  Lemma add_total lk : ∀ n w i t, lv w → (i < length (wlevels w))%nat → texp t < B → (64 ≤ i + n)%nat →
    (∃ b w', add n lk w i t = Ret (b, w')) ∨ ∃ k, at_level (cur w) (texp t) k ∧ lk = Some (slot k (texp t)).
  Proof.
    induction n as [|n IH]; intros w i t HL Hi He Hn.
    { exfalso. destruct (lookup_lt_is_Some_2 (wlevels w) i Hi) as [l Hl]. destruct (lv_at w HL _ _ Hl) as [_ HT]. specialize (HT ltac:(lia)).
      pose proof (T_grow i). assert (2 ^ 64 ≤ 2 ^ Z.of_nat i) by (apply Z.pow_le_mono_r; lia). nia. }
    cbn [add]. destruct (wlevels w !! i) as [l|] eqn:El; [|apply lookup_ge_None in El; lia].
    destruct (lv_at w HL i l El) as [-> HT]. simpl.
    pose proof (lv_bound i ltac:(destruct (decide (i = 0%nat)); auto)) as [Hb1 Hb2]. pose proof (T_pos i). pose proof (tr_cur w i HL). pose proof (T_pos (S i)).
    pose proof B_small.
    rewrite (i64_id (tr (cur w) (T i) + T i)), (i64_id (tr (cur w) (T i) + T (S i))) by (split; lia).
    destruct (Z.ltb_spec (texp t) (tr (cur w) (T i) + T i)) as [Hlt|Hge]; [left; by eexists _, _|].
    destruct (Z.ltb_spec (texp t) (tr (cur w) (T i) + T (S i))) as [Hlt|Hge2].
    - rewrite (proj2 (Z.eqb_neq (T i) 0)) by lia. rewrite (lv_size w HL). rewrite (proj2 (Z.eqb_neq sz 0)) by lia.
      rewrite Z.quot_div_nonneg by lia. pose proof (Z.div_pos (texp t) (T i) ltac:(lia) ltac:(lia)).
      rewrite Z.rem_mod_nonneg by lia. pose proof (Z.mod_pos_bound (texp t / T i) sz ltac:(lia)).
      rewrite (proj2 (Z.leb_le 0 _)), (proj2 (Z.ltb_lt _ sz)) by lia. cbn [andb negb].
      change (i, (texp t / T i) mod sz) with (slot i (texp t)). destruct (decide _) as [->|Hlk]; [right; exists i; split; [by split|done]|]. left.
      cbn [set_expiration]. destruct (negb _); [|simpl; by eexists _, _]. unfold push.
      match goal with |- context [gpush ?f 2 ?h ?r] => destruct (gpush_spec f 2 ltac:(lia) h r) as (h' & -> & _) end. simpl. by eexists _, _.
    - assert (HTB : T (S i) < B) by lia. destruct (wlevels w !! S i) as [l'|] eqn:El'.
      + cbn [mbind go_bind]. apply IH; [done|by eapply lookup_lt_Some|done|lia].
      + rewrite (lv_size w HL), (new_level_ok w i HL HTB). cbn [mbind go_bind]. apply lookup_ge_None in El'.
        assert (Hlen : length (wlevels w) = S i) by lia. set (w2 := set_levels _ _) in *. assert (HL2 : lv w2) by by apply lv_grow.
        assert (Hc : cur w2 = cur w) by (unfold cur; simpl; destruct (wlevels w); [simpl in *; lia|done]).
        rewrite <- Hc. apply IH; [done|simpl; rewrite app_length; simpl; lia|done|lia].
  Qed.
End Levels.
