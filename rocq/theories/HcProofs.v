(** * C123: the counts of bitCounts are those of a complete code *)
From stdpp Require Import list_numbers sorting.
From Verif Require Import GoBase GoStr InflModel InflSpec InflHuff HufModel HufSpec HcModel.
Local Open Scope Z_scope.

Lemma setn_eq {A} (f : nat → A) i v : setn f i v i = v. Proof. unfold setn. by rewrite Nat.eqb_refl. Qed.
Lemma setn_ne {A} (f : nat → A) i v j : j ≠ i → setn f i v j = f j. Proof. intros H. unfold setn. by rewrite (proj2 (Nat.eqb_neq j i) H). Qed.

Local Arguments setn : simpl never.
Section counts.
  (** [n] symbols with the frequencies [W 0 .. W (n - 1)] in order; levels up to [M] *)
  Context (f : list Z) (n M : nat) (K : Z) (W : nat → Z).
  Context (Hn : (3 ≤ n)%nat) (HM : (1 ≤ M ≤ 15)%nat) (Hcap : Z.of_nat n ≤ 2 ^ Z.of_nat M) (HK : 1 ≤ K ≤ 16385).
  Context (Hf : ∀ i, (i ≤ n)%nat → f !! i = Some (W i)) (Hsort : ∀ i j, (i ≤ j ≤ n)%nat → W i ≤ W j) (HW : ∀ i, (i < n)%nat → 1 ≤ W i ≤ K) (Hmax : W n = max_int32).
  (** a bound for the frequencies of row [l] *)
  Definition bd (l : nat) : Z := 2 ^ (Z.of_nat l - 1) * K.
  Lemma bd_S l : (1 ≤ l)%nat → bd (S l) = 2 * bd l.
  Proof. intros Hl. unfold bd. replace (Z.of_nat (S l) - 1) with (Z.succ (Z.of_nat l - 1)) by lia. rewrite Z.pow_succ_r by lia. lia. Qed.
  Lemma bd_pos l : (1 ≤ l)%nat → K ≤ bd l. Proof. intros Hl. unfold bd. assert (1 ≤ 2 ^ (Z.of_nat l - 1)) by (pose proof (Z.pow_pos_nonneg 2 (Z.of_nat l - 1)); lia). nia. Qed.
  Lemma bd_max l : (1 ≤ l ≤ M)%nat → bd l < max_int32.
  Proof. intros Hl. unfold bd, max_int32. assert (2 ^ (Z.of_nat l - 1) ≤ 2 ^ 14) by (apply Z.pow_le_mono_r; lia). assert (0 < 2 ^ (Z.of_nat l - 1)) by (apply Z.pow_pos_nonneg; lia). change (2 ^ 14) with 16384 in *. nia. Qed.
  (** [v] are the leaves left of each ancestor of item [t] of row [l] *)
  Fixpoint chain_of (l : nat) (v : nat → nat) (t : nat) : Prop :=
    match l with O => v O = O ∧ t = O | S k => (v l ≤ t)%nat ∧ chain_of k v (2 * (t - v l)) end.
  Lemma chain_ext l v v' t : (∀ j, (j ≤ l)%nat → v j = v' j) → chain_of l v t → chain_of l v' t.
  Proof. revert t. induction l as [|l IH]; intros t He; cbn [chain_of]; [rewrite <- (He O) by lia; done|]. rewrite <- (He (S l)) by lia. intros [H1 H2]. split; [done|]. apply IH; [intros j Hj; apply He; lia|done]. Qed.
  (** one level by itself, with [p] pairs taken *)
  Record row (s : bst) (p : nat → nat) (l : nat) : Prop := Row {
    r_leaf : (2 ≤ lc s l l ≤ n)%nat;
    r_char : nc s l = W (lc s l l);
    r_pairs : (p l ≤ n - 2)%nat;
    r_total : (lc s l l + p l + ne s l ≤ 2 * n - 2)%nat;
    r_last : W (lc s l l - 1) ≤ la s l ∧ 1 ≤ la s l ≤ bd l;
    r_next : la s l ≤ nc s l;
    r_chain : chain_of l (lc s l) (lc s l l + p l);
    r_mono : ∀ j, (1 ≤ j ≤ l)%nat → (lc s l (j - 1) ≤ lc s l j)%nat }.
  (** row [S l] and the row below *)
  Inductive link (s : bst) (p : nat → nat) (l : nat) : Prop :=
    | ran_out : np s (S l) = max_int32 → ne s l = O → lc s l l = n → np s l = max_int32 → (lc s l l + p l ≤ 2 * p (S l) + 1)%nat → link s p l
    | valid : ne s l = O → (lc s l l + p l = 2 * p (S l) + 2)%nat → la s l < np s (S l) ≤ 2 * la s l → la s (S l) ≤ np s (S l) → np s (S l) ≤ bd (S l) → link s p l
    | pending : (0 < ne s l ≤ 2)%nat → (lc s l l + p l + ne s l = 2 * p (S l) + 2)%nat → la s (S l) ≤ 2 * la s l → np s (S l) < max_int32 → link s p l.
  Record bci (s : bst) (p : nat → nat) : Prop := Bci {
    b_rows : ∀ l, (1 ≤ l ≤ M)%nat → row s p l;
    b_links : ∀ l, (1 ≤ l < M)%nat → link s p l;
    b_first : np s 1 = max_int32 ∧ p 1%nat = O ∧ ne s O = O;
    b_top : (lc s M M + p M + ne s M = 2 * n - 2)%nat }.
  Record at_level (s : bst) : Prop := AtLevel {
    a_cur : (1 ≤ cur s ≤ M)%nat;
    a_up : ∀ j, (cur s ≤ j ≤ M)%nat → (0 < ne s j)%nat;
    a_down : ne s (cur s - 1)%nat = O }.

  Lemma capacity s p l : bci s p → (1 ≤ l ≤ M)%nat → np s l = max_int32 → lc s l l = n → (l = 1 ∨ ne s (l - 1) = 0)%nat → (2 * Z.of_nat n - Z.of_nat (lc s l l + p l) - 1) * 2 ^ (Z.of_nat l - 1) ≤ Z.of_nat n - 1.
  Proof.
    intros I. induction l as [|l IH]; [lia|]. intros Hl Hp Ha Hd. destruct l as [|l].
    { rewrite Ha. destruct (b_first _ _ I) as (_ & -> & _). cbn [Z.of_nat Z.sub Z.pow Z.pow_pos]. change (2 ^ (Z.of_nat 1 - 1)) with 1. lia. }
    destruct Hd as [?|Hd]; [lia|]. replace (S (S l) - 1)%nat with (S l) in Hd by lia.
    assert (Hlk : link s p (S l)) by (apply (b_links _ _ I); lia). destruct Hlk as [_ _ L3 L4 L5|_ _ L3 _ L5|L1 _ _ L4]; [|pose proof (bd_max (S (S l)) ltac:(lia)); lia|lia].
    specialize (IH ltac:(lia) L4 L3). assert (Hd' : (S l = 1 ∨ ne s (S l - 1) = 0)%nat).
    { destruct l as [|l]; [by left|right]. replace (S (S l) - 1)%nat with (S l) by lia. assert (Hlk : link s p (S l)) by (apply (b_links _ _ I); lia). destruct Hlk as [_ L _ _ _|L _ _ _ _|_ _ _ L]; [done|done|lia]. }
    specialize (IH Hd'). rewrite Ha. replace (Z.of_nat (S (S l)) - 1) with (Z.succ (Z.of_nat (S l) - 1)) by lia. rewrite Z.pow_succ_r by lia. assert (0 < 2 ^ (Z.of_nat (S l) - 1)) by (apply Z.pow_pos_nonneg; lia). nia.
  Qed.
  Lemma descend_ok ne l : ne O = O → (1 ≤ l)%nat → (0 < ne l)%nat → (1 ≤ descend l ne ≤ l)%nat ∧ ne (descend l ne - 1)%nat = O ∧ ∀ j, (descend l ne ≤ j ≤ l)%nat → (0 < ne j)%nat.
  Proof.
    intros H0. induction l as [|l IH]; intros Hl Hne; [lia|]. cbn [descend]. destruct (Nat.ltb_spec 0 (ne l)) as [H|H].
    - destruct l as [|l]; [lia|]. destruct (IH ltac:(lia) H) as (I1 & I2 & I3). split_and!; [lia|lia|done|]. intros j Hj. destruct (decide (j = S (S l))) as [->|]; [done|]. apply I3. lia.
    - split_and!; [lia|lia|replace (S l - 1)%nat with l by lia; lia|]. intros j Hj. by replace j with (S l) by lia.
  Qed.

  (** what bounds the number of turns *)
  Definition left (s : bst) (p : nat → nat) (l : nat) : nat := (2 * n - (lc s l l + p l) + (if (np s l =? max_int32)%Z then 0 else 1))%nat.
  Definition less (s s' : bst) (p p' : nat → nat) : Prop := (∀ l, (1 ≤ l ≤ M)%nat → (left s' p' l ≤ left s p l)%nat) ∧ ∃ l, (1 ≤ l ≤ M)%nat ∧ (left s' p' l < left s p l)%nat.
  Lemma sum_less (g g' : nat → nat) k m : (∀ l, (k ≤ l < k + m)%nat → (g' l ≤ g l)%nat) → (sum_list (g' <$> seq k m) ≤ sum_list (g <$> seq k m))%nat ∧ ((∃ l, (k ≤ l < k + m)%nat ∧ (g' l < g l)%nat) → (sum_list (g' <$> seq k m) < sum_list (g <$> seq k m))%nat).
  Proof.
    revert k. induction m as [|m IH]; intros k H; [split; [done|]; intros (l & ? & _); lia|]. cbn [seq fmap list_fmap sum_list sum_list_with]. unfold sum_list in *. cbn [sum_list_with id].
    destruct (IH (S k)) as [I1 I2]; [intros l Hl; apply H; lia|]. pose proof (H k ltac:(lia)). change (λ x : nat, x) with (@id nat) in *. unfold id in *. split; [lia|]. intros (l & Hl & Hlt). destruct (decide (l = k)) as [->|]; [lia|]. assert (Hx : ∃ l, (S k ≤ l < S k + m)%nat ∧ (g' l < g l)%nat) by (exists l; split; [lia|done]). specialize (I2 Hx). lia.
  Qed.
  Definition total (s : bst) (p : nat → nat) : nat := sum_list (left s p <$> seq 1 M).
  Lemma less_total s s' p p' : less s s' p p' → (total s' p' < total s p)%nat.
  Proof. intros [H1 (l & Hl & H2)]. apply (sum_less (left s p) (left s' p') 1 M); [intros j Hj; apply H1; lia|]. exists l. split; [lia|done]. Qed.

  Lemma row_ext s p s' p' l : la s' l = la s l → nc s' l = nc s l → ne s' l = ne s l → (∀ j, lc s' l j = lc s l j) → p' l = p l → row s p l → row s' p' l.
  Proof.
    intros E1 E2 E3 E4 E5 [R1 R2 R3 R4 R5 R6 R7 R8]. split; rewrite ?E1, ?E2, ?E3, ?E4, ?E5; try done.
    - eapply chain_ext; [|exact R7]. intros j _. by rewrite E4.
    - intros j Hj. rewrite !E4. by apply R8.
  Qed.
  Lemma link_ext s p s' p' l : la s' l = la s l → la s' (S l) = la s (S l) → np s' l = np s l → np s' (S l) = np s (S l) → ne s' l = ne s l → lc s' l l = lc s l l → p' l = p l → p' (S l) = p (S l) → link s p l → link s' p' l.
  Proof.
    intros E1 E2 E3 E4 E5 E6 E7 E8 [H1 H2 H3 H4 H5|H1 H2 H3 H4 H5|H1 H2 H3 H4]; [apply ran_out|apply valid|apply pending]; rewrite ?E1, ?E2, ?E3, ?E4, ?E5, ?E6, ?E7, ?E8; done.
  Qed.
  (** a link above a level that still needs items *)
  Lemma link_up s p l : link s p l → (0 < ne s l)%nat → (0 < ne s l ≤ 2)%nat ∧ (lc s l l + p l + ne s l = 2 * p (S l) + 2)%nat ∧ la s (S l) ≤ 2 * la s l ∧ np s (S l) < max_int32.
  Proof. intros [H1 H2 H3 H4 H5|H1 H2 H3 H4 H5|H1 H2 H3 H4] H; [lia|lia|done]. Qed.

  Lemma after_ok s p prev : let c := cur s in let s2 := Bst (la s) (nc s) (np s) (setn (ne s) c (ne s c - 1)%nat) (lc s) c in
    (1 ≤ c ≤ M)%nat → (∀ j, (c ≤ j ≤ M)%nat → (0 < ne s j)%nat) → (∀ l, (1 ≤ l ≤ M)%nat → row s2 p l) → (∀ l, (1 ≤ l < M)%nat → l ≠ c → link s2 p l) →
    ((c < M)%nat → (ne s c ≤ 2)%nat ∧ (lc s c c + p c + ne s c - 1 = 2 * p (S c) + 2)%nat ∧ la s (S c) ≤ 2 * prev ∧ np s (S c) < max_int32) → 1 ≤ prev ≤ la s c →
    np s 1 = max_int32 ∧ p 1%nat = O ∧ ne s O = O → (lc s M M + p M + ne s2 M = 2 * n - 2)%nat →
    ∃ s' b, after M s prev = (s', b) ∧ bci s' p ∧ (b = true → at_level s') ∧ (b = false → ne s' M = O) ∧ ∀ l, (1 ≤ l ≤ M)%nat → (left s' p l ≤ left s p l)%nat.
  Proof.
    intros c s2 Hc Hup Hrows Hlinks Hlk Hprev (F1 & F2 & F3) Htop. assert (Hne : (0 < ne s c)%nat) by (apply Hup; lia).
    assert (Hs2 : bci s2 p → (M = c → True) → True) by done. clear Hs2. unfold after. fold c. rewrite setn_eq. destruct (Nat.eqb_spec (ne s c - 1) 0) as [E|E].
    - destruct (Nat.eqb_spec c M) as [EM|EM].
      + exists s2, false. split; [done|]. split_and!; [|done| |].
        * split; [done|intros l Hl; apply Hlinks; lia| |done]. cbn. rewrite setn_ne by lia. done.
        * intros _. cbn. rewrite <- EM, setn_eq. lia.
        * intros l Hl. done.
      + eexists _, true. split; [done|]. specialize (Hlk ltac:(lia)). destruct Hlk as (K1 & K2 & K3 & K4). split_and!; [| |done|].
        * split.
          -- intros l Hl. by eapply row_ext; [..|exact (Hrows l Hl)].
          -- intros l Hl. destruct (decide (l = c)) as [->|Hlc].
             { destruct (Hrows c Hc) as [_ _ _ _ [_ R5] _ _ _]. cbn in R5. pose proof (bd_S c ltac:(lia)). apply valid; cbn; rewrite ?setn_eq; lia. }
             destruct (decide (l = S c)) as [->|Hlc'].
             { destruct (link_up _ _ _ (Hlinks (S c) Hl Hlc)) as (P1 & P2 & P3 & P4); [cbn; rewrite setn_ne by lia; apply Hup; lia|]. apply pending; [exact P1|exact P2|exact P3|]. cbn. rewrite setn_ne by lia. exact P4. }
             eapply link_ext; [..|exact (Hlinks l Hl Hlc)]; cbn; rewrite ?setn_ne by lia; done.
          -- cbn. rewrite !setn_ne by lia. done.
          -- exact Htop.
        * intros _. split; cbn -[Nat.sub].
          -- lia.
          -- intros j Hj. rewrite setn_ne by lia. apply Hup. lia.
          -- replace (S c - 1)%nat with c by lia. rewrite setn_eq. lia.
        * intros l Hl. unfold left; cbn. destruct (decide (l = S c)) as [->|]; [|by rewrite setn_ne]. rewrite setn_eq. destruct (Z.eqb_spec (np s (S c)) max_int32); [lia|]. case_match; lia.
    - eexists _, true. split; [done|]. split_and!; [| |done|].
      + split.
        * intros l Hl. by eapply row_ext; [..|exact (Hrows l Hl)].
        * intros l Hl. destruct (decide (l = c)) as [->|Hlc].
          { specialize (Hlk ltac:(lia)). destruct Hlk as (K1 & K2 & K3 & K4). apply pending; cbn; rewrite ?setn_eq; lia. }
          by eapply link_ext; [..|exact (Hlinks l Hl Hlc)].
        * cbn. rewrite setn_ne by lia. done.
        * exact Htop.
      + intros _. set (ne' := setn (ne s) c (ne s c - 1)%nat). destruct (descend_ok ne' c) as (D1 & D2 & D3); [unfold ne'; by rewrite setn_ne by lia|lia|unfold ne'; rewrite setn_eq; lia|]. split; cbn.
        * lia.
        * intros j Hj. destruct (decide (j ≤ c)%nat); [apply D3; lia|]. unfold ne'. rewrite setn_ne by lia. apply Hup. lia.
        * done.
      + intros l Hl. done.
  Qed.

  Lemma W_at s p l : row s p l → W (lc s l l) = max_int32 → lc s l l = n.
  Proof. intros [R1 _ _ _ _ _ _ _] E. destruct (decide (lc s l l = n)) as [|H]; [done|]. pose proof (HW (lc s l l) ltac:(lia)). unfold max_int32 in *. lia. Qed.
  Lemma bc_step_ok s p : bci s p → at_level s → ∃ s' b p', bc_step f M s = Ret (s', b) ∧ bci s' p' ∧ (b = true → at_level s') ∧ (b = false → ne s' M = O) ∧ less s s' p p'.
  Proof.
    intros I A. destruct (a_cur _ A) as [C1 C2]. set (c := cur s) in *. assert (Hne : (0 < ne s c)%nat) by (apply (a_up _ A); unfold c; lia). pose proof (a_down _ A) as Hdn. change (cur s) with c in Hdn.
    pose proof (b_rows _ _ I c ltac:(lia)) as R. pose proof R as [R1 R2 R3 R4 [R5 R5'] R6 R7 R8]. destruct (b_first _ _ I) as (F1 & F2 & F3).
    assert (Hup : ∀ j, (c ≤ j ≤ M)%nat → (0 < ne s j)%nat) by (intros j Hj; apply (a_up _ A); done).
    (* the level below, if there is one *)
    assert (Hbelow : np s c = max_int32 ∧ (c = 1%nat ∨ (2 ≤ c)%nat ∧ np s c = max_int32) ∨ (2 ≤ c)%nat ∧ (lc s (c - 1) (c - 1) + p (c - 1) = 2 * p c + 2)%nat ∧ la s (c - 1)%nat < np s c ≤ 2 * la s (c - 1)%nat ∧ la s c ≤ np s c ∧ np s c ≤ bd c).
    { destruct (decide (c = 1%nat)) as [->|]; [left; split; [done|by left]|]. assert (L : link s p (c - 1)) by (apply (b_links _ _ I); lia). replace c with (S (c - 1)) by lia. replace (S (c - 1) - 1)%nat with (c - 1)%nat by lia. destruct L as [L1 L2 L3 L4 L5|L1 L2 L3 L4 L5|L1 _ _ _]; [left; split; [done|right; split; [lia|done]]|right; split_and!; [lia|done..|lia|lia|lia|lia]|lia]. }
    unfold bc_step. fold c. destruct (decide (np s c = max_int32 ∧ nc s c = max_int32)) as [[Enp Enc]|Hb].
    { (* out of leaves and pairs *)
      assert (Ea : lc s c c = n) by (apply (W_at s p c R); congruence).
      assert (HcM : c ≠ M). { intros EM. pose proof (capacity s p c I ltac:(lia) Enp Ea) as Hcp. pose proof (b_top _ _ I) as Ht. rewrite <- EM in Ht. specialize (Hcp (or_intror Hdn)). assert (Hp : 2 ^ Z.of_nat M = 2 * 2 ^ (Z.of_nat c - 1)) by (rewrite <- EM, <- Z.pow_succ_r by lia; f_equal; lia). assert (0 < 2 ^ (Z.of_nat c - 1)) by (apply Z.pow_pos_nonneg; lia). nia. }
      rewrite Enp, Enc, Z.eqb_refl. cbn [andb]. rewrite (proj2 (Nat.leb_gt 16 (S c))) by lia. eexists _, true, p. split; [done|]. destruct (link_up _ _ _ (b_links _ _ I c ltac:(lia)) Hne) as (P1 & P2 & P3 & P4). split_and!; [| |done|].
      - split.
        + intros l Hl. pose proof (b_rows _ _ I l Hl) as Rl. destruct (decide (l = c)) as [->|]; [|eapply row_ext; [..|exact Rl]; cbn; rewrite ?setn_ne by lia; done].
          split; cbn; try done. rewrite setn_eq. lia.
        + intros l Hl. pose proof (b_links _ _ I l Hl) as Ll. destruct (decide (l = c)) as [->|].
          { apply ran_out; cbn; rewrite ?setn_eq; [done|done|done|rewrite setn_ne by lia; done|lia]. }
          destruct (decide (l = S c)) as [->|].
          { destruct (link_up _ _ _ Ll) as (Q1 & Q2 & Q3 & Q4); [apply Hup; lia|]. apply pending; cbn; rewrite ?setn_ne by lia; done. }
          eapply link_ext; [..|exact Ll]; cbn; rewrite ?setn_ne by lia; done.
        + cbn. rewrite !setn_ne by lia. done.
        + cbn. rewrite setn_ne by lia. apply (b_top _ _ I).
      - intros _. split; cbn -[Nat.sub]; [lia| |].
        + intros j Hj. rewrite setn_ne by lia. apply Hup. lia.
        + replace (S c - 1)%nat with c by lia. by rewrite setn_eq.
      - split.
        + intros l Hl. unfold left; cbn. destruct (decide (l = S c)) as [->|]; [|by rewrite setn_ne]. rewrite setn_eq, Z.eqb_refl. lia.
        + exists (S c). split; [lia|]. unfold left; cbn. rewrite setn_eq, Z.eqb_refl. rewrite (proj2 (Z.eqb_neq _ _)) by lia. lia. }
    rewrite (proj2 (andb_false_iff (np s c =? max_int32) (nc s c =? max_int32))) by (rewrite !Z.eqb_neq; destruct (decide (np s c = max_int32)); [right|left]; naive_solver).
    assert (Hlk : (c < M)%nat → (0 < ne s c ≤ 2)%nat ∧ (lc s c c + p c + ne s c = 2 * p (S c) + 2)%nat ∧ la s (S c) ≤ 2 * la s c ∧ np s (S c) < max_int32) by (intros; apply link_up; [apply (b_links _ _ I); lia|done]).
    assert (Hmx : np s c ≤ max_int32) by (pose proof (bd_max c ltac:(lia)); destruct Hbelow as [[-> _]|(_ & _ & _ & _ & ?)]; lia).
    pose proof (bd_pos c ltac:(lia)) as Hbd. destruct (Z.ltb_spec (nc s c) (np s c)) as [Hlt|Hge].
    - (* a leaf *)
      assert (Ha : (lc s c c < n)%nat). { destruct (decide (lc s c c = n)) as [E|]; [|lia]. rewrite R2, E, Hmax in Hlt. lia. }
      unfold idx. rewrite Hf by lia. cbn [mbind go_bind]. pose proof (HW (lc s c c) Ha) as HWa.
      set (s1 := Bst _ _ _ _ _ _). destruct (after_ok s1 p (la s c)) as (s' & b & E & B1 & B2 & B3 & B4); cbn [cur la nc np ne lc s1] in *.
      + lia.
      + done.
      + intros l Hl. pose proof (b_rows _ _ I l Hl) as Rl. destruct (decide (l = c)) as [->|]; [|eapply row_ext; [..|exact Rl]; cbn; intros; rewrite ?setn_ne by lia; done].
        split; cbn -[Nat.sub]; rewrite ?setn_eq.
        * lia.
        * done.
        * lia.
        * lia.
        * replace (S (lc s c c) - 1)%nat with (lc s c c) by lia. lia.
        * rewrite R2. apply Hsort. lia.
        * destruct c as [|k]; [lia|]. cbn [chain_of] in R7 |- *. rewrite setn_eq. split; [lia|]. destruct R7 as [_ R7]. replace (2 * (S (lc s (S k) (S k)) + p (S k) - S (lc s (S k) (S k))))%nat with (2 * (lc s (S k) (S k) + p (S k) - lc s (S k) (S k)))%nat by lia. eapply chain_ext; [|exact R7]. intros j Hj. by rewrite setn_ne by lia.
        * intros j Hj. rewrite setn_ne by lia. specialize (R8 j Hj). destruct (decide (j = c)) as [->|]; [rewrite setn_eq; lia|by rewrite setn_ne].
      + intros l Hl Hlc. pose proof (b_links _ _ I l Hl) as Ll. destruct (decide (S l = c)) as [Ec|]; [|eapply link_ext; [..|exact Ll]; cbn; rewrite ?setn_ne by lia; done].
        destruct Ll as [L1 L2 L3 L4 L5|L1 L2 L3 L4 L5|L1 L2 L3 L4]; [apply ran_out|apply valid|]; cbn; rewrite <- ?Ec, ?setn_eq, ?setn_ne by lia; try done; [rewrite Ec; lia|]. replace (c - 1)%nat with l in Hdn by lia. lia.
      + intros HcM. specialize (Hlk HcM). rewrite !setn_eq, setn_ne by lia. split_and!; lia.
      + rewrite setn_eq. lia.
      + done.
      + pose proof (b_top _ _ I) as Ht. destruct (decide (M = c)) as [->|]; [rewrite !setn_eq; lia|rewrite !setn_ne by lia; lia].
      + exists s', b, p. rewrite E. split_and!; [done..|]. assert (Hs1 : ∀ l, l ≠ c → left s1 p l = left s p l) by (intros l ?; unfold left, s1; cbn; by rewrite setn_ne by lia). assert (Hs1' : (left s1 p c < left s p c)%nat) by (unfold left, s1; cbn; rewrite !setn_eq; lia). split.
        * intros l Hl. specialize (B4 l Hl). destruct (decide (l = c)) as [->|]; [lia|]. rewrite Hs1 in B4 by done. done.
        * exists c. split; [lia|]. specialize (B4 c ltac:(lia)). lia.
    - (* a pair *)
      destruct Hbelow as [[Enp _]|(Hc2 & V1 & V2 & V3 & V4)]; [exfalso; apply Hb; split; [done|]; rewrite Enp in Hge; pose proof (Hsort (lc s c c) n ltac:(lia)); lia|].
      pose proof (b_rows _ _ I (c - 1) ltac:(lia)) as Q. pose proof Q as [Q1 Q2 Q3 Q4 [Q5 Q5'] Q6 Q7 Q8].
      assert (Hm : (lc s (c - 1) (c - 1) ≤ lc s c c)%nat). { destruct (decide (lc s (c - 1) (c - 1) ≤ lc s c c)%nat) as [|H]; [done|]. pose proof (Hsort (lc s c c) (lc s (c - 1) (c - 1) - 1)%nat ltac:(lia)). lia. }
      assert (Hp : (S (p c) ≤ n - 2)%nat) by lia.
      set (s1 := Bst _ _ _ _ _ _). set (p' := setn p c (S (p c))). destruct (after_ok s1 p' (la s c)) as (s' & b & E & B1 & B2 & B3 & B4); cbn -[Nat.sub Nat.ltb] in *.
      + lia.
      + intros j Hj. rewrite setn_ne by lia. by apply Hup.
      + intros l Hl. pose proof (b_rows _ _ I l Hl) as Rl. destruct (decide (l = c)) as [->|].
        { split; cbn -[Nat.sub Nat.ltb]; unfold p'; rewrite ?setn_eq.
          all: rewrite ?(Nat.ltb_irrefl c).
          * lia.
          * done.
          * lia.
          * rewrite setn_ne by lia. lia.
          * lia.
          * lia.
          * destruct c as [|k]; [lia|]. cbn [chain_of]. rewrite Nat.ltb_irrefl. split; [lia|]. replace (S k - 1)%nat with k in * by lia. rewrite V1 in Q7. replace (2 * (lc s (S k) (S k) + S (p (S k)) - lc s (S k) (S k)))%nat with (2 * p (S k) + 2)%nat by lia. eapply chain_ext; [|exact Q7]. intros j Hj. by rewrite (proj2 (Nat.ltb_lt j (S k))) by lia.
          * intros j Hj. rewrite (proj2 (Nat.ltb_lt (j - 1) c)) by lia. destruct (Nat.ltb_spec j c); [apply Q8; lia|]. replace j with c by lia. done. }
        destruct (decide (l = c - 1)%nat) as [->|].
        { split; cbn -[Nat.sub Nat.ltb]; unfold p'; rewrite ?(setn_ne _ c) by lia; rewrite ?setn_eq; try done. lia. }
        eapply row_ext; [..|exact Rl]; cbn -[Nat.sub Nat.ltb]; unfold p'; intros; rewrite ?setn_ne by lia; done.
      + intros l Hl Hlc. pose proof (b_links _ _ I l Hl) as Ll. destruct (decide (l = c - 1)%nat) as [->|].
        { apply pending; cbn -[Nat.sub Nat.ltb]; unfold p'; replace (S (c - 1)) with c by lia; rewrite ?(setn_ne _ c _ (c - 1)%nat) by lia; rewrite ?setn_eq; try lia. pose proof (bd_max c ltac:(lia)). lia. }
        eapply link_ext; [..|exact Ll]; cbn -[Nat.sub Nat.ltb]; unfold p'; rewrite ?(setn_ne _ c) by lia; rewrite ?(setn_ne _ (c - 1)) by lia; done.
      + intros HcM. specialize (Hlk HcM). unfold p'. rewrite !(setn_ne _ c _ (S c)) by lia. rewrite !(setn_ne _ (c - 1)) by lia. rewrite !setn_eq, Nat.ltb_irrefl. split_and!; lia.
      + rewrite setn_eq. lia.
      + unfold p'. rewrite (setn_ne _ c) by lia. rewrite setn_ne by lia. done.
      + pose proof (b_top _ _ I) as Ht. unfold p'. destruct (decide (M = c)) as [->|]; [rewrite !setn_eq, Nat.ltb_irrefl; rewrite setn_ne by lia; lia|]. rewrite !(setn_ne _ c) by lia. rewrite setn_ne by lia. lia.
      + exists s', b, p'. rewrite E. split_and!; [done..|]. assert (Hs1 : ∀ l, l ≠ c → left s1 p' l = left s p l) by (intros l ?; unfold left, s1, p'; cbn -[Nat.ltb]; by rewrite !setn_ne by lia). assert (Hs1' : (left s1 p' c < left s p c)%nat) by (unfold left, s1, p'; cbn -[Nat.ltb]; rewrite !setn_eq, Nat.ltb_irrefl; lia). split.
        * intros l Hl. specialize (B4 l Hl). destruct (decide (l = c)) as [->|]; [lia|]. rewrite Hs1 in B4 by done. done.
        * exists c. split; [lia|]. specialize (B4 c ltac:(lia)). lia.
  Qed.

  Lemma bc_loop_ok k : ∀ s p, bci s p → at_level s → (total s p < k)%nat → ∃ s' p', bc_loop k f M s = Ret s' ∧ bci s' p' ∧ ne s' M = O.
  Proof.
    induction k as [|k IH]; intros s p I A Hk; [lia|]. cbn [bc_loop]. destruct (bc_step_ok s p I A) as (s' & b & p' & -> & B1 & B2 & B3 & B4). cbn [mbind go_bind]. apply less_total in B4. destruct b; [|by exists s', p'; auto]. apply (IH s' p'); [done|by apply B2|lia].
  Qed.
  Definition start : bst := Bst (λ _, W 1) (λ _, W 2) (λ l, if (l =? 1)%nat then max_int32 else W 0 + W 1) (λ l, if (l =? M)%nat then (2 * n - 4)%nat else 0%nat) (λ l j, if (l =? j)%nat && (0 <? l)%nat then 2%nat else 0%nat) M.
  Lemma chain_zero l v : (∀ j, (j ≤ l)%nat → v j = O) → chain_of l v 0.
  Proof. induction l as [|l IH]; intros H; cbn [chain_of]; [split; [apply H; lia|done]|]. split; [rewrite H; lia|]. cbn [Nat.sub]. apply IH. intros j Hj. apply H. lia. Qed.
  Lemma start_ok : bci start (λ _, O) ∧ at_level start.
  Proof.
    pose proof (HW 0 ltac:(lia)). pose proof (HW 1 ltac:(lia)). pose proof (HW 2 ltac:(lia)). pose proof (Hsort 0 1 ltac:(lia)). pose proof (Hsort 1 2 ltac:(lia)).
    assert (Hlc : ∀ l, (1 ≤ l)%nat → lc start l l = 2%nat) by (intros l Hl; cbn -[Nat.ltb]; rewrite Nat.eqb_refl, (proj2 (Nat.ltb_lt 0 l)) by lia; done).
    assert (Hlc' : ∀ l j, j ≠ l → lc start l j = O) by (intros l j Hl; cbn -[Nat.ltb]; rewrite (proj2 (Nat.eqb_neq l j)) by lia; done).
    assert (Hn1 : ∀ l, l ≠ M → ne start l = O) by (intros l Hl; cbn; rewrite (proj2 (Nat.eqb_neq l M)) by lia; done).
    assert (Hn2 : ne start M = (2 * n - 4)%nat) by (cbn; by rewrite Nat.eqb_refl).
    assert (Hn3 : ∀ l, (ne start l ≤ 2 * n - 4)%nat) by (intros l; destruct (decide (l = M)) as [->|]; [lia|rewrite Hn1 by done; lia]).
    split; split.
    - intros l Hl. split; rewrite ?Hlc by lia.
      + lia.
      + done.
      + lia.
      + specialize (Hn3 l). lia.
      + cbn [la start]. replace (2 - 1)%nat with 1%nat by lia. pose proof (bd_pos l ltac:(lia)). lia.
      + cbn [la nc start]. done.
      + destruct l as [|l]; [lia|]. cbn [chain_of]. rewrite Hlc by lia. split; [lia|]. cbn [Nat.add Nat.sub Nat.mul]. apply chain_zero. intros j Hj. apply Hlc'. lia.
      + intros j Hj. rewrite Hlc' by lia. lia.
    - intros l Hl. apply valid; rewrite ?Hlc, ?Hn1 by lia; cbn [la np start]; try done; rewrite (proj2 (Nat.eqb_neq (S l) 1)) by lia; try lia. rewrite bd_S by lia. pose proof (bd_pos l ltac:(lia)). lia.
    - split_and!; [done|done|]. apply Hn1. lia.
    - rewrite Hlc by lia. lia.
    - cbn [cur start]. lia.
    - cbn [cur start]. intros j Hj. replace j with M by lia. lia.
    - cbn [cur start]. apply Hn1. lia.
  Qed.
  Lemma start_total : (total start (λ _, O) < S ((M + 1) * (2 * n + 2)))%nat.
  Proof.
    unfold total. assert (H : ∀ k m, (sum_list (left start (λ _, O) <$> seq k m) ≤ m * (2 * n + 1))%nat).
    { intros k m. revert k. induction m as [|m IH]; intros k; [done|]. cbn [seq fmap list_fmap]. specialize (IH (S k)). unfold sum_list in *. cbn [sum_list_with]. change (@list_fmap) with (@fmap list _) in *. assert ((left start (λ _, O) k ≤ 2 * n + 1)%nat) by (unfold left; case_match; lia). unfold id in *. nia. }
    specialize (H 1%nat M). nia.
  Qed.
  (** Kraft's sum *)
  Fixpoint kraft (v : nat → nat) (l : nat) : Z := match l with O => 0 | S k => kraft v k + (Z.of_nat (v l) - Z.of_nat (v k)) * 2 ^ Z.of_nat k end.
  Lemma chain_kraft l v t : chain_of l v t → 2 * kraft v l = (2 * Z.of_nat (v l) - Z.of_nat t) * 2 ^ Z.of_nat l.
  Proof.
    revert t. induction l as [|l IH]; intros t; cbn [chain_of kraft]; [intros [-> ->]; lia|]. intros [H1 H2]. specialize (IH _ H2). rewrite Nat2Z.inj_succ, Z.pow_succ_r by lia. nia.
  Qed.
  Lemma chain_0 l v t : chain_of l v t → v O = O. Proof. revert t. induction l as [|l IH]; intros t; cbn [chain_of]; [tauto|]. intros [_ H]. by eapply IH. Qed.
  Lemma loop_ends : ∃ s, bc_loop (S ((M + 1) * (2 * n + 2))) f M start = Ret s ∧ lc s M M = n ∧ lc s M O = O ∧ kraft (lc s M) M = 2 ^ Z.of_nat M ∧ ∀ j, (1 ≤ j ≤ M)%nat → (lc s M (j - 1) ≤ lc s M j)%nat.
  Proof.
    destruct start_ok as [I A]. destruct (bc_loop_ok _ _ _ I A start_total) as (s & p & E & B1 & B2). exists s. split; [done|].
    pose proof (b_rows _ _ B1 M ltac:(lia)) as [R1 R2 R3 R4 R5 R6 R7 R8]. pose proof (b_top _ _ B1) as Ht. assert (Ha : lc s M M = n) by lia. split_and!; [done|by eapply chain_0| |done].
    pose proof (chain_kraft _ _ _ R7) as Hk. rewrite Ha in Hk. replace (Z.of_nat (n + p M)) with (2 * Z.of_nat n - 2) in Hk by lia. lia.
  Qed.
End counts.

Lemma each_ret {A B} (g : A → go B) (h : A → B) l : (∀ x, x ∈ l → g x = Ret (h x)) → each g l = Ret (h <$> l).
Proof. induction l as [|x l IH]; intros H; [done|]. cbn [each]. rewrite H by (by apply elem_of_list_here). cbn [mbind go_bind]. rewrite IH by (intros; apply H; by apply elem_of_list_further). done. Qed.
(** the sum over the lengths of the codes *)
Fixpoint kr (b : nat → nat) (k : nat) : Z := match k with O => 0 | S j => kr b j + Z.of_nat (b j) * 2 ^ Z.of_nat (14 - j) end.
Lemma bit_counts_ok w max : (3 ≤ length w)%nat → Z.of_nat (length w) ≤ 2 ^ Z.of_nat max → (max ≤ 15)%nat → StronglySorted Z.le w → Forall (λ x, 1 ≤ x ≤ 16385) w →
  ∃ counts, bit_counts w max = Ret counts ∧ (length counts ≤ max)%nat ∧ sum_list counts = length w ∧ kr (λ j, nth j counts O) 15 = 2 ^ 15.
Proof.
  intros Hn Hcap Hmax Hs Hw. unfold bit_counts. rewrite (proj2 (Nat.leb_gt 16 max)) by lia. set (n := length w) in *. set (f := w ++ [max_int32]). set (M := Nat.min max (n - 1)). set (W := λ i, nth i f 0).
  assert (Hlf : length f = S n) by (unfold f; rewrite app_length; cbn; lia).
  assert (Hf : ∀ i, (i ≤ n)%nat → f !! i = Some (W i)). { intros i Hi. destruct (lookup_lt_is_Some_2 f i) as [x Hx]; [lia|]. rewrite Hx. f_equal. unfold W. symmetry. by apply nth_lookup_Some. }
  assert (HWn : W n = max_int32). { unfold W. apply nth_lookup_Some. unfold f. by rewrite lookup_app_r, Nat.sub_diag by done. }
  assert (Hwi : ∀ i, (i < n)%nat → w !! i = Some (W i)). { intros i Hi. rewrite <- Hf by lia. unfold f. by rewrite lookup_app_l. }
  assert (HW : ∀ i, (i < n)%nat → 1 ≤ W i ≤ 16385). { intros i Hi. rewrite Forall_lookup in Hw. by eapply Hw, Hwi. }
  assert (HM : (1 ≤ M ≤ 15)%nat). { unfold M. destruct max; [cbn in Hcap; lia|lia]. }
  assert (HcM : Z.of_nat n ≤ 2 ^ Z.of_nat M). { unfold M. destruct (Nat.min_spec max (n - 1)) as [[_ ->]|[_ ->]]; [done|]. assert (Hp : ∀ k, Z.of_nat (S k) ≤ 2 ^ Z.of_nat k). { induction k as [|k IH]; [done|]. rewrite (Nat2Z.inj_succ k), Z.pow_succ_r by lia. lia. } specialize (Hp (n - 1)%nat). replace (S (n - 1)) with n in Hp by lia. done. }
  assert (Hsort : ∀ i j, (i ≤ j ≤ n)%nat → W i ≤ W j).
  { intros i j Hij. destruct (decide (j = n)) as [->|]. { rewrite HWn. destruct (decide (i = n)) as [->|]; [rewrite HWn; lia|]. pose proof (HW i ltac:(lia)). unfold max_int32. lia. }
    destruct (decide (i = j)) as [->|]; [done|]. eapply (elem_of_StronglySorted_app Z.le (take j w) (drop j w)); [by rewrite take_drop| |]; apply elem_of_list_lookup; [exists i; rewrite lookup_take by lia; apply Hwi; lia|exists 0%nat; rewrite lookup_drop, Nat.add_0_r; apply Hwi; lia]. }
  unfold idx. rewrite !Hf by lia. cbn [mbind go_bind].
  destruct (loop_ends f n M 16385 W Hn HM HcM ltac:(lia) Hf Hsort HW HWn) as (s & E & E1 & E2 & E3 & E4). change (Bst _ _ _ _ _ _) with (start n M W). rewrite E. cbn [mbind go_bind]. rewrite E1, Nat.eqb_refl. cbn [negb].
  set (v := lc s M) in *. set (h := λ l, (v l - v (l - 1))%nat). rewrite (each_ret _ h); [|intros l Hl; apply elem_of_reverse, elem_of_seq in Hl; rewrite (proj2 (Nat.ltb_ge _ _)) by (apply E4; lia); done].
  assert (Hlen : length (h <$> reverse (seq 1 M)) = M) by (rewrite fmap_length, reverse_length, seq_length; done).
  assert (Hnth : ∀ j, (j < M)%nat → nth j (h <$> reverse (seq 1 M)) O = (v (M - j) - v (M - j - 1))%nat).
  { intros j Hj. apply nth_lookup_Some. rewrite list_lookup_fmap, reverse_lookup by (rewrite seq_length; lia). rewrite seq_length, lookup_seq_lt by lia. replace (1 + (M - S j))%nat with (M - j)%nat by lia. done. }
  eexists. split; [done|]. split_and!.
  - rewrite Hlen. unfold M. lia.
  - assert (Hs' : ∀ k, (k ≤ M)%nat → sum_list (h <$> reverse (seq 1 k)) = v k). { induction k as [|k IH]; intros Hk; [cbn; lia|]. rewrite seq_S, reverse_snoc, fmap_cons. change (sum_list (?a :: ?b)) with (a + sum_list b)%nat. rewrite IH by lia. change (1 + k)%nat with (S k). unfold h. specialize (E4 (S k) ltac:(lia)). replace (S k - 1)%nat with k in * by lia. lia. }
    rewrite Hs' by lia. done.
  - set (b := λ j, nth j _ _). assert (Hk : ∀ k, (k ≤ M)%nat → kr b k = 2 ^ Z.of_nat (15 - M) * (kraft v M - kraft v (M - k))).
    { induction k as [|k IH]; intros Hk; [cbn [kr]; rewrite Nat.sub_0_r; lia|]. cbn [kr]. rewrite IH by lia. unfold b at 1. rewrite Hnth by lia. specialize (E4 (M - k)%nat ltac:(lia)). replace (M - k)%nat with (S (M - S k)) by lia. cbn [kraft]. replace (S (M - S k) - 1)%nat with (M - S k)%nat in * by lia. replace (M - k)%nat with (S (M - S k)) in E4 by lia. replace (S (M - S k) - 1)%nat with (M - S k)%nat in E4 by lia. rewrite (Nat2Z.inj_sub _ _ E4).
      replace (2 ^ Z.of_nat (14 - k)) with (2 ^ Z.of_nat (15 - M) * 2 ^ Z.of_nat (M - S k)) by (rewrite <- Z.pow_add_r by lia; f_equal; lia). lia. }
    assert (Hz : ∀ k, kr b (M + k) = kr b M). { induction k as [|k IH]; [by rewrite Nat.add_0_r|]. rewrite Nat.add_succ_r. cbn [kr]. rewrite IH. unfold b. rewrite nth_overflow by lia. lia. }
    specialize (Hz (15 - M)%nat). replace (M + (15 - M))%nat with 15%nat in Hz by lia. rewrite Hz, Hk, Nat.sub_diag, E3 by lia. cbn [kraft]. rewrite Z.sub_0_r, <- Z.pow_add_r by lia. f_equal. lia.
Qed.
