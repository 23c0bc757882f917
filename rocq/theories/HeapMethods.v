(** * Heap methods: conservation, order, and the history theorem *)
From Verif Require Import GoBase HeapModel HeapSpec HeapProofs.
From Coq Require Import ZifyNat ZifyBool.

Local Open Scope nat_scope.

Section Methods.
  Context {T : Type} (lf : T → T → bool).
  Implicit Types h : list T.

  (** What the methods need from their [down]. *)
  Definition dn_total (dn : list T → nat → nat → go (list T * bool)) : Prop :=
    ∀ h i n, n ≤ length h →
      ∃ h' b, dn h i n = Ret (h', b) ∧ same n h h' ∧ (b = false → h' = h) ∧ (n ≤ i → b = false).
  Definition dn_pre d h i n : Prop :=
    (∀ c, 0 < c → c < n → c ≠ i → (c - 1) / d ≠ i → ok lf d h c) ∧
    (∀ c, 0 < c → c < n → 0 < i → (c - 1) / d = i → nl lf h c ((i - 1) / d)).
  Definition dn_order d (dn : list T → nat → nat → go (list T * bool)) : Prop :=
    ∀ h i n h' b, n ≤ length h → dn h i n = Ret (h', b) → dn_pre d h i n →
      (b = false → ∀ c, 0 < c → c < n → c ≠ i → ok lf d h' c) ∧ (b = true → hok lf d n h').

  Lemma hdownN_total d : 1 ≤ d → dn_total (hdownN lf d).
  Proof.
    intros Hd h i n Hn. unfold hdownN.
    destruct (downN_total lf d 4 (S n) h i n) as (h' & i' & E & Hi & Hs & He); [lia..|].
    rewrite E; simpl. exists h', (bool_decide (i < i')). split_and!; [done|done| |].
    - intros Hb. apply bool_decide_eq_false in Hb. apply He. lia.
    - intros Hge. cbn [downN] in E. rewrite decide_True in E by nia. injection E as <- <-.
      apply bool_decide_eq_false. lia.
  Qed.
  Lemma hdown_total : dn_total (hdown lf).
  Proof.
    intros h i n Hn. unfold hdown. rewrite down2_downN.
    destruct (downN_total lf 2 2 (S n) h i n) as (h' & i' & E & Hi & Hs & He); [lia..|].
    rewrite E; simpl. exists h', (bool_decide (i < i')). split_and!; [done|done| |].
    - intros Hb. apply bool_decide_eq_false in Hb. apply He. lia.
    - intros Hge. cbn [downN] in E. rewrite decide_True in E by nia. injection E as <- <-.
      apply bool_decide_eq_false. lia.
  Qed.
  Lemma hdown_order : strict_weak lf → dn_order 2 (hdown lf).
  Proof.
    intros SW h i n h' b Hn. unfold hdown. rewrite down2_downN.
    destruct (downN_total lf 2 2 (S n) h i n) as (h1 & i' & E & Hi & Hs & He); [lia..|].
    rewrite E; simpl. intros [= <- <-] [P1 P2].
    destruct (downN_order lf SW 2 (S n) h i n h1 i') as [H1 H2]; [lia..|done|done|done|].
    split; intros Hb; [apply bool_decide_eq_false in Hb; apply H1; lia|apply bool_decide_eq_true in Hb; auto].
  Qed.
  Lemma hdownN_order : strict_weak lf → dn_order 4 (hdownN lf 4).
  Proof.
    intros SW h i n h' b Hn. unfold hdownN.
    destruct (downN_total lf 4 4 (S n) h i n) as (h1 & i' & E & Hi & Hs & He); [lia..|].
    rewrite E; simpl. intros [= <- <-] [P1 P2].
    destruct (downN_order lf SW 4 (S n) h i n h1 i') as [H1 H2]; [lia..|done|done|done|].
    split; intros Hb; [apply bool_decide_eq_false in Hb; apply H1; lia|apply bool_decide_eq_true in Hb; auto].
  Qed.

  Lemma hpop_spec h n x : length h = S n → h !! n = Some x →
    hpop h = Ret (x, take n h) ∧ h ≡ₚ x :: take n h.
  Proof.
    intros Hl Hx. unfold hpop. rewrite Hl. replace (S n - 1) with n by lia.
    unfold idx. rewrite Hx; simpl. split; [done|].
    rewrite <-(take_drop_middle h n x Hx) at 1.
    rewrite (drop_ge h (S n)) by lia. symmetry. apply Permutation_cons_append.
  Qed.

  Lemma nl_ext h h' a b : h !! a = h' !! a → h !! b = h' !! b → nl lf h a b → nl lf h' a b.
  Proof. intros Ha Hb H x y Hx Hy. apply H; congruence. Qed.
  Lemma hok_take d n h : 2 ≤ d → hok lf d n h → hok lf d n (take n h).
  Proof.
    intros Hd H c Hc Hcn. pose proof (parent_lt d c Hd Hc).
    eapply nl_ext; [..|by apply H]; rewrite lookup_take; [done|lia|done|lia].
  Qed.

  Section Generic.
    Context (d : nat) (dn : list T → nat → nat → go (list T * bool)).
    Context (Hd : 2 ≤ d) (DT : dn_total dn).

    Lemma gpop_nil : gpop dn (@nil T) = Panic PIndex.
    Proof. done. Qed.

    Lemma gpop_spec h : h ≠ [] →
      ∃ x h', gpop dn h = Ret (x, h') ∧ h !! 0 = Some x ∧ h ≡ₚ x :: h' ∧
        (dn_order d dn → hok lf d (length h) h → hok lf d (length h') h').
    Proof.
      intros Hne. destruct (length h) as [|n] eqn:El. { by apply length_zero_iff_nil in El. }
      unfold gpop. rewrite El. replace (S n - 1) with n by lia.
      destruct (hswap_Ret h 0 n) as (x & y & Lx & Ly & E); [lia..|]. rewrite E; simpl.
      assert (SL := λ k, swapped_lookup h 0 n x y k ltac:(lia) ltac:(lia) Lx Ly).
      pose proof (swapped_Permutation h 0 n x y Lx Ly) as SP.
      assert (Hlen : length (swapped h 0 n x y) = S n) by (by rewrite swapped_length).
      destruct (DT (swapped h 0 n x y) 0 n) as (h2 & b & E2 & Hs & Hb & _); [lia|].
      rewrite E2; simpl.
      assert (Hl2 : length h2 = S n) by (rewrite (same_length _ _ _ Hs); done).
      assert (Hx2 : h2 !! n = Some x). { destruct Hs as [_ Hs]. rewrite Hs by lia. rewrite SL. by rewrite decide_True. }
      destruct (hpop_spec h2 n x Hl2 Hx2) as [Ep Pp].
      exists x, (take n h2). split_and!; [done|done| |].
      - rewrite <-Pp. destruct Hs as [Hs _]. rewrite Hs. by rewrite SP.
      - intros DO Hh. rewrite take_length. replace (n `min` length h2) with n by lia.
        apply hok_take; [done|].
        assert (Hnn : n ≤ length (swapped h 0 n x y)) by lia.
        destruct (DO _ _ _ _ _ Hnn E2) as [D1 D2].
        { split; [|lia]. intros c Hc Hcn _ Hpc.
          eapply (nl_ext h); [..|apply Hh; lia]; rewrite SL; repeat case_decide; try lia; try done.
          pose proof (parent_lt d c Hd Hc). lia. }
        destruct b; [by apply D2|]. intros c Hc Hcn. apply D1; [done..|lia].
    Qed.

    Lemma gpush_spec h x : ∃ h', gpush lf d h x = Ret h' ∧ h' ≡ₚ x :: h ∧
      (strict_weak lf → hok lf d (length h) h → hok lf d (length h') h').
    Proof.
      unfold gpush, hpush, hup. set (h1 := h ++ [x]). assert (Hl : length h1 = S (length h)).
      { unfold h1. rewrite app_length; simpl; lia. }
      rewrite Hl. replace (S (length h) - 1) with (length h) by lia.
      destruct (up_total lf d (S (length h)) h1 (length h) (S (length h))) as (h' & E & Hs); [lia..|].
      exists h'. split_and!; [done| |].
      - destruct Hs as [Hs _]. rewrite Hs. unfold h1. symmetry. apply Permutation_cons_append.
      - intros SW Hh. rewrite (same_length _ _ _ Hs), Hl.
        eapply (up_order lf SW d); [done|..|exact E| |]; [lia|lia|lia| |].
        + intros c Hc Hcn Hcj. pose proof (parent_lt d c Hd Hc).
          eapply (nl_ext h); [..|apply Hh; lia]; unfold h1; rewrite lookup_app_l; done || lia.
        + intros c Hc Hcn Hj Hp. pose proof (parent_lt d c Hd Hc). lia.
    Qed.

    Lemma dn_then_up h i n : i < n → n ≤ length h →
      ∃ h', (r ← dn h i n; if (r.2 : bool) then Ret r.1 else hup lf d r.1 i) = Ret h' ∧ same n h h' ∧
        (strict_weak lf → dn_order d dn → dn_pre d h i n → hok lf d n h').
    Proof.
      intros Hi Hn. destruct (DT h i n) as (h1 & b & E & Hs & Hb & _); [lia|]. rewrite E; simpl.
      destruct b.
      - exists h1. split_and!; [done..|]. intros _ DO Pre. destruct (DO _ _ _ _ _ Hn E Pre) as [_ D2]. by apply D2.
      - rewrite Hb in * by done. unfold hup.
        destruct (up_total lf d (S i) h i n) as (h2 & E2 & Hs2); [lia..|].
        exists h2. split_and!; [done..|]. intros SW DO Pre. destruct (DO _ _ _ _ _ Hn E Pre) as [D1 _].
        eapply (up_order lf SW d); [done|..|exact E2| |]; [lia|lia|lia|by apply D1|]. apply Pre.
    Qed.

    Lemma hok_dn_pre h h' i n : hok lf d (length h) h → i < n → n ≤ length h →
      (∀ k, k < n → k ≠ i → h' !! k = h !! k) → strict_weak lf → dn_pre d h' i n.
    Proof.
      intros Hh Hi Hn He SW. split.
      - intros c Hc Hcn Hci Hp. pose proof (parent_lt d c Hd Hc).
        eapply (nl_ext h); [..|apply Hh; lia]; symmetry; apply He; lia.
      - intros c Hc Hcn Hi0 Hp. pose proof (parent_lt d c Hd Hc). pose proof (parent_lt d i Hd Hi0).
        eapply (nl_ext h); [symmetry; apply He; lia..|].
        eapply (nl_trans lf SW _ _ i); [lia|apply Hh; lia|]. rewrite <-Hp. apply Hh; lia.
    Qed.

    Lemma gfix_nat_spec h i : i < length h →
      ∃ h', gfix_nat lf d dn h i = Ret h' ∧ h' ≡ₚ h ∧
        (strict_weak lf → dn_order d dn → ∀ h0, length h0 = length h → hok lf d (length h0) h0 →
           (∀ k, k ≠ i → h !! k = h0 !! k) → hok lf d (length h') h').
    Proof.
      intros Hi. destruct (dn_then_up h i (length h)) as (h' & E & Hs & Ho); [lia..|].
      exists h'. split_and!; [exact E|apply Hs|]. intros SW DO h0 Hl Hh He.
      rewrite (same_length _ _ _ Hs). apply Ho; [done..|].
      eapply hok_dn_pre; [exact Hh|lia|lia|intros; by apply He|done].
    Qed.

    Lemma gfix_nat_bad h i : length h ≤ i →
      gfix_nat lf d dn h i = if decide (i = 0) then Ret h else Panic PIndex.
    Proof.
      intros Hi. unfold gfix_nat. destruct (DT h i (length h)) as (h1 & b & E & Hs & Hb & Hb'); [lia|].
      rewrite E; simpl. rewrite Hb' in * by done. rewrite Hb by done. unfold hup. cbn [up].
      destruct (decide (i = 0)) as [->|Hi0].
      - rewrite decide_True; [done|]. apply Nat.div_small. lia.
      - rewrite decide_False by (intros Hp; apply parent_self in Hp; lia).
        unfold hless, idx. by rewrite (lookup_ge_None_2 h i) by lia.
    Qed.

    Lemma gremove_nat_spec h i : i < length h →
      ∃ x h', gremove_nat lf d dn h i = Ret (x, h') ∧ h !! i = Some x ∧ h ≡ₚ x :: h' ∧
        (strict_weak lf → dn_order d dn → hok lf d (length h) h → hok lf d (length h') h').
    Proof.
      intros Hi. destruct (length h) as [|n] eqn:El; [lia|].
      unfold gremove_nat. rewrite El. replace (S n - 1) with n by lia.
      destruct (lookup_lt_is_Some_2 h i) as [x Hx]; [lia|]. exists x.
      case_decide as Hni.
      - subst i. destruct (hpop_spec h n x El Hx) as [E P]. exists (take n h). split_and!; [done..|].
        intros SW DO Hh. rewrite take_length, El. replace (n `min` S n) with n by lia.
        apply hok_take; [done|]. intros c Hc Hcn. apply Hh; lia.
      - destruct (hswap_Ret h i n) as (x' & y & Lx & Ly & E); [lia..|]. rewrite E; simpl.
        assert (x' = x) as -> by congruence.
        assert (SL := λ k, swapped_lookup h i n x y k ltac:(lia) ltac:(lia) Lx Ly).
        pose proof (swapped_Permutation h i n x y Lx Ly) as SP.
        assert (Hlen : length (swapped h i n x y) = S n) by (by rewrite swapped_length).
        destruct (dn_then_up (swapped h i n x y) i n) as (h2 & E2 & Hs & Ho); [lia|lia|].
        assert (E2' : (r ← dn (swapped h i n x y) i n;
           h2 ← (if (r.2 : bool) then Ret r.1 else hup lf d r.1 i); hpop h2) = hpop h2).
        { revert E2. destruct (dn _ i n) as [[h3 b]| |]; simpl; [|done..].
          destruct b; simpl; [by intros [= ->]|]. by intros ->. }
        rewrite E2'.
        assert (Hl2 : length h2 = S n) by (rewrite (same_length _ _ _ Hs); done).
        assert (Hx2 : h2 !! n = Some x). { destruct Hs as [_ Hs]. rewrite Hs by lia. rewrite SL. by rewrite decide_True. }
        destruct (hpop_spec h2 n x Hl2 Hx2) as [Ep Pp]. exists (take n h2). split_and!; [done|done| |].
        + rewrite <-Pp. destruct Hs as [Hs _]. rewrite Hs. by rewrite SP.
        + intros SW DO Hh. rewrite take_length. replace (n `min` length h2) with n by lia.
          apply hok_take; [done|]. apply Ho; [done..|].
          eapply (hok_dn_pre h); [by rewrite El|lia|lia| |done].
          intros k Hk Hki. rewrite SL. repeat case_decide; lia || done.
    Qed.

    Lemma gremove_nat_bad h i : length h ≤ i → gremove_nat lf d dn h i = Panic PIndex.
    Proof.
      intros Hi. unfold gremove_nat. case_decide as Hn.
      - assert (length h = 0) as ->%length_zero_iff_nil by lia. done.
      - unfold hswap, idx. rewrite (lookup_ge_None_2 h i) by lia. by destruct (h !! (length h - 1)).
    Qed.
  End Generic.
End Methods.
