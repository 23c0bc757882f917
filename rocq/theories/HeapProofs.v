(** * Proofs about the heap model *)
From Verif Require Import GoBase HeapModel HeapSpec.
From Coq Require Import ZifyNat ZifyBool.

Local Open Scope nat_scope.

(** ** Index arithmetic *)
Lemma parent_iff d c i : 1 ≤ d → 0 < c → ((c - 1) / d = i ↔ d * i + 1 ≤ c ≤ d * i + d).
Proof.
  intros Hd Hc. split.
  - intros <-. pose proof (Nat.div_mod (c - 1) d ltac:(lia)) as E.
    pose proof (Nat.mod_upper_bound (c - 1) d ltac:(lia)). lia.
  - intros H. symmetry. apply (Nat.div_unique _ _ _ (c - 1 - d * i)); lia.
Qed.
Lemma parent_lt d c : 2 ≤ d → 0 < c → (c - 1) / d < c.
Proof.
  intros Hd Hc. destruct (decide (c = 1)) as [->|]. { rewrite Nat.div_small; lia. }
  assert ((c - 1) / d ≤ c - 1). { apply Nat.div_le_upper_bound; nia. } lia.
Qed.
Lemma parent_self d c : 2 ≤ d → (c - 1) / d = c → c = 0.
Proof. intros Hd H. destruct (decide (c = 0)); [done|]. pose proof (parent_lt d c Hd ltac:(lia)). lia. Qed.

(** ** swap *)
Section Swap.
  Context {T : Type}.
  Implicit Types h : list T.

  Definition swapped h i j x y : list T := <[j:=x]> (<[i:=y]> h).

  Lemma hswap_Ret h i j : i < length h → j < length h →
    ∃ x y, h !! i = Some x ∧ h !! j = Some y ∧ hswap h i j = Ret (swapped h i j x y).
  Proof.
    intros Hi Hj. destruct (idx_lt h i Hi) as (x & Ex & Lx). destruct (idx_lt h j Hj) as (y & Ey & Ly).
    exists x, y. split_and!; [done..|]. unfold hswap. by rewrite Ey; simpl; rewrite Ex.
  Qed.
  Lemma swapped_length h i j x y : length (swapped h i j x y) = length h.
  Proof. unfold swapped. by rewrite !insert_length. Qed.
  Lemma swapped_lookup h i j x y k : i < length h → j < length h →
    h !! i = Some x → h !! j = Some y →
    swapped h i j x y !! k = if decide (k = j) then Some x else if decide (k = i) then Some y else h !! k.
  Proof.
    intros Hi Hj Lx Ly. unfold swapped. destruct (decide (k = j)) as [->|].
    - rewrite list_lookup_insert; [done|]. by rewrite insert_length.
    - rewrite list_lookup_insert_ne by done. destruct (decide (k = i)) as [->|].
      + by rewrite list_lookup_insert.
      + by rewrite list_lookup_insert_ne.
  Qed.
  Lemma insert_Permutation h i x y : h !! i = Some y → y :: <[i:=x]> h ≡ₚ x :: h.
  Proof.
    intros Hl. rewrite insert_take_drop by eauto using lookup_lt_Some.
    rewrite <-(take_drop_middle h i y Hl) at 3. rewrite !Permutation_middle.
    rewrite <- !Permutation_middle. apply perm_swap.
  Qed.
  Lemma swapped_Permutation h i j x y : h !! i = Some x → h !! j = Some y → swapped h i j x y ≡ₚ h.
  Proof.
    intros Lx Ly. unfold swapped.
    pose proof (insert_Permutation h i y x Lx) as P1.
    assert (Ly' : <[i:=y]> h !! j = Some y).
    { destruct (decide (i = j)) as [->|]; [rewrite list_lookup_insert by eauto using lookup_lt_Some; done|].
      by rewrite list_lookup_insert_ne. }
    pose proof (insert_Permutation (<[i:=y]> h) j x y Ly') as P2.
    apply (Permutation_cons_inv (a := y)). etrans; [exact P2|].
    exact P1.
  Qed.
End Swap.

(** ** Conservation and totality, for any [less] *)
Section Perm.
  Context {T : Type} (lf : T → T → bool).
  Implicit Types h : list T.

  Lemma hless_Ret h i j : i < length h → j < length h →
    ∃ x y, h !! i = Some x ∧ h !! j = Some y ∧ hless lf h i j = Ret (lf x y).
  Proof.
    intros Hi Hj. destruct (idx_lt h i Hi) as (x & Ex & Lx). destruct (idx_lt h j Hj) as (y & Ey & Ly).
    exists x, y. split_and!; [done..|]. unfold hless. by rewrite Ex; simpl; rewrite Ey.
  Qed.

  (** [same n h h']: h' is a permutation of h that agrees from index n on *)
  Definition same (n : nat) h h' : Prop := h' ≡ₚ h ∧ ∀ k, n ≤ k → h' !! k = h !! k.
  Lemma same_refl n h : same n h h. Proof. done. Qed.
  Lemma same_trans n h1 h2 h3 : same n h1 h2 → same n h2 h3 → same n h1 h3.
  Proof. intros [P1 L1] [P2 L2]. split; [by etrans|]. intros k Hk. by rewrite L2, L1. Qed.
  Lemma same_length n h h' : same n h h' → length h' = length h.
  Proof. intros [P _]. by apply Permutation_length. Qed.
  Lemma same_swapped n h i j x y : i < n → j < n → h !! i = Some x → h !! j = Some y →
    same n h (swapped h i j x y).
  Proof.
    intros Hi Hj Lx Ly. split; [by apply swapped_Permutation|]. intros k Hk.
    rewrite swapped_lookup by eauto using lookup_lt_Some. repeat case_decide; try lia. done.
  Qed.

  Lemma up_total d fuel h j n : 2 ≤ d → j < fuel → j < n → n ≤ length h →
    ∃ h', up (hless lf) hswap d fuel h j = Ret h' ∧ same n h h'.
  Proof.
    intros Hd. revert h j. induction fuel as [|fuel IH]; intros h j Hf Hj Hn; [lia|]. cbn [up].
    case_decide as Hi; [by eauto using same_refl|].
    assert ((j - 1) / d < j). { apply parent_lt; [done|]. destruct (decide (j = 0)) as [->|]; [|lia].
      exfalso; apply Hi. apply Nat.div_small; lia. }
    destruct (hless_Ret h j ((j-1)/d)) as (x & y & Lx & Ly & E); [lia..|].
    rewrite E; simpl. destruct (lf x y); [|by eauto using same_refl].
    destruct (hswap_Ret h ((j-1)/d) j) as (y' & x' & Ly' & Lx' & E'); [lia..|].
    rewrite E'; simpl.
    destruct (IH (swapped h ((j-1)/d) j y' x') ((j-1)/d)) as (h' & Eh & Sh); [lia|lia|by rewrite swapped_length|].
    exists h'. split; [done|]. eapply same_trans; [|exact Sh]. apply same_swapped; [lia|lia|done|done].
  Qed.

  Lemma scan_total cnt h j j1 n : j < n → n ≤ length h →
    ∃ j', scan (hless lf) cnt h j j1 n = Ret j' ∧ j' < n ∧ (j' = j ∨ j1 ≤ j' < j1 + cnt).
  Proof.
    revert j j1. induction cnt as [|cnt IH]; intros j j1 Hj Hn; cbn [scan]; [eauto|].
    case_decide; [|eauto].
    destruct (hless_Ret h j1 j) as (x & y & _ & _ & E); [lia..|]. rewrite E; simpl.
    destruct (IH (if lf x y then j1 else j) (j1 + 1)) as (j' & E' & Hj' & Hor); [destruct (lf x y); lia|lia|].
    exists j'. split; [done|]. split; [done|]. destruct (lf x y); lia.
  Qed.

  Lemma downN_total d w fuel h i n : 1 ≤ d → n - i < fuel → n ≤ length h →
    ∃ h' i', downN (hless lf) hswap d w fuel h i n = Ret (h', i') ∧ i ≤ i' ∧ same n h h' ∧ (i' = i → h' = h).
  Proof.
    intros Hd. revert h i. induction fuel as [|fuel IH]; intros h i Hf Hn; [lia|]. cbn [downN].
    case_decide as Hk; [by eauto 10 using same_refl|].
    assert (i < d * i + 1) by nia.
    destruct (scan_total (w-1) h (d*i+1) (d*i+1+1) n) as (j & E & Hj & Hor); [lia..|].
    rewrite E; simpl.
    destruct (hless_Ret h j i) as (x & y & Lx & Ly & El); [lia..|]. rewrite El; simpl.
    destruct (lf x y); [|by eauto 10 using same_refl].
    destruct (hswap_Ret h i j) as (y' & x' & Ly' & Lx' & E'); [lia..|]. rewrite E'; simpl.
    destruct (IH (swapped h i j y' x') j) as (h' & i' & Eh & Hi' & Sh & _); [lia|by rewrite swapped_length|].
    exists h', i'. split; [done|]. split; [lia|]. split; [|lia].
    eapply same_trans; [|exact Sh]. apply same_swapped; [lia|lia|done|done].
  Qed.

  (** The binary [down] is the n-ary one with d = w = 2. *)
  Lemma down2_downN {St} (ls : St → nat → nat → go bool) sw fuel s i n :
    down2 ls sw fuel s i n = downN ls sw 2 2 fuel s i n.
  Proof.
    revert s i. induction fuel as [|fuel IH]; intros s i; [done|].
    cbn [down2 downN]. case_decide; [done|].
    change (2 - 1) with 1. cbn [scan]. case_decide; simpl.
    - destruct (ls s (i + (i + 0) + 1 + 1) (i + (i + 0) + 1)) as [b| |]; simpl; try done.
      destruct (ls s (if b then i + (i + 0) + 1 + 1 else i + (i + 0) + 1) i) as [b'| |]; simpl; try done.
      destruct b'; try done. destruct (sw s i _); simpl; try done.
    - destruct (ls s (i + (i + 0) + 1) i) as [b'| |]; simpl; try done.
      destruct b'; try done. destruct (sw s i _); simpl; try done.
  Qed.
End Perm.

(** ** Heap order *)
Section Order.
  Context {T : Type} (lf : T → T → bool) (SW : strict_weak lf).
  Implicit Types h : list T.

  Lemma sw_irrefl x : lf x x = false.
  Proof. destruct (lf x x) eqn:E; [|done]. by rewrite (sw_asym _ SW _ _ E) in E. Qed.

  (** entry [a] of h is not less than entry [b] *)
  Definition nl h a b : Prop := ∀ x y, h !! a = Some x → h !! b = Some y → lf x y = false.
  Definition ok (d : nat) h c : Prop := nl h c ((c - 1) / d).
  Definition hok (d n : nat) h : Prop := ∀ c, 0 < c → c < n → ok d h c.

  Lemma nl_trans h a b c : b < length h → nl h b c → nl h a b → nl h a c.
  Proof.
    intros Hb H1 H2 x z Hx Hz. destruct (lookup_lt_is_Some_2 h b Hb) as [y Hy].
    eapply (sw_trans _ SW); [by apply H1|by apply H2].
  Qed.
  Lemma nl_refl h a : nl h a a.
  Proof. intros x y Hx Hy. simplify_eq. apply sw_irrefl. Qed.

  Lemma up_order d fuel h j n h' : 2 ≤ d → j < fuel → j < n → n ≤ length h →
    up (hless lf) hswap d fuel h j = Ret h' →
    (∀ c, 0 < c → c < n → c ≠ j → ok d h c) →
    (∀ c, 0 < c → c < n → 0 < j → (c - 1) / d = j → nl h c ((j - 1) / d)) →
    hok d n h'.
  Proof.
    intros Hd. revert h j. induction fuel as [|fuel IH]; intros h j Hf Hj Hn; [lia|]. cbn [up].
    case_decide as Hi.
    { intros [= <-] Hok _ c Hc Hcn. apply Hok; [done..|]. apply parent_self in Hi; lia. }
    assert (0 < j). { destruct (decide (j = 0)) as [->|]; [|lia]. exfalso; apply Hi. apply Nat.div_small; lia. }
    pose proof (parent_lt d j Hd ltac:(lia)) as Hp.
    set (p := (j - 1) / d) in *.
    destruct (hless_Ret lf h j p) as (x & y & Lx & Ly & E); [lia..|].
    rewrite E; simpl. destruct (lf x y) eqn:Exy.
    2: { intros [= <-] Hok _ c Hc Hcn. destruct (decide (c = j)) as [->|]; [|by apply Hok].
         intros x0 y0 H1 H2. fold p in H2. by simplify_eq. }
    destruct (hswap_Ret h p j) as (y' & x' & Ly' & Lx' & E'); [lia..|].
    rewrite E'; simpl. assert (y' = y) as -> by congruence. assert (x' = x) as -> by congruence.
    intros Hup Hok Hch.
    assert (SL := λ k, swapped_lookup h p j y x k ltac:(lia) ltac:(lia) Ly' Lx').
    eapply (IH _ p); [lia|lia|by rewrite swapped_length|exact Hup| |].
    - intros c Hc Hcn Hcp a b. rewrite !SL.
      destruct (decide (c = j)) as [->|Hcj].
      + fold p. rewrite decide_False by lia. rewrite decide_True by done. intros; simplify_eq.
        by apply (sw_asym _ SW).
      + rewrite (decide_False (P := c = p)) by done.
        case_decide as Hpj.
        { (* c child of j *) intros Ha [= <-]. apply (Hch c); [lia|lia|lia|done|done|done]. }
        case_decide as Hpp.
        { (* sibling: child of p *) intros Ha [= <-].
          assert (lf a y = false). { apply (Hok c); [lia|lia|lia|done|]. by rewrite Hpp. }
          eapply (sw_trans _ SW); [|done]. by apply (sw_asym _ SW). }
        intros Ha Hb. by apply (Hok c).
    - intros c Hc Hcn Hp0 Hcp a b. rewrite !SL.
      pose proof (parent_lt d p Hd ltac:(lia)) as Hpp.
      rewrite (decide_False (P := (p-1)/d = j)) by lia.
      rewrite (decide_False (P := (p-1)/d = p)) by lia.
      assert (Hokp : ∀ z, h !! ((p-1)/d) = Some z → lf y z = false).
      { intros z Hz. apply (Hok p); [lia|lia|lia|done|done]. }
      case_decide.
      + intros [= <-] Hb. by apply Hokp.
      + case_decide as Hcpp. { subst c. lia. }
        intros Ha Hb. eapply (sw_trans _ SW); [by apply Hokp|].
        apply (Hok c); [lia|lia|lia|done|by rewrite Hcp].
  Qed.

  (** what the scan over the children computes *)
  Lemma scan_min cnt h j j1 n j' : j < n → n ≤ length h →
    scan (hless lf) cnt h j j1 n = Ret j' →
    nl h j j' ∧ ∀ c, j1 ≤ c → c < j1 + cnt → c < n → nl h c j'.
  Proof.
    revert j j1. induction cnt as [|cnt IH]; intros j j1 Hj Hn; cbn [scan].
    { intros [= <-]. split; [apply nl_refl|lia]. }
    case_decide.
    2: { intros [= <-]. split; [apply nl_refl|lia]. }
    destruct (hless_Ret lf h j1 j) as (x & y & Lx & Ly & E); [lia..|]. rewrite E; simpl.
    intros Hs. destruct (IH (if lf x y then j1 else j) (j1 + 1)) as [H1 H2]; [destruct (lf x y); lia|lia|exact Hs|].
    destruct (lf x y) eqn:Exy.
    - split.
      + eapply (nl_trans _ _ j1); [lia|exact H1|]. intros a b Ha Hb. simplify_eq. by apply (sw_asym _ SW).
      + intros c Hc1 Hc2 Hc3. destruct (decide (c = j1)) as [->|]; [done|]. apply H2; lia.
    - split; [done|]. intros c Hc1 Hc2 Hc3. destruct (decide (c = j1)) as [->|].
      + eapply (nl_trans _ _ j); [lia|exact H1|]. intros a b Ha Hb. by simplify_eq.
      + apply H2; lia.
  Qed.

  (** Relative to a lower bound [lo] on the parents considered (needed by init). *)
  Lemma downN_order_lo d lo fuel h i n h' i' : 2 ≤ d → lo ≤ i → n - i < fuel → n ≤ length h →
    downN (hless lf) hswap d d fuel h i n = Ret (h', i') →
    (∀ c, 0 < c → c < n → lo ≤ (c - 1) / d → c ≠ i → (c - 1) / d ≠ i → ok d h c) →
    (∀ c, 0 < c → c < n → 0 < i → lo ≤ (i - 1) / d → (c - 1) / d = i → nl h c ((i - 1) / d)) →
    (i' = i → ∀ c, 0 < c → c < n → lo ≤ (c - 1) / d → c ≠ i → ok d h' c) ∧
    (i < i' → ∀ c, 0 < c → c < n → lo ≤ (c - 1) / d → ok d h' c).
  Proof.
    intros Hd. revert h i. induction fuel as [|fuel IH]; intros h i Hlo Hf Hn; [lia|]. cbn [downN].
    case_decide as Hk.
    { intros [= <- <-] Hok Hch. split; [|lia]. intros _ c Hc Hcn Hcl Hci. apply Hok; [done..|].
      intros Hp. apply parent_iff in Hp; nia. }
    assert (i < d * i + 1) by nia.
    destruct (scan_total lf (d-1) h (d*i+1) (d*i+1+1) n) as (j & E & Hj & Hor); [lia..|].
    rewrite E; simpl.
    destruct (scan_min (d-1) h (d*i+1) (d*i+1+1) n j) as [Hm1 Hm2]; [lia..|done|].
    assert (Hmin : ∀ c, 0 < c → c < n → (c - 1) / d = i → nl h c j).
    { intros c Hc Hcn Hp. apply parent_iff in Hp; [|lia|done].
      destruct (decide (c = d*i+1)) as [->|]; [done|]. apply Hm2; lia. }
    assert (Hpj : (j - 1) / d = i). { apply parent_iff; lia. }
    destruct (hless_Ret lf h j i) as (x & y & Lx & Ly & El); [lia..|]. rewrite El; simpl.
    destruct (lf x y) eqn:Exy.
    2: { intros [= <- <-] Hok Hch. split; [|lia]. intros _ c Hc Hcn Hcl Hci.
         destruct (decide ((c - 1) / d = i)) as [Hp|Hp]; [|by apply Hok].
         unfold ok. rewrite Hp. eapply (nl_trans _ _ j); [lia| |by apply Hmin].
         intros a b Ha Hb. by simplify_eq. }
    destruct (hswap_Ret h i j) as (y' & x' & Ly' & Lx' & E'); [lia..|]. rewrite E'; simpl.
    assert (y' = y) as -> by congruence. assert (x' = x) as -> by congruence. intros Hdn Hok Hch.
    assert (SL := λ k, swapped_lookup h i j y x k ltac:(lia) ltac:(lia) Ly' Lx').
    assert (Hij : i < j) by lia.
    assert (Hi'j : j ≤ i').
    { destruct (downN_total lf d d fuel (swapped h i j y x) j n) as (h2 & i2 & E2 & Hi2 & _); [lia|lia|by rewrite swapped_length|].
      rewrite Hdn in E2. injection E2 as <- <-. done. }
    destruct (IH (swapped h i j y x) j) as [IH1 IH2]; [lia|lia|by rewrite swapped_length|exact Hdn| | |].
    - intros c Hc Hcn Hcl Hcj Hcpj a b. rewrite !SL.
      rewrite (decide_False (P := c = j)) by done.
      rewrite (decide_False (P := (c-1)/d = j)) by done.
      destruct (decide (c = i)) as [->|Hci].
      + pose proof (parent_lt d i Hd ltac:(lia)). rewrite (decide_False (P := (i-1)/d = i)) by lia.
        intros [= <-] Hb. apply (Hch j); [lia|lia|lia|done|done|done|done].
      + case_decide as Hcp.
        * intros Ha [= <-]. apply (Hmin c); [lia|lia|done|done|done].
        * intros Ha Hb. by apply (Hok c).
    - intros c Hc Hcn Hj0 Hjl Hcp a b. rewrite Hpj. rewrite !SL.
      pose proof (parent_lt d c Hd ltac:(lia)) as Hcj. rewrite Hcp in Hcj.
      rewrite (decide_False (P := c = j)) by lia. rewrite (decide_False (P := c = i)) by lia.
      rewrite (decide_False (P := i = j)) by lia. rewrite decide_True by done.
      intros Ha [= <-]. apply (Hok c); [lia|lia|lia|lia|lia|done|by rewrite Hcp].
    - split; [lia|]. intros _. destruct (decide (i' = j)) as [->|]; [|apply IH2; lia].
      intros c Hc Hcn Hcl. destruct (decide (c = j)) as [->|]; [|by apply IH1].
      destruct (downN_total lf d d fuel (swapped h i j y x) j n) as (h2 & i2 & E2 & _ & _ & Hsame); [lia|lia|by rewrite swapped_length|].
      rewrite Hdn in E2. injection E2 as <- <-. rewrite Hsame by done.
      intros a b. rewrite Hpj, !SL. rewrite decide_True by done.
      rewrite (decide_False (P := i = j)) by lia. rewrite decide_True by done.
      intros [= <-] [= <-]. by apply (sw_asym _ SW).
  Qed.

  Lemma downN_order d fuel h i n h' i' : 2 ≤ d → n - i < fuel → n ≤ length h →
    downN (hless lf) hswap d d fuel h i n = Ret (h', i') →
    (∀ c, 0 < c → c < n → c ≠ i → (c - 1) / d ≠ i → ok d h c) →
    (∀ c, 0 < c → c < n → 0 < i → (c - 1) / d = i → nl h c ((i - 1) / d)) →
    (i' = i → ∀ c, 0 < c → c < n → c ≠ i → ok d h' c) ∧ (i < i' → hok d n h').
  Proof.
    intros Hd Hf Hn E H1 H2.
    destruct (downN_order_lo d 0 fuel h i n h' i') as [P1 P2]; [done|lia|lia|lia|done|auto|auto|].
    split; [intros Hi c Hc Hcn Hci; apply P1; [done|done|done|apply Nat.le_0_l|done]|intros Hi c Hc Hcn; apply P2; [done|done|done|apply Nat.le_0_l]].
  Qed.

  (** The root of an ordered heap is a least element. *)
  Lemma hok_root d n h : 2 ≤ d → hok d n h → n ≤ length h → ∀ c, c < n → nl h c 0.
  Proof.
    intros Hd Hh Hn c. induction (lt_wf c) as [c _ IH]. intros Hc.
    destruct (decide (c = 0)) as [->|]; [apply nl_refl|].
    pose proof (parent_lt d c Hd ltac:(lia)).
    eapply (nl_trans _ _ ((c-1)/d)); [lia| |apply Hh; lia]. apply IH; lia.
  Qed.
End Order.
