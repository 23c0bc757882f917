(** * HeapN: arity 3 restricted to Push/Pop/Peek, and counterexamples *)
From Verif Require Import GoBase HeapModel HeapSpec HeapProofs HeapMethods HeapHist.
From Coq Require Import ZifyNat ZifyBool.

Local Open Scope nat_scope.

Section Three.
  Context {T : Type} (lf : T → T → bool) (SW : strict_weak lf).
  Implicit Types h : list T.

  Lemma scan_strict cnt h j j1 n j' : j < n → n ≤ length h →
    scan (hless lf) cnt h j j1 n = Ret j' →
    j' = j ∨ ∀ x y, h !! j' = Some x → h !! j = Some y → lf x y = true.
  Proof.
    revert j j1. induction cnt as [|cnt IH]; intros j j1 Hj Hn; cbn [scan].
    { intros [= <-]. by left. }
    case_decide; [|intros [= <-]; by left].
    destruct (hless_Ret lf h j1 j) as (x & y & Lx & Ly & E); [lia..|]. rewrite E; simpl.
    intros Hs. destruct (lf x y) eqn:Exy; [|by apply (IH j (j1+1))].
    right. intros a b Ha Hb. assert (b = y) as -> by congruence.
    destruct (IH j1 (j1 + 1)) as [->|H1]; [lia|lia|exact Hs| |].
    - by assert (a = x) as -> by congruence.
    - specialize (H1 a x Ha Lx). destruct (lf a y) eqn:Eay; [done|].
      assert (lf x y = false) by (eapply (sw_trans _ SW y a x); [done|by apply (sw_asym _ SW)]). congruence.
  Qed.

  Lemma downN_S d w fuel h i n : downN (hless lf) hswap d w (S fuel) h i n =
    if decide (n ≤ d * i + 1) then Ret (h, i)
    else j ← scan (hless lf) (w - 1) h (d * i + 1) (d * i + 1 + 1) n;
         b ← hless lf h j i;
         if (b : bool) then s' ← hswap h i j; downN (hless lf) hswap d w fuel s' j n
         else Ret (h, i).
  Proof. done. Qed.

  (** One [down] from the root with arity 3 and the code's scan width 4. *)
  Lemma down3_order fuel h i n h' i' : n - i < fuel → n ≤ length h →
    downN (hless lf) hswap 3 4 fuel h i n = Ret (h', i') →
    (∀ c, 0 < c → c < n → c ≠ i → (c - 1) / 3 ≠ i → ok lf 3 h c) →
    (∀ c, 0 < c → c < n → 0 < i → (c - 1) / 3 = i → nl lf h c ((i - 1) / 3)) →
    (0 < i → i + 1 < n → nl lf h (i + 1) ((i - 1) / 3)) →
    (∀ x y, 0 < i → h !! i = Some x → h !! ((i - 1) / 3) = Some y → lf x y = false) →
    hok lf 3 n h'.
  Proof.
    revert h i. induction fuel as [|fuel IH]; intros h i Hf Hn; [lia|]. rewrite downN_S. change (4 - 1) with 3.
    case_decide as Hk.
    { intros [= <- <-] Hok Hch Hnx Hi c Hc Hcn. destruct (decide (c = i)) as [->|]; [by intros x y; apply Hi|].
      apply Hok; [done..|]. intros Hp. apply parent_iff in Hp; lia. }
    destruct (scan_total lf 3 h (3*i+1) (3*i+1+1) n) as (j & E & Hj & Hor); [lia..|].
    rewrite E; simpl.
    destruct (scan_min lf SW 3 h (3*i+1) (3*i+1+1) n j) as [Hm1 Hm2]; [lia..|done|].
    pose proof (scan_strict 3 h (3*i+1) (3*i+1+1) n j ltac:(lia) ltac:(lia) E) as Hst.
    assert (Hmin : ∀ c, 3*i+1 ≤ c → c ≤ 3*i+4 → c < n → nl lf h c j).
    { intros c Hc1 Hc2 Hcn. destruct (decide (c = 3*i+1)) as [->|]; [done|]. apply Hm2; lia. }
    destruct (hless_Ret lf h j i) as (x & y & Lx & Ly & El); [lia..|]. rewrite El; simpl.
    destruct (lf x y) eqn:Exy.
    2: { intros [= <- <-] Hok Hch Hnx Hi c Hc Hcn.
         destruct (decide (c = i)) as [->|Hci]; [by intros a b; apply Hi|].
         destruct (decide ((c - 1) / 3 = i)) as [Hp|Hp]; [|by apply Hok].
         unfold ok. rewrite Hp. apply parent_iff in Hp; [|lia|done].
         eapply (nl_trans lf SW _ _ j); [lia| |apply Hmin; lia].
         intros a b Ha Hb. by simplify_eq. }
    destruct (hswap_Ret h i j) as (y' & x' & Ly' & Lx' & E'); [lia..|]. rewrite E'; simpl.
    assert (y' = y) as -> by congruence. assert (x' = x) as -> by congruence. intros Hdn Hok Hch Hnx Hi.
    assert (SL := λ k, swapped_lookup h i j y x k ltac:(lia) ltac:(lia) Ly' Lx').
    assert (Hij : i < j) by lia.
    destruct (decide (j ≤ 3 * i + 3)) as [Hjc|Hjc].
    - (* j is a child of i *)
      assert (Hpj : (j - 1) / 3 = i). { apply parent_iff; lia. }
      eapply (IH (swapped h i j y x) j); [lia|by rewrite swapped_length|exact Hdn|..].
      + intros c Hc Hcn Hcj Hcpj a b. rewrite !SL.
        rewrite (decide_False (P := c = j)) by done.
        rewrite (decide_False (P := (c-1)/3 = j)) by done.
        destruct (decide (c = i)) as [->|Hci].
        * pose proof (parent_lt 3 i ltac:(lia) ltac:(lia)). rewrite (decide_False (P := (i-1)/3 = i)) by lia.
          intros [= <-] Hb. apply (Hch j); [lia|lia|lia|done|done|done].
        * case_decide as Hcp.
          -- intros Ha [= <-]. apply parent_iff in Hcp; [|lia|done]. apply (Hmin c); [lia|lia|lia|done|done].
          -- intros Ha Hb. by apply (Hok c).
      + intros c Hc Hcn Hj0 Hcp a b. rewrite Hpj, !SL.
        pose proof (parent_lt 3 c ltac:(lia) ltac:(lia)) as Hcj. rewrite Hcp in Hcj.
        rewrite (decide_False (P := c = j)) by lia. rewrite (decide_False (P := c = i)) by lia.
        rewrite (decide_False (P := i = j)) by lia. rewrite decide_True by done.
        intros Ha [= <-]. apply (Hok c); [lia|lia|lia|lia|done|by rewrite Hcp].
      + intros Hj0 Hjn a b. rewrite Hpj, !SL.
        rewrite (decide_False (P := j + 1 = j)) by lia. rewrite (decide_False (P := j + 1 = i)) by lia.
        rewrite (decide_False (P := i = j)) by lia. rewrite decide_True by done.
        intros Ha [= <-]. apply (Hmin (j + 1)); [lia|lia|lia|done|done].
      + intros a b Hj0. rewrite Hpj, !SL. rewrite decide_True by done.
        rewrite (decide_False (P := i = j)) by lia. rewrite decide_True by done.
        intros [= <-] [= <-]. by apply (sw_asym _ SW).
    - (* j = 3i+4 is the first child of i+1 *)
      assert (Hj4 : j = 3 * i + 4) by lia.
      assert (Hpj : (j - 1) / 3 = i + 1). { apply parent_iff; lia. }
      assert (Hokj : nl lf h j (i + 1)). { rewrite <-Hpj. apply Hok; lia. }
      destruct (decide (i = 0)) as [Hi0|Hi0].
      { exfalso. destruct Hst as [->|Hst]; [lia|].
        destruct (lookup_lt_is_Some_2 h (i+1) ltac:(lia)) as [z Hz].
        assert (lf x z = true). { apply Hst; [done|]. by replace (3*i+1) with (i+1) by lia. }
        assert (lf x z = false) by (by apply Hokj). congruence. }
      eapply (IH (swapped h i j y x) j); [lia|by rewrite swapped_length|exact Hdn|..].
      + intros c Hc Hcn Hcj Hcpj a b. rewrite !SL.
        rewrite (decide_False (P := c = j)) by done.
        rewrite (decide_False (P := (c-1)/3 = j)) by done.
        destruct (decide (c = i)) as [->|Hci].
        * pose proof (parent_lt 3 i ltac:(lia) ltac:(lia)). rewrite (decide_False (P := (i-1)/3 = i)) by lia.
          intros [= <-] Hb. revert Hb. intros Hb.
          eapply (nl_trans lf SW h j (i+1) ((i-1)/3)); [lia|apply Hnx; lia|done|done|done].
        * case_decide as Hcp.
          -- intros Ha [= <-]. apply parent_iff in Hcp; [|lia|done]. apply (Hmin c); [lia|lia|lia|done|done].
          -- intros Ha Hb. by apply (Hok c).
      + intros c Hc Hcn Hj0 Hcp a b. rewrite Hpj, !SL.
        pose proof (parent_lt 3 c ltac:(lia) ltac:(lia)) as Hcj. rewrite Hcp in Hcj.
        rewrite (decide_False (P := c = j)) by lia. rewrite (decide_False (P := c = i)) by lia.
        rewrite (decide_False (P := i + 1 = j)) by lia. rewrite (decide_False (P := i + 1 = i)) by lia.
        intros Ha Hb. eapply (nl_trans lf SW h c j (i+1)); [lia|done| |done|done].
        rewrite <-Hcp. apply (Hok c); lia.
      + intros Hj0 Hjn a b. rewrite Hpj, !SL.
        rewrite (decide_False (P := j + 1 = j)) by lia. rewrite (decide_False (P := j + 1 = i)) by lia.
        rewrite (decide_False (P := i + 1 = j)) by lia. rewrite (decide_False (P := i + 1 = i)) by lia.
        assert (Hp1 : (j + 1 - 1) / 3 = i + 1) by (apply parent_iff; lia).
        intros Ha Hb. apply (Hok (j+1)); [lia|lia|lia|lia|done|by rewrite Hp1].
      + intros a b Hj0. rewrite Hpj, !SL. rewrite decide_True by done.
        rewrite (decide_False (P := i + 1 = j)) by lia. rewrite (decide_False (P := i + 1 = i)) by lia.
        intros [= <-] Hb. eapply (sw_trans _ SW); [by apply (Hokj x b)|]. by apply (sw_asym _ SW).
  Qed.

  Lemma gpop3_order h x h' : h ≠ [] → gpop (hdownN lf 3) h = Ret (x, h') →
    hok lf 3 (length h) h → hok lf 3 (length h') h'.
  Proof.
    intros Hne. destruct (length h) as [|n] eqn:El. { by apply length_zero_iff_nil in El. }
    unfold gpop. rewrite El. replace (S n - 1) with n by lia.
    destruct (hswap_Ret h 0 n) as (a & b & La & Lb & E); [lia..|]. rewrite E; simpl.
    assert (SL := λ k, swapped_lookup h 0 n a b k ltac:(lia) ltac:(lia) La Lb).
    assert (Hlen : length (swapped h 0 n a b) = S n) by (by rewrite swapped_length).
    unfold hdownN.
    destruct (downN_total lf 3 4 (S n) (swapped h 0 n a b) 0 n) as (h2 & i' & E2 & Hi & Hs & He); [lia..|].
    rewrite E2; simpl. unfold hpop.
    assert (Hl2 : length h2 = S n) by (rewrite (same_length _ _ _ Hs); done).
    rewrite Hl2. replace (S n - 1) with n by lia. destruct (idx h2 n); simpl; [|done..].
    intros [= -> <-] Hh. rewrite take_length. replace (n `min` length h2) with n by lia.
    apply hok_take; [lia|].
    eapply (down3_order (S n) (swapped h 0 n a b) 0 n); [lia|lia|exact E2|..]; try lia.
    intros c Hc Hcn _ Hpc. pose proof (parent_lt 3 c ltac:(lia) Hc).
    eapply (nl_ext lf h); [..|apply Hh; lia]; rewrite SL; repeat case_decide; try lia; done.
  Qed.

  (** Only Push, Pop, Peek, Len and Empty. *)
  Definition no_index_op (o : op T) : Prop :=
    match o with OpRemove _ | OpFix _ | OpSet _ _ => False | _ => True end.

  Lemma heapn3_step h o : no_index_op o → hok lf 3 (length h) h →
    let '(r, h') := heapn_step lf 3 h o in prio_step lf h o r ∧ hok lf 3 (length h') h'.
  Proof.
    intros Ho Hh.
    assert (Hroot : ∀ x, h !! 0 = Some x → least lf x h).
    { intros x Hx. split; [by eapply elem_of_list_lookup_2|]. intros y [k Hk]%elem_of_list_lookup.
      apply (hok_root lf SW 3 (length h) h ltac:(lia) Hh (le_n _) k); [by eapply lookup_lt_Some|done|done]. }
    unfold heapn_step. destruct o as [x| | |i|i|i x| |]; try done; cbn [gstep].
    - destruct (gpush_spec lf 3 ltac:(lia) h x) as (h' & E & P & O). rewrite E; simpl. auto.
    - destruct (decide (h = [])) as [->|Hne]. { simpl. auto. }
      destruct (gpop_spec lf 3 (hdownN lf 3) ltac:(lia) (hdownN_total lf 3 ltac:(lia)) h Hne) as (x & h' & E & L & P & _).
      pose proof (gpop3_order h x h' Hne E Hh). rewrite E; simpl. auto.
    - unfold gpeek, idx. destruct (h !! 0) as [x|] eqn:L; simpl; auto.
  Qed.

  Lemma heapn3_run h ops : Forall no_index_op ops → hok lf 3 (length h) h →
    let '(rs, h') := heapn_run lf 3 h ops in bag_run (prio_step lf) h ops rs h'.
  Proof.
    intros Hops Hh.
    cut (∀ h0, h0 ≡ₚ h → let '(rs, h') := heapn_run lf 3 h ops in bag_run (prio_step lf) h0 ops rs h').
    { intros H. by apply H. }
    unfold heapn_run. revert h Hh. induction Hops as [|o ops Ho Hops IH]; intros h Hh h0 P; cbn [grun]; [by constructor|].
    pose proof (gstep_bag lf 3 (hdownN lf 3) ltac:(lia) (hdownN_total lf 3 ltac:(lia)) h o) as HB.
    pose proof (heapn3_step h o Ho Hh) as HO. unfold heapn_step in HO.
    destruct (gstep lf 3 (hdownN lf 3) h o) as [r h1].
    destruct HB as (s' & B & P'). destruct HO as [Pr Hh1]. pose proof (IH h1 Hh1 s' P') as IH'.
    destruct (grun lf 3 (hdownN lf 3) h1 ops) as [rs h2]. by econstructor.
  Qed.
End Three.

(** ** Counterexamples *)

Lemma nat_ltb_sw : strict_weak Nat.ltb.
Proof.
  split; intros; rewrite ?Nat.ltb_lt, ?Nat.ltb_ge in *; lia.
Qed.

(** A run whose outputs include a value that some present element beats cannot
    be a [prio_step] run.  To refute, it is enough to look at the pushed and
    popped values: all values popped in a correct run are at most every value
    that is pushed before and popped later. *)
Lemma bag_run_pop_after (lf : nat → nat → bool) s ops rs s' :
  bag_run (prio_step lf) s ops rs s' →
  ∀ ops2 rs2 x y, ops = OpPop :: OpPop :: ops2 → rs = OVal x :: OVal y :: rs2 → lf y x = false.
Proof.
  intros H ops2 rs2 x y -> ->. inversion H as [|? s1 s2 ? ? ? ? ? P1 B1 Pr1 H2]; subst.
  inversion H2 as [|? s3 s4 ? ? ? ? ? P2 B2 Pr2 H3]; subst.
  inversion B1 as [|? ? ? Q1| | | | | | | | | | |]; subst. inversion B2 as [|? ? ? Q2| | | | | | | | | | |]; subst.
  destruct Pr1 as [_ Pr1]. apply Pr1. rewrite Q1, P2, Q2. right. left.
Qed.

Lemma bag_run_app (lf : nat → nat → bool) ops1 ops2 rs1 rs2 s s' :
  length ops1 = length rs1 →
  bag_run (prio_step lf) s (ops1 ++ ops2) (rs1 ++ rs2) s' →
  ∃ s1, bag_run (prio_step lf) s1 ops2 rs2 s'.
Proof.
  revert rs1 s. induction ops1 as [|o ops1 IH]; intros [|r rs1] s Hl H; try done; simpl in *; [by eauto|].
  inversion H; subst. eapply IH; [|done]. lia.
Qed.

(** The observable claim, as a predicate on an arity: every run from the empty
    heap, with operations satisfying [Q], is a priority-queue run. *)
Definition heapn_correct (Q : op nat → Prop) (d : nat) : Prop :=
  ∀ ops, Forall Q ops →
    let '(rs, h') := heapn_run Nat.ltb d [] ops in bag_run (prio_step Nat.ltb) [] ops rs h'.

Lemma heapn_incorrect_if (Q : op nat → Prop) d ops n x y :
  Forall Q ops → take 2 (drop n ops) = [OpPop; OpPop] →
  take 2 (drop n (heapn_run Nat.ltb d [] ops).1) = [OVal x; OVal y] → y < x →
  length (heapn_run Nat.ltb d [] ops).1 = length ops →
  ¬ heapn_correct Q d.
Proof.
  intros HQ Ho Hr Hxy Hl Hc. specialize (Hc ops HQ).
  destruct (heapn_run Nat.ltb d [] ops) as [rs h'] eqn:E. simpl in *.
  rewrite <-(take_drop n ops), <-(take_drop n rs) in Hc.
  apply bag_run_app in Hc as [s1 Hc]; [|by rewrite !take_length, Hl].
  assert (lf : Nat.ltb y x = false).
  { rewrite <-(take_drop 2 (drop n ops)), <-(take_drop 2 (drop n rs)), Ho, Hr in Hc. simpl in Hc.
    by eapply bag_run_pop_after. }
  apply Nat.ltb_ge in lf. lia.
Qed.

(** Arity 2, pushes and pops only. *)
Definition pushes (l : list nat) : list (op nat) := OpPush <$> l.
Definition cex2_in : list nat :=
  [53;49;23;56;66;94;2;73;72;94;53;43;29;99;37;74;79;21;17;64;78;40;47;33;30;4;62;62].
Definition cex2 : list (op nat) := pushes cex2_in ++ replicate 9 OpPop.

Lemma heapn2_refuted : ¬ heapn_correct no_index_op 2.
Proof.
  eapply (heapn_incorrect_if _ _ cex2 35).
  - apply Forall_forall. intros o [Ho|Ho]%elem_of_app.
    + by apply elem_of_list_fmap in Ho as (? & -> & _).
    + by apply elem_of_replicate in Ho as [-> _].
  - by vm_compute.
  - vm_compute. reflexivity.
  - lia.
  - by vm_compute.
Qed.

(** Arity 3 with Remove. *)
Definition cex3_in : list nat :=
  [78;2;0;9;73;9;75;8;54;93;9;67;12;50;96;26;93;94;22;29;31;61;7;15;56;32].
Definition cex3 : list (op nat) := pushes cex3_in ++
  [OpRemove 6; OpRemove 3; OpRemove 2; OpRemove 21; OpPop; OpPop; OpRemove 3; OpPop; OpPop].

Lemma heapn3_remove_refuted : ¬ heapn_correct (λ _, True) 3.
Proof.
  eapply (heapn_incorrect_if _ _ cex3 33).
  - by apply Forall_forall.
  - by vm_compute.
  - vm_compute. reflexivity.
  - lia.
  - by vm_compute.
Qed.

(** Every arity >= 5: pushes 0 5 6 7 8 1 9, then three pops give 0, 5, 1. *)
Definition cex5 : list (op nat) := pushes [0;5;6;7;8;1;9] ++ [OpPop; OpPop; OpPop].

(** Below eight elements all arities >= 6 behave alike: the tree has two levels. *)
Lemma downN_ext6 d f h i n : 6 ≤ d → n ≤ 7 →
  downN (hless Nat.ltb) hswap d 4 f h i n = downN (hless Nat.ltb) hswap 6 4 f h i n.
Proof.
  intros Hd Hn. revert h i. induction f as [|f IH]; intros h i; [done|]. rewrite !downN_S.
  destruct (decide (i = 0)) as [->|Hi].
  - rewrite !Nat.mul_0_r. case_decide; [done|].
    destruct (scan _ _ _ _ _ _); [|done..]. simpl. destruct (hless _ _ _ _) as [[]| |]; [|done..]. simpl.
    destruct (hswap _ _ _); [|done..]. apply IH.
  - rewrite !decide_True by nia. done.
Qed.
Lemma up_ext6 d f (h : list nat) j : 6 ≤ d → j ≤ 6 →
  up (hless Nat.ltb) hswap d f h j = up (hless Nat.ltb) hswap 6 f h j.
Proof.
  intros Hd Hj. destruct f as [|f]; [done|]. cbn [up].
  rewrite !Nat.div_small by lia. case_decide; [done|].
  destruct (hless _ _ _ _) as [[]| |]; [|done..]. simpl.
  destruct (hswap _ _ _); [|done..]. simpl. destruct f as [|f]; [done|]. cbn [up].
  by rewrite !Nat.div_small by lia.
Qed.
Lemma heapn_step_ext6 d h o : 6 ≤ d →
  match o with OpPush _ => length h ≤ 6 | OpPop => length h ≤ 7 | _ => False end →
  heapn_step Nat.ltb d h o = heapn_step Nat.ltb 6 h o.
Proof.
  intros Hd Ho. unfold heapn_step. destruct o; try done; cbn [gstep].
  - unfold gpush, hup. rewrite up_ext6; [done|done|]. unfold hpush. rewrite app_length; simpl. lia.
  - unfold gpop. destruct (hswap h 0 (length h - 1)); [|done..]. simpl. unfold hdownN.
    rewrite downN_ext6; [done|lia|lia].
Qed.
Lemma heapn_run_cons6 d h o os r h1 : 6 ≤ d → heapn_step Nat.ltb 6 h o = (r, h1) →
  match o with OpPush _ => length h ≤ 6 | OpPop => length h ≤ 7 | _ => False end →
  heapn_run Nat.ltb d h (o :: os) = let '(rs, h2) := heapn_run Nat.ltb d h1 os in (r :: rs, h2).
Proof.
  intros Hd E Ho. rewrite <-(heapn_step_ext6 d) in E by done. unfold heapn_run, heapn_step in *.
  cbn [grun]. by rewrite E.
Qed.

Lemma heapn5_run d : 5 ≤ d →
  (heapn_run Nat.ltb d [] cex5).1 = replicate 7 OUnit ++ [OVal 0; OVal 5; OVal 1].
Proof.
  intros Hd. destruct (decide (d = 5)) as [->|]; [by vm_compute|].
  unfold cex5, pushes. cbn [fmap list_fmap app].
  repeat (erewrite heapn_run_cons6; [|lia|vm_compute; reflexivity|simpl; lia]). done.
Qed.

Lemma heapn5_refuted d : 5 ≤ d → ¬ heapn_correct no_index_op d.
Proof.
  intros Hd. eapply (heapn_incorrect_if _ _ cex5 8 5 1).
  - repeat constructor.
  - by vm_compute.
  - by rewrite heapn5_run.
  - lia.
  - by rewrite heapn5_run.
Qed.

Lemma heapn4_prio {T} (lf : T → T → bool) ops : strict_weak lf →
  let '(rs, h') := heapn_run lf 4 [] ops in bag_run (prio_step lf) [] ops rs h'.
Proof.
  intros SW. unfold heapn_run.
  pose proof (grun_prio lf 4 (hdownN lf 4) ltac:(lia) (hdownN_total lf 4 ltac:(lia)) [] ops SW (hdownN_order lf SW)) as H.
  destruct (grun lf 4 (hdownN lf 4) [] ops) as [rs h']. apply H. intros c ? Hc. simpl in Hc. lia.
Qed.

Lemma heapn3_prio {T} (lf : T → T → bool) ops : strict_weak lf → Forall no_index_op ops →
  let '(rs, h') := heapn_run lf 3 [] ops in bag_run (prio_step lf) [] ops rs h'.
Proof. intros SW Ho. apply heapn3_run; [done|done|]. intros c ? Hc. simpl in Hc. lia. Qed.

Lemma heapn_correct_mono (Q Q' : op nat → Prop) d : (∀ o, Q' o → Q o) →
  heapn_correct Q d → heapn_correct Q' d.
Proof. intros HQ H ops Ho. apply H. eapply Forall_impl; eauto. Qed.

Lemma heapn_correct_iff d : 2 ≤ d → heapn_correct (λ _, True) d ↔ d = 4.
Proof.
  intros Hd. split.
  - intros H. destruct (decide (d = 4)) as [|H4]; [done|]. exfalso.
    pose proof (heapn_correct_mono _ no_index_op d (λ _ _, I) H) as H'.
    destruct (decide (d = 2)) as [->|]; [by apply heapn2_refuted|].
    destruct (decide (d = 3)) as [->|]; [by apply heapn3_remove_refuted|].
    apply (heapn5_refuted d); [lia|done].
  - intros -> ops _. apply heapn4_prio, nat_ltb_sw.
Qed.

Lemma heapn_correct_pp_iff d : 2 ≤ d → heapn_correct no_index_op d ↔ d = 3 ∨ d = 4.
Proof.
  intros Hd. split.
  - intros H. destruct (decide (d = 3)) as [|H3]; [by left|]. destruct (decide (d = 4)) as [|H4]; [by right|].
    exfalso. destruct (decide (d = 2)) as [->|]; [by apply heapn2_refuted|].
    apply (heapn5_refuted d); [lia|done].
  - intros [->| ->] ops Ho; [by apply heapn3_prio; [apply nat_ltb_sw|]|apply heapn4_prio, nat_ltb_sw].
Qed.

Lemma heapn_bag {T} (lf : T → T → bool) d ops : 2 ≤ d →
  let '(rs, h') := heapn_run lf d [] ops in bag_run (λ _ _ _, True) [] ops rs h'.
Proof. intros Hd. apply grun_bag; [lia|apply hdownN_total; lia]. Qed.

Lemma heapn_new_iff {T} d : (∃ h : list T, heapn_new d = Ret h) ↔ (2 ≤ d)%Z.
Proof.
  unfold heapn_new. case_decide; split.
  - by intros [? ?].
  - lia.
  - lia.
  - eauto.
Qed.

Lemma bag_run_perm {T} (P : list T → op T → out T → Prop) s s0 ops rs s' :
  s0 ≡ₚ s → bag_run P s0 ops rs s' → bag_run P s ops rs s'.
Proof.
  intros Hs H. inversion H; subst.
  - constructor. by rewrite <-Hs.
  - econstructor; [|done..]. by rewrite <-Hs.
Qed.

(** ** Heap and PriorityQueue from New *)
Section FromNew.
  Context {T : Type} (lf : T → T → bool).

  Lemma heap_bag_from_new (init : list T) ops :
    ∃ h0, heap_new lf init = Ret h0 ∧
      let '(rs, h') := heap_run lf h0 ops in bag_run (λ _ _ _, True) init ops rs h'.
  Proof.
    destruct (heap_new_spec lf init) as (h0 & E & P & _). exists h0. split; [done|].
    pose proof (grun_bag lf 2 (hdown lf) ltac:(lia) (hdown_total lf) h0 ops) as H. unfold heap_run.
    destruct (grun lf 2 (hdown lf) h0 ops) as [rs h']. by eapply bag_run_perm.
  Qed.

  Lemma heap_prio_from_new : strict_weak lf → ∀ (init : list T) ops,
    ∃ h0, heap_new lf init = Ret h0 ∧
      let '(rs, h') := heap_run lf h0 ops in bag_run (prio_step lf) init ops rs h'.
  Proof.
    intros SW init ops. destruct (heap_new_spec lf init) as (h0 & E & P & O). exists h0. split; [done|].
    pose proof (grun_prio lf 2 (hdown lf) ltac:(lia) (hdown_total lf) h0 ops SW (hdown_order lf SW) (O SW)) as H.
    unfold heap_run. destruct (grun lf 2 (hdown lf) h0 ops) as [rs h']. destruct H. by eapply bag_run_perm.
  Qed.

  Lemma pq_drain_from_new : strict_weak lf → ∀ (init : list T) ops,
    ∃ h0, pq_new lf init = Ret h0 ∧
      let '(_, h) := heap_run lf h0 ops in
      ∃ l, pq_drain lf (pq_len h) h = Ret (l, []) ∧ l ≡ₚ h ∧ non_decreasing lf l.
  Proof.
    intros SW init ops. destruct (heap_new_spec lf init) as (h0 & E & P & O). exists h0. split; [done|].
    pose proof (grun_prio lf 2 (hdown lf) ltac:(lia) (hdown_total lf) h0 ops SW (hdown_order lf SW) (O SW)) as H.
    unfold heap_run. destruct (grun lf 2 (hdown lf) h0 ops) as [rs h']. destruct H as [_ H].
    by apply pq_drain_spec.
  Qed.
End FromNew.
