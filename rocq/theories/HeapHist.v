(** * Heap histories: init, single steps, whole runs, draining *)
From Verif Require Import GoBase HeapModel HeapSpec HeapProofs HeapMethods.
From Coq Require Import ZifyNat ZifyBool.

Local Open Scope nat_scope.

Section Init.
  Context {T : Type} (lf : T → T → bool).

  Lemma hinit_loop_spec i (h : list T) :
    ∃ h', hinit_loop lf i h = Ret h' ∧ h' ≡ₚ h ∧
      (strict_weak lf → (∀ c, 0 < c → c < length h → i ≤ (c - 1) / 2 → ok lf 2 h c) → hok lf 2 (length h') h').
  Proof.
    revert h. induction i as [|i IH]; intros h; cbn [hinit_loop].
    { exists h. split_and!; [done..|]. intros _ H c Hc Hcl. apply H; lia. }
    unfold hdown. rewrite down2_downN.
    destruct (downN_total lf 2 2 (S (length h)) h i (length h)) as (h1 & i1 & E & Hi & Hs & He); [lia..|].
    rewrite E; simpl. destruct (IH h1) as (h' & E' & P & O). exists h'. split_and!; [done| |].
    { rewrite P. apply Hs. }
    intros SW Hok. apply O; [done|]. pose proof (same_length _ _ _ Hs) as Hl. rewrite Hl.
    destruct (downN_order_lo lf SW 2 i (S (length h)) h i (length h) h1 i1) as [D1 D2]; [lia..|exact E| | |].
    - intros c Hc Hcl Hpi Hci Hp. apply Hok; lia.
    - intros c Hc Hcl Hi0 Hlo. pose proof (parent_lt 2 i ltac:(lia) Hi0). lia.
    - intros c Hc Hcl Hp. destruct (decide (i1 = i)) as [->|]; [|apply D2; lia].
      apply D1; lia.
  Qed.

  Lemma heap_new_spec (h : list T) :
    ∃ h', heap_new lf h = Ret h' ∧ h' ≡ₚ h ∧ (strict_weak lf → hok lf 2 (length h') h').
  Proof.
    destruct (hinit_loop_spec (length h / 2) h) as (h' & E & P & O). exists h'. split_and!; [done..|].
    intros SW. apply O; [done|]. intros c Hc Hcl Hp. exfalso.
    pose proof (Nat.div_mod (length h) 2 ltac:(lia)). pose proof (Nat.mod_upper_bound (length h) 2 ltac:(lia)).
    pose proof (Nat.div_mod (c - 1) 2 ltac:(lia)). lia.
  Qed.
End Init.

Section Hist.
  Context {T : Type} (lf : T → T → bool) (d : nat) (dn : list T → nat → nat → go (list T * bool)).
  Context (Hd : 2 ≤ d) (DT : dn_total dn).
  Implicit Types h : list T.

  Lemma gstep_bag h o : let '(r, h') := gstep lf d dn h o in ∃ s', bag_step h o r s' ∧ s' ≡ₚ h'.
  Proof.
    destruct o as [x| | |i|i|i x| |]; cbn [gstep].
    - destruct (gpush_spec lf d Hd h x) as (h' & E & P & _). rewrite E; simpl.
      exists (x :: h). split; [constructor|done].
    - destruct (decide (h = [])) as [->|Hne]. { simpl. exists []. split; [constructor|done]. }
      destruct (gpop_spec lf d dn Hd DT h Hne) as (x & h' & E & _ & P & _). rewrite E; simpl.
      exists h'. split; [by constructor|done].
    - unfold gpeek. destruct h as [|y h]; simpl. { exists []. split; [constructor|done]. }
      exists (y :: h). split; [constructor; left|done].
    - unfold gremove. case_decide as Hi.
      + destruct (decide (Z.to_nat i < length h)).
        * destruct (gremove_nat_spec lf d dn Hd DT h (Z.to_nat i)) as (x & h' & E & _ & P & _); [done|].
          rewrite E; simpl. exists h'. split; [constructor; [lia|done]|done].
        * rewrite gremove_nat_bad by lia. simpl. exists h. split; [constructor; lia|done].
      + simpl. exists h. split; [constructor; lia|done].
    - unfold gfix. case_decide as Hi.
      + destruct (decide (Z.to_nat i < length h)).
        * destruct (gfix_nat_spec lf d dn Hd DT h (Z.to_nat i)) as (h' & E & P & _); [done|].
          rewrite E; simpl. exists h. split; [constructor|done].
        * rewrite gfix_nat_bad by (done || lia). case_decide; simpl; exists h; (split; [constructor; lia|done]).
      + case_decide; simpl; exists h; (split; [constructor; lia|done]).
    - case_decide as Hi.
      + destruct (gfix_nat_spec lf d dn Hd DT (<[i:=x]> h) i) as (h' & E & P & _); [by rewrite insert_length|].
        rewrite E; simpl. destruct (lookup_lt_is_Some_2 h i Hi) as [y Hy].
        exists (x :: (take i h ++ drop (S i) h)). split.
        * apply (bs_set _ _ _ y); [done|]. rewrite <-(take_drop_middle h i y Hy) at 1.
          by rewrite <-Permutation_middle.
        * rewrite P, insert_take_drop by done. by rewrite <-Permutation_middle.
      + exists h. split; [constructor; lia|done].
    - exists h. split; [constructor|done].
    - unfold gempty. exists h. split; [|done].
      replace (bool_decide (length h = 0)) with (bool_decide (h = [])); [constructor|].
      apply bool_decide_ext. by rewrite length_zero_iff_nil.
  Qed.

  Lemma gstep_index h o : let '(r, h') := gstep lf d dn h o in index_step (bool_decide (d = 2)) h o r h'.
  Proof.
    destruct o as [x| | |i|i|i x| |]; cbn [gstep index_step].
    - by destruct (fin _ _ _).
    - destruct h as [|y h]; [done|].
      destruct (gpop_spec lf d dn Hd DT (y :: h)) as (x & h' & E & Hx & P & _); [done|]. rewrite E; simpl.
      injection Hx as ->. split; [done|]. symmetry. by apply (Permutation_cons_inv P).
    - by destruct h.
    - unfold gremove. case_decide as Hi.
      + destruct (decide (Z.to_nat i < length h)).
        * destruct (gremove_nat_spec lf d dn Hd DT h (Z.to_nat i)) as (x & h' & E & Hx & P & _); [done|].
          rewrite E; simpl. rewrite decide_True by lia. by exists x.
        * rewrite gremove_nat_bad by lia. simpl. by rewrite decide_False by lia.
      + simpl. by rewrite decide_False by lia.
    - unfold gfix. case_decide as Hi.
      + destruct (decide (Z.to_nat i < length h)).
        * destruct (gfix_nat_spec lf d dn Hd DT h (Z.to_nat i)) as (h' & E & P & _); [done|].
          rewrite E; simpl. by rewrite decide_True by lia.
        * rewrite gfix_nat_bad by (done || lia). case_decide; simpl.
          { by rewrite decide_True by lia. }
          by rewrite decide_False by lia.
      + case_decide as H2; simpl.
        * rewrite decide_True; [done|]. right; right. by rewrite bool_decide_eq_true.
        * rewrite decide_False; [done|]. rewrite bool_decide_eq_true. lia.
    - case_decide as Hi; [|done].
      destruct (gfix_nat_spec lf d dn Hd DT (<[i:=x]> h) i) as (h' & E & P & _); [by rewrite insert_length|].
      by rewrite E.
    - done.
    - done.
  Qed.

  Lemma gstep_hok h o : strict_weak lf → dn_order lf d dn → hok lf d (length h) h →
    let '(r, h') := gstep lf d dn h o in prio_step lf h o r ∧ hok lf d (length h') h'.
  Proof.
    intros SW DO Hh.
    assert (Hroot : ∀ x, h !! 0 = Some x → least lf x h).
    { intros x Hx. split; [by eapply elem_of_list_lookup_2|]. intros y [k Hk]%elem_of_list_lookup.
      apply (hok_root lf SW d (length h) h Hd Hh (le_n _) k); [by eapply lookup_lt_Some|done|done]. }
    destruct o as [x| | |i|i|i x| |]; cbn [gstep].
    - destruct (gpush_spec lf d Hd h x) as (h' & E & P & O). rewrite E; simpl. auto.
    - destruct (decide (h = [])) as [->|Hne]. { simpl. auto. }
      destruct (gpop_spec lf d dn Hd DT h Hne) as (x & h' & E & L & P & O). rewrite E; simpl. auto.
    - unfold gpeek, idx. destruct (h !! 0) as [x|] eqn:L; simpl; auto.
    - unfold gremove. case_decide as Hi; simpl; [|auto].
      destruct (decide (Z.to_nat i < length h)).
      + destruct (gremove_nat_spec lf d dn Hd DT h (Z.to_nat i)) as (x & h' & E & _ & P & O); [done|].
        rewrite E; simpl. auto.
      + rewrite gremove_nat_bad by lia. simpl. auto.
    - unfold gfix. case_decide as Hi.
      + destruct (decide (Z.to_nat i < length h)).
        * destruct (gfix_nat_spec lf d dn Hd DT h (Z.to_nat i)) as (h' & E & P & O); [done|].
          rewrite E; simpl. split; [done|]. by apply (O SW DO h).
        * rewrite gfix_nat_bad by (done || lia). case_decide; simpl; auto.
      + case_decide; simpl; auto.
    - case_decide as Hi; [|simpl; auto].
      destruct (gfix_nat_spec lf d dn Hd DT (<[i:=x]> h) i) as (h' & E & P & O); [by rewrite insert_length|].
      rewrite E; simpl. split; [done|]. apply (O SW DO h); [by rewrite insert_length|done|].
      intros k Hk. by rewrite list_lookup_insert_ne.
    - simpl. auto.
    - simpl. auto.
  Qed.

  (** bag_step is stable under permuting the starting bag only through
      [bag_run]'s re-reading, so runs compose directly. *)
  Lemma grun_bag h ops : let '(rs, h') := grun lf d dn h ops in bag_run (λ _ _ _, True) h ops rs h'.
  Proof.
    cut (∀ h0, h0 ≡ₚ h → let '(rs, h') := grun lf d dn h ops in bag_run (λ _ _ _, True) h0 ops rs h').
    { intros H. by apply H. }
    revert h. induction ops as [|o ops IH]; intros h h0 P; cbn [grun]; [by constructor|].
    pose proof (gstep_bag h o) as HB. destruct (gstep lf d dn h o) as [r h1].
    destruct HB as (s' & B & P'). pose proof (IH h1 s' P') as IH'.
    destruct (grun lf d dn h1 ops) as [rs h2]. by econstructor.
  Qed.

  Lemma grun_prio h ops : strict_weak lf → dn_order lf d dn → hok lf d (length h) h →
    let '(rs, h') := grun lf d dn h ops in bag_run (prio_step lf) h ops rs h' ∧ hok lf d (length h') h'.
  Proof.
    intros SW DO Hh.
    cut (∀ h0, h0 ≡ₚ h → let '(rs, h') := grun lf d dn h ops in bag_run (prio_step lf) h0 ops rs h' ∧ hok lf d (length h') h').
    { intros H. by apply H. }
    revert h Hh. induction ops as [|o ops IH]; intros h Hh h0 P; cbn [grun]; [by split; [constructor|]|].
    pose proof (gstep_bag h o) as HB. pose proof (gstep_hok h o SW DO Hh) as HO.
    destruct (gstep lf d dn h o) as [r h1].
    destruct HB as (s' & B & P'). destruct HO as [Pr Hh1]. pose proof (IH h1 Hh1 s' P') as IH'.
    destruct (grun lf d dn h1 ops) as [rs h2]. destruct IH'. split; [by econstructor|done].
  Qed.
End Hist.

(** Popping until empty. *)
Section Drain.
  Context {T : Type} (lf : T → T → bool).

  (** pqueue.go:22-24 called [n] times *)
  Fixpoint pq_drain (n : nat) (h : list T) : go (list T * list T) :=
    match n with
    | O => Ret ([], h)
    | S n' => r ← pq_pop lf h; q ← pq_drain n' r.2; Ret (r.1 :: q.1, q.2)
    end.

  Definition non_decreasing (l : list T) : Prop :=
    ∀ i j x y, i < j → l !! i = Some x → l !! j = Some y → lf y x = false.

  Lemma pq_drain_spec n h : strict_weak lf → length h = n → hok lf 2 (length h) h →
    ∃ l, pq_drain n h = Ret (l, []) ∧ l ≡ₚ h ∧ non_decreasing l.
  Proof.
    intros SW. revert h. induction n as [|n IH]; intros h Hl Hh; cbn [pq_drain].
    { apply length_zero_iff_nil in Hl as ->. exists []. split_and!; [done..|]. intros i j x y _ Hx. done. }
    assert (Hne : h ≠ []) by (by intros ->).
    destruct (gpop_spec lf 2 (hdown lf) ltac:(lia) (hdown_total lf) h Hne) as (x & h' & E & L & P & O).
    unfold pq_pop. rewrite E; simpl. pose proof (Permutation_length P) as Pl. simpl in Pl.
    destruct (IH h') as (l & El & Pl' & Hs); [lia|apply O; [by apply hdown_order|done]|].
    rewrite El; simpl. exists (x :: l). split_and!; [done|by rewrite Pl', P|].
    intros i j a b Hij Ha Hb. destruct i as [|i].
    - simpl in Ha. injection Ha as <-. destruct j as [|j]; [lia|]. simpl in Hb.
      assert (Hbh : b ∈ h). { rewrite P. right. rewrite <-Pl'. by eapply elem_of_list_lookup_2. }
      apply elem_of_list_lookup in Hbh as [k Hk].
      apply (hok_root lf SW 2 (length h) h ltac:(lia) Hh (le_n _) k); [by eapply lookup_lt_Some|done|done].
    - destruct j as [|j]; [lia|]. simpl in *. apply (Hs i j); [lia|done|done].
  Qed.
End Drain.
