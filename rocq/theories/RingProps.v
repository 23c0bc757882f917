(** * Properties C15-C18: the three ring buffers *)
From Verif Require Import GoBase GoState MathModel MathSpec MathProofs RingModel RingSpec RingProofs.
Local Open Scope Z_scope.

(** C15: every history of fewer than 2^64 offered elements, and every history at all if the size divides 2^64. *)
Theorem fix_ring_is_bounded_fifo_partial : ∀ (T : Type) (dv : T) (size : Z) (r : ring T) (ops : list (bop T)),
  is_u64 size → fix_new dv size = Ret r → Forall (λ o, args_ok o ∧ ¬ is_grow o) ops →
  (Z.of_nat (offered ops) < 2 ^ 64 ∨ (size | 2 ^ 64)) →
  (brun (fix_step dv) r ops).1 = srun bounded_step ([], size) ops.
Proof. intros T dv size r ops [? _]. by apply fix_run. Qed.
Print Assumptions fix_ring_is_bounded_fifo_partial.
Theorem fix_new_accepts : ∀ (T : Type) (dv : T) (size : Z), is_u64 size →
  ((∃ r, fix_new dv size = Ret r) ↔ 0 < size < 2 ^ 63).
Proof.
  intros T dv size [? ?]. split.
  - intros [r Hr]. by destruct (fix_new_inv dv size r).
  - intros ?. unfold fix_new, max_int64. rewrite !decide_False by lia. by eexists.
Qed.
Print Assumptions fix_new_accepts.
Example fix_case : let ops := [BPush 1; BMPush [2; 3; 4; 5]; BPop; BMPop 1; BMPush [6; 7]; BFull; BMPopCopy [0; 0]; BPush 8; BPeek; BMPop 9; BPop; BLen] in
  ∃ r, fix_new 0 3 = Ret r ∧ Z.of_nat (offered ops) < 2 ^ 64 ∧
   (brun (fix_step 0) r ops).1 = [BUnit; BUnit; BVal 1; BSlice [2]; BUnit; BBool true; BSlice [3; 6]; BUnit; BVal 7; BSlice [7; 8]; BPanic; BInt 0].
Proof. eexists. split; [reflexivity|]. split; [done|]. by vm_compute. Qed.

(** ... but no other size: 2^64-1 pushes and pops bring a ring whose size does not divide 2^64 to a state in which
    the next elements overwrite unread ones. *)
Section Wrap.
  Context {T : Type} (dv a b : T) (c : nat).
  Hypothesis Hab : a ≠ b.
  Hypothesis Hc : 0 < Z.of_nat c < 2 ^ 63.
  Definition pairs (n : nat) : list (bop T) := concat (replicate n [BPush a; BPop]).
  Definition send (s : list T * Z) (ops : list (bop T)) := foldl (λ s o, (bounded_step s o).2) s ops.
  Lemma srun_app (ops1 : list (bop T)) : ∀ s ops2, srun bounded_step s (ops1 ++ ops2) = srun bounded_step s ops1 ++ srun bounded_step (send s ops1) ops2.
  Proof. induction ops1 as [|o ops1 IH]; intros s ops2; [done|]. simpl. by rewrite IH. Qed.
  Lemma srun_length (ops : list (bop T)) : ∀ s, length (srun bounded_step s ops) = length ops.
  Proof. induction ops as [|o ops IH]; intros s; [done|]. simpl. by rewrite IH. Qed.
  Lemma brun_app (step : ring T → bop T → bout T * ring T) ops1 : ∀ r ops2,
    brun step r (ops1 ++ ops2) = ((brun step r ops1).1 ++ (brun step (brun step r ops1).2 ops2).1, (brun step (brun step r ops1).2 ops2).2).
  Proof.
    induction ops1 as [|o ops1 IH]; intros r ops2; simpl.
    - by destruct (brun step r ops2).
    - destruct (step r o) as [x r1]. rewrite IH. by destruct (brun step r1 ops1).
  Qed.
  Lemma brun_length (step : ring T → bop T → bout T * ring T) ops : ∀ r, length (brun step r ops).1 = length ops.
  Proof.
    induction ops as [|o ops IH]; intros r; [done|]. simpl. destruct (step r o) as [x r1]. specialize (IH r1).
    destruct (brun step r1 ops). simpl in *. by rewrite IH.
  Qed.

  Let Ix := λ (r : ring T) q c O N (_ : True), ix_mod_ok r q c O N.
  Lemma pairs_run n : ∀ r O, rR r [] c O → Z.of_nat (O + n) < 2 ^ 64 → rR (brun (fix_step dv) r (pairs n)).2 [] c (O + n).
  Proof.
    induction n as [|n IH]; intros r O HR Hlt; [by rewrite Nat.add_0_r|].
    change (pairs (S n)) with ([BPush a; BPop] ++ pairs n). rewrite brun_app. cbn [snd].
    destruct (push_tail_ok ix_mod (λ _, True) Ix r [] c O a I HR) as (r1 & E1 & HR1 & _); [left; simpl; lia|simpl; lia|].
    destruct (pop_ok ix_mod (λ _, True) Ix r1 a [] c O I HR1) as (r2 & E2 & HR2 & _); [left; simpl; lia|].
    assert (brun (fix_step dv) r [BPush a; BPop] = ([BUnit; BVal a], r2)) as ->.
    { cbn [brun]. unfold fix_step, rstep. unfold rpush. cbv [mbind gst_bind gget gread]. rewrite (rR_full _ _ _ _ HR).
      rewrite bool_decide_eq_false_2 by (simpl; lia). unfold gret. rewrite E1. simpl. by rewrite E2. }
    cbn [snd]. replace (O + S n)%nat with (S O + n)%nat by lia. apply IH; [done|lia].
  Qed.
  Lemma pairs_send n : send ([], Z.of_nat c) (pairs n) = ([], Z.of_nat c).
  Proof.
    induction n as [|n IH]; [done|]. change (pairs (S n)) with ([BPush a; BPop] ++ pairs n). unfold send.
    rewrite foldl_app. assert (foldl (λ s o, (bounded_step s o).2) ([], Z.of_nat c) [BPush a; BPop] = ([], Z.of_nat c)) as ->; [|exact IH].
    simpl. by rewrite decide_True by lia.
  Qed.
  (** after the input counter wrapped and the output counter has not *)
  Record W (r : ring T) (j : Z) : Prop := MkW {
    W_size : rsize r = Z.of_nat c; W_out : rout r = 2 ^ 64 - 1; W_in : rin r = j; W_data : length (rdata r) = c }.
  Lemma W_push r j x : W r j → 0 ≤ j → j + 1 < Z.of_nat c →
    ∃ r', fix_step dv r (BPush x) = (BUnit, r') ∧ W r' (j + 1) ∧ rdata r' = <[Z.to_nat j := x]> (rdata r).
  Proof.
    intros [Hs Ho Hi Hd] H0 Hj. unfold fix_step, rstep, rpush, rpush_tail, store.
    cbv [mbind gst_bind gget gread gwrite gret glift set_in set_data].
    assert (rfull r = false) as ->.
    { unfold rfull. apply bool_decide_eq_false_2. unfold ravail, rcap, rlen. rewrite Hs, Ho, Hi.
      assert (u64 (j - (2 ^ 64 - 1)) = j + 1) as ->.
      { unfold u64, wrap_u. replace (j - (2 ^ 64 - 1)) with (j + 1 + (-1) * 2 ^ 64) by lia. rewrite Z_mod_plus_full. apply Z.mod_small. lia. }
      rewrite u64_id by (unfold is_u64; lia). lia. }
    unfold ix_mod, umod. rewrite Hs, Hi, decide_False by lia. rewrite Z.mod_small by lia. cbn [rdata]. rewrite Hd, decide_True by lia.
    eexists. split; [reflexivity|]. split; [|done]. split; simpl; try done.
    - apply u64_id. unfold is_u64. lia.
    - by rewrite insert_length.
  Qed.
  Lemma W_pushes n : ∀ r j, W r j → 0 ≤ j → j + Z.of_nat n < Z.of_nat c →
    W (brun (fix_step dv) r (replicate n (BPush a))).2 (j + Z.of_nat n).
  Proof.
    induction n as [|n IH]; intros r j HW Hj Hlt; [by rewrite Z.add_0_r|].
    destruct (W_push r j a HW Hj) as (r' & E & HW' & _); [lia|]. cbn [replicate brun]. rewrite E.
    specialize (IH r' (j + 1) HW'). destruct (brun (fix_step dv) r' (replicate n (BPush a))). cbn [snd] in *.
    replace (j + Z.of_nat (S n)) with (j + 1 + Z.of_nat n) by lia. apply IH; lia.
  Qed.
  Lemma send_pushes n : ∀ q, (length q + n ≤ c)%nat →
    send (q, Z.of_nat c) (replicate n (BPush a)) = (q ++ replicate n a, Z.of_nat c).
  Proof.
    induction n as [|n IH]; intros q Hl; [by rewrite app_nil_r|]. unfold send. cbn [replicate foldl].
    assert ((bounded_step (q, Z.of_nat c) (BPush a)).2 = (q ++ [a], Z.of_nat c)) as -> by (simpl; by rewrite decide_True by lia).
    fold (send (q ++ [a], Z.of_nat c) (replicate n (BPush a))). rewrite IH by (rewrite app_length; simpl; lia). by rewrite <-app_assoc.
  Qed.

  Definition bad (s : nat) : list (bop T) := replicate (s - 1) (BPush a) ++ [BPush b; BPop].
  (** the pops: a is expected, b comes out *)
  Lemma wrap_bad r (s n : nat) : rR r [] c 0 → Z.of_nat n = 2 ^ 64 - 1 → Z.of_nat s = 2 ^ 64 mod Z.of_nat c → s ≠ 0%nat →
    (brun (fix_step dv) r (pairs n ++ [BPush a] ++ bad s)).1 ≠ srun bounded_step ([], Z.of_nat c) (pairs n ++ [BPush a] ++ bad s).
  Proof.
    intros HR Hn Hs Hs0 Heq. pose proof (Z.mod_pos_bound (2 ^ 64) (Z.of_nat c) ltac:(lia)) as Hsc.
    rewrite brun_app, srun_app, pairs_send in Heq. cbn [fst] in Heq. apply app_inj_1 in Heq as [_ Heq]; [|by rewrite brun_length, srun_length].
    pose proof (pairs_run n r 0 HR ltac:(lia)) as HR1. set (r1 := (brun (fix_step dv) r (pairs n)).2) in *. clearbody r1. rewrite Nat.add_0_l in HR1.
    destruct (push_tail_ok ix_mod (λ _, True) Ix r1 [] c n a I HR1) as (r2 & E2 & HR2 & _); [left; simpl; lia|simpl; lia|].
    assert (fix_step dv r1 (BPush a) = (BUnit, r2)) as E2'.
    { unfold fix_step, rstep. unfold rpush. cbv [mbind gst_bind gget gread]. rewrite (rR_full _ _ _ _ HR1).
      rewrite bool_decide_eq_false_2 by (simpl; lia). unfold gret. by rewrite E2. }
    assert (W r2 0) as HW.
    { destruct HR2 as [? ? Ho Hi (? & ? & ?)]. split; [done| | |done].
      - rewrite Ho, Hn. apply u64_id. unfold is_u64. lia.
      - rewrite Hi. cbn [length]. replace (Z.of_nat _) with (2 ^ 64) by (simpl; lia). apply Z_mod_same_full. }
    rewrite brun_app, srun_app in Heq. cbn [fst] in Heq. apply app_inj_1 in Heq as [_ Heq]; [|by rewrite brun_length, srun_length].
    cbn [brun] in Heq. rewrite E2' in Heq. cbn [snd] in Heq.
    unfold bad in Heq. rewrite brun_app, srun_app in Heq. cbn [fst] in Heq. apply app_inj_1 in Heq as [_ Heq]; [|by rewrite brun_length, srun_length].
    pose proof (W_pushes (s - 1) r2 0 HW ltac:(lia) ltac:(lia)) as HW3.
    set (r3 := (brun (fix_step dv) r2 (replicate (s - 1) (BPush a))).2) in *. clearbody r3.
    destruct (W_push r3 (0 + Z.of_nat (s - 1)) b HW3) as (r4 & E4 & HW4 & Hd4); [lia|lia|].
    cbn [brun] in Heq. rewrite E4 in Heq.
    assert (fix_step dv r4 BPop = (BVal b, Ring (rin r4) 0 (rsize r4) (rmask r4) (rdata r4))) as E5.
    { destruct HW4 as [Hs4 Ho4 Hi4 Hl4]. unfold fix_step, rstep, rpop. cbv [mbind gst_bind gget gread gwrite gret glift set_out].
      assert (rempty r4 = false) as -> by (unfold rempty; apply bool_decide_eq_false_2; lia).
      unfold ix_mod, umod. rewrite Hs4, Ho4, decide_False by lia.
      assert ((2 ^ 64 - 1) mod Z.of_nat c = Z.of_nat (s - 1)) as ->.
      { rewrite Zminus_mod, <-Hs. destruct (decide (c = 1%nat)) as [->|]; [exfalso; change (Z.of_nat 1) with 1 in Hs; rewrite Z.mod_1_r in Hs; lia|].
        rewrite (Z.mod_small 1) by lia. rewrite Z.mod_small by lia. lia. }
      assert (rdata r4 !! (s - 1)%nat = Some b) as Hb.
      { rewrite Hd4. replace (Z.to_nat (0 + Z.of_nat (s - 1))) with (s - 1)%nat by lia. apply list_lookup_insert. destruct HW3. lia. }
      rewrite Nat2Z.id. unfold idx. cbn [rdata]. rewrite Hb. simpl. f_equal. }
    rewrite E5 in Heq. cbn [fst srun] in Heq.
    assert (send ([], Z.of_nat c) [BPush a] = ([a], Z.of_nat c)) as E6.
    { apply (send_pushes 1 []). simpl. lia. }
    rewrite E6, send_pushes in Heq by (simpl; lia). unfold bounded_step in Heq. cbn [fst snd] in Heq.
    rewrite decide_True in Heq by (simpl; rewrite replicate_length; lia). simpl in Heq. by injection Heq.
  Qed.
End Wrap.
Theorem fix_ring_wraparound_refuted : ∀ (size : Z) (r : ring bool),
  is_u64 size → fix_new false size = Ret r → ¬ (size | 2 ^ 64) →
  ∃ ops, Forall (λ o, args_ok o ∧ ¬ is_grow o) ops ∧ (brun (fix_step false) r ops).1 ≠ srun bounded_step ([], size) ops.
Proof.
  intros size r [H0 _] Hn Hd. apply fix_new_inv in Hn as [Hs ->]; [|done].
  exists (pairs false (Z.to_nat (2 ^ 64 - 1)) ++ [BPush false] ++ bad false true (Z.to_nat (2 ^ 64 mod size))).
  split.
  - generalize (Z.to_nat (2 ^ 64 - 1)). intros n. repeat (apply Forall_app; split).
    + unfold pairs. induction n as [|n IH]; [by constructor|]. cbn [replicate concat]. apply Forall_app. split; [|exact IH]. by repeat constructor; intros [].
    + by repeat constructor; intros [].
    + apply Forall_replicate. by split; [|intros []].
    + by repeat constructor; intros [].
  - pose proof (wrap_bad false false true (Z.to_nat size) ltac:(done) ltac:(lia) (Ring 0 0 size 0 (make false size))
      (Z.to_nat (2 ^ 64 mod size)) (Z.to_nat (2 ^ 64 - 1))) as HB.
    rewrite (Z2Nat.id size) in HB by lia. pose proof (Z.mod_pos_bound (2 ^ 64) size ltac:(lia)).
    apply HB; [apply new_rR; lia|rewrite Z2Nat.id; lia|rewrite Z2Nat.id; lia|].
    intros E. apply Hd, Z.mod_divide; lia.
Qed.
Print Assumptions fix_ring_wraparound_refuted.
(** e.g. size 3: 2^64 mod 3 = 1, and sizes like 3 are accepted *)
Example fix_wrap_case : ¬ (3 | 2 ^ 64) ∧ is_u64 3 ∧ ∃ r, fix_new false 3 = Ret r.
Proof. split; [intros [k ?]; lia|]. split; [done|]. by eexists. Qed.

(** C16 *)
Theorem round_ring_is_bounded_fifo : ∀ (T : Type) (dv : T) (size : Z) (r : ring T) (ops : list (bop T)),
  is_u64 size → round_new dv size = Ret r → Forall (λ o, args_ok o ∧ ¬ is_grow o) ops →
  (brun (round_step dv) r ops).1 = srun bounded_step ([], rcap r) ops.
Proof.
  intros T dv size r ops Hu Hn Ha. destruct (decide (size ≤ 2 ^ 63)).
  - by eapply round_run.
  - apply round_new_inv in Hn as [[_ ->]|(p & (_ & ? & _) & (k & Hk & ->) & _)]; [| |done].
    + by apply round_zero_run.
    + assert (2 ^ k ≤ 2 ^ 62) by (apply Z.pow_le_mono_r; lia). lia.
Qed.
Print Assumptions round_ring_is_bounded_fifo.
Example round_case : let ops := [BPush 1; BMPush [2; 3; 4; 5]; BPop; BMPop 1; BMPush [6; 7]; BFull; BMPopCopy [0; 0]; BPush 8; BPeek; BMPop 9; BPop; BCap] in
  ∃ r, round_new 0 3 = Ret r ∧
   (brun (round_step 0) r ops).1 = [BUnit; BUnit; BVal 1; BSlice [2]; BUnit; BBool true; BSlice [3; 4]; BUnit; BVal 6; BSlice [6; 7; 8]; BPanic; BInt 4].
Proof. eexists. split; [vm_compute; reflexivity|]. by vm_compute. Qed.

(** C17 *)
Theorem round_new_capacity_refuted : ∃ size, is_u64 size ∧ ∀ (T : Type) (dv : T), ∃ r,
  round_new dv size = Ret r ∧ rcap r = 0 ∧ ¬ least_pow_above size (rcap r) ∧ (round_step dv r (BPush dv)).1 = BPanic.
Proof.
  exists (2 ^ 63 + 1). split; [done|]. intros T dv. exists (Ring 0 0 0 (2 ^ 64 - 1) []). split; [done|]. split; [done|]. split; [|done].
  intros (_ & H & _). done.
Qed.
Print Assumptions round_new_capacity_refuted.
Theorem round_new_capacity_partial : ∀ (T : Type) (dv : T) (size : Z), is_u64 size →
  (size = 0 → ∃ p, round_new dv size = Panic p) ∧
  (0 < size ≤ 2 ^ 62 → ∃ r, round_new dv size = Ret r ∧ least_pow_above size (rcap r)) ∧
  (2 ^ 62 < size ≤ 2 ^ 63 → ∃ p, round_new dv size = Panic p) ∧
  (2 ^ 63 < size → ∃ r, round_new dv size = Ret r ∧ rcap r = 0).
Proof.
  intros T dv size Hu. split_and!.
  - intros ->. by eexists.
  - intros Hs. pose proof (round_up_spec 64 size ltac:(lia) Hu ltac:(lia)) as Hr. change (64 - 1) with 63 in Hr.
    rewrite decide_True in Hr by lia. destruct Hr as (p & Er & Hp & _). unfold round_new. rewrite decide_False by lia. rewrite Er. simpl.
    rewrite decide_False. { eexists. by split. }
    destruct Hp as (_ & _ & Hmin). pose proof (Hmin (2 ^ 62) ltac:(exists 62; done) ltac:(lia)). lia.
  - intros Hs. pose proof (round_up_spec 64 size ltac:(lia) Hu ltac:(lia)) as Hr. change (64 - 1) with 63 in Hr.
    rewrite decide_True in Hr by lia. destruct Hr as (p & Er & (_ & Hle & _) & _). unfold round_new. rewrite decide_False by lia. rewrite Er. simpl.
    rewrite decide_True by lia. by eexists.
  - intros Hs. pose proof (round_up_spec 64 size ltac:(lia) Hu ltac:(lia)) as Hr. change (64 - 1) with 63 in Hr.
    rewrite decide_False in Hr by lia. unfold round_new. rewrite decide_False by lia. rewrite Hr. simpl. eexists. by split.
Qed.
Print Assumptions round_new_capacity_partial.
Example round_new_case : is_u64 1000 ∧ (0 < 1000 ≤ 2 ^ 62) ∧ (fmap rcap (round_new tt 1000)) = Ret 1024.
Proof. split; [done|]. split; [done|]. by vm_compute. Qed.

(** C18 *)
Theorem unbounded_ring_zero_size_refuted : ∀ (T : Type) (dv : T), ∃ r,
  unb_new dv 0 = Ret r ∧ (unb_step dv r (BMPopCopy [dv])).1 = BPanic ∧ (growing_step (@nil T, 0) (BMPopCopy [dv])).1 = BSlice [dv].
Proof. intros T dv. eexists. split; [reflexivity|]. done. Qed.
Print Assumptions unbounded_ring_zero_size_refuted.
Theorem unbounded_ring_is_growing_fifo_partial : ∀ (T : Type) (dv : T) (size : Z) (r : ring T) (ops : list (bop T)),
  is_u64 size → unb_new dv size = Ret r → Forall args_ok ops →
  Z.of_nat (offered ops) < 2 ^ 64 → no_copy_at_zero ([], size) ops →
  (brun (unb_step dv) r ops).1 = srun growing_step ([], size) ops.
Proof.
  intros T dv size r ops [H0 _] Hn Ha Ho Hz. unfold unb_new, max_int64 in Hn. case_decide; [done|]. injection Hn as <-.
  pose proof (growing_run dv ops (Ring 0 0 size 0 (make dv size)) [] (Z.to_nat size) 0 (new_rR dv size 0 ltac:(lia))) as HG.
  rewrite Z2Nat.id in HG by lia. apply HG; [simpl; lia|lia|done|done].
Qed.
Print Assumptions unbounded_ring_is_growing_fifo_partial.
Example unbounded_case : let ops := [BPush 1; BPop; BMPush [2; 3; 4]; BPop; BPush 5; BPush 6; BCap; BMPopCopy [0; 0]; BGrow 20; BPush 7; BMPop 9; BCap; BPop] in
  ∃ r, unb_new 0 0 = Ret r ∧ Z.of_nat (offered ops) < 2 ^ 64 ∧ no_copy_at_zero (@nil Z, 0) ops ∧
   (brun (unb_step 0) r ops).1 = [BUnit; BVal 1; BUnit; BVal 2; BUnit; BUnit; BInt 5; BSlice [3; 4]; BUnit; BUnit; BSlice [5; 6; 7]; BInt 20; BPanic].
Proof. eexists. split; [reflexivity|]. split; [done|]. split; [|by vm_compute]. by vm_compute; repeat split. Qed.
