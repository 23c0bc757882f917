(** * Theorems about utils.Map (C51, C35) and the option switches (C52) *)
From stdpp Require Import gmap strings.
From Verif Require Import GoBase LockModel LockSpec LockProofs LockProps MapsModel MapsSpec.
Local Open Scope Z_scope.

Section Map.
  Context {K W : Type} `{Countable K}.
  Notation val := (option W).
  Notation obj := (option (gmap K val)).
  Notation order := (list (K * val) → list (K * val)).
  Definition ord_ok (f : order) : Prop := ∀ l, f l ≡ₚ l.

  Lemma map_readonly (o : mop K W) : map_mode o = MR → readonly (map_body o).
  Proof.
    destruct o; try done; intros _; simpl; repeat (constructor; intros; simpl); destruct s; simpl; repeat (constructor; intros; simpl).
    generalize (i (map_to_list (default ∅ s))), (@nil (K * val)). intros l. induction l as [|[k v] l IH]; intros acc; simpl; constructor; intros; simpl; done.
  Qed.
  (** what a call does to the object when it runs alone *)
  Lemma range_alone (m : gmap K val) l : ∀ acc ins, (∀ k v, (k, v) ∈ l → m !! k = Some v) →
    alone (range_loop l acc) ins (Some m) = (Some m, Fin (RPairs (acc ++ l))).
  Proof.
    induction l as [|[k v] l IH]; intros acc ins Hl; simpl; [by rewrite app_nil_r|].
    rewrite (Hl k v) by by left. simpl. rewrite IH by (intros; apply Hl; by right). by rewrite <-app_assoc.
  Qed.
  Lemma map_alone (op : mop K W) (o o' : obj) ins r : Forall ord_ok ins →
    alone (map_body op) ins o = (o', Fin r) → map_answer op (default ∅ o) r (default ∅ o').
  Proof.
    intros Hins E. destruct op as [k|k v|k v|k| | |].
    - simpl in E. destruct o as [m|]; injection E as <- <-; simpl; [done|]. by rewrite lookup_empty.
    - simpl in E. destruct o as [m|]; injection E as <- <-; done.
    - simpl in E. destruct o as [m|]; simpl in *.
      + destruct (m !! k) eqn:Ek; simpl in E; injection E as <- <-; done.
      + rewrite lookup_empty in *. simpl in E. injection E as <- <-. done.
    - simpl in E. destruct o as [m|]; injection E as <- <-; simpl; [done|]. split; [done|]. done.
    - simpl in E. destruct o as [m|]; injection E as <- <-; done.
    - simpl in E. destruct o as [m|]; simpl in *.
      + destruct ins as [|f ins]; [done|]. apply Forall_cons in Hins as [Hf _]. simpl in E. rewrite range_alone in E.
        * injection E as <- <-. split; [done|]. eexists. split; [done|]. apply Hf.
        * intros k v Hin. rewrite (Hf _) in Hin. by apply elem_of_map_to_list.
      + injection E as <- <-. split; [done|]. exists []. by rewrite map_to_list_empty.
    - simpl in E. destruct o as [m|]; simpl in *.
      + destruct ins as [|f ins]; [done|]. apply Forall_cons in Hins as [Hf _]. simpl in E. rewrite range_alone in E.
        * injection E as <- <-. split; [done|]. eexists. split; [done|]. apply Hf.
        * intros k v Hin. rewrite (Hf _) in Hin. by apply elem_of_map_to_list.
      + injection E as <- <-. split; [done|]. exists []. by rewrite map_to_list_empty.
  Qed.
  Lemma map_history_of (lg : list (entry order (mop K W) (mres K W))) : ∀ (o o' : obj), Forall (λ e, Forall ord_ok (e_ins e)) lg →
    one_at_a_time map_body o lg o' → map_history (default ∅ o) ((λ e, (e_op e, e_res e)) <$> lg) (default ∅ o').
  Proof.
    induction lg as [|e lg IH]; intros o o' HF Hone; [by rewrite Hone|]. apply Forall_cons in HF as [He HF]. destruct Hone as (s1 & E & Hone).
    simpl. exists (default ∅ s1). split; [by eapply map_alone|by apply IH].
  Qed.
End Map.
(** the iteration orders the runtime chose, of the finished calls *)
Definition orders_ok {K W} `{Countable K} (lg : list (entry (list (K * option W) → list (K * option W)) (mop K W) (mres K W))) : Prop :=
  Forall (λ e, Forall ord_ok (e_ins e)) lg.

(** C51 and C35: in any concurrent use of a zero Map, the calls that have finished, in lock order,
    answer like a mathematical map starting empty; the order respects real time, and each caller
    got the answer recorded. *)
Theorem map_concurrent : ∀ (K W : Type) `{Countable K} c,
  reachable (map_mode (K := K) (W := W)) map_body None c → orders_ok (log c) →
  (∃ m, map_history ∅ ((λ e, (e_op e, e_res e)) <$> log c) m ∧ (writer c = None → default ∅ (sh c) = m)) ∧
  accounted (log c) (rets c) ∧ real_time (log c) (rets c).
Proof.
  intros K W EK CK c Hr HF. destruct (lock_linearizable _ _ _ _ map_mode map_body None c map_readonly Hr) as ((sb & H1 & H2) & H3 & H4).
  split; [|done]. exists (default ∅ sb). split; [exact (map_history_of (log c) None sb HF H1)|]. intros Hw. by rewrite (H2 Hw).
Qed.
Print Assumptions map_concurrent.
(** the calls without lock, also on a zero Map: nothing panics, UnsafeSet and UnsafeDel change one key, UnsafeGet and UnsafeLen tell what is there *)
Theorem map_unsafe : ∀ (K W : Type) `{Countable K} (o : option (gmap K (option W))) k v, let m : gmap K (option W) := default ∅ o in
  (∃ o', unsafe_set o k v = Ret o' ∧ o' = Some (<[k := v]> m)) ∧ unsafe_del o k = Some (delete k m) ∧ unsafe_len o = Z.of_nat (size m) ∧
  (∀ x, unsafe_get o k = Some x ↔ m !! k = Some (Some x)).
Proof.
  intros K W EK CK o k v m. destruct o as [m0|]; cbn in m; subst m; (split; [by eexists|split; [done|split]]).
  - done.
  - intros x. cbn. destruct (m0 !! k) as [[y|]|]; cbn; naive_solver.
  - by cbn; rewrite map_size_empty.
  - intros x. rewrite lookup_empty. done.
Qed.
Print Assumptions map_unsafe.
Example map_unsafe_case : unsafe_set (K := nat) (W := nat) None 3%nat (Some 7%nat) = Ret (Some {[3%nat := Some 7%nat]}) ∧ unsafe_get (K := nat) (W := nat) (Some {[3%nat := Some 7%nat]}) 3%nat = Some 7%nat ∧ unsafe_len (unsafe_del (K := nat) (W := nat) (Some {[3%nat := Some 7%nat; 4%nat := None]}) 3%nat) = 1.
Proof. split_and!; by vm_compute. Qed.
(** TestAndSet never overwrites: the value afterwards is the old one if there was one *)
Theorem test_and_set_keeps : ∀ (K W : Type) `{Countable K} (m m' : gmap K (option W)) k v old r,
  map_answer (OTas k v) m r m' → m !! k = Some old → r = RVal old ∧ m' !! k = Some old.
Proof. intros K W EK CK m m' k v old r HA E. simpl in HA. rewrite E in HA. destruct HA as [-> ->]. done. Qed.
Print Assumptions test_and_set_keeps.
Theorem test_and_set_stores : ∀ (K W : Type) `{Countable K} (m m' : gmap K (option W)) k v r,
  map_answer (OTas k v) m r m' → m !! k = None → r = RVal None ∧ m' !! k = Some v.
Proof. intros K W EK CK m m' k v r HA E. simpl in HA. rewrite E in HA. destruct HA as [-> ->]. by rewrite lookup_insert. Qed.
Print Assumptions test_and_set_stores.
(** Of a history without Del of k, starting with k absent, exactly the first TestAndSet (or Set)
    takes effect: if all calls on k are TestAndSet, the final value is the first one's. *)
Theorem test_and_set_once : ∀ (K W : Type) `{Countable K} (k : K) (vs : list (option W)) v0 (h : list (mop K W * mres K W)) (m m' : gmap K (option W)),
  map_history m h m' → m !! k = None → h.*1 = OTas k <$> (v0 :: vs) →
  m' !! k = Some v0 ∧ h.*2 = RVal None :: ((λ _, RVal v0) <$> vs).
Proof.
  intros K W EK CK k vs v0 h m m' Hh Hm Eh. destruct h as [|[op r] h]; [done|]. simpl in Eh. injection Eh as -> Eh. destruct Hh as (m1 & HA & Hh).
  destruct (test_and_set_stores _ _ _ _ _ _ _ HA Hm) as [-> Hm1]. simpl.
  clear HA Hm m. revert h m1 Hm1 Eh Hh. induction vs as [|v vs IH]; intros h m1 Hm1 Eh Hh.
  - destruct h; [|done]. by rewrite Hh.
  - destruct h as [|[op r] h]; [done|]. simpl in Eh. injection Eh as -> Eh. destruct Hh as (m2 & HA & Hh).
    destruct (test_and_set_keeps _ _ _ _ _ _ _ _ HA Hm1) as [-> Hm2]. destruct (IH h m2 Hm2 Eh Hh) as [H1 H2]. split; [done|]. injection H2 as H2. simpl. by rewrite H2.
Qed.
Print Assumptions test_and_set_once.
(** REFUTED part of C51: the answer does not tell a caller whether its value was stored,
    when the value already there is nil. *)
Theorem test_and_set_ambiguous_refuted : ∃ (m1 m2 m1' m2' : gmap nat (option nat)) k v,
  map_answer (OTas k v) m1 (RVal None) m1' ∧ m1' !! k = Some v ∧
  map_answer (OTas k v) m2 (RVal None) m2' ∧ m2' !! k ≠ Some v.
Proof.
  exists ∅, {[ 1%nat := None ]}. do 2 eexists. exists 1%nat, (Some 7%nat). split_and!.
  - simpl. by rewrite lookup_empty.
  - by rewrite lookup_insert.
  - simpl. by rewrite lookup_singleton.
  - by rewrite lookup_singleton.
Qed.
Print Assumptions test_and_set_ambiguous_refuted.
(** an execution on a zero Map: a Len runs between two TestAndSets *)
Example map_case : map_history (K := nat) (W := nat) ∅
  [(OLen, RLen 0); (OTas 1 (Some 5), RVal None); (OTas 1 (Some 6), RVal (Some 5)); (OGet 1, RVal (Some 5)); (OGet 2, RVal None);
   (OSet 2 None, RUnit); (OLen, RLen 2); (ODel 1, RUnit); (OGet 1, RVal None); (OLRange, RPairs [(2, None)])]%nat {[2%nat := None]}.
Proof.
  set (m1 := {[1%nat := Some 5%nat]} : gmap nat (option nat)). set (m2 := <[2%nat := None]> m1). set (m3 := {[2%nat := None]} : gmap nat (option nat)).
  exists ∅. split; [done|]. exists m1. split; [done|]. exists m1. split; [done|]. exists m1. split; [done|]. exists m1. split; [done|].
  exists m2. split; [done|]. exists m2. split; [done|].
  exists m3. split; [split; [done|]; apply (bool_decide_unpack _); by vm_compute|]. exists m3. split; [done|].
  exists m3. split; [|done]. split; [done|]. eexists. split; [done|]. done.
Qed.

(** C52 *)
Theorem switch_default_on : ∀ o k, get_switch o k = true ↔ (∀ m, o = Some m → m !! k = None ∨ m !! k = Some true).
Proof.
  intros o k. destruct o as [m|]; simpl.
  - destruct (m !! k) as [b|] eqn:E.
    + split; [intros -> m' [= <-]; by right|]. intros Ho. destruct (Ho m eq_refl); congruence.
    + split; [|done]. intros _ m' [= <-]. by left.
  - done.
Qed.
Print Assumptions switch_default_on.
Theorem switch_set_get_partial : ∀ m k v k', let o := set_switch (Some m) k v in
  get_switch o k = v ∧ (k' ≠ k → get_switch o k' = get_switch (Some m) k').
Proof. intros m k v k'. simpl. rewrite lookup_insert. split; [done|]. intros Hne. by rewrite lookup_insert_ne. Qed.
Print Assumptions switch_set_get_partial.
Theorem switch_set_nil_refuted : ∃ k v, get_switch (set_switch None k v) k ≠ v.
Proof. exists "x"%string, false. done. Qed.
Print Assumptions switch_set_nil_refuted.
Example switch_case : get_switch (set_switch (Some {["a" := false]}) "b" false)%string "b" = false ∧ get_switch (Some {["a" := false]})%string "c" = true.
Proof. by vm_compute. Qed.
