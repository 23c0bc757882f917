(** * GoBase: the few Go run-time notions shared by all models.

    Nothing here models a file of /repo; it fixes how Go outcomes are
    represented.  A Go call either returns ([Ret]), panics ([Panic]) or does
    not terminate / ran out of the fuel given to the model ([Diverge]). *)
From stdpp Require Export base option list strings.
From Coq Require Export ZArith Lia.

Inductive panic :=
  | PIndex        (* index or slice bounds out of range *)
  | PNil          (* nil pointer dereference *)
  | PDivZero      (* integer divide by zero *)
  | PShift        (* negative shift amount *)
  | PMake         (* make with a bad length *)
  | PUser (msg : string).  (* explicit call of panic(msg) *)

Inductive go (A : Type) :=
  | Ret (a : A)
  | Panic (p : panic)
  | Diverge.
Global Arguments Ret {_} _.
Global Arguments Panic {_} _.
Global Arguments Diverge {_}.

Global Instance go_ret : MRet go := @Ret.
Global Instance go_bind : MBind go := λ A B f m,
  match m with Ret a => f a | Panic p => Panic p | Diverge => Diverge end.
Global Instance go_fmap : FMap go := λ A B f m,
  match m with Ret a => Ret (f a) | Panic p => Panic p | Diverge => Diverge end.

(** Go slice/array read and write with bounds check. *)
Definition idx {A} (l : list A) (i : nat) : go A :=
  match l !! i with Some x => Ret x | None => Panic PIndex end.

(** Fixed-width integers: two's complement wrap of a mathematical integer. *)
Definition wrap_u (w : Z) (z : Z) : Z := (z mod 2 ^ w)%Z.
Definition wrap_i (w : Z) (z : Z) : Z := ((z + 2 ^ (w - 1)) mod 2 ^ w - 2 ^ (w - 1))%Z.
Definition u64 : Z → Z := wrap_u 64.
Definition i64 : Z → Z := wrap_i 64.

Definition is_u64 (z : Z) : Prop := (0 ≤ z < 2 ^ 64)%Z.
Definition is_i64 (z : Z) : Prop := (- 2 ^ 63 ≤ z < 2 ^ 63)%Z.

Lemma u64_id z : is_u64 z → u64 z = z.
Proof. unfold is_u64, u64, wrap_u. intros H. apply Z.mod_small. lia. Qed.
Lemma u64_range z : is_u64 (u64 z).
Proof. unfold is_u64, u64, wrap_u. apply Z.mod_pos_bound. lia. Qed.
Lemma i64_id z : is_i64 z → i64 z = z.
Proof.
  unfold is_i64, i64, wrap_i. intros H.
  change (64 - 1)%Z with 63%Z. rewrite Z.mod_small; lia.
Qed.
Lemma i64_range z : is_i64 (i64 z).
Proof.
  unfold is_i64, i64, wrap_i. change (64 - 1)%Z with 63%Z.
  pose proof (Z.mod_pos_bound (z + 2 ^ 63) (2 ^ 64)). lia.
Qed.

Lemma idx_Ret {A} (l : list A) i x : idx l i = Ret x ↔ l !! i = Some x.
Proof. unfold idx. destruct (l !! i); split; intros; simplify_eq; done. Qed.
Lemma idx_lt {A} (l : list A) i : i < length l → ∃ x, idx l i = Ret x ∧ l !! i = Some x.
Proof.
  intros H. destruct (lookup_lt_is_Some_2 l i H) as [x Hx].
  exists x. unfold idx. by rewrite Hx.
Qed.

(** Keep arithmetic folded under [simpl]. *)
Global Arguments Nat.div : simpl never.
Global Arguments Nat.modulo : simpl never.
Global Arguments Z.add : simpl never.
Global Arguments Z.sub : simpl never.
Global Arguments Z.mul : simpl never.
Global Arguments Z.pow : simpl never.
Global Arguments Z.div : simpl never.
Global Arguments Z.modulo : simpl never.
Global Arguments Z.quot : simpl never.
Global Arguments Z.rem : simpl never.
Global Arguments Z.of_nat : simpl never.
Global Arguments Z.to_nat : simpl never.
Global Arguments N.add : simpl never.
Global Arguments N.sub : simpl never.
Global Arguments N.mul : simpl never.
Global Arguments N.pow : simpl never.
Global Arguments N.div : simpl never.
Global Arguments N.modulo : simpl never.
