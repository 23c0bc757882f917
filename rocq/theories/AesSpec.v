(** * What the AES helpers should do *)
From Verif Require Import GoBase AesModel.
From Verif Require Export GoStr AesBlockSpec.
Local Open Scope Z_scope.

(** the keys of AES-128, AES-192 and AES-256 *)
Definition valid_key (k : list Z) : Prop := (length k = 16%nat ∨ length k = 24%nat ∨ length k = 32%nat) ∧ Forall byte k.
(** a slice lies in the memory *)
Definition in_mem (m : list Z) (s : slice) : Prop := (s_len s ≤ s_cap s)%nat ∧ (s_off s + s_cap s ≤ length m)%nat.
(** two slices in different arrays: one does not reach into the other, spare capacity included *)
Definition apart (s t : slice) : Prop := (s_off s + s_cap s ≤ s_off t)%nat ∨ (s_off t + s_len t ≤ s_off s)%nat.
(** [c] is the cipher block chaining of the blocks of [p] from [iv] *)
Inductive chained (e : list Z → list Z) : list Z → list Z → list Z → Prop :=
  | ch_nil iv : chained e iv [] []
  | ch_cons iv b p c : length b = 16%nat → chained e (e (zip_with Z.lxor iv b)) p c → chained e iv (b ++ p) (e (zip_with Z.lxor iv b) ++ c).
