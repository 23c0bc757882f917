(** * What Log2 should return *)
From Coq Require Import ZArith Reals.
From Flocq Require Import Core IEEE754.BinarySingleNaN.
From Verif Require Import RoundModel.
Open Scope R_scope.

(** a logarithm with an error below one unit in the last place, as Go's documentation says of its own *)
Definition accurate_log (lg : f64 -> f64) : Prop := forall x, is_finite x = true -> / 2 < B2R x < 1 ->
  is_finite (lg x) = true /\ Rabs (B2R (lg x) - ln (B2R x)) <= bpow radix2 (-52) * Rabs (ln (B2R x)).
(** the integer part of the logarithm of [a] *)
Definition is_log2 (a l : Z) : Prop := (0 <= l /\ 2 ^ l <= a < 2 ^ (l + 1))%Z.
