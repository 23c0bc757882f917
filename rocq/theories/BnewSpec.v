(** * What bloom.New should make *)
From Coq Require Import ZArith Reals.
From Flocq Require Import Core IEEE754.BinarySingleNaN.
From Verif Require Import RoundModel.
Open Scope R_scope.

(** a logarithm with an error below one unit in the last place, on all of the interval from 0 to 1 *)
Definition accurate_log01 (lg : f64 -> f64) : Prop := forall x, is_finite x = true -> 0 < B2R x < 1 ->
  is_finite (lg x) = true /\ Rabs (B2R (lg x) - ln (B2R x)) <= bpow radix2 (-52) * Rabs (ln (B2R x)).
(** the number of bits for [n] elements and rate [P]: n ln(1/P) / (ln 2)^2 *)
Definition ideal_bits (n P : R) : R := n * ln (/ P) / (ln 2 * ln 2).
(** the number of hash functions for [m] bits and [n] elements: m/n ln 2 *)
Definition ideal_hashes (n m : R) : R := ln 2 * m / n.
(** the usual estimate of the rate of false positives: (1 - e^(-kn/m))^k *)
Definition estimate (n m : R) (k : nat) : R := (1 - exp (- (INR k * n / m))) ^ k.
