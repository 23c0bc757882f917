(** * What Round should return *)
From Coq Require Import ZArith Reals.
From Flocq Require Import Core IEEE754.BinarySingleNaN.
From Verif Require Import RoundModel.
Open Scope R_scope.

(** the real number nearest among doubles (ties to even) *)
Definition nearest_double (x : R) : R := round radix2 (FLT_exp (-1074) 53) ZnearestE x.
(** [k / 10^n] is a multiple of [10^-n] nearest to [x] *)
Definition nearest_multiple (x : R) (n : Z) (k : Z) : Prop := Rabs (IZR k - x * powerRZ 10 n) <= / 2.
(** rounding is right: the double for a nearest multiple *)
Definition rounds_right (f : f64) (n : Z) : Prop :=
  is_finite (round_to f n) = true /\ exists k, nearest_multiple (B2R f) n k /\ B2R (round_to f n) = nearest_double (IZR k / powerRZ 10 n).
