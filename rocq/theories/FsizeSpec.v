(** * What FileSize should write *)
From Coq Require Import ZArith Reals List.
From Flocq Require Import Core IEEE754.BinarySingleNaN.
From Verif Require Import GoStr ConvSpec RoundModel.
Import ListNotations.
Open Scope R_scope.

(** a logarithm with an error below one unit in the last place, from 2 to 2^64 *)
Definition accurate_log_up (lg : f64 -> f64) : Prop := forall x, is_finite x = true -> 2 <= B2R x <= 18446744073709551616 ->
  is_finite (lg x) = true /\ Rabs (B2R (lg x) - ln (B2R x)) <= bpow radix2 (-52) * Rabs (ln (B2R x)).
(** [t] is a decimal number without superfluous zeros in front: m / 10^d, with [d] digits after the point *)
Definition number (t : gostr) (d : nat) (m : Z) : Prop := exists whole frac,
  Forall digit whole /\ whole <> [] /\ ((1 < length whole)%nat -> head whole <> Some 48%Z) /\
  Forall digit frac /\ length frac = d /\ value (whole ++ frac) = m /\
  t = whole ++ match d with O => [] | _ => str "." ++ frac end.
(** the units, from 1 to 1024^6 *)
Definition unit_name (z : Z) : gostr :=
  if Z.eqb z 0 then str "B" else if Z.eqb z 1 then str "KB" else if Z.eqb z 2 then str "MB" else if Z.eqb z 3 then str "GB"
  else if Z.eqb z 4 then str "TB" else if Z.eqb z 5 then str "PB" else str "EB".
(** the unit belonging to [s] bytes: the largest that is not above *)
Definition right_unit (s z : Z) : Prop := (0 <= z /\ 1024 ^ z <= s < 1024 ^ (z + 1))%Z.
