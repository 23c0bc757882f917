(** * utils.Round
    /repo/help/utils/math.go on IEEE double precision (Flocq's formalisation; one NaN). *)
From Coq Require Import ZArith Bool.
From Flocq Require Import Core IEEE754.BinarySingleNaN.
Open Scope Z_scope.

Definition prec : Z := 53.
Definition emax : Z := 1024.
Lemma prec_pos : FLX.Prec_gt_0 prec. Proof. reflexivity. Qed.
Lemma prec_emax : Prec_lt_emax prec emax. Proof. reflexivity. Qed.
Global Existing Instance prec_pos.
Global Existing Instance prec_emax.
Definition f64 := binary_float prec emax.
(** a constant written as an integer, and one written as a quotient: correctly rounded *)
Definition of_Z (z : Z) : f64 := binary_normalize prec emax _ _ mode_NE z 0 false.
Definition of_quot (n d : positive) : f64 := SF2B _ (proj1 (Bdiv_correct_aux prec emax _ _ mode_NE false n 0 false d 0)).
Definition fadd : f64 -> f64 -> f64 := Bplus mode_NE.
Definition fmul : f64 -> f64 -> f64 := Bmult mode_NE.
Definition fdiv : f64 -> f64 -> f64 := Bdiv mode_NE.
(** math.Trunc *)
Definition ftrunc : f64 -> f64 := Bnearbyint mode_ZR.
(** math.Pow10: tables of 10^i for i < 32 and of 10^(32 j), 10^(-32 j) *)
Definition pow10tab (i : Z) : f64 := of_Z (10 ^ i).
Definition pow10postab32 (j : Z) : f64 := of_Z (10 ^ (32 * j)).
Definition pow10negtab32 (j : Z) : f64 := of_quot 1 (Z.to_pos (10 ^ (32 * j))).
Definition pow10 (n : Z) : f64 :=
  if (0 <=? n) && (n <=? 308) then fmul (pow10postab32 (n / 32)) (pow10tab (n mod 32))
  else if (-323 <=? n) && (n <=? 0) then fdiv (pow10negtab32 (- n / 32)) (pow10tab (- n mod 32))
  else if 0 <? n then B754_infinity false else B754_zero false.
Definition half : f64 := of_quot 1 2.
(** math.go:6-9 *)
Definition round_to (f : f64) (n : Z) : f64 :=
  let p := pow10 n in fdiv (ftrunc (fmul (fadd f (fdiv half p)) p)) p.
