(** * math.Log2 of common/math
    /repo/common/math/math.go:45-49 for integer types, on IEEE doubles (Flocq, as in RoundModel.v).
    math.Log2 is the portable Go code; the logarithm it calls is a parameter, because it differs between
    architectures.  [go_log] is the portable one.  No fused multiply-add (amd64 has none by default).
    The conversion of an integer to float64 rounds to nearest, the one back truncates; it is only
    looked at for values in the range of the type. *)
From Coq Require Import ZArith Bool.
From Flocq Require Import Core IEEE754.BinarySingleNaN.
From Verif Require Import RoundModel.
Open Scope Z_scope.

Definition fsub : f64 -> f64 -> f64 := Bminus mode_NE.
(** the constant 1/Ln2 with math.Ln2's digits *)
Definition inv_ln2 : f64 := of_quot (10 ^ 63) 693147180559945309417232121458176568075500134360255254120680009.
(** math/log10.go, log2 *)
Definition log2_float (lg : f64 -> f64) (x : f64) : f64 :=
  let '(frac, e) := Bfrexp x in
  if Beqb frac half then of_Z (e - 1) else fadd (fmul (lg frac) inv_ln2) (of_Z e).
(** math.go:47-49 *)
Definition log2_int (lg : f64 -> f64) (a : Z) : Z := Btrunc (log2_float lg (of_Z a)).

(** math/log.go, log for positive finite arguments; the constants by their decimals *)
Definition dec (n : positive) (k : Z) : f64 := of_quot n (Z.to_pos (10 ^ k)).
Definition go_log (x : f64) : f64 :=
  let ln2hi := dec 693147180369123816490 21 in let ln2lo := dec 190821492927058770002 30 in
  let l1 := dec 6666666666666735130 19 in let l2 := dec 3999999999940941908 19 in let l3 := dec 2857142874366239149 19 in
  let l4 := dec 2222219843214978396 19 in let l5 := dec 1818357216161805012 19 in let l6 := dec 1531383769920937332 19 in
  let l7 := dec 1479819860511658591 19 in
  let sqrt2_2 := dec 707106781186547524400844362104849039 36 in
  let '(f0, k0) := Bfrexp x in
  let '(f1, ki) := if Bltb f0 sqrt2_2 then (fmul f0 (of_Z 2), k0 - 1) else (f0, k0) in
  let f := fsub f1 (of_Z 1) in
  let k := of_Z ki in
  let s := fdiv f (fadd (of_Z 2) f) in
  let s2 := fmul s s in
  let s4 := fmul s2 s2 in
  let t1 := fmul s2 (fadd l1 (fmul s4 (fadd l3 (fmul s4 (fadd l5 (fmul s4 l7)))))) in
  let t2 := fmul s4 (fadd l2 (fmul s4 (fadd l4 (fmul s4 l6)))) in
  let r := fadd t1 t2 in
  let hfsq := fmul (fmul half f) f in
  fsub (fmul k ln2hi) (fsub (fsub hfsq (fadd (fmul s (fadd hfsq r)) (fmul k ln2lo))) f).
