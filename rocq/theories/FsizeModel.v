(** * utils.FileSize
    /repo/help/utils/files.go:285-308 on IEEE doubles (Flocq, as in RoundModel.v).  The logarithm is a
    parameter, because it differs between architectures; so is what int(x) gives for an x outside of
    the type.  fmt.Sprintf is modelled for the verbs used: %d of a uint64, %.0f, %.1f and %s. *)
From Coq Require Import ZArith Bool List.
From Flocq Require Import Core IEEE754.BinarySingleNaN.
From Verif Require Import GoBase GoStr ConvModel RoundModel Log2Model BnewModel.
Import ListNotations.
Open Scope Z_scope.

(** math.Floor *)
Definition ffloor : f64 -> f64 := Bnearbyint mode_DN.
(** math/pow.go, pow for x > 0 finite and other than 1 and an integer y with 0 <= y < 2^63: the loop over
    the bits of y, with the cases y = 0 and y = 1 before it *)
Fixpoint pow_loop (fuel : nat) (i : Z) (x1 : f64) (xe : Z) (a1 : f64) (ae : Z) : f64 * Z :=
  match fuel with
  | O => (a1, ae)
  | S k => if i =? 0 then (a1, ae) else
    let '(a1, ae) := if Z.odd i then (fmul a1 x1, ae + xe) else (a1, ae) in
    let x1 := fmul x1 x1 in
    let xe := 2 * xe in
    let '(x1, xe) := if Bltb x1 half then (fadd x1 x1, xe - 1) else (x1, xe) in
    pow_loop k (i / 2) x1 xe a1 ae
  end.
Definition fpow (x y : f64) : f64 :=
  let i := Btrunc y in
  if i =? 0 then of_Z 1 else if i =? 1 then x else
  let '(x1, xe) := Bfrexp x in
  let '(a1, ae) := pow_loop 63 i x1 xe (of_Z 1) 0 in Bldexp mode_NE a1 ae.

(** strconv.FormatFloat(x, 'f', d, 64): the exact decimal expansion (bigFtoa), cut after [d] digits by
    decimal.Round, which goes to the even neighbour from half way *)
Definition half_even (n d : Z) : Z :=
  let q := n / d in let r := n mod d in
  if (2 * r <? d) || ((2 * r =? d) && Z.even q) then q else q + 1.
Definition scaled (d : nat) (m : positive) (e : Z) : Z :=
  let n := Zpos m * 10 ^ Z.of_nat d in
  if 0 <=? e then n * 2 ^ e else half_even n (2 ^ (- e)).
(** [d] digits, with zeros in front *)
Fixpoint padded (d : nat) (n : Z) : gostr :=
  match d with O => [] | S k => padded k (n / 10) ++ [48 + n mod 10] end.
Definition fixed_text (d : nat) (n : Z) : gostr :=
  fmt_digits 400 (n / 10 ^ Z.of_nat d) ++ match d with O => [] | _ => str "." ++ padded d (n mod 10 ^ Z.of_nat d) end.
(** fmt's %.df; it writes a plus in front of an infinity *)
Definition fmt_f (d : nat) (x : f64) : gostr :=
  match x with
  | B754_nan => str "NaN"
  | B754_infinity s => if s then str "-Inf" else str "+Inf"
  | B754_zero s => (if s then str "-" else []) ++ fixed_text d 0
  | B754_finite s m e _ => (if s then str "-" else []) ++ fixed_text d (scaled d m e)
  end.

(** files.go:287 *)
Definition sizes : list gostr := [str "B"; str "KB"; str "MB"; str "GB"; str "TB"; str "PB"; str "EB"].
Section fsize.
  Context (lg : f64 -> f64) (wild_i : f64 -> Z).
  (** files.go:291-293 *)
  Definition logn (n b : f64) : f64 := fdiv (lg n) (lg b).
  (** files.go:295-308 *)
  Definition humanate_bytes (s : Z) (base : f64) (sizes : list gostr) : go gostr :=
    if s <? 10 then Ret (fmt_digits 20 s ++ str " B") else
    let e := ffloor (logn (of_Z s) base) in
    let i := to_int wild_i e in
    if i <? 0 then Panic PIndex else
    match nth_error sizes (Z.to_nat i) with
    | None => Panic PIndex
    | Some suffix =>
      let val := fdiv (of_Z s) (fpow base (ffloor e)) in
      let d := if Bltb val (of_Z 10) then 1%nat else 0%nat in
      Ret (fmt_f d val ++ str " " ++ suffix)
    end.
  (** files.go:286-289; [s] is an int64 *)
  Definition file_size (s : Z) : go gostr := humanate_bytes (u64 s) (of_Z 1024) sizes.
End fsize.
