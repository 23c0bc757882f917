(** * help/utils/zip.go: the codes that the compressor behind ZipFiles makes
    /repo/help/utils/zip.go:66-116 compresses through archive/zip with compress/flate.  This is huffman_code.go of
    compress/flate, Go 1.18, from memory: generate, bitCounts and assignEncodingAndSize.  The arrays of levelInfo and
    leafCounts are functions of the level; sums of frequencies and codes do not wrap (they stay below 2^29 and 2^16
    for the blocks of the compressor); sort.Sort is a sort of stdpp by a total order; a negative count of codes is a
    panic; a code is given by its bits as they are written. *)
From Verif Require Import GoBase GoStr HufModel.
From stdpp Require Import sorting.
Local Open Scope Z_scope.

Definition max_int32 : Z := 2147483647.
(** levels: lastFreq, nextCharFreq, nextPairFreq, needed; leafCounts; level *)
Record bst := Bst { la : nat → Z; nc : nat → Z; np : nat → Z; ne : nat → nat; lc : nat → nat → nat; cur : nat }.
Definition setn {A} (f : nat → A) (i : nat) (v : A) : nat → A := λ j, if (j =? i)%nat then v else f j.
(** for levels[level-1].needed > 0 { level-- } *)
Fixpoint descend (l : nat) (ne : nat → nat) : nat := match l with O => O | S k => if (0 <? ne k)%nat then descend k ne else l end.
(** what follows an item of row [l]: [prev] is prevFreq; [None] is break *)
Definition after (m : nat) (s : bst) (prev : Z) : bst * bool :=
  let l := cur s in
  let ne' := setn (ne s) l (ne s l - 1)%nat in
  if (ne' l =? 0)%nat then
    if (l =? m)%nat then (Bst (la s) (nc s) (np s) ne' (lc s) l, false)
    else (Bst (la s) (nc s) (setn (np s) (S l) (prev + la s l)) ne' (lc s) (S l), true)
  else (Bst (la s) (nc s) (np s) ne' (lc s) (descend l ne'), true).
(** the body of the loop of bitCounts; [f] are the frequencies with maxNode at the end *)
Definition bc_step (f : list Z) (m : nat) (s : bst) : go (bst * bool) :=
  let l := cur s in
  if (np s l =? max_int32) && (nc s l =? max_int32) then
    if (16 <=? S l)%nat then Panic PIndex else Ret (Bst (la s) (nc s) (setn (np s) (S l) max_int32) (setn (ne s) l 0%nat) (lc s) (S l), true)
  else if nc s l <? np s l then
    let n := S (lc s l l) in
    next ← idx f n;
    Ret (after m (Bst (setn (la s) l (nc s l)) (setn (nc s) l next) (np s) (ne s) (setn (lc s) l (setn (lc s l) l n)) l) (la s l))
  else
    Ret (after m (Bst (setn (la s) l (np s l)) (nc s) (np s) (setn (ne s) (l - 1) 2%nat) (setn (lc s) l (λ j, if (j <? l)%nat then lc s (l - 1)%nat j else lc s l j)) l) (la s l)).
Fixpoint bc_loop (fuel : nat) (f : list Z) (m : nat) (s : bst) : go bst :=
  match fuel with O => Diverge | S k => r ← bc_step f m s; let '(s, more) := r in if (more : bool) then bc_loop k f m s else Ret s end.
(** the numbers of codes with 1, 2, ... bits *)
Definition bit_counts (w : list Z) (max_bits : nat) : go (list nat) :=
  let n := length w in
  if (16 <=? max_bits)%nat then Panic (PUser "flate: maxBits too large") else
  let f := w ++ [max_int32] in
  let m := Nat.min max_bits (n - 1) in
  w0 ← idx f 0; w1 ← idx f 1; w2 ← idx f 2;
  s ← bc_loop (S ((m + 1) * (2 * n + 2))) f m (Bst (λ _, w1) (λ _, w2) (λ l, if (l =? 1)%nat then max_int32 else w0 + w1) (λ l, if (l =? m)%nat then (2 * n - 4)%nat else 0%nat) (λ l j, if (l =? j)%nat && (0 <? l)%nat then 2%nat else 0%nat) m);
  if negb (lc s m m =? n)%nat then Panic (PUser "leafCounts[maxBits][maxBits] != n")
  else each (λ l, if (lc s m l <? lc s m (l - 1))%nat then Panic PMake else Ret (lc s m l - lc s m (l - 1))%nat) (reverse (seq 1 m)).

(** byFreq, byLiteral *)
Definition by_freq (a b : Z * nat) : Prop := a.1 < b.1 ∨ a.1 = b.1 ∧ (a.2 ≤ b.2)%nat.
Global Instance by_freq_dec a b : Decision (by_freq a b). Proof. unfold by_freq. apply _. Defined.
(** assignEncodingAndSize: [l] are the literals in the order of their frequency *)
Fixpoint give (n : nat) (code : Z) (l : list nat) (cs : list (list bool)) : list (list bool) :=
  match l with [] => cs | s :: l => give n (code + 1) l (<[s := rev_bits n code]> cs) end.
Fixpoint assign (n : nat) (code : Z) (counts : list nat) (l : list nat) (cs : list (list bool)) : list (list bool) :=
  match counts with
  | [] => cs
  | b :: counts => let keep := (length l - b)%nat in assign (S n) (2 * code + Z.of_nat b) counts (take keep l) (give n (2 * code) (merge_sort le (drop keep l)) cs)
  end.
Definition nodes (f : list Z) : list (Z * nat) := filter (λ p, p.1 ≠ 0) (zip f (seq 0 (length f))).
Definition generate (f : list Z) (max_bits : nat) : go (list (list bool)) :=
  let l := nodes f in
  let none := replicate (length f) [] in
  if (length l <=? 2)%nat then Ret (give 1 0 (l.*2) none)
  else
    let l := merge_sort by_freq l in
    counts ← bit_counts (l.*1) max_bits;
    Ret (assign 1 0 counts (l.*2) none).
