(** * Specification of List: plain sequences of handles.
    Only the call and result alphabets come from the model. *)
From Verif Require Import GoBase ListModel.

Section Seq.
  (** Sequence operations on handles. *)
  Definition rem (e : nat) (s : list nat) : list nat := filter (λ x, x ≠ e) s.
  Fixpoint ins_after (m e : nat) (s : list nat) : list nat :=
    match s with
    | [] => []
    | x :: t => if decide (x = m) then x :: e :: t else x :: ins_after m e t
    end.
  Fixpoint ins_before (m e : nat) (s : list nat) : list nat :=
    match s with
    | [] => []
    | x :: t => if decide (x = m) then e :: x :: t else x :: ins_before m e t
    end.
  (** the handle right after [e] in [s] *)
  Fixpoint succ_in (e : nat) (s : list nat) : option nat :=
    match s with
    | x :: t => if decide (x = e) then head t else succ_in e t
    | [] => None
    end.
  Definition pred_in (e : nat) (s : list nat) : option nat := succ_in e (reverse s).
End Seq.

(** [sq !! l]: the handles of list l in order; [sini !! l]: was the list made
    by New or Clear (as opposed to a zero value); [svals !! e]: value of handle e;
    [sstale]: (l, e) when e was in l at a Clear of l. *)
Record lspec (T : Type) := LSpec { sq : list (list nat); sini : list bool; svals : list T; sstale : list (nat * nat) }.
Arguments LSpec {_} _ _ _ _.
Arguments sq {_} _. Arguments sini {_} _. Arguments svals {_} _. Arguments sstale {_} _.

Section Spec.
  Context {T : Type}.
  Implicit Types H : lspec T.

  Definition seq_of H (l : nat) : list nat := default [] (sq H !! l).
  Definition set_seq H (l : nat) (s : list nat) : lspec T := LSpec (<[l:=s]> (sq H)) (sini H) (svals H) (sstale H).
  Definition add_vals H (vs : list T) : lspec T := LSpec (sq H) (sini H) (svals H ++ vs) (sstale H).
  Definition fresh H : nat := length (svals H).
  Definition val_out H (e : nat) : lout T := match svals H !! e with Some v => LValue v | None => LPanic end.
  Definition vals_of H (s : list nat) : list T := omap (λ e, svals H !! e) s.
  Definition eout (o : option nat) : lout T := LElem (inr <$> o).
  (** the first Some over all lists *)
  Definition anywhere (f : list nat → option nat) (ss : list (list nat)) : option nat :=
    foldr (λ s acc, match f s with Some y => Some y | None => acc end) None ss.

  Definition lspec_step H (o : lop T) : lout T * lspec T :=
    match o with
    | LNew => (LList (length (sq H)), LSpec (sq H ++ [[]]) (sini H ++ [true]) (svals H) (sstale H))
    | LZero => (LList (length (sq H)), LSpec (sq H ++ [[]]) (sini H ++ [false]) (svals H) (sstale H))
    | LClear l => (LUnit, LSpec (<[l:=[]]> (sq H)) (<[l:=true]> (sini H)) (svals H)
                            ((pair l <$> seq_of H l) ++ sstale H))
    | LPushFront l v => (eout (Some (fresh H)), set_seq (add_vals H [v]) l (fresh H :: seq_of H l))
    | LPushBack l v => (eout (Some (fresh H)), set_seq (add_vals H [v]) l (seq_of H l ++ [fresh H]))
    | LInsBefore l v m =>
        if decide (m ∈ seq_of H l)
        then (eout (Some (fresh H)), set_seq (add_vals H [v]) l (ins_before m (fresh H) (seq_of H l)))
        else (eout None, H)
    | LInsAfter l v m =>
        if decide (m ∈ seq_of H l)
        then (eout (Some (fresh H)), set_seq (add_vals H [v]) l (ins_after m (fresh H) (seq_of H l)))
        else (eout None, H)
    | LRemove l e => (val_out H e, set_seq H l (rem e (seq_of H l)))
    | LRemoveFront l =>
        match head (seq_of H l) with
        | Some e => (val_out H e, set_seq H l (tail (seq_of H l)))
        | None => (LPanic, H)
        end
    | LRemoveBack l =>
        match last (seq_of H l) with
        | Some e => (val_out H e, set_seq H l (rem e (seq_of H l)))
        | None => (LPanic, H)
        end
    | LMoveFront l e =>
        (LUnit, if decide (e ∈ seq_of H l) then set_seq H l (e :: rem e (seq_of H l)) else H)
    | LMoveBack l e =>
        (LUnit, if decide (e ∈ seq_of H l) then set_seq H l (rem e (seq_of H l) ++ [e]) else H)
    | LMoveBefore l e m =>
        (LUnit, if decide (e ∈ seq_of H l ∧ m ∈ seq_of H l ∧ e ≠ m)
                then set_seq H l (ins_before m e (rem e (seq_of H l))) else H)
    | LMoveAfter l e m =>
        (LUnit, if decide (e ∈ seq_of H l ∧ m ∈ seq_of H l ∧ e ≠ m)
                then set_seq H l (ins_after m e (rem e (seq_of H l))) else H)
    | LPushBackList l o =>
        let vs := vals_of H (seq_of H o) in
        (LUnit, set_seq (add_vals H vs) l (seq_of H l ++ seq (fresh H) (length vs)))
    | LPushFrontList l o =>
        (* the copies are allocated from the last to the first *)
        let vs := reverse (vals_of H (seq_of H o)) in
        (LUnit, set_seq (add_vals H vs) l (reverse (seq (fresh H) (length vs)) ++ seq_of H l))
    | LFront l => (eout (head (seq_of H l)), H)
    | LBack l => (eout (last (seq_of H l)), H)
    | LNext e => (eout (anywhere (succ_in e) (sq H)), H)
    | LPrev e => (eout (anywhere (pred_in e) (sq H)), H)
    | LLen l => (LInt (Z.of_nat (length (seq_of H l))), H)
    | LEmpty l => (LBool (bool_decide (seq_of H l = [])), H)
    | LVal e => (val_out H e, H)
    | LSetVal e v => (LUnit, LSpec (sq H) (sini H) (<[e:=v]> (svals H)) (sstale H))
    end.

  Fixpoint lspec_run H (ops : list (lop T)) : list (lout T) * lspec T :=
    match ops with
    | [] => ([], H)
    | o :: os => let '(r, H1) := lspec_step H o in
                 let '(rs, H2) := lspec_run H1 os in (r :: rs, H2)
    end.

  (** The lists and handles a call mentions exist. *)
  Definition exists_ok H (o : lop T) : Prop :=
    match o with
    | LNew | LZero => True
    | LClear l | LPushFront l _ | LPushBack l _ | LRemoveFront l | LRemoveBack l
    | LFront l | LBack l | LLen l | LEmpty l => l < length (sq H)
    | LInsBefore l _ e | LInsAfter l _ e | LRemove l e | LMoveFront l e | LMoveBack l e =>
        l < length (sq H) ∧ e < fresh H
    | LMoveBefore l e m | LMoveAfter l e m => l < length (sq H) ∧ e < fresh H ∧ m < fresh H
    | LPushBackList l o | LPushFrontList l o => l < length (sq H) ∧ o < length (sq H)
    | LNext e | LPrev e | LVal e | LSetVal e _ => e < fresh H
    end.
  (** The two documented-but-broken uses (C11): a handle that was in l when l
      was cleared is used with l (or asked for its neighbours), and an
      insertion into a zero-value list. *)
  Definition not_stale H (o : lop T) : Prop :=
    match o with
    | LInsBefore l _ e | LInsAfter l _ e | LRemove l e | LMoveFront l e | LMoveBack l e => (l, e) ∉ sstale H
    | LMoveBefore l e m | LMoveAfter l e m => (l, e) ∉ sstale H ∧ (l, m) ∉ sstale H
    | LNext e | LPrev e => ∀ l, (l, e) ∉ sstale H
    | _ => True
    end.
  Definition not_zero H (o : lop T) : Prop :=
    match o with
    | LPushFront l _ | LPushBack l _ => sini H !! l = Some true
    | LPushBackList l o | LPushFrontList l o => sini H !! l = Some true ∨ seq_of H o = []
    | _ => True
    end.

  (** [all_calls Q H ops]: every call of the history satisfies Q when it is made. *)
  Fixpoint all_calls (Q : lspec T → lop T → Prop) H (ops : list (lop T)) : Prop :=
    match ops with
    | [] => True
    | o :: os => Q H o ∧ all_calls Q (lspec_step H o).2 os
    end.
  Definition lspec0 : lspec T := LSpec [] [] [] [].
  Definition no_clear_no_zero (o : lop T) : Prop :=
    match o with LClear _ | LZero => False | _ => True end.
End Spec.
