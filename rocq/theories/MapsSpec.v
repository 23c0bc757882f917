(** * A mathematical map with the operations of utils.Map *)
From stdpp Require Import gmap.
From Verif Require Import GoBase LockModel MapsModel.
Local Open Scope Z_scope.
Section Spec.
  Context {K W : Type} `{Countable K}.
  Notation val := (option W).
  (** the answer of an operation on the map [m], and the map afterwards *)
  Definition map_answer (op : mop K W) (m : gmap K val) (r : mres K W) (m' : gmap K val) : Prop :=
    match op with
    | OGet k => r = RVal (default None (m !! k)) ∧ m' = m
    | OSet k v => r = RUnit ∧ m' = <[k := v]> m
    | OTas k v => match m !! k with
                  | Some old => r = RVal old ∧ m' = m
                  | None => r = RVal None ∧ m' = <[k := v]> m
                  end
    | ODel k => r = RUnit ∧ m' = delete k m
    | OLen => r = RLen (Z.of_nat (size m)) ∧ m' = m
    | ORRange | OLRange => m' = m ∧ ∃ l, r = RPairs l ∧ l ≡ₚ map_to_list m
    end.
  Fixpoint map_history (m : gmap K val) (h : list (mop K W * mres K W)) (m' : gmap K val) : Prop :=
    match h with
    | [] => m' = m
    | (op, r) :: h => ∃ m1, map_answer op m r m1 ∧ map_history m1 h m'
    end.
End Spec.
