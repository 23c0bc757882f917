(** * What it means that concurrent calls behave as if executed one at a time *)
From stdpp Require Import gmap.
From Verif Require Import GoBase LockModel.

Section Spec.
  Context {S I O R : Type} (code : O → body S I R).
  (** the calls of [lg], run one after the other from [s], give the recorded results and end in [s'] *)
  Fixpoint one_at_a_time (s : S) (lg : list (entry I O R)) (s' : S) : Prop :=
    match lg with
    | [] => s' = s
    | e :: lg => ∃ s1, alone (code (e_op e)) (e_ins e) s = (s1, Fin (e_res e)) ∧ one_at_a_time s1 lg s'
    end.
  (** no call that returned before another was invoked comes after it *)
  Definition real_time (lg : list (entry I O R)) (rt : list (ret O R)) : Prop :=
    ∀ i j ei ej x, lg !! i = Some ei → lg !! j = Some ej → (i < j)%nat → x ∈ rt → r_tid x = e_tid ej → r_inv x = e_inv ej →
      (e_inv ei < r_at x)%nat.
  (** every call that has returned is in the sequence, with the result it returned *)
  Definition accounted (lg : list (entry I O R)) (rt : list (ret O R)) : Prop :=
    ∀ x, x ∈ rt → ∃ e, e ∈ lg ∧ e_tid e = r_tid x ∧ e_op e = r_op x ∧ e_res e = r_res x ∧ e_inv e = r_inv x ∧ (e_rel e < r_at x)%nat.
End Spec.
