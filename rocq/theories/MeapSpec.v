(** * Specification of Meap: a finite map with a "take a least entry" call.
    Only the call and result alphabets come from the model. *)
From stdpp Require Import gmap.
From Verif Require Import GoBase MeapModel.

Section Spec.
  Context {K V : Type} `{Countable K}.

  Inductive map_step : gmap K V → mop K V → mout K V → gmap K V → Prop :=
    | ms_push M k v : map_step M (MPush k v) MUnit (<[k:=v]> M)
    | ms_pop M k v : M !! k = Some v → map_step M MPop (MEntry k v) (delete k M)
    | ms_pop_empty : map_step ∅ MPop MPanic ∅
    | ms_peek M k v : M !! k = Some v → map_step M MPeek (MEntry k v) M
    | ms_peek_empty : map_step ∅ MPeek MPanic ∅
    | ms_get M k : map_step M (MGet k) (MOpt (M !! k)) M
    | ms_contains M k : map_step M (MContains k) (MBool (bool_decide (is_Some (M !! k)))) M
    | ms_remove M k : map_step M (MRemove k) MUnit (delete k M)
    | ms_len M : map_step M MLen (MNat (size M)) M
    | ms_empty M : map_step M MEmpty (MBool (bool_decide (M = ∅))) M.

  (** Pop and Peek choose an entry that no present entry is less than. *)
  Definition min_step (lf : K * V → K * V → bool) (M : gmap K V) (o : mop K V) (r : mout K V) : Prop :=
    match o, r with
    | (MPop | MPeek), MEntry k v => ∀ k' v', M !! k' = Some v' → lf (k', v') (k, v) = false
    | _, _ => True
    end.

  Inductive map_run (P : gmap K V → mop K V → mout K V → Prop) :
      gmap K V → list (mop K V) → list (mout K V) → gmap K V → Prop :=
    | mr_nil M : map_run P M [] [] M
    | mr_cons M M1 M2 o os r rs :
        map_step M o r M1 → P M o r → map_run P M1 os rs M2 → map_run P M (o :: os) (r :: rs) M2.
End Spec.
