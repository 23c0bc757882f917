(** * Specification of Reap: a table of handles, each with its reap, value and liveness.
    Only the call and result alphabets come from the model. *)
From Verif Require Import GoBase ReapModel.

(** [hs_reaps] reaps exist; row e of [hs_tab] is the handle returned by the
    e-th Push: (reap it was pushed to, its value, still present?). *)
Record hspec (T : Type) := HSpec { hs_reaps : nat; hs_tab : list (nat * T * bool) }.
Arguments HSpec {_} _ _.
Arguments hs_reaps {_} _.
Arguments hs_tab {_} _.

Section Spec.
  Context {T : Type}.
  Implicit Types H : hspec T.

  (** handle [e] is in reap [r] with value [v] *)
  Definition in_reap H (r e : nat) (v : T) : Prop := hs_tab H !! e = Some (r, v, true).
  Definition is_empty H (r : nat) : Prop := ∀ e v, ¬ in_reap H r e v.
  (** the live handles of [r], each once *)
  Definition members H (r : nat) (l : list nat) : Prop :=
    NoDup l ∧ ∀ e, e ∈ l ↔ ∃ v, in_reap H r e v.
  Definition upd H (e r : nat) (v : T) (live : bool) : hspec T :=
    HSpec (hs_reaps H) (<[e:=(r, v, live)]> (hs_tab H)).

  Inductive hstep : hspec T → rop T → rout T → hspec T → Prop :=
    | hs_new H : hstep H RNew (RReap (hs_reaps H)) (HSpec (S (hs_reaps H)) (hs_tab H))
    | hs_push H r v : r < hs_reaps H →
        hstep H (RPush r v) (RHandle (length (hs_tab H))) (HSpec (hs_reaps H) (hs_tab H ++ [(r, v, true)]))
    | hs_pop H r e v : in_reap H r e v → hstep H (RPop r) (RVal v) (upd H e r v false)
    | hs_pop_empty H r : r < hs_reaps H → is_empty H r → hstep H (RPop r) RPanic H
    | hs_peek H r e v : in_reap H r e v → hstep H (RPeek r) (RVal v) H
    | hs_peek_empty H r : r < hs_reaps H → is_empty H r → hstep H (RPeek r) RPanic H
    | hs_remove H r e v : in_reap H r e v → hstep H (RRemove r e) (RBool true) (upd H e r v false)
    | hs_remove_dead H r e v : hs_tab H !! e = Some (r, v, false) → hstep H (RRemove r e) (RBool false) H
    | hs_set H r e v w : in_reap H r e v → hstep H (RSet r e w) (RBool true) (upd H e r w true)
    | hs_set_dead H r e v w : hs_tab H !! e = Some (r, v, false) → hstep H (RSet r e w) (RBool false) H
    | hs_value H e r v b : hs_tab H !! e = Some (r, v, b) → hstep H (RValue e) (RVal v) H
    | hs_len H r l : members H r l → hstep H (RLen r) (RNat (length l)) H
    | hs_empty H r b : (b = true ↔ is_empty H r) → hstep H (REmpty r) (RBool b) H.

  (** A well-formed call: the reap exists and a handle is used with the reap
      whose Push returned it. *)
  Definition call_ok H (o : rop T) : Prop :=
    match o with
    | RNew => True
    | RPush r _ | RPop r | RPeek r | RLen r | REmpty r => r < hs_reaps H
    | RRemove r e | RSet r e _ => ∃ v b, hs_tab H !! e = Some (r, v, b)
    | RValue e => e < length (hs_tab H)
    end.

  (** The value returned by Pop/Peek on [r] is a least one in [r]. *)
  Definition hmin (lf : T → T → bool) H (o : rop T) (x : rout T) : Prop :=
    match o, x with
    | (RPop r | RPeek r), RVal v => ∀ e' v', in_reap H r e' v' → lf v' v = false
    | _, _ => True
    end.

  (** Outputs explained by the specification as long as calls are well-formed;
      from the first ill-formed call on nothing is claimed. *)
  Inductive hrun (P : hspec T → rop T → rout T → Prop) : hspec T → list (rop T) → list (rout T) → Prop :=
    | hr_nil H : hrun P H [] []
    | hr_cons H H1 o os r rs : hstep H o r H1 → P H o r → hrun P H1 os rs → hrun P H (o :: os) (r :: rs)
    | hr_ill H o os rs : ¬ call_ok H o → hrun P H (o :: os) rs.
End Spec.
