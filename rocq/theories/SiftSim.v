(** * Simulation of the sift loops: a store that mirrors a list heap *)
From Verif Require Import GoBase HeapModel.

(** Two outcomes agree: same panic, same divergence, related results. *)
Definition rsim {A B} (R : A → B → Prop) (m : go A) (m' : go B) : Prop :=
  match m, m' with
  | Ret a, Ret b => R a b
  | Panic p, Panic p' => p = p'
  | Diverge, Diverge => True
  | _, _ => False
  end.

Lemma rsim_bind {A B A' B'} (R : A → B → Prop) (R' : A' → B' → Prop) m m' (f : A → go A') (f' : B → go B') :
  rsim R m m' → (∀ a b, R a b → rsim R' (f a) (f' b)) → rsim R' (m ≫= f) (m' ≫= f').
Proof. intros H Hf. destruct m, m'; try done. by apply Hf. Qed.

Lemma rsim_Ret_r {A B} (R : A → B → Prop) m b : rsim R m (Ret b) → ∃ a, m = Ret a ∧ R a b.
Proof. destruct m; [by eauto|done..]. Qed.
Lemma rsim_Panic_r {A B} (R : A → B → Prop) m p : rsim R m (Panic p) → m = Panic p.
Proof. destruct m; [done| |done]. by intros ->. Qed.

Section Sim.
  Context {St T : Type} (less : St → nat → nat → go bool) (swap : St → nat → nat → go St).
  Context (lf : T → T → bool) (R : St → list T → Prop).
  Context (Hless : ∀ s h i j, R s h → rsim eq (less s i j) (hless lf h i j)).
  Context (Hswap : ∀ s h i j, R s h → rsim R (swap s i j) (hswap h i j)).

  Lemma up_sim d fuel s h j : R s h →
    rsim R (up less swap d fuel s j) (up (hless lf) hswap d fuel h j).
  Proof.
    revert s h j. induction fuel as [|fuel IH]; intros s h j HR; [done|]. cbn [up].
    case_decide; [done|]. apply (rsim_bind eq); [by apply Hless|]. intros b ? <-.
    destruct b; [|done]. apply (rsim_bind R); [by apply Hswap|]. intros s' h' HR'. by apply IH.
  Qed.

  Lemma down2_sim fuel s h i n : R s h →
    rsim (λ a b, R a.1 b.1 ∧ a.2 = b.2) (down2 less swap fuel s i n) (down2 (hless lf) hswap fuel h i n).
  Proof.
    revert s h i. induction fuel as [|fuel IH]; intros s h i HR; [done|]. cbn [down2].
    case_decide; [done|]. apply (rsim_bind eq).
    { case_decide; [|done]. apply (rsim_bind eq); [by apply Hless|]. by intros b ? <-. }
    intros j ? <-. apply (rsim_bind eq); [by apply Hless|]. intros b ? <-.
    destruct b; [|done]. apply (rsim_bind R); [by apply Hswap|]. intros s' h' HR'. by apply IH.
  Qed.

  Lemma up_fuel_sim j s h : R s h → rsim R (up less swap 2 (S j) s j) (hup lf 2 h j).
  Proof. apply up_sim. Qed.

  Lemma down_sim s h i n : R s h →
    rsim (λ a b, R a.1 b.1 ∧ a.2 = b.2)
      (r ← down2 less swap (S n) s i n; Ret (r.1, bool_decide (i < r.2))) (hdown lf h i n).
  Proof.
    intros HR. unfold hdown. eapply rsim_bind; [by apply down2_sim|].
    intros [a1 a2] [b1 b2] [H1 H2]; simpl in *. by subst.
  Qed.
End Sim.
