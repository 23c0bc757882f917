(** * GoState: Go code over mutable memory.
    A computation returns its outcome and the memory at that point, so writes
    made before a panic stay visible.  Nothing here models a file of /repo. *)
From Verif Require Export GoBase.

Definition gst (S A : Type) : Type := S → go A * S.

Global Instance gst_ret {S} : MRet (gst S) := λ A a s, (Ret a, s).
Global Instance gst_bind {S} : MBind (gst S) := λ A B f m s,
  match m s with
  | (Ret a, s') => f a s'
  | (Panic p, s') => (Panic p, s')
  | (Diverge, s') => (Diverge, s')
  end.

Definition gret {S A} (a : A) : gst S A := λ s, (Ret a, s).
Definition gpanic {S A} (p : panic) : gst S A := λ s, (Panic p, s).
Definition gread {S A} (f : S → A) : gst S A := λ s, (Ret (f s), s).
Definition gwrite {S} (f : S → S) : gst S unit := λ s, (Ret tt, f s).
(** a plain computation on the current memory, without writes *)
Definition glift {S A} (f : S → go A) : gst S A := λ s, (f s, s).

Notation "x ⇠ m ; k" := (mbind (M := gst _) (λ x, k) m) (at level 20, m at level 100, k at level 200, right associativity).
Notation "m ;; k" := (mbind (M := gst _) (λ _ : unit, k) m) (at level 100, k at level 200, right associativity).

Lemma gst_bind_Ret {S A B} (m : gst S A) (f : A → gst S B) s a s' :
  m s = (Ret a, s') → (m ≫= f) s = f a s'.
Proof. unfold mbind, gst_bind. by intros ->. Qed.
Lemma gst_bind_Panic {S A B} (m : gst S A) (f : A → gst S B) s p s' :
  m s = (Panic p, s') → (m ≫= f) s = (Panic p, s').
Proof. unfold mbind, gst_bind. by intros ->. Qed.
