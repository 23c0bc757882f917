(** * What is expected of RLockRange and LockRange *)
From stdpp Require Import gmap.
From Verif Require Import GoBase LockModel MapsModel RangeModel.

Section Spec.
  Context {K W : Type} `{Countable K}.
  Notation val := (option W).
  Notation obj := (option (gmap K val)).

  (** code that takes no lock: it uses the map through the Unsafe methods, writing ones only if [w] *)
  Inductive unlocked (w : bool) : cmd K W → Prop :=
  | un_done : unlocked w Done
  | un_throw : unlocked w Throw
  | un_rd g : (∀ o, unlocked w (g o)) → unlocked w (Rd g)
  | un_wr h c : w = true → unlocked w c → unlocked w (Wr h c)
  | un_rng f c : (∀ k v, unlocked w (f k v)) → unlocked w c → unlocked w (Rng None f c).
  Definition callback (w : bool) (f : K → val → cmd K W) : Prop := ∀ k v, unlocked w (f k v).
  (** callbacks of RLockRange read, those of LockRange may also write *)
  Definition call_ok (x : call K W) : Prop := match x with CRRange f => callback false f | CLRange f => callback true f | _ => True end.
  Inductive client_ok : client K W → Prop :=
  | co_stop : client_ok Stop
  | co_call x k : call_ok x → (∀ a, client_ok (k a)) → client_ok (Call x k).

  (** the next step of a goroutine is an access to the map *)
  Definition writes (th : thread K W) : Prop := match th.1 with Wr _ _ => True | _ => False end.
  Definition accesses (th : thread K W) : Prop :=
    match th with (Rd _, _) | (Wr _ _, _) | (Rng _ _ _, _) | (Done, _ :: _) => True | _ => False end.
  Definition race (c : conf K W) : Prop :=
    ∃ t u a b, t ≠ u ∧ c_thr c !! t = Some a ∧ c_thr c !! u = Some b ∧ writes a ∧ accesses b.
  (** returned, or panicked out of everything *)
  Definition finished (th : thread K W) : Prop := th = (Done, []) ∨ th = (Throw, []).
  Definition all_finished (c : conf K W) : Prop := ∀ th, th ∈ c_thr c → finished th.
  Definition stuck (c : conf K W) : Prop := ∀ c', ¬ cstep c c'.

  Definition pairs (o : obj) : list (K * val) := match o with None => [] | Some m => map_to_list m end.
  (** the callback that deletes the entries of a kind *)
  Definition del_if (P : K → val → bool) (k : K) (v : val) : cmd K W := if P k v then u_del k Done else Done.
  (** a map without the entries of that kind *)
  Definition without (P : K → val → bool) (o o' : obj) : Prop :=
    match o, o' with
    | None, None => True
    | Some m, Some m' => ∀ k v, m' !! k = Some v ↔ m !! k = Some v ∧ P k v = false
    | _, _ => False
    end.
  (** unwinding: a panic on its way out *)
  Definition unwinding (th : thread K W) : Prop := match th.1 with Throw | Ul _ Throw => True | _ => False end.
  (** what a call that is not a range does to the map, and what it answers; nil counts as empty *)
  Definition content (o : obj) : gmap K val := match o with None => ∅ | Some m => m end.
  Definition does (x : call K W) (o : obj) (a : answer) (o' : obj) : Prop :=
    match x with
    | CGet k => o' = o ∧ a = AVal (match content o !! k with Some v => v | None => None end)
    | CSet k v => a = AUnit ∧ content o' = <[k := v]> (content o)
    | CTas k v => match content o !! k with
                  | Some v' => a = AVal v' ∧ content o' = content o
                  | None => a = AVal None ∧ content o' = <[k := v]> (content o)
                  end
    | CDel k => a = AUnit ∧ content o' = delete k (content o)
    | CLen => o' = o ∧ a = ALen (Z.of_nat (size (content o)))
    | _ => False
    end.
End Spec.
