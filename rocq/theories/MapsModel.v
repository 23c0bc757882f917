(** * Model of help/utils/maps.go: Map, GetSwitchFromOptions, SetSwitchFromOptions *)
From stdpp Require Import gmap strings.
From Verif Require Import GoBase LockModel.
Local Open Scope Z_scope.

(** Keys are values of a hashable type with decidable equality (an unhashable key
    makes the map access panic and is not modelled).  An interface{} value is
    [option W], [None] being nil. *)
Section Map.
  Context {K W : Type} `{Countable K}.
  Notation val := (option W).
  (** maps.go:12-15: the field m, [None] being the nil map; the RWMutex is LockModel's *)
  Notation obj := (option (gmap K val)).

  (** m.m[key] on a map, also a nil one: the zero value nil when absent *)
  Definition index (o : obj) (k : K) : val := match o with None => None | Some m => default None (m !! k) end.
  (** maps.go:17-21 *)
  Definition map_init (o : obj) : obj := match o with None => Some ∅ | _ => o end.
  (** maps.go:23-29 *)
  Definition unsafe_get (o : obj) (k : K) : val := match o with None => None | Some _ => index o k end.
  (** m.m[key] = value panics on a nil map *)
  Definition store (o : obj) (k : K) (v : val) : go obj := match o with None => Panic PNil | Some m => Ret (Some (<[k := v]> m)) end.
  (** maps.go:37-40 *)
  Definition unsafe_set (o : obj) (k : K) (v : val) : go obj := store (map_init o) k v.
  (** maps.go:62-65 *)
  Definition unsafe_del (o : obj) (k : K) : obj := match map_init o with None => None | Some m => Some (delete k m) end.
  (** maps.go:73-79 *)
  Definition unsafe_len (o : obj) : Z := match o with None => 0 | Some m => Z.of_nat (size m) end.

  (** the calls; the callback of a range is modelled by the list of pairs it is given *)
  Inductive mop := OGet (k : K) | OSet (k : K) (v : val) | OTas (k : K) (v : val) | ODel (k : K) | OLen | ORRange | OLRange.
  Inductive mres := RVal (v : val) | RUnit | RLen (n : Z) | RPairs (l : list (K * val)) | RPanic.
  (** the order in which the runtime iterates over a map *)
  Notation order := (list (K * val) → list (K * val)).

  (** maps.go:31-35, 81-85, 96-100 take the read lock *)
  Definition map_mode (o : mop) : lmode := match o with OGet _ | OLen | ORRange => MR | _ => MW end.
  Fixpoint range_loop (ks : list (K * val)) (acc : list (K * val)) : body obj order mres :=
    match ks with
    | [] => Fin (RPairs acc)
    | (k, _) :: ks => Act (λ o, (o, range_loop ks (acc ++ [(k, index o k)])))
    end.
  Definition range_body : body obj order mres :=
    Act (λ o, (o, match o with None => Fin (RPairs []) | Some m => Ask (λ ord, Act (λ o, (o, range_loop (ord (map_to_list (default ∅ o))) []))) end)).
  Definition with_init (k : body obj order mres) : body obj order mres :=
    Act (λ o, (o, match o with None => Act (λ o, (Some ∅, k)) | Some _ => k end)).
  Definition map_body (op : mop) : body obj order mres :=
    match op with
    (* maps.go:31-35, 23-29 *)
    | OGet k => Act (λ o, (o, match o with None => Fin (RVal None) | Some _ => Act (λ o, (o, Fin (RVal (index o k)))) end))
    (* maps.go:42-46, 37-40 *)
    | OSet k v => with_init (Act (λ o, match store o k v with Ret o' => (o', Fin RUnit) | _ => (o, Fin RPanic) end))
    (* maps.go:48-60 *)
    | OTas k v => with_init (Act (λ o, (o, match o ≫= (.!! k) with
                    | Some v' => Fin (RVal v')
                    | None => Act (λ o, match store o k v with Ret o' => (o', Fin (RVal None)) | _ => (o, Fin RPanic) end)
                    end)))
    (* maps.go:67-71, 62-65 *)
    | ODel k => with_init (Act (λ o, (match o with None => None | Some m => Some (delete k m) end, Fin RUnit)))
    (* maps.go:81-85, 73-79 *)
    | OLen => Act (λ o, (o, match o with None => Fin (RLen 0) | Some _ => Act (λ o, (o, Fin (RLen (unsafe_len o)))) end))
    (* maps.go:96-106, 87-94 *)
    | ORRange | OLRange => range_body
    end.
End Map.
Arguments mop : clear implicits.
Arguments mres : clear implicits.

(** maps.go:127-135; the option map, [None] being nil *)
Definition get_switch (o : option (gmap string bool)) (k : string) : bool :=
  match o with
  | None => true
  | Some m => match m !! k with None => true | Some flag => flag end
  end.
(** maps.go:137-142: a nil argument is replaced by a new map that only this call sees; the
    result is the state of the caller's map afterwards *)
Definition set_switch (o : option (gmap string bool)) (k : string) (v : bool) : option (gmap string bool) :=
  match o with
  | None => None
  | Some m => Some (<[k := v]> m)
  end.
