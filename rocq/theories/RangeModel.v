(** * Model of help/utils/maps.go: Map with callbacks, used by any number of goroutines

    MapsModel.v has the calls whose critical section is the library's own code; here the callbacks of
    RLockRange and LockRange are arbitrary code that may use the map again, and the mutex is Go 1.18's
    sync.RWMutex with its preference for writers.  A step is one access to the map, one step of the mutex
    or one step of an iteration.  A callback is a finite tree of such steps; it may panic ([Throw]), and
    nobody recovers inside.  The accesses themselves do not panic (keys are hashable; a write that races with
    the creation of the map is not modelled).  RUnlock of a lock not held is not modelled (no step). *)
From stdpp Require Import gmap.
From Verif Require Import GoBase LockModel MapsModel.

Section Range.
  Context {K W : Type} `{Countable K}.
  Notation val := (option W).
  Notation obj := (option (gmap K val)).

  (** what is left to do: a reading access, a writing access, RLock/Lock, waiting inside of it, RUnlock/Unlock,
      or the loop of UnsafeRange; [d] is the unlock that is deferred around the loop *)
  Inductive cmd :=
  | Done
  | Throw
  | Rd (g : obj → cmd)
  | Wr (h : obj → obj) (c : cmd)
  | Lk (m : lmode) (c : cmd)
  | Wt (m : lmode) (c : cmd)
  | Ul (m : lmode) (c : cmd)
  | Rng (d : option lmode) (f : K → val → cmd) (c : cmd).

  (** maps.go:17-21 *)
  Definition c_init (c : cmd) : cmd := Rd (λ o, match o with None => Wr (λ _, Some ∅) c | Some _ => c end).
  (** maps.go:23-29 *)
  Definition u_get (k : K) (c : val → cmd) : cmd := Rd (λ o, match o with None => c None | Some _ => Rd (λ o, c (index o k)) end).
  (** maps.go:37-40 *)
  Definition put (k : K) (v : val) (o : obj) : obj := match o with None => None | Some m => Some (<[k := v]> m) end.
  Definition u_set (k : K) (v : val) (c : cmd) : cmd := c_init (Wr (put k v) c).
  (** maps.go:62-65 *)
  Definition drop_key (k : K) (o : obj) : obj := match o with None => None | Some m => Some (delete k m) end.
  Definition u_del (k : K) (c : cmd) : cmd := c_init (Wr (drop_key k) c).
  (** maps.go:73-79 *)
  Definition u_len (c : Z → cmd) : cmd := Rd (λ o, match o with None => c 0%Z | Some _ => Rd (λ o, c (unsafe_len o)) end).
  (** maps.go:87-94 *)
  Definition u_range (d : option lmode) (f : K → val → cmd) (c : cmd) : cmd :=
    Rd (λ o, match o with None => match d with Some m => Ul m c | None => c end | Some _ => Rng d f c end).

  (** the calls *)
  Inductive call := CGet (k : K) | CSet (k : K) (v : val) | CTas (k : K) (v : val) | CDel (k : K) | CLen
    | CRRange (f : K → val → cmd) | CLRange (f : K → val → cmd).
  Inductive answer := AVal (v : val) | ALen (n : Z) | AUnit.
  Definition call_cmd (x : call) (c : answer → cmd) : cmd :=
    match x with
    (* maps.go:31-35 *)
    | CGet k => Lk MR (u_get k (λ v, Ul MR (c (AVal v))))
    (* maps.go:42-46 *)
    | CSet k v => Lk MW (u_set k v (Ul MW (c AUnit)))
    (* maps.go:48-60 *)
    | CTas k v => Lk MW (c_init (Rd (λ o, match o ≫= (.!! k) with
                    | Some v' => Ul MW (c (AVal v'))
                    | None => Wr (put k v) (Ul MW (c (AVal None)))
                    end)))
    (* maps.go:67-71 *)
    | CDel k => Lk MW (u_del k (Ul MW (c AUnit)))
    (* maps.go:81-85 *)
    | CLen => Lk MR (u_len (λ n, Ul MR (c (ALen n))))
    (* maps.go:96-100 *)
    | CRRange f => Lk MR (u_range (Some MR) f (c AUnit))
    (* maps.go:102-106 *)
    | CLRange f => Lk MW (u_range (Some MW) f (c AUnit))
    end.
  (** the code of a goroutine: calls, each may depend on the answers so far *)
  Inductive client := Stop | Call (x : call) (k : answer → client).
  Fixpoint client_cmd (p : client) : cmd := match p with Stop => Done | Call x k => call_cmd x (λ a, client_cmd (k a)) end.

  (** a running loop: [f_left] the entries that were there at the start, not reached and not deleted since,
      [f_seen] those passed and not deleted since, [f_extra] how many entries created meanwhile the runtime
      will produce at most; [f_start] and [f_log] (map at the start, pairs passed to the callback) are ghosts *)
  Record frame := Frame { f_defer : option lmode; f_left : gset K; f_seen : gset K; f_extra : nat;
                          f_fun : K → val → cmd; f_cont : cmd; f_start : obj; f_log : list (K * val) }.
  (** a loop that ran to its end, with the map then: a ghost *)
  Record event := Event { ev_tid : nat; ev_mode : lmode; ev_fun : K → val → cmd; ev_start : obj; ev_log : list (K * val); ev_end : obj }.
  (** sync.RWMutex: who has the read lock, who is queued for it behind a writer, and the writer that has
      announced itself (it has the lock once [granted] is empty) *)
  Record rwmutex := RW { granted : list nat; queued : list nat; owner : option nat }.
  Definition thread : Type := cmd * list frame.
  Record conf := Conf { c_obj : obj; c_mu : rwmutex; c_thr : list thread; c_evs : list event }.

  Definition keys (o : obj) : gset K := match o with None => ∅ | Some m => dom m end.
  (** a write by the goroutine itself: deleted entries leave its loops *)
  Definition shrink (o : obj) (fr : frame) : frame :=
    Frame (f_defer fr) (f_left fr ∩ keys o) (f_seen fr ∩ keys o) (f_extra fr) (f_fun fr) (f_cont fr) (f_start fr) (f_log fr).
  Definition after (d : option lmode) (c : cmd) : cmd := match d with Some m => Ul m c | None => c end.
  Fixpoint remove_one (t : nat) (l : list nat) : list nat := match l with [] => [] | u :: l => if decide (u = t) then l else u :: remove_one t l end.

  (** one step of goroutine [t] *)
  Inductive tstep (t : nat) : obj → rwmutex → thread → obj → rwmutex → thread → list event → Prop :=
  | t_rd o mu g fs : tstep t o mu (Rd g, fs) o mu (g o, fs) []
  | t_wr o mu h c fs : tstep t o mu (Wr h c, fs) (h o) mu (c, shrink (h o) <$> fs) []
  (* RWMutex.RLock: granted unless a writer has announced itself, otherwise queued *)
  | t_rlock o g q c fs : tstep t o (RW g q None) (Lk MR c, fs) o (RW (t :: g) q None) (c, fs) []
  | t_rwait o g q u c fs : tstep t o (RW g q (Some u)) (Lk MR c, fs) o (RW g (t :: q) (Some u)) (Wt MR c, fs) []
  | t_rgo o g q w c fs : t ∉ q → tstep t o (RW g q w) (Wt MR c, fs) o (RW g q w) (c, fs) []
  (* RWMutex.Lock: announce, then wait for the readers *)
  | t_ann o g q c fs : tstep t o (RW g q None) (Lk MW c, fs) o (RW g q (Some t)) (Wt MW c, fs) []
  | t_wgo o q c fs : tstep t o (RW [] q (Some t)) (Wt MW c, fs) o (RW [] q (Some t)) (c, fs) []
  | t_runl o g q w c fs : t ∈ g → tstep t o (RW g q w) (Ul MR c, fs) o (RW (remove_one t g) q w) (c, fs) []
  (* RWMutex.Unlock lets all queued readers in *)
  | t_wunl o g q c fs : tstep t o (RW g q (Some t)) (Ul MW c, fs) o (RW (g ++ q) [] None) (c, fs) []
  | t_rng o mu d f c fs n : tstep t o mu (Rng d f c, fs) o mu (Done, Frame d (keys o) ∅ n f c o [] :: fs) []
  (* the next entry: one of those left, or a new one *)
  | t_next o mu d l s n f c o0 lg fs m k v : o = Some m → m !! k = Some v → k ∈ l →
      tstep t o mu (Done, Frame d l s n f c o0 lg :: fs) o mu (f k v, Frame d (l ∖ {[k]}) (s ∪ {[k]}) n f c o0 (lg ++ [(k, v)]) :: fs) []
  | t_new o mu d l s n f c o0 lg fs m k v : o = Some m → m !! k = Some v → k ∉ l → k ∉ s →
      tstep t o mu (Done, Frame d l s (S n) f c o0 lg :: fs) o mu (f k v, Frame d l (s ∪ {[k]}) n f c o0 (lg ++ [(k, v)]) :: fs) []
  | t_end o mu d l s n f c o0 lg fs : l ∩ keys o = ∅ →
      tstep t o mu (Done, Frame d l s n f c o0 lg :: fs) o mu (after d c, fs) (match d with Some m => [Event t m f o0 lg o] | None => [] end)
  (* a panic runs the deferred unlock *)
  | t_throw o mu d l s n f c o0 lg fs : tstep t o mu (Throw, Frame d l s n f c o0 lg :: fs) o mu (after d Throw, fs) [].
  Inductive cstep : conf → conf → Prop :=
  | c_step o mu ths evs t th o' mu' th' ev : ths !! t = Some th → tstep t o mu th o' mu' th' ev →
      cstep (Conf o mu ths evs) (Conf o' mu' (<[t := th']> ths) (evs ++ ev)).
  Definition start (o : obj) (ps : list client) : conf := Conf o (RW [] [] None) ((λ p, (client_cmd p, [])) <$> ps) [].
  Definition reached (o : obj) (ps : list client) (c : conf) : Prop := rtc cstep (start o ps) c.
End Range.
Arguments cmd K W {_ _}.
Arguments call K W {_ _}.
Arguments client K W {_ _}.
Arguments frame K W {_ _}.
Arguments event K W {_ _}.
Arguments thread K W {_ _}.
Arguments conf K W {_ _}.
