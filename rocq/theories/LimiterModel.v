(** * Model of common/limiter: fixed_window, leaky_bucket, token_bucket, sliding_window, sliding_log

    The clock is an argument of every call: [now] is the value time.Now()
    returns inside the critical section.  For the first three limiters it is
    the monotonic reading (int64 nanoseconds), for the sliding ones
    UnixNano().  The mutex is treated in LockModel.v; here calls are
    sequential.  int and int64 arithmetic wraps. *)
From stdpp Require Import gmap.
From Verif Require Export GoBase.
Local Open Scope Z_scope.

Definition second : Z := 1000000000.
(** time.Time.Sub on monotonic readings: the difference, saturated to int64 *)
Definition time_sub (t u : Z) : Z := Z.max (- 2 ^ 63) (Z.min (2 ^ 63 - 1) (t - u)).

(** ** fixed_window.go *)
(** fixed_window.go:8-14 *)
Record fw := FW { fw_limit : Z; fw_window : Z; fw_counter : Z; fw_last : Z }.
(** fixed_window.go:20-26 *)
Definition fw_new (limit window now : Z) : fw := FW limit window 0 now.
(** fixed_window.go:34-52 *)
Definition fw_try (l : fw) (now : Z) : bool * fw :=
  let l := if decide (time_sub now (fw_last l) > fw_window l) then FW (fw_limit l) (fw_window l) 0 now else l in
  if decide (fw_limit l ≤ fw_counter l) then (false, l)
  else (true, FW (fw_limit l) (fw_window l) (i64 (fw_counter l + 1)) (fw_last l)).

(** ** leaky_bucket_limiter.go *)
(** leaky_bucket_limiter.go:9-15 *)
Record lb := LB { lb_peak : Z; lb_level : Z; lb_velocity : Z; lb_last : Z }.
(** leaky_bucket_limiter.go:17-23 *)
Definition lb_new (peak velocity now : Z) : lb := LB peak 0 velocity now.
(** leaky_bucket_limiter.go:25-46, 48-53 *)
Definition lb_try (l : lb) (now : Z) : bool * lb :=
  let interval := time_sub now (lb_last l) in
  let l := if decide (second ≤ interval) then
             LB (lb_peak l) (Z.max 0 (i64 (lb_level l - i64 (Z.quot interval second * lb_velocity l)))) (lb_velocity l) now
           else l in
  if decide (lb_peak l ≤ lb_level l) then (false, l)
  else (true, LB (lb_peak l) (i64 (lb_level l + 1)) (lb_velocity l) (lb_last l)).

(** ** token_bucket.go *)
(** token_bucket.go:9-15 *)
Record tb := TB { tb_capacity : Z; tb_tokens : Z; tb_rate : Z; tb_last : Z }.
(** token_bucket.go:17-23 *)
Definition tb_new (capacity rate now : Z) : tb := TB capacity 0 rate now.
(** token_bucket.go:25-46, 48-53 *)
Definition tb_try (l : tb) (now : Z) : bool * tb :=
  let interval := time_sub now (tb_last l) in
  let l := if decide (second ≤ interval) then
             TB (tb_capacity l) (Z.min (tb_capacity l) (i64 (tb_tokens l + i64 (Z.quot interval second * tb_rate l)))) (tb_rate l) now
           else l in
  if decide (tb_tokens l = 0) then (false, l)
  else (true, TB (tb_capacity l) (i64 (tb_tokens l - 1)) (tb_rate l) (tb_last l)).

(** ** sliding_window.go *)
(** sliding_window.go:10-17 *)
Record sw := SW { sw_limit : Z; sw_window : Z; sw_small : Z; sw_smalls : Z; sw_counters : gmap Z Z }.
(** sliding_window.go:19-32: [None] is the returned error; a zero smallWindow divides by zero *)
Definition sw_new (limit window small : Z) : go (option sw) :=
  if decide (small = 0) then Panic PDivZero
  else if decide (Z.rem window small ≠ 0) then Ret None
  else Ret (Some (SW limit window small (i64 (Z.quot window small)) ∅)).
(** the sum of all counters; the loop adds them in map iteration order, which does not matter *)
Definition total (m : gmap Z Z) : Z := map_fold (λ _ c acc, i64 (acc + c)) 0 m.
(** sliding_window.go:34-62.  The loop deletes every counter before [start] and sums the others. *)
Definition sw_try (l : sw) (now : Z) : bool * sw :=
  let cur := i64 (Z.quot now (sw_small l) * sw_small l) in
  let start := i64 (cur - i64 (sw_small l * i64 (sw_smalls l - 1))) in
  let m := filter (λ kc, ¬ kc.1 < start) (sw_counters l) in
  let count := total m in
  if decide (sw_limit l ≤ count) then (false, SW (sw_limit l) (sw_window l) (sw_small l) (sw_smalls l) m)
  else (true, SW (sw_limit l) (sw_window l) (sw_small l) (sw_smalls l) (<[cur := i64 (default 0 (m !! cur) + 1)]> m)).

(** ** sliding_log.go *)
(** sliding_log.go:22-26; strategies are heap objects shared by pointer *)
Record strat := Strat { st_limit : Z; st_window : Z; st_smalls : Z }.
(** sliding_log.go:28-33 *)
Definition st_new (limit window : Z) : strat := Strat limit window 0.
Notation sheap := (gmap nat strat).
(** sliding_log.go:36-41 *)
Record sl := SL { sl_strats : list nat; sl_small : Z; sl_counters : gmap Z Z }.

(** sliding_log.go:53-59: the order sort.Slice establishes.  [sorted_by] is all that is
    assumed of sort.Slice besides that it permutes. *)
Definition before (a b : strat) : bool :=
  if decide (st_window a = st_window b) then bool_decide (st_limit a > st_limit b) else bool_decide (st_window a > st_window b).
(** sliding_log.go:61-73 on the sorted pointers; [prev] is strategies[i-1].  Returns the error
    ([false]) or success, and the heap with smallWindows set up to where the loop got. *)
Fixpoint sl_check (small : Z) (prev : option nat) (ps : list nat) (h : sheap) : go bool * sheap :=
  match ps with
  | [] => (Ret true, h)
  | p :: rest =>
      match h !! p with
      | None => (Panic PNil, h)
      | Some s =>
          let bad := match prev with
                     | Some q => match h !! q with Some s' => bool_decide (st_limit s' ≤ st_limit s) | None => false end
                     | None => false end in
          if bad then (Ret false, h)
          else if decide (small = 0) then (Panic PDivZero, h)
          else if decide (Z.rem (st_window s) small ≠ 0) then (Ret false, h)
          else sl_check small (Some p) rest (<[p := Strat (st_limit s) (st_window s) (i64 (Z.quot (st_window s) small))]> h)
      end
  end.
(** sliding_log.go:43-80, given the order [sorted] sort.Slice produced for the (copied) pointers *)
Definition sl_new (small : Z) (sorted : list nat) (h : sheap) : go (option sl) * sheap :=
  match sorted with
  | [] => (Ret None, h)
  | _ => match sl_check small None sorted h with
         | (Ret true, h') => (Ret (Some (SL sorted small ∅)), h')
         | (Ret false, h') => (Ret None, h')
         | (Panic p, h') => (Panic p, h')
         | (Diverge, h') => (Diverge, h')
         end
  end.
(** sliding_log.go:87-91 *)
Definition sl_start (cur small : Z) (s : strat) : Z := i64 (cur - i64 (small * i64 (st_smalls s - 1))).
(** sliding_log.go:82-122.  [Ret None] is success, [Ret (Some (limit, window))] the ViolationStrategyError. *)
Definition sl_try (l : sl) (h : sheap) (now : Z) : go (option (Z * Z)) * sl :=
  let cur := i64 (Z.quot now (sl_small l) * sl_small l) in
  match mapM (λ p, h !! p) (sl_strats l) with
  | None => (Panic PNil, l)
  | Some [] => (Panic PIndex, l)
  | Some ((s0 :: _) as strats) =>
      let m := filter (λ kc, ¬ kc.1 < sl_start cur (sl_small l) s0) (sl_counters l) in
      let counts := (λ s, total (filter (λ kc, sl_start cur (sl_small l) s ≤ kc.1) m)) <$> strats in
      match list_find (λ sc, st_limit sc.1 ≤ sc.2) (zip strats counts) with
      | Some (_, (s, _)) => (Ret (Some (st_limit s, st_window s)), SL (sl_strats l) (sl_small l) m)
      | None => (Ret None, SL (sl_strats l) (sl_small l) (<[cur := i64 (default 0 (m !! cur) + 1)]> m))
      end
  end.

(** calls at the given clock readings *)
Section Run.
  Context {L : Type} (try_ : L → Z → bool * L).
  Fixpoint lrun (l : L) (ts : list Z) : list bool :=
    match ts with [] => [] | t :: ts => let '(b, l') := try_ l t in b :: lrun l' ts end.
  Fixpoint lend (l : L) (ts : list Z) : L :=
    match ts with [] => l | t :: ts => lend (try_ l t).2 ts end.
End Run.
Fixpoint sl_run (l : sl) (h : sheap) (ts : list Z) : list (go (option (Z * Z))) :=
  match ts with [] => [] | t :: ts => let '(r, l') := sl_try l h t in r :: sl_run l' h ts end.
