(** * The critical sections of the limiters, access by access (used with LockModel.v) *)
From stdpp Require Import gmap.
From Verif Require Import GoBase LimiterModel LockModel.
Local Open Scope Z_scope.

(** what the outside supplies to a TryAcquire: the clock reading, and the order in which the
    runtime iterates over the counter map *)
Record input := In { i_now : Z; i_order : list (Z * Z) → list (Z * Z) }.
Definition in_ok (i : input) : Prop := ∀ l, i_order i l ≡ₚ l.

(** fixed_window/fixed_window.go:34-51 *)
Definition fw_body : body fw input bool :=
  Ask (λ i, Act (λ l, (l,
    let rest :=
      Act (λ l, (l,
        if decide (fw_limit l ≤ fw_counter l) then Fin false
        else let c := fw_counter l in Act (λ l, (FW (fw_limit l) (fw_window l) (i64 (c + 1)) (fw_last l), Fin true)))) in
    if decide (time_sub (i_now i) (fw_last l) > fw_window l) then
      Act (λ l, (FW (fw_limit l) (fw_window l) 0 (fw_last l),
      Act (λ l, (FW (fw_limit l) (fw_window l) (fw_counter l) (i_now i), rest))))
    else rest))).

(** leaky_bucket/leaky_bucket_limiter.go:25-46 *)
Definition lb_body : body lb input bool :=
  Ask (λ i, Act (λ l, (l,
    let interval := time_sub (i_now i) (lb_last l) in
    let rest :=
      Act (λ l, (l,
        if decide (lb_peak l ≤ lb_level l) then Fin false
        else let c := lb_level l in Act (λ l, (LB (lb_peak l) (i64 (c + 1)) (lb_velocity l) (lb_last l), Fin true)))) in
    if decide (second ≤ interval) then
      Act (λ l, (l, let v := Z.max 0 (i64 (lb_level l - i64 (Z.quot interval second * lb_velocity l))) in
      Act (λ l, (LB (lb_peak l) v (lb_velocity l) (lb_last l),
      Act (λ l, (LB (lb_peak l) (lb_level l) (lb_velocity l) (i_now i), rest))))))
    else rest))).

(** token_bucket/token_bucket.go:25-46 *)
Definition tb_body : body tb input bool :=
  Ask (λ i, Act (λ l, (l,
    let interval := time_sub (i_now i) (tb_last l) in
    let rest :=
      Act (λ l, (l,
        if decide (tb_tokens l = 0) then Fin false
        else let c := tb_tokens l in Act (λ l, (TB (tb_capacity l) (i64 (c - 1)) (tb_rate l) (tb_last l), Fin true)))) in
    if decide (second ≤ interval) then
      Act (λ l, (l, let v := Z.min (tb_capacity l) (i64 (tb_tokens l + i64 (Z.quot interval second * tb_rate l))) in
      Act (λ l, (TB (tb_capacity l) v (tb_rate l) (tb_last l),
      Act (λ l, (TB (tb_capacity l) (tb_tokens l) (tb_rate l) (i_now i), rest))))))
    else rest))).

(** sliding_window/sliding_window.go:34-60; the range loop visits every counter present at its
    start once, in the order supplied, and deletes only the counter it is at *)
Definition sw_with (l : sw) (m : gmap Z Z) : sw := SW (sw_limit l) (sw_window l) (sw_small l) (sw_smalls l) m.
Fixpoint sw_loop (cur start : Z) (ks : list (Z * Z)) (count : Z) : body sw input bool :=
  match ks with
  | [] => Act (λ l, (l,
      if decide (sw_limit l ≤ count) then Fin false
      else Act (λ l, (sw_with l (<[cur := i64 (default 0 (sw_counters l !! cur) + 1)]> (sw_counters l)), Fin true))))
  | (k, _) :: ks => Act (λ l,
      if decide (k < start) then (sw_with l (delete k (sw_counters l)), sw_loop cur start ks count)
      else (l, sw_loop cur start ks (i64 (count + default 0 (sw_counters l !! k)))))
  end.
Definition sw_body : body sw input bool :=
  Ask (λ i, Act (λ l, (l,
    let cur := i64 (Z.quot (i_now i) (sw_small l) * sw_small l) in
    let start := i64 (cur - i64 (sw_small l * i64 (sw_smalls l - 1))) in
    sw_loop cur start (i_order i (map_to_list (sw_counters l))) 0))).

(** sliding_log/sliding_log.go:82-121, for a limiter whose strategies (the heap [h]) nobody else changes;
    [ss] are the strategies, [starts] their start sub-windows *)
Definition sl_with (l : sl) (m : gmap Z Z) : sl := SL (sl_strats l) (sl_small l) m.
Fixpoint sl_loop (cur start0 : Z) (ss : list (strat * Z)) (ks : list (Z * Z)) (counts : list Z) : body sl input (go (option (Z * Z))) :=
  match ks with
  | [] =>
      match list_find (λ sc, st_limit sc.1 ≤ sc.2) (zip ss.*1 counts) with
      | Some (_, (s, _)) => Fin (Ret (Some (st_limit s, st_window s)))
      | None => Act (λ l, (sl_with l (<[cur := i64 (default 0 (sl_counters l !! cur) + 1)]> (sl_counters l)), Fin (Ret None)))
      end
  | (k, _) :: ks => Act (λ l,
      if decide (k < start0) then (sl_with l (delete k (sl_counters l)), sl_loop cur start0 ss ks counts)
      else (l, sl_loop cur start0 ss ks
                 (zip_with (λ s c, if decide (s.2 ≤ k) then i64 (c + default 0 (sl_counters l !! k)) else c) ss counts)))
  end.
Definition sl_body (h : sheap) : body sl input (go (option (Z * Z))) :=
  Ask (λ i, Act (λ l, (l,
    let cur := i64 (Z.quot (i_now i) (sl_small l) * sl_small l) in
    match mapM (λ p, h !! p) (sl_strats l) with
    | None => Fin (Panic PNil)
    | Some [] => Fin (Panic PIndex)
    | Some ((s0 :: _) as strats) =>
        sl_loop cur (sl_start cur (sl_small l) s0) ((λ s, (s, sl_start cur (sl_small l) s)) <$> strats)
          (i_order i (map_to_list (sl_counters l))) (replicate (length strats) 0)
    end))).
