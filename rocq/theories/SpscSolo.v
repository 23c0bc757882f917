(** * Property C19: a call without a concurrent one is the call of the sequential model (RingModel, C15, C16) *)
From Verif Require Import GoBase GoState MathModel MathProofs RingModel RingProofs SpscModel SpscProofs.
Local Open Scope Z_scope.
(** ** a call that is not disturbed does what the sequential call does *)
Section solo.
Context {T : Type}.
Fixpoint solo {A} (p : prog T A) (m : mem T) : option (A * mem T * list T) :=
  match p with
  | PRet a => Some (a, m, [])
  | PPanic => None
  | PRdIn k => solo (k (m_in m)) m
  | PRdOut k => solo (k (m_out m)) m
  | PWrIn v k => solo k (Mem v (m_out m) (m_data m))
  | PWrOut v k => solo k (Mem (m_in m) v (m_data m))
  | PRdD i k => match m_data m !! i with Some x => solo (k x) m | None => None end
  | PWrD i v k => if decide (i < length (m_data m))%nat then solo k (Mem (m_in m) (m_out m) (<[i := v]> (m_data m))) else None
  | PGot l k => match solo k m with Some (a, m', l') => Some (a, m', l ++ l') | None => None end
  end.
Lemma solo_bind {A B} (p : prog T A) (g : A → prog T B) : ∀ m, solo (p ≫= g) m =
  match solo p m with Some (a, m', l) => match solo (g a) m' with Some (b, m'', l') => Some (b, m'', l ++ l') | None => None end | None => None end.
Proof.
  induction p as [a| |k IH|k IH|v k IH|v k IH|i k IH|i v k IH|l k IH]; intros m; cbn [mbind prog_bind solo]; try apply IH.
  - destruct (solo (g a) m) as [[[??]?]|]; done.
  - done.
  - destruct (m_data m !! i); [apply IH|done].
  - destruct (decide _); [apply IH|done].
  - change ((fix go A0 B0 f m0 := _) A B g k) with (k ≫= g) || idtac. setoid_rewrite IH. destruct (solo k m) as [[[a m1] l1]|]; [|done]. destruct (solo (g a) m1) as [[[b m2] l2]|]; [|done]. by rewrite app_assoc.
Qed.
Definition mem_of (r : ring T) : mem T := Mem (rin r) (rout r) (rdata r).
(** the end of a run in which only one goroutine moves *)
Lemma solo_producer (p : prog T unit) : ∀ m, ∃ n, ∀ q recv, match solo p m with
  | Some (_, m', _) => exec (Cfg m p q recv) (replicate n true) = Cfg m' (PRet tt) q recv
  | None => c_prod (exec (Cfg m p q recv) (replicate n true)) = PPanic end.
Proof.
  assert (Hgo : ∀ m p m' p' l, (m', p', l) = act m p → (∃ n, ∀ q recv, match solo p' m' with Some (_, m'', _) => exec (Cfg m' p' q recv) (replicate n true) = Cfg m'' (PRet tt) q recv
    | None => c_prod (exec (Cfg m' p' q recv) (replicate n true)) = PPanic end) → ∃ n, ∀ q recv, match solo p' m' with Some (_, m'', _) => exec (Cfg m p q recv) (replicate n true) = Cfg m'' (PRet tt) q recv
    | None => c_prod (exec (Cfg m p q recv) (replicate n true)) = PPanic end).
  { intros m p0 m' p' l E [n Hn]. exists (S n). intros q recv. specialize (Hn q recv). cbn [replicate]. unfold exec in *. cbn [foldl]. unfold move at 2 4. cbn [c_mem c_prod c_cons c_recv]. rewrite <- E. exact Hn. }
  induction p as [a| |k IH|k IH|v k IH|v k IH|i k IH|i v k IH|l k IH]; intros m; cbn [solo].
  - exists 0%nat. intros. by destruct a. - by exists 0%nat.
  - by eapply Hgo. - by eapply Hgo. - by eapply Hgo. - by eapply Hgo.
  - destruct (m_data m !! i) as [x|] eqn:E. + eapply Hgo; [cbn; by rewrite E|apply IH]. + exists 1%nat. intros. cbn. rewrite E. done.
  - destruct (decide _) as [E|E]. + eapply Hgo; [cbn; by rewrite decide_True|apply IH]. + exists 1%nat. intros. cbn. rewrite decide_False by done. done.
  - destruct (Hgo m (PGot l k) m k l eq_refl (IH m)) as [n Hn]. exists n. intros q recv. specialize (Hn q recv). destruct (solo k m) as [[[? ?] ?]|]; done.
Qed.
Lemma solo_consumer (p : prog T unit) : ∀ m, ∃ n, ∀ q recv, match solo p m with
  | Some (_, m', l) => exec (Cfg m q p recv) (replicate n false) = Cfg m' q (PRet tt) (recv ++ l)
  | None => c_cons (exec (Cfg m q p recv) (replicate n false)) = PPanic end.
Proof.
  induction p as [a| |k IH|k IH|v k IH|v k IH|i k IH|i v k IH|l k IH]; intros m; cbn [solo].
  - exists 0%nat. intros. destruct a. by rewrite app_nil_r. - by exists 0%nat.
  - destruct (IH (m_in m) m) as [n Hn]. exists (S n). intros q recv. specialize (Hn q recv). unfold exec in *. cbn. rewrite app_nil_r. exact Hn.
  - destruct (IH (m_out m) m) as [n Hn]. exists (S n). intros q recv. specialize (Hn q recv). unfold exec in *. cbn. rewrite app_nil_r. exact Hn.
  - destruct (IH (Mem v (m_out m) (m_data m))) as [n Hn]. exists (S n). intros q recv. specialize (Hn q recv). unfold exec in *. cbn. rewrite app_nil_r. exact Hn.
  - destruct (IH (Mem (m_in m) v (m_data m))) as [n Hn]. exists (S n). intros q recv. specialize (Hn q recv). unfold exec in *. cbn. rewrite app_nil_r. exact Hn.
  - destruct (m_data m !! i) as [x|] eqn:E; [|exists 1%nat; intros; cbn; by rewrite E]. destruct (IH x m) as [n Hn]. exists (S n). intros q recv. specialize (Hn q recv). unfold exec in *. cbn. rewrite E, app_nil_r. exact Hn.
  - destruct (decide _) as [E|E]; [|exists 1%nat; intros; cbn; by rewrite decide_False]. destruct (IH (Mem (m_in m) (m_out m) (<[i := v]> (m_data m)))) as [n Hn]. exists (S n). intros q recv. specialize (Hn q recv). unfold exec in *. cbn. rewrite decide_True, app_nil_r by done. exact Hn.
  - destruct (IH m) as [n Hn]. exists (S n). intros q recv. specialize (Hn q (recv ++ l)). unfold exec in *. cbn. destruct (solo k m) as [[[? ?] l']|]; [|exact Hn]. by rewrite app_assoc.
Qed.
Lemma solo_store l : ∀ i m, (i + length l ≤ length (m_data m))%nat → solo (p_store i l) m = Some (tt, Mem (m_in m) (m_out m) (take i (m_data m) ++ l ++ drop (i + length l) (m_data m)), []).
Proof.
  induction l as [|x l IH]; intros i m Hl; cbn [p_store solo]. { rewrite Nat.add_0_r. cbn [app]. rewrite take_drop. by destruct m. }
  cbn [length] in Hl. rewrite decide_True by lia. rewrite IH by (cbn; rewrite insert_length; lia). cbn [m_in m_out m_data]. do 3 f_equal.
  rewrite (take_S_r _ i x) by (apply list_lookup_insert; lia). rewrite take_insert by lia. rewrite drop_insert_gt by lia. rewrite <- app_assoc. cbn [app length]. by rewrite Nat.add_succ_r.
Qed.
Lemma solo_load n : ∀ i m, (i + n ≤ length (m_data m))%nat → solo (p_load i n) m = Some (take n (drop i (m_data m)), m, []).
Proof.
  induction n as [|n IH]; intros i m Hl; cbn [p_load solo]; [by rewrite take_0|]. destruct (lookup_lt_is_Some_2 (m_data m) i) as [x Hx]; [lia|]. rewrite Hx. rewrite solo_bind, IH by lia. cbn [solo mret prog_ret]. by rewrite (drop_S _ _ _ Hx).
Qed.
(** the result of a call of the sequential model, seen from the shared memory *)
Definition agrees {A} (recv : A → list T) (x : option (unit * mem T * list T)) (y : go A * ring T) : Prop :=
  match x, y with
  | Some (_, m, l), (Ret a, r) => m = mem_of r ∧ l = recv a
  | None, (Panic _, _) => True
  | _, _ => False
  end.
Context (dv : T) (c : nat) (ix : Z → nat) (ixr : ring T → Z → go Z) (r : ring T).
Context (Hsize : rsize r = Z.of_nat c) (Hdata : length (rdata r) = c) (Hlen : rlen r ≤ Z.of_nat c) (Hix : ∀ z, ixr r z = Ret (Z.of_nat (ix z)) ∧ (ix z < c)%nat).
Lemma solo_len : solo p_len (mem_of r) = Some (rlen r, mem_of r, []).
Proof. done. Qed.
Lemma solo_avail : solo (p_avail c) (mem_of r) = Some (ravail r, mem_of r, []).
Proof. unfold p_avail. rewrite solo_bind, solo_len. cbn. unfold ravail, rcap. by rewrite Hsize. Qed.
Lemma solo_push e : agrees (λ _, []) (solo (p_push c ix e) (mem_of r)) (rpush ixr e r).
Proof.
  unfold p_push, p_full. rewrite !solo_bind, solo_avail. cbn [solo mret prog_ret app]. unfold rpush, gget, gread, mbind, gst_bind, rfull. destruct (bool_decide (ravail r = 0)); [done|].
  cbn -[u64]. destruct (Hix (rin r)) as [E L]. unfold rpush_tail, mbind, gst_bind, glift. rewrite E. cbn -[u64]. rewrite Hdata. rewrite decide_True by lia. unfold store, mbind, gst_bind, gget, gread. cbn -[u64]. rewrite Hdata, decide_True by lia. cbn -[u64]. by rewrite Nat2Z.id.
Qed.
Lemma solo_pop : agrees (λ x, [x]) (solo (p_pop ix) (mem_of r)) (rpop ixr r).
Proof.
  unfold p_pop. rewrite solo_bind. unfold p_empty. cbn -[u64 rpop]. unfold rpop, gget, gread, mbind, gst_bind, rempty. destruct (bool_decide (rin r = rout r)); [done|].
  cbn -[u64]. destruct (Hix (rout r)) as [E L]. unfold glift. rewrite E. cbn -[u64]. unfold idx. rewrite Nat2Z.id. destruct (lookup_lt_is_Some_2 (rdata r) (ix (rout r))) as [x ->]; [lia|]. done.
Qed.
Lemma copy_to_fit (d : list T) i l : (i + length l ≤ length d)%nat → copy_to d i l = take i d ++ l ++ drop (i + length l) d.
Proof. intros H. unfold copy_to. by rewrite (take_ge l) by lia. Qed.
Lemma avail_range : 0 ≤ ravail r ≤ Z.of_nat c ∨ 2 ^ 63 ≤ Z.of_nat c.
Proof. unfold ravail, rcap. rewrite Hsize. assert (0 ≤ rlen r) by (unfold rlen, u64, wrap_u; by apply Z.mod_pos_bound). destruct (decide (Z.of_nat c < 2 ^ 63)); [|lia]. left. unfold u64, wrap_u. rewrite Z.mod_small; lia. Qed.
Lemma solo_mpush es spare : Z.of_nat c < 2 ^ 63 → agrees (λ _, []) (solo (p_mpush c ix es spare) (mem_of r)) (rmpush ixr es r).
Proof.
  intros H63. destruct avail_range as [Ha|]; [|lia]. unfold p_mpush. rewrite solo_bind, solo_avail. cbn [app]. rewrite solo_bind. set (el := if decide (Z.of_nat (length es) > ravail r) then take (Z.to_nat (ravail r)) es else es). change (rmpush ixr es r) with ((if decide (el = []) then gret tt else mpush_tail ixr el) r).
  assert (Hel : Z.of_nat (length el) ≤ ravail r). { unfold el. destruct (decide _); [rewrite take_length|]; lia. }
  match goal with |- context [match solo ?p ?m with _ => _ end] => assert (E : solo p m = Some (el, mem_of r, [])) end.
  { unfold el. destruct (decide (Z.of_nat (length es) > ravail r)) as [H|H]; [|done]. rewrite solo_bind, solo_avail. cbn [app]. rewrite decide_False by (rewrite app_length; lia). cbn [solo mret prog_ret]. rewrite take_app_le by lia. done. }
  rewrite E. clear E. clearbody el. destruct (decide (el = [])) as [->|Hne]; [done|]. cbn [mbind prog_bind rd_in solo]. destruct (Hix (rin r)) as [E L]. cbn [m_in mem_of]. rewrite decide_True by lia. cbv zeta.
  rewrite solo_bind. set (n := Nat.min (c - ix (rin r)) (length el)). rewrite solo_store by (cbn; rewrite take_length; lia). cbn [m_in m_out m_data mem_of]. rewrite solo_bind. set (d1 := take (ix (rin r)) (rdata r) ++ _). 
  assert (Hd1 : length d1 = c). { unfold d1. rewrite !app_length, take_length, drop_length, take_length. lia. }
  rewrite (take_ge (drop n el)) by (rewrite drop_length; lia). rewrite solo_store by (cbn; rewrite drop_length; lia). cbn -[u64]. unfold mpush_tail, mbind, gst_bind, glift. rewrite E. cbn -[u64]. rewrite Hdata, decide_True by lia. cbn -[u64 copy_to]. split; [|done]. unfold mem_of. cbn [rin rout rdata]. f_equal. rewrite Nat2Z.id.
  replace (copied (rdata r) (ix (rin r)) el) with n by (unfold copied; lia).
  replace (copy_to (rdata r) (ix (rin r)) el) with d1. { symmetry. rewrite copy_to_fit by (rewrite drop_length; lia). done. }
  unfold d1, copy_to. rewrite Hdata. f_equal. rewrite take_length.
  replace (length (rdata r)) with c. destruct (decide (length el ≤ c - ix (rin r))%nat) as [Hs|Hs].
  - unfold n. rewrite Nat.min_r by lia. rewrite (take_ge el (c - _)) by lia. by rewrite firstn_all, Nat.min_id.
  - unfold n. rewrite Nat.min_l by lia. f_equal. rewrite !drop_ge by lia. done.
Qed.
Lemma solo_load2 n m : (n ≤ c)%nat → solo (l1 ← p_load (ix (rout r)) (Nat.min n (c - ix (rout r))); l2 ← p_load 0 (Nat.min (n - Nat.min n (c - ix (rout r))) c); o' ← rd_out; _ ← wr_out (u64 (o' + m l1 l2)); got (l1 ++ l2)) (mem_of r) =
  let k := Nat.min n (c - ix (rout r)) in let l1 := take k (drop (ix (rout r)) (rdata r)) in let l2 := take (n - k) (rdata r) in Some (tt, Mem (rin r) (u64 (rout r + m l1 l2)) (rdata r), l1 ++ l2).
Proof.
  intros Hn. destruct (Hix (rout r)) as [_ L]. cbv zeta. rewrite solo_bind, solo_load by (cbn; lia). cbn [app m_data mem_of]. rewrite solo_bind, solo_load by (cbn; lia). cbn -[u64]. rewrite drop_0, app_nil_r. rewrite (Nat.min_l (n - _) c) by lia. done.
Qed.
Lemma solo_mpop n : 0 ≤ n → agrees id (solo (p_mpop c ix n) (mem_of r)) (rmpop dv ixr n r).
Proof.
  intros Hn. unfold p_mpop. rewrite solo_bind, solo_len. cbn [app]. rewrite solo_bind. set (k := if decide (n > rlen r) then rlen r else n). change (rmpop dv ixr n r) with ((if decide (k = 0) then gret [] else o ⇠ glift (λ r, ixr r (rout r)); let elems := make dv k in o ⇠ slice_from o; let n := copied elems 0 (drop o (rdata r)) in let elems := copy_to (copy_to elems 0 (drop o (rdata r))) n (rdata r) in set_out (u64 (rout r + k));; gret elems) r).
  match goal with |- context [match solo ?p ?m with _ => _ end] => assert (E : solo p m = Some (k, mem_of r, [])) by (unfold k; by destruct (decide (n > rlen r))) end. rewrite E. clear E.
  assert (Hr0 : 0 ≤ rlen r) by (unfold rlen, u64, wrap_u; by apply Z.mod_pos_bound). assert (Hk : 0 ≤ k ≤ Z.of_nat c) by (unfold k; destruct (decide _); lia). clearbody k. destruct (decide (k = 0)); [done|]. destruct (Hix (rout r)) as [E L].
  rewrite solo_bind. cbn [rd_out solo m_out mem_of app]. rewrite decide_True by lia. cbv zeta. rewrite (solo_load2 (Z.to_nat k) (λ _ _, k)) by lia. cbv zeta. unfold mbind, gst_bind, glift. rewrite E. cbn -[u64]. rewrite Hdata, decide_True by lia. cbn -[u64 copy_to]. split; [done|]. rewrite Nat2Z.id.
  assert (Hm : length (make dv k) = Z.to_nat k) by (unfold make; by rewrite replicate_length). unfold copied. rewrite Hm, Nat.sub_0_r, drop_length, Hdata. set (j := ix (rout r)) in *. set (q := Z.to_nat k) in *. unfold id.
  assert (E1 : copy_to (make dv k) 0 (drop j (rdata r)) = take q (drop j (rdata r)) ++ drop (c - j) (make dv k)). { unfold copy_to. by rewrite take_0, Hm, Nat.sub_0_r, drop_length, Hdata. }
  rewrite E1. unfold copy_to. rewrite app_length, take_length, !drop_length, Hm, Hdata. replace (Nat.min q (c - j) + (q - (c - j)))%nat with q by lia. rewrite (drop_ge _ (Nat.min q (c - j) + c)) by (rewrite app_length, take_length, !drop_length, Hm; lia).
  rewrite app_nil_r. f_equal. rewrite take_app_le by (rewrite take_length, drop_length, Hdata; lia). by rewrite take_take, (Nat.min_l (Nat.min _ _)) by lia.
Qed.
Lemma solo_mpopcopy dst : ∃ rest, agrees (λ l, take (length l - length rest) l) (solo (p_mpopcopy c ix (Z.of_nat (length dst))) (mem_of r)) (rmpopcopy ixr dst r) ∧ rest = drop (Z.to_nat (rlen r)) dst.
Proof.
  eexists. split; [|done]. unfold p_mpopcopy. destruct (Hix (rout r)) as [E L]. assert (Hr0 : 0 ≤ rlen r) by (unfold rlen, u64, wrap_u; by apply Z.mod_pos_bound).
  rewrite solo_bind. cbn [rd_out solo m_out mem_of app]. rewrite solo_bind. change (Mem (rin r) (rout r) (rdata r)) with (mem_of r). rewrite solo_len. cbn [app]. rewrite decide_True by lia. cbv zeta. set (q := Z.to_nat (min (Z.of_nat (length dst)) (rlen r))).
  assert (Hq : q = Nat.min (length dst) (Z.to_nat (rlen r))) by (unfold q, min; case_decide; lia).
  rewrite (solo_load2 q (λ l1 l2, Z.of_nat (length l1 + length l2))) by lia. cbv zeta. unfold rmpopcopy, gget, gread, mbind, gst_bind, glift. rewrite E. cbn -[u64]. rewrite Hdata, decide_True by lia. cbn -[u64 copy_to]. fold q. rewrite Nat2Z.id. set (j := ix (rout r)) in *.
  assert (Hm : length (take q dst) = q) by (rewrite take_length; lia). unfold copied. rewrite Hm, Nat.sub_0_r, drop_length, Hdata.
  assert (E1 : copy_to (take q dst) 0 (drop j (rdata r)) = take q (drop j (rdata r)) ++ drop (c - j) (take q dst)). { unfold copy_to. by rewrite take_0, Hm, Nat.sub_0_r, drop_length, Hdata. }
  rewrite E1. rewrite !app_length, !take_length, !drop_length, Hm, Hdata. split.
  - unfold mem_of. cbn [rin rout rdata]. do 3 f_equal. lia.
  - unfold copy_to. rewrite !app_length, !take_length, !drop_length, !app_length, !take_length, !drop_length, Hm, Hdata. rewrite (drop_ge (take q _ ++ _)) by (rewrite app_length, take_length, !drop_length, Hm; lia). cbn [length]. rewrite app_nil_r.
    rewrite take_app_alt by (rewrite !app_length, !take_length, app_length, take_length, !drop_length, Hm, Hdata; lia). f_equal; [|f_equal; lia]. rewrite take_app_le by (rewrite take_length, drop_length, Hdata; lia). by rewrite take_take, (Nat.min_l (Nat.min _ _)) by lia.
Qed.
End solo.

Definition index_of {T} (c : nat) (ixr : ring T → Z → go Z) (ix : Z → nat) (r : ring T) : Prop :=
  (ixr = ix_mod ∧ ix = fix_ix c) ∨ (ixr = ix_mask ∧ ix = round_ix c ∧ rmask r = Z.of_nat c - 1).
Definition ring_ok {T} (c : nat) (r : ring T) : Prop := 0 < Z.of_nat c < 2 ^ 63 ∧ rsize r = Z.of_nat c ∧ length (rdata r) = c ∧ rlen r ≤ Z.of_nat c.
Lemma index_ok {T} c ixr ix (r : ring T) : ring_ok c r → index_of c ixr ix r → ∀ z, ixr r z = Ret (Z.of_nat (ix z)) ∧ (ix z < c)%nat.
Proof.
  intros (Hc & Hs & _ & _) [[-> ->]|(-> & -> & Hm)] z.
  - unfold ix_mod, umod, fix_ix. rewrite Hs. pose proof (Z.mod_pos_bound z (Z.of_nat c)). rewrite decide_False by lia. split; [f_equal|]; lia.
  - unfold ix_mask, round_ix. rewrite Hm. assert (0 ≤ Z.land z (Z.of_nat c - 1) ≤ Z.of_nat c - 1).
    { split; [apply Z.land_nonneg; lia|]. rewrite Z.land_comm. pose proof (Z.ldiff_nonneg (Z.of_nat c - 1) z) as Hn. assert (E : Z.land (Z.of_nat c - 1) z + Z.ldiff (Z.of_nat c - 1) z = Z.of_nat c - 1); [|lia].
      rewrite Z.add_nocarry_lxor; [|apply Z.bits_inj'; intros i _; rewrite !Z.land_spec, Z.ldiff_spec, Z.bits_0; destruct (Z.testbit (Z.of_nat c - 1) i), (Z.testbit z i); done]. apply Z.bits_inj'. intros i _. rewrite Z.lxor_spec, Z.land_spec, Z.ldiff_spec. destruct (Z.testbit (Z.of_nat c - 1) i), (Z.testbit z i); done. }
    split; [f_equal|]; lia.
Qed.
(** a producer's call while the consumer rests *)
Theorem spsc_alone_producer {T} c ixr ix (r : ring T) call : ring_ok c r → index_of c ixr ix r →
  ∃ n, ∀ q recv, let s := exec (Cfg (mem_of r) (p_call c ix call) q recv) (replicate n true) in
  match (match call with QPush e => rpush ixr e | QMPush es _ => rmpush ixr es end) r with
  | (Ret _, r') => s = Cfg (mem_of r') (PRet tt) q recv
  | _ => c_prod s = PPanic
  end.
Proof.
  intros Hr Hi. pose proof (index_ok _ _ _ _ Hr Hi) as Hix. destruct Hr as (Hc & Hs & Hd & Hl). destruct (solo_producer (p_call c ix call) (mem_of r)) as [n Hn]. exists n. intros q recv. specialize (Hn q recv). cbv zeta.
  assert (H : agrees (λ _, []) (solo (p_call c ix call) (mem_of r)) ((match call with QPush e => rpush ixr e | QMPush es _ => rmpush ixr es end) r)) by (destruct call; cbn [p_call]; [by apply solo_push|apply solo_mpush; [done..|lia]]).
  unfold agrees in H. destruct (solo _ _) as [[[u m] l]|], (_ r) as [[?| |] r']; try done. by destruct H as [-> _].
Qed.
Print Assumptions spsc_alone_producer.
(** a consumer's call while the producer rests; MPopCopy leaves the rest of its slice as it was *)
Theorem spsc_alone_consumer {T} (dv : T) c ixr ix (r : ring T) : ring_ok c r → index_of c ixr ix r →
  (∃ n, ∀ q recv, let s := exec (Cfg (mem_of r) q (c_call c ix QPop) recv) (replicate n false) in
    match rpop ixr r with (Ret x, r') => s = Cfg (mem_of r') q (PRet tt) (recv ++ [x]) | _ => c_cons s = PPanic end) ∧
  (∀ k, 0 ≤ k → ∃ n, ∀ q recv, let s := exec (Cfg (mem_of r) q (c_call c ix (QMPop k)) recv) (replicate n false) in
    match rmpop dv ixr k r with (Ret l, r') => s = Cfg (mem_of r') q (PRet tt) (recv ++ l) | _ => c_cons s = PPanic end) ∧
  (∀ dst, ∃ n, ∀ q recv, let s := exec (Cfg (mem_of r) q (c_call c ix (QMPopCopy (Z.of_nat (length dst)))) recv) (replicate n false) in
    match rmpopcopy ixr dst r with (Ret l, r') => s = Cfg (mem_of r') q (PRet tt) (recv ++ take (length l - length (drop (Z.to_nat (rlen r)) dst)) l) | _ => c_cons s = PPanic end).
Proof.
  intros Hr Hi. pose proof (index_ok _ _ _ _ Hr Hi) as Hix. destruct Hr as (Hc & Hs & Hd & Hl).
  assert (Hgo : ∀ A (f : A → list T) call y, agrees f (solo (c_call c ix call) (mem_of r)) y → ∃ n, ∀ q recv, let s := exec (Cfg (mem_of r) q (c_call c ix call) recv) (replicate n false) in match y with (Ret a, r') => s = Cfg (mem_of r') q (PRet tt) (recv ++ f a) | _ => c_cons s = PPanic end).
  { intros A f call y H. destruct (solo_consumer (c_call c ix call) (mem_of r)) as [n Hn]. exists n. intros q recv. specialize (Hn q recv). cbv zeta. unfold agrees in H. destruct (solo _ _) as [[[u m] l]|], y as [[?| |] r']; try done. by destruct H as [-> ->]. }
  split_and!.
  - apply (Hgo T (λ x, [x])). by apply (solo_pop c).
  - intros k Hk. apply (Hgo _ (λ l, l)). by apply solo_mpop.
  - intros dst. apply (Hgo _ (λ l, take (length l - length (drop (Z.to_nat (rlen r)) dst)) l)). destruct (solo_mpopcopy c ix ixr r Hd Hl Hix dst) as (rest & H & ->). done.
Qed.
Print Assumptions spsc_alone_consumer.
Example spsc_alone_case : let r := Ring 5 3 4 3 [10; 11; 12; 13] in ring_ok 4 r ∧ index_of 4 ix_mod (fix_ix 4) r ∧ index_of 4 ix_mask (round_ix 4) r ∧
  rpush ix_mask 7 r = (Ret tt, Ring 6 3 4 3 [10; 7; 12; 13]) ∧ rpop ix_mod r = (Ret 13, Ring 5 4 4 3 [10; 11; 12; 13]) ∧ fst (rmpop 0 ix_mod 9 r) = Ret [13; 10] ∧ fst (rmpopcopy ix_mod [1; 2; 3] r) = Ret [13; 10; 3].
Proof. split_and!; try (by vm_compute). - by left. - by right. Qed.
