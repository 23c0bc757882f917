(** * Running the delay queue model on a given schedule *)
From stdpp Require Import relations.
From Verif Require Import GoBase HeapModel DelayQueueModel DelayQueueSpec DelayQueueProofs DelayQueueLive.
Local Open Scope Z_scope.

Section Exec.
  Context {T : Type} (may : nat → call T → Prop) (can : nat → Prop).
  Notation cfg := (cfg T).
  Inductive cmd := XTick (n : Z) | XCall (t : nat) (o : call T) | XCancel (t : nat) | XAct (t : nat) | XTimer (t : nat) | XDone (t : nat) | XComm (s r : nat).
  Definition exec1 (c : cfg) (x : cmd) : option (label * cfg) :=
    match x with
    | XTick n => if decide (clock c ≤ n) then Some (LEnv, set_clock c n) else None
    | XCall t o => match th c t with Idle => Some (LEnv, goto (set_outq (set_cancelled c t false) t (call_outq o (outq c t))) t (start o)) | _ => None end
    | XCancel t => Some (LEnv, set_cancelled c t true)
    | XAct t => match act c t with Some c' => Some (LOne t, c') | None => None end
    | XTimer t => match th c t with TkWait u (Some dl) => if decide (dl ≤ clock c) then Some (LOne t, goto c t (TkSwap u)) else None | _ => None end
    | XDone t => match th c t with TkWait u dl => if cancelled c t then Some (LOne t, take_returns c t u None) else None | _ => None end
    | XComm s r => match th c s, receives (th c r) with PuSend, Some u => Some (LTwo s r, goto (goto c s PuUnlock) r (TkLock u)) | _, _ => None end
    end.
  Definition allowed (x : cmd) : Prop := match x with XCall t o => may t o | XCancel t => can t | _ => True end.
  Lemma exec1_step c x l c' : allowed x → exec1 c x = Some (l, c') → step may can l c c'.
  Proof.
    intros Ha E. destruct x; simpl in *.
    - destruct (decide _); [|done]. injection E as <- <-. by constructor.
    - destruct (th c t) eqn:Et; try done. injection E as <- <-. by constructor.
    - injection E as <- <-. by constructor.
    - destruct (act c t) eqn:Ea; [|done]. injection E as <- <-. by constructor.
    - destruct (th c t) as [| | | | | | | | | | | | | | |u [dl|]| | | | | | | | | | | | |] eqn:Et; try done. destruct (decide _); [|done]. injection E as <- <-. by eapply st_timer.
    - destruct (th c t) eqn:Et; try done. destruct (cancelled c t) eqn:Ec; [|done]. injection E as <- <-. by eapply st_done.
    - destruct (th c s) eqn:Es; try done. destruct (receives (th c r)) eqn:Er; [|done]. injection E as <- <-. by eapply st_comm.
  Qed.
  Fixpoint exec (c : cfg) (l : list cmd) : option cfg :=
    match l with [] => Some c | x :: l => match exec1 c x with Some (_, c') => exec c' l | None => None end end.
  Lemma exec_steps l : ∀ c c', Forall allowed l → exec c l = Some c' → rtc (istep may can) c c'.
  Proof.
    induction l as [|x l IH]; intros c c' HF E; simpl in E; [injection E as <-; constructor|]. apply Forall_cons in HF as [Hx HF].
    destruct (exec1 c x) as [[lb c1]|] eqn:E1; [|done]. eapply rtc_l; [|by apply IH]. exists lb. by eapply exec1_step.
  Qed.
  (** goroutines the schedule does not name stay idle *)
  Definition names (x : cmd) : list nat := match x with XTick _ => [] | XCall t _ | XCancel t | XAct t | XTimer t | XDone t => [t] | XComm s r => [s; r] end.
  Lemma exec1_idle c x l c' t : t ∉ names x → exec1 c x = Some (l, c') → th c' t = th c t.
  Proof.
    intros Hn E. destruct x; simpl in *.
    - destruct (decide _); [|done]. by injection E as <- <-.
    - destruct (th c t0) eqn:Et; try done. injection E as <- <-. simpl. unfold upd. rewrite decide_False; [done|]. intros ->. apply Hn. by left.
    - by injection E as <- <-.
    - destruct (act c t0) eqn:Ea; [|done]. injection E as <- <-. eapply act_frame; [done|]. intros ->. apply Hn. by left.
    - destruct (th c t0) as [| | | | | | | | | | | | | | |u [dl|]| | | | | | | | | | | | |] eqn:Et; try done. destruct (decide _); [|done]. injection E as <- <-. simpl. unfold upd. rewrite decide_False; [done|]. intros ->. apply Hn. by left.
    - destruct (th c t0) eqn:Et; try done. destruct (cancelled c t0) eqn:Ec; [|done]. injection E as <- <-. destruct u; simpl; unfold upd; (rewrite decide_False; [done|]; intros ->; apply Hn; by left).
    - destruct (th c s) eqn:Es; try done. destruct (receives (th c r)) eqn:Er; [|done]. injection E as <- <-. simpl. unfold upd. rewrite !decide_False; [done|..]; intros ->; apply Hn; [by left|right; by left].
  Qed.
  Lemma exec_idle l t : ∀ c c', Forall (λ x, t ∉ names x) l → exec c l = Some c' → th c' t = th c t.
  Proof.
    induction l as [|x l IH]; intros c c' HF E; simpl in E; [by injection E as <-|]. apply Forall_cons in HF as [Hx HF].
    destruct (exec1 c x) as [[lb c1]|] eqn:E1; [|done]. rewrite (IH _ _ HF E). by eapply exec1_idle.
  Qed.

  (** an infinite execution: the schedule, then the clock ticks for ever *)
  Definition nth_cmd (l : list cmd) (c : cfg) (n : nat) : cmd := match l !! n with Some x => x | None => XTick (clock c + 1) end.
  Fixpoint run_of (c : cfg) (l : list cmd) (n : nat) : cfg :=
    match n with O => c | S n => let c' := run_of c l n in match exec1 c' (nth_cmd l c' n) with Some (_, c'') => c'' | None => c' end end.
  Definition lab_of (c : cfg) (l : list cmd) (n : nat) : label :=
    let c' := run_of c l n in match exec1 c' (nth_cmd l c' n) with Some (lb, _) => lb | None => LEnv end.
  Lemma run_of_idle l t c n : Forall (λ x, t ∉ names x) l → th (run_of c l n) t = th c t.
  Proof.
    intros HF. induction n as [|n IH]; [done|]. cbn [run_of]. destruct (exec1 _ _) as [[lb c1]|] eqn:E1; [|done].
    erewrite exec1_idle; [exact IH| |exact E1]. unfold nth_cmd. destruct (l !! n) as [x|] eqn:Ex; [|simpl; set_solver].
    exact (proj1 (Forall_lookup _ _) HF _ _ Ex).
  Qed.
  Lemma run_tail c l m k : (length l ≤ m)%nat → th (run_of c l (m + k)) = th (run_of c l m) ∧ mutex (run_of c l (m + k)) = mutex (run_of c l m) ∧
    clock (run_of c l (m + k)) = clock (run_of c l m) + Z.of_nat k.
  Proof.
    intros Hm. induction k as [|k (Ht & Hx & Hc)]; [rewrite Nat.add_0_r; split_and!; [done..|lia]|].
    replace (m + S k)%nat with (S (m + k)) by lia. cbn [run_of]. unfold nth_cmd. rewrite lookup_ge_None_2 by lia.
    cbn [exec1]. rewrite decide_True by lia. cbn [th mutex clock set_clock]. split_and!; [done|done|lia].
  Qed.
End Exec.
Arguments cmd : clear implicits.
