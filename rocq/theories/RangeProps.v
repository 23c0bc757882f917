(** * RLockRange and LockRange: theorems *)
From stdpp Require Import gmap.
From Verif Require Import GoBase LockModel MapsModel RangeModel RangeSpec RangeProofs.

(** no execution is infinite, whatever the callbacks do *)
Theorem range_finite : ∀ (K W : Type) `{Countable K} (o : option (gmap K (option W))) ps c, reached o ps c → sn cstep c.
Proof.
  intros K W ? ? o ps c Hr. apply conf_sn. assert (Hi : Forall (sn lrel) (c_thr (start o ps))) by apply start_sn. unfold reached in Hr. revert Hi. induction Hr as [|x y z Hs _ IH]; [done|]. intros Hi. apply IH. by eapply lrel_sn_step.
Qed.
(** callbacks that take no lock: executions end with all calls returned, or panicked by a callback, and the
    mutex free *)
Theorem range_returns : ∀ (K W : Type) `{Countable K} (o : option (gmap K (option W))) ps c,
  Forall client_ok ps → reached o ps c → stuck c → all_finished c ∧ c_mu c = RW [] [] None.
Proof.
  intros K W ? ? o ps c Hp Hr Hs. destruct (inv_reached o ps c Hp Hr) as [ph Hi].
  assert (Hfin : ∀ t th, c_thr c !! t = Some th → finished th).
  { intros t th Hl. destruct th as [x fs]. assert (Hd : finished (x, fs) ∨ ¬ finished (x, fs)) by (destruct x, fs; first [left; by left|left; by right|right; intros [[=]|[=]]]). destruct Hd as [|Hd]; [done|]. exfalso. destruct (progress ph c t _ Hi Hl Hd) as [c' Hc]. by apply (Hs c'). }
  assert (Hout : ∀ t, ph t = Out). { intros t. destruct (c_thr c !! t) as [th|] eqn:E; [|by apply (i_out _ _ Hi)]. pose proof (i_ty _ _ Hi _ _ E) as Ht. destruct (Hfin t th E) as [->| ->]; inversion Ht as [? Hx|? ? Hx|? ? Hx|? ? ? Hx Hf]; subst; try done; first [inversion Hx; done|inversion Hf]. }
  split; [intros th Hth; apply elem_of_list_lookup in Hth as [t Ht]; by eapply Hfin|]. pose proof (i_mu _ _ Hi) as Hm. destruct (c_mu c) as [g q w] eqn:E.
  assert (g = []) as ->. { destruct g as [|t g]; [done|]. assert (Ht : t ∈ granted (RW (t :: g) q w)) by (left). apply (m_granted _ _ Hm) in Ht. rewrite Hout in Ht. naive_solver. }
  assert (q = []) as ->. { destruct q as [|t q]; [done|]. assert (Ht : t ∈ queued (RW [] (t :: q) w)) by (left). apply (m_queued _ _ Hm) in Ht. rewrite Hout in Ht. done. }
  destruct w as [t|]; [|done]. exfalso. assert (Ht : owner (RW [] [] (Some t)) = Some t) by done. apply (m_owner _ _ Hm) in Ht. rewrite Hout in Ht. naive_solver.
Qed.
(** and no access to the map races with a write *)
Theorem range_race_free : ∀ (K W : Type) `{Countable K} (o : option (gmap K (option W))) ps c, Forall client_ok ps → reached o ps c → ¬ race c.
Proof.
  intros K W ? ? o ps c Hp Hr (t & u & a & b & Hn & Ha & Hb & Hw & Hac). destruct (inv_reached o ps c Hp Hr) as [ph Hi]. pose proof (tty_writes _ _ (i_ty _ _ Hi _ _ Ha) Hw) as E1. destruct (tty_accesses _ _ (i_ty _ _ Hi _ _ Hb) Hac) as [m E2].
  by apply (writer_alone ph (c_mu c) t u (i_mu _ _ Hi) E1 (not_eq_sym Hn) m).
Qed.
(** a range with a callback that only reads passes every entry of one state of the map exactly once *)
Theorem range_entries : ∀ (K W : Type) `{Countable K} (o : option (gmap K (option W))) ps c e,
  Forall client_ok ps → reached o ps c → e ∈ c_evs c → callback false (ev_fun e) → ev_start e = ev_end e ∧ ev_log e ≡ₚ pairs (ev_start e).
Proof. intros K W ? ? o ps c e Hp Hr He Hc. destruct (inv_reached o ps c Hp Hr) as [ph Hi]. pose proof (i_ev _ _ Hi) as Hev. rewrite Forall_forall in Hev. by apply (Hev e He). Qed.
(** one that deletes the entries of a kind as it meets them passes every entry once and leaves exactly the others *)
Theorem range_delete : ∀ (K W : Type) `{Countable K} (o : option (gmap K (option W))) ps c e P,
  Forall client_ok ps → reached o ps c → e ∈ c_evs c → ev_fun e = del_if P → without P (ev_start e) (ev_end e) ∧ ev_log e ≡ₚ pairs (ev_start e).
Proof. intros K W ? ? o ps c e P Hp Hr He Hc. destruct (inv_reached o ps c Hp Hr) as [ph Hi]. pose proof (i_ev _ _ Hi) as Hev. rewrite Forall_forall in Hev. by apply (Hev e He). Qed.

(** a panic of a callback goes all the way out *)
Lemma unwinding_step {K W} `{Countable K} t (o : option (gmap K (option W))) mu th o' mu' th' ev : tstep t o mu th o' mu' th' ev → unwinding th → unwinding th'.
Proof.
  destruct 1 as [| | | | | | |? ? ? ? c|? ? ? c| | | | |? ? d]; unfold unwinding; simpl; try done.
  - by destruct c.
  - by destruct c.
  - by destruct d.
Qed.
Theorem range_panics : ∀ (K W : Type) `{Countable K} (o : option (gmap K (option W))) ps c c' t fs,
  Forall client_ok ps → reached o ps c → c_thr c !! t = Some (Throw, fs) → rtc cstep c c' → stuck c' → c_thr c' !! t = Some (Throw, []).
Proof.
  intros K W ? ? o ps c c' t fs Hp Hr Ht Hc Hs. assert (Hu : ∃ th, c_thr c' !! t = Some th ∧ unwinding th).
  { assert (Hu : ∃ th, c_thr c !! t = Some th ∧ unwinding th) by (by eexists). clear Hr Ht Hs. induction Hc as [|x y z Hxy _ IH]; [done|]. apply IH. destruct Hu as (th & Hth & Hu). destruct Hxy as [o1 mu ths evs u th1 o' mu' th' ev Hl Hst]. simpl in *.
    destruct (decide (u = t)) as [->|Hn]; [|exists th; by rewrite list_lookup_insert_ne]. exists th'. rewrite list_lookup_insert by (by eapply lookup_lt_Some). split; [done|]. eapply unwinding_step; [done|]. congruence. }
  destruct Hu as (th & Hth & Hu). etrans; [exact Hth|]. f_equal. destruct (range_returns K W o ps c' Hp) as [Hf _]; [unfold reached; by etrans|done|].
  destruct (Hf th ltac:(by eapply elem_of_list_lookup_2)) as [->| ->]; done.
Qed.
(** what the other calls do when nobody else is there *)
Theorem range_calls : ∀ (K W : Type) `{Countable K} (o : option (gmap K (option W))) x k evs,
  match x with CRRange _ | CLRange _ => False | _ => True end →
  ∃ a o', does x o a o' ∧ rtc cstep (Conf o (RW [] [] None) [(client_cmd (Call x k), [])] evs) (Conf o' (RW [] [] None) [(client_cmd (k a), [])] evs).
Proof.
  intros K W ? ? o x k evs Hx.
  assert (Hstep : ∀ o mu th o' mu' th' c, tstep 0 o mu th o' mu' th' [] → rtc cstep (Conf o' mu' [th'] evs) c → rtc cstep (Conf o mu [th] evs) c).
  { intros o1 mu th o' mu' th' c Hs Hr. eapply rtc_l; [|exact Hr]. pose proof (c_step o1 mu [th] evs 0 th o' mu' th' [] eq_refl Hs) as Hc. by rewrite app_nil_r in Hc. }
  assert (Hread : ∀ o c c', rtc cstep (Conf o (RW [0] [] None) [(c, [])] evs) c' → rtc cstep (Conf o (RW [] [] None) [(Lk MR c, [])] evs) c') by (intros o1 c c' Hr; eapply Hstep; [apply t_rlock|done]).
  assert (Hrunl : ∀ o c c', rtc cstep (Conf o (RW [] [] None) [(c, [])] evs) c' → rtc cstep (Conf o (RW [0] [] None) [(Ul MR c, [])] evs) c') by (intros o1 c c' Hr; eapply Hstep; [apply t_runl; left|done]).
  assert (Hwrite : ∀ o c c', rtc cstep (Conf o (RW [] [] (Some 0)) [(c, [])] evs) c' → rtc cstep (Conf o (RW [] [] None) [(Lk MW c, [])] evs) c') by (intros o1 c c' Hr; eapply Hstep; [apply t_ann|]; eapply Hstep; [apply t_wgo|done]).
  assert (Hwunl : ∀ o c c', rtc cstep (Conf o (RW [] [] None) [(c, [])] evs) c' → rtc cstep (Conf o (RW [] [] (Some 0)) [(Ul MW c, [])] evs) c') by (intros o1 c c' Hr; eapply Hstep; [apply t_wunl|done]).
  assert (Hinit : ∀ o mu c c', rtc cstep (Conf (Some (content o)) mu [(c, [])] evs) c' → rtc cstep (Conf o mu [(c_init c, [])] evs) c').
  { intros o1 mu c c' Hr. eapply Hstep; [apply t_rd|]. destruct o1 as [m|]; [done|]. eapply Hstep; [apply t_wr|done]. }
  destruct x as [q|q v|q v|q| |f|f]; [| | | | |done..].
  - eexists _, o. split; [by split|]. apply Hread. eapply Hstep; [apply t_rd|]. destruct o as [m|]; [eapply Hstep; [apply t_rd|]|]; apply Hrunl; [|done]. simpl. unfold index. simpl. by destruct (m !! q).
  - exists AUnit, (Some (<[q := v]> (content o))). split; [done|]. apply Hwrite, Hinit. eapply Hstep; [apply t_wr|]. by apply Hwunl.
  - simpl does. destruct (content o !! q) as [v'|] eqn:E.
    + exists (AVal v'), (Some (content o)). split; [done|]. apply Hwrite, Hinit. eapply Hstep; [apply t_rd|]. simpl. rewrite E. by apply Hwunl.
    + exists (AVal None), (Some (<[q := v]> (content o))). split; [done|]. apply Hwrite, Hinit. eapply Hstep; [apply t_rd|]. simpl. rewrite E. eapply Hstep; [apply t_wr|]. by apply Hwunl.
  - exists AUnit, (Some (delete q (content o))). split; [done|]. apply Hwrite, Hinit. eapply Hstep; [apply t_wr|]. by apply Hwunl.
  - eexists _, o. split; [by split|]. apply Hread. eapply Hstep; [apply t_rd|]. destruct o as [m|]; [eapply Hstep; [apply t_rd|]|]; by apply Hrunl.
Qed.

(** ** Callbacks that use the map *)
Definition one : option (gmap nat (option nat)) := Some {[ 0 := Some 7 ]}.
Definition get_again : nat → option nat → cmd nat nat := λ k v, call_cmd (CGet k) (λ _, Done).
Definition len_again : nat → option nat → cmd nat nat := λ k v, call_cmd CLen (λ _, Done).
Definition set_unsafe : nat → option nat → cmd nat nat := λ k v, u_set k None Done.
(** RLockRange whose callback calls Get, and a Set that comes in between: neither ever returns *)
Lemma rlock_range_reentrant : ∃ c, reached one [Call (CRRange get_again) (λ _, Stop); Call (CSet 0 None) (λ _, Stop)] c ∧ stuck c ∧ ∀ th, th ∈ c_thr c → ¬ finished th.
Proof.
  eexists. split; [|split].
  - unfold reached, start. simpl. eapply rtc_l; [eapply (c_step _ _ _ _ 0); [reflexivity|apply t_rlock]|simpl]. eapply rtc_l; [eapply (c_step _ _ _ _ 0); [reflexivity|apply t_rd]|simpl]. eapply rtc_l; [eapply (c_step _ _ _ _ 0); [reflexivity|apply (t_rng _ _ _ _ _ _ _ 0)]|simpl]. eapply rtc_l; [eapply (c_step _ _ _ _ 0); [reflexivity|eapply t_next; [reflexivity|apply lookup_singleton|set_solver]]|simpl]. eapply rtc_l; [eapply (c_step _ _ _ _ 1); [reflexivity|apply t_ann]|simpl]. eapply rtc_l; [eapply (c_step _ _ _ _ 0); [reflexivity|apply t_rwait]|simpl]. apply rtc_refl.
  - intros c' Hc. inversion Hc as [o mu ths evs t th o' mu' th' ev Hl Hs]; subst. destruct t as [|[|t]]; simpl in Hl; [| |done]; injection Hl as <-; inversion Hs; subst; set_solver.
  - intros th Hth. simpl in Hth. rewrite !elem_of_cons in Hth. destruct Hth as [->|[->|Hth]]; [intros [[=]|[=]]..|by apply elem_of_nil in Hth].
Qed.
(** LockRange whose callback calls Len never returns, with no other goroutine at all *)
Lemma lock_range_reentrant : ∃ c, reached one [Call (CLRange len_again) (λ _, Stop)] c ∧ stuck c ∧ ∀ th, th ∈ c_thr c → ¬ finished th.
Proof.
  eexists. split; [|split].
  - unfold reached, start. simpl. eapply rtc_l; [eapply (c_step _ _ _ _ 0); [reflexivity|apply t_ann]|simpl]. eapply rtc_l; [eapply (c_step _ _ _ _ 0); [reflexivity|apply t_wgo]|simpl]. eapply rtc_l; [eapply (c_step _ _ _ _ 0); [reflexivity|apply t_rd]|simpl]. eapply rtc_l; [eapply (c_step _ _ _ _ 0); [reflexivity|apply (t_rng _ _ _ _ _ _ _ 0)]|simpl]. eapply rtc_l; [eapply (c_step _ _ _ _ 0); [reflexivity|eapply t_next; [reflexivity|apply lookup_singleton|set_solver]]|simpl]. eapply rtc_l; [eapply (c_step _ _ _ _ 0); [reflexivity|apply t_rwait]|simpl]. apply rtc_refl.
  - intros c' Hc. inversion Hc as [o mu ths evs t th o' mu' th' ev Hl Hs]; subst. destruct t as [|t]; simpl in Hl; [|done]; injection Hl as <-; inversion Hs; subst; set_solver.
  - intros th Hth. simpl in Hth. rewrite !elem_of_cons in Hth. destruct Hth as [->|Hth]; [intros [[=]|[=]]|by apply elem_of_nil in Hth].
Qed.
(** RLockRange whose callback calls UnsafeSet races with a Get *)
Lemma rlock_range_race : ∃ c, reached one [Call (CRRange set_unsafe) (λ _, Stop); Call (CGet 0) (λ _, Stop)] c ∧ race c.
Proof.
  eexists. split.
  - unfold reached, start. simpl. eapply rtc_l; [eapply (c_step _ _ _ _ 0); [reflexivity|apply t_rlock]|simpl]. eapply rtc_l; [eapply (c_step _ _ _ _ 0); [reflexivity|apply t_rd]|simpl]. eapply rtc_l; [eapply (c_step _ _ _ _ 0); [reflexivity|apply (t_rng _ _ _ _ _ _ _ 0)]|simpl]. eapply rtc_l; [eapply (c_step _ _ _ _ 0); [reflexivity|eapply t_next; [reflexivity|apply lookup_singleton|set_solver]]|simpl]. eapply rtc_l; [eapply (c_step _ _ _ _ 0); [reflexivity|apply t_rd]|simpl]. eapply rtc_l; [eapply (c_step _ _ _ _ 1); [reflexivity|apply t_rlock]|simpl]. apply rtc_refl.
  - exists 0, 1. by do 2 eexists.
Qed.
Theorem range_reentrant_refuted : (∃ ps c, reached one ps c ∧ stuck c ∧ length ps = 2 ∧ ∀ th, th ∈ c_thr c → ¬ finished th) ∧
  (∃ p c, reached one [p] c ∧ stuck c ∧ ¬ all_finished c) ∧ (∃ ps c, reached one ps c ∧ race c).
Proof.
  split; [|split].
  - destruct rlock_range_reentrant as (c & H1 & H2 & H3). by eexists _, c.
  - destruct lock_range_reentrant as (c & H1 & H2 & H3). eexists _, c. split; [exact H1|]. split; [exact H2|]. intros Hf. destruct c as [o mu ths evs]. destruct ths as [|th ths]; [|exact (H3 th ltac:(left) (Hf th ltac:(left)))].
    assert (Hlen : ∀ x y : conf nat nat, rtc cstep x y → length (c_thr x) = length (c_thr y)) by (induction 1 as [|x y z Hs _ IH]; [done|]; rewrite <- IH; inversion Hs; subst; simpl; by rewrite insert_length). by apply Hlen in H1.
  - destruct rlock_range_race as (c & H1 & H2). by eexists _, c.
Qed.

(** a map of two entries: one goroutine deletes the first, another ranges over the rest *)
Definition two : option (gmap nat (option nat)) := Some {[ 0 := Some 7; 1 := None ]}.
Definition sample : list (client nat nat) := [Call (CLRange (del_if (λ k _, Nat.eqb k 0))) (λ _, Stop); Call (CRRange (λ k v, Done)) (λ _, Call CLen (λ _, Stop))].
Lemma sample_ok : Forall client_ok sample.
Proof. repeat constructor; intros k v; unfold del_if; simpl; try destruct (Nat.eqb k 0); repeat first [constructor|intros ?|case_match]. Qed.
Example range_ex : Forall client_ok sample ∧ ∃ c e, reached two sample c ∧ e ∈ c_evs c ∧ ev_log e = [(1, None); (0, Some 7)] ∧ match ev_end e with Some m => m !! 0 = None ∧ m !! 1 = Some None | None => False end.
Proof.
  split; [apply sample_ok|]. eexists _, _. split; [|split].
  - unfold reached, start. simpl. eapply rtc_l; [eapply (c_step _ _ _ _ 0); [reflexivity|apply t_ann]|simpl]. eapply rtc_l; [eapply (c_step _ _ _ _ 0); [reflexivity|apply t_wgo]|simpl]. eapply rtc_l; [eapply (c_step _ _ _ _ 0); [reflexivity|apply t_rd]|simpl]. eapply rtc_l; [eapply (c_step _ _ _ _ 0); [reflexivity|apply (t_rng _ _ _ _ _ _ _ 0)]|simpl]. eapply rtc_l; [eapply (c_step _ _ _ _ 0); [reflexivity|eapply (t_next _ _ _ _ _ _ _ _ _ _ _ _ _ 1); [reflexivity|vm_compute; reflexivity|apply (bool_decide_unpack _); by vm_compute]]|simpl]. eapply rtc_l; [eapply (c_step _ _ _ _ 0); [reflexivity|eapply (t_next _ _ _ _ _ _ _ _ _ _ _ _ _ 0); [reflexivity|vm_compute; reflexivity|apply (bool_decide_unpack _); by vm_compute]]|simpl]. eapply rtc_l; [eapply (c_step _ _ _ _ 0); [reflexivity|apply t_rd]|simpl]. eapply rtc_l; [eapply (c_step _ _ _ _ 0); [reflexivity|apply t_wr]|simpl]. eapply rtc_l; [eapply (c_step _ _ _ _ 0); [reflexivity|apply t_end; apply (bool_decide_unpack _); by vm_compute]|simpl]. apply rtc_refl.
  - simpl. left.
  - split; [vm_compute; reflexivity|]. split; vm_compute; reflexivity.
Qed.
