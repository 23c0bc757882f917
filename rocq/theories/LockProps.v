(** * Theorems about lock-protected objects (C35) *)
From stdpp Require Import gmap.
From Verif Require Import GoBase LockModel LockSpec LockProofs.

(** Whatever the schedule, the calls that have left their critical section, taken
    in the order they left it, run one at a time give exactly the results they
    returned; the order respects real time; when nobody holds the write lock the
    object is in the state that sequence leads to. *)
Theorem lock_linearizable : ∀ S I O R (mode : O → lmode) (code : O → body S I R) s0 c,
  (∀ o, mode o = MR → readonly (code o)) → reachable mode code s0 c →
  (∃ sb, one_at_a_time code s0 (log c) sb ∧ (writer c = None → sh c = sb)) ∧
  accounted (log c) (rets c) ∧ real_time (log c) (rets c).
Proof.
  intros S I O R mode code s0 c Hro Hr. pose proof (reach_inv mode code Hro s0 c Hr) as Hi.
  split; [|split; [by apply (i_rets _ _ _ _ Hi)|by eapply inv_real_time]].
  destruct (i_state _ _ _ _ Hi) as (sb & H1 & H2 & _). by exists sb.
Qed.
Print Assumptions lock_linearizable.
(** no data race: while a call that may write is inside, nobody else is *)
Theorem lock_exclusive : ∀ S I O R (mode : O → lmode) (code : O → body S I R) s0 c t u o iv ins p o' iv' ins' p',
  (∀ o, mode o = MR → readonly (code o)) → reachable mode code s0 c →
  thr c t = TIn o iv ins p → mode o = MW → thr c u = TIn o' iv' ins' p' → u = t.
Proof.
  intros S I O R mode code s0 c t u o iv ins p o' iv' ins' p' Hro Hr Ht Hm Hu.
  pose proof (reach_inv mode code Hro s0 c Hr) as Hi. destruct (i_lock _ _ _ _ Hi t _ _ _ _ Ht) as [H1 _]. specialize (H1 Hm).
  destruct (i_lock _ _ _ _ Hi u _ _ _ _ Hu) as [H2 H3]. destruct (mode o') eqn:E; [|specialize (H2 eq_refl); congruence].
  destruct (H3 eq_refl) as (_ & ? & _). congruence.
Qed.
Print Assumptions lock_exclusive.
(** no deadlock: unless every goroutine is outside of a call, one inside a call can move *)
Theorem lock_progress : ∀ S I O R (mode : O → lmode) (code : O → body S I R) s0 c t (i0 : I),
  (∀ o, mode o = MR → readonly (code o)) → reachable mode code s0 c → thr c t ≠ TIdle →
  ∃ u c', thr c u ≠ TIdle ∧ step mode code c c' ∧ ∀ v, v ≠ u → thr c' v = thr c v.
Proof.
  intros S I O R mode code s0 c t i0 Hro Hr Ht. pose proof (reach_inv mode code Hro s0 c Hr) as Hi.
  assert (∀ u o iv ins p, thr c u = TIn o iv ins p → ∃ u c', thr c u ≠ TIdle ∧ step mode code c c' ∧ ∀ v, v ≠ u → thr c' v = thr c v) as Hin.
  { intros u o iv ins p Hu. exists u. destruct c as [n s w rs th lg rt sn]. simpl in *. destruct p as [r|f|k].
    - destruct (mode o) eqn:E; eexists; (split; [by rewrite Hu|]); [split; [by eapply s_runlock|]|split; [by eapply s_unlock|]]; intros v Hv; simpl; by apply upd_ne.
    - destruct (f s) as [s' p'] eqn:E. eexists. split; [by rewrite Hu|]. split; [by eapply s_act|]. intros v Hv. simpl. by apply upd_ne.
    - eexists. split; [by rewrite Hu|]. split; [by eapply (s_ask _ _ _ _ _ _ _ _ _ _ _ _ _ _ _ i0)|]. intros v Hv. simpl. by apply upd_ne. }
  destruct (thr c t) as [|o iv|o iv ins p|o iv r] eqn:E; [done| |by eapply Hin|].
  - destruct (writer c) as [w|] eqn:Ew.
    { destruct (i_writer _ _ _ _ Hi w Ew) as (_ & o1 & iv1 & ins1 & p1 & E1 & _). by eapply Hin. }
    destruct (readers c) as [|r rs] eqn:Er.
    2:{ destruct (i_readers _ _ _ _ Hi r) as (o1 & iv1 & ins1 & p1 & E1 & _); [rewrite Er; by left|]. by eapply Hin. }
    exists t. destruct c as [n s w rs th lg rt sn]. simpl in *. subst w rs. destruct (mode o) eqn:Em; eexists; (split; [by rewrite E|]);
      [split; [by eapply s_rlock|]|split; [by eapply s_lock|]]; intros v Hv; simpl; by apply upd_ne.
  - exists t. destruct c as [n s w rs th lg rt sn]. simpl in *. eexists. split; [by rewrite E|]. split; [by eapply s_ret|]. intros v Hv. simpl. by apply upd_ne.
Qed.
Print Assumptions lock_progress.
