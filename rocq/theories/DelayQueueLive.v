(** * Liveness of the delay queue with one taker *)
From stdpp Require Import relations sorting.
From Verif Require Import GoBase HeapModel HeapSpec HeapProofs HeapMethods DelayQueueModel DelayQueueSpec DelayQueueProofs DelayQueueSolo.
Local Open Scope Z_scope.

Global Instance involves_dec l t : Decision (involves l t).
Proof. destruct l; simpl; apply _. Defined.

Section Steps.
  Context {T : Type} (may : nat → call T → Prop) (can : nat → Prop).
  Notation cfg := (cfg T).
  Lemma act_frame (c c' : cfg) t u : act c t = Some c' → u ≠ t → th c' u = th c u.
  Proof. intros E Hne. act_cases E Et; simpl; unfold upd; by rewrite decide_False. Qed.
  Lemma step_other l (c c' : cfg) t : step may can l c c' → ¬ involves l t → th c t ≠ Idle → th c' t = th c t.
  Proof.
    intros Hs Hi Hn. destruct Hs as [c n Hc|c u o b Hu Hmay Hb|c u Hu|c u c' E|c u k dl Hu Hdl|c u k dl Hu Hcn|c s r' k Hs' Hr|c u e cap q Hq|c u e cap Hq Hu]; simpl in *; try done.
    - unfold upd. rewrite decide_False; [done|congruence].
    - by eapply act_frame.
    - unfold upd. rewrite decide_False; [done|congruence].
    - destruct k; simpl; unfold upd; by rewrite decide_False.
    - unfold upd. rewrite !decide_False; [done|intros ->; tauto..].
    - unfold upd. rewrite decide_False; [done|congruence].
  Qed.
  Lemma step_clock l (c c' : cfg) : step may can l c c' → clock c ≤ clock c'.
  Proof. intros Hs. destruct Hs as [| | |c u c' E| |c u k| | |]; simpl; try lia; [|by destruct k]. act_cases E Et; simpl; lia. Qed.
  (** how the mutex moves *)
  Lemma act_mutex (c c' : cfg) t : act c t = Some c' → mutex c' = mutex c ∨ (mutex c' = None ∧ holds (th c t) = true) ∨ (mutex c = None ∧ mutex c' = Some t).
  Proof. intros E. act_cases E Et; simpl; rewrite ?Et; simpl; tauto. Qed.
  Lemma holder_stays l (c c' : cfg) t : mut c → step may can l c c' → ¬ involves l t → mutex c = Some t → mutex c' = Some t ∧ th c' t = th c t.
  Proof.
    intros HM Hs Hi Hm. assert (th c t ≠ Idle) as Hn by (intros Hn; apply HM in Hm; by rewrite Hn in Hm).
    split; [|by eapply step_other]. destruct Hs as [| | |c u c' E| |c u k| | |]; simpl in *; try done; [|by destruct k].
    destruct (act_mutex _ _ _ E) as [->|[[_ Hh]|[Hx _]]]; [done| |congruence]. exfalso. apply Hi. apply HM in Hh. congruence.
  Qed.
  (** how far a holder of the mutex is from releasing it *)
  Definition rank (p : pc T) : nat :=
    match p with
    | PuNow _ _ => 6 | PuHeap _ _ _ => 5 | PuPeek _ => 4 | PuCas => 3 | PuSend => 2 | PuUnlock => 1
    | TkHead _ => 4 | TkNow _ _ => 3 | TkPop _ _ _ => 2 | TkSleep _ _ => 2 | TkFound _ _ => 1 | TkUnlock _ _ => 1
    | PoHead => 4 | PoNow _ => 3 | PoPop _ _ => 2 | PoUnlock _ => 1 | LkHead _ => 2 | LkUnlock _ => 1
    | _ => 0
    end%nat.
  Lemma holder_acts (c : cfg) t : holds (th c t) = true → th c t ≠ PuSend → th c t ≠ Crash → ∃ c', act c t = Some c'.
  Proof. intros Hh Hn Hc. unfold act. destruct (th c t) as [| | | | | | | | | | | | | | | | | | | | | | | |[]| | | |]; try done; by eexists. Qed.
  Lemma holder_moves l (c c' : cfg) t : mut c → data c' → step may can l c c' → involves l t → mutex c = Some t →
    (mutex c' = Some t ∧ (rank (th c' t) < rank (th c t))%nat ∧ taking (th c' t) = taking (th c t)) ∨ (mutex c' = None ∧ (taking (th c t) = false → th c' t = Idle)).
  Proof.
    intros HM HD' Hs Hi Hm. pose proof (proj2 (HM t) Hm) as Hh.
    destruct Hs as [c n Hc|c u o b Hu Hmay Hb|c u Hu|c u c' E|c u k dl Hu Hdl|c u k dl Hu Hcn|c s r' k Hs' Hr|c u e cap q Hq|c u e cap Hq Hu]; simpl in Hi; try done; subst; try (by rewrite Hu in Hh).
    - assert (th c' t ≠ Crash) as Hb by (intros Hc; pose proof (d_pc c' HD' t) as Hp; by rewrite Hc in Hp).
      act_cases E Et; rewrite Et in Hh; try done; simpl in *; unfold upd in *; rewrite ?decide_True in * by done; rewrite ?Et; simpl; try done; try (left; split_and!; [done|lia|done]); try (by right).
    - destruct Hi as [->| ->].
      + left. simpl. unfold upd. rewrite Hs'. simpl. destruct (decide (t = r')) as [->|]; [by rewrite Hs' in Hr|]. rewrite decide_True by done. simpl. split_and!; [done|lia|done].
      + by destruct (th c t).
  Qed.
  Lemma heap_stays l (c c' : cfg) e : data c → step may can l c c' → e ∈ heap c → e ∈ heap c' ∨ e ∉ heap c'.
  Proof.
    intros HD Hs He. destruct Hs as [| | |c t c' E| |c u k| | |]; simpl in *; try (by left); [|by destruct k; left].
    pose proof (d_ord c HD) as Ho. pose proof (d_pc c HD t) as Hpc.
    assert (Hnd : NoDup (eid <$> heap c)).
    { pose proof (d_nodup c HD) as Hn. unfold pids in Hn. rewrite (hist_perm _ _ (d_hist c HD)), fmap_app in Hn. by apply NoDup_app in Hn as (_ & _ & ?). }
    act_cases E Et; rewrite Et in Hpc; simpl; try (by left).
    - destruct (push_ok (heap c) e0 Ho) as (h' & Eh' & HPp & _). rewrite Heqg in Eh'. injection Eh' as ->. left. rewrite HPp. by right.
    - destruct (pop_head (heap c) e0 Ho ltac:(apply Hpc)) as (h' & Eh' & HPp & _). rewrite Heqg in Eh'. injection Eh' as -> ->. rewrite HPp in He, Hnd. simpl in Hnd.
      apply NoDup_cons in Hnd as [Hx _]. apply elem_of_cons in He as [->|He]; [|by left]. right. intros Hin. by apply Hx, elem_of_list_fmap_1.
    - destruct (pop_head (heap c) e0 Ho ltac:(apply Hpc)) as (h' & Eh' & HPp & _). rewrite Heqg in Eh'. injection Eh' as -> ->. rewrite HPp in He, Hnd. simpl in Hnd.
      apply NoDup_cons in Hnd as [Hx _]. apply elem_of_cons in He as [->|He]; [|by left]. right. intros Hin. by apply Hx, elem_of_list_fmap_1.
  Qed.
  Lemma heap_held l (c c' : cfg) t : mut c → step may can l c c' → mutex c = Some t → ¬ involves l t → heap c' = heap c.
  Proof.
    intros HM Hs Hm Hi. destruct Hs as [| | |c u c' E| |c u k| | |]; simpl in *; try done; [|by destruct k].
    act_cases E Et; simpl; try done; exfalso; apply Hi; assert (holds (th c u) = true) as Hh by (by rewrite Et); apply HM in Hh; congruence.
  Qed.
  Lemma step_by l (c c' : cfg) t : step may can l c c' → involves l t →
    (act c t = Some c' ∧ l = LOne t) ∨
    (∃ u dl, th c t = TkWait u (Some dl) ∧ c' = goto c t (TkSwap u)) ∨
    (∃ u dl, th c t = TkWait u dl ∧ cancelled c t = true) ∨
    (∃ s r u, l = LTwo s r ∧ (s = t ∨ r = t) ∧ th c s = PuSend ∧ receives (th c r) = Some u ∧ c' = goto (goto c s PuUnlock) r (TkLock u)) ∨
    (∃ e, th c t = ChSend e).
  Proof.
    intros Hs Hi. destruct Hs as [c n Hc|c u o b Hu Hmay Hb|c u Hu|c u c' E|c u k dl Hu Hdl|c u k dl Hu Hcn|c s r' k Hs' Hr|c u e cap q Hq|c u e cap Hq Hu]; simpl in Hi; try done; subst.
    - by left.
    - right; left. by exists k, dl.
    - right; right; left. by exists k, dl.
    - right; right; right; left. by exists s, r', k.
    - right; right; right; right. by exists e.
  Qed.
End Steps.

Section Live.
  Context {T : Type} (r : nat) (now : Z) (run : nat → cfg T) (lab : nat → label).
  Notation may := (solo_may (T := T) r).
  Notation can := solo_can.
  Context (HE : execution may can now run lab) (HF : fair may can run lab) (HL : lock_fair run).

  Lemma run_inv n : mut (run n) ∧ data (run n) ∧ solo r (run n).
  Proof.
    apply (solo_reach r now). destruct HE as [H0 HS]. induction n as [|n IH]; [by rewrite H0; left|].
    eapply rtc_r; [exact IH|]. exists (lab n). apply HS.
  Qed.
  Lemma run_step n : step may can (lab n) (run n) (run (S n)).
  Proof. apply HE. Qed.
  Lemma run_clock n m : (n ≤ m)%nat → clock (run n) ≤ clock (run m).
  Proof. induction 1 as [|m Hm IH]; [lia|]. pose proof (step_clock _ _ _ _ _ (run_step m)). lia. Qed.

  (** the weak fairness rule *)
  Lemma until (P Q : cfg T → Prop) t n : P (run n) →
    (∀ k, (n ≤ k)%nat → P (run k) → ¬ involves (lab k) t → P (run (S k)) ∨ Q (run (S k))) →
    (∀ k, (n ≤ k)%nat → P (run k) → enabled may can t (run k)) →
    ∃ k, (n ≤ k)%nat ∧ ((P (run k) ∧ involves (lab k) t) ∨ Q (run k)).
  Proof.
    intros HP Hst Hen. destruct (HF t n) as (m & Hm & Hf). remember (m - n)%nat as d eqn:Ed. revert n HP Hst Hen Hm Ed. induction d as [|d IH]; intros n HP Hst Hen Hm Ed.
    - assert (m = n) as -> by lia. exists n. split; [lia|]. left. split; [done|]. destruct Hf as [Hf|Hf]; [done|]. destruct Hf. by apply Hen.
    - destruct (decide (involves (lab n) t)) as [Hi|Hi]; [exists n; split; [lia|by left]|].
      destruct (Hst n ltac:(lia) HP Hi) as [HP'|HQ]; [|exists (S n); split; [lia|by right]].
      destruct (IH (S n) HP') as (k & Hk & Hr); [intros; apply Hst; [lia|done..]|intros; apply Hen; [lia|done]|lia|lia|]. exists k. split; [lia|done].
  Qed.
  (** scanning forward to a given moment *)
  Lemma scan (P Q : cfg T → Prop) n m : (n ≤ m)%nat → P (run n) →
    (∀ k, (n ≤ k)%nat → P (run k) → P (run (S k)) ∨ Q (run (S k))) → P (run m) ∨ ∃ k, (n ≤ k)%nat ∧ Q (run k).
  Proof.
    intros Hm HP Hst. induction Hm as [|m Hm IH]; [by left|]. destruct IH as [IH|IH]; [|by right].
    destruct (Hst m Hm IH) as [?|?]; [by left|right; exists (S m); split; [lia|done]].
  Qed.
  Lemma act_enabled c t c' : act c t = Some c' → enabled may can t c.
  Proof. intros E. exists (LOne t), c'. split; [by constructor|done]. Qed.
  Lemma never_crash n t : th (run n) t ≠ Crash.
  Proof. destruct (run_inv n) as (_ & HD & _). intros Hc. pose proof (d_pc _ HD t) as Hp. by rewrite Hc in Hp. Qed.

  (** a sender is received from *)
  Lemma send_done n s : th (run n) s = PuSend → ∃ k, (n ≤ k)%nat ∧ th (run k) s = PuSend ∧ lab k = LTwo s r.
  Proof.
    assert (Hcomm : ∀ k, th (run k) s = PuSend → involves (lab k) s → lab k = LTwo s r).
    { intros k Hs Hi. destruct (run_inv k) as (HM & HD & HS).
      destruct (step_by _ _ _ _ _ _ (run_step k) Hi) as [[E _]|[(u & dl & Hu & _)|[(u & dl & Hu & _)|[(s' & r' & u & -> & Hi' & Hs' & Hr & _)|(e & Hu)]]]]; try congruence.
      - unfold act in E. by rewrite Hs in E.
      - destruct Hi' as [->| ->]; [|by rewrite Hs in Hr]. f_equal. apply (so_only r _ HS). by destruct (th (run k) r'). }
    assert (Hen : ∀ k, th (run k) s = PuSend → receives (th (run k) r) ≠ None → enabled may can s (run k)).
    { intros k Hs Hr. destruct (receives (th (run k) r)) as [u|] eqn:E; [|done]. exists (LTwo s r). eexists. split; [by eapply st_comm|by left]. }
    assert (Hstay : ∀ k, th (run k) s = PuSend → ¬ involves (lab k) s → th (run (S k)) s = PuSend).
    { intros k Hs Hi. rewrite (step_other _ _ _ _ _ _ (run_step k) Hi); [done|by rewrite Hs]. }
    (* the taker already waits in 104 *)
    assert (HR : ∀ n u, th (run n) s = PuSend → th (run n) r = TkRecv u → ∃ k, (n ≤ k)%nat ∧ th (run k) s = PuSend ∧ lab k = LTwo s r).
    { clear n. intros n u Hs Hr. destruct (until (λ c, th c s = PuSend ∧ th c r = TkRecv u) (λ _, False) s n) as (k & Hk & [[[H1 H2] H3]|[]]); [done| | |].
      - intros k Hk [H1 H2] Hi. left. split; [by apply Hstay|]. destruct (decide (involves (lab k) r)) as [Hir|Hir].
        + exfalso. destruct (run_inv k) as (HM & HD & HS).
          destruct (step_by _ _ _ _ _ _ (run_step k) Hir) as [[E _]|[(u' & dl & Hu & _)|[(u' & dl & Hu & _)|[(s' & r' & u' & El & Hi' & Hs' & Hr' & _)|(e & Hu)]]]]; try congruence.
          * unfold act in E. by rewrite H2 in E.
          * apply Hi. rewrite El. left. apply (mut_one _ _ _ HM); by rewrite ?H1, ?Hs'.
        + rewrite (step_other _ _ _ _ _ _ (run_step k) Hir); [done|by rewrite H2].
      - intros k Hk [H1 H2]. apply Hen; [done|]. by rewrite H2.
      - exists k. split_and!; [done|done|by apply Hcomm]. }
    assert (HSw : ∀ n u, th (run n) s = PuSend → th (run n) r = TkSwap u → ∃ k, (n ≤ k)%nat ∧ th (run k) s = PuSend ∧ lab k = LTwo s r).
    { clear n. intros n u Hs Hr. destruct (until (λ c, th c s = PuSend ∧ th c r = TkSwap u) (λ _, False) r n) as (k & Hk & [[[H1 H2] H3]|[]]); [done| | |].
      - intros k Hk [H1 H2] Hi. left. split; [|rewrite (step_other _ _ _ _ _ _ (run_step k) Hi); [done|by rewrite H2]]. apply Hstay; [done|].
        intros His. apply Hi. rewrite (Hcomm k H1 His). by right.
      - intros k Hk [H1 H2]. eapply act_enabled. unfold act. rewrite H2. done.
      - destruct (run_inv k) as (HM & HD & HS). destruct (so_send r _ HS s H1) as [Hsl _]. 
        assert (th (run (S k)) r = TkRecv u ∧ th (run (S k)) s = PuSend) as [H4 H5].
        { assert (s ≠ r) as Hsr by congruence.
          destruct (step_by _ _ _ _ _ _ (run_step k) H3) as [[E _]|[(u' & dl & Hu & _)|[(u' & dl & Hu & _)|[(s' & r' & u' & El & Hi' & Hs' & Hr' & _)|(e & Hu)]]]]; try congruence.
          - split; [|rewrite (act_frame _ _ _ _ E); done]. unfold act in E. rewrite H2, Hsl in E. injection E as <-. simpl. unfold upd. by rewrite decide_True.
          - destruct Hi' as [->| ->]; [congruence|]. by rewrite H2 in Hr'. }
        destruct (HR (S k) u H5 H4) as (k' & Hk' & ?). exists k'. split; [lia|done]. }
    intros Hs. destruct (run_inv n) as (HM & HD & HS). destruct (so_send r _ HS s Hs) as [Hsl Hcr]. destruct (th (run n) r) eqn:Er; try done; [|by eapply HSw|by eapply HR].
    rename u into u0. destruct (until (λ c, th c s = PuSend ∧ th c r = TkWait u0 dl) (λ c, th c s = PuSend ∧ th c r = TkSwap u0) s n) as (k & Hk & [[[H1 H2] H3]|[H1 H2]]); [done| | | |].
    - intros k Hk [H1 H2] Hi. pose proof (Hstay k H1 Hi) as H1'. destruct (decide (involves (lab k) r)) as [Hir|Hir].
      + right. split; [done|]. destruct (run_inv k) as (HMk & HDk & HSk).
        destruct (step_by _ _ _ _ _ _ (run_step k) Hir) as [[E _]|[(u' & dl' & Hu & ->)|[(u' & dl' & Hu & Hcn)|[(s' & r' & u' & El & Hi' & Hs' & Hr' & _)|(e & Hu)]]]]; try congruence.
        * unfold act in E. by rewrite H2 in E.
        * simpl. unfold upd. rewrite decide_True by done. congruence.
        * rewrite (so_cancel _ _ HSk) in Hcn. done.
        * exfalso. apply Hi. rewrite El. left. apply (mut_one _ _ _ HMk); by rewrite ?H1, ?Hs'.
      + left. split; [done|]. rewrite (step_other _ _ _ _ _ _ (run_step k) Hir); [done|by rewrite H2].
    - intros k Hk [H1 H2]. apply Hen; [done|]. by rewrite H2.
    - exists k. split_and!; [done|done|by apply Hcomm].
    - destruct (HSw k u0 H1 H2) as (k' & Hk' & ?). exists k'. split; [lia|done].
  Qed.
  (** whoever holds the mutex makes a step *)
  Lemma holder_goes n t : mutex (run n) = Some t → ∃ k, (n ≤ k)%nat ∧ mutex (run k) = Some t ∧ th (run k) t = th (run n) t ∧ involves (lab k) t.
  Proof.
    intros Hm. destruct (run_inv n) as (HM & HD & HS). pose proof (proj2 (HM t) Hm) as Hh.
    assert (PuSend = th (run n) t ∨ PuSend ≠ th (run n) t) as [Hp|Hp] by (destruct (th (run n) t); try (by left); by right).
    - destruct (send_done n t (eq_sym Hp)) as (k & Hk & Hs & Hl). exists k. split_and!; [done| |congruence|rewrite Hl; by left].
      destruct (run_inv k) as (HMk & _). apply HMk. by rewrite Hs.
    - destruct (until (λ c, mutex c = Some t ∧ th c t = th (run n) t) (λ _, False) t n) as (k & Hk & [[[H1 H2] H3]|[]]); [done| | |].
      + intros k Hk [H1 H2] Hi. left. destruct (run_inv k) as (HMk & _). destruct (holder_stays _ _ _ _ _ _ HMk (run_step k) Hi H1) as [H3 H4]. split; [done|congruence].
      + intros k Hk [H1 H2]. destruct (holder_acts (run k) t) as [c' E]; [by rewrite H2|rewrite H2; congruence|apply never_crash|]. by eapply act_enabled.
      + exists k. done.
  Qed.
  Lemma released n t : mutex (run n) = Some t → ∃ m, (n ≤ m)%nat ∧ mutex (run (S m)) = None ∧ (taking (th (run n) t) = false → th (run (S m)) t = Idle).
  Proof.
    remember (rank (th (run n) t)) as d eqn:Ed. revert n Ed. induction d as [d IH] using lt_wf_ind. intros n Ed Hm.
    destruct (holder_goes n t Hm) as (k & Hk & H1 & H2 & H3). destruct (run_inv k) as (HM & _). destruct (run_inv (S k)) as (_ & HD' & _).
    destruct (holder_moves _ _ _ _ _ _ HM HD' (run_step k) H3 H1) as [(H4 & H5 & H6)|[H4 H5]].
    - rewrite H2 in *. destruct (IH (rank (th (run (S k)) t)) ltac:(lia) (S k) eq_refl H4) as (m & Hkm & Hm1 & Hm2). exists m. split_and!; [lia|done|]. intros Hx. apply Hm2. congruence.
    - exists k. split_and!; [done..|]. by rewrite <-H2.
  Qed.
  Lemma mutex_free n : ∃ m, (n ≤ m)%nat ∧ mutex (run m) = None.
  Proof.
    destruct (mutex (run n)) as [t|] eqn:E; [|by exists n]. destruct (released n t E) as (m & Hm & Hf & _). exists (S m). split; [lia|done].
  Qed.
  (** whoever waits for the mutex gets it *)
  Lemma locks t n : at_lock (th (run n) t) = true →
    ∃ k, (n ≤ k)%nat ∧ th (run k) t = th (run n) t ∧ mutex (run k) = None ∧ act (run k) t = Some (run (S k)) ∧ lab k = LOne t.
  Proof.
    intros Ha. destruct (HL t n) as (m & Hm & [Hf|Hf]).
    2:{ destruct (mutex_free m) as (k & Hk & Hn). by destruct (Hf k Hk). }
    remember (m - n)%nat as d eqn:Ed. revert n Ha Hm Ed. induction d as [|d IH]; intros n Ha Hm Ed.
    - assert (m = n) as -> by lia. congruence.
    - destruct (decide (involves (lab n) t)) as [Hi|Hi].
      + exists n. split; [lia|]. split; [done|].
        destruct (step_by _ _ _ _ _ _ (run_step n) Hi) as [[E El]|[(u' & dl & Hu & _)|[(u' & dl & Hu & _)|[(s' & r' & u' & El & Hi' & Hs' & Hr' & _)|(e & Hu)]]]]; try (by rewrite Hu in Ha).
        * split_and!; [|done|done]. unfold act, locked in E. destruct (th (run n) t); try done; by destruct (mutex (run n)).
        * destruct Hi' as [->| ->]; [by rewrite Hs' in Ha|by destruct (th (run n) t)].
      + pose proof (step_other _ _ _ _ _ _ (run_step n) Hi) as Hs. rewrite <-Hs by (intros Hx; by rewrite Hx in Ha).
        destruct (IH (S n)) as (k & Hk & ?); [rewrite Hs; [done|by intros Hx; rewrite Hx in Ha]|lia|lia|]. exists k. split; [lia|done].
  Qed.
  (** every call except Take returns *)
  Lemma completes n t : taking (th (run n) t) = false → th (run n) t ≠ Idle → ∃ m, (n ≤ m)%nat ∧ th (run m) t = Idle.
  Proof.
    assert (Hin : ∀ n, holds (th (run n) t) = true → taking (th (run n) t) = false → ∃ m, (n ≤ m)%nat ∧ th (run m) t = Idle).
    { clear n. intros n Hh Ht. destruct (run_inv n) as (HM & _). apply HM in Hh. destruct (released n t Hh) as (m & Hm & _ & Hi). exists (S m). split; [lia|by apply Hi]. }
    intros Ht Hn. destruct (holds (th (run n) t)) eqn:Hh; [by apply Hin|].
    assert (at_lock (th (run n) t) = true) as Ha by by destruct (th (run n) t).
    destruct (locks t n Ha) as (k & Hk & Hs & Hmu & E & _).
    destruct (Hin (S k)) as (m & Hm & Hi); [..|exists m; split; [lia|done]].
    - unfold act, locked in E. rewrite Hs, Hmu in E. destruct (th (run n) t); try done; injection E as <-; simpl; unfold upd; by rewrite decide_True.
    - unfold act, locked in E. rewrite Hs, Hmu in E. destruct (th (run n) t); try done; injection E as <-; simpl; unfold upd; by rewrite decide_True.
  Qed.

  (** ** Take *)
  Context (HC : clock_unbounded run).
  Section Elem.
    Context (e : ent T).
    Definition good (m : nat) : Prop := e ∉ heap (run m) ∨ ∃ u x, th (run m) r = TkFound u x.
    Definition live (n : nat) : Prop := ∃ m, (n ≤ m)%nat ∧ good m.
    Lemma live_later n m : (n ≤ m)%nat → live m → live n.
    Proof. intros Hn (k & Hk & Hg). exists k. split; [lia|done]. Qed.
    Lemma live_gone n m : (n ≤ m)%nat → e ∉ heap (run m) → live n.
    Proof. intros Hn He. exists m. split; [lia|by left]. Qed.
    Lemma stay_or_live n m : (n ≤ m)%nat → e ∈ heap (run n) → e ∈ heap (run m) ∨ live n.
    Proof.
      intros Hn He. induction Hn as [|m Hn IH]; [by left|]. destruct IH as [IH|IH]; [|by right].
      destruct (run_inv m) as (_ & HD & _). destruct (heap_stays _ _ _ _ _ e HD (run_step m) IH) as [?|?]; [by left|]. right. eapply live_gone; [|done]. lia.
    Qed.
    Lemma holder_next n u : mutex (run n) = Some u → th (run n) u ≠ PuSend → ∃ k, (n ≤ k)%nat ∧ th (run k) u = th (run n) u ∧ mutex (run k) = Some u ∧ act (run k) u = Some (run (S k)).
    Proof.
      intros Hm Hp. destruct (holder_goes n u Hm) as (k & Hk & Hmk & Ht & Hi). exists k. split_and!; [done..|].
      destruct (run_inv k) as (HM & _). pose proof (proj2 (HM u) Hmk) as Hh. rewrite Ht in Hh.
      destruct (step_by _ _ _ _ _ _ (run_step k) Hi) as [[E _]|[(u' & dl' & Hu & ->)|[(u' & dl' & Hu & Hcn)|[(s' & r' & u' & El & Hi' & Hs' & Hr' & _)|(x & Hu)]]]]; [done|..]; rewrite ?Ht in *; try (by rewrite Hu in Hh).
      destruct Hi' as [->| ->]; [congruence|]. rewrite Ht in Hr'. by destruct (th (run n) u).
    Qed.
    Ltac self := simpl; unfold upd; rewrite decide_True by done.
    Lemma live_pop n u x z : th (run n) r = TkPop u x z → live n.
    Proof.
      intros Hp. destruct (run_inv n) as (HM & _). assert (mutex (run n) = Some r) as Hm by (apply HM; by rewrite Hp).
      destruct (holder_next n r Hm) as (k & Hk & Ht & _ & E); [by rewrite Hp|]. exists (S k). split; [lia|]. right.
      pose proof (never_crash (S k) r) as Hc. unfold act in E. rewrite Ht, Hp in E. injection E as E.
      destruct (gpop _ _) as [[y h]| |]; rewrite <-E in *; [exists u, x; by self|..]; by destruct Hc; self.
    Qed.
    Lemma live_now n u x : th (run n) r = TkNow u x → e ∈ heap (run n) → edl e < clock (run n) → live n.
    Proof.
      intros Hp He Hc. destruct (run_inv n) as (HM & _). assert (mutex (run n) = Some r) as Hm by (apply HM; by rewrite Hp).
      destruct (holder_next n r Hm) as (k & Hk & Ht & _ & E); [by rewrite Hp|]. destruct (stay_or_live n k Hk He) as [He'|]; [|done].
      destruct (run_inv k) as (_ & HD & _). pose proof (d_pc _ HD r) as Hpc. rewrite Ht, Hp in Hpc. simpl in Hpc. pose proof (head_min _ _ _ (d_ord _ HD) Hpc He').
      pose proof (run_clock n k Hk). unfold act in E. rewrite Ht, Hp in E. rewrite (proj2 (Z.ltb_lt _ _)) in E by lia. injection E as E.
      apply (live_later n (S k)); [lia|]. apply (live_pop (S k) u x (clock (run k))). rewrite <-E. by self.
    Qed.
    Lemma live_head n u : th (run n) r = TkHead u → e ∈ heap (run n) → edl e < clock (run n) → live n.
    Proof.
      intros Hp He Hc. destruct (run_inv n) as (HM & _). assert (mutex (run n) = Some r) as Hm by (apply HM; by rewrite Hp).
      destruct (holder_next n r Hm) as (k & Hk & Ht & _ & E); [by rewrite Hp|]. destruct (stay_or_live n (S k) ltac:(lia) He) as [He'|]; [|done].
      destruct (stay_or_live n k Hk He) as [He''|]; [|done].
      pose proof (run_clock n (S k) ltac:(lia)). unfold act in E. rewrite Ht, Hp in E. injection E as E.
      destruct (heap (run k)) as [|y h] eqn:Eh; [by apply elem_of_nil in He''|]. unfold gempty in E. rewrite bool_decide_eq_false_2 in E by done. simpl in E.
      apply (live_later n (S k)); [lia|]. apply (live_now (S k) u y); [|done|lia]. rewrite <-E. by self.
    Qed.
    Lemma live_lock n u : th (run n) r = TkLock u → e ∈ heap (run n) → edl e < clock (run n) → live n.
    Proof.
      intros Hp He Hc. destruct (locks r n) as (k & Hk & Ht & Hm & E & _); [by rewrite Hp|]. destruct (stay_or_live n (S k) ltac:(lia) He) as [He'|]; [|done].
      pose proof (run_clock n (S k) ltac:(lia)). apply (live_later n (S k)); [lia|]. apply (live_head (S k) u); [|done|lia].
      unfold act, locked in E. rewrite Ht, Hp, Hm in E. injection E as E. rewrite <-E. by self.
    Qed.
    Lemma comm_step k s : lab k = LTwo s r → ∃ u, th (run (S k)) r = TkLock u.
    Proof.
      intros El. assert (involves (lab k) r) as Hi by (rewrite El; by right).
      destruct (step_by _ _ _ _ _ _ (run_step k) Hi) as [[E El']|[(u' & dl' & Hu & E)|[(u' & dl' & Hu & Hcn)|[(s' & r' & u' & El' & Hi' & Hs' & Hr' & E)|(x & Hu)]]]].
      - congruence.
      - pose proof (run_step k) as Hst. rewrite El in Hst. inversion Hst. subst. eexists. self. done.
      - destruct (run_inv k) as (_ & _ & HS). by rewrite (so_cancel _ _ HS) in Hcn.
      - rewrite El in El'. injection El' as <- <-. exists u'. rewrite E. by self.
      - pose proof (run_step k) as Hst. rewrite El in Hst. inversion Hst. subst. eexists. self. done.
    Qed.
    Lemma live_recv n u : th (run n) r = TkRecv u → e ∈ heap (run n) → edl e < clock (run n) → live n.
    Proof.
      intros Hp He Hc. destruct (run_inv n) as (_ & _ & HS). destruct (so_recv _ _ HS u Hp) as [s Hs]. destruct (send_done n s Hs) as (k & Hk & _ & El).
      destruct (comm_step k s El) as [u' Hu']. destruct (stay_or_live n (S k) ltac:(lia) He) as [He'|]; [|done]. pose proof (run_clock n (S k) ltac:(lia)).
      apply (live_later n (S k)); [lia|]. apply (live_lock (S k) u'); [done|done|lia].
    Qed.
    Lemma live_swap n u : th (run n) r = TkSwap u → e ∈ heap (run n) → edl e < clock (run n) → live n.
    Proof.
      intros Hp He Hc. destruct (until (λ c, th c r = TkSwap u) (λ _, False) r n) as (k & Hk & [[Hpk Hi]|[]]); [done| | |].
      - intros k Hk Hpk Hi. left. rewrite (step_other _ _ _ _ _ _ (run_step k) Hi); [done|by rewrite Hpk].
      - intros k Hk Hpk. eapply act_enabled. unfold act. by rewrite Hpk.
      - destruct (stay_or_live n (S k) ltac:(lia) He) as [He'|]; [|done]. pose proof (run_clock n (S k) ltac:(lia)). apply (live_later n (S k)); [lia|].
        destruct (step_by _ _ _ _ _ _ (run_step k) Hi) as [[E El']|[(u' & dl' & Hu & E)|[(u' & dl' & Hu & Hcn)|[(s' & r' & u' & El' & Hi' & Hs' & Hr' & E)|(x & Hu)]]]]; try congruence.
        + unfold act in E. rewrite Hpk in E. injection E as E. destruct (sleeping (run k)).
          * apply (live_lock (S k) u); [rewrite <-E; by self|done|lia].
          * apply (live_recv (S k) u); [rewrite <-E; by self|done|lia].
        + destruct Hi' as [->| ->]; [congruence|]. by rewrite Hpk in Hr'.
    Qed.
    Lemma wait_moves k u dl : th (run k) r = TkWait u dl → th (run (S k)) r = TkWait u dl ∨ th (run (S k)) r = TkSwap u ∨ th (run (S k)) r = TkLock u.
    Proof.
      intros Hp. destruct (decide (involves (lab k) r)) as [Hi|Hi].
      - destruct (step_by _ _ _ _ _ _ (run_step k) Hi) as [[E El']|[(u' & dl' & Hu & ->)|[(u' & dl' & Hu & Hcn)|[(s' & r' & u' & El' & Hi' & Hs' & Hr' & ->)|(x & Hu)]]]]; try congruence.
        + unfold act in E. by rewrite Hp in E.
        + right. left. self. congruence.
        + destruct (run_inv k) as (_ & _ & HS). by rewrite (so_cancel _ _ HS) in Hcn.
        + right. right. destruct Hi' as [->| ->]; [congruence|]. rewrite Hp in Hr'. injection Hr' as ->. by self.
      - left. rewrite (step_other _ _ _ _ _ _ (run_step k) Hi); [done|by rewrite Hp].
    Qed.
    Lemma live_moved n m u : (n ≤ m)%nat → e ∈ heap (run n) → edl e < clock (run n) → (th (run m) r = TkSwap u ∨ th (run m) r = TkLock u) → live n.
    Proof.
      intros Hm He Hc Hp. destruct (stay_or_live n m Hm He) as [He'|]; [|done]. pose proof (run_clock n m Hm). apply (live_later n m Hm).
      destruct Hp; [apply (live_swap m u)|apply (live_lock m u)]; by try lia.
    Qed.
    Lemma live_wait n u dl : th (run n) r = TkWait u dl → e ∈ heap (run n) → edl e < clock (run n) → live n.
    Proof.
      intros Hp He Hc. destruct dl as [d|].
      - destruct (HC d) as [n0 Hn0]. set (m := (n `max` n0)%nat). pose proof (run_clock n0 m ltac:(lia)) as Hclk.
        destruct (scan (λ c, th c r = TkWait u (Some d)) (λ c, th c r = TkSwap u ∨ th c r = TkLock u) n m) as [Hpm|(k & Hk & Hq)]; [lia|done|intros; by apply wait_moves| |by eapply live_moved].
        destruct (until (λ c, th c r = TkWait u (Some d) ∧ d ≤ clock c) (λ c, th c r = TkSwap u ∨ th c r = TkLock u) r m) as (k & Hk & [[[Hpk _] Hi]|Hq]); [split; [done|lia]| | | |eapply (live_moved n k); [lia|done..]].
        + intros k Hk [Hpk Hck] Hi. destruct (wait_moves k u _ Hpk) as [?|?]; [left; split; [done|]|by right]. pose proof (run_clock k (S k) ltac:(lia)). lia.
        + intros k Hk [Hpk Hck]. exists (LOne r). eexists. split; [by eapply st_timer|done].
        + destruct (step_by _ _ _ _ _ _ (run_step k) Hi) as [[E El']|[(u' & dl' & Hu & E)|[(u' & dl' & Hu & Hcn)|[(s' & r' & u' & El' & Hi' & Hs' & Hr' & E)|(x & Hu)]]]]; try congruence.
          * unfold act in E. by rewrite Hpk in E.
          * eapply (live_moved n (S k) u); [lia|done|done|]. left. rewrite E. self. congruence.
          * destruct (run_inv k) as (_ & _ & HS). by rewrite (so_cancel _ _ HS) in Hcn.
          * eapply (live_moved n (S k) u); [lia|done|done|]. right. destruct Hi' as [->| ->]; [congruence|]. rewrite Hpk in Hr'. injection Hr' as ->. rewrite E. by self.
      - destruct (mutex_free n) as (m & Hm & Hf).
        destruct (scan (λ c, th c r = TkWait u None) (λ c, th c r = TkSwap u ∨ th c r = TkLock u) n m) as [Hpm|(k & Hk & Hq)]; [lia|done|intros; by apply wait_moves| |by eapply live_moved].
        destruct (stay_or_live n m Hm He) as [He'|]; [|done]. exfalso. destruct (run_inv m) as (HM & _ & HS).
        destruct (so_cover _ _ HS None) as [Hcv|[s Hs]]; [by rewrite Hpm|by destruct (Hcv e He') as (? & ? & ?)|].
        assert (holds (th (run m) s) = true) as Hh by (by destruct (th (run m) s)). apply HM in Hh. congruence.
    Qed.
    Lemma live_unlock n u dl : th (run n) r = TkUnlock u dl → e ∈ heap (run n) → edl e < clock (run n) → live n.
    Proof.
      intros Hp He Hc. destruct (run_inv n) as (HM & _). assert (mutex (run n) = Some r) as Hm by (apply HM; by rewrite Hp).
      destruct (holder_next n r Hm) as (k & Hk & Ht & _ & E); [by rewrite Hp|]. destruct (stay_or_live n (S k) ltac:(lia) He) as [He'|]; [|done].
      pose proof (run_clock n (S k) ltac:(lia)). unfold act in E. rewrite Ht, Hp in E. injection E as E.
      apply (live_later n (S k)); [lia|]. apply (live_wait (S k) u dl); [|done|lia]. rewrite <-E. by self.
    Qed.
    Lemma live_sleep n u dl : th (run n) r = TkSleep u dl → e ∈ heap (run n) → edl e < clock (run n) → live n.
    Proof.
      intros Hp He Hc. destruct (run_inv n) as (HM & _). assert (mutex (run n) = Some r) as Hm by (apply HM; by rewrite Hp).
      destruct (holder_next n r Hm) as (k & Hk & Ht & _ & E); [by rewrite Hp|]. destruct (stay_or_live n (S k) ltac:(lia) He) as [He'|]; [|done].
      pose proof (run_clock n (S k) ltac:(lia)). unfold act in E. rewrite Ht, Hp in E. injection E as E.
      apply (live_later n (S k)); [lia|]. apply (live_unlock (S k) u dl); [|done|lia]. rewrite <-E. by self.
    Qed.
    Definition in_take (p : pc T) : bool :=
      match p with TkLock _ | TkHead _ | TkNow _ _ | TkPop _ _ _ | TkSleep _ _ | TkUnlock _ _ | TkWait _ _ | TkSwap _ | TkRecv _ => true | _ => false end.
    Lemma in_take_step k : in_take (th (run k) r) = true → in_take (th (run (S k)) r) = true ∨ ∃ u x, th (run (S k)) r = TkFound u x.
    Proof.
      intros Hp. destruct (decide (involves (lab k) r)) as [Hi|Hi].
      - pose proof (never_crash (S k) r) as Hcr. destruct (step_by _ _ _ _ _ _ (run_step k) Hi) as [[E El']|[(u' & dl' & Hu & ->)|[(u' & dl' & Hu & Hcn)|[(s' & r' & u' & El' & Hi' & Hs' & Hr' & ->)|(x & Hu)]]]].
        + clear El' Hi. revert E Hcr. generalize (run (S k)). intros cS E Hcr. act_cases E Et; rewrite Et in Hp; try done; simpl in *; unfold upd in *; rewrite ?decide_True in * by done; try (by left); try done. right. by eexists _, _.
        + left. by self.
        + destruct (run_inv k) as (_ & _ & HS). by rewrite (so_cancel _ _ HS) in Hcn.
        + left. destruct Hi' as [->| ->]; [by rewrite Hs' in Hp|]. by self.
        + by rewrite Hu in Hp.
      - left. rewrite (step_other _ _ _ _ _ _ (run_step k) Hi); [done|]. by intros Hx; rewrite Hx in Hp.
    Qed.
    Lemma take_live n : in_take (th (run n) r) = true → e ∈ heap (run n) → live n.
    Proof.
      intros Hp He. destruct (HC (edl e)) as [n0 Hn0]. set (m := (n `max` n0)%nat). pose proof (run_clock n0 m ltac:(lia)) as Hclk.
      destruct (scan (λ c, in_take (th c r) = true) (λ c, ∃ u x, th c r = TkFound u x) n m) as [Hpm|(k & Hk & Hq)]; [lia|done|intros; by apply in_take_step| |exists k; split; [lia|by right]].
      destruct (stay_or_live n m ltac:(lia) He) as [He'|]; [|done]. apply (live_later n m ltac:(lia)).
      destruct (th (run m) r) eqn:Et; try done; [eapply live_lock|eapply live_head|eapply live_now|eapply live_pop|eapply live_sleep|eapply live_unlock|eapply live_wait|eapply live_swap|eapply live_recv]; try done; try lia; try exact Et.
    Qed.
  End Elem.
  (** and then it returns it *)
  Lemma found_returned n x : th (run n) r = TkFound UTake x → ∃ m, (n ≤ m)%nat ∧ rets (run (S m)) = rets (run m) ++ [(r, RElem (Some x))] ∧ th (run (S m)) r = Idle.
  Proof.
    intros Hp. destruct (run_inv n) as (HM & _). assert (mutex (run n) = Some r) as Hm by (apply HM; by rewrite Hp).
    destruct (holder_next n r Hm) as (k & Hk & Ht & _ & E); [by rewrite Hp|]. exists k. split; [done|]. unfold act in E. rewrite Ht, Hp in E. injection E as E.
    rewrite <-E. simpl. unfold upd. by rewrite decide_True.
  Qed.
End Live.
