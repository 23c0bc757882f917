(** * Timing wheel, one access at a time: locks exclude, no timer is lost or duplicated *)
From stdpp Require Import relations.
From Verif Require Import GoBase HeapModel WheelModel WheelFineModel WheelFineSpec.
Local Open Scope Z_scope.

Lemma times_app t l l' : times t (l ++ l') = (times t l + times t l')%nat.
Proof. unfold times. by rewrite filter_app, app_length. Qed.
Lemma times_one t u : times t [u] = if decide (u = t) then 1%nat else 0%nat.
Proof. unfold times. rewrite filter_cons. by destruct (decide (u = t)). Qed.
Lemma times_notin t l : t ∉ l ↔ times t l = 0%nat.
Proof.
  unfold times. split.
  - intros H. apply length_zero_iff_nil, elem_of_nil_inv. intros x [-> Hx]%elem_of_list_filter. done.
  - intros H%length_zero_iff_nil Hin. apply (not_elem_of_nil t). rewrite <- H. by apply elem_of_list_filter.
Qed.
Lemma times_filter t u l : times t (filter (λ x, x ≠ u) l) = if decide (t = u) then 0%nat else times t l.
Proof.
  unfold times. rewrite list_filter_filter. destruct (decide (t = u)) as [->|Hn].
  - apply length_zero_iff_nil, elem_of_nil_inv. intros x [[-> ?] Hx]%elem_of_list_filter. done.
  - f_equal. apply list_filter_iff. naive_solver.
Qed.
Lemma fupd_eq {K V} `{EqDecision K} (f : K → V) k v : fupd f k v k = v.
Proof. unfold fupd. by rewrite decide_True. Qed.
Lemma fupd_ne {K V} `{EqDecision K} (f : K → V) k k' v : k' ≠ k → fupd f k v k' = f k'.
Proof. intros. unfold fupd. by rewrite decide_False. Qed.

(** ** Locks *)
Record locks (c : cfg) : Prop := {
  lk_b : ∀ u r, r ∈ buckets_of (th c u) ↔ bmu (mm c) r = Some u;
  lk_q : ∀ u, has_queue (th c u) = true ↔ qmu (qq c) = Some u;
  lk_nd : ∀ u, NoDup (buckets_of (th c u));
}.
Lemma locks_goto c u p : buckets_of p = buckets_of (th c u) → has_queue p = has_queue (th c u) → locks c → locks (goto c u p).
Proof.
  intros Hb Hq [H1 H2 H3]. split; cbn [goto th mm qq]; intros w; unfold fupd; destruct (decide (w = u)) as [->|]; rewrite ?Hb, ?Hq; auto.
Qed.
Lemma locks_same c c' : th c' = th c → bmu (mm c') = bmu (mm c) → qmu (qq c') = qmu (qq c) → locks c → locks c'.
Proof. intros E1 E2 E3 [H1 H2 H3]. split; intros w; rewrite E1, ?E2, ?E3; auto. Qed.
Lemma locks_take c u r p : bmu (mm c) r = None → buckets_of p = r :: buckets_of (th c u) → has_queue p = has_queue (th c u) → locks c →
  locks (goto (set_bmu c r (Some u)) u p).
Proof.
  intros Hr Hb Hq [H1 H2 H3]. assert (Hni : ∀ w, r ∉ buckets_of (th c w)) by (intros w Hin%H1; congruence).
  split; cbn [goto th mm qq set_bmu set_mm bmu]; intros w.
  - intros r'. unfold fupd at 1. destruct (decide (w = u)) as [->|Hw].
    + rewrite Hb, elem_of_cons, H1. unfold fupd. destruct (decide (r' = r)) as [->|]; [split; [done|by left]|]. split; [intros [|]; done|by right].
    + rewrite H1. unfold fupd. destruct (decide (r' = r)) as [->|]; [|done]. split; [congruence|]. intros [= ->]. done.
  - unfold fupd. destruct (decide (w = u)) as [->|]; rewrite ?Hq; auto.
  - unfold fupd. destruct (decide (w = u)) as [->|]; [|auto]. rewrite Hb. apply NoDup_cons. auto.
Qed.
Lemma locks_drop c u r p : buckets_of (th c u) = r :: buckets_of p → has_queue p = has_queue (th c u) → locks c →
  locks (goto (set_bmu c r None) u p).
Proof.
  intros Hb Hq [H1 H2 H3]. pose proof (H3 u) as Hn. rewrite Hb in Hn. apply NoDup_cons in Hn as [Hn Hn'].
  assert (Hr : bmu (mm c) r = Some u) by (apply H1; rewrite Hb; left).
  split; cbn [goto th mm qq set_bmu set_mm bmu]; intros w.
  - intros r'. unfold fupd at 1. destruct (decide (w = u)) as [->|Hw].
    + pose proof (H1 u r') as Hu. rewrite Hb, elem_of_cons in Hu. unfold fupd. destruct (decide (r' = r)) as [->|]; [split; [done|congruence]|]. rewrite <- Hu. split; [by right|by intros [|]].
    + rewrite H1. unfold fupd. destruct (decide (r' = r)) as [->|]; [|done]. rewrite Hr. split; congruence.
  - unfold fupd. destruct (decide (w = u)) as [->|]; rewrite ?Hq; auto.
  - unfold fupd. destruct (decide (w = u)) as [->|]; auto.
Qed.
Lemma locks_takeq c u p : qmu (qq c) = None → buckets_of p = buckets_of (th c u) → has_queue p = true → locks c → locks (goto (set_qmu c (Some u)) u p).
Proof.
  intros Hr Hb Hq [H1 H2 H3]. assert (Hni : ∀ w, has_queue (th c w) = true → False) by (intros w Hin%H2; congruence).
  split; cbn [goto th mm qq set_qmu set_qq qmu]; intros w; unfold fupd; destruct (decide (w = u)) as [->|]; rewrite ?Hb, ?Hq; auto; [done|].
  split; [intros ?%Hni; done|congruence].
Qed.
Lemma locks_dropq c u p : has_queue (th c u) = true → buckets_of p = buckets_of (th c u) → has_queue p = false → locks c → locks (goto (set_qmu c None) u p).
Proof.
  intros Hr Hb Hq [H1 H2 H3]. apply H2 in Hr.
  split; cbn [goto th mm qq set_qmu set_qq qmu]; intros w; unfold fupd; destruct (decide (w = u)) as [->|]; rewrite ?Hb, ?Hq; auto; [done|].
  split; [intros ?%H2; congruence|done].
Qed.

Ltac pcs Eu := match type of Eu with ?x = _ => destruct x as [ | i t k|i x t k|i x t k|r e t k|r e t k|r e t k|r e t k|r t k|r t k|r t k|t k|t k|t k|b t k|t st|r t|r t|r t rs|v|v b|v b i e|v b i e|v b|v b [|t rest]|v b| | |b|b e|b|b|dl|dl|dl| | |b| | ] eqn:Eu end.
Lemma locks_crash c : locks c → locks (crash c). Proof. by apply locks_same. Qed.
Lemma decide_add_pc c i t k p : decide_add c i t k = Some p →
  p = ARet false t k ∨ (∃ cur, p = AOver i cur t k) ∨ ∃ r e, p = ALock r e t k.
Proof. unfold decide_add. intros E. repeat case_match; simplify_eq; eauto 6. Qed.
Ltac solve_goto Eu := apply locks_goto; [by (simpl; rewrite Eu)|by (simpl; rewrite Eu)|by (done || (eapply locks_same; [| | |eassumption]; done))].
Lemma locks_act c u c' : act c u = Some c' → locks c → locks c'.
Proof.
  unfold act, lock_b, lock_q. intros E HL. destruct (th c u) as [ | i t k|i x t k|i x t k|r e t k|r e t k|r e t k|r e t k|r t k|r t k|r t k|t k|t k|t k|b t k|t st|r t|r t|r t rs|v|v b|v b i e|v b i e|v b|v b [|t rest]|v b| | |b|b e|b|b|dl|dl|dl| | |b| | ] eqn:Eu; try done; try (injection E as <-).
  - destruct (decide_add c i t k) as [p|] eqn:Ed; [|by apply locks_crash]. apply decide_add_pc in Ed as [->|[[cur ->]|(r & e & ->)]]; solve_goto Eu.
  - destruct (levels (mm c) !! S i); solve_goto Eu.
  - destruct (levels (mm c) !! i); [|by apply locks_crash]. destruct (new_level _ _ _); [|by apply locks_crash..]. destruct (levels (mm c) !! S i); solve_goto Eu.
  - destruct (bmu (mm c) r) eqn:Er; [done|]. injection E as <-. apply locks_take; [done|by rewrite Eu|by rewrite Eu|done].
  - solve_goto Eu.
  - apply locks_drop; [by rewrite Eu|by rewrite Eu|done].
  - destruct (_ =? _); solve_goto Eu.
  - destruct (qmu (qq c)) eqn:Er; [done|]. injection E as <-. apply locks_takeq; [done|by rewrite Eu|done|done].
  - destruct (gpush _ _ _ _); [|by apply locks_crash..]. solve_goto Eu.
  - destruct (gpeek _); [|by apply locks_crash..]. destruct (decide _); solve_goto Eu.
  - destruct (sleeping _); solve_goto Eu.
  - apply locks_dropq; [by rewrite Eu|by rewrite Eu|done|done].
  - unfold after_add. destruct k, b; solve_goto Eu.
  - destruct (tb (mm c) t); solve_goto Eu.
  - destruct (bmu (mm c) r) eqn:Er; [done|]. injection E as <-. apply locks_take; [done|by rewrite Eu|by rewrite Eu|done].
  - destruct (decide _); solve_goto Eu.
  - apply locks_drop; [by rewrite Eu|by rewrite Eu|done].
  - solve_goto Eu.
  - destruct (levels (mm c) !! i) as [l|]; [|solve_goto Eu]. destruct (_ <=? _); solve_goto Eu.
  - destruct (levels (mm c) !! i) as [l|]; [|by apply locks_crash]. destruct (truncate _ _); [|by apply locks_crash..]. solve_goto Eu.
  - destruct (bmu (mm c) b) eqn:Er; [done|]. injection E as <-. apply locks_take; [done|by rewrite Eu|by rewrite Eu|done].
  - solve_goto Eu.
  - destruct (decide _); solve_goto Eu.
  - apply (locks_drop (set_bk c b (Bucket (bexp (bk (mm c) b)) []))); [by cbn; rewrite Eu|by cbn; rewrite Eu|]. by apply (locks_same c).
  - destruct (qmu (qq c)) eqn:Er; [done|]. injection E as <-. apply locks_takeq; [done|by rewrite Eu|done|done].
  - destruct (heap (qq c)); solve_goto Eu.
  - solve_goto Eu.
  - destruct (_ <? _); solve_goto Eu.
  - destruct (gpop _ _) as [[]| |]; [|by apply locks_crash..]. solve_goto Eu.
  - apply locks_dropq; [by rewrite Eu|by rewrite Eu|done|done].
  - solve_goto Eu.
  - apply locks_dropq; [by rewrite Eu|by rewrite Eu|done|done].
  - destruct (sleeping _); solve_goto Eu.
  - destruct (decide _); [|done]. injection E as <-. solve_goto Eu.
  - solve_goto Eu.
Qed.
Lemma locks_next c l c' : next c l = Some c' → locks c → locks c'.
Proof.
  unfold next. intros E HL. destruct (crashed c); [done|]. destruct l as [n|u o|u t|v|u|s r|u|u|u|u|u]; try (by eapply locks_act).
  - destruct (decide _); [|done]. injection E as <-. by apply (locks_same c).
  - destruct (th c u) eqn:Eu; try done. destruct o as [t|t|t|v].
    + destruct (decide _); [done|]. injection E as <-. solve_goto Eu.
    + destruct (decide _); [done|]. injection E as <-. solve_goto Eu.
    + injection E as <-. solve_goto Eu.
    + destruct (th c v) eqn:Ev; try done. destruct (decide _) as [|Huv]; [done|]. injection E as <-.
      apply locks_goto; [by simpl; rewrite fupd_ne, Ev by congruence..|]. apply locks_goto; [by simpl; rewrite Eu..|]. by apply (locks_same c).
  - destruct (th c u) eqn:Eu; try done. destruct (decide _); [|done]. injection E as <-. solve_goto Eu.
  - injection E as <-. by apply (locks_same c).
  - destruct (th c s) as [ | | | | | | | | | | | |t k| | | | | | | | | | | | | | | | | | | | | | | | | | | ] eqn:Es; try done.
    assert (c' = goto (goto c s (QUnl t k)) r TLock ∧ s ≠ r ∧ buckets_of (th c r) = [] ∧ has_queue (th c r) = false) as (-> & Hn & Hb & Hq).
    { destruct (th c r) eqn:Er; try done; injection E as <-; (split_and!; [done|congruence|done..]). }
    apply locks_goto; [by simpl; rewrite fupd_ne by done..|]. solve_goto Es.
  - destruct (th c u) as [ | | | | | | | | | | | | | | | | | | | | | | | | | | | | | | | | | |[d|]| | | | | ] eqn:Eu; try done. destruct (decide _); [|done]. injection E as <-. solve_goto Eu.
  - destruct (th c u) eqn:Eu; try done. destruct (cancelled _ _); [|done]. injection E as <-. solve_goto Eu.
  - destruct (th c u) eqn:Eu; try done. destruct (outq _ _); [done|]. injection E as <-. solve_goto Eu.
  - destruct (th c u) eqn:Eu; try done. destruct (outq _ _); [|done]. destruct (closed _ _); [|done]. injection E as <-. by apply locks_crash.
  - destruct (th c u) eqn:Eu; try done. destruct (cancelled _ _); [|done]. injection E as <-. solve_goto Eu.
Qed.

(** ** Timers *)
(** the flush a goroutine is in: the bucket and what is left of it *)
Definition cont_scan (k : cont) : option (ref * list timer) := match k with KFlush _ b rest => Some (b, rest) | _ => None end.
Definition scan_of (p : pc) : option (ref * list timer) :=
  match p with
  | ALoad _ _ k | AOver _ _ _ k | ANew _ _ _ k | ALock _ _ _ k | AIns _ _ _ k | AUnl _ _ _ k | ASwap _ _ _ k | QLock _ _ k | QPush _ _ k | QPeek _ _ k
  | QCas _ k | QSend _ k | QUnl _ k | ARet _ _ k => cont_scan k
  | RScan _ b rest => Some (b, rest)
  | RClear _ b => Some (b, [])
  | _ => None
  end.
Lemma scan_bucket p b rest : scan_of p = Some (b, rest) → b ∈ buckets_of p.
Proof. destruct p; try done; simpl; try (destruct k; try done; simpl); intros [= <- <-]; rewrite ?elem_of_cons; auto using elem_of_list_here. Qed.
(** the timers of bucket [r] whose pointer is still [r] *)
Definition content (c : cfg) (r : ref) : list timer :=
  match bmu (mm c) r with
  | Some u => match scan_of (th c u) with Some (b, rest) => if decide (b = r) then rest else btimers (bk (mm c) r) | None => btimers (bk (mm c) r) end
  | None => btimers (bk (mm c) r)
  end.
(** the timer a goroutine is adding *)
Definition hand (p : pc) : option nat :=
  match p with
  | ALoad _ x _ | AOver _ _ x _ | ANew _ _ x _ | ALock _ _ x _ | AIns _ _ x _ | ARet false x _ => Some (tid x)
  | _ => None
  end.
Lemma adds_hand p t : adds p t ↔ hand p = Some t.
Proof. destruct p; simpl; try (split; congruence || done). destruct b; simpl; (split; congruence || done). Qed.
Definition one {A} (o : option A) : nat := match o with Some _ => 1 | None => 0 end.

Record acct (c : cfg) (own : nat → option nat) : Prop := {
  a_own : ∀ u t, hand (th c u) = Some t ↔ own t = Some u;
  a_count : ∀ t, enters c t = (starts c t + drops c t + stops c t + one (tb (mm c) t) + one (own t))%nat;
  a_due : ∀ t, (stops c t + one (tb (mm c) t) + one (own t) + times t (due (gh c)) ≤ 1)%nat;
  a_in : ∀ r x, x ∈ content c r → tb (mm c) (tid x) = Some r;
  a_nodup : ∀ r, NoDup (tid <$> content c r);
  a_live : ∀ t r, tb (mm c) t = Some r → t ∈ tid <$> content c r;
  a_once : ∀ t, t ∉ periodic (gh c) → (enters c t ≤ 1)%nat ∧ t ∉ due (gh c);
  a_ent : ∀ t, (times t (due (gh c)) ≤ enters c t)%nat;
}.
Lemma acct_same c c' own : (∀ t, tb (mm c') t = tb (mm c) t) → (∀ r, content c' r = content c r) → (∀ u, hand (th c' u) = hand (th c u)) →
  entered (gh c') = entered (gh c) → started (gh c') = started (gh c) → dropped (gh c') = dropped (gh c) → stopped (gh c') = stopped (gh c) →
  periodic (gh c') = periodic (gh c) → due (gh c') = due (gh c) → acct c own → acct c' own.
Proof.
  intros Et Ec Eh E1 E2 E3 E4 E5 E6 [H1 H2 H3 H4 H5 H6 H7 H8]. unfold enters, starts, drops, stops in *.
  split; intros; rewrite ?Et, ?Ec, ?Eh, ?E6 in *; unfold enters, starts, drops, stops; rewrite ?E1, ?E2, ?E3, ?E4, ?E5 in *; auto.
Qed.
Lemma content_goto c u p r : scan_of p = scan_of (th c u) → content (goto c u p) r = content c r.
Proof. intros E. unfold content. simpl. destruct (bmu (mm c) r) as [w|]; [|done]. unfold fupd. destruct (decide (w = u)) as [->|]; [by rewrite E|done]. Qed.
Lemma hand_goto c u p w : hand p = hand (th c u) → hand (th (goto c u p) w) = hand (th c w).
Proof. intros E. simpl. unfold fupd. destruct (decide (w = u)) as [->|]; done. Qed.
Lemma acct_goto c u p own : scan_of p = scan_of (th c u) → hand p = hand (th c u) → acct c own → acct (goto c u p) own.
Proof. intros E1 E2. apply acct_same; try done; intros; [by apply content_goto|by apply hand_goto]. Qed.
(** a change of memory that keeps pointers, mutexes and lists *)
Lemma acct_mem c c' own : tb (mm c') = tb (mm c) → bmu (mm c') = bmu (mm c) → (∀ r, btimers (bk (mm c') r) = btimers (bk (mm c) r)) → th c' = th c → gh c' = gh c →
  acct c own → acct c' own.
Proof.
  intros E1 E2 E3 E4 E5. apply acct_same; rewrite ?E5; try done; intros; rewrite ?E1, ?E4; try done. unfold content. rewrite E2. destruct (bmu (mm c) r); rewrite ?E3, ?E4; done.
Qed.
(** locking and unlocking a bucket *)
Lemma acct_lock c u r p own : bmu (mm c) r = None → locks c → scan_of p = scan_of (th c u) ∨ scan_of (th c u) = None ∧ scan_of p = Some (r, btimers (bk (mm c) r)) → hand p = hand (th c u) →
  acct c own → acct (goto (set_bmu c r (Some u)) u p) own.
Proof.
  intros Hr HL Hs Eh. apply acct_same; try done; intros; [|by apply (hand_goto (set_bmu c r (Some u)))]. unfold content. simpl. unfold fupd. destruct (decide (r0 = r)) as [->|Hn].
  - rewrite Hr, decide_True by done. destruct Hs as [->|[_ ->]]; [|by rewrite decide_True]. destruct (scan_of (th c u)) as [[b rest]|] eqn:Es; [|done]. destruct (decide _) as [->|]; [|done].
    apply scan_bucket, (lk_b c HL) in Es. congruence.
  - destruct (bmu (mm c) r0) as [w|] eqn:Ew; [|done]. destruct (decide (w = u)) as [->|]; [|done]. destruct Hs as [->|[-> ->]]; [done|]. by rewrite decide_False.
Qed.
Lemma acct_unlock c u r p own : r ∈ buckets_of (th c u) → locks c → content c r = btimers (bk (mm c) r) → scan_of p = scan_of (th c u) ∨ (∃ rest, scan_of (th c u) = Some (r, rest) ∧ scan_of p = None) → hand p = hand (th c u) →
  acct c own → acct (goto (set_bmu c r None) u p) own.
Proof.
  intros Hr HL Hc Hs Eh. apply (lk_b _ HL) in Hr. apply acct_same; try done; intros; [|by apply (hand_goto (set_bmu c r None))]. unfold content at 1. simpl. unfold fupd. destruct (decide (r0 = r)) as [->|Hn]; [done|].
  unfold content. destruct (bmu (mm c) r0) as [w|] eqn:Ew; [|done]. destruct (decide (w = u)) as [->|]; [|done]. destruct Hs as [->|(rest & -> & ->)]; [done|]. by rewrite decide_False.
Qed.
(** a bucket that is locked but not being flushed by its holder *)
Lemma content_plain c u r : locks c → r ∈ buckets_of (th c u) → (∀ rest, scan_of (th c u) ≠ Some (r, rest)) → content c r = btimers (bk (mm c) r).
Proof.
  intros HL Hr%(lk_b _ HL) Hs. unfold content. rewrite Hr. destruct (scan_of (th c u)) as [[b rest]|]; [|done]. destruct (decide _) as [->|]; [|done]. by destruct (Hs rest).
Qed.
Definition upd_own (own : nat → option nat) (t : nat) (o : option nat) : nat → option nat := fupd own t o.
(** goroutine [u] puts down or takes up a timer *)
Lemma own_down c u p t own : hand (th c u) = Some t → hand p = None → (∀ w x, hand (th c w) = Some x ↔ own x = Some w) →
  ∀ w x, hand (fupd (th c) u p w) = Some x ↔ fupd own t None x = Some w.
Proof.
  intros Hu Hp H w x. pose proof (proj1 (H u t) Hu) as Ht. unfold fupd. destruct (decide (w = u)) as [->|Hw].
  - rewrite Hp. destruct (decide (x = t)) as [->|]; [done|]. split; [done|]. intros E%H. congruence.
  - rewrite H. destruct (decide (x = t)) as [->|]; [|done]. rewrite Ht. split; congruence.
Qed.
Lemma own_up c u p t own : hand (th c u) = None → hand p = Some t → own t = None → (∀ w x, hand (th c w) = Some x ↔ own x = Some w) →
  ∀ w x, hand (fupd (th c) u p w) = Some x ↔ fupd own t (Some u) x = Some w.
Proof.
  intros Hu Hp Ht H w x. unfold fupd. destruct (decide (w = u)) as [->|Hw].
  - rewrite Hp. destruct (decide (x = t)) as [->|]; [done|]. split; [congruence|]. intros E%H. congruence.
  - rewrite H. destruct (decide (x = t)) as [->|]; [|done]. rewrite Ht. split; congruence.
Qed.
Lemma one_tb_le c own t : acct c own → own t ≠ None → tb (mm c) t = None.
Proof. intros HA Ho. pose proof (a_due c own HA t) as H. destruct (own t); [|done]. destruct (tb (mm c) t); [simpl in H; lia|done]. Qed.
(** bucket.go:45-47 *)
Lemma acct_ins c u r e t k own : th c u = AIns r e t k → locks c → acct c own →
  acct (goto (set_tb (set_bk c r (Bucket (bexp (bk (mm c) r)) (btimers (bk (mm c) r) ++ [t]))) (tid t) (Some r)) u (AUnl r e t k)) (fupd own (tid t) None).
Proof.
  intros Eu HL HA. pose proof (lk_nd c HL u) as Hnd. rewrite Eu in Hnd. simpl in Hnd. apply NoDup_cons in Hnd as [Hnk _].
  assert (Hc : content c r = btimers (bk (mm c) r)).
  { apply (content_plain c u); [done|rewrite Eu; left|]. rewrite Eu. simpl. intros rest Hs. apply Hnk. destruct k; try done. simpl in Hs. injection Hs as -> ->. left. }
  assert (Ho : own (tid t) = Some u) by (apply (a_own c own HA); by rewrite Eu).
  assert (Ht : tb (mm c) (tid t) = None) by (apply (one_tb_le c own); [done|congruence]).
  set (c' := goto _ _ _).
  assert (Hc' : ∀ r0, content c' r0 = if decide (r0 = r) then content c r ++ [t] else content c r0).
  { intros r0. unfold c'. rewrite content_goto by (by simpl; rewrite Eu). unfold content. cbn [set_tb set_bk set_mm mm bmu bk th]. assert (bmu (mm c) r = Some u) as Hm by (apply (lk_b c HL); rewrite Eu; left).
    destruct (decide (r0 = r)) as [->|Hn]; [|by rewrite fupd_ne]. rewrite fupd_eq, Hm, Eu. simpl. unfold content in Hc. rewrite Hm, Eu in Hc. simpl in Hc. destruct (cont_scan k) as [[b rest]|] eqn:Ek; [|done].
    destruct (decide (b = r)) as [->|]; [|done]. destruct Hnk. destruct k; try done. simpl in Ek. injection Ek as -> ->. left. }
  destruct HA as [H1 H2 H3 H4 H5 H6 H7 H8]. split; cbn [c' goto set_tb set_bk set_mm mm tb gh th]; intros.
  - apply (own_down c u _ (tid t)); [by rewrite Eu|done|done].
  - pose proof (H2 t0) as HH. unfold enters, starts, drops, stops in *. cbn [c' goto set_tb set_bk set_mm gh]. rewrite HH. unfold fupd. destruct (decide (t0 = tid t)) as [->|]; [|done]. rewrite Ht, Ho. simpl. lia.
  - pose proof (H3 t0) as HH. unfold stops in *. cbn [goto set_tb set_bk set_mm set_gh gh g_stop stopped]. unfold fupd. destruct (decide (t0 = tid t)) as [->|]; [|done]. rewrite Ht, Ho in HH. simpl in *. lia.
  - rewrite Hc' in H. unfold fupd. destruct (decide (r0 = r)) as [->|].
    + apply elem_of_app in H as [H| ->%elem_of_list_singleton]; [|by rewrite decide_True]. destruct (decide _); [done|by apply H4].
    + destruct (decide (tid x = tid t)) as [E|]; [|by apply H4]. apply H4 in H. congruence.
  - rewrite Hc'. destruct (decide (r0 = r)) as [->|]; [|done]. rewrite fmap_app. apply NoDup_app. split_and!; [done| |apply NoDup_singleton].
    intros y (x & -> & Hx)%elem_of_list_fmap Hy%elem_of_list_singleton. apply H4 in Hx. congruence.
  - rewrite Hc'. unfold fupd in H. destruct (decide (t0 = tid t)) as [->|].
    + injection H as <-. rewrite decide_True, fmap_app by done. apply elem_of_app. right. by left.
    + apply H6 in H. destruct (decide (r0 = r)) as [->|]; [|done]. rewrite fmap_app. apply elem_of_app. by left.
  - by apply H7.
  - apply H8.
Qed.
(** bucket.go:76-81 *)
Lemma acct_move c u v b t rest own : th c u = RScan v b (t :: rest) → locks c → acct c own →
  tb (mm c) (tid t) = Some b ∧ acct (goto (set_tb c (tid t) None) u (ALoad 0 t (KFlush v b rest))) (fupd own (tid t) (Some u)).
Proof.
  intros Eu HL HA. assert (Hm : bmu (mm c) b = Some u) by (apply (lk_b c HL); rewrite Eu; left).
  assert (Hc : content c b = t :: rest). { unfold content. rewrite Hm, Eu. simpl. by rewrite decide_True. }
  assert (Ht : tb (mm c) (tid t) = Some b) by (apply (a_in c own HA); rewrite Hc; left). split; [done|].
  assert (Ho : own (tid t) = None). { pose proof (a_due c own HA (tid t)) as H. rewrite Ht in H. simpl in H. destruct (own (tid t)); [simpl in H; lia|done]. }
  set (c' := goto _ _ _).
  assert (Hc' : ∀ r0, content c' r0 = if decide (r0 = b) then rest else content c r0).
  { intros r0. unfold c', content. simpl. destruct (decide (r0 = b)) as [->|Hn].
    - rewrite Hm, fupd_eq. simpl. by rewrite decide_True.
    - destruct (bmu (mm c) r0) as [w|] eqn:Ew; [|done]. unfold fupd. destruct (decide (w = u)) as [->|]; [|done]. simpl. rewrite decide_False by done. rewrite Eu. simpl. by rewrite decide_False. }
  destruct HA as [H1 H2 H3 H4 H5 H6 H7 H8]. pose proof (H5 b) as Hnd. rewrite Hc in Hnd. simpl in Hnd. apply NoDup_cons in Hnd as [Hn1 Hn2].
  split; cbn [c' goto set_tb set_mm mm tb gh th]; intros.
  - apply (own_up c u _ (tid t)); [by rewrite Eu|done..].
  - pose proof (H2 t0) as HH. unfold enters, starts, drops, stops in *. cbn [c' goto set_tb set_mm gh]. rewrite HH. unfold fupd. destruct (decide (t0 = tid t)) as [->|]; [|done]. rewrite Ht, Ho. simpl. lia.
  - pose proof (H3 t0) as HH. unfold stops in *. cbn [goto set_tb set_bk set_mm set_gh gh g_stop stopped]. unfold fupd. destruct (decide (t0 = tid t)) as [->|]; [|done]. rewrite Ht, Ho in HH. simpl in *. lia.
  - rewrite Hc' in H. unfold fupd. destruct (decide (r = b)) as [->|].
    + destruct (decide (tid x = tid t)) as [E|]; [|apply H4; rewrite Hc; by right]. destruct Hn1. rewrite <- E. by apply elem_of_list_fmap_1.
    + destruct (decide (tid x = tid t)) as [E|]; [|by apply H4]. apply H4 in H. congruence.
  - rewrite Hc'. destruct (decide (r = b)) as [->|]; done.
  - rewrite Hc'. unfold fupd in H. destruct (decide (t0 = tid t)) as [->|]; [done|]. apply H6 in H. destruct (decide (r = b)) as [->|]; [|done].
    rewrite Hc in H. simpl in H. by apply elem_of_cons in H as [|].
  - by apply H7.
  - apply H8.
Qed.
Lemma nodup_filter t l : NoDup (tid <$> l) → NoDup (tid <$> filter (λ x, tid x ≠ t) l).
Proof.
  induction l as [|x l IH]; [done|]. rewrite fmap_cons, filter_cons. intros [Hx Hl]%NoDup_cons. destruct (decide _); [|by apply IH]. rewrite fmap_cons. apply NoDup_cons. split; [|by apply IH].
  intros (y & Ey & Hy)%elem_of_list_fmap. apply Hx. rewrite Ey. apply elem_of_list_fmap_1. by apply elem_of_list_filter in Hy as [_ ?].
Qed.
(** bucket.go:57-60 *)
Lemma acct_stop c u r t own p : th c u = SIn r t → tb (mm c) t = Some r → scan_of p = None → hand p = None → locks c → acct c own →
  acct (goto (set_gh (set_tb (set_bk c r (Bucket (bexp (bk (mm c) r)) (filter (λ x, tid x ≠ t) (btimers (bk (mm c) r))))) t None) (g_stop (gh c) t)) u p) own.
Proof.
  intros Eu Ht Hsp Hhp HL HA.
  assert (Hc : content c r = btimers (bk (mm c) r)) by (apply (content_plain c u); [done|rewrite Eu; left|by rewrite Eu]).
  set (c' := goto _ _ _).
  assert (Hc' : ∀ r0, content c' r0 = if decide (r0 = r) then filter (λ x, tid x ≠ t) (content c r) else content c r0).
  { intros r0. unfold c'. rewrite content_goto by (by simpl; rewrite Eu, Hsp). unfold content. cbn [set_gh set_tb set_bk set_mm mm bmu bk th]. assert (bmu (mm c) r = Some u) as Hm by (apply (lk_b c HL); rewrite Eu; left).
    destruct (decide (r0 = r)) as [->|Hn]; [|by rewrite fupd_ne]. by rewrite fupd_eq, Hm, Eu. }
  assert (Ho : own t = None). { pose proof (a_due c own HA t) as H. rewrite Ht in H. simpl in H. destruct (own t); [simpl in H; lia|done]. }
  destruct HA as [H1 H2 H3 H4 H5 H6 H7 H8]. split; cbn [c' goto set_gh set_tb set_bk set_mm mm tb gh th g_stop]; intros.
  - unfold fupd. destruct (decide (u0 = u)) as [->|]; [|done]. rewrite Hhp. pose proof (H1 u t0) as HH. by rewrite Eu in HH.
  - pose proof (H2 t0) as HH. unfold enters, starts, drops, stops in *. cbn [c' goto set_gh gh g_stop entered started dropped stopped]. rewrite times_app, times_one. rewrite HH. unfold fupd. destruct (decide (t0 = t)) as [->|Hn].
    + rewrite Ht, decide_True by done. simpl. lia.
    + rewrite decide_False by congruence. lia.
  - pose proof (H3 t0) as HH. unfold stops in *. cbn [goto set_tb set_bk set_mm set_gh gh g_stop stopped]. unfold fupd. cbn [due]. unfold c'. cbn [goto set_gh gh g_stop stopped]. rewrite times_app, times_one. destruct (decide (t0 = t)) as [->|]; [|rewrite decide_False by congruence; simpl; lia]. rewrite Ht in HH. rewrite decide_True by done. simpl in *. lia.
  - rewrite Hc' in H. unfold fupd. destruct (decide (r0 = r)) as [->|].
    + apply elem_of_list_filter in H as [Hx H]. rewrite decide_False by done. by apply H4.
    + destruct (decide (tid x = t)) as [E|]; [|by apply H4]. apply H4 in H. congruence.
  - rewrite Hc'. destruct (decide (r0 = r)) as [->|]; [by apply nodup_filter|done].
  - rewrite Hc'. unfold fupd in H. destruct (decide (t0 = t)) as [->|]; [done|]. apply H6 in H. destruct (decide (r0 = r)) as [->|]; [|done].
    apply elem_of_list_fmap in H as (x & -> & Hx). apply elem_of_list_fmap_1, elem_of_list_filter. done.
  - by apply H7.
  - apply H8.
Qed.
(** bucket.go:88, 73 *)
Lemma acct_clear c u v b own : th c u = RClear v b → locks c → acct c own →
  acct (goto (set_bmu (set_bk c b (Bucket (bexp (bk (mm c) b)) [])) b None) u (RSelect v)) own.
Proof.
  intros Eu HL HA. assert (Hm : bmu (mm c) b = Some u) by (apply (lk_b c HL); rewrite Eu; left). assert (Hc : content c b = []). { unfold content. rewrite Hm, Eu. simpl. by rewrite decide_True. }
  revert HA. apply acct_same; try done; intros; [|simpl; unfold fupd; destruct (decide _) as [->|]; [by rewrite Eu|done]].
  unfold content at 1. simpl. unfold fupd. destruct (decide (r = b)) as [->|Hn]; [done|]. unfold content.
  destruct (bmu (mm c) r) as [w|] eqn:Ew; [|done]. destruct (decide (w = u)) as [->|]; [|done]. rewrite Eu. simpl. by rewrite decide_False.
Qed.
(** [add] returned false: the timer is dropped or its task started *)
Lemma acct_end c u p t own g : hand (th c u) = Some t → scan_of p = scan_of (th c u) → hand p = None → g = g_drop (gh c) t ∨ g = g_start (gh c) t → acct c own →
  acct (goto (set_gh c g) u p) (fupd own t None).
Proof.
  intros Eu Es Hp Hg HA. assert (Ho : own t = Some u) by (by apply (a_own c own HA)). assert (Ht : tb (mm c) t = None) by (apply (one_tb_le c own); [done|congruence]).
  destruct HA as [H1 H2 H3 H4 H5 H6 H7 H8].
  assert (Hc : ∀ r, content (goto (set_gh c g) u p) r = content c r) by (intros r; by rewrite content_goto).
  assert (HE : entered g = entered (gh c)) by (by destruct Hg as [-> | ->]). assert (HP : stopped g = stopped (gh c)) by (by destruct Hg as [-> | ->]). assert (HPe : periodic g = periodic (gh c)) by (by destruct Hg as [-> | ->]).
  assert (HS : ∀ x, (times x (started g) + times x (dropped g) = times x (started (gh c)) + times x (dropped (gh c)) + times x [t])%nat).
  { intros x. destruct Hg as [-> | ->]; simpl; rewrite times_app; lia. }
  assert (HD : ∀ x, (times x (due g) ≤ times x (due (gh c)) + times x [t])%nat ∧ (t ∉ periodic g → due g = due (gh c))).
  { intros x. destruct Hg as [-> | ->]; simpl; [split; [lia|done]|]. destruct (decide (t ∈ periodic (gh c))); [|split; [lia|done]]. rewrite times_app. split; [lia|done]. }
  split; cbn [goto set_gh mm tb gh th]; intros.
  - by apply (own_down c u _ t).
  - pose proof (H2 t0) as HH. pose proof (HS t0) as HS0. rewrite times_one in HS0. unfold enters, starts, drops, stops in *. cbn [goto set_gh gh]. rewrite HE, HP, HH. unfold fupd. destruct (decide (t0 = t)) as [->|].
    + rewrite decide_True in HS0 by done. rewrite Ht, Ho. simpl. lia.
    + rewrite decide_False in HS0 by congruence. lia.
  - pose proof (H3 t0) as HH. unfold stops in *. cbn [goto set_tb set_bk set_mm set_gh gh g_stop stopped]. destruct (HD t0) as [HD1 _]. rewrite times_one in HD1. rewrite HP. unfold fupd. destruct (decide (t0 = t)) as [->|].
    + rewrite decide_True in HD1 by done. rewrite Ht, Ho in *. simpl in *. lia.
    + rewrite decide_False in HD1 by congruence. lia.
  - rewrite Hc in H. by apply H4.
  - by rewrite Hc.
  - rewrite Hc. by apply H6.
  - unfold enters. cbn [gh goto set_gh]. rewrite HE. rewrite HPe in H. destruct (H7 t0 H) as [Ha Hb]. split; [done|]. destruct Hg as [-> | ->]; simpl; [done|].
    destruct (decide _) as [Hin|]; [|done]. rewrite not_elem_of_app, elem_of_list_singleton. split; [done|]. intros ->. done.
  - unfold enters. cbn [gh goto set_gh]. rewrite HE. destruct (HD t0) as [HD1 _]. pose proof (H8 t0) as H8t. pose proof (H3 t0) as H3t. pose proof (H2 t0) as H2t. unfold enters in *. rewrite times_one in HD1.
    destruct (decide (t = t0)) as [<-|]; [|lia]. rewrite Ht, Ho in *. simpl in *. lia.
Qed.
(** a timer is submitted *)
Lemma acct_enter c u p t own g : hand (th c u) = None → scan_of p = scan_of (th c u) → hand p = Some t → 
  started g = started (gh c) → dropped g = dropped (gh c) → stopped g = stopped (gh c) → entered g = entered (gh c) ++ [t] →
  (t ∉ entered (gh c) ∧ due g = due (gh c) ∧ (periodic g = periodic (gh c) ∨ periodic g = periodic (gh c) ++ [t])) ∨
  (t ∈ due (gh c) ∧ due g = filter (λ x, x ≠ t) (due (gh c)) ∧ periodic g = periodic (gh c)) → acct c own →
  acct (goto (set_gh c g) u p) (fupd own t (Some u)).
Proof.
  intros Eu Es Hp E1 E2 E3 E4 Hg HA.
  assert (Hd : ∀ x, x ≠ t → times x (due g) = times x (due (gh c))).
  { intros x Hx. destruct Hg as [(_ & -> & _)|(_ & -> & _)]; [done|]. by rewrite times_filter, decide_False. }
  assert (Hsub : ∀ x, x ∈ due g → x ∈ due (gh c)).
  { intros x. destruct Hg as [(_ & -> & _)|(_ & -> & _)]; [done|]. by intros [_ ?]%elem_of_list_filter. }
  assert (tb (mm c) t = None ∧ own t = None ∧ times t (due g) = 0%nat ∧ stops c t = 0%nat) as (Ht & Ho & Hdt & Hs0).
  { destruct HA as [H1 H2 H3 H4 H5 H6 H7 H8]. specialize (H3 t). specialize (H2 t). specialize (H8 t). destruct Hg as [(Hg & Hg2 & Hg3)|(Hg & Hg2 & _)].
    - assert (enters c t = 0%nat) as H0 by (by apply times_notin). rewrite H0 in *. destruct (tb (mm c) t), (own t); simpl in H2; try lia. split_and!; try done; rewrite ?Hg2; lia.
    - assert (times t (due (gh c)) ≠ 0%nat) by (intros ?%times_notin; done). destruct (tb (mm c) t), (own t); simpl in H3; try lia. split_and!; [done..| |lia]. by rewrite Hg2, times_filter, decide_True. }
  assert (Hc : ∀ r, content (goto (set_gh c g) u p) r = content c r) by (intros r; by rewrite content_goto).
  assert (HE : ∀ x, times x (entered g) = (enters c x + times x [t])%nat) by (intros x; rewrite E4; apply times_app).
  destruct HA as [H1 H2 H3 H4 H5 H6 H7 H8]. split; cbn [goto set_gh mm tb gh th]; intros.
  - by apply (own_up c u _ t).
  - pose proof (H2 t0) as HH. unfold enters at 1. unfold starts, drops, stops in *. cbn [goto set_gh gh]. rewrite HE, E1, E2, E3, HH, times_one. unfold fupd. destruct (decide (t0 = t)) as [->|].
    + rewrite decide_True by done. rewrite Ht, Ho. simpl. lia.
    + rewrite decide_False by congruence. lia.
  - pose proof (H3 t0) as HH. unfold stops in *. cbn [goto set_gh gh]. rewrite E3. unfold fupd. destruct (decide (t0 = t)) as [->|].
    + rewrite Ht, Hdt. simpl. pose proof (H2 t) as H2t. pose proof Hs0. unfold stops in *. lia.
    + rewrite Hd by done. lia.
  - rewrite Hc in H. by apply H4.
  - by rewrite Hc.
  - rewrite Hc. by apply H6.
  - unfold enters. cbn [gh goto set_gh]. rewrite HE, times_one. assert (t0 ∉ periodic (gh c)) as Hn.
    { intros Hn. apply H. destruct Hg as [(_ & _ & [-> | ->])|(_ & _ & ->)]; [done|apply elem_of_app; by left|done]. }
    destruct (H7 t0 Hn) as [Ha Hb]. split; [|intros Hx%Hsub; done]. destruct (decide (t = t0)) as [<-|]; [|lia].
    destruct Hg as [(Hg & _)|(Hg & _)]; [|done]. assert (enters c t = 0%nat) by (by apply times_notin). lia.
  - unfold enters. cbn [gh goto set_gh]. rewrite HE. specialize (H8 t0). destruct (decide (t0 = t)) as [->|]; [rewrite Hdt; lia|]. rewrite Hd by done. lia.
Qed.
Lemma acct_crash c own : acct c own → acct (crash c) own.
Proof. apply acct_same; done. Qed.
Lemma decide_add_hand c i t k p : decide_add c i t k = Some p → scan_of p = cont_scan k ∧ hand p = Some (tid t).
Proof. unfold decide_add. intros H. repeat case_match; simplify_eq; done. Qed.
Lemma lock_b_eq c u r p c' : lock_b c u r p = Some c' → bmu (mm c) r = None ∧ c' = goto (set_bmu c r (Some u)) u p.
Proof. unfold lock_b. destruct (bmu (mm c) r); [done|]. intros [= <-]. done. Qed.
Lemma lock_q_eq c u p c' : lock_q c u p = Some c' → qmu (qq c) = None ∧ c' = goto (set_qmu c (Some u)) u p.
Proof. unfold lock_q. destruct (qmu (qq c)); [done|]. intros [= <-]. done. Qed.
Ltac keep Eu := match goal with |- acct (goto ?d ?u ?p) ?own => apply (acct_goto d); [by simpl; rewrite Eu|by simpl; rewrite Eu|] end.
Ltac keepm c := apply (acct_mem c); [done|done|try done|done|done|done].
Lemma acct_act c u c' own : locks c → acct c own → act c u = Some c' → ∃ own', acct c' own'.
Proof.
  intros HL HA Hact. unfold act in Hact. destruct (th c u) eqn:Eu; try done.
  - (* ALoad *) injection Hact as <-. destruct (decide_add c i t k) eqn:Ed; [|exists own; by apply acct_crash]. apply decide_add_hand in Ed as [Ea Eb]. exists own. apply acct_goto; [by rewrite Eu|by rewrite Eu|done].
  - (* AOver *) injection Hact as <-. exists own. destruct (levels (mm c) !! S i); keep Eu; done.
  - (* ANew *) injection Hact as <-. exists own. repeat case_match; try (by apply acct_crash); keep Eu; [done|keepm c].
  - apply lock_b_eq in Hact as [Hm ->]. exists own. apply acct_lock; try done; rewrite Eu; [by left|done].
  - injection Hact as <-. eexists. by apply acct_ins.
  - injection Hact as <-. exists own. pose proof (lk_nd c HL u) as Hnd. rewrite Eu in Hnd. simpl in Hnd. apply NoDup_cons in Hnd as [Hnk _].
    apply acct_unlock; try done; try (rewrite Eu; first [by left|done]). apply (content_plain c u); [done|rewrite Eu; left|]. rewrite Eu. simpl. intros rest Hs. apply Hnk. destruct k; try done. simpl in Hs. injection Hs as -> ->. left.
  - injection Hact as <-. exists own. destruct (_ =? _); keep Eu; keepm c; intros; simpl; unfold fupd; by destruct (decide _) as [->|].
  - apply lock_q_eq in Hact as [Hm ->]. exists own. keep Eu. keepm c.
  - injection Hact as <-. exists own. repeat case_match; try (by apply acct_crash); keep Eu; keepm c.
  - injection Hact as <-. exists own. repeat case_match; try (by apply acct_crash); keep Eu; done.
  - injection Hact as <-. exists own. repeat case_match; keep Eu; [keepm c|done].
  - injection Hact as <-. exists own. keep Eu; keepm c.
  - (* ARet *) injection Hact as <-. destruct b.
    + exists own. destruct k; simpl; keep Eu; done.
    + exists (fupd own (tid t) None). unfold after_add. destruct k; apply acct_end; try (by rewrite Eu); try done; auto.
  - injection Hact as <-. exists own. case_match; keep Eu; [done|]. apply (acct_same c); done.
  - apply lock_b_eq in Hact as [Hm ->]. exists own. apply acct_lock; try done; rewrite Eu; [by left|done].
  - injection Hact as <-. exists own. case_match; [by apply acct_stop|keep Eu; done].
  - injection Hact as <-. exists own. apply acct_unlock; try done; try (rewrite Eu; first [by left|done]). apply (content_plain c u); [done|rewrite Eu; left|by rewrite Eu].
  - injection Hact as <-. exists own. keep Eu; done.
  - injection Hact as <-. exists own. repeat case_match; keep Eu; done.
  - injection Hact as <-. exists own. repeat case_match; try (by apply acct_crash); keep Eu; keepm c.
  - apply lock_b_eq in Hact as [Hm ->]. exists own. apply acct_lock; try done; rewrite Eu; [by right|done].
  - destruct rest as [|t rest]; injection Hact as <-.
    + exists own. keep Eu; keepm c; intros; simpl; unfold fupd; by destruct (decide _) as [->|].
    + destruct (acct_move c u v b t rest own Eu HL HA) as [Ht Hn]. eexists. by rewrite decide_True.
  - injection Hact as <-. exists own. by apply acct_clear.
  - apply lock_q_eq in Hact as [Hm ->]. exists own. keep Eu. keepm c.
  - injection Hact as <-. exists own. repeat case_match; keep Eu; done.
  - injection Hact as <-. exists own. keep Eu; done.
  - injection Hact as <-. exists own. repeat case_match; keep Eu; done.
  - injection Hact as <-. exists own. repeat case_match; try (by apply acct_crash); keep Eu; keepm c.
  - injection Hact as <-. exists own. keep Eu; keepm c.
  - injection Hact as <-. exists own. keep Eu; keepm c.
  - injection Hact as <-. exists own. keep Eu; keepm c.
  - injection Hact as <-. exists own. repeat case_match; keep Eu; keepm c.
  - case_match; [|done]. injection Hact as <-. exists own. keep Eu; keepm c.
  - injection Hact as <-. exists own. keep Eu; keepm c.
Qed.
Lemma acct_next c l c' own : locks c → acct c own → next c l = Some c' → ∃ own', acct c' own'.
Proof.
  intros HL HA Hn. unfold next in Hn. destruct (crashed c); [done|]. destruct l.
  - case_match; [|done]. injection Hn as <-. exists own. by apply (acct_mem c).
  - destruct (th c u) eqn:Eu; try done. destruct o.
    + case_match; [done|]. injection Hn as <-. eexists. apply (acct_enter c u _ (tid t) own); try (by rewrite Eu); try done. left. split_and!; try done. by left.
    + case_match; [done|]. injection Hn as <-. eexists. apply (acct_enter c u _ (tid t) own); try (by rewrite Eu); try done. left. split_and!; try done. by right.
    + injection Hn as <-. exists own. keep Eu. done.
    + destruct (th c v) eqn:Ev; try done. case_match; [done|]. injection Hn as <-. exists own.
      apply acct_goto; [simpl; rewrite fupd_ne by done; by rewrite Ev..|]. keep Eu. keepm c.
  - destruct (th c u) eqn:Eu; try done. case_match; [|done]. injection Hn as <-. eexists. apply (acct_enter c u _ (tid t) own); try (by rewrite Eu); try done. by right.
  - injection Hn as <-. exists own. keepm c.
  - by apply (acct_act c u c' own).
  - destruct (th c s) eqn:Es; try done. destruct (th c r) eqn:Er; try done; injection Hn as <-; exists own.
    all: assert (r ≠ s) by congruence; apply acct_goto; [simpl; rewrite fupd_ne by done; by rewrite Er..|]; keep Es; done.
  - destruct (th c u) eqn:Eu; try done. repeat case_match; try done. injection Hn as <-. exists own. keep Eu. done.
  - destruct (th c u) eqn:Eu; try done. repeat case_match; try done. injection Hn as <-. exists own. keep Eu. done.
  - destruct (th c u) eqn:Eu; try done. repeat case_match; try done. injection Hn as <-. exists own. keep Eu. keepm c.
  - destruct (th c u) eqn:Eu; try done. repeat case_match; try done. injection Hn as <-. exists own. by apply acct_crash.
  - destruct (th c u) eqn:Eu; try done. repeat case_match; try done. injection Hn as <-. exists own. keep Eu. done.
Qed.
Lemma locks_init l n now : locks (init l n now).
Proof. split; simpl; intros; try done; [by split; [intros ?%elem_of_nil|]|constructor]. Qed.
Lemma acct_init l n now : acct (init l n now) (λ _, None).
Proof.
  split; cbn [init mm gh th tb due periodic]; intros; try done.
  - vm_compute. lia.
  - by apply elem_of_nil in H.
  - constructor.
  - split; [vm_compute; lia|]. by intros ?%elem_of_nil.
Qed.
(** lifting to executions *)
Definition inv (c : cfg) : Prop := locks c ∧ ∃ own, acct c own.
Lemma inv_step ok c c' : inv c → step ok c c' → inv c'.
Proof. intros [HL [own HA]] (l & _ & Hn). split; [by apply (locks_next c l)|by apply (acct_next c l _ own)]. Qed.
Lemma inv_rtc ok c c' : rtc (step ok) c c' → inv c → inv c'.
Proof. induction 1; [done|]. intros HI. apply IHrtc. by eapply inv_step. Qed.
Lemma inv_exec ok tick n now c : wheel_exec ok tick n now c → inv c.
Proof. intros (l & _ & Hr). apply (inv_rtc ok _ _ Hr). split; [apply locks_init|]. eexists. apply acct_init. Qed.

(** ** The results of Stop *)
Definition st (p : pc) : option nat := match p with SUnl _ t true | SLoad t true => Some t | _ => None end.
Definition sinv (c : cfg) (sl : list (nat * nat)) : Prop :=
  (∀ u t, st (th c u) = Some t → (u, t) ∈ sl) ∧ ∀ t, (true_stops c t + times t sl.*2 ≤ stops c t)%nat.
Lemma sinv_frame c c' sl : (∀ u t, st (th c' u) = Some t → st (th c u) = Some t) → rets (gh c') = rets (gh c) → stopped (gh c') = stopped (gh c) → sinv c sl → sinv c' sl.
Proof. intros H1 H2 H3 [H4 H5]. split; [by auto|]. intros t. specialize (H5 t). unfold true_stops, stops in *. by rewrite H2, H3. Qed.
Lemma true_stops_ret d u p t b x : true_stops (goto (set_gh d (g_ret (gh d) t b)) u p) x = (true_stops d x + if b then times x [t] else 0)%nat.
Proof. unfold true_stops. cbn [goto set_gh gh g_ret rets]. rewrite filter_app, fmap_app, times_app. by destruct b. Qed.
Lemma sinv_act c u c' sl : sinv c sl → act c u = Some c' → ∃ sl', sinv c' sl'.
Proof.
  intros HS Hact.
  assert (Hgo : ∀ d p, th d = th c → rets (gh d) = rets (gh c) → stopped (gh d) = stopped (gh c) → st p = None → sinv (goto d u p) sl).
  { intros d p E1 E2 E3 E4. apply (sinv_frame c); try done. simpl. rewrite E1. intros w t. unfold fupd. destruct (decide _); [by rewrite E4|done]. }
  assert (Hcr : sinv (crash c) sl) by by apply (sinv_frame c).
  destruct (th c u) eqn:Eu; unfold act in Hact; rewrite Eu in Hact; try done.
  all: try (unfold lock_b, lock_q, decide_add, after_add in Hact; repeat case_match; simplify_eq; exists sl; first [done|apply Hgo; done]).
  - (* SLoad *) injection Hact as <-. case_match; [exists sl; by apply Hgo|]. destruct stop.
    + destruct HS as [H1 H2]. assert (Hin : (u, t) ∈ sl) by (apply H1; by rewrite Eu). apply elem_of_list_split in Hin as (l1 & l2 & ->). exists (l1 ++ l2). split.
      * simpl. intros w x. unfold fupd. destruct (decide (w = u)) as [->|Hw]; [done|]. intros Hx%H1. apply elem_of_app in Hx as [?|[?|?]%elem_of_cons]; [apply elem_of_app; by left|congruence|apply elem_of_app; by right].
      * intros x. specialize (H2 x). rewrite true_stops_ret. rewrite !fmap_app, !times_app in *. rewrite fmap_cons in H2. cbn [snd] in H2.
        change (times x (t :: l2.*2)) with (times x ([t] ++ l2.*2)) in H2. rewrite times_app in H2. unfold stops in *. simpl. lia.
    + exists sl. destruct HS as [H1 H2]. split.
      * simpl. intros w x. unfold fupd. by destruct (decide (w = u)) as [->|Hw]; [|apply H1].
      * intros x. specialize (H2 x). rewrite true_stops_ret. unfold stops in *. simpl. lia.
  - (* SIn *) injection Hact as <-. case_match; [|exists sl; by apply Hgo]. destruct HS as [H1 H2]. exists (sl ++ [(u, t)]). split.
    + simpl. intros w x. unfold fupd. destruct (decide (w = u)) as [->|Hw]; [intros [= ->]; apply elem_of_app; right; left|]. intros Hx%H1. apply elem_of_app. by left.
    + intros x. specialize (H2 x). unfold true_stops, stops in *. simpl. rewrite fmap_app, !times_app. simpl. lia.
  - (* SUnl *) injection Hact as <-. exists sl. apply (sinv_frame c); try done. simpl. intros w x. unfold fupd. destruct (decide (w = u)) as [->|]; [|done]. rewrite Eu. done.
Qed.
Lemma sinv_next c l c' sl : sinv c sl → next c l = Some c' → ∃ sl', sinv c' sl'.
Proof.
  intros HS Hn. assert (Hf : ∀ d, (∀ u, st (th d u) = st (th c u) ∨ st (th d u) = None) → rets (gh d) = rets (gh c) → stopped (gh d) = stopped (gh c) → sinv d sl).
  { intros d H1 H2 H3. apply (sinv_frame c); try done. intros u t. destruct (H1 u) as [->| ->]; done. }
  unfold next in Hn. destruct (crashed c); [done|]. destruct l; try (by apply (sinv_act c u c' sl)); exists sl;
    repeat case_match; simplify_eq; apply Hf; try done; intros w; simpl; unfold fupd; repeat case_decide; subst; auto.
Qed.
(** a task starts only when a goroutine had the timer in its hands *)
Lemma start_hand c l c' t : next c l = Some c' → starts c' t = starts c t ∨ ∃ u, hand (th c u) = Some t.
Proof.
  intros Hn. destruct (decide (started (gh c') = started (gh c))) as [E|E]; [left; unfold starts; by rewrite E|].
  unfold next in Hn. destruct (crashed c); [done|]. destruct l; try (by repeat case_match; simplify_eq).
  unfold act in Hn. destruct (th c u) eqn:Eu; unfold lock_b, lock_q, after_add in Hn; try (by repeat case_match; simplify_eq).
  destruct (decide (tid t0 = t)) as [Et|Et]; [|left; repeat case_match; simplify_eq; try done; unfold starts; simpl; rewrite times_app, times_one, decide_False by done; lia].
  destruct b; [repeat case_match; simplify_eq; done|]. right. exists u. rewrite Eu. simpl. by rewrite Et.
Qed.
Lemma stops_mono c l c' t : next c l = Some c' → (stops c t ≤ stops c' t)%nat.
Proof.
  intros Hn. unfold next in Hn. destruct (crashed c); [done|]. destruct l; try (by repeat case_match; simplify_eq).
  unfold act in Hn. destruct (th c u) eqn:Eu; unfold lock_b, lock_q, after_add in Hn; try (by repeat case_match; simplify_eq).
  repeat case_match; simplify_eq; try done. unfold stops. simpl. rewrite times_app. lia.
Qed.
Lemma stopped_final ok c c' t : inv c → (0 < stops c t)%nat → rtc (step ok) c c' → starts c' t = starts c t.
Proof.
  intros HI Hs Hr. induction Hr as [|c c1 c2 H1 H2 IH]; [done|]. destruct H1 as (l & Hok & Hn).
  assert (starts c1 t = starts c t) as <-.
  { destruct (start_hand c l c1 t Hn) as [?|[u Hu]]; [done|]. destruct HI as [_ [own HA]]. apply (a_own c own HA) in Hu. pose proof (a_due c own HA t) as H. rewrite Hu in H. simpl in H. lia. }
  apply IH; [eapply inv_step; [done|by exists l]|]. pose proof (stops_mono c l c1 t Hn). lia.
Qed.

(** ** Goroutines that wait for ever *)
Lemma act_other c u c' w : w ≠ u → act c u = Some c' → th c' w = th c w.
Proof.
  intros Hw Hact. unfold act, lock_b, lock_q, after_add in Hact. destruct (th c u) eqn:Eu; repeat case_match; simplify_eq; simpl; rewrite ?fupd_ne by done; done.
Qed.
(** only [LAct u] can move a goroutine at a Lock *)
Lemma self_wait_step c l c' u : locks c → self_wait (th c u) → next c l = Some c' → th c' u = th c u.
Proof.
  intros HL Hs Hn. destruct (th c u) eqn:Eu; try done. destruct k as [| |v b rest]; try done. simpl in Hs. subst b.
  assert (Hm : bmu (mm c) r = Some u) by (apply (lk_b c HL); rewrite Eu; left). rewrite <- Eu.
  unfold next in Hn. destruct (crashed c); [done|]. destruct l as [| | | |w| | | | | |].
  5: { destruct (decide (u = w)) as [->|]; [|by apply (act_other c w)]. unfold act in Hn. rewrite Eu in Hn. unfold lock_b in Hn. by rewrite Hm in Hn. }
  all: repeat case_match; simplify_eq; simpl; unfold fupd; repeat case_decide; subst; congruence.
Qed.
Lemma self_wait_tb c l c' u r e t v rest x : inv c → th c u = ALock r e t (KFlush v r rest) → tb (mm c) x = Some r → next c l = Some c' → tb (mm c') x = Some r.
Proof.
  intros [HL [own HA]] Eu Hx Hn. assert (Hm : bmu (mm c) r = Some u) by (apply (lk_b c HL); rewrite Eu; left).
  unfold next in Hn. destruct (crashed c); [done|]. destruct l as [| | | |w| | | | | |]; try (by repeat case_match; simplify_eq).
  unfold act, lock_b, lock_q, after_add in Hn. destruct (th c w) eqn:Ew; try (by repeat case_match; simplify_eq).
  - injection Hn as <-. simpl. unfold fupd. destruct (decide _) as [->|]; [|done]. exfalso. assert (own (tid t0) = Some w) as Ho by (apply (a_own c own HA); by rewrite Ew).
    pose proof (a_due c own HA (tid t0)) as H. rewrite Ho, Hx in H. simpl in H. lia.
  - injection Hn as <-. case_decide as Hc; simpl; [|done]. unfold fupd. case_decide; [subst|done]. exfalso. assert (r0 = r) as -> by congruence.
    assert (bmu (mm c) r = Some w) by (apply (lk_b c HL); rewrite Ew; left). assert (w = u) by congruence. congruence.
  - destruct rest0 as [|t0 rest0]; injection Hn as <-; [done|]. case_decide as Hc; simpl; [|done]. unfold fupd. case_decide; [subst|done]. exfalso. assert (b = r) as -> by congruence.
    assert (bmu (mm c) r = Some w) by (apply (lk_b c HL); rewrite Ew; left). assert (w = u) by congruence. congruence.
Qed.
Lemma self_wait_forever ok c c' u r e t v rest : inv c → th c u = ALock r e t (KFlush v r rest) → rtc (step ok) c c' →
  th c' u = th c u ∧ ∀ x, tb (mm c) x = Some r → tb (mm c') x = Some r ∧ starts c' x = starts c x.
Proof.
  intros HI Eu Hr. induction Hr as [|c c1 c2 H1 H2 IH]; [done|]. destruct H1 as (l & Hok & Hn).
  assert (HI1 : inv c1) by (eapply inv_step; [done|by exists l]). assert (E1 : th c1 u = th c u) by (apply (self_wait_step c l); [apply HI|by rewrite Eu|done]).
  destruct IH as [IH1 IH2]; [done|congruence|]. split; [congruence|]. intros x Hx. assert (Hx1 : tb (mm c1) x = Some r) by (by eapply (self_wait_tb c l c1)).
  destruct (IH2 x Hx1) as [? IH4]. split; [done|]. rewrite IH4. destruct (start_hand c l c1 x Hn) as [?|[w Hw]]; [done|]. destruct HI as [_ [own HA]]. apply (a_own c own HA) in Hw. pose proof (a_due c own HA x) as Hle. rewrite Hw, Hx in Hle. simpl in Hle. lia.
Qed.
(** a push that nobody is there to receive *)
Lemma jam_step c l c' u t k : locks c → th c u = QSend t k → deaf c → next c l = Some c' → th c' u = QSend t k ∧ deaf c' ∧ heap (qq c') = heap (qq c).
Proof.
  intros HL Eu Hd Hn. assert (Hq : qmu (qq c) = Some u) by (apply (lk_q c HL); by rewrite Eu).
  assert (Hex : ∀ w, w ≠ u → has_queue (th c w) = false).
  { intros w Hw. destruct (has_queue (th c w)) eqn:E; [|done]. apply (lk_q c HL) in E. congruence. }
  assert (Hdf : ∀ d w p, th d = th c → hears p = false → deaf (goto d w p)).
  { intros d w p E Hp x. simpl. rewrite E. unfold fupd. destruct (decide _); [done|apply Hd]. }
  unfold next in Hn. destruct (crashed c); [done|]. destruct l as [| | | |w|s r| | | | |].
  6: { pose proof (Hd r). destruct (th c s), (th c r); done. }
  5: { destruct (decide (u = w)) as [->|Hw]; [unfold act in Hn; by rewrite Eu in Hn|]. rewrite (act_other c w c' u) by done. split; [done|].
       pose proof (Hd w) as Hdw. pose proof (Hex w ltac:(done)) as Hxw. unfold act, lock_b, lock_q, after_add in Hn. rewrite Hq in Hn.
       destruct (th c w) eqn:Ew; try done; try (repeat case_match; simplify_eq; (split; [first [by apply Hdf|exact Hd]|done])).
       destruct (decide_add c i t0 k0) eqn:Ed; simplify_eq; [|split; [by intros x; apply Hd|done]]. split; [|done]. apply Hdf; [done|].
       apply decide_add_pc in Ed as [->|[[cur ->]|(r & e & ->)]]; done. }
  all: repeat case_match; simplify_eq; split_and!; try done.
  all: try (simpl; unfold fupd; repeat case_decide; subst; congruence).
  all: try (intros x; specialize (Hd x); simpl; unfold fupd; repeat case_decide; subst; try done).
  all: match goal with H : th _ _ = TWait _ |- _ => by rewrite H in Hd end.
Qed.
Lemma jam_forever ok c c' u t k : inv c → th c u = QSend t k → deaf c → rtc (step ok) c c' → th c' u = QSend t k ∧ deaf c' ∧ heap (qq c') = heap (qq c) ∧ qmu (qq c') = Some u.
Proof.
  intros HI Eu Hd Hr. induction Hr as [c|c c1 c2 H1 H2 IH].
  - split_and!; try done. apply (lk_q c (proj1 HI)). by rewrite Eu.
  - destruct H1 as (l & Hok & Hn). destruct (jam_step c l c1 u t k (proj1 HI) Eu Hd Hn) as (E1 & E2 & E3). destruct IH as (E4 & E5 & E6 & E7); [eapply inv_step; [done|by exists l]|done|done|]. rewrite <- E3. done.
Qed.

(** ** One Run, never cancelled *)
Definition sends (p : pc) : bool := match p with QSend _ _ => true | _ => false end.
Definition sleeps (p : pc) : bool := match p with TUnl _ | TWait _ | TSwap => true | _ => false end.
Definition ended (p : pc) : bool := match p with TClose | TEnd => true | _ => false end.
Record solo (c : cfg) (o : option (nat * nat)) : Prop := {
  s_q : ∀ w, queue_goroutine (th c w) = true ↔ ∃ ru, o = Some (ru, w);
  s_r : ∀ w x, serves (th c w) x ↔ o = Some (w, x);
  s_c : ∀ x, cancelled (cc c) x = false;
  s_e : ∀ w, ended (th c w) = false;
  s_send : ∀ u, sends (th c u) = true → sleeping (qq c) = false ∧ ∃ v, hears (th c v) = true;
  s_recv : ∀ v, th c v = TRecv → ∃ u, sends (th c u) = true;
  s_sleep : sleeping (qq c) = true → ∃ v, sleeps (th c v) = true;
  s_wake : ∀ v, sleeps (th c v) = true → sleeping (qq c) = true ∨ ∃ u, sends (th c u) = true;
}.
Lemma hears_queue p : hears p = true → queue_goroutine p = true.
Proof. by destruct p. Qed.
Lemma sleeps_queue p : sleeps p = true → queue_goroutine p = true.
Proof. by destruct p. Qed.
(** a step that changes neither who runs and sleeps nor who sends *)
Lemma solo_goto c d u p o : th d = th c → cancelled (cc d) = cancelled (cc c) → sleeping (qq d) = sleeping (qq c) →
  queue_goroutine p = queue_goroutine (th c u) → (∀ x, serves p x ↔ serves (th c u) x) → ended p = false →
  sends p = sends (th c u) → hears p = hears (th c u) → sleeps p = sleeps (th c u) → (p = TRecv → th c u = TRecv) → solo c o → solo (goto d u p) o.
Proof.
  intros Et Ec Es E1 E2 E3 E4 E5 E6 E7 [H1 H2 H3 H4 H5 H6 H7 H8].
  assert (Hf : ∀ (A : Type) (f : pc → A), f p = f (th c u) → ∀ w, f (th (goto d u p) w) = f (th c w)).
  { intros A f E w. simpl. rewrite Et. unfold fupd. by destruct (decide _) as [->|]. }
  split; cbn [goto qq cc]; rewrite ?Ec, ?Es; intros; rewrite ?Hf in * by done; try done.
  - rewrite <- H2. simpl. rewrite Et. unfold fupd. destruct (decide _) as [->|]; [apply E2|done].
  - simpl. rewrite Et. unfold fupd. by destruct (decide _) as [->|].
  - destruct (H5 u0 H) as [Ha [v Hb]]. split; [done|]. exists v. by rewrite Hf.
  - assert (th c v = TRecv) as [u0 Hu]%H6. { simpl in H. rewrite Et in H. unfold fupd in H. destruct (decide _) as [->|]; auto. } exists u0. by rewrite Hf.
  - destruct (H7 H) as [v Hv]. exists v. by rewrite Hf.
  - destruct (H8 v H) as [?|[u0 Hu]]; [by left|right]. exists u0. by rewrite Hf.
Qed.
Lemma solo_crash c o : solo c o → solo (crash c) o.
Proof. intros [H1 H2 H3 H4 H5 H6 H7 H8]. by split. Qed.
Ltac solo_keep c Eu := apply (solo_goto c); try done; try (by rewrite Eu); try (intros; by rewrite Eu).
Lemma solo_act c u c' o : locks c → solo c o → act c u = Some c' → solo c' o.
Proof.
  intros HL HS Hact. pose proof (solo_crash c o HS) as Hcr.
  assert (Hqx : has_queue (th c u) = true → ∀ w, has_queue (th c w) = true → w = u).
  { intros Hu w Hw. apply (lk_q c HL) in Hu. apply (lk_q c HL) in Hw. congruence. }
  unfold act in Hact. destruct (th c u) eqn:Eu; try done.
  - destruct (decide_add c i t k) eqn:Ed; simplify_eq; [|done]. apply decide_add_pc in Ed as [->|[[cur ->]|(r & e & ->)]]; solo_keep c Eu.
  - injection Hact as <-. case_match; solo_keep c Eu.
  - injection Hact as <-. repeat case_match; try done; solo_keep c Eu.
  - apply lock_b_eq in Hact as [_ ->]. solo_keep c Eu.
  - injection Hact as <-. solo_keep c Eu.
  - injection Hact as <-. solo_keep c Eu.
  - injection Hact as <-. case_match; solo_keep c Eu.
  - apply lock_q_eq in Hact as [_ ->]. solo_keep c Eu.
  - injection Hact as <-. repeat case_match; try done; solo_keep c Eu.
  - injection Hact as <-. repeat case_match; try done; solo_keep c Eu.
  - (* QCas *) injection Hact as <-. destruct (sleeping (qq c)) eqn:Es; [|solo_keep c Eu].
    destruct HS as [H1 H2 H3 H4 H5 H6 H7 H8]. destruct (H7 Es) as [v Hv]. assert (v ≠ u) by (intros ->; by rewrite Eu in Hv).
    assert (Hh : hears (th c v) = true). { destruct (th c v) eqn:Ev; try done. exfalso. apply H. apply Hqx; [done|by rewrite Ev]. }
    assert (Hu : sends (fupd (th c) u (QSend t k) u) = true) by by rewrite fupd_eq.
    split; cbn [goto set_sleeping set_qq qq cc th sleeping cancelled]; intros; try done.
    + unfold fupd. destruct (decide (w = u)) as [->|]; [|by apply H1]. rewrite <- H1, Eu. done.
    + unfold fupd. destruct (decide (w = u)) as [->|]; [|by apply H2]. rewrite <- H2, Eu. done.
    + unfold fupd. destruct (decide _); [done|apply H4].
    + split; [done|]. exists v. by rewrite fupd_ne.
    + by exists u.
    + right. by exists u.
  - injection Hact as <-. solo_keep c Eu.
  - injection Hact as <-. destruct k, b; solo_keep c Eu.
  - injection Hact as <-. case_match; solo_keep c Eu.
  - apply lock_b_eq in Hact as [_ ->]. solo_keep c Eu.
  - injection Hact as <-. case_match; solo_keep c Eu.
  - injection Hact as <-. solo_keep c Eu.
  - injection Hact as <-. solo_keep c Eu.
  - injection Hact as <-. repeat case_match; solo_keep c Eu.
  - injection Hact as <-. repeat case_match; try done; solo_keep c Eu.
  - apply lock_b_eq in Hact as [_ ->]. solo_keep c Eu.
  - destruct rest; injection Hact as <-; repeat case_match; solo_keep c Eu.
  - injection Hact as <-. solo_keep c Eu.
  - apply lock_q_eq in Hact as [_ ->]. solo_keep c Eu.
  - injection Hact as <-. case_match; solo_keep c Eu.
  - injection Hact as <-. solo_keep c Eu.
  - injection Hact as <-. case_match; solo_keep c Eu.
  - injection Hact as <-. repeat case_match; try done; solo_keep c Eu.
  - injection Hact as <-. solo_keep c Eu.
  - (* TSleep *) injection Hact as <-. destruct HS as [H1 H2 H3 H4 H5 H6 H7 H8].
    assert (Hns : ∀ w, sends (fupd (th c) u (TUnl dl) w) = false).
    { intros w. unfold fupd. destruct (decide (w = u)) as [->|Hw]; [done|]. destruct (th c w) eqn:Ew; try done. exfalso. apply Hw. apply Hqx; [done|by rewrite Ew]. }
    split; cbn [goto set_sleeping set_qq qq cc th sleeping cancelled]; intros; try done.
    + unfold fupd. destruct (decide (w = u)) as [->|]; [|by apply H1]. rewrite <- H1, Eu. done.
    + unfold fupd. destruct (decide (w = u)) as [->|]; [|by apply H2]. rewrite <- H2, Eu. done.
    + unfold fupd. destruct (decide _); [done|apply H4].
    + by rewrite Hns in H.
    + unfold fupd in H. destruct (decide _); [done|]. apply H6 in H as [w Hw]. exists w. unfold fupd. destruct (decide _) as [->|]; [by rewrite Eu in Hw|done].
    + exists u. by rewrite fupd_eq.
    + by left.
  - (* TUnl *) injection Hact as <-. destruct HS as [H1 H2 H3 H4 H5 H6 H7 H8].
    assert (Hns : ∀ w, sends (th c w) = false).
    { intros w. destruct (th c w) eqn:Ew; try done. exfalso. assert (w = u) as -> by (apply Hqx; [done|by rewrite Ew]). congruence. }
    split; cbn [goto set_qmu set_qq qq cc th sleeping cancelled]; intros; try done.
    + unfold fupd. destruct (decide (w = u)) as [->|]; [|by apply H1]. rewrite <- H1, Eu. done.
    + unfold fupd. destruct (decide (w = u)) as [->|]; [|by apply H2]. rewrite <- H2, Eu. done.
    + unfold fupd. destruct (decide _); [done|apply H4].
    + unfold fupd in H. destruct (decide _); [done|]. by rewrite Hns in H.
    + unfold fupd in H. destruct (decide _); [done|]. apply H6 in H as [w Hw]. by rewrite Hns in Hw.
    + exists u. by rewrite fupd_eq.
    + left. destruct (H8 u) as [?|[w Hw]]; [by rewrite Eu|done|by rewrite Hns in Hw].
  - (* TSwap *) injection Hact as <-. destruct HS as [H1 H2 H3 H4 H5 H6 H7 H8].
    assert (Hone : ∀ w, queue_goroutine (th c w) = true → w = u).
    { intros w [ru Hw]%H1. assert (∃ ru, o = Some (ru, u)) as [ru' Hu'] by (apply H1; by rewrite Eu). congruence. }
    destruct (sleeping (qq c)) eqn:Es.
    + split; cbn [goto set_sleeping set_qq qq cc th sleeping cancelled]; intros; try done.
      * unfold fupd. destruct (decide (w = u)) as [->|]; [|by apply H1]. rewrite <- H1, Eu. done.
      * unfold fupd. destruct (decide (w = u)) as [->|]; [|by apply H2]. rewrite <- H2, Eu. done.
      * unfold fupd. destruct (decide _); [done|apply H4].
      * unfold fupd in H. destruct (decide _); [done|]. by destruct (H5 u0 H).
      * unfold fupd in H. destruct (decide _) as [|Hn]; [done|]. destruct Hn. apply Hone. by rewrite H.
      * unfold fupd in H. destruct (decide _) as [|Hn]; [done|]. destruct Hn. by apply Hone, sleeps_queue.
    + destruct (H8 u) as [?|[w Hw]]; [by rewrite Eu|done|]. assert (w ≠ u) by (intros ->; by rewrite Eu in Hw).
      split; cbn [goto set_sleeping set_qq qq cc th sleeping cancelled]; intros; try done.
      * unfold fupd. destruct (decide (w0 = u)) as [->|]; [|by apply H1]. rewrite <- H1, Eu. done.
      * unfold fupd. destruct (decide (w0 = u)) as [->|]; [|by apply H2]. rewrite <- H2, Eu. done.
      * unfold fupd. destruct (decide _); [done|apply H4].
      * split; [done|]. exists u. by rewrite fupd_eq.
      * exists w. by rewrite fupd_ne.
      * right. exists w. by rewrite fupd_ne.
  - case_match; [|done]. injection Hact as <-. solo_keep c Eu.
  - (* TClose *) pose proof (s_e c o HS u) as He. by rewrite Eu in He.
Qed.
Lemma solo_next c l c' o : locks c → solo c o → one_run c l → next c l = Some c' → ∃ o', solo c' o'.
Proof.
  intros HL HS Hok Hn. unfold next in Hn. destruct (crashed c); [done|].
  destruct l as [n|u oo|u t|v|u|s r|u|u|u|u|u].
  - case_match; [|done]. injection Hn as <-. exists o. destruct HS. by split.
  - destruct (th c u) eqn:Eu; try done. destruct oo as [t|t|t|v].
    + case_match; [done|]. injection Hn as <-. exists o. solo_keep c Eu.
    + case_match; [done|]. injection Hn as <-. exists o. solo_keep c Eu.
    + injection Hn as <-. exists o. solo_keep c Eu.
    + destruct (th c v) eqn:Ev; try done. case_decide as Huv; [done|]. injection Hn as <-. simpl in Hok. exists (Some (u, v)).
      destruct HS as [H1 H2 H3 H4 H5 H6 H7 H8]. assert (o = None) as ->.
      { destruct o as [[ru x]|]; [|done]. assert (queue_goroutine (th c x) = true) as E by (apply H1; eauto). by rewrite Hok in E. }
      assert (Hs : ∀ w, sends (th c w) = false).
      { intros w. destruct (sends (th c w)) eqn:E; [|done]. destruct (H5 w E) as [_ [x Hx%hears_queue]]. by rewrite Hok in Hx. }
      split; cbn [goto set_outq set_closed set_cancelled set_cc qq cc th cancelled]; intros.
      * unfold fupd. destruct (decide (w = v)) as [->|]; [split; eauto|]. destruct (decide (w = u)) as [->|].
        -- split; [done|]. intros [ru Hru]. congruence.
        -- rewrite Hok. split; [done|]. intros [ru Hru]. congruence.
      * unfold fupd. destruct (decide (w = v)) as [->|]; [split; [done|congruence]|]. destruct (decide (w = u)) as [->|].
        -- simpl. split; [by intros ->|]. by intros [= ->].
        -- rewrite H2. split; [done|congruence].
      * unfold fupd. case_decide; [done|apply H3].
      * unfold fupd. repeat case_decide; [done..|apply H4].
      * exfalso. unfold fupd in H. repeat case_decide; try done. by rewrite Hs in H.
      * exfalso. unfold fupd in H. repeat case_decide; try done. pose proof (Hok v0) as Hq. by rewrite H in Hq.
      * exfalso. destruct (H7 H) as [x Hx%sleeps_queue]. by rewrite Hok in Hx.
      * exfalso. unfold fupd in H. repeat case_decide; try done. apply sleeps_queue in H. by rewrite Hok in H.
  - destruct (th c u) eqn:Eu; try done. case_match; [|done]. injection Hn as <-. exists o. solo_keep c Eu.
  - done.
  - exists o. by apply (solo_act c u).
  - assert (∃ t k, th c s = QSend t k ∧ (th c r = TRecv ∨ ∃ d, th c r = TWait d) ∧ c' = goto (goto c s (QUnl t k)) r TLock) as (t & k & Es & Er & ->).
    { destruct (th c s); try done. destruct (th c r); try done; injection Hn as <-; eexists _, _; split_and!; eauto. } clear Hn.
    exists o. destruct HS as [H1 H2 H3 H4 H5 H6 H7 H8]. destruct (H5 s) as [Hsl _]; [by rewrite Es|].
    assert (Hq : queue_goroutine (th c r) = true) by (destruct Er as [-> | [d ->]]; done).
    assert (Hrs : r ≠ s) by (intros ->; by rewrite Es in Hq).
    assert (Hone : ∀ w, queue_goroutine (th c w) = true → w = r). { intros w [ru Hw]%H1. apply H1 in Hq as [ru' Hq]. congruence. }
    assert (Hns : ∀ w, sends (fupd (fupd (th c) s (QUnl t k)) r TLock w) = false).
    { intros w. unfold fupd. destruct (decide (w = r)); [done|]. destruct (decide (w = s)) as [->|Hw]; [done|]. destruct (th c w) eqn:Ew; try done. destruct Hw.
      assert (qmu (qq c) = Some w) by (apply (lk_q c HL); by rewrite Ew). assert (qmu (qq c) = Some s) by (apply (lk_q c HL); by rewrite Es). congruence. }
    split; cbn [goto qq cc th]; intros; try done.
    + unfold fupd. destruct (decide (w = r)) as [->|]; [by rewrite <- H1|]. destruct (decide (w = s)) as [->|]; [|apply H1]. rewrite <- H1, Es. done.
    + unfold fupd. destruct (decide (w = r)) as [->|]; [rewrite <- H2; by destruct Er as [-> | [d ->]]|]. destruct (decide (w = s)) as [->|]; [|apply H2]. rewrite <- H2, Es. done.
    + unfold fupd. repeat case_decide; try done; apply H4.
    + by rewrite Hns in H.
    + exfalso. unfold fupd in H. repeat case_decide; try done. assert (v = r) by (apply Hone; by rewrite H). done.
    + exfalso. congruence.
    + exfalso. unfold fupd in H. repeat case_decide; try done. assert (v = r) by (by apply Hone, sleeps_queue). done.
  - destruct (th c u) eqn:Eu; try done. repeat case_match; try done. injection Hn as <-. exists o. solo_keep c Eu.
  - destruct (th c u) eqn:Eu; try done. by rewrite (s_c c o HS) in Hn.
  - destruct (th c u) eqn:Eu; try done. case_match; [done|]. injection Hn as <-. exists o. solo_keep c Eu.
  - destruct (th c u) eqn:Eu; try done. repeat case_match; try done. injection Hn as <-. exists o. by apply solo_crash.
  - destruct (th c u) eqn:Eu; try done. by rewrite (s_c c o HS) in Hn.
Qed.
Lemma solo_init l n now : solo (init l n now) None.
Proof. split; simpl; intros; try done. split; [done|]. by intros [? ?]. Qed.
Lemma solo_exec tick n now c : wheel_exec one_run tick n now c → locks c ∧ ∃ o, solo c o.
Proof.
  intros (l & _ & Hr). assert (HI : locks (init l n now) ∧ ∃ o, solo (init l n now) o) by (split; [apply locks_init|eexists; apply solo_init]). revert HI.
  induction Hr as [c|c c1 c2 H1 H2 IH]; [done|]. intros [HL [o HS]]. apply IH. destruct H1 as (x & Hok & Hn). split; [by apply (locks_next c x)|by apply (solo_next c x c1 o)].
Qed.

(** where a goroutine can always move *)
Definition free (p : pc) : bool :=
  match p with Idle | ALock _ _ _ _ | QLock _ _ _ | QSend _ _ | SLock _ _ | RSelect _ | RLock _ _ | TLock | TWait _ | TRecv | TSend _ | TEnd => false | _ => true end.
Lemma free_moves c u : crashed c = false → free (th c u) = true → moves c u.
Proof.
  intros Hc Hf. assert (∃ c', act c u = Some c') as [c' Ha]. { unfold act. destruct (th c u); try done; eauto. destruct rest; eauto. }
  exists (LAct u), c'. split; [|by left]. unfold next. by rewrite Hc.
Qed.
Definition good (c : cfg) (u : nat) : Prop := ∃ w, rtc (waits c) u w ∧ (moves c w ∨ self_wait (th c w)).
Lemma good_wait c u w : waits c u w → good c w → good c u.
Proof. intros H (x & Hx & Hg). exists x. split; [by eapply rtc_l|done]. Qed.
Lemma good_moves c u : moves c u → good c u.
Proof. intros. exists u. split; [done|by left]. Qed.
Section progress.
Context (c : cfg) (o : option (nat * nat)) (HL : locks c) (HS : solo c o) (Hc : crashed c = false).
Lemma act_moves u c' : act c u = Some c' → moves c u.
Proof. intros Ha. exists (LAct u), c'. split; [unfold next; by rewrite Hc|by left]. Qed.
Lemma queue_good u : has_queue (th c u) = true → good c u.
Proof.
  intros Hq. destruct (free (th c u)) eqn:Ef; [by apply good_moves, free_moves|]. destruct (th c u) eqn:Eu; try done.
  destruct (s_send c o HS u) as [Hs [v Hv]]; [by rewrite Eu|]. destruct (th c v) eqn:Ev; try done.
  - apply good_moves. eexists (LWake u v), _. split; [unfold next; rewrite Hc, Eu, Ev; done|]. eauto.
  - apply (good_wait c u v); [unfold waits; by rewrite Eu|]. apply good_moves, free_moves; [done|by rewrite Ev].
  - apply good_moves. eexists (LWake u v), _. split; [unfold next; rewrite Hc, Eu, Ev; done|]. eauto.
Qed.
Lemma qlock_good u r t k : th c u = QLock r t k → good c u.
Proof.
  intros Eu. destruct (qmu (qq c)) as [w|] eqn:Eq.
  - apply (good_wait c u w); [unfold waits; by rewrite Eu|]. by apply queue_good, (lk_q c HL).
  - apply good_moves. eapply act_moves. unfold act. rewrite Eu. unfold lock_q. by rewrite Eq.
Qed.
Lemma alock_good u r e t k : th c u = ALock r e t k → (∀ w, bmu (mm c) r = Some w → w ≠ u → good c w) → good c u.
Proof.
  intros Eu Hw. destruct (bmu (mm c) r) as [w|] eqn:Eq.
  - destruct (decide (w = u)) as [->|Hn].
    + exists u. split; [done|right]. apply (lk_b c HL) in Eq. rewrite Eu in Eq |- *. simpl in Eq. destruct k; simpl in Eq; [by apply elem_of_nil in Eq..|]. by apply elem_of_list_singleton in Eq.
    + apply (good_wait c u w); [unfold waits; by rewrite Eu|]. by apply Hw.
  - apply good_moves. eapply act_moves. unfold act. rewrite Eu. unfold lock_b. by rewrite Eq.
Qed.
Lemma bucket_good w r : r ∈ buckets_of (th c w) → good c w.
Proof.
  intros Hr. destruct (free (th c w)) eqn:Ef; [by apply good_moves, free_moves|].
  destruct (has_queue (th c w)) eqn:Eq; [by apply queue_good|].
  destruct (th c w) eqn:Ew; try done; try (by apply elem_of_nil in Hr).
  - apply (alock_good w r0 e t k Ew). intros x Hx%(lk_b c HL) Hn. simpl in Hr. destruct k as [| |v b rest]; simpl in Hr; try (by apply elem_of_nil in Hr).
    (* only one goroutine flushes *)
    apply good_moves, free_moves; [done|]. assert (o = Some (w, v)) as Ho by (apply (s_r c o HS); by rewrite Ew).
    assert (Hk : ∀ y, serves (th c x) y → False). { intros y Hy%(s_r c o HS). congruence. }
    destruct (th c x) eqn:Ex; try done; simpl in Hx; try (by apply elem_of_nil in Hx); destruct k as [| |v' b' rest']; simpl in Hx; try (by apply elem_of_nil in Hx); by destruct (Hk v').
  - eapply qlock_good. exact Ew.
Qed.
Lemma blocked_good u r p : bmu (mm c) r = None ∧ act c u = lock_b c u r p ∨ (∃ w, bmu (mm c) r = Some w ∧ waits c u w) → good c u.
Proof.
  intros [[Hm Ha]|(w & Hw & Hu)].
  - apply good_moves. eapply act_moves. rewrite Ha. unfold lock_b. by rewrite Hm.
  - apply (good_wait c u w); [done|]. eapply bucket_good. by apply (lk_b c HL).
Qed.
Lemma busy_good u : busy (th c u) = true → (∀ b, th c u ≠ TSend b) → good c u.
Proof.
  intros Hb Ht. destruct (free (th c u)) eqn:Ef; [by apply good_moves, free_moves|].
  destruct (has_queue (th c u)) eqn:Eq; [by apply queue_good|]. destruct (th c u) eqn:Eu; try done.
  - apply (alock_good u r e t k Eu). intros w Hw Hn. eapply bucket_good. by apply (lk_b c HL).
  - by eapply qlock_good.
  - apply (blocked_good u r (SIn r t)). destruct (bmu (mm c) r) as [w|] eqn:Em; [right; exists w; unfold waits; by rewrite Eu|left]. unfold act. by rewrite Eu.
  - apply (blocked_good u b (RScan v b (btimers (bk (mm c) b)))). destruct (bmu (mm c) b) as [w|] eqn:Em; [right; exists w; unfold waits; by rewrite Eu|left]. unfold act. by rewrite Eu.
  - destruct (qmu (qq c)) as [w|] eqn:Em.
    + apply (good_wait c u w); [unfold waits; by rewrite Eu|]. by apply queue_good, (lk_q c HL).
    + apply good_moves. eapply act_moves. unfold act. rewrite Eu. unfold lock_q. by rewrite Em.
  - destruct (s_recv c o HS u Eu) as [w Hw]. destruct (th c w) eqn:Ew; try done. apply good_moves. eexists (LWake w u), _. split; [unfold next; rewrite Hc, Ew, Eu; done|]. eauto.
  - by destruct (Ht b).
Qed.
Lemma progress u : busy (th c u) = true → good c u.
Proof.
  intros Hb. destruct (th c u) eqn:Eu; try (apply busy_good; rewrite Eu; done).
  destruct (decide (length (outq (cc c) u) < 10)%nat) as [Hlt|Hlt].
  { apply good_moves. eapply act_moves. unfold act. rewrite Eu. by rewrite decide_True. }
  assert (∃ ru, o = Some (ru, u)) as [ru Hru] by (apply (s_q c o HS); by rewrite Eu). apply (s_r c o HS) in Hru.
  apply (good_wait c u ru); [unfold waits; rewrite Eu; split; [done|lia]|].
  destruct (busy (th c ru)) eqn:Er; [apply busy_good; [done|intros b' E; by rewrite E in Hru]|].
  destruct (th c ru) eqn:Ex; try done. simpl in Hru. subst v. destruct (outq (cc c) u) as [|b1 q] eqn:Eo; [simpl in Hlt; lia|].
  apply good_moves. eexists (LRecv ru), _. split; [unfold next; rewrite Hc, Ex, Eo; done|]. eauto.
Qed.
Lemma waits_stuck u w : waits c u w → ¬ moves c u.
Proof.
  unfold waits. intros Hw (l & c' & Hn & Hl). unfold next in Hn. rewrite Hc in Hn.
  destruct (th c u) eqn:Eu; try done; destruct Hl as [-> |[-> |[[x ->]|[x ->]]]]; try (rewrite Eu in Hn; done); try (unfold act in Hn; rewrite Eu in Hn; unfold lock_b, lock_q in Hn; rewrite Hw in Hn; done);
    try (by rewrite Eu in Hn; destruct (th c x)); try (by unfold act in Hn; rewrite Eu in Hn).
  - rewrite Eu in Hn. destruct (s_q c o HS w) as [H1 _]. destruct H1 as [ru Hru]; [by rewrite Hw|]. destruct (th c x) eqn:Ex; try done;
      (destruct (s_q c o HS x) as [H1 _]; destruct H1 as [ru' Hru']; [by rewrite Ex|]; congruence).
  - unfold act in Hn. rewrite Eu in Hn. rewrite decide_False in Hn by lia. done.
Qed.
End progress.
