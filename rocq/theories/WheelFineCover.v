(** * Timing wheel, one access at a time: no bucket with timers is forgotten *)
From stdpp Require Import relations.
From Verif Require Import GoBase HeapModel HeapProofs HeapMethods WheelModel WheelFineModel WheelFineSpec WheelFineProofs.
Local Open Scope Z_scope.

(** ** Timers are in the bucket of their time *)
Definition cont_timers (k : cont) : list timer := match k with KFlush _ _ rest => rest | _ => [] end.
Definition held (p : pc) : list timer :=
  match p with
  | ALoad _ t k | AOver _ _ t k | ANew _ _ t k | ALock _ _ t k | AIns _ _ t k | AUnl _ _ t k | ASwap _ _ t k | QLock _ t k | QPush _ t k | QPeek _ t k
  | QCas t k | QSend t k | QUnl t k | ARet _ t k => t :: cont_timers k
  | RScan _ _ rest => rest
  | _ => []
  end.
Definition placing (p : pc) : option (ref * Z * timer) := match p with ALock r e t _ | AIns r e t _ | AUnl r e t _ | ASwap r e t _ => Some (r, e, t) | _ => None end.
Definition placed (c : cfg) (r : ref) (e : Z) (x : timer) : Prop :=
  ∃ l, levels (mm c) !! r.1 = Some l ∧ ∃ q, r.2 = Z.rem q (size c) ∧ e = ltick l * q ∧ e ≤ texp x < e + Z.abs (ltick l) ∧ 0 ≤ e.
Record slots (c : cfg) : Prop := {
  sl_held : ∀ u x, x ∈ held (th c u) → sane_timer x;
  sl_in : ∀ r x, x ∈ btimers (bk (mm c) r) → sane_timer x ∧ in_slot c r x;
  sl_place : ∀ u r e x, placing (th c u) = Some (r, e, x) → placed c r e x;
}.
Definition same_ticks (c d : cfg) : Prop := size d = size c ∧ ∀ i l, levels (mm c) !! i = Some l → ∃ l', levels (mm d) !! i = Some l' ∧ ltick l' = ltick l.
Lemma ticks_slot c d r x : same_ticks c d → in_slot c r x → in_slot d r x.
Proof. intros [E H] (l & Hl & q & Hq & Hx). destruct (H _ _ Hl) as (l' & Hl' & Et). exists l'. split; [done|]. exists q. by rewrite E, Et. Qed.
Lemma ticks_placed c d r e x : same_ticks c d → placed c r e x → placed d r e x.
Proof. intros [E H] (l & Hl & q & Hq & Hx). destruct (H _ _ Hl) as (l' & Hl' & Et). exists l'. split; [done|]. exists q. by rewrite E, Et. Qed.
Lemma same_ticks_eq c d : size d = size c → levels (mm d) = levels (mm c) → same_ticks c d.
Proof. intros E1 E2. split; [done|]. intros i l Hl. rewrite E2. eauto. Qed.
Lemma slots_goto c d u p : same_ticks c d → th d = th c → (∀ r x, x ∈ btimers (bk (mm d) r) → x ∈ btimers (bk (mm c) r)) → (∀ x, x ∈ held p → x ∈ held (th c u)) →
  (placing p = None ∨ placing p = placing (th c u)) → slots c → slots (goto d u p).
Proof.
  intros ET Eth Hb Hh Hp [H1 H2 H3]. split.
  - intros w x. simpl. rewrite Eth. unfold fupd. destruct (decide _) as [->|]; [intros Hx%Hh|]; by eapply H1.
  - intros r x Hx. simpl in Hx. apply Hb, H2 in Hx as [Hx Hs]. split; [done|]. by apply (ticks_slot c d).
  - intros w r e x. simpl. rewrite Eth. unfold fupd. assert (HH : placing (th c w) = Some (r, e, x) → placed (goto d u p) r e x). { intros HH%H3. by apply (ticks_placed c d). }
    destruct (decide _) as [->|]; [|done]. destruct Hp as [->| ->]; done.
Qed.
Lemma slots_crash c : slots c → slots (crash c).
Proof. intros [H1 H2 H3]. by split. Qed.
Lemma decide_add_placed c i t k p : sane_timer t → decide_add c i t k = Some p → placing p = None ∨ ∃ r e, placing p = Some (r, e, t) ∧ placed c r e t.
Proof.
  intros [Ht1 Ht2]. unfold decide_add. destruct (levels (mm c) !! i) as [l|] eqn:El; [|done]. destruct (_ <? _); [intros [= <-]; by left|]. destruct (_ <? _); [|intros [= <-]; by left].
  destruct (Z.eqb_spec (ltick l) 0) as [|Hn]; [done|]. destruct (_ =? 0); [done|]. destruct (negb _); [done|]. intros [= <-]. right. eexists _, _. split; [done|].
  set (q := Z.quot (texp t) (ltick l)). pose proof (Z.quot_rem (texp t) (ltick l) Hn) as Hqr. fold q in Hqr. pose proof (Z.rem_bound_abs (texp t) (ltick l) Hn) as Hb.
  pose proof (Z.rem_nonneg (texp t) (ltick l) Hn Ht1) as Hr. assert (Hle : 0 ≤ ltick l * q ≤ texp t).
  { split; [|lia]. unfold q. destruct (Z.lt_total (ltick l) 0) as [HH|[HH|HH]]; [|lia|].
    - assert (Z.quot (texp t) (ltick l) ≤ 0). { rewrite <- (Z.opp_involutive (ltick l)), Z.quot_opp_r by lia. pose proof (Z.quot_pos (texp t) (- ltick l)). lia. } nia.
    - pose proof (Z.quot_pos (texp t) (ltick l)). nia. }
  assert (E64 : i64 (q * ltick l) = ltick l * q) by (rewrite i64_id by (unfold is_i64; lia); lia). rewrite E64.
  exists l. split; [done|]. exists q. split_and!; [done|done|lia|lia|lia].
Qed.
Lemma decide_add_held c i t k p : decide_add c i t k = Some p → held p = t :: cont_timers k.
Proof. unfold decide_add. intros H. repeat case_match; simplify_eq; done. Qed.
Lemma slots_act c u c' : slots c → act c u = Some c' → slots c'.
Proof.
  intros HS Hact. pose proof (slots_crash c HS) as Hcr.
  assert (Hgo : ∀ d p, size d = size c → levels (mm d) = levels (mm c) → th d = th c → (∀ r x, x ∈ btimers (bk (mm d) r) → x ∈ btimers (bk (mm c) r)) → (∀ x, x ∈ held p → x ∈ held (th c u)) →
    (placing p = None ∨ placing p = placing (th c u)) → slots (goto d u p)).
  { intros d p E1 E2 E3 E4 E5 E6. apply (slots_goto c); try done. by apply same_ticks_eq. }
  assert (Hfe : ∀ r e r0 x, x ∈ btimers (fupd (bk (mm c)) r (Bucket e (btimers (bk (mm c) r))) r0) → x ∈ btimers (bk (mm c) r0)) by (intros r e r0 x; unfold fupd; by destruct (decide _) as [->|]).
  destruct (th c u) eqn:Eu; unfold act in Hact; rewrite Eu in Hact; try done; unfold lock_b, lock_q, after_add in Hact.
  all: try (repeat case_match; simplify_eq; first [done|apply Hgo; simpl; auto; done|apply Hgo; simpl; auto; by set_solver]).
  - (* ALoad *) destruct (decide_add c i t k) as [p|] eqn:Ed; simplify_eq; [|done]. assert (Ht : sane_timer t) by (apply (sl_held c HS u); rewrite Eu; left).
    destruct (decide_add_placed c i t k p Ht Ed) as [Hp|(r & e & Hp & Hpl)]; [apply Hgo; try done; [by rewrite (decide_add_held _ _ _ _ _ Ed)|by left]|].
    destruct HS as [H1 H2 H3]. split; simpl; unfold fupd.
    + intros w x. destruct (decide _) as [->|]; [rewrite (decide_add_held _ _ _ _ _ Ed); intros Hx; apply (H1 u); by rewrite Eu|apply H1].
    + intros r0 x Hx%H2. done.
    + intros w r0 e0 x. destruct (decide _) as [->|]; [rewrite Hp; intros [= <- <- <-]; done|apply H3].
  - (* ANew *) repeat case_match; simplify_eq; try done; apply (slots_goto c); simpl; try done; try (by rewrite Eu); try (by left); (split; [done|]); simpl; intros j y Hj; exists y; (split; [first [exact Hj|by apply lookup_app_l_Some]|done]).
  - (* AIns *) simplify_eq. destruct HS as [H1 H2 H3]. assert (Ht : sane_timer t) by (apply (H1 u); rewrite Eu; left). assert (Hp : placed c r e t) by (apply (H3 u); by rewrite Eu). split; simpl; unfold fupd.
    + intros w x. destruct (decide _) as [->|]; [|apply H1]. intros Hx. apply (H1 u). rewrite Eu. done.
    + intros r0 x Hx. assert (HH : x ∈ btimers (bk (mm c) r0) ∨ r0 = r ∧ x = t). { destruct (decide (r0 = r)) as [->|]; [|by left]. simpl in Hx. apply elem_of_app in Hx as [?|Hx%elem_of_list_singleton]; auto. }
      destruct HH as [Hx'%H2|[-> ->]]; [done|]. split; [done|]. destruct Hp as (l & Hl & q & Hq & -> & He & _). exists l. split; [done|]. by exists q.
    + intros w r0 e0 x. destruct (decide _) as [->|]; [simpl; intros [= <- <- <-]; done|apply H3].
  - (* SIn *) case_match; simplify_eq; apply Hgo; simpl; auto. intros r0 x. unfold fupd. destruct (decide (r0 = r)) as [->|]; [|done]. simpl. by intros [_ ?]%elem_of_list_filter.
  - (* RStore *) repeat case_match; simplify_eq; try done. apply (slots_goto c); simpl; try done; [|by rewrite Eu|by left]. split; [done|]. simpl. intros j y Hj. destruct (decide (i = j)) as [<-|Hn].
    + rewrite list_lookup_insert by (by eapply lookup_lt_Some). eexists. split; [done|]. simpl. congruence.
    + rewrite list_lookup_insert_ne by done. eauto.
  - (* RLock *) case_match; simplify_eq. destruct HS as [H1 H2 H3]. split; simpl; unfold fupd; [|apply H2|].
    + intros w x. destruct (decide _) as [->|]; [intros Hx; by apply (H2 b)|apply H1].
    + intros w r0 e0 x. destruct (decide _) as [->|]; [done|apply H3].
  - (* RClear *) simplify_eq. apply Hgo; simpl; auto. intros r0 x. unfold fupd. destruct (decide (r0 = b)); [simpl; by intros ?%elem_of_nil|done].
Qed.
Lemma slots_next c l c' : slots c → sane c l → next c l = Some c' → slots c'.
Proof.
  intros HS Hok Hn. assert (Hgo : ∀ d u p, size d = size c → mm d = mm c → th d = th c → (∀ x, x ∈ held p → x ∈ held (th c u)) → placing p = None → slots (goto d u p)).
  { intros d u p E1 E2 E3 E4 E5. apply (slots_goto c); try done; [apply same_ticks_eq; by rewrite ?E2|by rewrite E2|by left]. }
  assert (Hnew : ∀ d u t k, size d = size c → mm d = mm c → th d = th c → cont_timers k = [] → sane_timer t → slots (goto d u (ALoad 0 t k))).
  { intros d u t k E1 E2 E3 E4 E5. destruct HS as [H1 H2 H3]. unfold in_slot, placed in *. split; simpl; unfold in_slot, placed, fupd; simpl; rewrite ?E1, ?E2, ?E3; [|done|].
    - intros w x. destruct (decide _) as [->|]; [|apply H1]. simpl; rewrite E4. intros ->%elem_of_list_singleton. done.
    - intros w r e x. destruct (decide _) as [->|]; [done|]. apply H3. }
  unfold next in Hn. destruct (crashed c); [done|]. destruct l; simpl in Hok.
  - case_match; [|done]. injection Hn as <-. destruct HS as [H1 H2 H3]. by split.
  - destruct (th c u) eqn:Eu; try done. destruct o.
    + case_match; [done|]. injection Hn as <-. by apply Hnew.
    + case_match; [done|]. injection Hn as <-. by apply Hnew.
    + injection Hn as <-. apply Hgo; try done. simpl. by intros x ?%elem_of_nil.
    + destruct (th c v) eqn:Ev; try done. case_match; [done|]. injection Hn as <-.
      apply (slots_goto (goto (set_outq (set_closed (set_cancelled c v false) v false) v []) u (RSelect v))); try done; [by apply same_ticks_eq|simpl; by intros x ?%elem_of_nil|by left|]. apply Hgo; try done. simpl. by intros x ?%elem_of_nil.
  - destruct (th c u) eqn:Eu; try done. case_match; [|done]. injection Hn as <-. by apply Hnew.
  - injection Hn as <-. destruct HS as [H1 H2 H3]. by split.
  - by apply (slots_act c u).
  - destruct (th c s) eqn:Es; try done. destruct (th c r) eqn:Er; try done; injection Hn as <-.
    all: apply (slots_goto (goto c s (QUnl t k))); try done; [by apply same_ticks_eq|simpl; by intros x ?%elem_of_nil|by left|]; apply Hgo; try done; by rewrite Es.
  - destruct (th c u) eqn:Eu; try done. repeat case_match; try done. injection Hn as <-. apply Hgo; try done. simpl. by intros x ?%elem_of_nil.
  - destruct (th c u) eqn:Eu; try done. repeat case_match; try done. injection Hn as <-. apply Hgo; try done. simpl. by intros x ?%elem_of_nil.
  - destruct (th c u) eqn:Eu; try done. repeat case_match; try done. injection Hn as <-. apply Hgo; try done. simpl. by intros x ?%elem_of_nil.
  - destruct (th c u) eqn:Eu; try done. repeat case_match; try done. injection Hn as <-. by apply slots_crash.
  - destruct (th c u) eqn:Eu; try done. repeat case_match; try done. injection Hn as <-. apply Hgo; try done. simpl. by intros x ?%elem_of_nil.
Qed.

(** ** Buckets on their way *)
Definition heads (p : pc) : option ref := match p with TExp b | TNow b _ | TPop b => Some b | _ => None end.
Definition swaps (p : pc) : option ref := match p with AUnl r _ _ _ | ASwap r _ _ _ => Some r | _ => None end.
(** like [carries], without the buckets whose expiration is still to be set *)
Definition brings (p : pc) : list ref :=
  match p with
  | QLock r _ k | QPush r _ k => r :: cont_bucket k
  | AUnl _ _ _ k | ASwap _ _ _ k | ALoad _ _ k | AOver _ _ _ k | ANew _ _ _ k | ALock _ _ _ k | AIns _ _ _ k | QPeek _ _ k | QCas _ k | QSend _ k | QUnl _ k | ARet _ _ k => cont_bucket k
  | TFound b | TSend b | RGot _ b | RAdv _ b _ _ | RStore _ b _ _ | RLock _ b | RScan _ b _ => [b]
  | _ => []
  end.
Definition coming (c : cfg) (r : ref) : Prop := r ∈ heap (qq c) ∨ (∃ v, r ∈ outq (cc c) v) ∨ ∃ u, r ∈ brings (th c u).
Record cover (c : cfg) : Prop := {
  cv_head : ∀ u b, heads (th c u) = Some b → heap (qq c) !! 0%nat = Some b;
  cv_out : ∀ v, outq (cc c) v ≠ [] → queue_goroutine (th c v) = true;
  cv_exp : ∀ r, bexp (bk (mm c) r) ≠ -1 → coming c r;
  cv_swap : ∀ t r, tb (mm c) t = Some r → bexp (bk (mm c) r) ≠ -1 ∨ ∃ u, swaps (th c u) = Some r;
}.
Lemma cover_crash c : cover c → cover (crash c).
Proof. intros [H1 H2 H3 H4]. by split. Qed.
(** a step that changes neither the queue, the channels, the expirations nor the pointers *)
Lemma cover_goto c d u p : th d = th c → heap (qq d) = heap (qq c) → (∀ v, outq (cc d) v = outq (cc c) v) → (∀ r, bexp (bk (mm d) r) = bexp (bk (mm c) r)) → (∀ t, tb (mm d) t = tb (mm c) t ∨ tb (mm d) t = None) →
  (heads p = None ∨ heads p = heads (th c u) ∨ ∃ b, heads p = Some b ∧ heap (qq c) !! 0%nat = Some b) → (queue_goroutine (th c u) = true → queue_goroutine p = true) → (∀ r, r ∈ brings (th c u) → r ∈ brings p) → (swaps (th c u) = None ∨ swaps p = swaps (th c u)) →
  cover c → cover (goto d u p).
Proof.
  intros Eth Eh Eo Ee Et Hh Hq Hb Hs [H1 H2 H3 H4]. split; simpl; rewrite ?Eth, ?Eh; unfold fupd.
  - intros w b. destruct (decide _) as [->|]; [|apply H1]. destruct Hh as [->|[->|(b' & -> & Hb')]]; [done|apply H1|]. by intros [= <-].
  - intros v. rewrite Eo. intros Hv%H2. destruct (decide _) as [->|]; [by apply Hq|done].
  - intros r. rewrite Ee. intros Hr%H3. unfold coming. simpl. rewrite Eth, Eh. unfold fupd. destruct Hr as [Hr|[[v Hr]|[w Hr]]]; [by left|right; left; exists v; by rewrite Eo|right; right]. exists w. destruct (decide _) as [->|]; [by apply Hb|done].
  - intros t r Ht. assert (tb (mm c) t = Some r) as Ht' by (destruct (Et t) as [<-|?]; [done|congruence]). rewrite Ee. apply H4 in Ht' as [?|[w Hw]]; [by left|right]. exists w. destruct (decide _) as [->|]; [|done]. destruct Hs as [?| ->]; [congruence|done].
Qed.
Lemma decide_add_way c i t k p : decide_add c i t k = Some p → heads p = None ∧ queue_goroutine p = false ∧ brings p = cont_bucket k ∧ swaps p = None.
Proof. unfold decide_add. intros H. repeat case_match; simplify_eq; done. Qed.
Lemma cover_act c u c' own : locks c → acct c own → slots c → cover c → act c u = Some c' → cover c'.
Proof.
  intros HL HA HS HC Hact. pose proof (cover_crash c HC) as Hcr.
  assert (Hqx : has_queue (th c u) = true → ∀ w, has_queue (th c w) = true → w = u).
  { intros Hu w Hw. apply (lk_q c HL) in Hu. apply (lk_q c HL) in Hw. congruence. }
  assert (Hheads : ∀ p b, heads p = Some b → has_queue p = true) by (intros p b; by destruct p).
  assert (Hgo : ∀ d p, th d = th c → heap (qq d) = heap (qq c) → (∀ v, outq (cc d) v = outq (cc c) v) → (∀ r, bexp (bk (mm d) r) = bexp (bk (mm c) r)) → (∀ t, tb (mm d) t = tb (mm c) t ∨ tb (mm d) t = None) →
    (heads p = None ∨ heads p = heads (th c u) ∨ ∃ b, heads p = Some b ∧ heap (qq c) !! 0%nat = Some b) → (queue_goroutine (th c u) = true → queue_goroutine p = true) → (∀ r, r ∈ brings (th c u) → r ∈ brings p) → (swaps (th c u) = None ∨ swaps p = swaps (th c u)) →
    cover (goto d u p)) by (intros; by apply (cover_goto c)).
  destruct (th c u) eqn:Eu; unfold act in Hact; rewrite Eu in Hact; try done; unfold lock_b, lock_q, after_add in Hact.
  all: try (repeat case_match; simplify_eq; first [done|apply Hgo; simpl; auto; done|apply Hgo; simpl; auto; by set_solver]).
  - (* ALoad *) destruct (decide_add c i t k) as [p|] eqn:Ed; simplify_eq; [|done]. destruct (decide_add_way _ _ _ _ _ Ed) as (P1 & P2 & P3 & P4). apply Hgo; simpl; try (by left); try done. by rewrite P3.
  - (* AIns *) simplify_eq. destruct HC as [H1 H2 H3 H4]. split; simpl; unfold fupd.
    + intros w b. destruct (decide _) as [->|]; [done|apply H1].
    + intros v Hv%H2. destruct (decide _) as [->|]; [by rewrite Eu in Hv|done].
    + intros r0 Hr. assert (coming c r0) as [?|[?|[w Hw]]] by (apply H3; by destruct (decide _) as [->|]); [by left|right; by left|right; right]. exists w. simpl. unfold fupd. destruct (decide (w = u)) as [->|]; [by rewrite Eu in Hw|done].
    + intros t0 r0. destruct (decide (t0 = tid t)) as [->|].
      * intros [= <-]. right. exists u. by rewrite decide_True.
      * intros [?|[w Hw]]%H4; [left; by destruct (decide _) as [->|]|right]. exists w. destruct (decide (w = u)) as [->|]; [by rewrite Eu in Hw|done].
  - (* ASwap *) simplify_eq. assert (He : e ≠ -1). { assert (placed c r e t) as (l & _ & q & _ & _ & _ & ?) by (apply (sl_place c HS u); by rewrite Eu). lia. }
    destruct HC as [H1 H2 H3 H4]. set (p := if _ =? _ then _ else _). assert (Hp : heads p = None ∧ ∀ x, x ∈ cont_bucket k → x ∈ brings p). { unfold p. destruct (_ =? _); simpl; split; try done. intros x Hx. by right. }
    split; simpl; unfold fupd.
    + intros w b. destruct (decide _) as [->|]; [by rewrite (proj1 Hp)|apply H1].
    + intros v Hv%H2. destruct (decide _) as [->|]; [by rewrite Eu in Hv|done].
    + intros r0 Hr. assert (Hc : coming c r0 ∨ r0 ∈ brings p).
      { destruct (decide (r0 = r)) as [->|]; [|left; by apply H3]. unfold p. destruct (Z.eqb_spec (bexp (bk (mm c) r)) e) as [E|]; [left; apply H3; congruence|right; left]. }
      destruct Hc as [[?|[?|[w Hw]]]|Hw]; [by left|right; by left| |].
      * right; right. exists w. simpl. unfold fupd. destruct (decide (w = u)) as [->|]; [|done]. rewrite Eu in Hw. by apply (proj2 Hp).
      * right; right. exists u. simpl. by rewrite fupd_eq.
    + intros t0 r0 Ht0. destruct (decide (r0 = r)) as [->|]; [by left|]. apply H4 in Ht0 as [?|[w Hw]]; [by left|right]. exists w. destruct (decide (w = u)) as [->|]; [|done]. rewrite Eu in Hw. simpl in Hw. congruence.
  - (* QPush *) destruct (gpush_spec (sooner (bk (mm c))) 2 ltac:(lia) (heap (qq c)) r) as (h' & Eh & Hperm & _). rewrite Eh in Hact. simplify_eq. destruct HC as [H1 H2 H3 H4].
    split; simpl; unfold fupd.
    + intros w b. destruct (decide _) as [->|]; [done|]. intros Hw. exfalso. apply Hheads in Hw. apply (Hqx eq_refl) in Hw. done.
    + intros v Hv%H2. destruct (decide _) as [->|]; [by rewrite Eu in Hv|done].
    + intros r0 Hr%H3. unfold coming. simpl. rewrite Hperm. destruct Hr as [?|[?|[w Hw]]]; [left; by right|right; by left|]. destruct (decide (w = u)) as [->|]; [|right; right; exists w; by rewrite fupd_ne].
      rewrite Eu in Hw. simpl in Hw. apply elem_of_cons in Hw as [->|Hw]; [left; left|right; right; exists u]. by rewrite fupd_eq.
    + intros t0 r0 [?|[w Hw]]%H4; [by left|right]. exists w. destruct (decide (w = u)) as [->|]; [by rewrite Eu in Hw|done].
  - (* SIn *) case_match; simplify_eq; apply Hgo; simpl; auto.
    + intros r0. unfold fupd. by destruct (decide (r0 = r)) as [->|].
    + intros t0. unfold fupd. destruct (decide (t0 = t)) as [->|]; [by right|by left].
  - (* RScan *) destruct rest as [|t rest]; simplify_eq.
    + assert (Hcont : content c b = []). { assert (Hm : bmu (mm c) b = Some u) by (apply (lk_b c HL); rewrite Eu; left). unfold content. rewrite Hm, Eu. simpl. by rewrite decide_True. }
      destruct HC as [H1 H2 H3 H4]. split; simpl; unfold fupd.
      * intros w b0. destruct (decide _) as [->|]; [done|apply H1].
      * intros v0 Hv%H2. destruct (decide _) as [->|]; [by rewrite Eu in Hv|done].
      * intros r0. destruct (decide (r0 = b)) as [->|Hn]; [done|]. intros [?|[?|[w Hw]]]%H3; [by left|right; by left|right; right]. exists w. simpl. unfold fupd. destruct (decide (w = u)) as [->|]; [|done]. rewrite Eu in Hw. by apply elem_of_list_singleton in Hw.
      * intros t0 r0 Ht0. destruct (decide (r0 = b)) as [->|Hn]; [apply (a_live c own HA) in Ht0; rewrite Hcont in Ht0; by apply elem_of_nil in Ht0|]. apply H4 in Ht0 as [?|[w Hw]]; [by left|right]. exists w. destruct (decide (w = u)) as [->|]; [by rewrite Eu in Hw|done].
    + apply Hgo; simpl; auto; try (by case_decide). intros t0. case_decide; simpl; [|by left]. unfold fupd. case_decide; [by right|by left].
  - (* RClear *) simplify_eq. apply Hgo; simpl; auto. intros r. unfold fupd. by destruct (decide (r = b)) as [->|].
  - (* TPop *) assert (Hb : heap (qq c) !! 0%nat = Some b) by (apply (cv_head c HC u); by rewrite Eu).
    assert (Hne : heap (qq c) ≠ []) by (intros E; by rewrite E in Hb).
    destruct (gpop_spec (sooner (bk (mm c))) 2 (hdown (sooner (bk (mm c)))) ltac:(lia) (hdown_total (sooner (bk (mm c)))) (heap (qq c)) Hne) as (x & h' & Eh & Hx & Hperm & _). rewrite Eh in Hact. simplify_eq. destruct HC as [H1 H2 H3 H4].
    split; simpl; unfold fupd.
    + intros w b0. destruct (decide _) as [->|]; [done|]. intros Hw. exfalso. apply Hheads in Hw. apply (Hqx eq_refl) in Hw. done.
    + intros v Hv%H2. by destruct (decide _) as [->|].
    + intros r0 Hr%H3. unfold coming. simpl. destruct Hr as [Hr|[?|[w Hw]]]; [|right; by left|].
      * rewrite Hperm in Hr. apply elem_of_cons in Hr as [->|Hr]; [right; right; exists u; rewrite fupd_eq; left|by left].
      * right; right. exists w. unfold fupd. destruct (decide (w = u)) as [->|]; [|done]. rewrite Eu in Hw. by apply elem_of_nil in Hw.
    + intros t0 r0 [?|[w Hw]]%H4; [by left|right]. exists w. destruct (decide (w = u)) as [->|]; [by rewrite Eu in Hw|done].
  - (* TSend *) case_decide; simplify_eq. destruct HC as [H1 H2 H3 H4]. split; simpl; unfold fupd.
    + intros w b0. destruct (decide _) as [->|]; [done|apply H1].
    + intros v. destruct (decide (v = u)) as [->|]; [done|apply H2].
    + intros r0 [?|[[v Hv]|[w Hw]]]%H3; [by left| |].
      * right; left. exists v. simpl. unfold fupd. destruct (decide _) as [->|]; [|done]. apply elem_of_app. by left.
      * destruct (decide (w = u)) as [->|Hn].
        -- rewrite Eu in Hw. apply elem_of_list_singleton in Hw as ->. right; left. exists u. simpl. rewrite fupd_eq. apply elem_of_app. right. left.
        -- right; right. exists w. simpl. by rewrite fupd_ne.
    + intros t0 r0 [?|[w Hw]]%H4; [by left|right]. exists w. destruct (decide (w = u)) as [->|]; [by rewrite Eu in Hw|done].
Qed.
Lemma cover_next c l c' own : locks c → acct c own → slots c → cover c → next c l = Some c' → cover c'.
Proof.
  intros HL HA HS HC Hn. unfold next in Hn. destruct (crashed c); [done|].
  assert (Hgo : ∀ d u p, mm d = mm c → th d = th c → qq d = qq c → (∀ v, outq (cc d) v = outq (cc c) v) → heads p = None → (queue_goroutine (th c u) = true → queue_goroutine p = true) →
    (∀ r, r ∈ brings (th c u) → r ∈ brings p) → swaps (th c u) = None → cover (goto d u p)).
  { intros d u p E1 E2 E3 E4 E5 E6 E7 E8. apply (cover_goto c); rewrite ?E1, ?E3; auto. }
  destruct l.
  - case_match; [|done]. injection Hn as <-. destruct HC as [H1 H2 H3 H4]. by split.
  - destruct (th c u) eqn:Eu; try done. destruct o.
    + case_match; [done|]. injection Hn as <-. apply Hgo; rewrite ?Eu; done.
    + case_match; [done|]. injection Hn as <-. apply Hgo; rewrite ?Eu; done.
    + injection Hn as <-. apply Hgo; rewrite ?Eu; done.
    + destruct (th c v) eqn:Ev; try done. case_match; [done|]. injection Hn as <-.
      assert (Ho : outq (cc c) v = []). { destruct (outq (cc c) v) eqn:E; [done|]. assert (queue_goroutine (th c v) = true) as HH by (apply (cv_out c HC); by rewrite E). by rewrite Ev in HH. }
      assert (HC1 : cover (goto (set_outq (set_closed (set_cancelled c v false) v false) v []) u (RSelect v))).
      { apply Hgo; rewrite ?Eu; try done. intros w. simpl. unfold fupd. destruct (decide (w = v)) as [->|]; done. }
      eapply cover_goto; [..|exact HC1]; try done; simpl; auto; rewrite fupd_ne by done; rewrite Ev; auto; by intros r ?%elem_of_nil.
  - destruct (th c u) eqn:Eu; try done. case_match; [|done]. injection Hn as <-. apply Hgo; rewrite ?Eu; done.
  - injection Hn as <-. destruct HC as [H1 H2 H3 H4]. by split.
  - by eapply cover_act.
  - destruct (th c s) eqn:Es; try done. destruct (th c r) eqn:Er; try done; injection Hn as <-.
    all: assert (HC1 : cover (goto c s (QUnl t k))) by (apply Hgo; rewrite ?Es; done).
    all: assert (Hne : r ≠ s) by congruence; eapply cover_goto; [..|exact HC1]; try done; simpl; auto; rewrite fupd_ne by done; rewrite Er; auto; by intros x ?%elem_of_nil.
  - destruct (th c u) eqn:Eu; try done. repeat case_match; try done. injection Hn as <-. apply Hgo; rewrite ?Eu; done.
  - destruct (th c u) eqn:Eu; try done. repeat case_match; try done. injection Hn as <-. apply Hgo; rewrite ?Eu; done.
  - destruct (th c u) eqn:Eu; try done. destruct (outq (cc c) v) as [|b q] eqn:Eo; [done|]. injection Hn as <-. destruct HC as [H1 H2 H3 H4]. split; simpl; unfold fupd.
    + intros w b0. destruct (decide _) as [->|]; [done|apply H1].
    + intros w Hw. assert (Hq : queue_goroutine (th c w) = true). { apply H2. destruct (decide (w = v)) as [->|]; [by rewrite Eo|done]. } destruct (decide (w = u)) as [->|]; [by rewrite Eu in Hq|done].
    + intros r0 [?|[[w Hw]|[w Hw]]]%H3; [by left| |].
      * destruct (decide (w = v)) as [->|Hne].
        -- rewrite Eo in Hw. apply elem_of_cons in Hw as [->|Hw]; [right; right; exists u; simpl; rewrite fupd_eq; left|right; left; exists v; simpl; by rewrite fupd_eq].
        -- right; left. exists w. simpl. by rewrite fupd_ne.
      * right; right. exists w. simpl. unfold fupd. destruct (decide (w = u)) as [->|]; [|done]. rewrite Eu in Hw. by apply elem_of_nil in Hw.
    + intros t0 r0 [?|[w Hw]]%H4; [by left|right]. exists w. destruct (decide (w = u)) as [->|]; [by rewrite Eu in Hw|done].
  - destruct (th c u) eqn:Eu; try done. repeat case_match; try done. injection Hn as <-. by apply cover_crash.
  - destruct (th c u) eqn:Eu; try done. repeat case_match; try done. injection Hn as <-. apply Hgo; rewrite ?Eu; done.
Qed.
Lemma cover_exec (ok : cfg → label → Prop) tick n now c : (∀ d l, ok d l → sane d l) → wheel_exec ok tick n now c → slots c ∧ cover c.
Proof.
  intros Hok (l & _ & H). assert (HI : inv (init l n now)) by (split; [apply locks_init|]; eexists; apply acct_init).
  assert (HS : slots (init l n now)) by (split; simpl; [by intros u x ?%elem_of_nil|by intros r x ?%elem_of_nil|done]).
  assert (HC : cover (init l n now)) by by split.
  revert HI HS HC. induction H as [c|c c1 c2 [lb [Hlb Hn]] _ IH]; intros HI HS HC; [done|]. apply IH.
  - eapply inv_step; [done|by exists lb].
  - by eapply slots_next; [|apply Hok|].
  - destruct HI as [HL [own HA]]. by eapply cover_next.
Qed.
Lemma step_mono (ok ok' : cfg → label → Prop) tick n now c : (∀ d l, ok d l → ok' d l) → wheel_exec ok tick n now c → wheel_exec ok' tick n now c.
Proof. intros H (l & Hl & Hr). exists l. split; [done|]. induction Hr as [|x y z (lb & Hlb & Hn) _ IH]; [done|]. eapply rtc_l; [|done]. exists lb. by split; [apply H|]. Qed.
Lemma brings_carries p r : r ∈ brings p → r ∈ carries p.
Proof. destruct p; simpl; try done; intros H; by right. Qed.
Lemma swaps_carries p r : swaps p = Some r → r ∈ carries p.
Proof. destruct p; simpl; try done; intros [= ->]; left. Qed.

(** ** A removal is reported *)
Definition told (c : cfg) : Prop := ∀ t, (0 < stops c t)%nat → (0 < true_stops c t)%nat ∨ ∃ u, st (th c u) = Some t.
Lemma told_frame c c' : (∀ u t, st (th c u) = Some t → ∃ w, st (th c' w) = Some t) → rets (gh c') = rets (gh c) → stopped (gh c') = stopped (gh c) → told c → told c'.
Proof. intros H1 H2 H3 H t. specialize (H t). unfold true_stops, stops in *. rewrite H2, H3. intros [?|[u Hu]]%H; [by left|right; eauto]. Qed.
Lemma told_act c u c' own sl : acct c own → sinv c sl → told c → act c u = Some c' → told c'.
Proof.
  intros HA HS HT Hact.
  assert (Hgo : ∀ d p, th d = th c → rets (gh d) = rets (gh c) → stopped (gh d) = stopped (gh c) → st (th c u) = None ∨ st p = st (th c u) → told (goto d u p)).
  { intros d p E1 E2 E3 E4. apply (told_frame c); try done. simpl. rewrite E1. intros w t Hw. exists w. unfold fupd. destruct (decide (w = u)) as [->|]; [|done]. destruct E4 as [E4|E4]; congruence. }
  assert (Hcr : told (crash c)) by (apply (told_frame c); eauto).
  destruct (th c u) eqn:Eu; unfold act in Hact; rewrite Eu in Hact; try done.
  all: try (unfold lock_b, lock_q, decide_add, after_add in Hact; repeat case_match; simplify_eq; first [done|apply Hgo; simpl; auto; done]).
  - (* SLoad *) injection Hact as <-. destruct stop.
    + assert (Hs : (1 ≤ stops c t)%nat).
      { destruct HS as [H1 H2]. assert (Hin : (u, t) ∈ sl) by (apply H1; by rewrite Eu). specialize (H2 t). apply elem_of_list_split in Hin as (l1 & l2 & ->). rewrite fmap_app, times_app, fmap_cons in H2. cbn [snd] in H2.
        change (times t (t :: l2.*2)) with (times t ([t] ++ l2.*2)) in H2. rewrite times_app, times_one, decide_True in H2 by done. lia. }
      pose proof (a_due c own HA t) as Hd. destruct (tb (mm c) t); [simpl in Hd; lia|]. intros x Hx. rewrite true_stops_ret. unfold stops in Hx. simpl in Hx. apply HT in Hx as [?|[w Hw]]; [left; lia|].
      destruct (decide (w = u)) as [->|Hn]; [|right; exists w; simpl; by rewrite fupd_ne]. rewrite Eu in Hw. injection Hw as <-. left. rewrite times_one, decide_True by done. lia.
    + case_match; [apply Hgo; auto|]. intros x Hx. rewrite true_stops_ret. unfold stops in Hx. simpl in Hx. apply HT in Hx as [?|[w Hw]]; [left; lia|right]. exists w. simpl. unfold fupd. destruct (decide (w = u)) as [->|]; [by rewrite Eu in Hw|done].
  - (* SIn *) injection Hact as <-. case_match; [|apply Hgo; auto]. intros x Hx. destruct (decide (x = t)) as [->|Hn]; [right; exists u; simpl; by rewrite fupd_eq|].
    unfold stops in Hx. simpl in Hx. rewrite times_app, times_one, decide_False in Hx by done. destruct (HT x ltac:(unfold stops; lia)) as [?|[w Hw]]; [by left|right]. exists w. simpl. unfold fupd. destruct (decide (w = u)) as [->|]; [by rewrite Eu in Hw|done].
Qed.
Lemma told_next c l c' own sl : acct c own → sinv c sl → told c → next c l = Some c' → told c'.
Proof.
  intros HA HS HT Hn.
  assert (Hf : ∀ d, (∀ u t, st (th c u) = Some t → st (th d u) = Some t) → rets (gh d) = rets (gh c) → stopped (gh d) = stopped (gh c) → told d) by (intros; apply (told_frame c); eauto).
  unfold next in Hn. destruct (crashed c); [done|]. destruct l; try (by apply (told_act c u c' own sl));
    repeat case_match; simplify_eq; apply Hf; try done; intros w x; simpl; unfold fupd; repeat case_decide; subst; try done.
  all: match goal with H : th ?d ?u = _ |- st (th ?d ?u) = _ → _ => by rewrite H end.
Qed.
Lemma told_exec ok tick n now c : wheel_exec ok tick n now c → told c.
Proof.
  intros (l & _ & H). assert (HI : inv (init l n now)) by (split; [apply locks_init|]; eexists; apply acct_init).
  assert (HS : ∃ sl, sinv (init l n now) sl) by (exists []; split; [done|intros x; vm_compute; lia]).
  assert (HT : told (init l n now)) by (intros t Ht; vm_compute in Ht; lia).
  revert HI HS HT. induction H as [c|c c1 c2 [lb [Hlb Hn]] _ IH]; intros HI [sl HS] HT; [done|]. apply IH.
  - eapply inv_step; [done|by exists lb].
  - by eapply sinv_next.
  - destruct HI as [HL [own HA]]. by eapply told_next.
Qed.
