From stdpp Require Import gmap.
From Verif Require Import GoBase LockModel LockSpec.

Section Proofs.
  Context {S I O R : Type} (mode : O → lmode) (code : O → body S I R).

  (** a body that never changes the object *)
  Inductive readonly : body S I R → Prop :=
  | ro_fin r : readonly (Fin r)
  | ro_act f : (∀ s, (f s).1 = s) → (∀ s, readonly (f s).2) → readonly (Act f)
  | ro_ask k : (∀ i, readonly (k i)) → readonly (Ask k).
  Context (Hro : ∀ o, mode o = MR → readonly (code o)).

  (** [p] at state [s] is where [code o] gets from [s0] on inputs [ins]; stated by what running it further gives *)
  Definition at_ (p0 p : body S I R) (s0 s : S) (ins : list I) : Prop :=
    ∀ more, alone p0 (ins ++ more) s0 = alone p more s.
  Lemma at_start p s : at_ p p s s [].
  Proof. intros more. done. Qed.
  Lemma at_act p0 f s0 s ins s' p : at_ p0 (Act f) s0 s ins → f s = (s', p) → at_ p0 p s0 s' ins.
  Proof. intros H E more. rewrite H. simpl. by rewrite E. Qed.
  Lemma at_ask p0 k s0 s ins i : at_ p0 (Ask k) s0 s ins → at_ p0 (k i) s0 s (ins ++ [i]).
  Proof. intros H more. by rewrite <-app_assoc, H. Qed.
  Lemma at_fin p0 r s0 s ins : at_ p0 (Fin r) s0 s ins → alone p0 ins s0 = (s, Fin r).
  Proof. intros H. specialize (H []). by rewrite app_nil_r in H. Qed.

  Lemma one_app s lg e s1 s2 : one_at_a_time code s lg s1 → alone (code (e_op e)) (e_ins e) s1 = (s2, Fin (e_res e)) → one_at_a_time code s (lg ++ [e]) s2.
  Proof.
    revert s. induction lg as [|a lg IH]; intros s; simpl.
    - intros -> E. by exists s2.
    - intros (s' & E & Hl) E2. exists s'. split; [done|]. by apply IH.
  Qed.

  (** the invariant *)
  Definition inside (th : nat → tstate S I O R) (t : nat) : Prop := ∃ o inv ins p, th t = TIn o inv ins p.
  Definition wins (w : option nat) (th : nat → tstate S I O R) : list I :=
    match w with Some t => match th t with TIn _ _ ins _ => ins | _ => [] end | None => [] end.
  Record inv (s0 : S) (c : cfg S I O R) : Prop := {
    i_state : ∃ sb, one_at_a_time code s0 (log c) sb ∧ (writer c = None → sh c = sb) ∧
      ∀ t o iv ins p, thr c t = TIn o iv ins p → at_ (code o) p sb (sh c) ins;
    i_lock : ∀ t o iv ins p, thr c t = TIn o iv ins p →
      (mode o = MW → writer c = Some t) ∧ (mode o = MR → t ∈ readers c ∧ writer c = None ∧ readonly p);
    i_writer : ∀ t, writer c = Some t → readers c = [] ∧ ∃ o iv ins p, thr c t = TIn o iv ins p ∧ mode o = MW;
    i_readers : ∀ t, t ∈ readers c → ∃ o iv ins p, thr c t = TIn o iv ins p ∧ mode o = MR;
    i_inv : ∀ t, match thr c t with TIdle => True | TPend _ iv | TIn _ iv _ _ | TOut _ iv _ => (iv < now c)%nat end;
    i_log : ∀ i e, log c !! i = Some e → (e_inv e < e_rel e < now c)%nat ∧
      ∀ j e', log c !! j = Some e' → (i < j)%nat → (e_rel e < e_rel e')%nat;
    i_out : ∀ t o iv r, thr c t = TOut o iv r → ∃ e, e ∈ log c ∧ e_tid e = t ∧ e_op e = o ∧ e_res e = r ∧ e_inv e = iv;
    i_rets : accounted (log c) (rets c);
    i_uniq : (∀ e e', e ∈ log c → e' ∈ log c → e_tid e = e_tid e' → e_inv e = e_inv e' → e = e') ∧
      ∀ e, e ∈ log c → match thr c (e_tid e) with TPend _ iv | TIn _ iv _ _ => e_inv e ≠ iv | _ => True end;
  }.
  Lemma upd_same (f : nat → tstate S I O R) t x : upd f t x t = x.
  Proof. unfold upd. by rewrite decide_True. Qed.
  Lemma upd_ne (f : nat → tstate S I O R) t u x : u ≠ t → upd f t x u = f u.
  Proof. intros. unfold upd. by rewrite decide_False. Qed.

  Lemma init_inv s0 : inv s0 (init s0).
  Proof.
    split; simpl; try done.
    - exists s0. done.
    - by intros t ?%elem_of_nil.
    - by intros x ?%elem_of_nil.
    - split; [by intros e e' ?%elem_of_nil|by intros e ?%elem_of_nil].
  Qed.
  (** shared part of the two releases *)
  Lemma log_snoc lg e n : (∀ i (e : entry I O R), lg !! i = Some e → (e_inv e < e_rel e < n)%nat ∧ ∀ j e', lg !! j = Some e' → (i < j)%nat → (e_rel e < e_rel e')%nat) →
    (e_inv e < n)%nat → e_rel e = n →
    ∀ i e0, (lg ++ [e]) !! i = Some e0 → (e_inv e0 < e_rel e0 < n + 1)%nat ∧ ∀ j e', (lg ++ [e]) !! j = Some e' → (i < j)%nat → (e_rel e0 < e_rel e')%nat.
  Proof.
    intros HL Hi Hr i e0 H0. apply lookup_app_Some in H0 as [H0|[Hge H0]].
    - destruct (HL i e0 H0) as [H1 H2]. split; [lia|]. intros j e' Hj Hij. apply lookup_app_Some in Hj as [Hj|[Hge Hj]]; [by eapply H2|].
      apply list_lookup_singleton_Some in Hj as [_ <-]. lia.
    - apply list_lookup_singleton_Some in H0 as [Hz <-]. split; [lia|]. intros j e' Hj Hij. apply lookup_lt_Some in Hj. rewrite app_length in Hj. simpl in Hj. lia.
  Qed.
  Lemma acc_mono lg lg' rt : lg ⊆ lg' → accounted lg rt → accounted (I := I) (O := O) (R := R) lg' rt.
  Proof. intros Hs HA x Hx. destruct (HA x Hx) as (e & He & ?). exists e. split; [by apply Hs|done]. Qed.

  Lemma step_inv s0 c c' : step mode code c c' → inv s0 c → inv s0 c'.
  Proof.
    intros Hstep [(sb & Hone & Hsb & Hat) Hlock Hw Hrd Hinv Hlog Hout Hrets [Hu1 Hu2]].
    destruct Hstep as [n s w rs th lg rt sn t o Ht|n s th lg rt sn t o iv Ht Hm|n s rs th lg rt sn t o iv Ht Hm|n s w rs th lg rt sn t o iv ins f s' p Ht Ef
      |n s w rs th lg rt sn t o iv ins k i Ht|n s w rs th lg rt sn t o iv ins r Ht Hm|n s w rs th lg rt sn t o iv ins r Ht Hm|n s w rs th lg rt sn t o iv r Ht]; simpl in *.
    - (* invoke *) split; simpl.
      + exists sb. split_and!; try done. intros u o1 iv1 ins1 p1. destruct (decide (u = t)) as [->|Hne]; [by rewrite upd_same|rewrite upd_ne by done]. apply Hat.
      + intros u o1 iv1 ins1 p1. destruct (decide (u = t)) as [->|Hne]; [by rewrite upd_same|rewrite upd_ne by done]. apply Hlock.
      + intros u Hu. destruct (Hw u Hu) as (Hr & o1 & iv1 & ins1 & p1 & E1 & Hm1). split; [done|]. exists o1, iv1, ins1, p1. rewrite upd_ne; [done|]. intros ->. congruence.
      + intros u Hu. destruct (Hrd u Hu) as (o1 & iv1 & ins1 & p1 & E1 & Hm1). exists o1, iv1, ins1, p1. rewrite upd_ne; [done|]. intros ->. congruence.
      + intros u. destruct (decide (u = t)) as [->|Hne]; [rewrite upd_same; lia|rewrite upd_ne by done]. specialize (Hinv u). destruct (th u); try done; lia.
      + intros i e Hi. destruct (Hlog i e Hi). split; [lia|done].
      + intros u o1 iv1 r1. destruct (decide (u = t)) as [->|Hne]; [by rewrite upd_same|rewrite upd_ne by done]. apply Hout.
      + done.
      + split; [done|]. intros e He. destruct (decide (e_tid e = t)) as [E|Hne]; [rewrite E, upd_same|rewrite upd_ne by done; by apply Hu2].
        apply elem_of_list_lookup in He as [i Hi]. destruct (Hlog i e Hi) as [? _]. lia.
    - (* lock *) assert (∀ u o1 iv1 ins1 p1, th u = TIn o1 iv1 ins1 p1 → False) as Hnone.
      { intros u o1 iv1 ins1 p1 E. destruct (Hlock u o1 iv1 ins1 p1 E) as [H1 H2]. destruct (mode o1); [by destruct (H2 eq_refl) as (?%elem_of_nil & _)|by specialize (H1 eq_refl)]. }
      split; simpl.
      + exists sb. split_and!; try done. intros u o1 iv1 ins1 p1. destruct (decide (u = t)) as [->|Hne].
        * rewrite upd_same. intros [= <- <- <- <-]. rewrite (Hsb eq_refl). apply at_start.
        * rewrite upd_ne by done. intros E. by destruct (Hnone _ _ _ _ _ E).
      + intros u o1 iv1 ins1 p1. destruct (decide (u = t)) as [->|Hne].
        * rewrite upd_same. intros [= <- <- <- <-]. split; [done|]. by rewrite Hm.
        * rewrite upd_ne by done. intros E. by destruct (Hnone _ _ _ _ _ E).
      + intros u [= <-]. split; [done|]. exists o, iv, [], (code o). by rewrite upd_same.
      + by intros u ?%elem_of_nil.
      + intros u. destruct (decide (u = t)) as [->|Hne]; [rewrite upd_same|rewrite upd_ne by done]; [specialize (Hinv t); rewrite Ht in Hinv; lia|]. specialize (Hinv u). destruct (th u); try done; lia.
      + intros i e Hi. destruct (Hlog i e Hi). split; [lia|done].
      + intros u o1 iv1 r1. destruct (decide (u = t)) as [->|Hne]; [by rewrite upd_same|rewrite upd_ne by done]. apply Hout.
      + done.
      + split; [done|]. intros e He. destruct (decide (e_tid e = t)) as [E|Hne]; [|rewrite upd_ne by done; by apply Hu2].
        specialize (Hu2 e He). rewrite E, Ht in Hu2. by rewrite E, upd_same.
    - (* rlock *) split; simpl.
      + exists sb. split_and!; try done. intros u o1 iv1 ins1 p1. destruct (decide (u = t)) as [->|Hne].
        * rewrite upd_same. intros [= <- <- <- <-]. rewrite (Hsb eq_refl). apply at_start.
        * rewrite upd_ne by done. apply Hat.
      + intros u o1 iv1 ins1 p1. destruct (decide (u = t)) as [->|Hne].
        * rewrite upd_same. intros [= <- <- <- <-]. split; [by rewrite Hm|]. intros _. split_and!; [by left|done|by apply Hro].
        * rewrite upd_ne by done. intros E. destruct (Hlock u _ _ _ _ E) as [H1 H2]. split; [done|]. intros Hr. destruct (H2 Hr) as (? & ? & ?). split_and!; [by right|done|done].
      + done.
      + intros u [->|Hu]%elem_of_cons.
        * exists o, iv, [], (code o). by rewrite upd_same.
        * destruct (Hrd u Hu) as (o1 & iv1 & ins1 & p1 & E1 & Hm1). exists o1, iv1, ins1, p1. rewrite upd_ne; [done|]. intros ->. congruence.
      + intros u. destruct (decide (u = t)) as [->|Hne]; [rewrite upd_same|rewrite upd_ne by done]; [specialize (Hinv t); rewrite Ht in Hinv; lia|]. specialize (Hinv u). destruct (th u); try done; lia.
      + intros i e Hi. destruct (Hlog i e Hi). split; [lia|done].
      + intros u o1 iv1 r1. destruct (decide (u = t)) as [->|Hne]; [by rewrite upd_same|rewrite upd_ne by done]. apply Hout.
      + done.
      + split; [done|]. intros e He. destruct (decide (e_tid e = t)) as [E|Hne]; [|rewrite upd_ne by done; by apply Hu2].
        specialize (Hu2 e He). rewrite E, Ht in Hu2. by rewrite E, upd_same.
    - (* access *) destruct (Hlock t _ _ _ _ Ht) as [HW HR].
      assert (mode o = MW ∨ (mode o = MR ∧ s' = s)) as Hcase.
      { destruct (mode o) eqn:Em; [right|by left]. split; [done|]. destruct (HR eq_refl) as (_ & _ & Hr). inversion Hr as [|f' Hf1 Hf2|]; subst. specialize (Hf1 s). rewrite Ef in Hf1. by simpl in Hf1. }
      split; simpl.
      + exists sb. split_and!; try done.
        * intros ->. destruct Hcase as [E|[_ ->]]; [by specialize (HW E)|by apply Hsb].
        * intros u o1 iv1 ins1 p1. destruct (decide (u = t)) as [->|Hne].
          -- rewrite upd_same. intros [= <- <- <- <-]. eapply at_act; [by eapply Hat|done].
          -- rewrite upd_ne by done. intros E. destruct Hcase as [Em|[_ ->]]; [|by apply (Hat u o1 iv1 ins1 p1)].
             exfalso. specialize (HW Em). destruct (Hlock u _ _ _ _ E) as [H1 H2]. destruct (mode o1); [destruct (H2 eq_refl) as (_ & ? & _); congruence|specialize (H1 eq_refl); congruence].
      + intros u o1 iv1 ins1 p1. destruct (decide (u = t)) as [->|Hne].
        * rewrite upd_same. intros [= <- <- <- <-]. split; [done|]. intros Hr. destruct (HR Hr) as (? & ? & Hr'). split_and!; [done|done|].
          inversion Hr' as [|f' Hf1 Hf2|]; subst. specialize (Hf2 s). by rewrite Ef in Hf2.
        * rewrite upd_ne by done. apply Hlock.
      + intros u Hu. destruct (Hw u Hu) as (Hr & o1 & iv1 & ins1 & p1 & E1 & Hm1). split; [done|]. destruct (decide (u = t)) as [->|Hne].
        * assert (o1 = o) as -> by congruence. do 4 eexists. rewrite upd_same. done.
        * exists o1, iv1, ins1, p1. by rewrite upd_ne.
      + intros u Hu. destruct (Hrd u Hu) as (o1 & iv1 & ins1 & p1 & E1 & Hm1). destruct (decide (u = t)) as [->|Hne].
        * assert (o1 = o) as -> by congruence. do 4 eexists. rewrite upd_same. done.
        * exists o1, iv1, ins1, p1. by rewrite upd_ne.
      + intros u. destruct (decide (u = t)) as [->|Hne]; [rewrite upd_same|rewrite upd_ne by done]; [specialize (Hinv t); rewrite Ht in Hinv; lia|]. specialize (Hinv u). destruct (th u); try done; lia.
      + intros i e Hi. destruct (Hlog i e Hi). split; [lia|done].
      + intros u o1 iv1 r1. destruct (decide (u = t)) as [->|Hne]; [by rewrite upd_same|rewrite upd_ne by done]. apply Hout.
      + done.
      + split; [done|]. intros e He. destruct (decide (e_tid e = t)) as [E|Hne]; [|rewrite upd_ne by done; by apply Hu2].
        specialize (Hu2 e He). rewrite E, Ht in Hu2. by rewrite E, upd_same.
    - (* input *) destruct (Hlock t _ _ _ _ Ht) as [HW HR]. split; simpl.
      + exists sb. split_and!; try done.
        intros u o1 iv1 ins1 p1. destruct (decide (u = t)) as [->|Hne].
        * rewrite upd_same. intros [= <- <- <- <-]. apply at_ask. by eapply Hat.
        * rewrite upd_ne by done. apply Hat.
      + intros u o1 iv1 ins1 p1. destruct (decide (u = t)) as [->|Hne].
        * rewrite upd_same. intros [= <- <- <- <-]. split; [done|]. intros Hr. destruct (HR Hr) as (? & ? & Hr'). split_and!; [done|done|].
          inversion Hr' as [| |k' Hk]; subst. apply Hk.
        * rewrite upd_ne by done. apply Hlock.
      + intros u Hu. destruct (Hw u Hu) as (Hr & o1 & iv1 & ins1 & p1 & E1 & Hm1). split; [done|]. destruct (decide (u = t)) as [->|Hne].
        * assert (o1 = o) as -> by congruence. do 4 eexists. rewrite upd_same. done.
        * exists o1, iv1, ins1, p1. by rewrite upd_ne.
      + intros u Hu. destruct (Hrd u Hu) as (o1 & iv1 & ins1 & p1 & E1 & Hm1). destruct (decide (u = t)) as [->|Hne].
        * assert (o1 = o) as -> by congruence. do 4 eexists. rewrite upd_same. done.
        * exists o1, iv1, ins1, p1. by rewrite upd_ne.
      + intros u. destruct (decide (u = t)) as [->|Hne]; [rewrite upd_same|rewrite upd_ne by done]; [specialize (Hinv t); rewrite Ht in Hinv; lia|]. specialize (Hinv u). destruct (th u); try done; lia.
      + intros j e Hi. destruct (Hlog j e Hi). split; [lia|done].
      + intros u o1 iv1 r1. destruct (decide (u = t)) as [->|Hne]; [by rewrite upd_same|rewrite upd_ne by done]. apply Hout.
      + done.
      + split; [done|]. intros e He. destruct (decide (e_tid e = t)) as [E|Hne]; [|rewrite upd_ne by done; by apply Hu2].
        specialize (Hu2 e He). rewrite E, Ht in Hu2. by rewrite E, upd_same.
    - (* unlock *) destruct (Hlock t _ _ _ _ Ht) as [HW _]. specialize (HW Hm). destruct (Hw t HW) as (-> & _).
      assert (∀ u o1 iv1 ins1 p1, u ≠ t → th u = TIn o1 iv1 ins1 p1 → False) as Hnone.
      { intros u o1 iv1 ins1 p1 Hne E. destruct (Hlock u o1 iv1 ins1 p1 E) as [H1 H2]. destruct (mode o1); [by destruct (H2 eq_refl) as (?%elem_of_nil & _)|specialize (H1 eq_refl); congruence]. }
      assert (iv < n)%nat as Hivn by (specialize (Hinv t); by rewrite Ht in Hinv).
      split; simpl.
      + exists s. split_and!; [|done|].
        * eapply one_app; [exact Hone|]. simpl. eapply at_fin. by eapply Hat.
        * intros u o1 iv1 ins1 p1. destruct (decide (u = t)) as [->|Hne]; [by rewrite upd_same|rewrite upd_ne by done]. intros E. by destruct (Hnone _ _ _ _ _ Hne E).
      + intros u o1 iv1 ins1 p1. destruct (decide (u = t)) as [->|Hne]; [by rewrite upd_same|rewrite upd_ne by done]. intros E. by destruct (Hnone _ _ _ _ _ Hne E).
      + done.
      + by intros u ?%elem_of_nil.
      + intros u. destruct (decide (u = t)) as [->|Hne]; [rewrite upd_same; lia|rewrite upd_ne by done]. specialize (Hinv u). destruct (th u); try done; lia.
      + by apply log_snoc.
      + intros u o1 iv1 r1. destruct (decide (u = t)) as [->|Hne].
        * rewrite upd_same. intros [= <- <- <-]. eexists. split; [apply elem_of_app; right; by apply elem_of_list_singleton|done].
        * rewrite upd_ne by done. intros E. destruct (Hout _ _ _ _ E) as (e & He & ?). exists e. split; [apply elem_of_app; by left|done].
      + eapply acc_mono; [|exact Hrets]. set_solver.
      + split.
        * intros e e' [He| ->%elem_of_list_singleton]%elem_of_app [He'| ->%elem_of_list_singleton]%elem_of_app; simpl; try done.
          -- by apply Hu1.
          -- intros E1 E2. specialize (Hu2 e He). by rewrite E1, Ht in Hu2.
          -- intros E1 E2. specialize (Hu2 e' He'). by rewrite <-E1, Ht in Hu2.
        * intros e He. destruct (decide (e_tid e = t)) as [->|Hne]; [by rewrite upd_same|rewrite upd_ne by done].
          apply elem_of_app in He as [He| ->%elem_of_list_singleton]; [by apply Hu2|done].
    - (* runlock *) destruct (Hlock t _ _ _ _ Ht) as [_ HR]. destruct (HR Hm) as (Hin & -> & _).
      assert (iv < n)%nat as Hivn by (specialize (Hinv t); by rewrite Ht in Hinv).
      split; simpl.
      + exists sb. split_and!; [|done|].
        * eapply one_app; [exact Hone|]. simpl. rewrite <-(Hsb eq_refl). eapply at_fin. rewrite (Hsb eq_refl). pose proof (Hat _ _ _ _ _ Ht) as HA. by rewrite (Hsb eq_refl) in HA.
        * intros u o1 iv1 ins1 p1. destruct (decide (u = t)) as [->|Hne]; [by rewrite upd_same|rewrite upd_ne by done]. apply Hat.
      + intros u o1 iv1 ins1 p1. destruct (decide (u = t)) as [->|Hne]; [by rewrite upd_same|rewrite upd_ne by done]. intros E. destruct (Hlock u _ _ _ _ E) as [H1 H2].
        split; [done|]. intros Hr. destruct (H2 Hr) as (? & ? & ?). split_and!; [by apply elem_of_list_filter|done|done].
      + done.
      + intros u [Hne Hu]%elem_of_list_filter. rewrite upd_ne by done. by apply Hrd.
      + intros u. destruct (decide (u = t)) as [->|Hne]; [rewrite upd_same; lia|rewrite upd_ne by done]. specialize (Hinv u). destruct (th u); try done; lia.
      + by apply log_snoc.
      + intros u o1 iv1 r1. destruct (decide (u = t)) as [->|Hne].
        * rewrite upd_same. intros [= <- <- <-]. eexists. split; [apply elem_of_app; right; by apply elem_of_list_singleton|done].
        * rewrite upd_ne by done. intros E. destruct (Hout _ _ _ _ E) as (e & He & ?). exists e. split; [apply elem_of_app; by left|done].
      + eapply acc_mono; [|exact Hrets]. set_solver.
      + split.
        * intros e e' [He| ->%elem_of_list_singleton]%elem_of_app [He'| ->%elem_of_list_singleton]%elem_of_app; simpl; try done.
          -- by apply Hu1.
          -- intros E1 E2. specialize (Hu2 e He). by rewrite E1, Ht in Hu2.
          -- intros E1 E2. specialize (Hu2 e' He'). by rewrite <-E1, Ht in Hu2.
        * intros e He. destruct (decide (e_tid e = t)) as [->|Hne]; [by rewrite upd_same|rewrite upd_ne by done].
          apply elem_of_app in He as [He| ->%elem_of_list_singleton]; [by apply Hu2|done].
    - (* return *) split; simpl.
      + exists sb. split_and!; try done. intros u o1 iv1 ins1 p1. destruct (decide (u = t)) as [->|Hne]; [by rewrite upd_same|rewrite upd_ne by done]. apply Hat.
      + intros u o1 iv1 ins1 p1. destruct (decide (u = t)) as [->|Hne]; [by rewrite upd_same|rewrite upd_ne by done]. apply Hlock.
      + intros u Hu. destruct (Hw u Hu) as (Hr & o1 & iv1 & ins1 & p1 & E1 & Hm1). split; [done|]. exists o1, iv1, ins1, p1. rewrite upd_ne; [done|]. intros ->. congruence.
      + intros u Hu. destruct (Hrd u Hu) as (o1 & iv1 & ins1 & p1 & E1 & Hm1). exists o1, iv1, ins1, p1. rewrite upd_ne; [done|]. intros ->. congruence.
      + intros u. destruct (decide (u = t)) as [->|Hne]; [by rewrite upd_same|rewrite upd_ne by done]. specialize (Hinv u). destruct (th u); try done; lia.
      + intros i e Hi. destruct (Hlog i e Hi). split; [lia|done].
      + intros u o1 iv1 r1. destruct (decide (u = t)) as [->|Hne]; [by rewrite upd_same|rewrite upd_ne by done]. apply Hout.
      + intros x [Hx| ->%elem_of_list_singleton]%elem_of_app; [by apply Hrets|]. destruct (Hout _ _ _ _ Ht) as (e & He & E1 & E2 & E3 & E4). exists e. simpl. split_and!; try done.
        apply elem_of_list_lookup in He as [i Hi]. destruct (Hlog i e Hi) as [? _]. lia.
      + split; [done|]. intros e He. destruct (decide (e_tid e = t)) as [->|Hne]; [by rewrite upd_same|rewrite upd_ne by done]. by apply Hu2.
  Qed.
  Lemma reach_inv s0 c : reachable mode code s0 c → inv s0 c.
  Proof.
    unfold reachable. intros Hr. remember (init s0) as c0 eqn:E. assert (inv s0 c0) as Hi by (subst; apply init_inv). clear E.
    induction Hr as [|c1 c2 c3 H1 _ IH]; [done|]. apply IH. by eapply step_inv.
  Qed.
  Lemma inv_real_time s0 c : inv s0 c → real_time (log c) (rets c).
  Proof.
    intros Hi i j ei ej x Hei Hej Hij Hx Ht Hv.
    destruct (i_rets _ _ Hi x Hx) as (e & He & E1 & E2 & E3 & E4 & E5).
    assert (e = ej) as -> . { apply (proj1 (i_uniq _ _ Hi)); [done|by eapply elem_of_list_lookup_2|congruence|congruence]. }
    destruct (i_log _ _ Hi i ei Hei) as [? H2]. specialize (H2 j ej Hej Hij). lia.
  Qed.
  (** inputs of exclusive calls, in the order of the calls, are in the order they were read *)
  Lemma seen_inv s0 c : (∀ o, mode o = MW) → reachable mode code s0 c → seen c = concat (e_ins <$> log c) ++ wins (writer c) (thr c).
  Proof.
    intros Hall Hr. refine (rtc_ind_r (λ c, seen c = concat (e_ins <$> log c) ++ wins (writer c) (thr c)) (init s0) eq_refl _ c Hr). clear Hr c.
    intros c c' Hreach Hstep IH. assert (inv s0 c) as Hi by (by apply reach_inv).
    destruct Hstep as [n s w rs th lg rt sn t o Ht|n s th lg rt sn t o iv Ht Hm|n s rs th lg rt sn t o iv Ht Hm|n s w rs th lg rt sn t o iv ins f s' p Ht Ef
      |n s w rs th lg rt sn t o iv ins k i Ht|n s w rs th lg rt sn t o iv ins r Ht Hm|n s w rs th lg rt sn t o iv ins r Ht Hm|n s w rs th lg rt sn t o iv r Ht]; simpl in *; try (by rewrite Hall in Hm).
    - rewrite IH. f_equal. destruct w as [u|]; [|done]. simpl. destruct (decide (u = t)) as [->|Hne]; [by rewrite upd_same, Ht|by rewrite upd_ne].
    - rewrite IH. simpl. by rewrite upd_same.
    - rewrite IH. f_equal. destruct (i_lock _ _ Hi t _ _ _ _ Ht) as [HW _]. simpl in HW. rewrite (HW (Hall o)). simpl. by rewrite upd_same, Ht.
    - rewrite IH. destruct (i_lock _ _ Hi t _ _ _ _ Ht) as [HW _]. simpl in HW. rewrite (HW (Hall o)). simpl. by rewrite upd_same, Ht, app_assoc.
    - rewrite IH. destruct (i_lock _ _ Hi t _ _ _ _ Ht) as [HW _]. simpl in HW. rewrite (HW (Hall o)). simpl. rewrite Ht, fmap_app, concat_app. simpl. by rewrite !app_nil_r.
    - rewrite IH. f_equal. destruct w as [u|]; [|done]. simpl. destruct (decide (u = t)) as [->|Hne]; [by rewrite upd_same, Ht|by rewrite upd_ne].
  Qed.
End Proofs.
