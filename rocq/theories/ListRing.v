(** * Doubly linked rings over two pointer maps *)
From stdpp Require Import gmap.
From Verif Require Import GoBase ListModel.

Section Ring.
  Implicit Types (nx pv : gmap ptr ptr) (r c : list ptr).

  Fixpoint linked nx pv c : Prop :=
    match c with
    | p :: c' => match c' with
                 | q :: _ => nx !! p = Some q ∧ pv !! q = Some p ∧ linked nx pv c'
                 | [] => True
                 end
    | [] => True
    end.
  Lemma linked_cons2 nx pv p q c : linked nx pv (p :: q :: c) ↔ nx !! p = Some q ∧ pv !! q = Some p ∧ linked nx pv (q :: c).
  Proof. done. Qed.

  Lemma linked_app nx pv A p B : linked nx pv (A ++ p :: B) ↔ linked nx pv (A ++ [p]) ∧ linked nx pv (p :: B).
  Proof.
    induction A as [|a A IH]; [simpl; tauto|]. destruct A as [|a' A].
    - simpl app. rewrite linked_cons2, (linked_cons2 _ _ a p []). simpl. tauto.
    - simpl app in *. rewrite !linked_cons2, IH. tauto.
  Qed.

  Lemma linked_frame nx pv nx' pv' a r z :
    (∀ p, p ∈ a :: r → nx' !! p = nx !! p) → (∀ p, p ∈ r ++ [z] → pv' !! p = pv !! p) →
    linked nx pv (a :: r ++ [z]) → linked nx' pv' (a :: r ++ [z]).
  Proof.
    revert a. induction r as [|b r IH]; intros a Hn Hp.
    - simpl app. rewrite !linked_cons2. rewrite Hn by left. rewrite Hp by left. simpl; tauto.
    - simpl app in *. rewrite !linked_cons2. rewrite Hn by left. rewrite Hp by left.
      intros (? & ? & ?). split_and!; [done|done|]. apply IH; [intros; apply Hn; by right|intros; apply Hp; by right|done].
  Qed.

  Definition ring nx pv r : Prop := match r with [] => True | a :: _ => linked nx pv (r ++ [a]) end.

  Lemma ring_rot nx pv A B : ring nx pv (A ++ B) → ring nx pv (B ++ A).
  Proof.
    destruct A as [|a A]; [by rewrite app_nil_r|]. destruct B as [|b B]; [by rewrite app_nil_r|].
    simpl. intros HL. change (linked nx pv (((a :: A) ++ (b :: B)) ++ [a])) in HL.
    rewrite <-(assoc_L (++)) in HL. simpl app in HL. change (a :: A ++ b :: B ++ [a]) with ((a :: A) ++ b :: (B ++ [a])) in HL.
    rewrite linked_app in HL. destruct HL as [H1 H2].
    change (linked nx pv (((b :: B) ++ (a :: A)) ++ [b])). rewrite <-(assoc_L (++)).
    change ((b :: B) ++ (a :: A) ++ [b]) with ((b :: B) ++ a :: (A ++ [b])). rewrite linked_app. done.
  Qed.

  Lemma ring_frame nx pv nx' pv' r :
    (∀ p, p ∈ r → nx' !! p = nx !! p) → (∀ p, p ∈ r → pv' !! p = pv !! p) →
    ring nx pv r → ring nx' pv' r.
  Proof.
    intros Hn Hp. destruct r as [|a r]; [done|]. simpl. apply linked_frame; [done|].
    intros p [?| ->%elem_of_list_singleton]%elem_of_app; apply Hp; [by right|left].
  Qed.

  Lemma ring_next nx pv p r : ring nx pv (p :: r) → nx !! p = Some (default p (head r)).
  Proof. destruct r as [|q r]; simpl; [by intros (? & _)|by intros (? & _)]. Qed.
  Lemma ring_prev nx pv p q r : ring nx pv (p :: q :: r) → pv !! q = Some p.
  Proof. simpl. by intros (_ & ? & _). Qed.
  Lemma ring_prev_head nx pv A p : ring nx pv (A ++ [p]) → pv !! (default p (head A)) = Some p.
  Proof.
    intros HR. apply ring_rot in HR. destruct A as [|a A]; simpl in *; [by destruct HR as (_ & ? & _)|].
    by destruct HR as (_ & ? & _).
  Qed.

  (** insert e after p *)
  Lemma ring_link nx pv p r e : NoDup (p :: r) → e ∉ p :: r → ring nx pv (p :: r) →
    ring (<[p:=e]> (<[e := default p (head r)]> nx)) (<[default p (head r) := e]> (<[e:=p]> pv)) (p :: e :: r).
  Proof.
    intros ND He HR. assert (e ≠ p) by (intros ->; apply He; left).
    destruct r as [|q r].
    - simpl. rewrite lookup_insert, lookup_insert_ne, lookup_insert, lookup_insert_ne, !lookup_insert by done. done.
    - apply NoDup_cons in ND as [Hp ND]. pose proof ND as ND'. apply NoDup_cons in ND' as [Hq _].
      assert (p ≠ q) by (intros ->; apply Hp; left).
      assert (e ≠ q) by (intros ->; apply He; right; left).
      simpl in HR. destruct HR as (Hn & Hv & HL).
      change (linked (<[p:=e]> (<[e:=q]> nx)) (<[q:=e]> (<[e:=p]> pv)) (p :: e :: q :: r ++ [p])).
      rewrite !linked_cons2.
      rewrite lookup_insert, lookup_insert_ne, lookup_insert, lookup_insert_ne, !lookup_insert by done.
      split_and!; [done..|].
      eapply linked_frame; [| |exact HL].
      + intros x Hx. rewrite !lookup_insert_ne; [done| |].
        * intros <-. apply He. by right.
        * intros <-. done.
      + intros x Hx. rewrite !lookup_insert_ne; [done| |].
        * intros <-. apply elem_of_app in Hx as [Hx| ->%elem_of_list_singleton]; [apply He; by do 2 right|apply He; left].
        * intros <-. apply elem_of_app in Hx as [Hx|Hx%elem_of_list_singleton]; [done|congruence].
  Qed.

  (** unlink e, which follows p *)
  Lemma ring_unlink nx pv p e r : NoDup (p :: e :: r) → ring nx pv (p :: e :: r) →
    ring (<[p := default p (head r)]> nx) (<[default p (head r) := p]> pv) (p :: r).
  Proof.
    intros ND HR. apply NoDup_cons in ND as [Hp ND]. apply NoDup_cons in ND as [He ND].
    destruct r as [|q r].
    - simpl. by rewrite !lookup_insert.
    - pose proof ND as ND'. apply NoDup_cons in ND' as [Hq _].
      simpl in HR. destruct HR as (Hn & Hv & Hn2 & Hv2 & HL).
      change (linked (<[p:=q]> nx) (<[q:=p]> pv) (p :: q :: r ++ [p])). rewrite linked_cons2, !lookup_insert.
      split_and!; [done..|]. eapply linked_frame; [| |exact HL].
      + intros x Hx. rewrite lookup_insert_ne; [done|]. intros <-. apply Hp. by right.
      + intros x Hx. rewrite lookup_insert_ne; [done|]. intros <-.
        apply elem_of_app in Hx as [Hx|Hx%elem_of_list_singleton]; [done|]. apply Hp. rewrite Hx. right. left.
  Qed.

  (** The same in the middle of a ring. *)
  Lemma ring_link_mid nx pv P p Q e : NoDup (P ++ p :: Q) → e ∉ P ++ p :: Q → ring nx pv (P ++ p :: Q) →
    nx !! p = Some (default p (head (Q ++ P))) ∧
    ring (<[p:=e]> (<[e := default p (head (Q ++ P))]> nx)) (<[default p (head (Q ++ P)) := e]> (<[e:=p]> pv)) (P ++ p :: e :: Q).
  Proof.
    intros ND He HR. apply ring_rot in HR. rewrite Permutation_app_comm in ND.
    simpl in HR. split; [eapply ring_next; exact HR|].
    apply (ring_rot _ _ (p :: e :: Q) P). simpl. apply ring_link; [done| |done].
    intros Hx. apply He. rewrite Permutation_app_comm. done.
  Qed.

  Lemma ring_unlink_mid nx pv P p e Q : NoDup (P ++ p :: e :: Q) → ring nx pv (P ++ p :: e :: Q) →
    pv !! e = Some p ∧ nx !! e = Some (default p (head (Q ++ P))) ∧
    ring (<[p := default p (head (Q ++ P))]> nx) (<[default p (head (Q ++ P)) := p]> pv) (P ++ p :: Q).
  Proof.
    intros ND HR. apply ring_rot in HR. rewrite Permutation_app_comm in ND. simpl in HR, ND.
    split_and!.
    - by destruct HR as (_ & ? & _).
    - destruct (Q ++ P) as [|q r]; simpl in HR; [by destruct HR as (_ & _ & ? & _)|by destruct HR as (_ & _ & ? & _)].
    - apply (ring_rot _ _ (p :: Q) P). simpl. by eapply ring_unlink.
  Qed.
End Ring.
