(** * The ring buffers follow the queue specification *)
From Verif Require Import GoBase GoState MathModel MathSpec MathProofs RingModel RingSpec.

Section Copy.
  Context {T : Type}.
  Implicit Types l src : list T.

  Lemma copy_to_length l i src : i ≤ length l → length (copy_to l i src) = length l.
  Proof. intros Hi. unfold copy_to. rewrite !app_length, !take_length, drop_length. lia. Qed.
  Lemma copy_to_lookup l i src p : i ≤ length l →
    copy_to l i src !! p = if decide (i ≤ p < i + length src ∧ p < length l) then src !! (p - i) else l !! p.
  Proof.
    intros Hi. unfold copy_to. destruct (decide (p < i)) as [Hlt|Hge].
    { rewrite lookup_app_l by (rewrite take_length; lia). rewrite lookup_take by done. rewrite decide_False by lia. done. }
    rewrite lookup_app_r by (rewrite take_length; lia). rewrite take_length, Nat.min_l by lia.
    destruct (decide (p - i < length (take (length l - i) src))) as [H1|H1].
    - rewrite lookup_app_l by done. rewrite take_length in H1. rewrite lookup_take by lia. by rewrite decide_True by lia.
    - rewrite lookup_app_r by lia. rewrite take_length in *. rewrite lookup_drop.
      destruct (decide (p < length l)).
      + rewrite decide_False by lia. f_equal. lia.
      + rewrite decide_False by lia. rewrite !lookup_ge_None_2 by lia. done.
  Qed.

  (** data holds q in a circle of c cells from position b *)
  Definition holds (data : list T) (c b : nat) (q : list T) : Prop :=
    length data = c ∧ length q ≤ c ∧ ∀ k, k < length q → data !! ((b + k) mod c) = q !! k.

  Lemma mod_split c b k : b < c → k ≤ c → (b + k) mod c = if decide (b + k < c) then b + k else b + k - c.
  Proof.
    intros Hb Hk. case_decide; [by apply Nat.mod_small|].
    replace (b + k) with (b + k - c + 1 * c) at 1 by lia. rewrite Nat.mod_add by lia. apply Nat.mod_small. lia.
  Qed.
  Lemma mod_add_l' c a k : c ≠ 0 → (a mod c + k) mod c = (a + k) mod c.
  Proof. intros. rewrite Nat.add_mod_idemp_l; done. Qed.

  Lemma holds_mod data c b q : c ≠ 0 → holds data c (b mod c) q ↔ holds data c b q.
  Proof. intros Hc. unfold holds. by setoid_rewrite (mod_add_l' c b _ Hc). Qed.

  (** reading: MPop, MPopCopy, Grow *)
  Lemma read_ok data c b q n (dst : list T) : holds data c b q → c ≠ 0 → n ≤ length q → length dst = n →
    copy_to (copy_to dst 0 (drop (b mod c) data)) (copied dst 0 (drop (b mod c) data)) data = take n q ∧
    copied dst 0 (drop (b mod c) data) + copied (copy_to dst 0 (drop (b mod c) data)) (copied dst 0 (drop (b mod c) data)) data = n.
  Proof.
    intros HH Hc Hn Hd. rewrite <-holds_mod in HH by done. destruct HH as (Hl & Hq & HH).
    assert (b mod c < c) as Hb by (by apply Nat.mod_upper_bound). set (b0 := b mod c) in *.
    unfold copied. rewrite drop_length, copy_to_length, Hd, Hl, Nat.sub_0_r by lia.
    split; [|lia]. apply list_eq. intros p.
    rewrite copy_to_lookup by (rewrite copy_to_length by lia; lia). rewrite copy_to_length by lia.
    rewrite copy_to_lookup by lia. rewrite Hd, drop_length, Hl, Nat.sub_0_r.
    destruct (decide (p < n)) as [Hp|Hp].
    - rewrite lookup_take by done. rewrite <-HH by lia. rewrite mod_split by lia.
      destruct (decide (b0 + p < c)) as [H1|H1].
      + rewrite (decide_False (P := Nat.min n (c - b0) ≤ p < _ ∧ _)) by lia. rewrite decide_True by lia. by rewrite lookup_drop.
      + rewrite decide_True by lia. f_equal. lia.
    - rewrite (lookup_ge_None_2 (take n q)) by (rewrite take_length; lia). rewrite !decide_False by lia. apply lookup_ge_None_2. lia.
  Qed.
  (** writing: MPush *)
  Lemma write_ok data c b q es : holds data c b q → c ≠ 0 → length q + length es ≤ c →
    holds (copy_to (copy_to data ((b + length q) mod c) es) 0 (drop (copied data ((b + length q) mod c) es) es)) c b (q ++ es).
  Proof.
    intros HH Hc Hn. rewrite <-holds_mod in HH by done. rewrite <-holds_mod by done. destruct HH as (Hl & Hq & HH).
    rewrite <-mod_add_l' by done. assert (b mod c < c) as Hb by (by apply Nat.mod_upper_bound). set (b0 := b mod c) in *. clearbody b0.
    set (i := (b0 + length q) mod c). assert (i < c) as Hi by (by apply Nat.mod_upper_bound).
    assert (i = if decide (b0 + length q < c) then b0 + length q else b0 + length q - c) as Ei by (by apply mod_split).
    split_and!.
    - rewrite !copy_to_length; lia.
    - rewrite app_length. lia.
    - intros k Hk. rewrite app_length in Hk. rewrite copy_to_lookup by (rewrite copy_to_length by lia; lia).
      rewrite copy_to_length by lia. rewrite copy_to_lookup by lia. unfold copied. rewrite drop_length, Hl.
      rewrite mod_split by lia. rewrite lookup_drop.
      destruct (decide (k < length q)) as [Hkq|Hkq].
      + rewrite lookup_app_l by done. rewrite <-HH by done. rewrite mod_split by lia.
        repeat case_decide; try lia; try done.
      + rewrite lookup_app_r by lia. repeat case_decide; try lia; try (f_equal; lia).
  Qed.
  Lemma write1_ok data c b q e : holds data c b q → c ≠ 0 → length q < c →
    holds (<[(b + length q) mod c := e]> data) c b (q ++ [e]).
  Proof.
    intros HH Hc Hn. rewrite <-holds_mod in HH by done. rewrite <-holds_mod by done. destruct HH as (Hl & Hq & HH).
    rewrite <-mod_add_l' by done. assert (b mod c < c) as Hb by (by apply Nat.mod_upper_bound). set (b0 := b mod c) in *. clearbody b0.
    split_and!; [by rewrite insert_length|rewrite app_length; simpl; lia|].
    intros k Hk. rewrite app_length in Hk. simpl in Hk. destruct (decide (k < length q)) as [Hkq|Hkq].
    - rewrite lookup_app_l by done. rewrite <-HH by done. rewrite list_lookup_insert_ne; [done|].
      rewrite !mod_split by lia. repeat case_decide; lia.
    - assert (k = length q) as -> by lia. rewrite list_lookup_insert by (rewrite Hl; by apply Nat.mod_upper_bound).
      by rewrite lookup_app_r, Nat.sub_diag by lia.
  Qed.
  Lemma holds_drop data c b q n : holds data c b q → n ≤ length q → holds data c (b + n) (drop n q).
  Proof.
    intros (Hl & Hq & HH) Hn. split_and!; [done|rewrite drop_length; lia|]. intros k Hk. rewrite drop_length in Hk.
    rewrite lookup_drop, <-HH by lia. do 2 f_equal. lia.
  Qed.
  Lemma holds_nil data c b : length data = c → holds data c b [].
  Proof. intros. split_and!; [done|simpl; lia|simpl; intros; lia]. Qed.
End Copy.

Section Ring.
  Context {T : Type} (dv : T).
  Implicit Types (r : ring T) (q : list T) (c O N : nat).
  Local Open Scope Z_scope.

  (** counters that the index function maps correctly *)
  Definition good (c N : nat) : Prop := Z.of_nat N < 2 ^ 64 ∨ (Z.of_nat c | 2 ^ 64).

  Record rR r q c O : Prop := RR {
    RR_size : rsize r = Z.of_nat c;
    RR_c : Z.of_nat c < 2 ^ 63;
    RR_out : rout r = u64 (Z.of_nat O);
    RR_in : rin r = u64 (Z.of_nat (O + length q));
    RR_data : holds (rdata r) c O q }.

  Lemma rR_len r q c O : rR r q c O → rlen r = Z.of_nat (length q).
  Proof.
    intros [? ? Ho Hi (_ & ? & _)]. unfold rlen. rewrite Ho, Hi. unfold u64, wrap_u.
    rewrite <-Zminus_mod. rewrite Z.mod_small; lia.
  Qed.
  Lemma rR_avail r q c O : rR r q c O → ravail r = Z.of_nat c - Z.of_nat (length q).
  Proof.
    intros HR. unfold ravail, rcap. rewrite (rR_len _ _ _ _ HR). destruct HR as [-> ? Ho Hi (_ & ? & _)].
    apply u64_id. unfold is_u64. lia.
  Qed.
  Lemma rR_empty r q c O : rR r q c O → rempty r = bool_decide (q = []).
  Proof.
    intros HR. unfold rempty. apply bool_decide_ext. pose proof (rR_len _ _ _ _ HR) as Hl. split.
    - intros E. unfold rlen in Hl. rewrite E, Z.sub_diag in Hl. change (u64 0) with 0 in Hl. destruct q; [done|simpl in Hl; lia].
    - intros ->. rewrite (RR_in _ _ _ _ HR), (RR_out _ _ _ _ HR). simpl. by rewrite Nat.add_0_r.
  Qed.
  Lemma rR_full r q c O : rR r q c O → rfull r = bool_decide (Z.of_nat (length q) = Z.of_nat c).
  Proof. intros HR. unfold rfull. rewrite (rR_avail _ _ _ _ HR). apply bool_decide_ext. lia. Qed.

  Lemma u64_add a b : u64 (u64 a + b) = u64 (a + b).
  Proof. unfold u64, wrap_u. apply Zplus_mod_idemp_l. Qed.

  Lemma mod_of_nat N c : c ≠ 0%nat → Z.of_nat N mod Z.of_nat c = Z.of_nat (N mod c).
  Proof. intros. by rewrite Nat2Z.inj_mod. Qed.
  Lemma good_mod c N : c ≠ 0%nat → good c N → u64 (Z.of_nat N) mod Z.of_nat c = Z.of_nat (N mod c).
  Proof.
    intros Hc [Hg|Hg].
    - rewrite u64_id by (unfold is_u64; lia). by apply mod_of_nat.
    - unfold u64, wrap_u. rewrite <-mod_of_nat by done. destruct Hg as [k Hk].
      rewrite Hk. rewrite (Z.mul_comm k), Z.rem_mul_r by lia. rewrite Z.add_mod by lia.
      rewrite (Z.mul_comm (Z.of_nat c) (_ mod k)), Z.mod_mul by lia. rewrite Z.add_0_r, !Z.mod_mod by lia. done.
  Qed.
  Lemma good_le c N N' : (N' ≤ N)%nat → good c N → good c N'.
  Proof. intros ? [?|?]; [left; lia|by right]. Qed.

  Lemma ix_mod_ok r q c O N : rR r q c O → c ≠ 0%nat → good c N → ix_mod r (u64 (Z.of_nat N)) = Ret (Z.of_nat (N mod c)).
  Proof.
    intros HR Hc Hg. unfold ix_mod, umod. rewrite (RR_size _ _ _ _ HR), decide_False by lia. by rewrite good_mod.
  Qed.

  Section Ops.
    Variable ix : ring T → Z → go Z.
    Variable P : ring T → Prop.
    Hypothesis Hix : ∀ r q c O N, P r → rR r q c O → c ≠ 0%nat → good c N → ix r (u64 (Z.of_nat N)) = Ret (Z.of_nat (N mod c)).

    Ltac gred := cbv [mbind gst_bind gread gwrite gret glift gpanic gget set_in set_out set_data]; simpl.

    Lemma pop_ok r x q c O : P r → rR r (x :: q) c O → good c (O + length (x :: q)) →
      ∃ r', rpop ix r = (Ret x, r') ∧ rR r' q c (S O) ∧ rmask r' = rmask r ∧ rsize r' = rsize r.
    Proof.
      intros HP HR Hg. assert (c ≠ 0%nat) as Hc by (destruct HR as [_ _ _ _ (_ & HH & _)]; simpl in HH; lia).
      unfold rpop. gred. rewrite (rR_empty _ _ _ _ HR). simpl.
      rewrite (RR_out _ _ _ _ HR), (Hix _ _ _ _ _ HP HR Hc) by (eapply good_le; [|exact Hg]; lia).
      pose proof (RR_data _ _ _ _ HR) as (Hl & Hq & HH). pose proof (HH 0%nat ltac:(simpl; lia)) as H0.
      rewrite Nat.add_0_r in H0. simpl in H0. rewrite Nat2Z.id. unfold idx. rewrite H0.
      eexists. split; [done|]. split; [|done]. destruct HR as [? ? Ho Hi HD]. split; simpl; try done.
      - rewrite u64_add. f_equal. lia.
      - rewrite Hi. f_equal. simpl. lia.
      - replace (S O) with (O + 1)%nat by lia. eapply (holds_drop _ _ _ (x :: q) 1); [done|simpl; lia].
    Qed.
    Lemma pop_empty r c O : rR r [] c O → rpop ix r = (Panic (PUser "ring emtpy"), r).
    Proof. intros HR. unfold rpop. gred. by rewrite (rR_empty _ _ _ _ HR). Qed.
    Lemma peek_ok r x q c O : rR r (x :: q) c O → good c (O + length (x :: q)) → rpeek r = (Ret x, r).
    Proof.
      intros HR Hg. assert (c ≠ 0%nat) as Hc by (destruct HR as [_ _ _ _ (_ & HH & _)]; simpl in HH; lia).
      unfold rpeek. gred. rewrite (rR_empty _ _ _ _ HR). simpl.
      rewrite (RR_out _ _ _ _ HR), (ix_mod_ok _ _ _ _ _ HR Hc) by (eapply good_le; [|exact Hg]; lia).
      pose proof (RR_data _ _ _ _ HR) as (Hl & Hq & HH). pose proof (HH 0%nat ltac:(simpl; lia)) as H0.
      rewrite Nat.add_0_r in H0. simpl in H0. rewrite Nat2Z.id. unfold idx. by rewrite H0.
    Qed.
    Lemma peek_empty r c O : rR r [] c O → rpeek r = (Panic (PUser "ring emtpy"), r).
    Proof. intros HR. unfold rpeek. gred. by rewrite (rR_empty _ _ _ _ HR). Qed.

    Lemma push_tail_ok r q c O e : P r → rR r q c O → good c (O + length q) → (length q < c)%nat →
      ∃ r', rpush_tail ix e r = (Ret tt, r') ∧ rR r' (q ++ [e]) c O ∧ rmask r' = rmask r ∧ rsize r' = rsize r.
    Proof.
      intros HP HR Hg Hlt. assert (c ≠ 0%nat) as Hc by lia. unfold rpush_tail, store. gred.
      rewrite (RR_in _ _ _ _ HR), (Hix _ _ _ _ _ HP HR Hc) by done. simpl.
      pose proof (RR_data _ _ _ _ HR) as (Hl & Hq & HH). rewrite Hl, decide_True.
      2:{ pose proof (Nat.mod_upper_bound (O + length q) c Hc). lia. }
      eexists. split; [done|]. split; [|done]. rewrite Nat2Z.id. destruct HR as [? ? Ho Hi HD]. split; simpl; try done.
      - rewrite u64_add. f_equal. rewrite app_length. simpl. lia.
      - by apply write1_ok.
    Qed.
    Lemma mpush_tail_ok r q c O es : P r → rR r q c O → good c (O + length q) → (length q + length es ≤ c)%nat → c ≠ 0%nat →
      ∃ r', mpush_tail ix es r = (Ret tt, r') ∧ rR r' (q ++ es) c O ∧ rmask r' = rmask r ∧ rsize r' = rsize r.
    Proof.
      intros HP HR Hg Hlt Hc. unfold mpush_tail, slice_from. gred.
      rewrite (RR_in _ _ _ _ HR), (Hix _ _ _ _ _ HP HR Hc) by done. simpl.
      pose proof (RR_data _ _ _ _ HR) as (Hl & Hq & HH). rewrite Hl, decide_True.
      2:{ pose proof (Nat.mod_upper_bound (O + length q) c Hc). lia. }
      eexists. split; [done|]. split; [|done]. rewrite Nat2Z.id. destruct HR as [? ? Ho Hi HD]. split; simpl; try done.
      - rewrite u64_add. f_equal. rewrite app_length. lia.
      - by apply write_ok.
    Qed.
    Lemma mpop_ok r q c O n : P r → rR r q c O → good c (O + length q) → 0 ≤ n →
      ∃ r' O', rmpop dv ix n r = (Ret (take (Z.to_nat n) q), r') ∧ rR r' (drop (Z.to_nat n) q) c O' ∧
           rmask r' = rmask r ∧ rsize r' = rsize r ∧ (O' + length (drop (Z.to_nat n) q) = O + length q)%nat.
    Proof.
      intros HP HR Hg Hn. unfold rmpop. gred. rewrite (rR_len _ _ _ _ HR).
      set (m := if decide (n > Z.of_nat (length q)) then Z.of_nat (length q) else n).
      assert (m = Z.of_nat (Nat.min (Z.to_nat n) (length q))) as Hm by (subst m; case_decide; lia).
      set (k := Nat.min (Z.to_nat n) (length q)) in *.
      assert (take (Z.to_nat n) q = take k q) as ->.
      { subst k. destruct (decide (Z.to_nat n ≤ length q)%nat); [by rewrite Nat.min_l|]. rewrite Nat.min_r, !take_ge by lia. done. }
      assert (drop (Z.to_nat n) q = drop k q) as ->.
      { subst k. destruct (decide (Z.to_nat n ≤ length q)%nat); [by rewrite Nat.min_l|]. rewrite Nat.min_r, !drop_ge by lia. done. }
      case_decide as E.
      - assert (k = 0%nat) as -> by lia. exists r, O. by rewrite drop_0, take_0.
      - pose proof (RR_data _ _ _ _ HR) as HD. pose proof HD as (Hl & Hq & HH). assert (c ≠ 0%nat) as Hc by lia.
        rewrite (RR_out _ _ _ _ HR), (Hix _ _ _ _ _ HP HR Hc) by (eapply good_le; [|exact Hg]; lia).
        unfold slice_from. gred. rewrite Hl, decide_True.
        2:{ pose proof (Nat.mod_upper_bound O c Hc). lia. }
        rewrite Nat2Z.id.
        destruct (read_ok (rdata r) c O q k (make dv m) HD Hc) as [-> _]; [lia|unfold make; rewrite replicate_length; lia|].
        eexists _, (O + k)%nat. split; [done|]. split_and!; [|done|done|rewrite drop_length; lia].
        destruct HR as [? ? Ho Hi _]. split; simpl; try done.
        + rewrite u64_add. f_equal. lia.
        + rewrite Hi. f_equal. rewrite drop_length. lia.
        + apply holds_drop; [done|lia].
    Qed.
    Lemma mpopcopy_ok r q c O dst : P r → rR r q c O → good c (O + length q) → c ≠ 0%nat →
      ∃ r' O', rmpopcopy ix dst r = (Ret (take (length dst) q ++ drop (length (take (length dst) q)) dst), r') ∧
           rR r' (drop (length dst) q) c O' ∧
           rmask r' = rmask r ∧ rsize r' = rsize r ∧ (O' + length (drop (length dst) q) = O + length q)%nat.
    Proof.
      intros HP HR Hg Hc. unfold rmpopcopy. gred.
      rewrite (RR_out _ _ _ _ HR), (Hix _ _ _ _ _ HP HR Hc) by (eapply good_le; [|exact Hg]; lia).
      rewrite (rR_len _ _ _ _ HR). pose proof (RR_data _ _ _ _ HR) as HD. pose proof HD as (Hl & Hq & HH).
      unfold slice_from. gred. rewrite Hl, decide_True.
      2:{ pose proof (Nat.mod_upper_bound O c Hc). lia. }
      rewrite Nat2Z.id.
      assert (Z.to_nat (min (Z.of_nat (length dst)) (Z.of_nat (length q))) = Nat.min (length dst) (length q)) as ->.
      { unfold min. case_decide; lia. }
      set (k := Nat.min (length dst) (length q)).
      assert (take (length dst) q = take k q) as ->.
      { subst k. destruct (decide (length dst ≤ length q)%nat); [by rewrite Nat.min_l|]. rewrite Nat.min_r, !take_ge by lia. done. }
      assert (drop (length dst) q = drop k q) as ->.
      { subst k. destruct (decide (length dst ≤ length q)%nat); [by rewrite Nat.min_l|]. rewrite Nat.min_r, !drop_ge by lia. done. }
      destruct (read_ok (rdata r) c O q k (take k dst) HD Hc) as [E1 E2]; [lia|rewrite take_length; lia|].
      rewrite E1, E2. eexists _, (O + k)%nat. split.
      { do 3 f_equal. rewrite take_length. f_equal. lia. }
      split_and!; [|done|done|rewrite drop_length; lia].
      destruct HR as [? ? Ho Hi _]. split; simpl; try done.
      + rewrite u64_add. f_equal. lia.
      + rewrite Hi. f_equal. rewrite drop_length. lia.
      + apply holds_drop; [done|lia].
    Qed.
    Lemma reset_ok r q c O : rR r q c O →
      ∃ r', rreset dv r = (Ret tt, r') ∧ rR r' [] c 0 ∧ rmask r' = rmask r ∧ rsize r' = rsize r.
    Proof.
      intros [Hs ? Ho Hi HD]. eexists. split; [done|]. split; [|done]. split; simpl; try done.
      apply holds_nil. unfold make. rewrite replicate_length. lia.
    Qed.

    (** the calls common to all rings *)
    Definition common (o : bop T) : Prop := match o with BPush _ | BMPush _ | BGrow _ => False | _ => True end.
    Lemma common_ok push mpush grow r q c O o : P r → rR r q c O → good c (O + length q) → args_ok o → common o →
      (match o with BMPopCopy _ => c ≠ 0%nat | _ => True end) →
      ∃ r' O', rstep dv ix push mpush grow r o = ((queue_step (q, Z.of_nat c) o).1, r') ∧
        rR r' (queue_step (q, Z.of_nat c) o).2.1 c O' ∧ (queue_step (q, Z.of_nat c) o).2.2 = Z.of_nat c ∧
        rmask r' = rmask r ∧ rsize r' = rsize r ∧ (O' + length (queue_step (q, Z.of_nat c) o).2.1 ≤ O + length q)%nat.
    Proof.
      intros HP HR Hg Ha Hcm Hz. destruct o; try done; unfold rstep.
      - destruct q as [|x q].
        + rewrite (pop_empty _ _ _ HR). exists r, O. simpl. by split_and!.
        + destruct (pop_ok _ _ _ _ _ HP HR Hg) as (r' & E & HR' & ? & ?). rewrite E. exists r', (S O). simpl. split_and!; try done. lia.
      - destruct (mpop_ok _ _ _ _ n HP HR Hg) as (r' & O' & E & HR' & ? & ? & ?); [simpl in Ha; lia|].
        rewrite E. exists r', O'. simpl. split_and!; try done. lia.
      - destruct (mpopcopy_ok _ _ _ _ dst HP HR Hg) as (r' & O' & E & HR' & ? & ? & ?); [done|].
        rewrite E. exists r', O'. simpl. rewrite Nat2Z.id. split_and!; try done. lia.
      - destruct q as [|x q].
        + rewrite (peek_empty _ _ _ HR). exists r, O. by split_and!.
        + rewrite (peek_ok _ _ _ _ _ HR Hg). exists r, O. by split_and!.
      - destruct (reset_ok _ _ _ _ HR) as (r' & E & HR' & ? & ?). rewrite E. exists r', 0%nat. simpl. split_and!; try done. lia.
      - exists r, O. unfold rcap. rewrite (RR_size _ _ _ _ HR). by split_and!.
      - exists r, O. rewrite (rR_len _ _ _ _ HR). by split_and!.
      - exists r, O. rewrite (rR_avail _ _ _ _ HR). by split_and!.
      - exists r, O. rewrite (rR_empty _ _ _ _ HR). by split_and!.
      - exists r, O. rewrite (rR_full _ _ _ _ HR). by split_and!.
    Qed.

    Lemma bounded_ok r q c O o : P r → rR r q c O → good c (O + length q) → args_ok o → c ≠ 0%nat → ¬ is_grow o →
      ∃ r' O', rstep dv ix (rpush ix) (rmpush ix) no_grow r o = ((bounded_step (q, Z.of_nat c) o).1, r') ∧
        rR r' (bounded_step (q, Z.of_nat c) o).2.1 c O' ∧ (bounded_step (q, Z.of_nat c) o).2.2 = Z.of_nat c ∧
        rmask r' = rmask r ∧ rsize r' = rsize r ∧
        (O' + length (bounded_step (q, Z.of_nat c) o).2.1 ≤ O + length q + offered [o])%nat.
    Proof.
      intros HP HR Hg Ha Hc Hng.
      assert (common o → ∃ r' O', rstep dv ix (rpush ix) (rmpush ix) no_grow r o = ((queue_step (q, Z.of_nat c) o).1, r') ∧
        rR r' (queue_step (q, Z.of_nat c) o).2.1 c O' ∧ (queue_step (q, Z.of_nat c) o).2.2 = Z.of_nat c ∧
        rmask r' = rmask r ∧ rsize r' = rsize r ∧
        (O' + length (queue_step (q, Z.of_nat c) o).2.1 ≤ O + length q + offered [o])%nat) as Hcm.
      { intros Hcm. destruct (common_ok (rpush ix) (rmpush ix) no_grow _ _ _ _ o HP HR Hg Ha Hcm) as (r' & O' & ? & ? & ? & ? & ? & ?).
        - by destruct o.
        - exists r', O'. split_and!; try done. lia. }
      pose proof (RR_data _ _ _ _ HR) as (Hl & Hq & _).
      destruct o as [e|es| | | | | | | | | | |]; try (by apply Hcm).
      - unfold rstep, rpush. gred. rewrite (rR_full _ _ _ _ HR). simpl. case_decide as Hlt.
        + rewrite bool_decide_eq_false_2 by lia. simpl.
          destruct (push_tail_ok r q c O e HP HR Hg) as (r' & E & HR' & ? & ?); [lia|]. rewrite E.
          exists r', O. split_and!; try done. rewrite app_length. simpl. lia.
        + rewrite bool_decide_eq_true_2 by lia. exists r, O. simpl. split_and!; try done. lia.
      - unfold rstep, rmpush. gred. rewrite (rR_avail _ _ _ _ HR).
        assert ((if decide (Z.of_nat (length es) > Z.of_nat c - Z.of_nat (length q)) then take (Z.to_nat (Z.of_nat c - Z.of_nat (length q))) es else es)
                = take (Z.to_nat (Z.of_nat c - Z.of_nat (length q))) es) as ->.
        { case_decide; [done|]. rewrite take_ge by lia. done. }
        set (es' := take _ es). case_decide as E.
        + exists r, O. rewrite E, app_nil_r. split_and!; try done. lia.
        + destruct (mpush_tail_ok r q c O es' HP HR Hg) as (r' & E' & HR' & ? & ?); [subst es'; rewrite take_length; lia|done|].
          rewrite E'. exists r', O. split_and!; try done. rewrite app_length. subst es'. rewrite take_length. lia.
    Qed.

    Hypothesis HPstep : ∀ r r', P r → rmask r' = rmask r → rsize r' = rsize r → P r'.
    Lemma bounded_run ops : ∀ r q c O, P r → rR r q c O → good c (O + length q + offered ops) → c ≠ 0%nat →
      Forall (λ o, args_ok o ∧ ¬ is_grow o) ops →
      (brun (rstep dv ix (rpush ix) (rmpush ix) no_grow) r ops).1 = srun bounded_step (q, Z.of_nat c) ops.
    Proof.
      induction ops as [|o ops IH]; intros r q c O HP HR Hg Hc Ha; [done|]. apply Forall_cons in Ha as [[Ha Hng] Hall].
      assert (offered (o :: ops) = offered [o] + offered ops)%nat as Eo by (destruct o; simpl; lia).
      rewrite Eo in Hg.
      destruct (bounded_ok r q c O o HP HR) as (r' & O' & E & HR' & Ec & ? & ? & ?); [eapply good_le; [|exact Hg]; lia|done..|].
      simpl. rewrite E. destruct (bounded_step (q, Z.of_nat c) o) as [x [q' c']]. simpl in *. subst c'.
      specialize (IH r' q' c O'). destruct (brun _ r' ops). simpl in *. f_equal. apply IH; eauto. eapply good_le; [|exact Hg]. lia.
    Qed.
  End Ops.

  (** ** fix.Ring *)
  Lemma new_rR size mask : 0 ≤ size < 2 ^ 63 → rR (Ring 0 0 size mask (make dv size)) [] (Z.to_nat size) 0.
  Proof.
    intros Hs. split; simpl; try done; [lia|lia|]. apply holds_nil. unfold make. by rewrite replicate_length.
  Qed.
  Lemma fix_new_inv size r : 0 ≤ size → fix_new dv size = Ret r → 0 < size < 2 ^ 63 ∧ r = Ring 0 0 size 0 (make dv size).
  Proof. unfold fix_new, max_int64. intros ?. repeat case_decide; [done..|]. intros [= <-]. split; [lia|done]. Qed.

  Lemma fix_run size r ops : 0 ≤ size → fix_new dv size = Ret r → Forall (λ o, args_ok o ∧ ¬ is_grow o) ops →
    (Z.of_nat (offered ops) < 2 ^ 64 ∨ (size | 2 ^ 64)) →
    (brun (fix_step dv) r ops).1 = srun bounded_step ([], size) ops.
  Proof.
    intros H0 Hn Ha Hg. apply fix_new_inv in Hn as [Hs ->]; [|done].
    pose proof (bounded_run ix_mod (λ _, True) (λ r q c O N _, ix_mod_ok r q c O N) ltac:(done) ops
      (Ring 0 0 size 0 (make dv size)) [] (Z.to_nat size) 0 I (new_rR size 0 ltac:(lia))) as HB.
    rewrite Z2Nat.id in HB by lia. apply HB; [|lia|done]. unfold good. simpl. by rewrite Z2Nat.id by lia.
  Qed.

  (** ** round.Ring *)
  Lemma ix_mask_ok r q c O N : (∃ k, 0 ≤ k ≤ 62 ∧ rsize r = 2 ^ k ∧ rmask r = 2 ^ k - 1) → rR r q c O → c ≠ 0%nat → good c N →
    ix_mask r (u64 (Z.of_nat N)) = Ret (Z.of_nat (N mod c)).
  Proof.
    intros (k & Hk & Hs & Hm) HR Hc Hg. unfold ix_mask. rewrite Hm.
    replace (2 ^ k - 1) with (Z.ones k) by (rewrite Z.ones_equiv; lia). rewrite Z.land_ones by lia.
    rewrite <-Hs, (RR_size _ _ _ _ HR). by rewrite good_mod.
  Qed.
  Lemma pow2_divides k : 0 ≤ k ≤ 64 → (2 ^ k | 2 ^ 64).
  Proof. intros Hk. exists (2 ^ (64 - k)). rewrite <-Z.pow_add_r by lia. f_equal. lia. Qed.

  Lemma round_new_inv size r : is_u64 size → round_new dv size = Ret r →
    (2 ^ 63 < size ∧ r = Ring 0 0 0 (2 ^ 64 - 1) []) ∨
    ∃ p, least_pow_above size p ∧ (∃ k, 0 ≤ k ≤ 62 ∧ p = 2 ^ k) ∧ r = Ring 0 0 p (p - 1) (make dv p).
  Proof.
    intros Hu. unfold round_new. case_decide as E0; [done|].
    pose proof (round_up_spec 64 size ltac:(lia) Hu E0) as Hr. change (64 - 1) with 63 in Hr. case_decide as Hle.
    - destruct Hr as (p & Er & Hp & Hpu). rewrite Er. simpl. case_decide as Hgt; [done|]. intros [= <-]. right. exists p.
      split; [done|]. destruct Hp as ((k & Hk & ->) & ? & ?).
      assert (k ≤ 62). { destruct (Z.le_gt_cases k 62); [done|]. assert (2 ^ 63 ≤ 2 ^ k) by (apply Z.pow_le_mono_r; lia). lia. }
      split; [exists k; lia|]. f_equal. apply u64_id. assert (0 < 2 ^ k) by (apply Z.pow_pos_nonneg; lia). destruct Hpu. unfold is_u64. lia.
    - rewrite Hr. simpl. intros [= <-]. left. split; [lia|done].
  Qed.
  Lemma round_run size r ops : is_u64 size → round_new dv size = Ret r → size ≤ 2 ^ 63 → Forall (λ o, args_ok o ∧ ¬ is_grow o) ops →
    (brun (round_step dv) r ops).1 = srun bounded_step ([], rcap r) ops.
  Proof.
    intros Hu Hn Hle Ha. apply round_new_inv in Hn as [[? _]|(p & Hp & (k & Hk & ->) & ->)]; [lia| |done].
    assert (0 < 2 ^ k) by (apply Z.pow_pos_nonneg; lia).
    assert (2 ^ k ≤ 2 ^ 62) by (apply Z.pow_le_mono_r; lia).
    pose proof (bounded_run ix_mask (λ r, ∃ k, 0 ≤ k ≤ 62 ∧ rsize r = 2 ^ k ∧ rmask r = 2 ^ k - 1) ix_mask_ok) as HB.
    specialize (HB ltac:(intros r r' (k' & ? & ? & ?) -> ->; exists k'; done) ops).
    specialize (HB (Ring 0 0 (2 ^ k) (2 ^ k - 1) (make dv (2 ^ k))) [] (Z.to_nat (2 ^ k)) 0%nat).
    rewrite Z2Nat.id in HB by lia. apply HB; [by exists k|apply new_rR; lia| |lia|done].
    right. rewrite Z2Nat.id by lia. apply pow2_divides. lia.
  Qed.
  (** the ring of capacity 0 that sizes above 2^63 produce *)
  Lemma round_zero_run ops : Forall (λ o, args_ok o ∧ ¬ is_grow o) ops →
    (brun (round_step dv) (Ring 0 0 0 (2 ^ 64 - 1) []) ops).1 = srun bounded_step ([], 0) ops.
  Proof.
    induction ops as [|o ops IH]; intros Ha; [done|]. apply Forall_cons in Ha as [[Ha Hng] Hall]. specialize (IH Hall).
    set (r0 := Ring 0 0 0 (2 ^ 64 - 1) []) in *.
    assert (∃ x, round_step dv r0 o = (x, r0) ∧ bounded_step (@nil T, 0) o = (x, ([], 0))) as (x & E1 & E2).
    { destruct o as [e|es| |n|dst| | | | | | | |]; simpl in *; try (exfalso; by apply Hng); try (by eexists).
      - exists BUnit. unfold round_step, rstep, rmpush. split.
        + cbv [mbind gst_bind gget gread]. change (ravail r0) with 0. destruct es as [|x es]; [done|]. rewrite (decide_True (P := Z.of_nat (length (x :: es)) > 0)) by (simpl; lia). done.
        + by rewrite take_0.
      - exists (BSlice []). split; [|by rewrite take_nil, drop_nil].
        unfold round_step, rstep, rmpop. cbv [mbind gst_bind gget gread]. change (rlen r0) with 0.
        destruct (decide (n > 0)); [done|]. assert (n = 0) as -> by lia. done.
      - exists (BSlice dst). split; [|by rewrite take_nil, drop_nil].
        unfold round_step, rstep, rmpopcopy. cbv [mbind gst_bind gget gread glift]. simpl.
        change (rlen r0) with 0. assert (Z.to_nat (min (Z.of_nat (length dst)) 0) = 0%nat) as ->.
        { unfold min. case_decide; lia. }
        unfold slice_from, glift. simpl. done. }
    simpl. rewrite E1, E2. destruct (brun (round_step dv) r0 ops). simpl in *. by rewrite IH.
  Qed.

  (** ** unbounded.Ring *)
  Lemma grow_ok r q c O n : rR r q c O → good c (O + length q) → 0 ≤ n < 2 ^ 64 → (c = 0%nat → O = 0%nat) →
    match grown (Z.of_nat c) n with
    | Some c' => ∃ r' O', unb_grow dv n r = (Ret tt, r') ∧ rR r' q (Z.to_nat c') O' ∧ (O' ≤ O)%nat ∧ Z.of_nat c ≤ c' ∧ n ≤ c' ∧ 2 ≤ c'
    | None => ∃ p, unb_grow dv n r = (Panic p, r)
    end.
  Proof.
    intros HR Hg Hn Hc0. unfold grown, unb_grow. cbv [mbind gst_bind gget gread glift].
    pose proof (RR_data _ _ _ _ HR) as HD. pose proof HD as (Hl & Hq & HH). pose proof (RR_c _ _ _ _ HR) as Hc63.
    rewrite (RR_size _ _ _ _ HR). rewrite u64_id by (unfold is_u64; lia).
    assert (max (Z.of_nat c * 2) n = Z.max (2 * Z.of_nat c) n) as -> by (unfold max; case_decide; lia).
    unfold max_int64. destruct (decide (Z.max (2 * Z.of_nat c) n ≤ 2 ^ 63 - 1)) as [Hle|Hgt].
    2:{ rewrite decide_True by lia. by eexists. }
    rewrite (decide_False (P := Z.max (2 * Z.of_nat c) n > 2 ^ 63 - 1)) by lia.
    assert ((if decide (Z.max (2 * Z.of_nat c) n < 2) then 2 else Z.max (2 * Z.of_nat c) n) = Z.max 2 (Z.max (2 * Z.of_nat c) n)) as ->
      by (case_decide; lia).
    set (c' := Z.max 2 (Z.max (2 * Z.of_nat c) n)). assert (2 ≤ c' < 2 ^ 63 ∧ 2 * Z.of_nat c ≤ c' ∧ n ≤ c') as (? & ? & ?) by lia.
    case_decide as E.
    - assert (c = 0%nat) as -> by lia. rewrite (Hc0 eq_refl) in *. eexists _, 0%nat. split; [done|]. split_and!; try lia.
      destruct HR as [? ? Ho Hi _]. split; simpl; try done; [lia|lia|].
      destruct q; [|simpl in Hq; lia]. apply holds_nil. unfold make. by rewrite replicate_length.
    - rewrite (RR_out _ _ _ _ HR), (ix_mod_ok _ _ _ _ _ HR) by first [lia|eapply good_le; [|exact Hg]; lia].
      unfold slice_from, glift. rewrite Hl, decide_True.
      2:{ pose proof (Nat.mod_upper_bound O c). lia. }
      rewrite Nat2Z.id, (rR_len _ _ _ _ HR), Nat2Z.id. rewrite decide_True by lia.
      assert (length (take (length q) (make dv c')) = length q) as Hlt.
      { rewrite take_length. unfold make. rewrite replicate_length. lia. }
      destruct (read_ok (rdata r) c O q (length q) (take (length q) (make dv c')) HD) as [-> _]; [lia|lia|done|].
      rewrite take_ge by lia. eexists _, 0%nat. split; [done|]. split_and!; try lia.
      split; simpl; try done; [lia|lia|rewrite u64_id by (unfold is_u64; lia); done|].
      split_and!.
      + rewrite app_length, drop_length. unfold make. rewrite replicate_length. lia.
      + lia.
      + intros k Hk. simpl. rewrite Nat.mod_small by lia. by rewrite lookup_app_l.
  Qed.

  Lemma growing_ok r q c O o : rR r q c O → Z.of_nat (O + length q) < 2 ^ 64 → args_ok o → (c = 0%nat → O = 0%nat) →
    (match o with BMPopCopy _ => c ≠ 0%nat | _ => True end) →
    ∃ r' O' c', unb_step dv r o = ((growing_step (q, Z.of_nat c) o).1, r') ∧
      rR r' (growing_step (q, Z.of_nat c) o).2.1 c' O' ∧ (growing_step (q, Z.of_nat c) o).2.2 = Z.of_nat c' ∧ (c' = 0%nat → O' = 0%nat) ∧
      (O' + length (growing_step (q, Z.of_nat c) o).2.1 ≤ O + length q + offered [o])%nat.
  Proof.
    intros HR Hlt Ha Hz Hm. assert (good c (O + length q)) as Hg by (by left).
    pose proof (RR_data _ _ _ _ HR) as (Hl & Hq & _). pose proof (RR_c _ _ _ _ HR) as Hc63.
    assert (common o → ∃ r' O' c', unb_step dv r o = ((queue_step (q, Z.of_nat c) o).1, r') ∧
      rR r' (queue_step (q, Z.of_nat c) o).2.1 c' O' ∧ (queue_step (q, Z.of_nat c) o).2.2 = Z.of_nat c' ∧ (c' = 0%nat → O' = 0%nat) ∧
      (O' + length (queue_step (q, Z.of_nat c) o).2.1 ≤ O + length q + offered [o])%nat) as Hcm.
    { intros Hcm. destruct (common_ok ix_mod (λ _, True) (λ r q c O N _, ix_mod_ok r q c O N) (unb_push dv) (unb_mpush dv) (unb_grow dv) _ _ _ _ o I HR Hg Ha Hcm Hm)
        as (r' & O' & ? & HR' & ? & ? & ? & ?).
      exists r', O', c. split_and!; try done; [|lia]. intros ->. rewrite (Hz eq_refl) in *. destruct q; [simpl in *; lia|simpl in Hq; lia]. }
    destruct o as [e|es| | | | | | | | | | |n]; try (by apply Hcm).
    - (* Push *) unfold unb_step, rstep, unb_push. cbv [mbind gst_bind gget gread]. rewrite (rR_full _ _ _ _ HR). simpl. case_decide as Hlt'.
      + rewrite bool_decide_eq_false_2 by lia. unfold gret.
        destruct (push_tail_ok ix_mod (λ _, True) (λ r q c O N _, ix_mod_ok r q c O N) r q c O e I HR Hg) as (r' & E & HR' & _); [lia|].
        rewrite E. exists r', O, c. simpl. split_and!; try done. rewrite app_length. simpl. lia.
      + rewrite bool_decide_eq_true_2 by lia. unfold rcap. rewrite (RR_size _ _ _ _ HR), u64_id by (unfold is_u64; lia).
        pose proof (grow_ok r q c O (Z.of_nat c + 1) HR Hg ltac:(lia) Hz) as HG.
        destruct (grown (Z.of_nat c) (Z.of_nat c + 1)) as [c'|].
        * destruct HG as (r1 & O1 & E1 & HR1 & HO & ? & ? & ?). rewrite E1.
          destruct (push_tail_ok ix_mod (λ _, True) (λ r q c O N _, ix_mod_ok r q c O N) r1 q (Z.to_nat c') O1 e I HR1) as (r' & E & HR' & _); [left; lia|lia|].
          rewrite E. exists r', O1, (Z.to_nat c'). simpl. rewrite Z2Nat.id by lia. split_and!; try done; [lia|]. rewrite app_length. simpl. lia.
        * destruct HG as (p & E1). rewrite E1. exists r, O, c. simpl. split_and!; try done. lia.
    - (* MPush *) unfold unb_step, rstep, unb_mpush. simpl in Ha.
      destruct (decide (Z.of_nat (length es) = 0)) as [E0|E0].
      { assert (es = []) as -> by (destruct es; [done|simpl in E0; lia]). unfold gret. exists r, O, c. simpl.
        rewrite decide_True by lia. simpl. rewrite app_nil_r. split_and!; try done. lia. }
      cbv [mbind gst_bind gget gread]. rewrite (rR_avail _ _ _ _ HR). simpl. destruct (decide (Z.of_nat (length q + length es) ≤ Z.of_nat c)) as [Hle|Hgt].
      + rewrite (decide_False (P := Z.of_nat (length es) > _)) by lia. unfold gret.
        destruct (mpush_tail_ok ix_mod (λ _, True) (λ r q c O N _, ix_mod_ok r q c O N) r q c O es I HR Hg) as (r' & E & HR' & _); [lia|lia|].
        rewrite E. exists r', O, c. simpl. split_and!; try done. rewrite app_length. simpl. lia.
      + rewrite (decide_True (P := Z.of_nat (length es) > _)) by lia. unfold rcap. rewrite (RR_size _ _ _ _ HR), u64_id by (unfold is_u64; lia).
        pose proof (grow_ok r q c O (Z.of_nat c + Z.of_nat (length es)) HR Hg ltac:(lia) Hz) as HG.
        destruct (grown (Z.of_nat c) (Z.of_nat c + Z.of_nat (length es))) as [c'|].
        * destruct HG as (r1 & O1 & E1 & HR1 & HO & ? & ? & ?). rewrite E1.
          destruct (mpush_tail_ok ix_mod (λ _, True) (λ r q c O N _, ix_mod_ok r q c O N) r1 q (Z.to_nat c') O1 es I HR1) as (r' & E & HR' & _); [left; lia|lia|lia|].
          rewrite E. exists r', O1, (Z.to_nat c'). simpl. rewrite Z2Nat.id by lia. split_and!; try done; [lia|]. rewrite app_length. simpl. lia.
        * destruct HG as (p & E1). rewrite E1. exists r, O, c. simpl. split_and!; try done. lia.
    - (* Grow *) unfold unb_step, rstep. simpl in Ha. pose proof (grow_ok r q c O n HR Hg ltac:(lia) Hz) as HG. simpl.
      destruct (grown (Z.of_nat c) n) as [c'|].
      + destruct HG as (r1 & O1 & E1 & HR1 & HO & ? & ? & ?). rewrite E1. exists r1, O1, (Z.to_nat c'). simpl. rewrite Z2Nat.id by lia. split_and!; try done; lia.
      + destruct HG as (p & E1). rewrite E1. exists r, O, c. simpl. split_and!; try done. lia.
  Qed.
  Lemma growing_run ops : ∀ r q c O, rR r q c O → Z.of_nat (O + length q + offered ops) < 2 ^ 64 → (c = 0%nat → O = 0%nat) →
    Forall args_ok ops → no_copy_at_zero (q, Z.of_nat c) ops →
    (brun (unb_step dv) r ops).1 = srun growing_step (q, Z.of_nat c) ops.
  Proof.
    induction ops as [|o ops IH]; intros r q c O HR Hg Hz Ha Hm; [done|]. apply Forall_cons in Ha as [Ha Hall].
    assert (offered (o :: ops) = offered [o] + offered ops)%nat as Eo by (destruct o; simpl; lia).
    rewrite Eo in Hg. destruct Hm as [Hm Hms].
    destruct (growing_ok r q c O o HR) as (r' & O' & c' & E & HR' & Ec & ? & ?); [lia|done|done|by destruct o; try done; simpl in Hm; lia|].
    cbn [brun srun]. rewrite E. destruct (growing_step (q, Z.of_nat c) o) as [x [q' c'']]. simpl in *. subst c''.
    specialize (IH r' q' c' O'). destruct (brun _ r' ops). simpl in *. f_equal. apply IH; try done. lia.
  Qed.
End Ring.
