(** * MPush against MPop/MPopCopy: every schedule *)
From Verif Require Import GoBase MathModel MathProofs RingModel RingSpec RingProofs SpscModel.

Lemma mod_ne a b c : a < b < a + c → a mod c ≠ b mod c.
Proof.
  intros Hab E. pose proof (Nat.div_mod a c ltac:(lia)). pose proof (Nat.div_mod b c ltac:(lia)).
  assert (c * (b / c - a / c) = b - a) by nia. destruct (b / c - a / c) as [|k] eqn:F; [lia|nia].
Qed.
Lemma mod_step c i n : i < c → n ≤ c - i → ∀ j, j < n → (i + j) mod c = i + j.
Proof. intros. apply Nat.mod_small. lia. Qed.

Section Spsc.
  Context {T : Type} (c : nat) (ix : Z → nat).
  Notation P := (prog T).
  Implicit Types (H pend gt un : list T).
  Hypothesis Hc0 : c ≠ 0.
  Hypothesis Hc63 : (Z.of_nat c < 2 ^ 63)%Z.
  Hypothesis Hix : ∀ N, good c N → ix (u64 (Z.of_nat N)) = N mod c.
  (** what the accepted elements may be, and whether the producer may panic *)
  Variable legit : list T → Prop.
  Variable may_panic : Prop.

  (** ** Producer *)
  Fixpoint wpP {A} (p : P A) (Q : A → list T → nat → list T → Prop) H (O0 : nat) pend : Prop :=
    match p with
    | PRet a => Q a H O0 pend
    | PPanic => may_panic
    | PRdIn k => wpP (k (u64 (Z.of_nat (length H)))) Q H O0 pend
    | PRdOut k => ∀ O1, O0 ≤ O1 → O1 ≤ length H → length H ≤ O1 + c → wpP (k (u64 (Z.of_nat O1))) Q H O1 pend
    | PWrIn v k => v = u64 (Z.of_nat (length H + length pend)) ∧ legit (H ++ pend) ∧ wpP k Q (H ++ pend) O0 []
    | PWrD i v k => i = (length H + length pend) mod c ∧ length H + length pend < O0 + c ∧ wpP k Q H O0 (pend ++ [v])
    | _ => False
    end.
  Lemma wpP_bind {A B} (p : P A) (f : A → P B) Q : ∀ H O0 pend,
    wpP p (λ a, wpP (f a) Q) H O0 pend → wpP (p ≫= f) Q H O0 pend.
  Proof. induction p; simpl; intros; naive_solver. Qed.
  Lemma wpP_mono {A} (p : P A) (Q Q' : A → list T → nat → list T → Prop) : ∀ H O0 pend, wpP p Q H O0 pend →
    (∀ a H' O' pend', Q a H' O' pend' → Q' a H' O' pend') → wpP p Q' H O0 pend.
  Proof. induction p; simpl; intros; naive_solver. Qed.

  Lemma avail_val (N O : nat) : O ≤ N → N ≤ O + c →
    u64 (Z.of_nat c - u64 (u64 (Z.of_nat N) - u64 (Z.of_nat O))) = (Z.of_nat c - Z.of_nat (N - O))%Z.
  Proof.
    intros. assert (u64 (u64 (Z.of_nat N) - u64 (Z.of_nat O)) = Z.of_nat (N - O)) as ->.
    { unfold u64, wrap_u. rewrite <-Zminus_mod. rewrite Z.mod_small; lia. }
    apply u64_id. unfold is_u64. lia.
  Qed.
  Lemma wp_avail H O0 : wpP (p_avail c) (λ a H' O1 pend, H' = H ∧ pend = [] ∧ O0 ≤ O1 ∧ O1 ≤ length H ∧ length H ≤ O1 + c ∧
    a = (Z.of_nat c - Z.of_nat (length H - O1))%Z) H O0 [].
  Proof. simpl. intros O1 ? ? ?. rewrite avail_val by lia. by split_and!. Qed.

  Lemma wp_store l : ∀ (j : nat) H O0 pend (Q : list T → nat → list T → Prop), j + length l ≤ c → length H + length pend + length l ≤ O0 + c →
    (l ≠ [] → j = (length H + length pend) mod c) →
    Q H O0 (pend ++ l) → wpP (p_store j l) (λ _, Q) H O0 pend.
  Proof.
    induction l as [|x l IH]; intros j H O0 pend Q Hj Hlen Hjm HQ; simpl in *.
    - by rewrite app_nil_r in HQ.
    - specialize (Hjm ltac:(done)). split_and!; [done|lia|]. apply IH; rewrite ?app_length; simpl.
      + lia. + lia.
      + intros Hl. assert (length l ≠ 0) by (by destruct l). replace (length H + (length pend + 1)) with (length H + length pend + 1) by lia.
        rewrite <-Nat.add_mod_idemp_l, <-Hjm by done. rewrite Nat.mod_small by lia. lia.
      + by rewrite <-app_assoc.
  Qed.

  Lemma wp_mpush es H O0 : good c (length H) → length H ≤ O0 + c →
    (∀ n, legit (H ++ take n es)) → (length es < c → may_panic) →
    wpP (p_mpush c ix es []) (λ _ H' O' pend, pend = [] ∧ length H' ≤ O' + c ∧ ∃ n, H' = H ++ take n es) H O0 [].
  Proof.
    intros Hg Hle Hleg Hpan. unfold p_mpush. apply wpP_bind. eapply wpP_mono; [apply wp_avail|].
    intros a H1 O1 pend (-> & -> & HO1 & HO1' & HO1c & ->). apply wpP_bind.
    apply (wpP_mono _ (λ elems H' O2 pend, ∃ n, H' = H ∧ pend = [] ∧ O2 ≤ length H ∧ length H + length elems ≤ O2 + c ∧ elems = take n es)).
    { case_decide as Hgt.
      - apply wpP_bind. eapply wpP_mono; [apply wp_avail|]. intros a H1 O2 pend (-> & -> & HO2 & HO2' & HO2c & ->).
        rewrite app_nil_r. case_decide as Hgt2; simpl.
        + apply Hpan. lia.
        + eexists. split_and!; [done..|lia| |done]. rewrite take_length. lia.
      - simpl. exists (length es). rewrite take_ge by done. split_and!; try done. lia. }
    intros elems H1 O2 pend (n & -> & -> & HO2 & Hfit & ->). case_decide as Hemp.
    { simpl. split_and!; [done|lia|]. exists 0. by rewrite app_nil_r. }
    set (elems := take n es) in *. apply wpP_bind. simpl. rewrite Hix by done.
    assert (length H mod c < c) as Hj by (by apply Nat.mod_upper_bound). set (j := length H mod c) in *.
    rewrite decide_True by lia. set (m := Nat.min (c - j) (length elems)).
    apply wpP_bind. apply wp_store; [rewrite take_length; lia|rewrite take_length; simpl; lia|simpl; rewrite Nat.add_0_r; by intros|].
    rewrite app_nil_l. apply wpP_bind. apply wp_store.
    - rewrite take_length. lia.
    - rewrite !take_length, drop_length. lia.
    - intros Hne. assert (length (drop m elems) ≠ 0) as Hl by (intros E; apply Hne, nil_length_inv; rewrite take_length; lia).
      rewrite drop_length in Hl. rewrite take_length, Nat.min_l by lia. assert (m = c - j) as -> by lia.
      rewrite <-Nat.add_mod_idemp_l by done. fold j. replace (j + (c - j)) with c by lia. by rewrite Nat.mod_same.
    - assert (take m elems ++ take c (drop m elems) = elems) as ->.
      { rewrite (take_ge (drop m elems)) by (rewrite drop_length; subst m; lia). apply take_drop. }
      simpl. split_and!.
      + rewrite u64_add. f_equal. lia.
      + apply Hleg.
      + done.
      + rewrite app_length. lia.
      + by exists n.
  Qed.

  (** ** Consumer: knows I0 <= IN; gt read but not yet released, un released but not yet returned *)
  Fixpoint wpC {A} (p : P A) (Q : A → nat → nat → list T → list T → Prop) (I0 O : nat) gt un : Prop :=
    match p with
    | PRet a => Q a I0 O gt un
    | PRdIn k => ∀ I1, good c I1 → I0 ≤ I1 → O ≤ I1 → I1 ≤ O + c → wpC (k (u64 (Z.of_nat I1))) Q I1 O gt un
    | PRdOut k => wpC (k (u64 (Z.of_nat O))) Q I0 O gt un
    | PWrOut v k => v = u64 (Z.of_nat (O + length gt)) ∧ wpC k Q I0 (O + length gt) [] (un ++ gt)
    | PRdD i k => i = (O + length gt) mod c ∧ O + length gt < I0 ∧ ∀ v, wpC (k v) Q I0 O (gt ++ [v]) un
    | PGot l k => l = un ∧ wpC k Q I0 O gt []
    | _ => False
    end.
  Lemma wpC_bind {A B} (p : P A) (f : A → P B) Q : ∀ I0 O gt un,
    wpC p (λ a, wpC (f a) Q) I0 O gt un → wpC (p ≫= f) Q I0 O gt un.
  Proof. induction p; simpl; intros; naive_solver. Qed.
  Lemma wpC_mono {A} (p : P A) (Q Q' : A → nat → nat → list T → list T → Prop) : ∀ I0 O gt un, wpC p Q I0 O gt un →
    (∀ a I' O' gt' un', Q a I' O' gt' un' → Q' a I' O' gt' un') → wpC p Q' I0 O gt un.
  Proof. induction p; simpl; intros; naive_solver. Qed.
  Lemma wpC_rd_out {A} (f : Z → P A) Q I0 O gt un : wpC (f (u64 (Z.of_nat O))) Q I0 O gt un → wpC (rd_out ≫= f) Q I0 O gt un.
  Proof. intros HH. exact HH. Qed.
  Lemma wp_len I0 O : wpC (@p_len T) (λ a I1 O' gt un, O' = O ∧ gt = [] ∧ un = [] ∧ I0 ≤ I1 ∧ O ≤ I1 ∧ I1 ≤ O + c ∧ a = Z.of_nat (I1 - O) ∧ good c I1) I0 O [] [].
  Proof.
    simpl. intros I1 ? ? ? ?. split_and!; try done. unfold u64, wrap_u. rewrite <-Zminus_mod. rewrite Z.mod_small; lia.
  Qed.
  Lemma wp_load n : ∀ (j : nat) I0 O gt un (Q : list T → nat → nat → list T → list T → Prop), j + n ≤ c → O + length gt + n ≤ I0 →
    (n ≠ 0 → j = (O + length gt) mod c) →
    (∀ l, length l = n → Q l I0 O (gt ++ l) un) → wpC (p_load j n) Q I0 O gt un.
  Proof.
    induction n as [|n IH]; intros j I0 O gt un Q Hj Hlen Hjm HQ; simpl.
    - rewrite <-(app_nil_r gt). by apply HQ.
    - specialize (Hjm ltac:(done)). split_and!; [done|lia|]. intros v. apply wpC_bind. apply IH; rewrite ?app_length; simpl.
      + lia. + lia.
      + intros Hl. replace (O + (length gt + 1)) with (O + length gt + 1) by lia.
        rewrite <-Nat.add_mod_idemp_l, <-Hjm by done. rewrite Nat.mod_small by lia. lia.
      + intros l Hl. rewrite <-app_assoc. apply (HQ (v :: l)). simpl. lia.
  Qed.
  Definition idle (_ : unit) (I0 O : nat) gt un : Prop := gt = [] ∧ un = [] ∧ good c O.
  (** the common tail of MPop and MPopCopy *)
  Lemma wp_read (m : nat) I0 O {A} (f : list T → list T → P A) Q : O + m ≤ I0 → I0 ≤ O + c → good c O →
    (∀ l1 l2, length l1 + length l2 = m → wpC (f l1 l2) Q I0 O (l1 ++ l2) []) →
    wpC (if decide (ix (u64 (Z.of_nat O)) ≤ c) then
      l1 ← p_load (ix (u64 (Z.of_nat O))) (Nat.min m (c - ix (u64 (Z.of_nat O))));
      l2 ← p_load 0 (Nat.min (m - Nat.min m (c - ix (u64 (Z.of_nat O)))) c); f l1 l2 else PPanic) Q I0 O [] [].
  Proof.
    intros Hm HI Hg Hf. rewrite Hix by done. assert (O mod c < c) as Hj by (by apply Nat.mod_upper_bound). set (j := O mod c) in *.
    rewrite decide_True by lia. set (n := Nat.min m (c - j)).
    apply wpC_bind. apply wp_load; [lia|simpl; lia|simpl; by rewrite Nat.add_0_r|].
    intros l1 Hl1. rewrite app_nil_l. apply wpC_bind. apply wp_load; [lia|lia| |].
    - intros Hne. assert (n = c - j) as E by lia. rewrite Hl1, E. rewrite <-Nat.add_mod_idemp_l by done. fold j.
      replace (j + (c - j)) with c by lia. by rewrite Nat.mod_same.
    - intros l2 Hl2. apply Hf. lia.
  Qed.
  Lemma wp_mpop n I0 O : (0 ≤ n)%Z → good c O → wpC (p_mpop c ix n) idle I0 O [] [].
  Proof.
    intros Hn Hg. unfold p_mpop. apply wpC_bind. eapply wpC_mono; [apply wp_len|].
    intros a I1 O' gt un (-> & -> & -> & HI & HO & HIc & -> & HgI). apply wpC_bind.
    apply (wpC_mono _ (λ size I2 O' gt un, O' = O ∧ gt = [] ∧ un = [] ∧ O + Z.to_nat size ≤ I2 ∧ I2 ≤ O + c ∧ (0 ≤ size)%Z ∧ good c I2)).
    { case_decide.
      - eapply wpC_mono; [apply wp_len|]. intros a I2 O' gt un (-> & -> & -> & ? & ? & ? & -> & ?). split_and!; try done; lia.
      - simpl. split_and!; try done; lia. }
    intros size I2 O' gt un (-> & -> & -> & Hs & HI2 & Hs0 & HgI2). case_decide; [simpl; done|].
    apply wpC_rd_out. apply (wp_read (Z.to_nat size) I2 O (λ l1 l2, o' ← rd_out; _ ← wr_out (u64 (o' + size)); got (l1 ++ l2))%Z); [done..|].
    intros l1 l2 Hl. simpl. split_and!.
    - rewrite u64_add. f_equal. rewrite app_length. lia.
    - done.
    - split_and!; [done..|]. eapply good_le; [|done]. rewrite app_length. lia.
  Qed.
  Lemma wp_mpopcopy n I0 O : (0 ≤ n)%Z → good c O → wpC (p_mpopcopy c ix n) idle I0 O [] [].
  Proof.
    intros Hn Hg. unfold p_mpopcopy. apply wpC_rd_out. apply wpC_bind. eapply wpC_mono; [apply wp_len|].
    intros a I1 O' gt un (-> & -> & -> & HI & HO & HIc & -> & HgI).
    assert (0 ≤ min n (Z.of_nat (I1 - O)) ≤ Z.of_nat (I1 - O))%Z as Hm by (unfold min; case_decide; lia).
    apply (wp_read (Z.to_nat (min n (Z.of_nat (I1 - O)))) I1 O
      (λ l1 l2, o' ← rd_out; _ ← wr_out (u64 (o' + Z.of_nat (length l1 + length l2))); got (l1 ++ l2))%Z); [lia|done..|].
    intros l1 l2 Hl. simpl. split_and!.
    - rewrite u64_add. f_equal. rewrite app_length. lia.
    - done.
    - split_and!; [done..|]. eapply good_le; [|done]. rewrite app_length. lia.
  Qed.

  (** ** Both together *)
  Definition anyP (_ : unit) (_ : list T) (_ : nat) (_ : list T) : Prop := True.
  Definition Inv (s : config) H O : Prop :=
    m_in (c_mem s) = u64 (Z.of_nat (length H)) ∧
    m_out (c_mem s) = u64 (Z.of_nat O) ∧
    O ≤ length H ≤ O + c ∧
    length (m_data (c_mem s)) = c ∧
    (∀ k, O ≤ k < length H → m_data (c_mem s) !! (k mod c) = H !! k) ∧
    legit H ∧
    (∃ O0 pend, O0 ≤ O ∧ length H + length pend ≤ O0 + c ∧
       (∀ k, k < length pend → m_data (c_mem s) !! ((length H + k) mod c) = pend !! k) ∧ wpP (c_prod s) anyP H O0 pend) ∧
    (∃ I0 gt un, I0 ≤ length H ∧ O + length gt ≤ I0 ∧ gt `prefix_of` drop O H ∧ c_recv s ++ un = take O H ∧
       wpC (c_cons s) idle I0 O gt un).
  Hypothesis Hlg : ∀ H, legit H → good c (length H).

  Lemma Inv_prod s H O : Inv s H O → ∃ H', Inv (move s true) H' O.
  Proof.
    intros (Hi & Ho & Hle & Hd & Hcell & Hleg & (O0 & pend & HO0 & Hfit & Hpc & HP) & HC). destruct s as [m p q R]. simpl in *.
    destruct p as [a| |k|k|v k|v k|i k|i v k|l k]; simpl in *; try done.
    - exists H. split_and!; try done; try lia. by exists O0, pend.
    - exists H. split_and!; try done; try lia. by exists O0, pend.
    - exists H. split_and!; try done; try lia. exists O0, pend. rewrite Hi. by split_and!.
    - exists H. split_and!; try done; try lia. exists O, pend. rewrite Ho. split_and!; try done; [lia|]. apply HP; lia.
    - destruct HP as (-> & Hl' & HP). exists (H ++ pend). split_and!; simpl; try done.
      + by rewrite app_length.
      + rewrite app_length. lia.
      + rewrite app_length. lia.
      + intros k' Hk. rewrite app_length in Hk. destruct (decide (k' < length H)) as [Hlt|Hge].
        * rewrite lookup_app_l by done. apply Hcell. lia.
        * rewrite lookup_app_r by lia. rewrite <-Hpc by lia. do 2 f_equal. lia.
      + exists O0, []. split_and!; simpl; try done; [rewrite app_length; lia|intros; lia].
      + destruct HC as (I0 & gt & un & ? & ? & Hpre & Hun & HC). exists I0, gt, un. split_and!; try done.
        * rewrite app_length. lia.
        * rewrite drop_app_le by lia. by apply prefix_app_r.
        * by rewrite take_app_le by lia.
    - destruct HP as (-> & Hlt & HP). rewrite decide_True by (rewrite Hd; by apply Nat.mod_upper_bound).
      exists H. split_and!; simpl; try done; try lia.
      + by rewrite insert_length.
      + intros k' Hk. rewrite list_lookup_insert_ne; [by apply Hcell|]. apply not_eq_sym, mod_ne. lia.
      + exists O0, (pend ++ [v]). rewrite app_length. simpl. split_and!; try done; [lia|].
        intros k' Hk. destruct (decide (k' = length pend)) as [->|Hne].
        * rewrite list_lookup_insert by (rewrite Hd; by apply Nat.mod_upper_bound). by rewrite lookup_app_r, Nat.sub_diag by lia.
        * rewrite lookup_app_l by lia. rewrite list_lookup_insert_ne; [apply Hpc; lia|]. apply not_eq_sym, mod_ne. lia.
  Qed.
  Lemma Inv_cons s H O : Inv s H O → ∃ O', Inv (move s false) H O'.
  Proof.
    intros (Hi & Ho & Hle & Hd & Hcell & Hleg & HP & (I0 & gt & un & HI0 & Hgt & Hpre & Hun & HC)). destruct s as [m q p R]. simpl in *.
    destruct p as [a| |k|k|v k|v k|i k|i v k|l k]; simpl in *; try done; rewrite ?app_nil_r.
    - exists O. split_and!; try done; try lia. by exists I0, gt, un.
    - exists O. split_and!; try done; try lia. exists (length H), gt, un. rewrite Hi. split_and!; try done; [lia|]. apply HC; try lia. by apply Hlg.
    - exists O. split_and!; try done; try lia. exists I0, gt, un. rewrite Ho. by split_and!.
    - destruct HC as (-> & HC). exists (O + length gt). split_and!; simpl; try done; try lia.
      + intros k' Hk. apply Hcell. lia.
      + destruct HP as (O0 & pend & ? & ? & ? & ?). exists O0, pend. split_and!; try done. lia.
      + exists I0, [], (un ++ gt). split_and!; simpl; try done; try lia.
        * apply prefix_nil.
        * rewrite app_assoc, Hun. destruct Hpre as [rest Hr]. rewrite <-(take_drop O H) at 2. rewrite Hr.
          rewrite take_app_ge by (rewrite take_length; lia). rewrite take_length.
          replace (O + length gt - Nat.min O (length H)) with (length gt) by lia. by rewrite take_app.
    - destruct HC as (-> & Hlt & HC). rewrite Hcell by lia. destruct (lookup_lt_is_Some_2 H (O + length gt)) as [x Hx]; [lia|].
      rewrite Hx. exists O. rewrite app_nil_r. split_and!; simpl; try done; try lia. exists I0, (gt ++ [x]), un.
      rewrite app_length. simpl. split_and!; try done; [lia|].
      destruct Hpre as [rest Hr]. assert (drop O H !! length gt = Some x) as E by (by rewrite lookup_drop).
      rewrite Hr, lookup_app_r, Nat.sub_diag in E by lia. destruct rest as [|y rest]; [done|]. simpl in E. injection E as ->.
      exists rest. by rewrite Hr, <-app_assoc.
    - destruct HC as (-> & HC). exists O. split_and!; simpl; try done; try lia. exists I0, gt, []. rewrite app_nil_r. by split_and!.
  Qed.
  Lemma Inv_exec sched : ∀ s H O, Inv s H O → ∃ H' O', Inv (exec s sched) H' O'.
  Proof.
    induction sched as [|b sched IH]; intros s H O HI; [by eauto|]. simpl. destruct b.
    - destruct (Inv_prod _ _ _ HI) as [H' HI']. by eapply IH.
    - destruct (Inv_cons _ _ _ HI) as [O' HI']. by eapply IH.
  Qed.

  Lemma wp_consumer cs : ∀ I0 O, Forall (λ q, match q with QPop => False | QMPop n | QMPopCopy n => 0 ≤ n end)%Z cs → good c O →
    wpC (consumer c ix cs) idle I0 O [] [].
  Proof.
    induction cs as [|q cs IH]; intros I0 O Ha Hg; [done|]. apply Forall_cons in Ha as [Ha Hall].
    unfold consumer. simpl. apply wpC_bind. apply (wpC_mono _ idle).
    - destruct q; [done|by apply wp_mpop|by apply wp_mpopcopy].
    - intros _ I1 O1 gt un (-> & -> & Hg'). by apply IH.
  Qed.
End Spsc.

(** ** What is accepted: a prefix of every call's elements, in order *)
Definition accepted {T} (calls : list (list T)) (H : list T) : Prop :=
  ∃ accs, Forall2 prefix accs (take (length accs) calls) ∧ H = concat accs.

Section Top.
  Context {T : Type} (c : nat) (ix : Z → nat).
  Hypothesis Hc0 : c ≠ 0.
  Hypothesis Hc63 : (Z.of_nat c < 2 ^ 63)%Z.
  Hypothesis Hix : ∀ N, good c N → ix (u64 (Z.of_nat N)) = N mod c.
  Variable calls : list (list T).
  Hypothesis Hg : good c (length (concat calls)).
  Notation may_panic := (Exists (λ es, length es < c) calls).

  Lemma accepted_good H : accepted calls H → good c (length H).
  Proof.
    intros (accs & HF & ->). eapply good_le; [|exact Hg]. rewrite <-(take_drop (length accs) calls), concat_app, app_length.
    enough (length (concat accs) ≤ length (concat (take (length accs) calls))) by lia.
    induction HF as [|a es accs' l [r ->] _ IH]; [done|]. simpl. rewrite !app_length. lia.
  Qed.
  Lemma wp_producer todo : ∀ past accs O0, calls = past ++ todo → Forall2 prefix accs past → length (concat accs) ≤ O0 + c →
    wpP c (accepted calls) may_panic (producer c ix ((λ es, QMPush es []) <$> todo)) anyP (concat accs) O0 [].
  Proof.
    induction todo as [|es todo IH]; intros past accs O0 Hcalls HF Hle; [done|].
    assert (accepted calls (concat accs)) as Hacc.
    { exists accs. split; [|done]. rewrite (Forall2_length _ _ _ HF), Hcalls, take_app. done. }
    assert (∀ n, Forall2 prefix (accs ++ [take n es]) (past ++ [es])) as HF'.
    { intros n. apply Forall2_app; [done|]. constructor; [|done]. exists (drop n es). by rewrite take_drop. }
    assert (∀ n, concat (accs ++ [take n es]) = concat accs ++ take n es) as HE.
    { intros n. rewrite concat_app. simpl. by rewrite app_nil_r. }
    assert (calls = (past ++ [es]) ++ todo) as Hcalls' by (by rewrite <-app_assoc).
    unfold producer. cbn [fmap list_fmap seqn p_call]. apply wpP_bind. eapply wpP_mono; [apply wp_mpush; try done|].
    - by apply accepted_good.
    - intros n. exists (accs ++ [take n es]). split; [|by rewrite HE].
      rewrite (Forall2_length _ _ _ (HF' n)), Hcalls', take_app. apply HF'.
    - intros Hl. apply Exists_exists. exists es. split; [|done]. rewrite Hcalls. apply elem_of_app. right. left.
    - intros _ H1 O1 pend (-> & Hle1 & n & ->). rewrite <-HE. apply (IH (past ++ [es])); [done|done|by rewrite HE].
  Qed.

  Theorem spsc_bulk dv cs sched :
    Forall (λ q, match q with QPop => False | QMPop n | QMPopCopy n => 0 ≤ n end)%Z cs →
    let s := exec (init c ix dv ((λ es, QMPush es []) <$> calls) cs) sched in
    ∃ H, accepted calls H ∧ c_recv s `prefix_of` H ∧ m_in (c_mem s) = u64 (Z.of_nat (length H)) ∧ c_cons s ≠ PPanic ∧
      (∀ u, c_cons s = PRet u → m_in (c_mem s) = m_out (c_mem s) → c_recv s = H) ∧
      (c_prod s = PPanic → may_panic).
  Proof.
    intros Hcs s.
    destruct (Inv_exec c Hc0 (accepted calls) may_panic accepted_good sched
      (init c ix dv ((λ es, QMPush es []) <$> calls) cs) [] 0) as (H & O & HI).
    { split_and!; simpl; try done; try lia.
      - unfold make. rewrite replicate_length. lia.
      - exists []. by split; [constructor|].
      - exists 0, []. split_and!; simpl; try done; try lia. by apply (wp_producer calls [] [] 0); [|constructor|simpl; lia].
      - exists 0, [], []. split_and!; simpl; try done; try apply prefix_nil. eapply wp_consumer; try done; [exact (accepted calls)|by left]. }
    fold s in HI. destruct HI as (Hi & Ho & Hle & Hd & Hcell & Hleg & (O0 & pend & HO0 & Hfit & Hpc & HP) & (I0 & gt & un & HI0 & Hgt & Hpre & Hun & HC)).
    exists H. split_and!; try done.
    - exists (un ++ drop O H). by rewrite app_assoc, Hun, take_drop.
    - intros E. by rewrite E in HC.
    - intros u E Hio. rewrite E in HC. destruct HC as (-> & -> & _). rewrite app_nil_r in Hun. rewrite Hun. apply take_ge.
      assert (u64 (Z.of_nat (length H) - Z.of_nat O) = 0)%Z as E0.
      { unfold u64, wrap_u in *. rewrite Zminus_mod. rewrite <-Hi, <-Ho, Hio, Z.sub_diag. done. }
      rewrite u64_id in E0 by (unfold is_u64; lia). lia.
    - intros E. by rewrite E in HP.
  Qed.
End Top.
