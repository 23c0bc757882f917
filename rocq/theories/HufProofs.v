(** * C123: lemmas on the writing of bits *)
From stdpp Require Import list_numbers.
From Verif Require Import GoBase GoStr InflModel InflSpec InflHuff InflProofs InflMain InflProps LzModel LzSpec LzProofs LzProps HufModel HufSpec.
Local Open Scope Z_scope.

Lemma put_num_ok n v : 0 ≤ v < 2 ^ Z.of_nat n → is_num n v (put_num n v).
Proof.
  intros Hv. destruct (bits_of_code_ok n v Hv) as [H1 H2]. unfold bits_of_code in *. rewrite reverse_length in H1. split; [exact H1|]. by rewrite code_num_num, reverse_involutive in H2.
Qed.
Lemma each_ok {A B} (f : A → go B) (P : A → B → Prop) l : Forall (λ x, ∃ y, f x = Ret y ∧ P x y) l → ∃ r, each f l = Ret r ∧ Forall2 P l r.
Proof.
  induction 1 as [|x l (y & Hy & HP) _ (r & Hr & IH)]; [by exists []|]. cbn [each]. rewrite Hy. cbn [mbind go_bind]. rewrite Hr. cbn [mbind go_bind]. exists (y :: r). split; [done|by constructor].
Qed.
Lemma idx_some {A} (l : list A) i x : l !! i = Some x → idx l i = Ret x. Proof. intros E. unfold idx. by rewrite E. Qed.

(** ** frequencies *)
Lemma freqs_length n l : length (freqs n l) = n. Proof. unfold freqs. by rewrite fmap_length, seq_length. Qed.
Lemma freqs_lookup n l s : (s < n)%nat → freqs n l !! s = Some (Z.of_nat (length (filter (s =.) l))).
Proof. intros Hs. unfold freqs. rewrite list_lookup_fmap, lookup_seq_lt by done. done. Qed.
Lemma freqs_in n l s x : freqs n l !! s = Some x → s ∈ l → x ≠ 0.
Proof.
  intros E Hs. assert (s < n)%nat by (rewrite <- (freqs_length n l); by eapply lookup_lt_Some). rewrite freqs_lookup in E by done. injection E as <-. intros H0. assert (Hl : filter (s =.) l = []) by (destruct (filter (s =.) l); [done|cbn in H0; lia]).
  assert (s ∈ filter (s =.) l) as X by (by apply elem_of_list_filter). rewrite Hl in X. by apply elem_of_nil in X.
Qed.
Lemma freqs_nonneg n l : Forall (λ x, 0 ≤ x) (freqs n l).
Proof. apply Forall_fmap, Forall_forall. intros x _. cbn. lia. Qed.
Lemma sum_freqs n l : sum_Z (freqs n l) ≤ Z.of_nat (length l).
Proof.
  unfold freqs. assert (H : ∀ q, NoDup q → sum_Z ((λ s, Z.of_nat (length (filter (s =.) l))) <$> q) ≤ Z.of_nat (length l)); [|apply H, NoDup_seq].
  induction l as [|x l IH]; intros q Hq; [rewrite sum_map_0; [done|done]|].
  transitivity (sum_Z ((λ s, (if decide (s = x) then 1 else 0) + Z.of_nat (length (filter (s =.) l))) <$> q)).
  { apply sum_map_le. intros s _. rewrite filter_cons. destruct (decide (s = x)); cbn [length]; lia. }
  rewrite (sum_map_add (λ s, if decide (s = x) then 1 else 0) (λ s, Z.of_nat (length (filter (s =.) l)))) by done. specialize (IH q Hq). cbn [length].
  assert (Hc : sum_Z ((λ s, if decide (s = x) then 1 else 0) <$> q) ≤ 1); [|lia]. clear IH. induction Hq as [|y q Hy Hq IHq]; [done|]. rewrite fmap_cons, sum_cons. destruct (decide (y = x)) as [->|]; [|lia].
  rewrite sum_map_0; [lia|]. intros z Hz. destruct (decide (z = x)) as [->|]; done.
Qed.
Lemma sum_ge (f : list Z) s x : Forall (λ x, 0 ≤ x) f → f !! s = Some x → x ≤ sum_Z f.
Proof.
  intros Hf. revert s. induction Hf as [|y f Hy Hf IH]; intros s E; [done|]. rewrite sum_cons. assert (0 ≤ sum_Z f). { clear -Hf. induction Hf as [|z f Hz Hf IH]; [done|]. rewrite sum_cons. lia. } destruct s as [|s]; [injection E as <-; lia|]. apply IH in E. lia.
Qed.
Lemma used_ok n f : (used n f ≤ n)%nat ∧ ∀ s, (used n f ≤ s < n)%nat → nth s f 0 = 0.
Proof.
  induction n as [|n [IH1 IH2]]; cbn [used]; [split; [lia|intros s; lia]|]. destruct (Z.eqb_spec (nth n f 0) 0) as [E|E]; [|split; [lia|intros s; lia]]. split; [lia|]. intros s Hs. destruct (decide (s = n)) as [->|]; [done|]. apply IH2. lia.
Qed.
Lemma cg_used_ok n f : (cg_used n f ≤ n)%nat ∧ (4 ≤ n → 4 ≤ cg_used n f)%nat ∧ ∀ k, (cg_used n f ≤ k < n)%nat → nth (nth k codegen_order 0%nat) f 0 = 0.
Proof.
  induction n as [|n (IH1 & IH2 & IH3)]; cbn [cg_used]; [split_and!; [lia|lia|intros s; lia]|]. destruct (Nat.ltb_spec 4 (S n)); cbn [andb]; [|split_and!; [lia|lia|intros s; lia]]. destruct (Z.eqb_spec (nth (nth n codegen_order 0%nat) f 0) 0) as [E|E]; [|split_and!; [lia|lia|intros s; lia]].
  split_and!; [lia|lia|]. intros s Hs. destruct (decide (s = n)) as [->|]; [done|]. apply IH3. lia.
Qed.

(** ** the codes without the symbols at the end that do not occur *)
Lemma shorter_zeros L k n : shorter (L ++ replicate k 0%nat) n = shorter L n.
Proof. unfold shorter. rewrite fmap_app, sum_app. rewrite (sum_map_0 _ (replicate k 0%nat)); [lia|]. intros x Hx. apply elem_of_replicate_inv in Hx as ->. by destruct (decide _); [lia|]. Qed.
Lemma code_zeros L k s w : code_of (L ++ replicate k 0%nat) s w → (s < length L)%nat → code_of L s w.
Proof. intros (H1 & H2 & H3) Hs. rewrite shorter_zeros in H3. unfold same in H3. rewrite take_app_le in H3 by lia. rewrite lookup_app_l in H2 by lia. done. Qed.
Lemma usable_zeros L k : usable (L ++ replicate k 0%nat) → usable L.
Proof.
  intros [H1 H2]. apply Forall_app in H1 as [H1 _]. split; [done|]. destruct H2 as [H|[(s & Hs & Ht)|H]].
  - left. unfold full in *. rewrite fmap_app, sum_app in H. rewrite (sum_map_0 _ (replicate k 0%nat)) in H; [lia|]. intros x Hx. by apply elem_of_replicate_inv in Hx as ->.
  - right. left. assert (s < length L)%nat. { apply lookup_app_Some in Hs as [Hs|[_ Hs]]; [by eapply lookup_lt_Some|]. apply lookup_replicate_1 in Hs as [? _]. done. } rewrite lookup_app_l in Hs by done. exists s. split; [done|]. intros t n E. apply Ht. by apply lookup_app_l_Some.
  - right. right. by apply Forall_app in H as [H _].
Qed.
(** what the tables of a block are: [n] symbols of them are announced *)
Lemma cut_codes f max cs n : codes_for f max cs → (n ≤ length f)%nat → (∀ s, (n ≤ s < length f)%nat → nth s f 0 = 0) →
  let L := take n (length <$> cs) in length L = n ∧ usable L ∧ Forall (λ n, n ≤ max)%nat L ∧ ∀ s x, f !! s = Some x → x ≠ 0 → ∃ w, cs !! s = Some w ∧ code_of L s w.
Proof.
  intros (H1 & H2 & H3 & H4) Hn Hz L. set (lens := length <$> cs) in *. assert (Hl : length lens = length f) by (unfold lens; by rewrite fmap_length).
  assert (E : lens = L ++ replicate (length f - n) 0%nat).
  { rewrite <- (take_drop n lens) at 1. unfold L. f_equal. apply list_eq. intros i. destruct (decide (i < length f - n)%nat) as [Hi|Hi].
    - rewrite lookup_replicate_2 by done. rewrite lookup_drop. destruct (lookup_lt_is_Some_2 cs (n + i)) as [w Hw]; [lia|]. unfold lens. rewrite list_lookup_fmap, Hw. cbn. destruct (lookup_lt_is_Some_2 f (n + i)) as [x Hx]; [lia|]. destruct (H4 _ _ _ Hw Hx) as [H5 _]. rewrite H5; [done|]. erewrite <- (nth_lookup_Some f (n + i) 0 x) by done. apply Hz. lia.
    - rewrite !lookup_ge_None_2; [done|rewrite replicate_length; lia|rewrite drop_length; lia]. }
  assert (HL : length L = n) by (unfold L; rewrite take_length; lia). split; [done|]. split; [rewrite E in H3; by eapply usable_zeros|]. split; [by apply Forall_take|].
  intros s x Hx Hx0. destruct (lookup_lt_is_Some_2 cs s) as [w Hw]; [rewrite H1; by eapply lookup_lt_Some|]. exists w. split; [done|]. destruct (H4 _ _ _ Hw Hx) as [_ H5]. specialize (H5 Hx0). rewrite E in H5. eapply code_zeros; [exact H5|]. rewrite HL. destruct (decide (s < n)%nat); [done|]. exfalso. apply Hx0. erewrite <- (nth_lookup_Some f s 0 x) by done. apply Hz. split; [lia|by eapply lookup_lt_Some].
Qed.

(** ** the tables of token.go *)
Definition len_check (x : nat) : bool :=
  match length_codes !! x with
  | Some k => match length_extra !! k, length_base !! k, len_rows !! k with
      | Some n, Some b, Some (b', n') => (b' =? b + 3) && (n =? n')%nat && (0 <=? Z.of_nat x - b) && (Z.of_nat x - b <? 2 ^ Z.of_nat n)
      | _, _, _ => false end
  | None => false end.
Lemma length_code_ok x : 0 ≤ x < 256 → ∃ k n b, length_code x = Ret k ∧ (k < 29)%nat ∧ length_extra !! k = Some n ∧ length_base !! k = Some b ∧ len_rows !! k = Some (b + 3, n) ∧ 0 ≤ x - b < 2 ^ Z.of_nat n.
Proof.
  intros Hx. assert (H : forallb len_check (seq 0 256) = true) by (by vm_compute). rewrite forallb_forall in H. specialize (H (Z.to_nat x)). assert (Hin : In (Z.to_nat x) (seq 0 256)) by (apply in_seq; lia). specialize (H Hin). unfold len_check in H. unfold length_code.
  destruct (length_codes !! Z.to_nat x) as [k|] eqn:Ek; [|done]. rewrite (idx_some _ _ _ Ek). destruct (length_extra !! k) as [n|] eqn:En; [|done]. destruct (length_base !! k) as [b|] eqn:Eb; [|done]. destruct (len_rows !! k) as [[b' n']|] eqn:Er; [|done].
  rewrite !andb_true_iff, Z.eqb_eq, Nat.eqb_eq, Z.leb_le, Z.ltb_lt in H. destruct H as (((-> & ->) & H1) & H2). exists k, n', b. split_and!; try done; try lia. apply lookup_lt_Some in En. exact En.
Qed.
Definition off_check (o : Z) : bool :=
  match offset_code o with
  | Ret k => match offset_extra !! k, offset_base !! k, dist_rows !! k with
      | Some n, Some b, Some (b', n') => (b' =? b + 1) && (n =? n')%nat && (0 <=? o - b) && (o - b <? 2 ^ Z.of_nat n)
      | _, _, _ => false end
  | _ => false end.
Fixpoint upto (n : nat) (i : Z) (f : Z → bool) : bool := match n with O => true | S n => f i && upto n (i + 1) f end.
Lemma upto_ok n f : ∀ i, upto n i f = true → ∀ j, i ≤ j < i + Z.of_nat n → f j = true.
Proof. induction n as [|n IH]; intros i H j Hj; [lia|]. cbn [upto] in H. apply andb_true_iff in H as [H1 H2]. destruct (decide (j = i)) as [->|]; [done|]. apply (IH _ H2). lia. Qed.
Lemma offset_code_ok o : 0 ≤ o < 32768 → ∃ k n b, offset_code o = Ret k ∧ (k < 30)%nat ∧ offset_extra !! k = Some n ∧ offset_base !! k = Some b ∧ dist_rows !! k = Some (b + 1, n) ∧ 0 ≤ o - b < 2 ^ Z.of_nat n.
Proof.
  intros Ho. assert (H : upto (Z.to_nat 32768) 0 off_check = true) by (by vm_compute). assert (Hc : off_check o = true) by (apply (upto_ok _ _ _ H); lia). clear H. unfold off_check in Hc.
  destruct (offset_code o) as [k| |]; [|done..]. destruct (offset_extra !! k) as [n|] eqn:En; [|done]. destruct (offset_base !! k) as [b|] eqn:Eb; [|done]. destruct (dist_rows !! k) as [[b' n']|] eqn:Er; [|done].
  rewrite !andb_true_iff, Z.eqb_eq, Nat.eqb_eq, Z.leb_le, Z.ltb_lt in Hc. destruct Hc as (((-> & ->) & H1) & H2). exists k, n', b. split_and!; try done; try lia. apply lookup_lt_Some in En. exact En.
Qed.

(** ** tokens *)
Lemma put_extra n v : 0 ≤ v < 2 ^ Z.of_nat n → is_num n v (if (0 <? n)%nat then put_num n v else []).
Proof. intros Hv. destruct (Nat.ltb_spec 0 n); [by apply put_num_ok|]. assert (n = 0%nat) as -> by lia. split; [done|]. cbn in *. lia. Qed.
Lemma write_token_ok L D le oe t : token_ok t → (∀ s, lit_sym t = Ret s → ∃ w, le !! s = Some w ∧ code_of L s w) → (∀ s l, off_syms t = Ret l → s ∈ l → ∃ w, oe !! s = Some w ∧ code_of D s w) →
  ∃ w, write_token le oe t = Ret w ∧ item_bits L D (item_of t) w.
Proof.
  intros Ht Hl Ho. destruct t as [c|x o]; cbn [token_ok lit_sym off_syms write_token item_of item_bits] in *.
  - destruct (Hl _ eq_refl) as (w & Hw & Hc). exists w. split; [by apply idx_some|done].
  - destruct Ht as [Hx Hof]. destruct (length_code_ok x) as (k & n & b & E1 & E2 & E3 & E4 & E5 & E6); [lia|]. destruct (offset_code_ok o Hof) as (k' & n' & b' & F1 & F2 & F3 & F4 & F5 & F6).
    rewrite E1 in *. rewrite F1 in *. cbn [mbind go_bind] in *. destruct (Hl _ eq_refl) as (w & Hw & Hc). destruct (Ho k' _ eq_refl) as (w' & Hw' & Hc'); [by apply elem_of_list_singleton|].
    rewrite (Nat.add_comm k 257). rewrite (idx_some _ _ _ Hw), (idx_some _ _ _ E3), (idx_some _ _ _ E4), (idx_some _ _ _ Hw'), (idx_some _ _ _ F3), (idx_some _ _ _ F4). cbn [mbind go_bind]. eexists. split; [reflexivity|].
    destruct (put_extra n (x - b) E6) as [P1 P2]. destruct (put_extra n' (o - b') F6) as [Q1 Q2].
    eexists (w ++ _), (w' ++ _). split_and!; [|..|by rewrite <- app_assoc].
    + exists k, (b + 3), n, w. eexists. split_and!; [done|done|exact P1|rewrite P2; lia|done].
    + exists k', (b' + 1), n', w'. eexists. split_and!; [done|done|exact Q1|rewrite Q2; lia|done].
Qed.
Lemma syms_ok ts : Forall token_ok ts → ∃ ls os, each lit_sym ts = Ret ls ∧ each off_syms ts = Ret os ∧ length ls = length ts ∧ (length (mjoin os) ≤ length ts)%nat ∧
  Forall (λ s, s < 286)%nat ls ∧ Forall (λ s, s < 30)%nat (mjoin os) ∧ Forall (λ t, (∀ s, lit_sym t = Ret s → s ∈ ls) ∧ ∀ s l, off_syms t = Ret l → s ∈ l → s ∈ mjoin os) ts.
Proof.
  induction 1 as [|t ts Ht _ (ls & os & E1 & E2 & E3 & E4 & E5 & E6 & E7)]; [exists [], []; split_and!; by (constructor || done)|].
  assert (∃ s l, lit_sym t = Ret s ∧ off_syms t = Ret l ∧ (s < 286)%nat ∧ (length l ≤ 1)%nat ∧ Forall (λ s, s < 30)%nat l) as (s & l & F1 & F2 & F3 & F4 & F5).
  { destruct t as [c|x o]; cbn [token_ok lit_sym off_syms] in *.
    - exists (Z.to_nat c), []. split_and!; try done; cbn; lia.
    - destruct Ht as [Hx Hof]. destruct (length_code_ok x) as (k & n & b & G1 & G2 & _); [lia|]. destruct (offset_code_ok o Hof) as (k' & n' & b' & G3 & G4 & _). rewrite G1, G3. cbn [mbind go_bind]. exists (257 + k)%nat, [k']. split_and!; [done|done|lia|done|]. apply Forall_cons. split; [done|by apply Forall_nil]. }
  exists (s :: ls), (l :: os). cbn [each]. rewrite F1, F2, E1, E2. cbn [mbind go_bind mjoin list_join length]. split_and!; [done|done|lia|change (length (l ++ mjoin os) ≤ S (length ts))%nat; rewrite app_length; lia|by constructor|change (Forall (λ s, s < 30)%nat (l ++ mjoin os)); by apply Forall_app|].
  constructor.
  - split; [intros s' E; rewrite F1 in E; injection E as <-; by left|]. intros s' l' E X. rewrite F2 in E. injection E as <-. change (s' ∈ l ++ mjoin os). apply elem_of_app. by left.
  - eapply Forall_impl; [exact E7|]. intros t' [X Y]. split; [intros s' Hs'; right; by apply X|]. intros s' l' Hl' Hs'. change (s' ∈ l ++ mjoin os). apply elem_of_app. right. by eapply Y.
Qed.
Lemma write_tokens_ok L D le oe ts (ls : list nat) (os : list (list nat)) e : Forall token_ok ts → Forall (λ t, (∀ s, lit_sym t = Ret s → s ∈ ls) ∧ ∀ s l, off_syms t = Ret l → s ∈ l → s ∈ mjoin os) ts →
  (∀ s, s ∈ ls → ∃ w, le !! s = Some w ∧ code_of L s w) → (∀ s, s ∈ mjoin os → ∃ w, oe !! s = Some w ∧ code_of D s w) → le !! 256%nat = Some e → code_of L 256 e →
  ∃ w, write_tokens le oe ts = Ret w ∧ items_bits L D (item_of <$> ts) w.
Proof.
  intros Ht Hs Hl Ho He Hc. unfold write_tokens. destruct (each_ok (write_token le oe) (λ t w, item_bits L D (item_of t) w) ts) as (ws & -> & Hws).
  { rewrite Forall_forall in *. intros t Hin. destruct (Hs t Hin) as [H1 H2]. apply write_token_ok; [by apply Ht|intros s E; by apply Hl, H1|intros s l E Hsl; by eapply Ho, H2]. }
  cbn [mbind go_bind]. rewrite (idx_some _ _ _ He). cbn [mbind go_bind]. eexists. split; [reflexivity|]. exists ws, e. split_and!; [by apply Forall2_fmap_l|done|done].
Qed.

(** ** the fixed codes *)
Definition code_check (lens : list nat) (s : nat) (w : list bool) : bool :=
  (0 <? length w)%nat && bool_decide (lens !! s = Some (length w)) && (code_num w =? shorter lens (length w) + same lens (length w) s).
Lemma code_check_ok lens s w : code_check lens s w = true → code_of lens s w.
Proof. unfold code_check. rewrite !andb_true_iff, Nat.ltb_lt, bool_decide_eq_true, Z.eqb_eq. intros [[H1 H2] H3]. split_and!; [by destruct w; [cbn in H1; lia|]|done|done]. Qed.
Lemma fixed_lit_ok s : (s < 286)%nat → ∃ w, fixed_lits !! s = Some w ∧ code_of fixed_L s w.
Proof.
  intros Hs. exists (fixed_lit s). split; [unfold fixed_lits; by rewrite list_lookup_fmap, lookup_seq_lt|]. apply code_check_ok. assert (H : forallb (λ s, code_check fixed_L s (fixed_lit s)) (seq 0 286) = true) by (by vm_compute). rewrite forallb_forall in H. apply H, in_seq. lia.
Qed.
Lemma fixed_off_ok s : (s < 30)%nat → ∃ w, fixed_offs !! s = Some w ∧ code_of fixed_D s w.
Proof.
  intros Hs. eexists. split; [unfold fixed_offs; rewrite list_lookup_fmap, lookup_seq_lt by done; reflexivity|]. apply code_check_ok. assert (H : forallb (λ s, code_check fixed_D s (rev_bits 5 (Z.of_nat s))) (seq 0 30) = true) by (by vm_compute). rewrite forallb_forall in H. apply H, in_seq. lia.
Qed.

(** ** the lengths of the codes, with repetitions *)
Lemma runs_trans C l l1 l2 w1 w2 : runs C l l1 w1 → runs C l1 l2 w2 → runs C l l2 (w1 ++ w2).
Proof. induction 1; intros X; rewrite <- ?app_assoc; [done|eapply runs_len; eauto|eapply runs_prev; eauto|eapply runs_zero; eauto|eapply runs_zeros; eauto]. Qed.
Definition cg_bits (ce : list (list bool)) (p : nat * Z) : list bool := default [] (ce !! p.1) ++ put_num (cg_extra p.1) p.2.
Definition all_bits (ce : list (list bool)) (cg : list (nat * Z)) : list bool := mjoin (cg_bits ce <$> cg).
Definition coded_by (C : list nat) (ce : list (list bool)) (cg : list (nat * Z)) : Prop := Forall (λ p : nat * Z, code_of C p.1 (default [] (ce !! p.1))) cg.
Lemma plain_runs C ce size count l : (size < 16)%nat → coded_by C ce (replicate count (size, 0)) → runs C l (l ++ replicate count size) (all_bits ce (replicate count (size, 0))).
Proof.
  intros Hs. revert l. induction count as [|n IH]; intros l Hc; [rewrite app_nil_r; constructor|]. inversion_clear Hc as [|? ? Hp Hc']. unfold all_bits. cbn [replicate fmap list_fmap mjoin list_join]. unfold cg_bits at 1. cbn [fst snd] in *.
  assert (cg_extra size = 0)%nat as -> by (do 16 (destruct size as [|size]; [done|]); lia). cbn [put_num seq fmap list_fmap]. change (put_num 0 0) with (@nil bool). rewrite app_nil_r. eapply runs_len; [done|done|]. replace (l ++ size :: replicate n size) with ((l ++ [size]) ++ replicate n size) by by rewrite <- app_assoc. by apply IH.
Qed.
Lemma again_runs C ce size : (size < 16)%nat → ∀ fuel count l, (count < fuel)%nat → last l = Some size → coded_by C ce (again fuel size count) → runs C l (l ++ replicate count size) (all_bits ce (again fuel size count)).
Proof.
  intros Hs. induction fuel as [|k IH]; intros count l Hf Hl Hc; [lia|]. cbn [again] in *. destruct (Nat.leb_spec 3 count) as [H3|H3]; [|by apply plain_runs]. cbv zeta in *. set (n := Nat.min 6 count) in *. inversion_clear Hc as [|? ? Hp Hc']. cbn [fst] in Hp.
  unfold all_bits. cbn [fmap list_fmap mjoin list_join]. unfold cg_bits at 1. cbn [fst snd cg_extra]. rewrite <- app_assoc. destruct (put_num_ok 2 (Z.of_nat n - 3)) as [P1 P2]; [change (2 ^ Z.of_nat 2) with 4; lia|]. eapply runs_prev; [exact Hp|exact P1|exact Hl|]. rewrite P2. replace (3 + Z.to_nat (Z.of_nat n - 3))%nat with n by lia.
  replace (replicate count size) with (replicate n size ++ replicate (count - n) size) by (rewrite <- replicate_add; f_equal; lia). rewrite app_assoc. apply IH; [lia| |done]. rewrite last_app. replace n with (S (n - 1)) by lia. by rewrite replicate_S_end, last_snoc.
Qed.
Lemma zeros_runs C ce : ∀ fuel count l, (count < fuel)%nat → coded_by C ce (zeros fuel count) → runs C l (l ++ replicate count 0%nat) (all_bits ce (zeros fuel count)).
Proof.
  induction fuel as [|k IH]; intros count l Hf Hc; [lia|]. cbn [zeros] in *. destruct (Nat.leb_spec 11 count) as [H11|H11].
  - cbv zeta in *. set (n := Nat.min 138 count) in *. inversion_clear Hc as [|? ? Hp Hc']. cbn [fst] in Hp. unfold all_bits. cbn [fmap list_fmap mjoin list_join]. unfold cg_bits at 1. cbn [fst snd cg_extra]. rewrite <- app_assoc. destruct (put_num_ok 7 (Z.of_nat n - 11)) as [P1 P2]; [change (2 ^ Z.of_nat 7) with 128; lia|].
    eapply runs_zeros; [exact Hp|exact P1|]. rewrite P2. replace (11 + Z.to_nat (Z.of_nat n - 11))%nat with n by lia. replace (replicate count 0%nat) with (replicate n 0%nat ++ replicate (count - n) 0%nat) by (rewrite <- replicate_add; f_equal; lia). rewrite app_assoc. apply IH; [lia|done].
  - destruct (Nat.leb_spec 3 count) as [H3|H3]; [|apply plain_runs; [lia|done]]. inversion_clear Hc as [|? ? Hp _]. cbn [fst] in Hp. unfold all_bits. cbn [fmap list_fmap mjoin list_join]. rewrite app_nil_r. unfold cg_bits. cbn [fst snd cg_extra]. destruct (put_num_ok 3 (Z.of_nat count - 3)) as [P1 P2]; [change (2 ^ Z.of_nat 3) with 8; lia|].
    rewrite <- (app_nil_r (put_num _ _)). eapply runs_zero; [exact Hp|exact P1|]. rewrite P2. replace (3 + Z.to_nat (Z.of_nat count - 3))%nat with count by lia. constructor.
Qed.
Lemma mjoin_app {A} (a b : list (list A)) : mjoin (a ++ b) = mjoin a ++ mjoin b.
Proof. induction a as [|x a IH]; [done|]. cbn. rewrite <- app_assoc. f_equal. exact IH. Qed.
Lemma run_of_runs C ce size count l : (size < 16)%nat → (0 < count)%nat → coded_by C ce (run_of size count) → runs C l (l ++ replicate count size) (all_bits ce (run_of size count)).
Proof.
  intros Hs Hc0 Hc. unfold run_of in *. destruct (Nat.eqb_spec size 0) as [->|_]; [apply zeros_runs; [lia|done]|]. inversion_clear Hc as [|? ? Hp Hc']. destruct count as [|n]; [lia|]. replace (S n - 1)%nat with n in * by lia.
  change ((size, 0) :: again (S (S n)) size n) with (replicate 1 (size, 0) ++ again (S (S n)) size n). unfold all_bits. rewrite fmap_app, mjoin_app. eapply runs_trans; [apply (plain_runs C ce size 1 l Hs); apply Forall_cons; split; [exact Hp|by apply Forall_nil]|]. cbn [replicate]. replace (l ++ size :: replicate n size) with ((l ++ [size]) ++ replicate n size) by by rewrite <- app_assoc.
  apply again_runs; [done|lia|by rewrite last_snoc|done].
Qed.
Lemma codegen_from_runs C ce : ∀ rest size count l, (size < 16)%nat → (0 < count)%nat → Forall (λ n, n < 16)%nat rest → coded_by C ce (codegen_from size count rest) → runs C l (l ++ replicate count size ++ rest) (all_bits ce (codegen_from size count rest)).
Proof.
  induction rest as [|next rest IH]; intros size count l Hs Hc0 Hr Hc; cbn [codegen_from] in *; [rewrite app_nil_r; by apply run_of_runs|]. inversion_clear Hr as [|? ? Hn Hr']. destruct (Nat.eqb_spec next size) as [->|].
  - replace (replicate count size ++ size :: rest) with (replicate (S count) size ++ rest); [apply IH; [done|lia|done|done]|]. rewrite replicate_S_end. by rewrite <- app_assoc.
  - apply Forall_app in Hc as [H1 H2]. unfold all_bits. rewrite fmap_app, mjoin_app. eapply runs_trans; [by apply run_of_runs|]. rewrite app_assoc. apply (IH next 1%nat); [done|lia|done|done].
Qed.
Lemma codegen_runs C ce lens : Forall (λ n, n < 16)%nat lens → coded_by C ce (codegen lens) → runs C [] lens (all_bits ce (codegen lens)).
Proof. destruct lens as [|size rest]; [constructor|]. intros H Hc. inversion_clear H. apply (codegen_from_runs C ce rest size 1 []); [done|lia|done|done]. Qed.
Lemma again_bounds size fuel count : (size < 19)%nat → (count < fuel)%nat → (length (again fuel size count) ≤ count)%nat ∧ Forall (λ p : nat * Z, p.1 < 19)%nat (again fuel size count).
Proof.
  intros Hs. revert count. induction fuel as [|k IH]; intros count Hf; [lia|]. cbn [again]. destruct (Nat.leb_spec 3 count) as [H3|H3]; [|rewrite replicate_length; split; [lia|by apply Forall_replicate]]. cbv zeta. set (n := Nat.min 6 count). destruct (IH (count - n)%nat) as [H1 H2]; [lia|]. cbn [length]. split; [lia|]. constructor; [cbn; lia|done].
Qed.
Lemma zeros_bounds fuel count : (count < fuel)%nat → (length (zeros fuel count) ≤ count)%nat ∧ Forall (λ p : nat * Z, p.1 < 19)%nat (zeros fuel count).
Proof.
  revert count. induction fuel as [|k IH]; intros count Hf; [lia|]. cbn [zeros]. destruct (Nat.leb_spec 11 count) as [H11|H11]; [cbv zeta; set (n := Nat.min 138 count); destruct (IH (count - n)%nat) as [H1 H2]; [lia|]; cbn [length]; split; [lia|]; constructor; [cbn; lia|done]|].
  destruct (Nat.leb_spec 3 count) as [H3|H3]; [split; [cbn; lia|constructor; [cbn; lia|done]]|]. rewrite replicate_length. split; [lia|]. apply Forall_replicate. cbn. lia.
Qed.
Lemma run_of_bounds size count : (size < 19)%nat → (0 < count)%nat → (length (run_of size count) ≤ count)%nat ∧ Forall (λ p : nat * Z, p.1 < 19)%nat (run_of size count).
Proof.
  intros Hs Hc. unfold run_of. destruct (Nat.eqb_spec size 0); [apply zeros_bounds; lia|]. destruct (again_bounds size (S count) (count - 1)) as [H1 H2]; [done|lia|]. cbn [length]. split; [lia|by constructor].
Qed.
Lemma codegen_bounds lens : Forall (λ n, n < 16)%nat lens → (length (codegen lens) ≤ length lens)%nat ∧ Forall (λ p : nat * Z, p.1 < 19)%nat (codegen lens) ∧ (lens ≠ [] → codegen lens ≠ []).
Proof.
  destruct lens as [|size rest]; [intros _; split_and!; [done|by apply Forall_nil|done]|]. intros H. inversion_clear H as [|? ? Hs Hr]. cbn [codegen].
  assert (G : ∀ count, (0 < count)%nat → (length (codegen_from size count rest) ≤ count + length rest)%nat ∧ Forall (λ p : nat * Z, p.1 < 19)%nat (codegen_from size count rest) ∧ codegen_from size count rest ≠ []); [|destruct (G 1%nat) as (G1 & G2 & G3); [lia|]; done].
  assert (Hne : ∀ size count, (0 < count)%nat → run_of size count ≠ []). { intros s c Hc. unfold run_of. destruct (_ =? _)%nat; [|done]. cbn [zeros]. destruct (_ <=? _)%nat; [done|]. destruct (_ <=? _)%nat; [done|]. by destruct c; [lia|]. }
  revert size Hs. induction Hr as [|next rest Hn Hr IH]; intros size Hs count Hc; cbn [codegen_from length].
  - destruct (run_of_bounds size count) as [H1 H2]; [lia|done|]. split_and!; [lia|done|by apply Hne].
  - destruct (Nat.eqb_spec next size) as [->|]; [destruct (IH size Hs (S count)) as (H1 & H2 & H3); [lia|]; split_and!; [lia|done|done]|]. destruct (run_of_bounds size count) as [H1 H2]; [lia|done|]. destruct (IH next Hn 1%nat) as (H3 & H4 & H5); [lia|]. rewrite app_length. split_and!; [lia|by apply Forall_app|]. intros X. apply app_eq_nil in X as [_ X]. done.
Qed.

(** ** blocks *)
Lemma header3 v : 0 ≤ v < 8 → put_num 3 v = [Z.testbit v 0; Z.testbit v 1; Z.testbit v 2]. Proof. done. Qed.
Lemma pad_ok pos : (length (pad_for pos) < 8)%nat ∧ (pos + Z.of_nat (length (pad_for pos))) mod 8 = 0.
Proof.
  unfold pad_for. rewrite replicate_length. pose proof (Z.mod_pos_bound (- pos) 8 ltac:(lia)). split; [lia|]. rewrite Z2Nat.id by lia. rewrite Z.add_mod_idemp_r by lia. by replace (pos + - pos) with 0 by lia.
Qed.
Lemma stored_ok pos n eof d : n = Z.of_nat (length d) → n ≤ 65535 → ∃ w, stored_header pos n eof ++ (d ≫= byte_seq) = eof :: w ∧ stored_bits (pos + 1) d w.
Proof.
  intros -> Hn. eexists. split; [unfold stored_header; rewrite header3 by (by destruct eof); instantiate (1 := [false; false] ++ pad_for (pos + 3) ++ put_num 16 (Z.of_nat (length d)) ++ put_num 16 (65535 - Z.of_nat (length d)) ++ (d ≫= byte_seq)); rewrite <- !app_assoc; by destruct eof|].
  destruct (pad_ok (pos + 3)) as [P1 P2]. eexists _, _, _. split_and!; [exact P1|by replace (pos + 1 + 2) with (pos + 3) by lia|apply put_num_ok|apply put_num_ok|done]; change (2 ^ Z.of_nat 16) with 65536; lia.
Qed.
Lemma fmap_of {A B} (f : A → B) l r : Forall2 (λ p b, b = f p) l r → r = f <$> l.
Proof. induction 1 as [|p b l l' -> _ IH]; [done|]. rewrite fmap_cons. by f_equal. Qed.
Section gen.
  Context (gen : list Z → nat → go (list (list bool))) (Hgen : gen_ok gen).
  Lemma dynamic_ok L D lf of le oe nl no : codes_for lf 15 le → codes_for of 15 oe → length lf = 286%nat → length of = 30%nat → (257 ≤ nl ≤ 286)%nat → (1 ≤ no ≤ 30)%nat →
    (∀ s, (nl ≤ s < 286)%nat → nth s lf 0 = 0) → (∀ s, (no ≤ s < 30)%nat → nth s of 0 = 0) → L = take nl (length <$> le) → D = take no (length <$> oe) →
    let cg := codegen (L ++ D) in let cf := freqs 19 (cg.*1) in ∃ ce w, gen cf 7 = Ret ce ∧ dynamic_header nl no (cg_used 19 cf) cg ce = Ret (false :: [false; true] ++ w) ∧ trees L D w.
  Proof.
    intros Hl Ho Hll Hlo Hnl Hno Hzl Hzo EL ED cg cf. destruct (cut_codes lf 15 le nl Hl ltac:(lia) ltac:(by rewrite Hll)) as (A1 & A2 & A3 & A4). destruct (cut_codes of 15 oe no Ho ltac:(lia) ltac:(by rewrite Hlo)) as (B1 & B2 & B3 & B4). rewrite <- EL in *. rewrite <- ED in *.
    assert (H16 : Forall (λ n, n < 16)%nat (L ++ D)) by (apply Forall_app; split; (eapply Forall_impl; [done|]; intros ? X; cbn in X; lia)). destruct (codegen_bounds (L ++ D) H16) as (C1 & C2 & C3). fold cg in C1, C2, C3.
    assert (Hcgne : cg ≠ []) by (apply C3; destruct L; cbn in A1; [lia|done]). rewrite app_length, A1, B1 in C1.
    assert (Hin : ∀ p, p ∈ cg → ∃ x, cf !! p.1 = Some x ∧ x ≠ 0).
    { intros p Hp. rewrite Forall_forall in C2. specialize (C2 p Hp). destruct (lookup_lt_is_Some_2 cf p.1) as [x Hx]; [unfold cf; by rewrite freqs_length|]. exists x. split; [done|]. eapply freqs_in; [exact Hx|]. by apply elem_of_list_fmap_1. }
    assert (Hc : ∃ ce, gen cf 7 = Ret ce ∧ codes_for cf 7 ce).
    { apply Hgen; [lia|unfold cf; rewrite freqs_length; by vm_compute|apply freqs_nonneg|]. split.
      - destruct cg as [|p cg'] eqn:Ecg; [done|]. destruct (Hin p) as (x & Hx & Hx0); [by left|]. assert (0 ≤ x). { pose proof (freqs_nonneg 19 ((p :: cg').*1)) as Y. rewrite Forall_forall in Y. apply Y. by eapply elem_of_list_lookup_2. } pose proof (sum_ge _ _ _ (freqs_nonneg 19 ((p :: cg').*1)) Hx). unfold cf. lia.
      - pose proof (sum_freqs 19 (cg.*1)) as X. rewrite fmap_length in X. fold cf in X. lia. }
    destruct Hc as (ce & Ece & D1 & D2 & D3 & D4). exists ce. set (C := length <$> ce) in *. unfold cf in D1. rewrite freqs_length in D1.
    assert (Hcode : ∀ p, p ∈ cg → ∃ w, ce !! p.1 = Some w ∧ code_of C p.1 w).
    { intros p Hp. destruct (Hin p Hp) as (x & Hx & Hx0). destruct (lookup_lt_is_Some_2 ce p.1) as [w Hw]; [rewrite D1, <- (freqs_length 19 (cg.*1)); by eapply lookup_lt_Some|]. exists w. split; [done|]. by eapply D4. }
    destruct (cg_used_ok 19 cf) as (U1 & U2 & U3). specialize (U2 ltac:(lia)). set (k := cg_used 19 cf) in *.
    assert (Hce : ∀ o, o ∈ codegen_order → ∃ w, ce !! o = Some w ∧ (length w < 8)%nat).
    { intros o Hoo. apply order_perm in Hoo. destruct (lookup_lt_is_Some_2 ce o) as [w Hw]; [lia|]. exists w. split; [done|]. rewrite Forall_forall in D2. assert (length w ∈ C) by (unfold C; apply elem_of_list_fmap; exists w; split; [done|by eapply elem_of_list_lookup_2]). specialize (D2 _ H). cbn in D2. lia. }
    unfold dynamic_header. destruct (each_ok (λ o, w ← idx ce o; Ret (put_num 3 (Z.of_nat (length w)))) (λ o b, ∃ n, C !! o = Some n ∧ is_num 3 (Z.of_nat n) b) (take k codegen_order)) as (ls & -> & Hls).
    { apply Forall_forall. intros o Hoo. destruct (Hce o) as (w & Hw & Hlw); [apply elem_of_take in Hoo as (i & Hi & _); by eapply elem_of_list_lookup_2|]. rewrite (idx_some _ _ _ Hw). cbn [mbind go_bind]. eexists. split; [reflexivity|]. exists (length w). split; [unfold C; by rewrite list_lookup_fmap, Hw|]. apply put_num_ok. change (2 ^ Z.of_nat 3) with 8. lia. }
    destruct (each_ok (λ p : nat * Z, w ← idx ce p.1; Ret (w ++ put_num (cg_extra p.1) p.2)) (λ p b, b = cg_bits ce p) cg) as (cs & -> & Hcs).
    { apply Forall_forall. intros p Hp. destruct (Hcode p Hp) as (w & Hw & _). rewrite (idx_some _ _ _ Hw). cbn [mbind go_bind]. eexists. split; [reflexivity|]. unfold cg_bits. by rewrite Hw. }
    cbn [mbind go_bind]. eexists. split; [exact Ece|]. split; [reflexivity|]. split_and!; [lia|lia|lia|lia|done|done|].
    eexists C, k, _, _, _, (mjoin ls), (mjoin cs). split_and!; [done|lia|lia|..|reflexivity].
    - rewrite A1. apply put_num_ok. change (2 ^ Z.of_nat 5) with 32. lia.
    - rewrite B1. apply put_num_ok. change (2 ^ Z.of_nat 5) with 32. lia.
    - apply put_num_ok. change (2 ^ Z.of_nat 4) with 16. lia.
    - split; [unfold C; by rewrite fmap_length|]. exists ls. split_and!; [done|exact Hls|]. apply Forall_lookup_2. intros i o Ei. rewrite lookup_drop in Ei. assert (Hi : (k + i < 19)%nat) by (by apply lookup_lt_Some in Ei). specialize (U3 (k + i)%nat ltac:(lia)). change clen_order with codegen_order in Ei. rewrite (nth_lookup_Some _ _ _ _ Ei) in U3.
      destruct (Hce o) as (w & Hw & _); [by eapply elem_of_list_lookup_2|]. destruct (lookup_lt_is_Some_2 cf o) as [x Hx]; [unfold cf; rewrite freqs_length, <- D1; by eapply lookup_lt_Some|]. rewrite (nth_lookup_Some _ _ _ _ Hx) in U3. destruct (D4 _ _ _ Hw Hx) as [D5 _]. unfold C. rewrite list_lookup_fmap, Hw. cbn. by rewrite D5.
    - apply fmap_of in Hcs as ->. apply (codegen_runs C ce (L ++ D) H16). apply Forall_forall. intros p Hp. destruct (Hcode p Hp) as (w & Hw & Hc). by rewrite Hw.
  Qed.
  Lemma write_bits_ok pos ts input o o' : block_ok o ts input o' → ∃ w, write_bits gen pos ts input = Ret (false :: w) ∧ block_bits (pos + 1) ts input w.
  Proof.
    intros (Hne & Hlen & Htok & _ & _). destruct (syms_ok ts Htok) as (ls & os & E1 & E2 & E3 & E4 & E5 & E6 & E7). unfold write_bits. rewrite E1, E2. cbn [mbind go_bind]. set (lf := freqs 286 (ls ++ [256%nat])). set (of0 := freqs 30 (mjoin os)).
    assert (Hlf : (∃ le, gen lf 15 = Ret le ∧ codes_for lf 15 le) ∧ ∀ s, s ∈ ls ++ [256%nat] → ∃ x, lf !! s = Some x ∧ x ≠ 0).
    { assert (X : ∀ s, s ∈ ls ++ [256%nat] → ∃ x, lf !! s = Some x ∧ x ≠ 0).
      { intros s Hs. assert (s < 286)%nat. { apply elem_of_app in Hs as [Hs|Hs]; [rewrite Forall_forall in E5; by apply E5|apply elem_of_list_singleton in Hs; lia]. } destruct (lookup_lt_is_Some_2 lf s) as [x Hx]; [unfold lf; by rewrite freqs_length|]. exists x. split; [done|]. by eapply freqs_in. }
      split; [|exact X]. destruct (X 256%nat) as (x & Hx & Hx0); [apply elem_of_app; right; by apply elem_of_list_singleton|]. pose proof (sum_ge _ _ _ (freqs_nonneg _ _) Hx). pose proof (proj1 (Forall_lookup _ _) (freqs_nonneg 286 (ls ++ [256%nat])) _ _ Hx) as Y. cbn in Y. pose proof (sum_freqs 286 (ls ++ [256%nat])) as Z1. rewrite app_length, E3 in Z1. cbn [length] in Z1.
      apply Hgen; [lia|unfold lf; rewrite freqs_length; by vm_compute|apply freqs_nonneg|]. change (sum_Z lf ≤ Z.of_nat (length ts + 1)) in Z1. unfold lf in *. lia. }
    destruct Hlf as [(le & Ele & Hlf) Hlin]. destruct (used_ok 286 lf) as [U1 U2]. set (nl := used 286 lf) in *.
    assert (Hnl : (257 ≤ nl)%nat). { destruct (decide (257 ≤ nl)%nat); [done|]. exfalso. destruct (Hlin 256%nat) as (x & Hx & Hx0); [apply elem_of_app; right; by apply elem_of_list_singleton|]. apply Hx0. rewrite <- (nth_lookup_Some _ _ 0 _ Hx). apply U2. lia. }
    assert (Hoff : ∃ of no, (if (used 30 of0 =? 0)%nat then (<[0%nat := 1]> of0, 1%nat) else (of0, used 30 of0)) = (of, no) ∧ (∃ oe, gen of 15 = Ret oe ∧ codes_for of 15 oe) ∧ length of = 30%nat ∧ (1 ≤ no ≤ 30)%nat ∧ (∀ s, (no ≤ s < 30)%nat → nth s of 0 = 0) ∧ ∀ s, s ∈ mjoin os → ∃ x, of !! s = Some x ∧ x ≠ 0).
    { destruct (used_ok 30 of0) as [V1 V2]. assert (Hl0 : length of0 = 30%nat) by apply freqs_length. assert (Hn0 : Forall (λ x, 0 ≤ x) of0) by apply freqs_nonneg. assert (Hs0 : sum_Z of0 ≤ 16384) by (pose proof (sum_freqs 30 (mjoin os)) as X; fold of0 in X; lia).
      assert (Hin : ∀ s, s ∈ mjoin os → ∃ x, of0 !! s = Some x ∧ x ≠ 0). { intros s Hs. rewrite Forall_forall in E6. specialize (E6 s Hs). destruct (lookup_lt_is_Some_2 of0 s) as [x Hx]; [lia|]. exists x. split; [done|]. by eapply freqs_in. }
      destruct (Nat.eqb_spec (used 30 of0) 0) as [E0|E0].
      - eexists _, _. split; [reflexivity|]. assert (Hall : of0 = replicate 30 0). { apply list_eq. intros i. destruct (decide (i < 30)%nat) as [Hi|Hi]; [|rewrite !lookup_ge_None_2; [done|rewrite replicate_length; lia|lia]]. rewrite lookup_replicate_2 by done. destruct (lookup_lt_is_Some_2 of0 i) as [x Hx]; [lia|]. rewrite Hx. f_equal. rewrite <- (nth_lookup_Some _ _ 0 _ Hx). apply V2. lia. }
        rewrite Hall in *. split_and!; [|done|lia|lia| |].
        + apply Hgen; [lia|by vm_compute| |by vm_compute]. apply (bool_decide_unpack _). by vm_compute.
        + intros s Hs. do 30 (destruct s as [|s]; [done || lia|]). lia.
        + intros s Hs. destruct (Hin s Hs) as (x & Hx & Hx0). apply lookup_replicate_1 in Hx as [-> _]. done.
      - exists of0, (used 30 of0). split_and!; [done| |done|lia|lia|done|done]. apply Hgen; [lia|rewrite Hl0; by vm_compute|done|]. split; [|lia].
        assert (Hx : ∃ s x, of0 !! s = Some x ∧ x ≠ 0). { clear -E0 Hl0. assert (G : ∀ n, (n ≤ 30)%nat → used n of0 ≠ 0%nat → ∃ s x, of0 !! s = Some x ∧ x ≠ 0); [|by apply (G 30%nat)]. induction n as [|n IH]; intros Hn Hu; [done|]. cbn [used] in Hu. destruct (Z.eqb_spec (nth n of0 0) 0) as [E|E]; [apply IH; [lia|done]|]. destruct (lookup_lt_is_Some_2 of0 n) as [x Hx]; [lia|]. exists n, x. split; [done|]. by rewrite (nth_lookup_Some _ _ _ _ Hx) in E. }
        destruct Hx as (s & x & Hx & Hx0). pose proof (sum_ge _ _ _ Hn0 Hx). pose proof (proj1 (Forall_lookup _ _) Hn0 _ _ Hx) as Y. cbn in Y. lia. }
    destruct Hoff as (of & no & -> & (oe & Eoe & Hof) & Hlo & Hno & Hzo & Hoin). rewrite Ele. cbn [mbind go_bind]. rewrite Eoe. cbn [mbind go_bind]. assert (Hll : length lf = 286%nat) by apply freqs_length.
    destruct (dynamic_ok (take nl (length <$> le)) (take no (length <$> oe)) lf of le oe nl no) as (ce & w1 & Ece & Hd & Ht); try done. cbv zeta. rewrite Ece. cbn [mbind go_bind]. set (cg := codegen _) in *. set (cf := freqs 19 _) in *. set (storable := match input with Some b => Z.of_nat (length b) <=? 65535 | None => false end). set (extra := if storable then _ else 0). set (fs := 3 + bit_length fixed_lits lf + _ + extra). set (ds := 3 + 5 + 5 + 4 + _ + _ + _ + _ + _ + _ + _ + extra).
    assert (Hh : ∃ w, (if ds <? fs then h ← dynamic_header nl no (cg_used 19 cf) cg ce; w ← write_tokens le oe ts; Ret (h ++ w) else w ← write_tokens fixed_lits fixed_offs ts; Ret (put_num 3 2 ++ w)) = Ret (false :: w) ∧ block_bits (pos + 1) ts input w).
    { destruct (ds <? fs).
      - rewrite Hd. cbn [mbind go_bind].
        destruct (cut_codes lf 15 le nl Hlf ltac:(lia) ltac:(by rewrite Hll)) as (_ & _ & _ & A4). destruct (cut_codes of 15 oe no Hof ltac:(lia) ltac:(by rewrite Hlo)) as (_ & _ & _ & B4).
        destruct (Hlin 256%nat) as (x & Hx & Hx0); [apply elem_of_app; right; by apply elem_of_list_singleton|]. destruct (A4 _ _ Hx Hx0) as (e & He & Hce).
        destruct (write_tokens_ok (take nl (length <$> le)) (take no (length <$> oe)) le oe ts ls os e) as (w2 & -> & Hw2); try done.
        { intros s Hs. destruct (Hlin s) as (y & Hy & Hy0); [apply elem_of_app; by left|]. by eapply A4. } { intros s Hs. destruct (Hoin s Hs) as (y & Hy & Hy0). by eapply B4. }
        cbn [mbind go_bind]. eexists. split; [reflexivity|]. by eapply bits_dynamic.
      - destruct (fixed_lit_ok 256) as (e & He & Hce); [lia|]. destruct (write_tokens_ok fixed_L fixed_D fixed_lits fixed_offs ts ls os e) as (w2 & -> & Hw2); try done.
        { intros s Hs. rewrite Forall_forall in E5. apply fixed_lit_ok. by apply E5. } { intros s Hs. rewrite Forall_forall in E6. apply fixed_off_ok. by apply E6. }
        cbn [mbind go_bind]. eexists. split; [reflexivity|]. by eapply bits_fixed. }
    destruct input as [b|]; [|exact Hh]. destruct (storable && _) eqn:Es; [|exact Hh]. apply andb_true_iff in Es as [Es _]. unfold storable in Es. apply Z.leb_le in Es. destruct (stored_ok pos (Z.of_nat (length b)) false b eq_refl Es) as (w & Hw & Hs). exists w. split; [f_equal; exact Hw|]. by eapply bits_stored.
  Qed.
  Lemma write_stream_ok bl : ∀ pos o d, chain bl o d → ∃ w, write_stream gen pos bl = Ret w ∧ stream_bits pos bl w ∧ (pos + Z.of_nat (length w)) mod 8 = 0.
  Proof.
    induction bl as [|[ts input] bl IH]; intros pos o d Hc; cbn [write_stream].
    - destruct (stored_ok pos 0 true [] eq_refl ltac:(lia)) as (w & Hw & Hs). cbn [mbind list_bind] in Hw. rewrite app_nil_r in Hw. rewrite Hw. exists (true :: w). split_and!; [done|by constructor|]. destruct Hs as (pad & n & nn & _ & H2 & [H3 _] & [H4 _] & ->). cbn [app length]. rewrite !app_length, H3, H4. cbn [length list_bind mbind].
      replace (pos + Z.of_nat (S (S (S (length pad + (16 + (16 + 0))))))) with (pos + 1 + 2 + Z.of_nat (length pad) + 4 * 8) by lia. by rewrite Z.mod_add.
    - inversion_clear Hc as [|? ? ? ? o1 ? Hb Hc']. destruct (write_bits_ok pos ts input o o1 Hb) as (w & -> & Hw). cbn [mbind go_bind]. destruct (IH (pos + Z.of_nat (length (false :: w))) o1 d Hc') as (r & -> & Hr & Hm). cbn [mbind go_bind]. exists ((false :: w) ++ r). split_and!; [done| |].
      + cbn [app]. constructor; [done|]. cbn [length] in Hr. by replace (pos + 1 + Z.of_nat (length w)) with (pos + Z.of_nat (S (length w))) by lia.
      + rewrite app_length. by replace (pos + Z.of_nat (length (false :: w) + length r)) with (pos + Z.of_nat (length (false :: w)) + Z.of_nat (length r)) by lia.
  Qed.
End gen.
