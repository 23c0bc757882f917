(** * Text helpers: theorems *)
From Verif Require Import GoBase GoStr ConvModel TextModel TextSpec.
Local Open Scope Z_scope.

(** ** Trimming *)
Lemma trim_left_spec s : (∃ n, s = replicate n 47 ++ trim_left s) ∧ head (trim_left s) ≠ Some 47.
Proof.
  induction s as [|c s [[n IH] IH']]; [split; [by exists 0%nat|done]|]. cbn [trim_left]. unfold slash. destruct (Z.eqb_spec c 47) as [->|Hc].
  - split; [|done]. exists (S n). simpl. by f_equal.
  - split; [by exists 0%nat|]. simpl. congruence.
Qed.
Lemma replicate_rev n (x : Z) : reverse (replicate n x) = replicate n x.
Proof. apply reverse_replicate. Qed.
Lemma trim_right_spec s : untrailed s (trim_right s).
Proof.
  unfold untrailed, trim_right. destruct (trim_left_spec (reverse s)) as [[n E] Hh]. split.
  - exists n. rewrite <- (reverse_involutive s) at 1. rewrite E at 1. by rewrite reverse_app, reverse_replicate.
  - by rewrite <- head_reverse, reverse_involutive.
Qed.
Lemma trim_spec s : trimmed s (trim s).
Proof.
  unfold trim. destruct (trim_left_spec s) as [[n E] Hh]. destruct (trim_right_spec (trim_left s)) as [[m E2] Hl]. unfold trimmed. split_and!; [|  |done].
  - exists n, m. by rewrite <- E2.
  - rewrite E2 in Hh. by destruct (trim_right (trim_left s)).
Qed.
Lemma untrailed_head s t : untrailed s t → t ≠ [] → head t = head s.
Proof. intros [[n ->] _]. by destruct t. Qed.

(** ** C56 *)
Lemma go_join_cons sep x l : go_join sep (x :: l) = x ++ (l ≫= λ y, sep ++ y).
Proof. revert x. induction l as [|y l IH]; intros x; [symmetry; apply app_nil_r|]. change (go_join sep (x :: y :: l)) with (x ++ sep ++ go_join sep (y :: l)). rewrite IH. cbn [mbind list_bind]. by rewrite <- app_assoc. Qed.
Lemma build_pairs_spec ps : build_pairs ps ≫= (λ y, [slash] ++ y) = wanted_pairs ps.
Proof.
  assert (H : ∀ n ps, (length ps ≤ n)%nat → build_pairs ps ≫= (λ y, [slash] ++ y) = wanted_pairs ps); [|by eapply H].
  induction n as [|n IH]; intros [|k [|v r]] Hl; simpl in Hl; [done|lia|lia|done|done|]. cbn [build_pairs wanted_pairs]. rewrite <- IH by lia.
  destruct (bool_decide_reflect (k = [])) as [->|Hk]; cbn [negb andb]; [rewrite decide_False by naive_solver; done|]. destruct (bool_decide_reflect (v = str "0")) as [->|Hv]; cbn [negb andb]; [rewrite decide_False by (intros [_ H]; by apply H); done|].
  rewrite decide_True by done. simpl. done.
Qed.
Theorem build_url_value prefix ps : ∃ p, trimmed prefix p ∧ untrailed ([47] ++ p ++ wanted_pairs ps) (build_url prefix ps).
Proof.
  exists (trim prefix). split; [apply trim_spec|]. unfold build_url. rewrite go_join_cons, build_pairs_spec. apply trim_right_spec.
Qed.
Theorem build_url_same_site_partial prefix ps : same_site (build_url prefix ps) ↔ ∃ c p, trimmed prefix (c :: p) ∧ c ≠ 92.
Proof.
  assert (HE : untrailed ([47] ++ trim prefix ++ wanted_pairs ps) (build_url prefix ps)). { unfold build_url. rewrite go_join_cons, build_pairs_spec. apply trim_right_spec. }
  pose proof (trim_spec prefix) as HT. destruct HE as [[n E] Hl].
  assert (HU : ∀ t, trimmed prefix t → t = trim prefix).
  { intros t Ht. destruct HT as [(a & b & E1) [H1 H2]], Ht as [(a' & b' & E2) [H3 H4]]. rewrite E1 in E2. clear E1 E Hl n.
    destruct (trim prefix) as [|x u] eqn:Eu.
    - destruct t as [|y v]; [done|]. exfalso. rewrite app_nil_l, <- replicate_add in E2. assert (y ∈ replicate (a + b) 47) as Hy. { rewrite E2. apply elem_of_app. right. apply elem_of_app. left. by left. } apply elem_of_replicate in Hy as [-> _]. done.
    - destruct t as [|y v].
      + exfalso. rewrite app_nil_l, <- replicate_add in E2. assert (x ∈ replicate (a' + b') 47) as Hy. { rewrite <- E2. apply elem_of_app. right. apply elem_of_app. left. by left. } apply elem_of_replicate in Hy as [-> _]. done.
      + assert (a = a') as <-.
        { revert a' E2. induction a as [|a IH]; intros [|a'] E2; simpl in E2; [done| | |f_equal; apply IH; by injection E2].
          - exfalso. injection E2 as -> _. done.
          - exfalso. injection E2 as <- _. done. }
        apply app_inv_head in E2. symmetry. revert b b' E2 H2 H4. generalize (x :: u), (y :: v). intros l1 l2. clear.
        assert (HH : ∀ b b' l1 l2, l1 ++ replicate b 47 = l2 ++ replicate b' 47 → (b ≤ b')%nat → last l1 ≠ Some 47 → l1 = l2).
        { intros b b' l1' l2' E Hb H2. replace b' with ((b' - b) + b)%nat in E by lia. rewrite replicate_add, app_assoc in E. apply app_inv_tail in E. destruct (b' - b)%nat as [|k]; [by rewrite app_nil_r in E|]. exfalso. rewrite replicate_S_end, app_assoc in E. subst. by rewrite last_snoc in H2. }
        intros b b' E H2 H4. destruct (decide (b ≤ b')%nat); [by eapply HH|]. symmetry. eapply (HH b' b); [done|lia|done]. }
  split.
  - intros (c & r & Eb & H1 & H2). rewrite Eb in E. destruct (trim prefix) as [|x p] eqn:Ex.
    + exfalso. simpl in E. injection E as E. assert (HW : head (wanted_pairs ps) = None ∨ head (wanted_pairs ps) = Some 47).
      { clear. assert (H : ∀ m ps, (length ps ≤ m)%nat → head (wanted_pairs ps) = None ∨ head (wanted_pairs ps) = Some 47); [|by eapply H]. induction m as [|m IH]; intros [|k [|v r]] Hm; simpl in Hm; [by left|lia|lia|by left|by left|]. cbn [wanted_pairs]. destruct (decide _); [by right|]. simpl. apply IH. lia. }
      rewrite E in HW. simpl in HW. destruct HW; congruence.
    + simpl in E. injection E as -> _. exists c, p. done.
  - intros (c & p & Hc & H92). apply HU in Hc. rewrite <- Hc in *. destruct HT as [_ [Hh Hl']]. destruct (build_url prefix ps) as [|x [|y u]] eqn:Eb.
    + exfalso. simpl in E. assert (c ∈ replicate n 47) as Hin by (rewrite <- E; by right; left). apply elem_of_replicate in Hin as [-> _]. done.
    + exfalso. simpl in E. injection E as <- _. done.
    + simpl in E. injection E as <- <- E. exists c, u. split_and!; [done| |done]. intros ->. done.
Qed.
(** a URL without prefix points to another host (or is empty); so does a prefix that starts with a backslash *)
Theorem build_url_foreign_refuted : ∃ prefix ps, build_url prefix ps = str "//evil.example/x" ∧ ¬ same_site (build_url prefix ps).
Proof.
  exists (str ""), [str "evil.example"; str "x"]. split; [by vm_compute|]. intros (c & r & E & H1 & _). vm_compute in E. injection E as E _. done.
Qed.
Theorem build_url_empty_refuted : build_url (str "/") [] = [] ∧ build_url (str "/\evil.example") [] = str "/\evil.example".
Proof. split; by vm_compute. Qed.
Example build_url_example : build_url (str "/user/list/") [str "page"; str "2"; str "size"; str "0"; str ""; str "x"; str "odd"] = str "/user/list/page/2" ∧ trimmed (str "/user/list/") (str "user/list").
Proof. split; [by vm_compute|]. split; [exists 1%nat, 1%nat; by vm_compute|split; by vm_compute]. Qed.

(** ** C57 *)
Theorem same_site_iff s : ∃ b, is_same_site s = Ret b ∧ (b = true ↔ same_site s).
Proof.
  unfold is_same_site. destruct s as [|a [|b r]]; [eexists; split; [done|]; split; [done|intros (? & ? & ? & ?); done]..|].
  simpl. eexists. split; [done|]. rewrite !andb_true_iff, !negb_true_iff, Z.eqb_eq, !Z.eqb_neq. split.
  - intros [[-> H1] H2]. by exists b, r.
  - intros (c & r' & [= -> -> ->] & H1 & H2). done.
Qed.
Example same_site_example : is_same_site (str "/url") = Ret true ∧ is_same_site (str "//url") = Ret false ∧ is_same_site (str "/\url") = Ret false ∧ is_same_site (str "http://url") = Ret false ∧ is_same_site (str "/") = Ret false.
Proof. split_and!; by vm_compute. Qed.

(** ** C64 *)
Lemma occurs_drop sep a t : has_prefix sep (drop (length a) (a ++ sep ++ t)) = true.
Proof. rewrite drop_app. apply has_prefix_iff. by exists t. Qed.
Lemma overlap (sep a r b u : gostr) : a ++ sep ++ r = b ++ sep ++ u → (length a < length b)%nat → (length b < length a + length sep)%nat → ¬ unbordered sep.
Proof.
  intros E H1 H2 [Hn HU]. set (d := (length b - length a)%nat). 
  assert (Hq : drop d sep = take (length sep - d) sep).
  { assert (HX : take (length sep - d) (drop (length b) (a ++ sep ++ r)) = take (length sep - d) (drop (length b) (b ++ sep ++ u))) by (by rewrite E).
    rewrite drop_app in HX. rewrite drop_app_ge in HX by lia. fold d in HX. rewrite drop_app_le in HX by lia. rewrite (take_app_le sep u) in HX by lia. rewrite take_app_le in HX by (rewrite drop_length; lia). rewrite take_ge in HX; [done|]. rewrite drop_length. lia. }
  destruct (HU (take d sep) (drop d sep) (drop (length sep - d) sep)) as [Hc|Hc].
  - by rewrite take_drop.
  - rewrite Hq. by rewrite take_drop.
  - apply (f_equal length) in Hc. rewrite drop_length in Hc. simpl in Hc. lia.
  - apply (f_equal length) in Hc. rewrite take_length in Hc. simpl in Hc. lia.
Qed.
Lemma split_last sep : unbordered sep → ∀ n s, (length s ≤ n)%nat → ∃ t l, split_fuel n sep s = l ++ [t] ∧ ((l = [] ∧ ¬ occurs sep s ∧ t = s) ∨ (l ≠ [] ∧ after_last sep s t)).
Proof.
  intros HU. induction n as [|n IH]; intros s Hl.
  { destruct s; [|simpl in Hl; lia]. exists [], []. split; [done|]. left. split_and!; [done| |done]. intros (a & t & E). destruct HU as [HU _]. symmetry in E. apply app_nil in E as [_ E]. apply app_nil in E as [E _]. done. }
  cbn [split_fuel]. destruct (go_index sep s) as [i|] eqn:Ei.
  - pose proof (go_index_Some _ _ _ Ei) as [Hi E]. set (a := take i s) in *. set (r := drop (i + length sep) s) in *. assert (Ha : length a = i) by (unfold a; rewrite take_length; lia).
    assert (Hr : (length r ≤ n)%nat). { assert (length s = length a + length sep + length r)%nat by (rewrite E at 1; rewrite !app_length; lia). destruct HU as [HU _]. destruct sep; [done|]. simpl in *. lia. }
    destruct (IH r Hr) as (t & l & El & HR). exists t, (a :: l). rewrite El. split; [done|]. right. split; [done|].
    assert (HB : ∀ b u, s = b ++ sep ++ u → (length u < length r)%nat → ∃ b', r = b' ++ sep ++ u).
    { intros b u Eb Hu. rewrite E in Eb. assert (HL : (length a + length r = length b + length u)%nat). { apply (f_equal length) in Eb. rewrite !app_length in Eb. lia. }
      destruct (decide (length b < length a + length sep)%nat) as [Hb|Hb].
      - exfalso. eapply (overlap sep a r b u Eb); [lia|done|done].
      - exists (drop (length a + length sep) b). assert (HX : drop (length a + length sep) (a ++ sep ++ r) = drop (length a + length sep) (b ++ sep ++ u)) by (by rewrite Eb).
        rewrite app_assoc in HX. rewrite <- app_length in HX at 1. rewrite drop_app in HX. rewrite drop_app_le in HX by lia. done. }
    destruct HR as [(-> & Hno & ->)|(Hne & a' & Er & Hmin)].
    + exists a. split; [done|]. intros b u Eb. destruct (decide (length u < length r)%nat) as [Hu|]; [|lia]. exfalso. destruct (HB b u Eb Hu) as [b' Eb']. apply Hno. by exists b', u.
    + exists (a ++ sep ++ a'). split. { rewrite E at 1. rewrite Er at 1. by rewrite <- !app_assoc. }
      intros b u Eb. destruct (decide (length u < length t)%nat) as [Hu|]; [|lia]. exfalso. assert (Htr : (length t ≤ length r)%nat) by (rewrite Er, !app_length; lia).
      destruct (HB b u Eb ltac:(lia)) as [b' Eb']. specialize (Hmin _ _ Eb'). lia.
  - exists s, []. split; [done|]. left. split_and!; [done| |done]. intros (a & t & E). pose proof (go_index_None _ _ Ei (length a)) as Hn. rewrite E, occurs_drop in Hn. specialize (Hn ltac:(rewrite app_length; lia)). done.
Qed.
Theorem suffix_name_partial s sep : unbordered sep → ∃ t, get_suffix_name s sep = Ret t ∧ (occurs sep s ∧ after_last sep s t ∨ ¬ occurs sep s ∧ t = []).
Proof.
  intros HU. destruct (split_last sep HU (length s) s ltac:(done)) as (t & l & El & HR). unfold get_suffix_name, split_any. assert (HS : match sep with [] => explode_from 0 s | _ => go_split sep s end = l ++ [t]). { destruct HU as [HU _]. destruct sep; [done|]. exact El. }
  rewrite HS, app_length. simpl. destruct HR as [(-> & Hno & ->)|(Hne & Ha)].
  - simpl. eauto.
  - destruct l as [|x l]; [done|]. destruct (Nat.ltb_spec 1 (length (x :: l) + 1)); [|simpl in *; lia]. exists t. split; [|left; split; [destruct Ha as (a & E & _); by exists a, t|done]].
    unfold idx. replace (length (x :: l) + 1 - 1)%nat with (length (x :: l)) by lia. by rewrite list_lookup_middle.
Qed.
Theorem unbordered_char c : unbordered [c].
Proof. split; [done|]. intros p q r E _. destruct p as [|? [|? ?]]; [by right| |done]. injection E as _ E. by left. Qed.
Theorem unbordered_ab a b : a ≠ b → unbordered [a; b].
Proof.
  intros Hab. split; [done|]. intros [|x [|y [|z p]]] q r E1 E2; [by right| | |done].
  - injection E1 as -> <-. injection E2 as -> _. done.
  - injection E1 as _ _ <-. by left.
Qed.
(** a separator that overlaps itself, and the empty separator *)
Theorem suffix_name_refuted : (get_suffix_name (str "aaa") (str "aa") = Ret (str "a") ∧ after_last (str "aa") (str "aaa") []) ∧
  (get_suffix_name (str "abc") [] = Ret (str "c") ∧ after_last [] (str "abc") []).
Proof.
  split; (split; [by vm_compute|]).
  - exists [97]. split; [done|]. intros. simpl. lia.
  - exists (str "abc"). split; [done|]. intros. simpl. lia.
Qed.
Lemma space_left_id s : Forall (λ c, is_space c = false) s → space_left s = s.
Proof. destruct 1 as [|c s Hc _]; [done|]. simpl. by rewrite Hc. Qed.
Lemma lower_same e x : Forall (λ c, 97 ≤ c ≤ 122) x → lower_ascii <$> e = x ↔ Forall2 same_letter e x.
Proof.
  revert x. induction e as [|c e IH]; intros x Hx.
  - split; [intros <-; constructor|]. intros H. by inversion H.
  - destruct x as [|y x]; [split; [done|]; intros H; inversion H|]. apply Forall_cons_1 in Hx as [Hy Hx]. cbn [fmap list_fmap].
    assert (HL : lower_ascii c = y ↔ same_letter c y). { unfold lower_ascii, same_letter. destruct (between 65 90 c) eqn:Eb; [apply between_iff in Eb; lia|]. assert (¬ (65 ≤ c ≤ 90)) by (rewrite <- between_iff; by rewrite Eb). lia. }
    split.
    + intros [= E1 E2]. constructor; [by apply HL|by apply IH].
    + intros H. inversion H; subst. f_equal; [by apply HL|by apply IH].
Qed.
Theorem is_image_partial wide a e : 46 ∉ e → Forall (λ c, 33 ≤ c < 128) e → ∃ b, is_image wide (a ++ 46 :: e) = Ret b ∧ (b = true ↔ ∃ x, x ∈ picture_exts ∧ Forall2 same_letter e x).
Proof.
  change picture_exts with image_exts.
  intros H46 He. destruct (split_last [46] (unbordered_char 46) (length (a ++ 46 :: e)) (a ++ 46 :: e) ltac:(done)) as (t & l & El & HR).
  assert (t = e) as ->.
  { destruct HR as [(_ & Hno & _)|(_ & a' & E & Hmin)]; [exfalso; apply Hno; by exists a, e|]. specialize (Hmin a e eq_refl). simpl in E.
    destruct (decide (length t = length e)) as [Hl|Hl]; [by apply app_inj_2 in E as [_ [= ->]]; [|simpl; lia]|]. exfalso. apply H46.
    assert (HX : drop (length a + 1) (a ++ 46 :: e) = drop (length a + 1) (a' ++ 46 :: t)) by (by rewrite E). assert (HLn : (length a + length e = length a' + length t)%nat). { apply (f_equal length) in E. rewrite !app_length in E. simpl in E. lia. }
    rewrite <- drop_drop, drop_app in HX. simpl in HX. rewrite drop_0 in HX. rewrite drop_app_le in HX by lia. rewrite HX. apply elem_of_app. right. by left. }
  unfold is_image, go_split. rewrite El. unfold idx. rewrite app_length. replace (length l + length [e] - 1)%nat with (length l) by (simpl; lia). rewrite list_lookup_middle by done. cbn [mbind go_bind]. eexists. split; [done|].
  rewrite bool_decide_eq_true. unfold norm_ext. assert (forallb (λ c, c <? 128) e = true) as ->. { apply forallb_forall. intros c Hc. apply elem_of_list_In in Hc. rewrite Forall_forall in He. specialize (He c Hc). simpl in He. apply Z.ltb_lt. lia. }
  assert (Hsp : Forall (λ c, is_space c = false) e). { eapply Forall_impl; [exact He|]. simpl. intros c Hc. unfold is_space. apply orb_false_iff. split; [|apply Z.eqb_neq; lia]. apply not_true_is_false. rewrite between_iff. lia. }
  unfold trim_space. rewrite (space_left_id e) by done. rewrite space_left_id by (by apply Forall_reverse). rewrite reverse_involutive.
  assert (Hlow : ∀ x, x ∈ image_exts → Forall (λ c, 97 ≤ c ≤ 122) x).
  { intros x Hx. unfold image_exts in Hx. repeat (apply elem_of_cons in Hx as [->|Hx]; [simpl; repeat constructor; lia|]). by apply elem_of_nil in Hx. }
  split.
  - intros Hx. eexists. split; [exact Hx|]. by apply lower_same; [apply Hlow|].
  - intros (x & Hx & HF). apply lower_same in HF; [|by apply Hlow]. by rewrite HF.
Qed.
(** a name without extension, and an extension followed by a space *)
Theorem is_image_refuted wide : is_image wide (str "png") = Ret true ∧ 46 ∉ str "png" ∧ is_image wide (str "photo.png ") = Ret true.
Proof. split_and!; [by vm_compute| |by vm_compute]. apply go_index_char_None. by vm_compute. Qed.
Example suffix_example wide : get_suffix_name (str "a/b/c.txt") (str "/") = Ret (str "c.txt") ∧ get_suffix_name (str "abc") (str "/") = Ret [] ∧ is_image wide (str "a.b.JPeG") = Ret true ∧ is_image wide (str "a.png.txt") = Ret false.
Proof. split_and!; by vm_compute. Qed.

(** ** C65 *)
Theorem upper_first_refuted : (∀ s, upper_first s = Ret s) ∧ upper_first (str "abc") ≠ Ret (str "Abc").
Proof.
  split; [|by vm_compute]. intros s. unfold upper_first. destruct s as [|c s]; [done|]. done.
Qed.
Theorem format_byte_refuted : (∀ size, format_byte size = Ret (str "32.00 B")) ∧ format_byte 1 = format_byte 1048576.
Proof. split; [|done]. intros size. by vm_compute. Qed.
Theorem write_csv_refuted : (∀ old content, write_csv old content = old ++ str "1,2,3,4,""5,6""" ++ [13; 10]) ∧ ∀ old c c', write_csv old c = write_csv old c'.
Proof. split; [|done]. intros. unfold write_csv. f_equal. Qed.
(** what holds: nothing already in the file is lost; upper-case first letters are right *)
Theorem text_args_partial : (∀ old content, ∃ row, write_csv old content = old ++ row) ∧ (∀ c s, ¬ (97 ≤ c ≤ 122) → upper_first (c :: s) = Ret (upper_ascii c :: s)).
Proof.
  split; [intros; by eexists|]. intros c s Hc. unfold upper_first, upper_ascii. destruct (between 97 122 c) eqn:E; [by apply between_iff in E|]. done.
Qed.

(** ** C63 *)
Lemma rand_loop_ok rnd kind all : (∀ i n, 0 < n → 0 ≤ rnd i n < n) → all = ((2 <? kind) || (kind <? 0))%bool → ∀ f ik k, (all = false → ik = kind) → ∃ s, rand_loop rnd all ik f k = Ret s ∧ length s = f ∧ Forall (of_kind kind) s.
Proof.
  intros HR Hall. 
  assert (HK : ∀ ik, (all = false → ik = kind) → (all = true → 0 ≤ ik < 3) → ∃ scope base, 0 ≤ ik ∧ idx rand_kinds (Z.to_nat ik) = Ret [scope; base] ∧ 0 < scope ∧ ∀ d, 0 ≤ d < scope → of_kind kind ((base + d) mod 256)).
  { intros ik H1 H2. assert (Hik : ik = 0 ∨ ik = 1 ∨ ik = 2). { destruct all; [specialize (H2 eq_refl); lia|]. rewrite H1 by done. symmetry in Hall. apply orb_false_iff in Hall as [Ha Hb]. apply Z.ltb_ge in Ha, Hb. lia. }
    assert (HO : ∀ c, (ik = 0 → 48 ≤ c ≤ 57) → (ik = 1 → 97 ≤ c ≤ 122) → (ik = 2 → 65 ≤ c ≤ 90) → of_kind kind c).
    { intros c C0 C1 C2. destruct all.
      - assert (kind < 0 ∨ 2 < kind) as Hk. { symmetry in Hall. apply orb_true_iff in Hall as [Ha|Ha]; apply Z.ltb_lt in Ha; lia. }
        assert (of_kind kind c ↔ 48 ≤ c ≤ 57 ∨ 97 ≤ c ≤ 122 ∨ 65 ≤ c ≤ 90) as ->. { unfold of_kind. destruct kind as [|[[?|?|]|[?|?|]|]|]; try done; lia. }
        destruct Hik as [->|[->| ->]]; auto.
      - rewrite <- H1 by done. destruct Hik as [->|[->| ->]]; simpl; auto. }
    destruct Hik as [->|[->| ->]].
    - exists 10, 48. split_and!; [lia|done|lia|]. intros d Hd. rewrite Z.mod_small by lia. apply HO; lia.
    - exists 26, 97. split_and!; [lia|done|lia|]. intros d Hd. rewrite Z.mod_small by lia. apply HO; lia.
    - exists 26, 65. split_and!; [lia|done|lia|]. intros d Hd. rewrite Z.mod_small by lia. apply HO; lia. }
  induction f as [|f IH]; intros ik k Hik; [by exists []|]. cbn [rand_loop]. destruct all.
  - destruct (HK (rnd k 3)) as (scope & base & H0 & Hi & Hs & Ho); [done|intros _; apply HR; lia|]. destruct (IH (rnd k 3) (S (S k))) as (s & Es & Hl & Hs'); [done|].
    rewrite decide_True, Hi by done. cbn. rewrite Es. eexists. split; [done|]. split; [simpl; lia|]. constructor; [|done]. apply Ho, HR, Hs.
  - destruct (HK ik) as (scope & base & H0 & Hi & Hs & Ho); [done|done|]. destruct (IH ik (S k)) as (s & Es & Hl & Hs'); [done|].
    rewrite decide_True, Hi by done. cbn. rewrite Es. eexists. split; [done|]. split; [simpl; lia|]. constructor; [|done]. apply Ho, HR, Hs.
Qed.
Theorem rand_str_ok rnd size kind : (∀ i n, 0 < n → 0 ≤ rnd i n < n) → 0 ≤ size → ∃ s, rand_str rnd size kind = Ret s ∧ Z.of_nat (length s) = size ∧ Forall (of_kind kind) s.
Proof.
  intros HR Hs. unfold rand_str. destruct (Z.ltb_spec size 0); [lia|]. destruct (rand_loop_ok rnd kind _ HR eq_refl (Z.to_nat size) kind 0) as (s & E & Hl & Hk); [done|]. exists s. split_and!; [done|lia|done].
Qed.
(** every text of the class can come out *)
Lemma rand_loop_any kind all : all = ((2 <? kind) || (kind <? 0))%bool → ∀ s, Forall (of_kind kind) s → ∃ draw : list Z, 
  ∀ rnd k ik, (all = false → ik = kind) → (∀ i d, draw !! i = Some d → ∀ n, 0 ≤ d < n → rnd (k + i)%nat n = d) → rand_loop rnd all ik (length s) k = Ret s.
Proof.
  intros Hall s Hs. induction Hs as [|c s Hc Hs (draw & IH)]; [by exists []|].
  assert (HC : ∃ ik0 scope base d, 0 ≤ ik0 < 3 ∧ (all = false → ik0 = kind) ∧ idx rand_kinds (Z.to_nat ik0) = Ret [scope; base] ∧ 0 ≤ d < scope ∧ c = base + d ∧ 0 ≤ c < 256).
  { destruct all.
    - assert (kind < 0 ∨ 2 < kind) as Hk. { symmetry in Hall. apply orb_true_iff in Hall as [Ha|Ha]; apply Z.ltb_lt in Ha; lia. }
      assert (48 ≤ c ≤ 57 ∨ 97 ≤ c ≤ 122 ∨ 65 ≤ c ≤ 90) as [H|[H|H]]. { unfold of_kind in Hc. destruct kind as [|[[?|?|]|[?|?|]|]|]; try done; lia. }
      + exists 0, 10, 48, (c - 48). split_and!; try lia; done.
      + exists 1, 26, 97, (c - 97). split_and!; try lia; done.
      + exists 2, 26, 65, (c - 65). split_and!; try lia; done.
    - symmetry in Hall. apply orb_false_iff in Hall as [Ha Hb]. apply Z.ltb_ge in Ha, Hb. assert (kind = 0 ∨ kind = 1 ∨ kind = 2) as [->|[->| ->]] by lia; simpl in Hc.
      + exists 0, 10, 48, (c - 48). split_and!; try lia; done.
      + exists 1, 26, 97, (c - 97). split_and!; try lia; done.
      + exists 2, 26, 65, (c - 65). split_and!; try lia; done. }
  destruct HC as (ik0 & scope & base & d & H0 & H1 & Hi & Hd & -> & Hb). destruct all.
  - exists (ik0 :: d :: draw). intros rnd k ik _ HD. cbn [length rand_loop]. assert (rnd k 3 = ik0) as ->. { rewrite <- (Nat.add_0_r k). apply (HD 0%nat); [done|lia]. }
    rewrite decide_True, Hi by lia. cbn. assert (rnd (S k) scope = d) as ->. { replace (S k) with (k + 1)%nat by lia. apply (HD 1%nat); [done|lia]. }
    rewrite (IH rnd (S (S k)) ik0); [|done|]. { cbn. by rewrite Z.mod_small. }
    intros i x Hx n Hn. replace (S (S k) + i)%nat with (k + S (S i))%nat by lia. by apply (HD (S (S i))).
  - exists (d :: draw). intros rnd k ik Hik HD. specialize (Hik eq_refl) as ->. specialize (H1 eq_refl) as ->. cbn [length rand_loop].
    rewrite decide_True, Hi by lia. cbn. assert (rnd k scope = d) as ->. { rewrite <- (Nat.add_0_r k). apply (HD 0%nat); [done|lia]. }
    rewrite (IH rnd (S k) kind); [|done|]. { cbn. by rewrite Z.mod_small. }
    intros i x Hx n Hn. replace (S k + i)%nat with (k + S i)%nat by lia. by apply (HD (S i)).
Qed.
Theorem rand_str_every kind s : Forall (of_kind kind) s → ∃ rnd, (∀ i n, 0 < n → 0 ≤ rnd i n < n) ∧ rand_str rnd (Z.of_nat (length s)) kind = Ret s.
Proof.
  intros Hs. destruct (rand_loop_any kind _ eq_refl s Hs) as (draw & HD). exists (λ i n, let d := default 0 (draw !! i) in if decide (0 ≤ d < n) then d else 0). split; [intros i n Hn; cbn zeta; destruct (decide _); lia|]. unfold rand_str. destruct (Z.ltb_spec (Z.of_nat (length s)) 0); [lia|]. rewrite Nat2Z.id. apply HD; [done|].
  intros i d Hi n Hn. simpl. rewrite Hi. simpl. by rewrite decide_True.
Qed.
Theorem rand_str_negative rnd size kind : size < 0 → rand_str rnd size kind = Panic PMake.
Proof. intros H. unfold rand_str. destruct (Z.ltb_spec size 0); [done|lia]. Qed.
Example rand_example : rand_str (λ i n, Z.of_nat i mod n) 4 3 = Ret (str "1Df7") ∧ (∀ i n, 0 < n → 0 ≤ Z.of_nat i mod n < n).
Proof. split; [by vm_compute|]. intros. by apply Z.mod_pos_bound. Qed.
Print Assumptions build_url_value.
Print Assumptions build_url_same_site_partial.
Print Assumptions build_url_foreign_refuted.
Print Assumptions build_url_empty_refuted.
Print Assumptions same_site_iff.
Print Assumptions suffix_name_partial.
Print Assumptions unbordered_char.
Print Assumptions suffix_name_refuted.
Print Assumptions is_image_partial.
Print Assumptions is_image_refuted.
Print Assumptions upper_first_refuted.
Print Assumptions format_byte_refuted.
Print Assumptions write_csv_refuted.
Print Assumptions text_args_partial.
Print Assumptions rand_str_ok.
Print Assumptions rand_str_every.
Print Assumptions rand_str_negative.
