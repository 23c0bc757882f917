(** * Paths: theorems *)
From Verif Require Import GoBase GoStr PathModel PathSpec.
Local Open Scope Z_scope.

Lemma comps_app a b : comps (a ++ 47 :: b) = comps a ++ comps b.
Proof.
  induction a as [|c a IH]; [done|]. cbn [app comps]. destruct (c =? 47); [by rewrite IH|]. rewrite IH. destruct (comps a) eqn:E; [|done]. destruct a as [|x a]; [done|]. cbn [comps] in E. destruct (x =? 47); [done|]. by destruct (comps a).
Qed.
Lemma comps_sub s x : x ∈ comps s → ∃ a b, s = a ++ x ++ b.
Proof.
  revert x. assert (H : ∀ x, x ∈ comps s → (∃ a b, s = a ++ x ++ b) ∧ (∀ l, comps s = x :: l → ∃ b, s = x ++ b)).
  { induction s as [|c s IH]; intros x Hx.
    - cbn [comps] in Hx. apply elem_of_list_singleton in Hx as ->. split; [by exists [], []|]. intros. by exists [].
    - cbn [comps] in *. destruct (Z.eqb_spec c 47) as [->|Hc].
      + split; [|intros l El; simplify_eq; by exists (47 :: s)]. apply elem_of_cons in Hx as [->|Hx]; [by exists [], (47 :: s)|]. destruct (IH x Hx) as [(a & b & E) _]. exists (47 :: a), b. simpl. by rewrite <- E.
      + destruct (comps s) as [|y l] eqn:E.
        * apply elem_of_list_singleton in Hx as ->. split; [exists [], s; done|]. intros l' El; simplify_eq. by exists s.
        * destruct (IH y ltac:(by left)) as [_ H2]. destruct (H2 l eq_refl) as [b Eb]. assert (Hy : c :: s = (c :: y) ++ b) by (simpl; by rewrite <- Eb). split; [|intros l' El; simplify_eq; by exists b].
          apply elem_of_cons in Hx as [->|Hx]; [exists [], b; done|]. destruct (IH x ltac:(by right)) as [(a & b' & E') _]. exists (c :: a), b'. simpl. by rewrite <- E'. }
  intros x Hx. by apply H.
Qed.
(** components that stay *)
Definition plain (c : gostr) : bool := negb (bool_decide (c = []) || bool_decide (c = dot)).
Lemma clean_plain rooted q : dotdot ∉ q → ∀ st, foldl (clean_step rooted) st q = reverse (filter (λ c, plain c = true) q) ++ st.
Proof.
  induction q as [|c q IH]; intros Hq st; [done|]. apply not_elem_of_cons in Hq as [Hc Hq]. cbn [foldl]. rewrite IH by done. rewrite filter_cons. unfold clean_step, plain. destruct (bool_decide (c = []) || bool_decide (c = dot)) eqn:E.
  - rewrite decide_False by done. done.
  - rewrite decide_True by done. rewrite bool_decide_eq_false_2 by done. by rewrite reverse_cons, <- app_assoc.
Qed.
Lemma malicious_none p : is_malicious p = false → is_abs p = false ∧ dotdot ∉ comps p.
Proof.
  unfold is_malicious. intros H. apply orb_false_iff in H as [H1 H2]. split; [done|]. intros Hin. apply comps_sub in Hin as (a & b & E). destruct (go_index dotdot p) eqn:Ei; [done|].
  pose proof (go_index_None _ _ Ei (length a)) as Hn. rewrite E in Hn. rewrite drop_app in Hn. assert (has_prefix dotdot (dotdot ++ b) = true) as Hp by (apply has_prefix_iff; by exists b). rewrite Hp in Hn. specialize (Hn ltac:(rewrite app_length; lia)). done.
Qed.

(** ** C58 *)
Theorem safe_path_inside base p : is_malicious p = false → inside (clean base) (path_join base p).
Proof.
  intros H. apply malicious_none in H as [Ha Hd]. unfold path_join. destruct (bool_decide_reflect (base = [])) as [->|Hb].
  - unfold inside, clean. simpl. rewrite Ha. split; [done|]. rewrite clean_plain by done. rewrite app_nil_r, reverse_involutive. eexists. split; [done|]. intros Hin. apply elem_of_list_filter in Hin as [_ Hin]. done.
  - unfold inside, clean. simpl. assert (is_abs (base ++ 47 :: p) = is_abs base) as -> by (by destruct base). split; [done|]. rewrite comps_app, foldl_app, clean_plain by done.
    rewrite reverse_app, reverse_involutive. eexists. split; [done|]. intros Hin. apply elem_of_list_filter in Hin as [_ Hin]. done.
Qed.
(** Clean keeps the place a path leads to, from wherever one starts, and its result has no empty,
    "." or inner ".." components *)
Lemma walk_snoc from cs c : walk from (cs ++ [c]) = walk_step (walk from cs) c.
Proof. unfold walk. by rewrite foldl_app. Qed.
Lemma walk_step_skip at' c : c = [] ∨ c = dot → walk_step at' c = at'.
Proof. intros H. unfold walk_step. by rewrite decide_True. Qed.
Lemma walk_step_up at' : walk_step at' dotdot = take (length at' - 1) at'.
Proof. unfold walk_step. rewrite decide_False; [|by intros [H|H]]. by rewrite decide_True. Qed.
Lemma walk_step_down at' c : c ≠ [] → c ≠ dot → c ≠ dotdot → walk_step at' c = at' ++ [c].
Proof. intros. unfold walk_step. rewrite decide_False; [|by intros [?|?]]. by rewrite decide_False. Qed.
Lemma clean_step_walk rooted st c from : (rooted = true → from = [] ∧ dotdot ∉ st) → Forall (λ c, c ≠ [] ∧ c ≠ dot) st →
  (∀ i, st !! i = Some dotdot → Forall (λ x, x = dotdot) (drop i st)) →
  let st' := clean_step rooted st c in walk from (reverse st') = walk_step (walk from (reverse st)) c ∧ (rooted = true → dotdot ∉ st') ∧ Forall (λ c, c ≠ [] ∧ c ≠ dot) st' ∧
  (∀ i, st' !! i = Some dotdot → Forall (λ x, x = dotdot) (drop i st')).
Proof.
  intros Hr HF HD. unfold clean_step. destruct (bool_decide_reflect (c = [])) as [->|H1]; simpl; [rewrite walk_step_skip by tauto; naive_solver|]. destruct (bool_decide_reflect (c = dot)) as [->|H2]; [rewrite walk_step_skip by tauto; naive_solver|].
  destruct (bool_decide_reflect (c = dotdot)) as [->|H3].
  - destruct st as [|x st].
    + destruct rooted.
      * destruct (Hr eq_refl) as [-> _]. split_and!; [done|intros _; apply not_elem_of_nil|constructor|by intros []].
      * split_and!; [done|done|by repeat constructor|]. intros [|i]; [|by destruct i]. intros _. simpl. by repeat constructor.
    + destruct (bool_decide_reflect (x = dotdot)) as [->|Hx].
      * split_and!.
        { rewrite reverse_cons, walk_snoc. done. }
        { intros Ht. destruct (Hr Ht) as [_ Hn]. destruct Hn. by left. }
        { constructor; done. }
        { intros [|i]; simpl; [|apply HD]. intros _. constructor; [done|]. apply (HD 0%nat eq_refl). }
      * apply Forall_cons in HF as [[Hx1 Hx2] HF]. split_and!.
        { rewrite reverse_cons, walk_snoc, walk_step_up, (walk_step_down _ x) by done. rewrite app_length. simpl. by rewrite take_app_alt by lia. }
        { intros Ht. destruct (Hr Ht) as [_ Hn]. intros Hin. apply Hn. by right. }
        { done. }
        { intros i Hi. apply (HD (S i) Hi). }
  - split_and!.
    + rewrite reverse_cons, walk_snoc. done.
    + intros Ht. destruct (Hr Ht) as [_ Hn]. by apply not_elem_of_cons.
    + by constructor.
    + intros [|i]; simpl; [intros [= ->]; done|apply HD].
Qed.
Theorem clean_walk s from : (is_abs s = true → from = []) →
  p_rooted (clean s) = is_abs s ∧ walk from (p_comps (clean s)) = walk from (comps s) ∧ Forall (λ c, c ≠ [] ∧ c ≠ str ".") (p_comps (clean s)) ∧
  ∃ n r, p_comps (clean s) = replicate n (str "..") ++ r ∧ str ".." ∉ r ∧ (is_abs s = true → n = 0%nat).
Proof.
  intros Hf. unfold clean. cbn [p_rooted p_comps]. generalize (is_abs s), Hf. clear Hf. intros rooted Hf. split; [done|].
  assert (H : let st := foldl (clean_step rooted) [] (comps s) in walk from (reverse st) = walk from (comps s) ∧ (rooted = true → dotdot ∉ st) ∧ Forall (λ c, c ≠ [] ∧ c ≠ dot) st ∧
    (∀ i, st !! i = Some dotdot → Forall (λ x, x = dotdot) (drop i st))).
  { generalize (comps s). intros cs. induction cs as [|c cs IH] using rev_ind; [split_and!; [done|intros _; apply not_elem_of_nil|constructor|by intros []]|]. cbv zeta in *. rewrite foldl_app. cbn [foldl]. destruct IH as (I1 & I2 & I3 & I4).
    destruct (clean_step_walk rooted (foldl (clean_step rooted) [] cs) c from) as (J1 & J2 & J3 & J4); [naive_solver|done|done|]. split_and!; [|done|done|done]. rewrite J1, I1. by rewrite walk_snoc. }
  cbv zeta in H. revert H. generalize (foldl (clean_step rooted) [] (comps s)). intros st (H1 & H2 & H3 & H4). split; [done|]. split; [by apply Forall_reverse|].
  clear H1 H3. assert (HS : ∃ n r, st = r ++ replicate n dotdot ∧ dotdot ∉ r).
  { clear H2. induction st as [|x st IH]; [exists 0%nat, []; split; [done|]; apply not_elem_of_nil|]. destruct (decide (x = dotdot)) as [->|Hx].
    - exists (length (dotdot :: st)), []. split; [|apply not_elem_of_nil]. specialize (H4 0%nat eq_refl). simpl in H4. cbn [app]. symmetry. apply replicate_as_Forall. split; [done|]. eapply Forall_impl; [exact H4|]. done.
    - destruct IH as (n & r & -> & Hr); [intros i Hi; apply (H4 (S i) Hi)|]. exists n, (x :: r). split; [done|]. by apply not_elem_of_cons. }
  destruct HS as (n & r & -> & Hr). exists n, (reverse r). rewrite reverse_app, reverse_replicate. split_and!; [done|by rewrite elem_of_reverse|]. intros Ht. destruct n; [done|]. exfalso. apply (H2 Ht). apply elem_of_app. right. by left.
Qed.
Example clean_walk_example : p_comps (clean (str "../a/./b//../c")) = [str ".."; str "a"; str "c"] ∧ walk [str "x"; str "y"] (comps (str "../a/./b//../c")) = [str "x"; str "a"; str "c"].
Proof. by vm_compute. Qed.
(** the components below the base are exactly the proper components of the path *)
Theorem safe_path_exact base p : is_malicious p = false → base ≠ [] → p_comps (path_join base p) = p_comps (clean base) ++ filter (λ c, plain c = true) (comps p).
Proof.
  intros H Hb. apply malicious_none in H as [Ha Hd]. unfold path_join. rewrite bool_decide_eq_false_2 by done. unfold clean. simpl. assert (is_abs (base ++ 47 :: p) = is_abs base) as -> by (by destruct base).
  by rewrite comps_app, foldl_app, clean_plain, reverse_app, reverse_involutive by done.
Qed.
(** the check is needed: an escaping path is malicious *)
Theorem escape_is_malicious base p : ¬ inside (clean base) (path_join base p) → is_malicious p = true.
Proof. intros H. destruct (is_malicious p) eqn:E; [done|]. exfalso. by apply H, safe_path_inside. Qed.
Example path_example : is_malicious (str "a/b.txt") = false ∧ path_join (str "/srv/data/") (str "a//./b.txt") = Path true [str "srv"; str "data"; str "a"; str "b.txt"] ∧
  is_malicious (str "../x") = true ∧ is_malicious (str "/etc") = true ∧ path_join (str "up/../base") (str "x") = Path false [str "base"; str "x"].
Proof. split_and!; by vm_compute. Qed.

(** ** C59 *)
Theorem unzip_inside_partial dest es ans i : Forall (λ e, is_malicious (e_name e) = false) es →
  Forall (λ op, match op with OWrite p _ => inside (clean dest) p | OMkdir p => inside (clean dest) p ∨ ancestor p (clean dest) end) (unzip dest es ans i).1.
Proof.
  revert i. induction es as [|e es IH]; intros i Hes; [constructor|]. apply Forall_cons_1 in Hes as [He Hes]. specialize (IH (S i) Hes). cbn [unzip]. pose proof (safe_path_inside dest (e_name e) He) as HI.
  destruct (unzip dest es ans (S i)) as [ops res]. simpl in IH.
  assert (HD : inside (clean dest) (path_dir (path_join dest (e_name e))) ∨ ancestor (path_dir (path_join dest (e_name e))) (clean dest)).
  { destruct HI as [Hr (r & E & Hd)]. destruct (decide (r = [])) as [->|Hn].
    - right. split; [done|]. simpl. rewrite E, app_nil_r. exists (drop (length (p_comps (clean dest)) - 1) (p_comps (clean dest))). by rewrite take_drop.
    - left. split; [done|]. simpl. rewrite E. destruct (exists_last Hn) as (r' & x & ->). exists r'. rewrite !app_length. simpl. split.
      + rewrite app_assoc. rewrite take_app_alt; [done|]. rewrite app_length. lia.
      + intros Hin. apply Hd. apply elem_of_app. by left. }
  destruct (e_isdir e); [constructor; [by left|done]|]. destruct (negb _); [by apply Forall_singleton|]. destruct (negb _); [by apply Forall_singleton|]. destruct (negb _); [by apply Forall_singleton|].
  destruct (negb _); cbn [fst]; [constructor; [done|by apply Forall_singleton]|]. constructor; [done|]. by constructor.
Qed.
Definition all_ok : nat → answer := λ _, Answer true true true true 0.
(** an entry name with .. writes outside the destination *)
Theorem unzip_escapes_refuted : ∃ dest es p data, OWrite p data ∈ (unzip dest es all_ok 0).1 ∧ ¬ inside (clean dest) p ∧ p = Path true [str "etc"; str "cron.d"; str "job"].
Proof.
  exists (str "/srv/upload"), [Entry (str "../../etc/cron.d/job") false (str "x")], (Path true [str "etc"; str "cron.d"; str "job"]), (str "x"). split_and!; [|  |done].
  - assert (H : (unzip (str "/srv/upload") [Entry (str "../../etc/cron.d/job") false (str "x")] all_ok 0).1 !! 1%nat = Some (OWrite (Path true [str "etc"; str "cron.d"; str "job"]) (str "x"))) by (by vm_compute). by eapply elem_of_list_lookup_2.
  - intros [_ (r & E & _)]. assert (HC : p_comps (clean (str "/srv/upload")) = [str "srv"; str "upload"]) by (by vm_compute). rewrite HC in E. by injection E.
Qed.
(** without failures every file entry is written in full at its place, and the paths are returned in order *)
Theorem unzip_complete dest es ans i : (∀ k, a_mkdir (ans k) && a_open (ans k) && a_create (ans k) && a_copy (ans k) = true) →
  (unzip dest es ans i).2 = Some ((λ e, path_join dest (e_name e)) <$> es) ∧
  ∀ e, e ∈ es → if e_isdir e then OMkdir (path_join dest (e_name e)) ∈ (unzip dest es ans i).1 else OWrite (path_join dest (e_name e)) (e_data e) ∈ (unzip dest es ans i).1.
Proof.
  intros Hok. revert i. induction es as [|e es IH]; intros i; [split; [done|]; intros e He; by apply elem_of_nil in He|]. destruct (IH (S i)) as [IH1 IH2]. cbn [unzip]. destruct (unzip dest es ans (S i)) as [ops res]. simpl in *. subst res.
  specialize (Hok i). rewrite !andb_true_iff in Hok. destruct Hok as [[[-> ->] ->] ->]. cbn [negb]. destruct (e_isdir e) eqn:Ed.
  - split; [done|]. intros e' He. apply elem_of_cons in He as [->|He]; [rewrite Ed; by left|]. specialize (IH2 e' He). destruct (e_isdir e'); by right.
  - split; [done|]. intros e' He. apply elem_of_cons in He as [->|He]; [rewrite Ed; right; by left|]. specialize (IH2 e' He). destruct (e_isdir e'); right; by right.
Qed.
(** after a failure no paths are returned although files may have been written *)
Example unzip_example : unzip (str "out") [Entry (str "d/") true []; Entry (str "d/f") false [1; 2]] all_ok 0 =
  ([OMkdir (Path false [str "out"; str "d"]); OMkdir (Path false [str "out"; str "d"]); OWrite (Path false [str "out"; str "d"; str "f"]) [1; 2]], Some [Path false [str "out"; str "d"]; Path false [str "out"; str "d"; str "f"]]).
Proof. by vm_compute. Qed.
Print Assumptions safe_path_inside.
Print Assumptions safe_path_exact.
Print Assumptions clean_walk.
Print Assumptions escape_is_malicious.
Print Assumptions unzip_inside_partial.
Print Assumptions unzip_escapes_refuted.
Print Assumptions unzip_complete.
