(** * C103-C105: one-statement wrappers *)
From stdpp Require Import gmap sorting.
From Verif Require Import GoBase GoStr GormModel GormSpec GwrapModel GwrapSpec.
Local Open Scope Z_scope.

(** ** sorting *)
Lemma str_leb_total a b : str_leb a b = true ∨ str_leb b a = true.
Proof.
  revert b. induction a as [|x a IH]; intros [|y b]; simpl; auto.
  destruct (Z.ltb_spec x y), (Z.ltb_spec y x); auto.
Qed.
Global Instance str_le_total : Total str_le.
Proof. intros a b. apply str_leb_total. Qed.
Lemma str_leb_trans a b c : str_leb a b = true → str_leb b c = true → str_leb a c = true.
Proof.
  revert b c. induction a as [|x a IH]; intros [|y b] [|z c]; simpl; auto; try done.
  destruct (Z.ltb_spec x y), (Z.ltb_spec y x), (Z.ltb_spec y z), (Z.ltb_spec z y), (Z.ltb_spec x z), (Z.ltb_spec z x); try done; try lia; eauto.
Qed.
Global Instance str_le_trans : Transitive str_le.
Proof. intros a b c. apply str_leb_trans. Qed.
Lemma str_le_lt a b : str_le a b → a ≠ b → str_lt a b.
Proof.
  unfold str_le. revert b. induction a as [|x a IH]; intros [|y b]; simpl; try done.
  destruct (Z.ltb_spec x y); [by left|]. destruct (Z.ltb_spec y x); [done|]. intros Hle Hne.
  assert (x = y) as -> by lia. right. split; [done|]. apply IH; [done|congruence].
Qed.
Lemma sort_strings_perm l : sort_strings l ≡ₚ l.
Proof. apply merge_sort_Permutation. Qed.
Lemma sort_strings_sorted l : NoDup l → StronglySorted str_lt (sort_strings l).
Proof.
  intros Hnd. assert (Hs : StronglySorted str_le (sort_strings l)) by apply (StronglySorted_merge_sort _).
  assert (NoDup (sort_strings l)) as Hnd' by by rewrite sort_strings_perm.
  revert Hs Hnd'. generalize (sort_strings l) as k. intros k. induction 1 as [|x k Hk IH Hx]; intros Hn; [constructor|].
  apply NoDup_cons in Hn as [Hn Hn']. constructor; [auto|].
  rewrite Forall_forall in Hx |- *. intros y Hy. apply str_le_lt; [auto|]. intros ->. done.
Qed.

Lemma assignments_fst (u : fields) : (assignments u).*1 = sort_strings (map_to_list u).*1.
Proof. unfold assignments. rewrite <-list_fmap_compose. rewrite (list_fmap_ext _ id); [by rewrite list_fmap_id|done]. Qed.
Lemma assignments_sorted u : StronglySorted str_lt (assignments u).*1.
Proof. rewrite assignments_fst. apply sort_strings_sorted, NoDup_fst_map_to_list. Qed.
Lemma elem_of_keys {A} (m : gmap gostr A) k : k ∈ sort_strings (map_to_list m).*1 ↔ is_Some (m !! k).
Proof.
  rewrite sort_strings_perm, elem_of_list_fmap. split.
  - intros ([k' x] & -> & H). apply elem_of_map_to_list in H. by exists x.
  - intros [x H]. exists (k, x). split; [done|]. by apply elem_of_map_to_list.
Qed.
Lemma assignments_elem u k v : (k, v) ∈ assignments u ↔ u !! k = Some v.
Proof.
  unfold assignments. rewrite elem_of_list_fmap. split.
  - intros (k' & [= -> ->] & H). apply elem_of_keys in H as [x Hx]. by rewrite Hx.
  - intros H. exists k. rewrite H. split; [done|]. apply elem_of_keys. by exists v.
Qed.
Lemma assignments_nil u : assignments u = [] ↔ u = ∅.
Proof.
  split.
  - intros H. apply map_eq. intros k. rewrite lookup_empty. destruct (u !! k) eqn:E; [|done].
    apply assignments_elem in E. rewrite H in E. by apply elem_of_nil in E.
  - intros ->. done.
Qed.
Lemma assignments_map u : list_to_map (assignments u) = u.
Proof.
  apply map_eq. intros k. destruct (u !! k) eqn:E.
  - apply elem_of_list_to_map_1; [|by apply assignments_elem].
    rewrite assignments_fst, sort_strings_perm. apply NoDup_fst_map_to_list.
  - apply not_elem_of_list_to_map_1. rewrite assignments_fst, elem_of_keys. rewrite E. by intros [? ?].
Qed.

(** ** meaning *)
Lemma set_row_lookup set r c : NoDup set.*1 →
  set_row set r !! c = match list_to_map (M:=fields) set !! c with Some v => Some v | None => r !! c end.
Proof.
  unfold set_row. revert r. induction set as [|[k v] set IH]; intros r Hnd; simpl; [by rewrite lookup_empty|].
  apply NoDup_cons in Hnd as [Hk Hnd]. rewrite IH by done. destruct (decide (c = k)) as [->|Hne].
  - rewrite lookup_insert. rewrite not_elem_of_list_to_map_1 by done. by rewrite lookup_insert.
  - rewrite lookup_insert_ne by done. by rewrite lookup_insert_ne by done.
Qed.
Lemma set_row_assignments u r c : set_row (assignments u) r !! c = match u !! c with Some v => Some v | None => r !! c end.
Proof.
  rewrite set_row_lookup by (rewrite assignments_fst, sort_strings_perm; apply NoDup_fst_map_to_list).
  by rewrite assignments_map.
Qed.
Global Instance sql_eq_dec a b : Decision (sql_eq a b).
Proof. unfold sql_eq. apply _. Defined.
Lemma holds_dec r p : holds r p ∨ ¬ holds r p.
Proof.
  destruct p; simpl; try (destruct (decide (sql_eq (row_val r col_id) v)); by auto); try (destruct (decide (sql_eq (row_val r c) v)); by auto).
  - destruct (decide (Exists (sql_eq (row_val r col_id)) vs)) as [H|H]; rewrite Exists_exists in H; naive_solver.
  - destruct (decide (row_val r c = VNull)); auto.
  - destruct (decide (Exists (sql_eq (row_val r c)) vs)) as [H|H]; rewrite Exists_exists in H; naive_solver.
  - auto.
Qed.
Lemma selected_dec w r : selected w r ∨ ¬ selected w r.
Proof.
  unfold selected. induction w as [|p w IH]; [left; intros p Hp; by apply elem_of_nil in Hp|].
  destruct (holds_dec r p), IH.
  - left. intros q [->|Hq]%elem_of_cons; auto.
  - right. intros Hall. apply H0. intros q Hq. apply Hall. by right.
  - right. intros Hall. apply H, Hall. left.
  - right. intros Hall. apply H, Hall. left.
Qed.

Lemma update_effect t u w sel r after : (selected w r ↔ sel r) →
  effect (WUpdate t (assignments u) w) r after ↔ changed_to sel u r after.
Proof.
  intros Hsel. simpl. split.
  - intros [[Hs ->]|[Hs ->]].
    + eexists. split; [done|]. split; [|tauto]. intros _ c. apply set_row_assignments.
    + exists r. split; [done|]. split; [tauto|done].
  - intros (r' & -> & H1 & H2). destruct (selected_dec w r) as [Hs|Hs].
    + left. split; [done|]. f_equal. apply map_eq. intros c. rewrite set_row_assignments. apply H1. tauto.
    + right. split; [done|]. f_equal. apply H2. tauto.
Qed.
Lemma delete_effect t w sel r after : (selected w r ↔ sel r) →
  effect (WDelete t w) r after ↔ removed sel r after.
Proof.
  intros Hsel. simpl. unfold removed. split; [intros [[? ->]|[? ->]]; tauto|].
  intros [H1 H2]. destruct (selected_dec w r); [left|right]; tauto.
Qed.

Lemma selected_one p r : selected [p] r ↔ holds r p.
Proof. unfold selected. split; [intros H; apply H; left|]. intros H q ->%elem_of_list_singleton. done. Qed.
Lemma row_val_int r k : row_val r col_id = VInt k ↔ r !! col_id = Some (VInt k).
Proof. unfold row_val. destruct (r !! col_id); naive_solver. Qed.
Lemma id_is_sel id r : holds r (PIdIs (VInt id)) ↔ has_id [id] r.
Proof.
  simpl. unfold sql_eq, has_id. split.
  - intros [H _]. exists id. split; [by apply row_val_int|left].
  - intros (k & H & ->%elem_of_list_singleton). apply row_val_int in H. by rewrite H.
Qed.
Lemma id_in_sel ids r : holds r (PIdIn (VInt <$> ids)) ↔ has_id ids r.
Proof.
  simpl. unfold sql_eq, has_id. split.
  - intros (v & (k & -> & Hk)%elem_of_list_fmap & H & _). exists k. split; [by apply row_val_int|done].
  - intros (k & H & Hk). apply row_val_int in H. exists (VInt k). rewrite H. split; [by apply elem_of_list_fmap_1|done].
Qed.
Lemma id_none_sel r : holds r (PIdIn [VNull]) ↔ has_id [] r.
Proof.
  simpl. unfold sql_eq, has_id. split.
  - intros (v & ->%elem_of_list_singleton & H & H'). done.
  - intros (k & _ & Hk). by apply elem_of_nil in Hk.
Qed.

(** ** statements *)
Definition id_pred (ids : list Z) : pred := PIdIn (match ids with [] => [VNull] | _ => VInt <$> ids end).
Lemma id_pred_sel ids r : selected [id_pred ids] r ↔ has_id ids r.
Proof. rewrite selected_one. unfold id_pred. destruct ids; [apply id_none_sel|apply id_in_sel]. Qed.
Lemma build_ids ids : build (EExpr (str "id in (?)") [ASlice (VInt <$> ids)]) = pred_tokens (id_pred ids).
Proof.
  unfold build, id_pred, pred_tokens. destruct ids as [|i ids]; [done|].
  change (VInt <$> i :: ids) with (VInt i :: (VInt <$> ids)). reflexivity.
Qed.
Lemma and_tokens_ands l : ands l = and_tokens l.
Proof. induction l as [|x [|y l] IH]; [done..|]. simpl in *. by rewrite IH. Qed.

Lemma send_sent db log st : sent db log st (send db log (wstmt_tokens st)).
Proof. unfold sent, send. split; [done|]. simpl. by destruct (an_err _). Qed.

Lemma gorm_updates_sent db table log es w u : es ≠ [] → build <$> es = pred_tokens <$> w → u ≠ ∅ →
  sent db log (WUpdate table (assignments u) w) (gorm_updates db table log es u).
Proof.
  intros Hes Hb Hu. unfold gorm_updates. destruct (assignments u) as [|kv set] eqn:E; [by apply assignments_nil in E|].
  destruct es as [|e es]; [done|]. rewrite Hb, and_tokens_ands. apply send_sent.
Qed.
Lemma gorm_updates_nothing db table log es : gorm_updates db table log es ∅ = (log, None).
Proof. done. Qed.

(** ** C103: by id *)
(** exactly one statement, its columns sorted; exactly the rows with a listed id get exactly the
    given values in exactly the given columns; nothing to set: nothing sent *)
Theorem update_ids_exact db table log ids u :
  (u = ∅ → update_by_ids db table log ids u = (log, None)) ∧
  (u ≠ ∅ → ∃ set w, sent db log (WUpdate table set w) (update_by_ids db table log ids u) ∧
    StronglySorted str_lt set.*1 ∧
    ∀ r after, effect (WUpdate table set w) r after ↔ changed_to (has_id ids) u r after).
Proof.
  split; [by intros ->|]. intros Hu. exists (assignments u), [id_pred ids].
  split; [|split; [apply assignments_sorted|intros r after; apply update_effect, id_pred_sel]].
  apply gorm_updates_sent; [done| |done]. cbn [fmap list_fmap]. by rewrite build_ids.
Qed.
Theorem update_id_exact db table log id u :
  (u = ∅ → update_by_id db table log id u = (log, None)) ∧
  (u ≠ ∅ → ∃ set w, sent db log (WUpdate table set w) (update_by_id db table log id u) ∧
    StronglySorted str_lt set.*1 ∧
    ∀ r after, effect (WUpdate table set w) r after ↔ changed_to (has_id [id]) u r after).
Proof.
  split; [by intros ->|]. intros Hu. exists (assignments u), [PIdIs (VInt id)].
  split; [|split; [apply assignments_sorted|intros r after; apply update_effect; rewrite selected_one; apply id_is_sel]].
  apply gorm_updates_sent; done.
Qed.
(** exactly the rows with a listed id go; with no ids none does, although a statement is sent *)
Theorem del_ids_exact db table log ids :
  ∃ w, sent db log (WDelete table w) (del_by_ids db table log ids) ∧
    ∀ r after, effect (WDelete table w) r after ↔ removed (has_id ids) r after.
Proof.
  exists [id_pred ids]. split; [|intros r after; apply delete_effect, id_pred_sel].
  unfold del_by_ids, gorm_delete. cbn [fmap list_fmap]. rewrite build_ids, and_tokens_ands. apply send_sent.
Qed.

(** ** C104: by conditions *)
Definition arg_pred (c : gostr) (a : arg) : pred :=
  match a with
  | AVal VNull => PNull c | AVal v => PIs c v
  | ASlice [] => PNone c | ASlice [v] => PIs c v | ASlice vs => PIn c vs
  end.
Definition cond_preds (w : conds) : list pred :=
  (λ k, arg_pred k (default (AVal VNull) (w !! k))) <$> sort_strings (map_to_list w).*1.
Lemma build_map (w : conds) : build <$> map_conds w = pred_tokens <$> cond_preds w.
Proof.
  unfold map_conds, cond_preds. rewrite <-!list_fmap_compose. apply list_fmap_ext. intros _ k _. simpl.
  destruct (w !! k) as [[[]|[|v1 [|v2 vs]]]|]; done.
Qed.
Lemma cond_preds_elem w p : p ∈ cond_preds w ↔ ∃ c a, w !! c = Some a ∧ p = arg_pred c a.
Proof.
  unfold cond_preds. rewrite elem_of_list_fmap. split.
  - intros (c & -> & [a Ha]%elem_of_keys). exists c, a. by rewrite Ha.
  - intros (c & a & Ha & ->). exists c. rewrite Ha. split; [done|]. apply elem_of_keys. by exists a.
Qed.
Lemma arg_pred_agrees c a r : holds r (arg_pred c a) → agrees (row_val r c) a.
Proof.
  unfold sql_eq. destruct a as [[]|[|v1 [|v2 vs]]]; simpl; unfold sql_eq; try tauto.
  - intros [-> _]. left.
  - intros (v & Hv & -> & _). done.
Qed.
Lemma arg_pred_holds c a r : (∀ vs, a = ASlice vs → VNull ∉ vs) → agrees (row_val r c) a → holds r (arg_pred c a).
Proof.
  intros Hn. destruct a as [[]|vs]; simpl; [done|intros ->; done..|]. intros Hv.
  assert (row_val r c ≠ VNull) by (intros E; rewrite E in Hv; by apply (Hn vs)).
  destruct vs as [|v1 [|v2 vs]]; simpl; [by apply elem_of_nil in Hv|by apply elem_of_list_singleton in Hv|].
  exists (row_val r c). done.
Qed.
Lemma cond_preds_sound w r : selected (cond_preds w) r → agrees_all w r.
Proof. intros Hs c a Ha. apply arg_pred_agrees, Hs, cond_preds_elem. eauto. Qed.
Lemma cond_preds_complete w r : no_null_in_slices w → agrees_all w r → selected (cond_preds w) r.
Proof.
  intros Hn Hall p (c & a & Ha & ->)%cond_preds_elem. apply arg_pred_holds; [|by apply Hall].
  intros vs ->. by eapply Hn.
Qed.
Lemma map_conds_nil w : map_conds w = [] ↔ w = ∅.
Proof.
  split; [|by intros ->]. intros H. apply map_eq. intros k. rewrite lookup_empty. destruct (w !! k) eqn:E; [|done].
  assert (k ∈ sort_strings (map_to_list w).*1) as Hk by (apply elem_of_keys; by eexists).
  apply fmap_nil_inv in H. rewrite H in Hk. by apply elem_of_nil in Hk.
Qed.

(** nothing to set: nothing sent.  No conditions: refused, nothing sent.  Otherwise one statement;
    rows that disagree with a condition stay, and if no slice holds a NULL the others are changed *)
Theorem update_where_exact db table log w u :
  (u = ∅ → update_by_where db table log w u = (log, None)) ∧
  (u ≠ ∅ → w = ∅ → update_by_where db table log w u = (log, Some WMissingWhere)) ∧
  (u ≠ ∅ → w ≠ ∅ → ∃ set p, sent db log (WUpdate table set p) (update_by_where db table log w u) ∧
    StronglySorted str_lt set.*1 ∧
    (∀ r after, effect (WUpdate table set p) r after → ¬ agrees_all w r → after = Some r) ∧
    (no_null_in_slices w → ∀ r after, effect (WUpdate table set p) r after ↔ changed_to (agrees_all w) u r after)).
Proof.
  split; [by intros ->|]. split.
  - intros Hu ->. unfold update_by_where, gorm_updates. destruct (assignments u) eqn:E; [by apply assignments_nil in E|done].
  - intros Hu Hw. exists (assignments u), (cond_preds w). split; [|split; [apply assignments_sorted|split]].
    + apply gorm_updates_sent; [by rewrite map_conds_nil|apply build_map|done].
    + intros r after [[Hs _]|[_ ->]] Hna; [|done]. by apply cond_preds_sound in Hs.
    + intros Hn r after. apply update_effect. split; [apply cond_preds_sound|by apply cond_preds_complete].
Qed.

(** examples: the texts *)
Definition no_error : list stmt → stmt → answer := λ _ _, Answer None 1.
Example update_by_ids_text :
  (update_by_ids no_error (str "t") [] [3; 7] {[str "b" := VInt 1; str "a" := VNull]}).1 =
  [text (str "UPDATE `t` SET `a`=") ++ TV VNull :: text (str ",`b`=") ++ TV (VInt 1) :: text (str " WHERE id in (") ++
   TV (VInt 3) :: TB 44 :: TV (VInt 7) :: text (str ")")].
Proof. by vm_compute. Qed.
Example del_none_text : (del_by_ids no_error (str "t") [] []).1 = [text (str "DELETE FROM `t` WHERE id in (") ++ TV VNull :: text (str ")")].
Proof. by vm_compute. Qed.
Example update_by_where_text :
  (update_by_where no_error (str "t") [] {[str "s" := AVal VNull; str "k" := ASlice [VInt 1; VInt 2]; str "a" := AVal (VInt 5)]} {[str "b" := VInt 1]}).1 =
  [text (str "UPDATE `t` SET `b`=") ++ TV (VInt 1) :: text (str " WHERE `a` = ") ++ TV (VInt 5) :: text (str " AND `k` IN (") ++
   TV (VInt 1) :: TB 44 :: TV (VInt 2) :: text (str ") AND `s` IS NULL")].
Proof. by vm_compute. Qed.
Example update_id_error : update_by_id (λ _ _, Answer (Some (str "gone")) 0) (str "t") [] 4 {[str "b" := VInt 1]} =
  ([text (str "UPDATE `t` SET `b`=") ++ TV (VInt 1) :: text (str " WHERE id=") ++ [TV (VInt 4)]], Some (WDatabase (str "gone"))).
Proof. by vm_compute. Qed.

(** a slice with a NULL: the row whose column is NULL agrees, but stays *)
Definition null_where : conds := {[str "k" := ASlice [VInt 1; VNull]]}.
Definition null_row : trow := {[col_id := VInt 1; str "b" := VInt 0; str "k" := VNull]}.
Theorem update_where_refuted :
  ∃ st, sent no_error [] st (update_by_where no_error (str "t") [] null_where {[str "b" := VInt 9]}) ∧
    agrees_all null_where null_row ∧ ∀ after, effect st null_row after ↔ after = Some null_row.
Proof.
  exists (WUpdate (str "t") [(str "b", VInt 9)] [PIn (str "k") [VInt 1; VNull]]). split; [split; by vm_compute|]. split.
  - intros c a H. unfold null_where in H. apply lookup_singleton_Some in H as [<- <-]. simpl. right. left.
  - intros after. assert (¬ selected [PIn (str "k") [VInt 1; VNull]] null_row) as Hns.
    { rewrite selected_one. intros (v & _ & H & Hn). apply Hn. by vm_compute. }
    simpl. tauto.
Qed.

(** ** C105: soft deletion *)
Theorem soft_del_exact db table log id t1 t2 :
  ∃ set w, sent db log (WUpdate table set w) (soft_del db table log id t1 t2) ∧
    ∀ r after, effect (WUpdate table set w) r after ↔ changed_to (has_id [id]) (deletion t1 t2) r after.
Proof.
  assert (Heq : <[str "deleted_at" := VInt t2]> (<[str "updated_at" := VInt t1]> (∅ : fields)) = deletion t1 t2)
    by (unfold deletion; rewrite insert_commute by done; done).
  assert (Hne : deletion t1 t2 ≠ ∅) by (unfold deletion; apply insert_non_empty).
  destruct (proj2 (update_id_exact db table log id (deletion t1 t2)) Hne) as (set & w & H1 & _ & H2).
  exists set, w. split; [|done]. unfold soft_del. rewrite Heq. exact H1.
Qed.
(** deleting again moves the deletion time, although the row was gone already *)
Definition deleted_row : trow := {[col_id := VInt 1; str "updated_at" := VInt 5; str "deleted_at" := VInt 5]}.
Theorem soft_del_refuted :
  ∃ st, sent no_error [] st (soft_del no_error (str "t") [] 1 8 9) ∧
    ∃ after, effect st deleted_row (Some after) ∧
      deleted_row !! str "deleted_at" = Some (VInt 5) ∧ after !! str "deleted_at" = Some (VInt 9) ∧ after !! str "updated_at" = Some (VInt 8).
Proof.
  exists (WUpdate (str "t") [(str "deleted_at", VInt 9); (str "updated_at", VInt 8)] [PIdIs (VInt 1)]).
  split; [split; by vm_compute|].
  eexists. split; [left; split; [|done]|split; [|split]; by vm_compute].
  rewrite selected_one. split; [by vm_compute|done].
Qed.
