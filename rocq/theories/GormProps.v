(** * Batched inserts and updates: theorems *)
From stdpp Require Import gmap.
From Verif Require Import GoBase GoStr GormModel GormSpec.
Local Open Scope Z_scope.

(** ** placeholder expansion *)
Lemma text_app a b : text (a ++ b) = text a ++ text b.
Proof. apply fmap_app. Qed.
Lemma expand_plain s : plain s → ∀ ap r args, expand ap (s ++ r) args = text s ++ expand (match last s with Some b => b =? 40 | None => ap end) r args.
Proof.
  unfold plain. induction s as [|b s IH]; intros Hs ap r args; [done|]. apply not_elem_of_cons in Hs as [Hb Hs]. cbn [app expand text fmap list_fmap]. destruct (Z.eqb_spec b 63); [done|]. fold (text s). rewrite IH by done. destruct s as [|b2 s]; [done|]. change (last (b :: b2 :: s)) with (last (b2 :: s)). destruct (last (b2 :: s)) eqn:E; [done|by apply last_None in E].
Qed.
Lemma commas_cons x y r : commas (x :: y :: r) = x ++ TB 44 :: commas (y :: r).
Proof. done. Qed.
Lemma join_text names : text (join [44] ((λ f, [96] ++ f ++ [96]) <$> names)) = commas (quoted <$> names).
Proof.
  induction names as [|f [|g r] IH]; [done| |].
  - cbn. unfold quoted. by rewrite !fmap_app.
  - change ((λ f, [96] ++ f ++ [96]) <$> f :: g :: r) with (([96] ++ f ++ [96]) :: ((λ f, [96] ++ f ++ [96]) <$> g :: r)). cbn [fmap list_fmap] in IH |- *. cbn [join]. rewrite !text_app. cbn [join] in IH. rewrite IH. rewrite commas_cons. unfold quoted at 2. cbn [text fmap list_fmap app]. f_equal.
Qed.
Lemma rows_expand (rows : list (list val)) k : length rows = S k → Forall (λ row, row ≠ []) rows → ∀ ap,
  expand ap ((replicate k (str "(?),") ≫= id) ++ str "(?)") (ASlice <$> rows) = commas ((λ row, TB 40 :: values_of row ++ [TB 41]) <$> rows).
Proof.
  revert rows. induction k as [|k IH]; intros [|row rows] Hl Hne ap; try done; apply Forall_cons_1 in Hne as [H1 Hne].
  - destruct rows; [|done]. destruct row as [|v row]; [done|]. cbn. rewrite app_nil_r. done.
  - destruct rows as [|row2 rows]; [done|]. specialize (IH (row2 :: rows) ltac:(simpl in *; lia) Hne). 
    change (replicate (S k) (str "(?),") ≫= id) with (str "(?)," ++ (replicate k (str "(?),") ≫= id)). rewrite <- app_assoc. change (str "(?),") with [40; 63; 41; 44]. 
    change ((λ row0, TB 40 :: values_of row0 ++ [TB 41]) <$> row :: row2 :: rows) with ((TB 40 :: values_of row ++ [TB 41]) :: ((λ row0, TB 40 :: values_of row0 ++ [TB 41]) <$> row2 :: rows)). 
    assert (HC : ∀ x l, l ≠ [] → commas (x :: l) = x ++ TB 44 :: commas l) by (by intros x [|? ?]). rewrite HC by done. rewrite <- (IH false). destruct row as [|v row]; [done|]. change (ASlice <$> (v :: row) :: row2 :: rows) with (ASlice (v :: row) :: (ASlice <$> row2 :: rows)).
    remember ((replicate k [40; 63; 41; 44] ≫= id) ++ str "(?)") as R eqn:ER. cbn [app expand]. cbn [Z.eqb Pos.eqb]. cbn [app]. subst R. change (str "(?),") with [40; 63; 41; 44]. by rewrite <- !app_assoc.
Qed.
Lemma trim_comma_snoc s : trim_comma (s ++ [44]) = s.
Proof. unfold trim_comma. rewrite last_snoc. simpl. rewrite app_length. simpl. replace (length s + 1 - 1)%nat with (length s) by lia. apply take_app. Qed.
Lemma replicate_bind_snoc {A} k (x : list A) : replicate (S k) x ≫= id = (replicate k x ≫= id) ++ x.
Proof. induction k as [|k IH]; [cbn; by rewrite app_nil_r|]. change (replicate (S (S k)) x ≫= id) with (x ++ (replicate (S k) x ≫= id)). rewrite IH at 1. change (replicate (S k) x ≫= id) with (x ++ (replicate k x ≫= id)). by rewrite app_assoc. Qed.
Lemma insert_expand table names rows : plain table → Forall plain names → names ≠ [] → rows ≠ [] → Forall (λ row, row ≠ []) rows →
  gorm_exec (insert_sql table names (length (ASlice <$> rows))) (ASlice <$> rows) = insert_tokens (Insert table names rows).
Proof.
  intros Ht Hn Hne Hr Hrs. rewrite fmap_length. destruct rows as [|r0 rows0] eqn:Er; [done|]. rewrite <- Er in *. assert (Hl : length rows = S (length rows0)) by (by rewrite Er). clear Er. unfold insert_sql. rewrite Hl, replicate_bind_snoc. set (k := length rows0) in *.
  assert (HE : str "insert into " ++ table ++ str "(" ++ join [44] ((λ f, [96] ++ f ++ [96]) <$> names) ++ str ") values " ++ (replicate k (str "(?),") ≫= id) ++ str "(?)," = 
    (str "insert into " ++ table ++ str "(" ++ join [44] ((λ f, [96] ++ f ++ [96]) <$> names) ++ str ") values " ++ (replicate k (str "(?),") ≫= id) ++ str "(?)") ++ [44]) by (by rewrite <- !app_assoc).
  rewrite HE, trim_comma_snoc. unfold gorm_exec.
  assert (HP : plain (str "insert into " ++ table ++ str "(" ++ join [44] ((λ f, [96] ++ f ++ [96]) <$> names) ++ str ") values ")).
  { assert (HA : ∀ a b, plain a → plain b → plain (a ++ b)) by (unfold plain; intros a b Ha Hb H; apply elem_of_app in H as [H|H]; done).
    assert (HD : ∀ s, bool_decide (plain s) = true → plain s) by (intros s H; by apply bool_decide_eq_true in H).
    repeat (apply HA; [first [done|apply HD; by vm_compute|idtac]|]); [|apply HD; by vm_compute]. clear -Hn HA HD. induction names as [|f [|g r] IH]; [apply HD; by vm_compute| |].
    - apply Forall_cons_1 in Hn as [Hf _]. cbn [fmap list_fmap join]. apply HA; [apply HD; by vm_compute|]. apply HA; [done|apply HD; by vm_compute].
    - apply Forall_cons_1 in Hn as [Hf Hn]. cbn [fmap list_fmap] in IH |- *. cbn [join]. apply HA; [apply HA; [apply HD; by vm_compute|apply HA; [done|apply HD; by vm_compute]]|]. apply HA; [apply HD; by vm_compute|by apply IH]. }
  rewrite !app_assoc. rewrite <- !app_assoc. 
  replace (str "insert into " ++ table ++ str "(" ++ join [44] ((λ f, [96] ++ f ++ [96]) <$> names) ++ str ") values " ++ (replicate k (str "(?),") ≫= id) ++ str "(?)") with ((str "insert into " ++ table ++ str "(" ++ join [44] ((λ f, [96] ++ f ++ [96]) <$> names) ++ str ") values ") ++ ((replicate k (str "(?),") ≫= id) ++ str "(?)")) by (by rewrite <- !app_assoc).
  rewrite expand_plain by done. rewrite rows_expand by done. rewrite !text_app, join_text. unfold insert_tokens. cbn [in_table in_cols in_rows]. by rewrite <- !app_assoc.
Qed.

(** ** C68 *)
Lemma dump_all_Some maps : dump_all (Some <$> maps) = Some maps.
Proof. induction maps as [|m r IH]; [done|]. cbn. cbn in IH. by rewrite IH. Qed.
Lemma dump_all_inv rs maps : dump_all rs = Some maps → rs = Some <$> maps.
Proof. revert maps. induction rs as [|[m|] r IH]; intros maps E; cbn in E; [by simplify_eq| |done]. destruct (dump_all r); [|done]. injection E as <-. cbn. by rewrite (IH l). Qed.
Lemma dump_all_None rs : dump_all rs = None → None ∈ rs.
Proof. induction rs as [|[m|] r IH]; intros E; cbn in E; [done| |by left]. right. apply IH. by destruct (dump_all r). Qed.
(** the answer counts as success *)
Definition accepted (a : answer) : Prop := an_err a = None ∧ an_rows a ≠ 0.
Definition keys (m : fields) : list gostr := (map_to_list m).*1.
Lemma keys_spec m f : f ∈ keys m ↔ is_Some (m !! f).
Proof.
  unfold keys. rewrite elem_of_list_fmap. split.
  - intros ([? v] & -> & H). apply elem_of_map_to_list in H. by eexists.
  - intros [v H]. exists (f, v). split; [done|by apply elem_of_map_to_list].
Qed.
(** the statement sent and the error reported *)
Theorem batch_insert_statement db order table log m0 maps : plain table → m0 ≠ ∅ → (∀ f, is_Some (m0 !! f) → plain f) → order log m0 ≡ₚ keys m0 → 
  ∃ rows e, batch_insert db order table log (Some <$> m0 :: maps) = (log ++ [insert_tokens (Insert table (order log m0) rows)], e) ∧ Forall2 (row_for (order log m0)) (m0 :: maps) rows ∧
    (e = None ↔ accepted (db log (insert_tokens (Insert table (order log m0) rows)))) ∧ e ≠ Some EDump.
Proof.
  intros Ht Hm Hk Ho. set (cols := order log m0) in *. set (rows := (λ m : fields, (λ f, default VNull (m !! f)) <$> cols) <$> m0 :: maps). 
  assert (Hcols : cols ≠ []). { intros E. rewrite E in Ho. apply Permutation_nil in Ho. apply Hm, map_to_list_empty_iff. unfold keys in Ho. by apply fmap_nil_inv in Ho. }
  assert (Hex : gorm_exec (insert_sql table cols (length (ASlice <$> rows))) (ASlice <$> rows) = insert_tokens (Insert table cols rows)).
  { apply insert_expand; [done| |done|done|]. - apply Forall_forall. intros f Hf. apply Hk. rewrite Ho in Hf. by apply keys_spec. - unfold rows. apply Forall_fmap, Forall_forall. intros m _. simpl. by destruct cols. }
  exists rows. unfold batch_insert. rewrite dump_all_Some. change (Some <$> m0 :: maps) with (Some m0 :: (Some <$> maps)). cbv beta iota zeta. change (default ∅ (head (m0 :: maps))) with m0. fold cols.
  replace ((λ m : fields, ASlice ((λ f, default VNull (m !! f)) <$> cols)) <$> m0 :: maps) with (ASlice <$> rows) by (unfold rows; by rewrite <- list_fmap_compose). cbv zeta. rewrite Hex. eexists. split; [done|]. split; [|split].
  - unfold rows. clear. assert (H : ∀ l : list fields, Forall2 (row_for cols) l ((λ m : fields, (λ f, default VNull (m !! f)) <$> cols) <$> l)); [|apply H]. induction l as [|m l IH]; constructor; [|done]. unfold row_for. clear. induction cols as [|c cols IH]; constructor; [by destruct (m !! c)|done].
  - unfold accepted. destruct (db log (insert_tokens (Insert table cols rows))) as [[err|] n]; cbn [an_err an_rows from_option id].
    + destruct (contains err (str "Duplicate entry")); split; intros H; [done|by destruct H|done|by destruct H].
    + assert (contains (str "<nil>") (str "Duplicate entry") = false) as -> by (by vm_compute). destruct (Z.eqb_spec n 0); split; intros H; [done|by destruct H|done|done].
  - destruct (contains _ _); [done|]. destruct (an_err _); [done|]. by destruct (_ =? 0).
Qed.
(** a record that cannot be converted stops the whole batch before anything is sent *)
Theorem batch_insert_bad_record db order table log records : None ∈ records → batch_insert db order table log records = (log, Some EDump).
Proof.
  intros Hin. unfold batch_insert. destruct records as [|r rs] eqn:E; [by apply elem_of_nil in Hin|]. rewrite <- E in *. clear E. destruct (dump_all records) as [maps|] eqn:Ed; [|done]. exfalso. apply dump_all_inv in Ed. subst. apply elem_of_list_fmap in Hin as (m & ? & _). done.
Qed.
Lemma row_for_stores cols m row : NoDup cols → (∀ f, f ∈ cols ↔ is_Some (m !! f)) → row_for cols m row → stores cols m row.
Proof.
  intros Hnd Hd Hr. unfold stores. split; [symmetry; by apply Forall2_length in Hr|]. unfold row_for in Hr. apply map_eq. intros f.
  assert (HL : ∀ i c, cols !! i = Some c → ∃ v, row !! i = Some v ∧ v = match m !! c with Some x => x | None => VNull end) by (intros i c Hc; destruct (Forall2_lookup_l _ _ _ _ _ Hr Hc) as (v & Hv & ->); by eexists).
  assert (HZ : ∀ i c v, cols !! i = Some c → row !! i = Some v → zip cols row !! i = Some (c, v)) by (intros i c v H1 H2; apply lookup_zip_with_Some; by eexists _, _).
  assert (Hz : (zip cols row).*1 = cols) by (apply fst_zip; apply Forall2_length in Hr; lia).
  destruct (m !! f) as [x|] eqn:Ex.
  - assert (f ∈ cols) as Hf by (apply Hd; by eexists). apply elem_of_list_lookup in Hf as [i Hi]. destruct (HL _ _ Hi) as (v & Hv & Ev). rewrite Ex in Ev. subst v. apply elem_of_list_to_map_1; [by rewrite Hz|]. apply elem_of_list_lookup. exists i. by apply HZ.
  - apply not_elem_of_list_to_map_1. rewrite Hz. intros H. apply Hd in H as [y Hy]. by rewrite Ex in Hy.
Qed.
(** records with the same fields: every row stores exactly its record *)
Theorem batch_insert_partial db order table log m0 maps : plain table → m0 ≠ ∅ → (∀ f, is_Some (m0 !! f) → plain f) → order log m0 ≡ₚ keys m0 → Forall (λ m, dom m = dom m0) maps →
  ∃ cols rows e, batch_insert db order table log (Some <$> m0 :: maps) = (log ++ [insert_tokens (Insert table cols rows)], e) ∧ Forall2 (stores cols) (m0 :: maps) rows ∧ NoDup cols.
Proof.
  intros Ht Hm Hk Ho Hd. destruct (batch_insert_statement db order table log m0 maps Ht Hm Hk Ho) as (rows & e & E & HF & _). eexists _, rows, e. split; [exact E|].
  assert (HN : NoDup (order log m0)) by (rewrite Ho; apply NoDup_fst_map_to_list). split; [|done]. 
  assert (HD : Forall (λ m, dom m = dom m0) (m0 :: maps)) by (by constructor). clear E. revert HF HD. generalize (m0 :: maps). intros l HF. induction HF as [|m row l rows Hr HF IH]; intros HD; [constructor|]. apply Forall_cons_1 in HD as [HD1 HD]. constructor; [|by apply IH].
  apply row_for_stores; [done| |done]. intros f. rewrite Ho, keys_spec, <- !elem_of_dom. by rewrite HD1.
Qed.
(** differing field sets: a field only some records have is dropped or becomes NULL; a question
    mark in a field name swallows a row *)
Definition ok_db : list stmt → stmt → answer := λ _ _, Answer None 1.
Definition any_order : list stmt → fields → list gostr := λ _, keys.
Theorem batch_insert_fields_refuted : ∃ r1 r2 : fields, r2 !! str "b" = Some (VInt 2) ∧ 
  batch_insert ok_db any_order (str "t") [] [Some r1; Some r2] = ([insert_tokens (Insert (str "t") [str "a"] [[VInt 1]; [VNull]])], None).
Proof. exists {[str "a" := VInt 1]}, {[str "b" := VInt 2]}. by vm_compute. Qed.
Theorem batch_insert_name_refuted : ∃ r : fields, r !! str "a?" = Some (VInt 1) ∧ 
  batch_insert ok_db any_order (str "t") [] [Some r] = ([text (str "insert into t(`a(") ++ TV (VInt 1) :: text (str ")`) values (?)")], None).
Proof. exists {[str "a?" := VInt 1]}. by vm_compute. Qed.
Example batch_insert_example : ∃ r1 r2 : fields, dom r1 = dom r2 ∧ size r1 = 2%nat ∧ 
  (batch_insert ok_db any_order (str "t") [] [Some r1; Some r2]).1 = [insert_tokens (Insert (str "t") [str "a"; str "b"] [[VInt 1; VStr (str "x")]; [VInt 2; VNull]])].
Proof.
  exists (<[str "a" := VInt 1]> {[str "b" := VStr (str "x")]}), (<[str "a" := VInt 2]> {[str "b" := VNull]}). split_and!; [|by vm_compute..]. by rewrite !dom_insert_L, !dom_singleton_L.
Qed.

(** ** C67 *)
Lemma n_values_app a b : n_values (a ++ b) = n_values a + n_values b.
Proof. induction a as [|[x|x] a IH]; cbn [app n_values]; [done|done|]. rewrite IH. lia. Qed.
Lemma n_values_text s : n_values (text s) = 0.
Proof. induction s as [|b s IH]; [done|]. exact IH. Qed.
Lemma n_values_commas l : n_values (commas l) = foldr (λ x a, n_values x + a) 0 l.
Proof.
  induction l as [|x [|y r] IH]; [done|cbn; lia|]. rewrite commas_cons, n_values_app. cbn [n_values]. rewrite IH. done.
Qed.
Lemma n_values_of vs : n_values (values_of vs) = Z.of_nat (length vs).
Proof. unfold values_of. rewrite n_values_commas. induction vs as [|v vs IH]; [done|]. cbn [fmap list_fmap foldr n_values length]. cbn [fmap list_fmap] in IH. rewrite IH. lia. Qed.
Lemma n_values_insert table cols rows : Forall (λ row, length row = length cols) rows → n_values (insert_tokens (Insert table cols rows)) = Z.of_nat (length rows) * Z.of_nat (length cols).
Proof.
  intros Hr. unfold insert_tokens. cbn [in_table in_cols in_rows]. rewrite !n_values_app, !n_values_text. cbn [n_values]. rewrite !n_values_app, n_values_text, !n_values_commas.
  assert (foldr (λ x a, n_values x + a) 0 (quoted <$> cols) = 0) as ->.
  { clear. induction cols as [|c r IH]; [done|]. cbn [fmap list_fmap foldr]. cbn [fmap list_fmap] in IH. rewrite IH. unfold quoted. cbn [n_values]. by rewrite n_values_app, n_values_text. }
  induction Hr as [|row rows Hl Hr IH]; [cbn; lia|]. cbn [fmap list_fmap foldr length n_values]. rewrite n_values_app, n_values_of, Hl. cbn [n_values]. cbn [fmap list_fmap] in IH. lia.
Qed.
Lemma row_for_length cols m row : row_for cols m row → length row = length cols.
Proof. intros H. symmetry. by apply Forall2_length in H. Qed.
Lemma keys_length m : length (keys m) = size m.
Proof. unfold keys. by rewrite fmap_length. Qed.
(** the statement inserts the records of the batch, in order *)
Definition sent_for (table : gostr) (b : list fields) (st : stmt) : Prop :=
  ∃ m0 b' cols rows, b = m0 :: b' ∧ st = insert_tokens (Insert table cols rows) ∧ cols ≡ₚ keys m0 ∧ Forall2 (row_for cols) b rows.
(** convertible records have [s] fields with plain names *)
Definition uniform (s : nat) (records : list (option fields)) : Prop :=
  Forall (λ r, ∀ m : fields, r = Some m → size m = s ∧ ∀ f, is_Some (m !! f) → plain f) records.
Lemma split_loop_ok db order table s : plain table → (0 < s)%nat → Z.of_nat s ≤ 65000 → (∀ log m, order log m ≡ₚ keys m) → ∀ fuel log records, uniform s records → (length records < fuel)%nat →
  ∃ e bs sts rest, split_loop db order table fuel (65000 `div` Z.of_nat s) log records = Some (log ++ sts, e) ∧ records = (Some <$> concat bs) ++ rest ∧
    Forall2 (λ b st, sent_for table b st ∧ n_values st ≤ 65000) bs sts ∧ (e = None → rest = []) ∧ (e = Some EDump → None ∈ rest) ∧ (e = None ∨ e = Some EDump ∨ sts ≠ []) ∧
    ∀ i st, sts !! i = Some st → (accepted (db (log ++ take i sts) st) ↔ e = None ∨ e = Some EDump ∨ (S i < length sts)%nat).
Proof.
  intros Ht Hs0 Hs Ho. set (mx := 65000 `div` Z.of_nat s). assert (Hmx : 1 ≤ mx ∧ mx * Z.of_nat s ≤ 65000) by (unfold mx; pose proof (Z.mul_div_le 65000 (Z.of_nat s)); pose proof (Z.div_le_lower_bound 65000 (Z.of_nat s) 1); lia).
  induction fuel as [|fuel IH]; intros log records Hu Hl; [lia|]. cbn [split_loop]. destruct records as [|r0 rs] eqn:Er.
  { exists None, [], [], []. rewrite app_nil_r. split_and!; [done|done|constructor|done|done|by left|]. intros i st H. by rewrite lookup_nil in H. }
  rewrite <- Er in *. assert (Hlen : (0 < length records)%nat) by (rewrite Er; simpl; lia). clear Er. set (n := Z.to_nat (if mx <? Z.of_nat (length records) then mx else Z.of_nat (length records))).
  assert (Hn : (0 < n)%nat ∧ (n ≤ length records)%nat ∧ Z.of_nat n ≤ mx) by (unfold n; destruct (Z.ltb_spec mx (Z.of_nat (length records))); lia). 
  pose proof (take_drop n records) as HTD. assert (Hub : uniform s (take n records) ∧ uniform s (drop n records)) by (unfold uniform in *; rewrite <- HTD in Hu; by apply Forall_app in Hu). destruct Hub as [Hub Hud].
  assert (Hlb : length (take n records) = n) by (rewrite take_length; lia). 
  destruct (decide (None ∈ take n records)) as [Hnone|Hsome].
  { rewrite batch_insert_bad_record by done. exists (Some EDump), [], [], records. rewrite app_nil_r. split_and!; [done|done|constructor|done| |by right; left|]. - intros _. rewrite <- HTD. apply elem_of_app. by left. - intros i st H. by rewrite lookup_nil in H. }
  destruct (dump_all (take n records)) as [maps|] eqn:Ed; [|by apply dump_all_None in Ed]. apply dump_all_inv in Ed. destruct maps as [|m0 maps]; [rewrite Ed in Hlb; simpl in Hlb; lia|]. rewrite Ed.
  unfold uniform in Hub. rewrite Ed in Hub. apply Forall_fmap in Hub. assert (Hub' := Hub). apply Forall_cons_1 in Hub' as [H0 _]. specialize (H0 m0 eq_refl) as [Hs1 Hp0].
  destruct (batch_insert_statement db order table log m0 maps Ht) as (rows & e & E & HF & Hacc & Hnd); [intros ->; rewrite map_size_empty in Hs1; lia|done|apply Ho|]. rewrite E. set (st := insert_tokens _) in *. 
  assert (Hst : sent_for table (m0 :: maps) st ∧ n_values st ≤ 65000).
  { split; [by exists m0, maps, (order log m0), rows|]. unfold st. rewrite n_values_insert.
    - rewrite (Ho log m0), keys_length, Hs1. apply Forall2_length in HF. rewrite <- HF. rewrite Ed, fmap_length in Hlb. rewrite Hlb. nia.
    - apply Forall_forall. intros row Hrow. apply elem_of_list_lookup in Hrow as [i Hi]. destruct (Forall2_lookup_r _ _ _ _ _ HF Hi) as (m & _ & Hm). by eapply row_for_length. }
  destruct e as [err|].
  { exists (Some err), [m0 :: maps], [st], (drop n records). cbn [concat]. rewrite app_nil_r, <- Ed, HTD. split_and!; [done|done|by constructor|done|by intros [= ->]|by right; right|]. intros i st' H. destruct i as [|i]; [|done]. injection H as <-. rewrite app_nil_r. rewrite <- Hacc. simpl. split; [done|]. intros [H|[[= ->]|H]]; [done|done|lia]. }
  destruct (IH (log ++ [st]) (drop n records) Hud) as (e & bs & sts & rest & E' & Hrec & HF' & Hn1 & Hn2 & Hn3 & Hans); [rewrite drop_length; lia|]. exists e, ((m0 :: maps) :: bs), (st :: sts), rest. rewrite E', <- app_assoc. split_and!; [done| |by constructor|done|done|by right; right|].
  - cbn [concat]. rewrite <- HTD at 1. rewrite Ed, Hrec, fmap_app. by rewrite app_assoc.
  - intros i st' H. destruct i as [|i].
    + injection H as <-. rewrite app_nil_r, <- Hacc. split; [intros _|done]. destruct Hn3 as [?|[?|?]]; [by left|by right; left|]. right; right. destruct sts; [done|simpl; lia].
    + cbn [lookup list_lookup] in H. cbn [take]. specialize (Hans i st' H). rewrite <- app_assoc in Hans. cbn [app] in Hans. rewrite Hans. simpl. by rewrite <- Nat.succ_lt_mono.
Qed.
(** records with the same number of fields: all sent once and in order, every statement fits; on
    failure the batches before *)
Theorem split_insert_partial db order table s log records : plain table → (0 < s)%nat → Z.of_nat s ≤ 65000 → (∀ log m, order log m ≡ₚ keys m) → uniform s records →
  ∃ fuel e bs sts rest, split_insert db order table fuel log records = Some (log ++ sts, e) ∧ records = (Some <$> concat bs) ++ rest ∧
    Forall2 (λ b st, sent_for table b st ∧ n_values st ≤ 65000) bs sts ∧ (e = None → rest = []) ∧ (e = Some EDump → None ∈ rest) ∧ 
    ∀ i st, sts !! i = Some st → (accepted (db (log ++ take i sts) st) ↔ e = None ∨ e = Some EDump ∨ (S i < length sts)%nat).
Proof.
  intros Ht Hs0 Hs Ho Hu. exists (S (length records)). destruct records as [|[m|] rs] eqn:Er.
  - exists None, [], [], []. rewrite app_nil_r. split_and!; [done|done|constructor|done|done|]. intros i st H. by rewrite lookup_nil in H.
  - assert (Hm : size m = s). { apply Forall_cons_1 in Hu as [H _]. by apply H. } unfold split_insert. rewrite Hm. destruct (Z.eqb_spec (Z.of_nat s) 0); [lia|]. rewrite <- Er in *.
    destruct (split_loop_ok db order table s Ht Hs0 Hs Ho (S (length records)) log records Hu ltac:(lia)) as (e & bs & sts & rest & H1 & H2 & H3 & H4 & H5 & _ & H6). exists e, bs, sts, rest. done.
  - exists (Some EDump), [], [], (None :: rs). rewrite app_nil_r. split_and!; [done|done|constructor|done|intros _; by left|]. intros i st H. by rewrite lookup_nil in H.
Qed.
Lemma has_size n : ∃ m : fields, size m = n ∧ ∀ f, is_Some (m !! f) → plain f.
Proof.
  assert (H : ∃ m : fields, size m = n ∧ ∀ f, is_Some (m !! f) → plain f ∧ (length f < n)%nat).
  { induction n as [|n (m & Hs & Hp)]; [exists ∅; split; [done|]; intros f [v Hv]; by rewrite lookup_empty in Hv|]. exists (<[replicate n 97 := VNull]> m). split.
    - rewrite map_size_insert_None; [by rewrite Hs|]. apply eq_None_not_Some. intros H. apply Hp in H as [_ H]. rewrite replicate_length in H. lia.
    - intros f Hf. apply lookup_insert_is_Some in Hf as [<-|[_ Hf]].
      + split; [|rewrite replicate_length; lia]. unfold plain. intros H. by apply elem_of_replicate in H as [H _].
      + apply Hp in Hf as [? ?]. split; [done|lia]. }
  destruct H as (m & ? & H). exists m. split; [done|]. intros f Hf. by apply H.
Qed.
(** more than 65000 fields: never returns *)
Theorem split_insert_diverges_refuted db order table log : ∃ m : fields, size m = Z.to_nat 65001 ∧ ∀ records fuel, split_insert db order table fuel log (Some m :: records) = None.
Proof.
  destruct (has_size (Z.to_nat 65001)) as (m & Hs & _). exists m. split; [done|]. intros records fuel. unfold split_insert. rewrite Hs, Z2Nat.id by lia. change (65001 =? 0) with false. change (65000 `div` 65001) with 0. cbv iota. induction fuel as [|fuel IH]; [done|]. cbn [split_loop]. destruct (Z.ltb_spec 0 (Z.of_nat (length (Some m :: records)))) as [_|H]; [|simpl in H; lia]. exact IH.
Qed.
(** a first record without fields: nothing is sent, and no error *)
Theorem split_insert_empty_refuted db order table fuel log records : split_insert db order table fuel log (Some ∅ :: records) = Some (log, None).
Proof. done. Qed.
(** records with differing numbers of fields: a statement exceeds the limit *)
Theorem split_insert_limit_refuted db order table log : (∀ log m, order log m ≡ₚ keys m) → plain table → (∀ log st, accepted (db log st)) → 
  ∃ records fuel log' st, split_insert db order table fuel log records = Some (log', None) ∧ st ∈ log' ∧ n_values st = 100000.
Proof.
  intros Ho Ht Hacc. destruct (has_size (Z.to_nat 65000)) as (m1 & Hs1 & Hp1), (has_size (Z.to_nat 100000)) as (m2 & Hs2 & Hp2). 
  assert (HN : ∀ m : fields, (0 < size m)%nat → m ≠ ∅) by (intros m H ->; rewrite map_size_empty in H; lia).
  exists [Some m1; Some m2], 3%nat. destruct (batch_insert_statement db order table log m1 [] Ht) as (rows & e & E & HF & Ha & _); [apply HN; lia|done|apply Ho|]. destruct e as [e|]; [destruct Ha as [_ Ha]; by specialize (Ha (Hacc _ _))|].
  set (st1 := insert_tokens _) in E. destruct (batch_insert_statement db order table (log ++ [st1]) m2 [] Ht) as (rows2 & e & E2 & HF2 & Ha2 & _); [apply HN; lia|done|apply Ho|]. destruct e as [e|]; [destruct Ha2 as [_ Ha2]; by specialize (Ha2 (Hacc _ _))|].
  set (st2 := insert_tokens _) in E2. exists ((log ++ [st1]) ++ [st2]), st2. split_and!.
  - unfold split_insert. rewrite Hs1, Z2Nat.id by lia. change (65000 =? 0) with false. change (65000 `div` 65000) with 1. cbv iota. cbn [split_loop length]. change (1 <? Z.of_nat 2) with true. cbv iota. change (take (Z.to_nat 1) [Some m1; Some m2]) with (Some <$> [m1]). rewrite E. change (drop (Z.to_nat 1) [Some m1; Some m2]) with [Some m2]. cbv iota. cbn [length]. change (1 <? Z.of_nat 1) with false. cbv iota. change (take (Z.to_nat (Z.of_nat 1)) [Some m2]) with (Some <$> [m2]). rewrite E2. done.
  - apply elem_of_app. right. by left.
  - unfold st2. rewrite n_values_insert.
    + rewrite (Ho _ m2), keys_length, Hs2. apply Forall2_length in HF2. rewrite <- HF2. simpl. lia.
    + apply Forall_forall. intros row Hrow. apply elem_of_list_lookup in Hrow as [i Hi]. destruct (Forall2_lookup_r _ _ _ _ _ HF2 Hi) as (m & _ & Hm). by eapply row_for_length.
Qed.
Example split_insert_example : ∃ r : fields, uniform 1 [Some r; Some r; None; Some r] ∧ 
  split_insert ok_db any_order (str "t") 9 [] [Some r; Some r] = Some ([insert_tokens (Insert (str "t") [str "a"] [[VInt 1]; [VInt 1]])], None) ∧
  split_insert ok_db any_order (str "t") 9 [] [Some r; None] = Some ([], Some EDump).
Proof.
  exists {[str "a" := VInt 1]}. split_and!; [|by vm_compute..]. assert (HH : ∀ r : option fields, (r = None ∨ r = Some {[str "a" := VInt 1]}) → ∀ m, r = Some m → size m = 1%nat ∧ ∀ f, is_Some (m !! f) → plain f).
  { intros r [->| ->] m E; [done|]. injection E as <-. split; [by vm_compute|]. intros f [v Hv]. apply lookup_singleton_Some in Hv as [<- _]. unfold plain. by apply (bool_decide_eq_true (63 ∉ str "a")). }
  unfold uniform. repeat (apply Forall_cons; split; [apply HH; by (left + right)|]). by apply Forall_nil.
Qed.
Print Assumptions batch_insert_statement.
Print Assumptions batch_insert_bad_record.
Print Assumptions batch_insert_partial.
Print Assumptions batch_insert_fields_refuted.
Print Assumptions batch_insert_name_refuted.
Print Assumptions split_insert_partial.
Print Assumptions split_insert_diverges_refuted.
Print Assumptions split_insert_empty_refuted.
Print Assumptions split_insert_limit_refuted.
