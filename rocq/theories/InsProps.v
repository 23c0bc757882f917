(** * C113: InsertToTable *)
From stdpp Require Import gmap sorting.
From Verif Require Import GoBase GoStr GormModel GormSpec GwrapModel GwrapSpec GwrapProps InsModel InsSpec.
Local Open Scope Z_scope.

(** ** statements *)
Lemma create_sent db table log v :
  isent db log (match cv_cols v with [] => IDefault table | cols => IRows table cols (cv_rows v) end) (gorm_create db table log v).
Proof.
  unfold gorm_create, build_values.
  assert (E : text (str "INSERT INTO ") ++ quote table ++ TB 32 :: match cv_cols v with [] => text (str "VALUES()") | cols => TB 40 :: commas (quote <$> cols) ++ text (str ") VALUES ") ++ commas ((λ row, TB 40 :: values_of row ++ [TB 41]) <$> cv_rows v) end =
    istmt_tokens (match cv_cols v with [] => IDefault table | cols => IRows table cols (cv_rows v) end)) by by destruct (cv_cols v).
  unfold build_values in *. split; cbn [fst snd]; rewrite E; [done|]. by destruct (an_err _).
Qed.

(** ** one record *)
Definition field (m : fields) (c : gostr) : val := default VNull (m !! c).
Lemma adds_row (defaults : fields) (cols : list gostr) (f : gostr → val) (r : fields) : NoDup cols →
  (length (f <$> cols) = length cols ∧ (∀ i c v, cols !! i = Some c → (f <$> cols) !! i = Some v → r !! c = Some v) ∧ (∀ c, c ∉ cols → r !! c = defaults !! c)) ↔
  ∀ c, r !! c = if decide (c ∈ cols) then Some (f c) else defaults !! c.
Proof.
  intros Hnd. split.
  - intros (_ & H1 & H2) c. case_decide as Hc; [|by apply H2]. apply elem_of_list_lookup in Hc as [i Hi]. eapply H1; [done|]. by rewrite list_lookup_fmap, Hi.
  - intros H. split_and!; [by rewrite fmap_length| |].
    + intros i c v Hi Hv. rewrite list_lookup_fmap, Hi in Hv. injection Hv as <-. rewrite H, decide_True; [done|]. by eapply elem_of_list_lookup_2.
    + intros c Hc. by rewrite H, decide_False.
Qed.
Lemma keys_nodup {A} (m : gmap gostr A) : NoDup (sort_strings (map_to_list m).*1).
Proof. rewrite sort_strings_perm. apply NoDup_fst_map_to_list. Qed.
(** a map: exactly one row, with exactly the record's fields *)
Theorem insert_one db order table log m : ∃ s, isent db log s (insert_to_table db order table log (One m)) ∧
  ∀ defaults new, adds defaults s new ↔ ∃ r, new = [r] ∧ row_of defaults m r.
Proof.
  eexists. split; [by apply create_sent|]. intros defaults new. unfold convert_map. cbn [cv_cols cv_rows].
  set (keys := sort_strings _). assert (Hk : ∀ c, c ∈ keys ↔ is_Some (m !! c)) by (intros c; apply elem_of_keys).
  assert (Hr : ∀ r, row_of defaults m r ↔ ∀ c, r !! c = if decide (c ∈ keys) then Some (field m c) else defaults !! c).
  { intros r. unfold row_of. split; intros H c; rewrite H; specialize (Hk c); unfold field.
    - destruct (m !! c) eqn:E; [by rewrite decide_True by (apply Hk; eauto)|]. rewrite decide_False; [done|]. intros Hc. apply Hk in Hc as [? ?]. done.
    - destruct (m !! c) eqn:E; [by rewrite decide_True by (apply Hk; eauto)|]. rewrite decide_False; [done|]. intros Hc. apply Hk in Hc as [? ?]. done. }
  assert (Hnd : NoDup keys) by apply keys_nodup. destruct keys as [|k keys'] eqn:E.
  - cbn [adds]. split.
    + intros ->. exists defaults. split; [done|]. apply Hr. intros c. by rewrite decide_False by apply not_elem_of_nil.
    + intros (r & -> & H). f_equal. apply map_eq. intros c. rewrite Hr in H. rewrite H. by rewrite decide_False by apply not_elem_of_nil.
  - rewrite <- E in *. cbn [adds]. split.
    + intros [_ H]. apply Forall2_cons_inv_l in H as (r & l & H & Hl & ->). apply Forall2_nil_inv_l in Hl as ->. exists r. split; [done|]. apply Hr. by apply (adds_row defaults keys (field m) r Hnd).
    + intros (r & -> & H). split; [done|]. constructor; [|constructor]. apply (adds_row defaults keys (field m) r Hnd). by apply Hr.
Qed.

(** ** several records *)
Definition someone (ms : list fields) (c : gostr) : Prop := ∃ m, m ∈ ms ∧ is_Some (m !! c).
Lemma someone_dec ms c : Decision (someone ms c).
Proof.
  refine (cast_if (decide (Exists (λ m : fields, is_Some (m !! c)) ms))).
  - abstract (apply Exists_exists in e; exact e).
  - abstract (intros H; apply n, Exists_exists, H).
Defined.
Global Existing Instance someone_dec.
Lemma add_entries (n i : nat) (kvs : list (gostr * val)) (res : result_map) : (i < n)%nat → NoDup kvs.*1 → (∀ c s, res !! c = Some s → length s = n) →
  ∀ c, foldl (add_entry n i) res kvs !! c = match list_to_map (M:=fields) kvs !! c with Some v => Some (<[i := v]> (default (replicate n VNull) (res !! c))) | None => res !! c end.
Proof.
  intros Hi. revert res. induction kvs as [|[k v] kvs IH]; intros res Hnd Hlen c; [done|]. apply NoDup_cons in Hnd as [Hk Hnd]. cbn [foldl fst snd list_to_map foldr].
  change (foldl (add_entry n i) (add_entry n i res (k, v)) kvs !! c = match <[k:=v]> (list_to_map kvs : fields) !! c with Some v0 => Some (<[i:=v0]> (default (replicate n VNull) (res !! c))) | None => res !! c end).
  rewrite IH; [|done|].
  - unfold add_entry. cbn [fst snd]. destruct (decide (c = k)) as [->|Hne].
    + rewrite not_elem_of_list_to_map_1 by done. rewrite (lookup_insert (A:=list val)), (lookup_insert (A:=val)). by destruct (res !! k).
    + rewrite (lookup_insert_ne (A:=list val)), (lookup_insert_ne (A:=val)) by done. done.
  - intros c' s. unfold add_entry. cbn [fst snd]. destruct (decide (c' = k)) as [->|Hne].
    + rewrite (lookup_insert (A:=list val)). intros [= <-]. rewrite insert_length. destruct (res !! k) eqn:E; [by eapply Hlen|]. apply replicate_length.
    + rewrite (lookup_insert_ne (A:=list val)) by done. apply Hlen.
Qed.
Lemma collect_prefix n order (ms : list fields) : any_range order → (length ms ≤ n)%nat →
  let res := foldl (add_record n order) ∅ (imap pair ms) in
  (∀ c, is_Some (res !! c) ↔ someone ms c) ∧
  (∀ c s, res !! c = Some s → length s = n ∧ (∀ i m, ms !! i = Some m → s !! i = Some (field m c)) ∧ (∀ i, (length ms ≤ i < n)%nat → s !! i = Some VNull)).
Proof.
  intros Ho. induction ms as [|m ms IH] using rev_ind; intros Hn.
  - cbn. split; [|done]. intros c. rewrite lookup_empty. split; [by intros []|]. intros (m & Hm & _). by apply elem_of_nil in Hm.
  - rewrite app_length in Hn. cbn in Hn. destruct IH as [I1 I2]; [lia|]. rewrite imap_app. cbn [imap fmap]. rewrite foldl_app. cbn [foldl]. set (res := foldl _ ∅ (imap pair ms)) in *.
    unfold compose. rewrite Nat.add_0_r. cbv zeta. unfold add_record at 1 2. cbn [fst snd].
    assert (Hm : ∀ c, list_to_map (M:=fields) (order (length ms) m) !! c = m !! c).
    { intros c. f_equal. rewrite (list_to_map_proper (order (length ms) m) (map_to_list m)); [apply list_to_map_to_list| |apply Ho]. rewrite (Ho (length ms) m). apply NoDup_fst_map_to_list. }
    assert (HA : ∀ c, foldl (add_entry n (length ms)) res (order (length ms) m) !! c = match m !! c with Some v => Some (<[length ms := v]> (default (replicate n VNull) (res !! c))) | None => res !! c end).
    { intros c. rewrite add_entries; [by rewrite Hm|lia| |]. - rewrite (Ho (length ms) m). apply NoDup_fst_map_to_list. - intros c' s Hs. by apply I2 in Hs as [? _]. }
    split.
    + intros c. rewrite HA. unfold someone. setoid_rewrite elem_of_app. setoid_rewrite elem_of_list_singleton. destruct (m !! c) eqn:E.
      * split; [|eauto]. intros _. exists m. split; [by right|]. by rewrite E.
      * rewrite I1. unfold someone. split; [intros (m' & ? & ?); eauto|]. intros (m' & [?| ->] & Hx); [eauto|]. rewrite E in Hx. by destruct Hx.
    + intros c s. rewrite HA. destruct (m !! c) as [v|] eqn:E.
      * intros [= <-]. rewrite insert_length. destruct (res !! c) as [s|] eqn:Es.
        -- destruct (I2 c s Es) as (J1 & J2 & J3). cbn [default]. split_and!; [done| |].
           ++ intros i m' [Hi|[Hi Hi']]%lookup_app_Some; [rewrite list_lookup_insert_ne by (apply lookup_lt_Some in Hi; lia); by apply J2|]. destruct (i - length ms)%nat eqn:Ei; [|done]. cbn in Hi'. injection Hi' as <-. replace i with (length ms) by lia. rewrite list_lookup_insert by (unfold id; lia). unfold field. by rewrite E.
           ++ intros i Hi. rewrite app_length in Hi. cbn in Hi. unfold id. rewrite list_lookup_insert_ne by lia. apply J3. lia.
        -- cbn [default]. rewrite replicate_length. split_and!; [done| |].
           ++ intros i m' [Hi|[Hi Hi']]%lookup_app_Some.
              ** rewrite list_lookup_insert_ne by (apply lookup_lt_Some in Hi; lia). rewrite lookup_replicate_2 by (apply lookup_lt_Some in Hi; lia). unfold field. destruct (m' !! c) eqn:Em; [|done]. assert (is_Some (res !! c)) as [? ?] by (apply I1; exists m'; split; [by eapply elem_of_list_lookup_2|by rewrite Em]). congruence.
              ** destruct (i - length ms)%nat eqn:Ei; [|done]. cbn in Hi'. injection Hi' as <-. replace i with (length ms) by lia. rewrite list_lookup_insert by (rewrite replicate_length; lia). unfold field. by rewrite E.
           ++ intros i Hi. rewrite app_length in Hi. cbn in Hi. rewrite list_lookup_insert_ne by lia. apply lookup_replicate_2. lia.
      * intros Hs. destruct (I2 c s Hs) as (J1 & J2 & J3). split_and!; [done| |].
        -- intros i m' [Hi|[Hi Hi']]%lookup_app_Some; [by apply J2|]. destruct (i - length ms)%nat eqn:Ei; [|done]. cbn in Hi'. injection Hi' as <-. replace i with (length ms) by lia. unfold field. rewrite E. apply J3. lia.
        -- intros i Hi. rewrite app_length in Hi. apply J3. lia.
Qed.
(** several maps: one row per map; a field that only other records have is NULL, whatever the default *)
Definition row_among (defaults : fields) (ms : list fields) (m r : fields) : Prop :=
  ∀ c, r !! c = match m !! c with Some v => Some v | None => if decide (someone ms c) then Some VNull else defaults !! c end.
Theorem insert_many db order table log ms : any_range order → ms ≠ [] → (∃ m, m ∈ ms ∧ m ≠ ∅) →
  ∃ s, isent db log s (insert_to_table db order table log (Many ms)) ∧
  ∀ defaults new, adds defaults s new ↔ Forall2 (row_among defaults ms) ms new.
Proof.
  intros Ho Hne (m0 & Hm0 & Hm0'). destruct (collect_prefix (length ms) order ms Ho ltac:(done)) as [I1 I2].
  eexists. split; [unfold insert_to_table; destruct ms as [|m1 ms1]; [done|]; by apply create_sent|]. intros defaults new.
  unfold convert_maps, collect. set (res := foldl _ ∅ _) in *. cbn [cv_cols cv_rows]. set (cols := sort_strings _).
  assert (Hk : ∀ c, c ∈ cols ↔ someone ms c) by (intros c; rewrite <- I1; apply elem_of_keys). assert (Hnd : NoDup cols) by apply keys_nodup.
  destruct cols as [|k ks] eqn:E.
  { exfalso. apply map_choose in Hm0' as (c & v & Hc). assert (c ∈ ([] : list gostr)) as H by (apply Hk; exists m0; split; [done|by rewrite Hc]). by apply elem_of_nil in H. }
  rewrite <- E in *. cbn [adds]. clear E k ks.
  assert (Hrow : ∀ i m, ms !! i = Some m → ((λ c, default VNull (res !! c ≫= λ s : list val, s !! i)) <$> cols) = field m <$> cols).
  { intros i m Hi. apply list_fmap_ext. intros j c Hc. assert (is_Some (res !! c)) as [s Hs] by (apply I1, Hk; by eapply elem_of_list_lookup_2). rewrite Hs. cbn [mbind option_bind]. destruct (I2 c s Hs) as (_ & J & _). by rewrite (J i m Hi). }
  assert (Hra : ∀ i m r, ms !! i = Some m → row_among defaults ms m r ↔ ∀ c, r !! c = if decide (c ∈ cols) then Some (field m c) else defaults !! c).
  { intros i m r Hi. unfold row_among, field. assert (Hm : ∀ c v, m !! c = Some v → someone ms c) by (intros c v Hv; exists m; split; [by eapply elem_of_list_lookup_2|by rewrite Hv]).
    split; intros H c; rewrite H; specialize (Hk c); destruct (m !! c) eqn:Ec.
    - rewrite decide_True; [done|]. apply Hk. by eapply Hm. - case_decide; case_decide; tauto || done. - rewrite decide_True; [done|]. apply Hk. by eapply Hm. - case_decide; case_decide; tauto || done. }
  rewrite !Forall2_same_length_lookup, fmap_length, seq_length. split.
  - intros (_ & Hl & H). split; [done|]. intros i m r Hi Hr. apply (Hra i); [done|]. apply (adds_row defaults cols (field m) r Hnd). rewrite <- (Hrow i m Hi).
    apply (H i); [|done]. rewrite list_lookup_fmap, lookup_seq_lt; [done|by apply lookup_lt_Some in Hi].
  - intros (Hl & H). split; [done|]. split; [done|]. intros i row r Hi Hr. rewrite list_lookup_fmap in Hi. apply fmap_Some in Hi as (j & Hj & ->). apply lookup_seq in Hj as [-> Hj]. cbn [Nat.add].
    destruct (lookup_lt_is_Some_2 ms i Hj) as [m Hm]. rewrite (Hrow i m Hm). apply (adds_row defaults cols (field m) r Hnd). apply (Hra i); [done|]. by apply (H i).
Qed.
(** records with the same fields: exactly these rows *)
Theorem insert_many_uniform db order table log ms m0 : any_range order → ms ≠ [] → m0 ≠ ∅ → (∀ m, m ∈ ms → dom m = dom (m0 : fields)) →
  ∃ s, isent db log s (insert_to_table db order table log (Many ms)) ∧ ∀ defaults new, adds defaults s new ↔ Forall2 (row_of defaults) ms new.
Proof.
  intros Ho Hne Hm0 Hd. destruct (insert_many db order table log ms Ho Hne) as (s & Hs & H).
  { destruct ms as [|m1 ms1]; [done|]. exists m1. split; [by left|]. intros ->. apply Hm0. apply dom_empty_inv_L. rewrite <- (Hd ∅); [by rewrite dom_empty_L|by left]. }
  exists s. split; [done|]. intros defaults new. rewrite H. assert (E : ∀ m r, m ∈ ms → row_among defaults ms m r ↔ row_of defaults m r).
  { intros m r Hm. unfold row_among, row_of. apply forall_proper. intros c. destruct (m !! c) eqn:Ec; [done|]. rewrite decide_False; [done|]. intros (m' & Hm' & Hc). apply elem_of_dom in Hc. rewrite (Hd m' Hm'), <- (Hd m Hm) in Hc. apply elem_of_dom in Hc as [? ?]. congruence. }
  rewrite !Forall2_same_length_lookup. split; intros [Hl HF]; (split; [done|]); intros i m r Hi Hr; apply E; eauto using elem_of_list_lookup_2.
Qed.
(** no records: an error and no statement *)
Theorem insert_none db order table log : insert_to_table db order table log (Many []) = (log, Some IEmptySlice).
Proof. done. Qed.
(** only records without fields: a single row of defaults, however many records *)
Theorem insert_blank_refuted db order table log n : any_range order → (0 < n)%nat → isent db log (IDefault table) (insert_to_table db order table log (Many (replicate n ∅))).
Proof.
  intros Ho Hn. assert (E : insert_to_table db order table log (Many (replicate n ∅)) = gorm_create db table log (convert_maps order (replicate n ∅))) by (destruct n; [lia|done]). rewrite E.
  assert (C : cv_cols (convert_maps order (replicate n ∅)) = []).
  { unfold convert_maps, collect. cbn [cv_cols]. destruct (collect_prefix (length (replicate n (∅ : fields))) order (replicate n ∅) Ho ltac:(done)) as [I1 _]. set (res := foldl _ ∅ _) in *. assert (res = ∅) as ->; [|done].
    apply map_eq. intros c. rewrite lookup_empty. destruct (res !! c) eqn:Ec; [|done]. exfalso. destruct (proj1 (I1 c) ltac:(by rewrite Ec)) as (m & Hm & Hc). apply elem_of_replicate in Hm as [-> _]. rewrite lookup_empty in Hc. by destruct Hc. }
  pose proof (create_sent db table log (convert_maps order (replicate n ∅))) as H. by rewrite C in H.
Qed.
(** records with different fields: a default is replaced by NULL *)
Definition in_order (i : nat) (m : fields) : list (gostr * val) := map_to_list m.
Definition yes_db (log : list stmt) (s : stmt) : answer := Answer None 1.
Definition rec_a : fields := {[str "a" := VInt 1]}.
Definition rec_b : fields := {[str "b" := VInt 2]}.
Theorem insert_default_refuted : ∃ s new, isent yes_db [] s (insert_to_table yes_db in_order (str "t") [] (Many [rec_a; rec_b])) ∧
  adds {[str "b" := VInt 7]} s new ∧ ∃ r, new !! 0%nat = Some r ∧ r !! str "b" = Some VNull ∧ ¬ row_of {[str "b" := VInt 7]} rec_a r.
Proof.
  set (new := [<[str "b" := VNull]> rec_a; <[str "a" := VNull]> rec_b]). exists (IRows (str "t") [str "a"; str "b"] [[VInt 1; VNull]; [VNull; VInt 2]]), new. split; [by split; vm_compute|]. split.
  - cbn [adds]. split; [apply NoDup_cons; split; [rewrite elem_of_list_singleton; done|apply NoDup_singleton]|].
    assert (H : ∀ r : fields, dom r = {[str "a"; str "b"]} → ∀ c, c ∉ [str "a"; str "b"] → r !! c = ({[str "b" := VInt 7]} : fields) !! c).
    { intros r Hr c Hc. apply not_elem_of_cons in Hc as [Ha Hb]. rewrite elem_of_list_singleton in Hb. rewrite lookup_singleton_ne by congruence. apply not_elem_of_dom. rewrite Hr. set_solver. }
    apply Forall2_cons_2; [|apply Forall2_cons_2; [|by apply Forall2_nil_2]]; (split; [done|]; split; [|apply H; unfold rec_a, rec_b; rewrite dom_insert_L, dom_singleton_L; set_solver]); intros [|[|i]] c v; cbn; try done; intros [= <-] [= <-]; by vm_compute.
  - eexists. split; [done|]. split; [by vm_compute|]. intros Hr. specialize (Hr (str "b")). by vm_compute in Hr.
Qed.
Example insert_many_ex : (insert_to_table yes_db in_order (str "t") [] (Many [<[str "b" := VStr (str "x")]> rec_a; <[str "a" := VInt 3]> rec_b])).1 =
  [istmt_tokens (IRows (str "t") [str "a"; str "b"] [[VInt 1; VStr (str "x")]; [VInt 3; VInt 2]])].
Proof. by vm_compute. Qed.
Example insert_one_ex : (insert_to_table yes_db in_order (str "t") [] (One (<[str "b" := VStr (str "x")]> rec_a))).1 = [istmt_tokens (IRows (str "t") [str "a"; str "b"] [[VInt 1; VStr (str "x")]])].
Proof. by vm_compute. Qed.
Example in_order_any : any_range in_order.
Proof. by intros i m. Qed.
