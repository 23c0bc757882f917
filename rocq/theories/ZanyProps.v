(** * Property C119: Unzip and archives of other programs *)
From Verif Require Import GoBase GoStr ZipfsModel ZfmtModel ZfmtSpec ZfmtProofs ZfmtCrc ZlaySpec ZlayProps InflModel ZanySpec ZanyCrc ZanyProofs.
From Verif Require InflSpec InflProps.
Local Open Scope Z_scope.

Theorem checksum_unique x c c' : crc_of x c → crc_of x c' → c = c'.
Proof. apply crc_unique. Qed.

Lemma entry_range q h : central_bytes q h → 0 ≤ q_creator q < 65536 ∧ 0 ≤ q_attrs q < 2 ^ 32.
Proof.
  intros (ver & need & fl & me & tm & cr & cs & us & nl & el & cl & di & ea & off & bl & ext & com & bu & bc & bo & _ & H1 & _ & _ & _ & _ & _ & _ & _ & _ & _ & _ & _ & H13 & _).
  apply num_range in H1, H13. change (256 ^ Z.of_nat 2) with 65536 in H1. change (256 ^ Z.of_nat 4) with (2 ^ 32) in H13. done.
Qed.
Lemma read_one x q h c : central_bytes q c → local_bytes q h → at_pos x (q_offset q) h → no_false_signature q → Z.of_nat (length x) < 2 ^ 63 → ∃ i, read_item inflate x (header_of q) = Ret i ∧ unpacked q i.
Proof.
  intros Hc Hh Hat Hsig Hx. apply entry_range in Hc as [R1 R2]. pose proof (dir_says q R1 R2) as Hd. unfold read_item. cbn [header_of z_creator z_attrs z_name]. destruct (mode_dir _ _ _).
  - eexists. split; [done|]. unfold unpacked. cbn. split_and!; [done|done|]. intros H. by destruct H; apply Hd.
  - destruct (ZfmtSafe.read_file_total inflate x (header_of q)) as [r Er]. exists (Item (q_name q) false r). split; [change (ZFile _ _ _ _ _ _ _ _ _) with (header_of q); by rewrite Er|]. unfold unpacked. cbn. split_and!; [done| |].
    + intros H. by apply Hd in H.
    + intros _. split; [done|]. intros d Hcon. assert (E : read_file inflate x (header_of q) = Ret (Some d)); [|rewrite E in Er; by injection Er].
      apply (read_content x q h d); try done. intros Hm. apply InflProps.inflate_rfc1951. destruct Hcon as ([[Hm0 _]|[_ Hs]] & _); [congruence|done].
Qed.
(** an archive that is not ambiguous comes out as it is described *)
Theorem unzip_any_archive_partial x qs e size long : bytes x → Z.of_nat (length x) < 2 ^ 63 → zip_file x qs e size long →
  last_end x e → no_false_locator x e size long → Forall no_false_signature qs →
  ∃ is, read_zip inflate x = Ret (Some is) ∧ Forall2 unpacked qs is.
Proof.
  intros Hb Hx (start & hs & next & Hc & Hat & Hnext & -> & Hend & Hloc) Hlast Hfl Hsig.
  assert (Ln : length next = 4%nat) by (by destruct Hnext as [->|[->| ->]]). pose proof (at_range _ _ _ Hat) as Ra. rewrite app_length, Ln in Ra.
  destruct (read_end_at _ _ _ _ _ _ Hend Hlast Hfl Hb Hx) as (d & Ed & Eo & En); [lia|].
  destruct (at_drop _ _ _ Hat) as (r & Er).
  assert (Hoff : Forall (λ q, 0 ≤ q_offset q < 2 ^ 63) qs). { eapply Forall_impl; [exact Hloc|]. cbn. intros q (h & _ & Hq). apply at_range in Hq. lia. }
  pose proof (directory_length _ _ Hc) as Ld.
  assert (Eop : open_zip x = Ret (Some (header_of <$> qs))).
  { unfold open_zip. rewrite Ed. cbv [mbind go_bind]. rewrite Eo, i64_small by lia. rewrite Er, <- app_assoc. rewrite (read_directory qs hs Hc Hoff); [|by apply read_stop|lia].
    rewrite fmap_length, En, Z.eqb_refl. done. }
  unfold read_zip. rewrite Eop. cbn [mbind go_bind].
  assert (His : ∃ is, read_items inflate x (header_of <$> qs) = Ret is ∧ Forall2 unpacked qs is).
  { clear Eop Er Ed Eo En Hoff Ld Hend Hat Ra Hfl. induction Hc as [|q c qs hs Hq _ IH]; [by exists []|]. inversion Hloc as [|?? (h & Hh & Hp) Hl2]; subst. inversion Hsig as [|?? Hs1 Hs2]; subst.
    destruct (read_one x q h c Hq Hh Hp Hs1 Hx) as (i & Ei & Hi). destruct (IH Hl2 Hs2) as (is & Eis & His). exists (i :: is). split; [|by constructor]. cbn [fmap list_fmap read_items]. rewrite Ei. cbn [mbind go_bind].
    change (list_fmap _ _ header_of qs) with (header_of <$> qs). by rewrite Eis. }
  destruct His as (is & Eis & His). exists is. by rewrite Eis.
Qed.

(** ** archives made by hand *)
Lemma num_le n v : 0 ≤ v < 256 ^ Z.of_nat n → le_num n v (to_le n v).
Proof. intros H. by apply (field_le n v H). Qed.
Definition cen (q : zentry) (bu bc bo : bool) (ext com : gostr) : gostr :=
  PK 1 2 ++ to_le 2 (q_creator q) ++ [20; 0] ++ to_le 2 (q_flags q) ++ to_le 2 (q_method q) ++ [0; 0; 33; 0] ++ to_le 4 (q_crc q) ++ to_le 4 (if bc then 2 ^ 32 - 1 else q_csize q) ++ to_le 4 (if bu then 2 ^ 32 - 1 else q_size q) ++
  to_le 2 (Z.of_nat (length (q_name q))) ++ to_le 2 (Z.of_nat (length ext)) ++ to_le 2 (Z.of_nat (length com)) ++ [0; 0; 0; 0] ++ to_le 4 (q_attrs q) ++ to_le 4 (if bo then 2 ^ 32 - 1 else q_offset q) ++ q_name q ++ ext ++ com.
Definition in_range (n : nat) (v : Z) : bool := (0 <=? v) && (v <? 256 ^ Z.of_nat n).
Definition fine (q : zentry) (ext com : gostr) : bool :=
  in_range 2 (q_creator q) && in_range 2 (q_flags q) && in_range 2 (q_method q) && in_range 4 (q_crc q) && in_range 2 (Z.of_nat (length (q_name q))) && in_range 2 (Z.of_nat (length ext)) && in_range 2 (Z.of_nat (length com)) && in_range 4 (q_attrs q) &&
  (0 <=? q_csize q) && (q_csize q <? 2 ^ 32 - 1) && (0 <=? q_size q) && (q_size q <? 2 ^ 32 - 1) && (0 <=? q_offset q) && (q_offset q <? 2 ^ 32 - 1).
Lemma in_range_num n v : in_range n v = true → le_num n v (to_le n v).
Proof. unfold in_range. intros [H1 H2]%andb_true_iff. apply num_le. apply Z.leb_le in H1. apply Z.ltb_lt in H2. done. Qed.
Lemma short4_le b v : 0 ≤ v < 2 ^ 32 - 1 → short4 b v (to_le 4 (if b then 2 ^ 32 - 1 else v)).
Proof. intros H. destruct b; cbn [short4]; [|split; [lia|]]; apply num_le; change (256 ^ Z.of_nat 4) with (2 ^ 32); lia. Qed.
Lemma cen_ok q bl ext com bu bc bo : fine q ext com = true → extra_bytes bl ext → long_fields bu bc bo q bl → central_bytes q (cen q bu bc bo ext com).
Proof.
  unfold fine. intros H He Hl. repeat match goal with H : _ && _ = true |- _ => apply andb_true_iff in H as [H ?] end.
  repeat match goal with H : (_ <=? _) = true |- _ => apply Z.leb_le in H | H : (_ <? _) = true |- _ => apply Z.ltb_lt in H end.
  unfold central_bytes. do 14 eexists. exists bl, ext, com, bu, bc, bo. split; [reflexivity|].
  split_and!; (done || (by apply in_range_num) || (by apply short4_le)).
Qed.
Definition loc (q : zentry) (desc : gostr) : gostr :=
  PK 3 4 ++ replicate 22 0 ++ to_le 2 (Z.of_nat (length (q_name q))) ++ to_le 2 0 ++ q_name q ++ [] ++ q_comp q ++ desc.
Lemma loc_ok q desc : in_range 2 (Z.of_nat (length (q_name q))) = true → (Z.testbit (q_flags q) 3 = true → desc_bytes q desc) → local_bytes q (loc q desc).
Proof. intros H Hd. exists (replicate 22 0), (to_le 2 (Z.of_nat (length (q_name q)))), (to_le 2 0), (q_name q), [], desc. split; [reflexivity|]. split_and!; [done|by apply in_range_num|by apply num_le|done]. Qed.
Definition at_b (x : gostr) (o : Z) (b : gostr) : bool := (0 <=? o) && (o <=? Z.of_nat (length x)) && bool_decide (take (length b) (drop (Z.to_nat o) x) = b).
Lemma at_b_ok x o b : at_b x o b = true → at_pos x o b.
Proof.
  unfold at_b. rewrite !andb_true_iff. intros ((H1 & H2) & H3). apply Z.leb_le in H1, H2. apply bool_decide_eq_true in H3. rewrite <- (Z2Nat.id o) by done. apply at_take; [lia|done].
Qed.
Lemma bytes_b x : forallb (λ c, (0 <=? c) && (c <? 256)) x = true → bytes x.
Proof. rewrite forallb_forall. intros H. apply Forall_forall. intros c Hc. apply elem_of_list_In, H, andb_true_iff in Hc as [H1 H2]. apply Z.leb_le in H1. apply Z.ltb_lt in H2. done. Qed.
Definition fin (n size start : Z) (com : gostr) : gostr := PK 5 6 ++ [0; 0; 0; 0] ++ to_le 2 n ++ to_le 2 n ++ to_le 4 size ++ to_le 4 start ++ to_le 2 (Z.of_nat (length com)) ++ com.

(** one file, stored *)
Definition one (q : zentry) (desc dcom com : gostr) : gostr := loc q desc ++ cen q false false false [] dcom ++ fin 1 (Z.of_nat (length (cen q false false false [] dcom))) (Z.of_nat (length (loc q desc))) com.
Lemma one_ok q desc dcom com : fine q [] dcom = true → q_offset q = 0 → (Z.testbit (q_flags q) 3 = true → desc_bytes q desc) →
  Z.of_nat (length (cen q false false false [] dcom)) < 2 ^ 32 - 1 → Z.of_nat (length (loc q desc)) < 2 ^ 32 - 1 → Z.of_nat (length com) < 65536 →
  zip_file (one q desc dcom com) [q] (Z.of_nat (length (loc q desc)) + Z.of_nat (length (cen q false false false [] dcom))) (Z.of_nat (length (cen q false false false [] dcom))) false.
Proof.
  intros Hf Ho Hd L1 L2 L3. set (c := cen q false false false [] dcom) in *. set (l := loc q desc) in *.
  assert (Ex : one q desc dcom com = l ++ c ++ fin 1 (Z.of_nat (length c)) (Z.of_nat (length l)) com) by done.
  exists (Z.of_nat (length l)), [c], (PK 5 6). split_and!.
  - constructor; [|done]. apply (cen_ok q []); [done|constructor|done].
  - exists l, (drop 4 (fin 1 (Z.of_nat (length c)) (Z.of_nat (length l)) com)). rewrite Ex. cbn [mjoin list_join]. rewrite app_nil_r, <- !app_assoc. done.
  - tauto.
  - cbn [mjoin list_join]. by rewrite app_nil_r.
  - exists [0; 0; 0; 0], (to_le 2 1), (to_le 2 1), (to_le 4 (Z.of_nat (length c))), (to_le 4 (Z.of_nat (length l))), (to_le 2 (Z.of_nat (length com))), com, false, false, false. split_and!; try done.
    + exists (l ++ c), []. rewrite Ex, app_nil_r, <- !app_assoc, app_length. split; [done|lia].
    + rewrite Ex. unfold fin. rewrite !app_length, !to_le_length. cbn [PK length]. lia.
    + by apply num_le.
    + apply (short4_le false). lia.
    + apply (short4_le false). lia.
    + apply num_le. change (256 ^ Z.of_nat 2) with 65536. lia.
  - constructor; [|done]. exists l. split.
    + apply loc_ok; [|done]. unfold fine in Hf. repeat match goal with H : _ && _ = true |- _ => apply andb_true_iff in H as [H ?] end. done.
    + rewrite Ho, Ex. apply at_here.
Qed.

(** a comment with another record of the end: the files of the archive are not there *)
Definition hidden : zentry := ZEntry (str "secret") 20 0 0 (crc32 (str "data")) 4 (str "data") 0 0 false.
Theorem unzip_any_comment_refuted : ∃ x qs e size long, bytes x ∧ Z.of_nat (length x) < 2 ^ 63 ∧ zip_file x qs e size long ∧ no_false_locator x e size long ∧ Forall no_false_signature qs ∧
  length qs = 1%nat ∧ read_zip inflate x = Ret (Some []).
Proof.
  exists (one hidden [] [] (fin 0 0 0 [])). do 4 eexists. split_and!; [apply bytes_b; by vm_compute|by vm_compute|apply one_ok; by vm_compute|by vm_compute| |done|by vm_compute].
  constructor; [|done]. intros H. done.
Qed.
(** a directory of 65535 bytes at the end of which something looks like a locator: the archive cannot be opened *)
Theorem unzip_any_locator_refuted : ∃ x qs e size long, bytes x ∧ Z.of_nat (length x) < 2 ^ 63 ∧ zip_file x qs e size long ∧ last_end x e ∧ Forall no_false_signature qs ∧ read_zip inflate x = Ret None.
Proof.
  set (com := replicate (Z.to_nat (65535 - 46 - 6 - 20)) 32 ++ PK 6 7 ++ [0; 0; 0; 0] ++ replicate 8 0 ++ [1; 0; 0; 0]).
  exists (one hidden [] com []). do 4 eexists. split_and!; [apply bytes_b; by vm_compute|by vm_compute|apply one_ok; by vm_compute| | |by vm_compute].
  - intros o c H1 Hat Hf. apply at_range in Hat as [_ H2]. revert H1 H2. destruct Hf as (b & Hat & H3 & _). apply at_range in Hat as [_ H2]. rewrite H3 in H2. revert H2. replace (Z.of_nat (length (one hidden [] com []))) with (Z.of_nat (length (loc hidden [])) + Z.of_nat (length (cen hidden false false false [] com)) + 22); [lia|]. unfold one, fin. rewrite !app_length, !to_le_length. cbn [PK length]. lia.
  - constructor; [|done]. intros H. done.
Qed.
(** a descriptor without a signature and a checksum that looks like one: the content cannot be read *)
Definition looks : zentry := ZEntry (str "f") 20 8 0 134695760 4 [172; 10; 122; 213] 0 0 false.
Theorem unzip_any_descriptor_refuted : ∃ x qs e size long, bytes x ∧ Z.of_nat (length x) < 2 ^ 63 ∧ zip_file x qs e size long ∧ last_end x e ∧ no_false_locator x e size long ∧
  (∃ d, qs = [looks] ∧ content looks d) ∧ read_zip inflate x = Ret (Some [Item (str "f") false None]).
Proof.
  exists (one looks (to_le 4 134695760 ++ to_le 4 4 ++ to_le 4 4) [] []). do 4 eexists. split_and!; [apply bytes_b; by vm_compute|by vm_compute|apply one_ok; [by vm_compute|done| |by vm_compute..]| |by vm_compute| |by vm_compute].
  - intros _. exists (to_le 4 134695760), (to_le 4 4 ++ to_le 4 4). split_and!; [by apply num_le|by vm_compute|done].
  - intros o c H1 _ (b & Hat & H3 & _). apply at_range in Hat as [_ H2]. rewrite H3 in H2. exfalso. revert H1 H2. vm_compute (length _). lia.
  - exists [172; 10; 122; 213]. split; [done|]. unfold content. split_and!; [by left|apply bytes_b; by vm_compute|done|]. replace (q_crc looks) with (crc32 [172; 10; 122; 213]) by (by vm_compute). apply crc32_poly, bytes_b. by vm_compute.
Qed.

(** ** a case: something in front of the archive, records in another order than the directory, a file whose
    numbers are all in the field of zip64 with another field before it, a directory of MS-DOS, a compressed file
    with a descriptor without a signature, records of zip64 at the end, a comment with something that is not quite a
    record of the end *)
Definition text : gostr := str "hello hello hello hello".
Definition qc : zentry := ZEntry (str "b/c.txt") (3 * 256 + 30) 8 8 (crc32 text) 23 [203; 72; 205; 201; 201; 87; 200; 64; 39; 1] (33188 * 65536) 5 false.
Definition qa : zentry := ZEntry (str "a") 20 0 0 (crc32 (str "stored")) 6 (str "stored") 32 64 false.
Definition qd : zentry := ZEntry (str "d") 20 0 0 0 0 [] 16 101 false.
Definition ea : gostr := to_le 2 10 ++ to_le 2 8 ++ replicate 8 7 ++ to_le 2 1 ++ to_le 2 24 ++ to_le 8 6 ++ to_le 8 6 ++ to_le 8 64.
Definition front : gostr := str "stub " ++ loc qc (to_le 4 (crc32 text) ++ to_le 4 10 ++ to_le 4 23) ++ loc qa [] ++ loc qd [].
Definition headers : list gostr := [cen qa true true true ea (str "note"); cen qd false false false [] []; cen qc false false false [] []].
Definition dirpos : Z := Z.of_nat (length front).
Definition dirsize : Z := Z.of_nat (length (mjoin headers)).
Definition strange : gostr :=
  front ++ mjoin headers ++ (PK 6 6 ++ to_le 8 44 ++ to_le 2 45 ++ to_le 2 45 ++ replicate 8 0 ++ to_le 8 3 ++ to_le 8 3 ++ to_le 8 dirsize ++ to_le 8 dirpos) ++
  (PK 6 7 ++ [0; 0; 0; 0] ++ to_le 8 (dirpos + dirsize) ++ [1; 0; 0; 0]) ++ fin 65535 (2 ^ 32 - 1) (2 ^ 32 - 1) (PK 5 6 ++ str "not another end " ++ [255; 255]).
Theorem unzip_any_archive_case : let e := dirpos + dirsize + 76 in
  (bytes strange ∧ Z.of_nat (length strange) < 2 ^ 63 ∧ zip_file strange [qa; qd; qc] e dirsize true ∧ last_end strange e ∧ no_false_locator strange e dirsize true ∧ Forall no_false_signature [qa; qd; qc]) ∧
  (content qa (str "stored") ∧ says_dir qd ∧ content qc text) ∧
  read_zip inflate strange = Ret (Some [Item (str "a") false (Some (str "stored")); Item (str "d") true (Some []); Item (str "b/c.txt") false (Some text)]).
Proof.
  cbv zeta. split_and!.
  - apply bytes_b. by vm_compute.
  - by vm_compute.
  - exists dirpos, headers, (PK 6 6). split_and!.
    + constructor; [|constructor; [|constructor; [|done]]].
      * apply (cen_ok qa [(10, replicate 8 7); (1, to_le 8 6 ++ to_le 8 6 ++ to_le 8 64)]); [by vm_compute| |].
        -- apply (extra_cons 10 (replicate 8 7) (to_le 2 10) (to_le 2 8)); [by apply num_le|by apply num_le|apply bytes_b; by vm_compute|].
           change (to_le 2 1 ++ to_le 2 24 ++ to_le 8 6 ++ to_le 8 6 ++ to_le 8 64) with (to_le 2 1 ++ to_le 2 24 ++ (to_le 8 6 ++ to_le 8 6 ++ to_le 8 64) ++ []).
           apply extra_cons; [by apply num_le|by apply num_le|apply bytes_b; by vm_compute|constructor].
        -- intros _. exists [(10, replicate 8 7)], (to_le 8 6 ++ to_le 8 6 ++ to_le 8 64), [], (to_le 8 6), (to_le 8 6), (to_le 8 64), []. split_and!; [done|by repeat constructor|done|by apply num_le..].
      * apply (cen_ok qd []); [by vm_compute|constructor|done].
      * apply (cen_ok qc []); [by vm_compute|constructor|done].
    + apply at_b_ok. by vm_compute.
    + tauto.
    + done.
    + exists [0; 0; 0; 0], (to_le 2 65535), (to_le 2 65535), (to_le 4 (2 ^ 32 - 1)), (to_le 4 (2 ^ 32 - 1)), (to_le 2 22), (PK 5 6 ++ str "not another end " ++ [255; 255]), true, true, true.
      split; [apply at_b_ok; by vm_compute|]. split_and!; try (by vm_compute); try (by apply num_le). intros _.
      exists (dirpos + dirsize), (to_le 8 44), (to_le 2 45), (to_le 2 45), (replicate 8 0), (to_le 8 3), (to_le 8 3), (to_le 8 dirsize), (to_le 8 dirpos), (to_le 8 (dirpos + dirsize)).
      split; [apply at_b_ok; by vm_compute|]. split_and!; try (by vm_compute); try (by apply num_le). apply at_b_ok. by vm_compute.
    + constructor; [|constructor; [|constructor; [|done]]].
      * exists (loc qa []). split; [apply loc_ok; by vm_compute|apply at_b_ok; by vm_compute].
      * exists (loc qd []). split; [apply loc_ok; by vm_compute|apply at_b_ok; by vm_compute].
      * exists (loc qc (to_le 4 (crc32 text) ++ to_le 4 10 ++ to_le 4 23)). split; [|apply at_b_ok; by vm_compute]. apply loc_ok; [by vm_compute|]. intros _. exists (to_le 4 (crc32 text)), (to_le 4 10 ++ to_le 4 23). split_and!; [apply num_le, crc32_range|by vm_compute|done].
  - intros o c H1 Hat (b & Hat2 & H3 & _ & Hc). pose proof (at_range _ _ _ Hat2) as [_ H2]. rewrite H3 in H2. assert (L : length strange = Z.to_nat (dirpos + dirsize + 76 + 44)) by (by vm_compute). assert (Hd : 0 ≤ dirpos + dirsize) by (by vm_compute).
    destruct (decide (Z.of_nat (length strange) < o + 22 + c)) as [|Hfit]; [done|]. exfalso.
    assert (X : existsb (λ j, bool_decide (take 4 (drop j strange) = [80; 75; 5; 6]) && (le_val (take 2 (drop (j + 20) strange)) + 22 + Z.of_nat j <=? Z.of_nat (length strange))) (seq (Z.to_nat (dirpos + dirsize + 77)) 22) = true); [|by vm_compute in X].
    apply existsb_exists. exists (Z.to_nat o). split; [apply in_seq; lia|]. apply hit_bool. split.
    + apply (at_take strange (Z.to_nat o) (PK 5 6)); [lia|]. by rewrite Z2Nat.id by lia.
    + replace (o + 20) with (Z.of_nat (Z.to_nat o + 20)) in Hat2 by lia. apply at_take in Hat2; [|lia]. rewrite H3 in Hat2. rewrite Hat2, <- (le_val_foldr b), <- Hc. lia.
  - done.
  - constructor; [intros H; done|]. constructor; [intros H; done|]. constructor; [|done]. intros _ _ (_ & _ & H). by vm_compute in H.
  - unfold content. split_and!; [by left|apply bytes_b; by vm_compute|done|]. apply crc32_poly, bytes_b. by vm_compute.
  - right. right. split; [by left|done].
  - unfold content. split_and!; [right; split; [done|]; apply InflProps.inflate_rfc1951; by vm_compute|apply bytes_b; by vm_compute|done|]. apply crc32_poly, bytes_b. by vm_compute.
  - by vm_compute.
Qed.
