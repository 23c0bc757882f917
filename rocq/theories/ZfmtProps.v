(** * Properties C114-C117: the archive format *)
From Verif Require Import GoBase GoStr PathModel FsModel FsSpec UpfsModel UpfsSpec UpfsProps ZipfsModel ZipfsSpec ZipfsProps ZfmtModel ZfmtSpec ZfmtProofs ZfmtSafe ZfmtCrc ZfmtBomb.
Local Open Scope Z_scope.

Lemma fits_wf f : fits f → wf f.
Proof. intros [H1 H2 H3 H4 H5]. constructor; try done. intros H. by apply H5, slash_iff. Qed.

Lemma item_comes_out f : comes_out f (item_of f).
Proof. unfold comes_out, item_of. pose proof (slash_iff (w_name f)). destruct (w_isdir f), (ends_slash (w_name f)); cbn; naive_solver. Qed.

(** ** C114: what was written is read *)
Theorem zip_archive_roundtrip deflate inflate fs : Forall fits fs → Forall (λ f, inflate (deflate (w_data f)) = Some (w_data f)) fs → Z.of_nat (length (write_zip deflate fs)) < 2 ^ 62 →
  ∃ is, read_zip inflate (write_zip deflate fs) = Ret (Some is) ∧ Forall2 comes_out fs is.
Proof.
  intros Hf Hi Hl. exists (item_of <$> fs). split.
  - apply read_write_zip; [|done|done]. eapply Forall_impl; [exact Hf|]. apply fits_wf.
  - apply Forall2_fmap_r, Forall_Forall2_diag, Forall_true. apply item_comes_out.
Qed.
Print Assumptions zip_archive_roundtrip.
(** with the real format, what ZipFiles packed Unzip unpacks; the archive's bytes are those of the format *)
Theorem zip_unzip_format deflate inflate meta P s filename files old new q xs dest cs : let es := entries files old new xs in let enc := zip_enc deflate meta in
  Forall (λ e, fits (meta e) ∧ faithful_meta meta e ∧ inflate (deflate (e_data e)) = Some (e_data e)) es → Z.of_nat (length (enc es)) < 2 ^ 62 →
  good_tree s → open_proc P s → open_place P s filename = Ok q → Forall2 (source P s q) files xs → dest_names dest cs →
  Forall (λ e, inside dest (e_name e) ∧ ¬ dir_entry e ∧ room P s dest cs e ∧ ¬ q `prefix_of` entry_place P dest cs e) es → separate es →
  ∃ s1 s2, zip_files P enc s filename files old new ZDone = (s1, None) ∧ unzip_file P (zip_dec inflate) s1 filename dest None = Ret (s2, out_path dest cs <$> es, None) ∧
    (∀ i f x, files !! i = Some f → xs !! i = Some x → s2 (base_place P dest ++ cs ++ parts (go_replace f old new)) = Some (NFile x)) ∧ s2 q = Some (NFile (enc es)).
Proof.
  intros es enc Hm Hl Hg Hop Hq Hsrc Hd Hall Hsep.
  assert (Hdec : zip_dec inflate (enc es) = Some es).
  { unfold enc, zip_enc, zip_dec. rewrite (read_write_zip deflate inflate (meta <$> es)); [|apply Forall_fmap; eapply Forall_impl; [exact Hm|]; intros e [He _]; by apply fits_wf|apply Forall_fmap; eapply Forall_impl; [exact Hm|]; intros e (_ & (_ & _ & E) & Ei); unfold compose; by rewrite E|done].
    assert (Hnd : Forall (λ e, ¬ dir_entry e) es) by (eapply Forall_impl; [exact Hall|]; intros ? (_ & H & _); exact H). clear -Hm Hnd. generalize dependent es. induction es as [|e es IH]; intros Hm Hnd; [done|]. inversion Hm as [|?? [H1 [(M1 & M2 & M3) _]] H2]; inversion Hnd as [|?? N1 N2]; subst.
    cbn [fmap list_fmap mapM]. replace (item_of (meta e)) with (Item (e_name e) false (Some (e_data e))). 2: { unfold item_of. rewrite M1, M2, M3. assert (E1 : e_isdir e = false) by (apply not_true_is_false; intros E; apply N1; by left). assert (E2 : ends_slash (e_name e) = false) by (apply not_true_is_false; intros E; apply N1; right; by apply slash_iff).
    by rewrite E1, E2. }
    assert (E1 : e_isdir e = false) by (apply not_true_is_false; intros E; apply N1; by left). cbn [i_data i_name i_dir mbind option_bind]. rewrite IH by done. cbn. destruct e as [n b d]. cbn in *. by subst. }
  destruct (zip_unzip P enc (zip_dec inflate) s filename files old new q xs dest cs) as (s1 & s2 & E1 & E2 & E3 & E4 & _); try done. exists s1, s2. split_and!; done.
Qed.
Print Assumptions zip_unzip_format.
(** two files, one of them empty, and a directory; a compressor that leaves the bytes as they are *)
Example zip_archive_case : let fs := [WFile (str "a/x") false 420 7 0 0 false (str "hello"); WFile (str "b") false 256 1 0 0 true []; WFile (str "d/") true 493 0 0 0 false []] in
  Forall fits fs ∧ length (write_zip id fs) = 353%nat ∧
  read_zip Some (write_zip id fs) = Ret (Some [Item (str "a/x") false (Some (str "hello")); Item (str "b") false (Some []); Item (str "d/") true (Some [])]).
Proof. cbv zeta. split_and!; [|by vm_compute..]. repeat (apply Forall_cons_2 || apply Forall_nil_2); constructor; cbn; try lia; try done; repeat (apply Forall_cons_2 || apply Forall_nil_2); lia. Qed.

(** two files, one renamed, through a real archive and back *)
Example zip_unzip_format_case : let meta e := WFile (e_name e) (e_isdir e) 420 0 0 0 false (e_data e) in
  ∃ s1 s2, zip_files box_proc (zip_enc id meta) box (str "z") [str "a/x"; str "./b/x"] (str "a") (str "c") ZDone = (s1, None) ∧
    unzip_file box_proc (zip_dec Some) s1 (str "z") (str "new") None = Ret (s2, [str "new/c/x"; str "new/b/x"], None) ∧
    s2 [w; str "new"; str "c"; str "x"] = Some (NFile (str "one")) ∧ s2 [w; str "new"; str "b"; str "x"] = Some (NFile (str "two")).
Proof.
  intros meta. destruct box_good as [Hg Hop]. destruct (zip_unzip_format id Some meta box_proc box (str "z") [str "a/x"; str "./b/x"] (str "a") (str "c") [w; str "z"] [str "one"; str "two"] (str "new") [str "new"]) as (s1 & s2 & E1 & E2 & X1 & _); try done.
  - constructor; [|constructor; [|constructor]]; (split; [constructor; cbn; try lia; try done; repeat (apply Forall_cons_2 || apply Forall_nil_2); lia|split; done]).
  - constructor; [|constructor; [|constructor]]; (eapply box_source; [by vm_compute|by vm_compute|done]).
  - split; [by vm_compute|]. constructor; [|constructor]. split; [done|]. apply (bool_decide_unpack _). by vm_compute.
  - assert (HE : ∀ n x, bool_decide (str ".." ∉ comps n) = true → last n ≠ Some 47 → room box_proc box (str "new") [str "new"] (Entry n false x) → inside (str "new") n ∧ ¬ dir_entry (Entry n false x) ∧ room box_proc box (str "new") [str "new"] (Entry n false x) ∧ ¬ [w; str "z"] `prefix_of` entry_place box_proc (str "new") [str "new"] (Entry n false x)).
    { intros n x H1%bool_decide_eq_true H2 H3. split_and!; [split; [done|by left]|intros [?|?]; done|done|]. intros [k E]. done. }
    constructor; [|constructor; [|constructor]]; (apply HE; [by vm_compute|by vm_compute|]); (apply box_room; by vm_compute).
  - intros [|[|i]] [|[|j]] a b Ha Hb Hij _; try done; injection Ha as <-; injection Hb as <-; intros [k E]; by vm_compute in E.
  - exists s1, s2. split_and!; [done|by rewrite E2; vm_compute|exact (X1 0%nat _ _ eq_refl eq_refl)|exact (X1 1%nat _ _ eq_refl eq_refl)].
Qed.

(** ** C115: contents are checked *)
(** hash/crc32 is the remainder, and sees every change of up to four bytes in a row *)
Theorem crc32_remainder x : bytes x → crc_of x (crc32 x).
Proof. apply crc32_poly. Qed.
Theorem crc32_detects d d' : bytes d → bytes d' → near d d' → crc32 d ≠ crc32 d'.
Proof. apply crc32_near. Qed.
Example crc32_case : crc32 (str "123456789") = 3421780262 ∧ near (str "123456789") (str "12ab56789").
Proof. split; [by vm_compute|]. exists (str "12"), (str "34"), (str "ab"), (str "56789"). split_and!; [done|done|done|cbn; lia|done]. Qed.
Lemma items_lookup inflate x fs is i f it : read_items inflate x fs = Ret is → fs !! i = Some f → is !! i = Some it → read_item inflate x f = Ret it.
Proof.
  revert is i. induction fs as [|g fs IH]; intros is i E Hf Hi; [done|]. cbn [read_items] in E. destruct (read_item inflate x g) as [j| |] eqn:Ej; [|done..]. cbn [mbind go_bind] in E. destruct (read_items inflate x fs) as [js| |] eqn:Es; [|done..]. cbn in E. injection E as <-.
  destruct i as [|i]; cbn in Hf, Hi. - congruence. - by eapply IH.
Qed.
Lemma read_file_checked inflate x f d : read_file inflate x f = Ret (Some d) → Z.of_nat (length d) = z_usize f ∧ (crc32 d = z_crc f ∨ z_crc f = 0 ∧ Z.land (z_flags f) 8 = 0).
Proof.
  unfold read_file. destruct (open_file x f) as [o| |]; [|done..]. cbn [mbind go_bind]. intros E. injection E as E. destruct o as [|comp after]; [done|]. destruct (if z_method f =? 0 then Some comp else inflate comp) as [data|]; [|done].
  destruct (Z.eqb_spec (Z.of_nat (length data)) (z_usize f)) as [El|]; [|done]. cbn [negb] in E. destruct (Z.eqb_spec (Z.land (z_flags f) 8) 0) as [Ef|]; cbn [negb] in E.
  - destruct (Z.eqb_spec (z_crc f) 0) as [E0|], (Z.eqb_spec (crc32 data) (z_crc f)) as [E1|]; cbn [negb andb] in E; simplify_eq; auto.
  - destruct (desc_ok after (z_crc f)); [|done]. cbn [andb] in E. destruct (Z.eqb_spec (crc32 data) (z_crc f)) as [E1|]; [|done]. simplify_eq. auto.
Qed.
(** what comes out of any archive has the length in its header, and the checksum there unless that is 0 and no
    data descriptor is announced *)
Theorem unzip_content_checked_partial inflate x fs is i f it d : open_zip x = Ret (Some fs) → read_zip inflate x = Ret (Some is) → fs !! i = Some f → is !! i = Some it →
  i_dir it = false → i_data it = Some d → i_name it = z_name f ∧ Z.of_nat (length d) = z_usize f ∧ (crc32 d = z_crc f ∨ z_crc f = 0 ∧ Z.land (z_flags f) 8 = 0).
Proof.
  intros Eo Er Hf Hi Hd Hdat. unfold read_zip in Er. rewrite Eo in Er. cbn [mbind go_bind] in Er. destruct (read_items inflate x fs) as [js| |] eqn:Es; [|done..]. cbn in Er. injection Er as <-.
  pose proof (items_lookup _ _ _ _ _ _ _ Es Hf Hi) as E. unfold read_item in E. destruct (mode_dir _ _ _); [simplify_eq; done|]. destruct (read_file inflate x f) as [r| |] eqn:Ef; [|done..]. cbn in E. injection E as <-. cbn in Hdat. subst r. split; [done|]. by apply read_file_checked in Ef.
Qed.
(** the contents of an archive of ZipFiles are damaged, its directory is not: what still comes out without an
    error has the same length and checksum, and is no near miss *)
Theorem unzip_damage deflate inflate fs x is i f it d : Forall fits fs → Z.of_nat (length (write_zip deflate fs)) < 2 ^ 62 → open_zip x = open_zip (write_zip deflate fs) →
  read_zip inflate x = Ret (Some is) → fs !! i = Some f → is !! i = Some it → i_dir it = false → i_data it = Some d →
  i_name it = w_name f ∧ length d = length (w_data f) ∧ crc32 d = crc32 (w_data f) ∧ (bytes d → bytes (w_data f) → ¬ near (w_data f) d).
Proof.
  intros Hf Hl Eo Er Hfi Hi Hd Hdat. rewrite (open_zip_ok deflate fs) in Eo; [|eapply Forall_impl; [exact Hf|apply fits_wf]|done].
  assert (Hh : ∀ fs o i f, fs !! i = Some f → ∃ off, hdrs_of deflate fs o !! i = Some (hdr_of deflate f off)).
  { clear. induction fs as [|g fs IH]; intros o [|i] f E; cbn in *; try done. - injection E as ->. by exists o. - by apply IH. }
  destruct (Hh fs 0 i f Hfi) as [off Hhi]. destruct (unzip_content_checked_partial inflate x _ is i _ it d Eo Er Hhi Hi Hd Hdat) as (N & L & C). cbn in N, L, C.
  assert (Hns : ends_slash (w_name f) = false).
  { unfold read_zip in Er. rewrite Eo in Er. cbn [mbind go_bind] in Er. destruct (read_items inflate x _) as [js| |] eqn:Es; [|done..]. cbn in Er. injection Er as <-. pose proof (items_lookup _ _ _ _ _ _ _ Es Hhi Hi) as E. unfold read_item in E. cbn in E.
    apply not_true_is_false. intros Hs. rewrite mode_dir_w, Hs, orb_true_r in E by (rewrite Forall_lookup in Hf; by apply (Hf i f)). injection E as <-. done. }
  unfold w_usize, w_crc in *. rewrite Hns in *. assert (Hc : crc32 d = crc32 (w_data f)). { destruct C as [C|[_ C]]; [done|]. exfalso. unfold w_flags in C. rewrite Hns in C. by destruct (w_utf8 f). }
  split_and!; [done|lia|done|]. intros B1 B2 Hn. by apply (crc32_near _ _ B2 B1 Hn).
Qed.
Print Assumptions unzip_damage.
(** no check at all: a stored file whose header has the checksum 0 and announces no descriptor; "good" was packed,
    "evil" comes out *)
Definition unchecked (content : gostr) : gostr :=
  let hdr := to_le 2 0 ++ to_le 2 0 ++ to_le 2 0 ++ to_le 2 0 ++ to_le 4 0 ++ to_le 4 4 ++ to_le 4 4 ++ to_le 2 1 ++ to_le 2 0 in
  to_le 4 file_sig ++ to_le 2 20 ++ hdr ++ str "a" ++ content ++
  to_le 4 dir_sig ++ to_le 2 788 ++ to_le 2 20 ++ hdr ++ to_le 2 0 ++ to_le 4 0 ++ to_le 4 (32768 * 65536) ++ to_le 4 0 ++ str "a" ++
  end_record 1 47 35.
Theorem unzip_content_checked_refuted : ∃ x fs f is d, bytes x ∧ open_zip x = Ret (Some fs) ∧ fs !! 0%nat = Some f ∧ read_zip (λ _, None) x = Ret (Some is) ∧ is = [Item (str "a") false (Some d)] ∧ crc32 d ≠ z_crc f.
Proof.
  exists (unchecked (str "evil")). do 4 eexists. split; [|split; [by vm_compute|]; split; [by vm_compute|]; split; [by vm_compute|]; split; [done|]; by vm_compute].
  unfold bytes. rewrite <- (forallb_True (λ c, (0 <=? c) && (c <? 256))) || idtac. apply Forall_forall. intros c Hc. assert (H : forallb (λ c, (0 <=? c) && (c <? 256)) (unchecked (str "evil")) = true) by (by vm_compute). rewrite forallb_forall in H. apply elem_of_list_In, H in Hc. apply andb_true_iff in Hc as [H1 H2]. apply Z.leb_le in H1. apply Z.ltb_lt in H2. done.
Qed.
Print Assumptions unzip_content_checked_refuted.

(** ** C116: any file can be given to Unzip *)
Theorem unzip_reads_anything inflate x : bytes x → ∃ r, read_zip inflate x = Ret r ∧ ∀ is, r = Some is → (46 * length is ≤ length x)%nat.
Proof.
  intros Hb. unfold read_zip. destruct (open_zip_total x Hb) as ([fs|] & -> & Hn); cbn [mbind go_bind]; [|by eexists]. destruct (read_items_total inflate x fs) as (is & -> & Hl). cbn. eexists. split; [done|]. intros ? [= <-]. rewrite Hl. by apply Hn.
Qed.
Print Assumptions unzip_reads_anything.
Example unzip_reads_anything_case : read_zip Some (str "no archive") = Ret None ∧ read_zip Some (take 60 (unchecked (str "good")) ++ end_record 1 47 35) = Ret None ∧
  read_zip Some (end_record 0 0 0) = Ret (Some []) ∧ read_zip Some (end_record 1 0 0) = Ret None.
Proof. split_and!; by vm_compute. Qed.


(** ** C117: how much comes out *)
(** not in proportion to the archive: headers with different names may share a record, so [k] times its size
    comes out of a sound archive for every [k], with a compressor that hardly compresses *)
Theorem unzip_output_linear_refuted deflate inflate k : (∀ d, bytes d → inflate (deflate d) = Some d) → (∀ d, bytes d → bytes (deflate d)) → (∀ d, (length (deflate d) ≤ 2 * length d + 64)%nat) → 0 ≤ k ≤ 2 ^ 40 →
  ∃ x is, bytes x ∧ read_zip inflate x = Ret (Some is) ∧ NoDup (i_name <$> is) ∧ Forall (λ i, i_dir i = false ∧ is_Some (i_data i)) is ∧ k * Z.of_nat (length x) < output is.
Proof.
  intros Hi Hb Hl Hk. set (n := Z.to_nat (100 * (k + 4))). assert (Hn : Z.of_nat n = 100 * (k + 4)) by lia. clearbody n. specialize (Hl (replicate n 0)). rewrite replicate_length in Hl.
  exists (bomb deflate n), ((λ i : nat, Item (letters 12 (Z.of_nat i)) false (Some (replicate n 0))) <$> seq 0 n). split_and!.
  - by apply bomb_bytes.
  - apply bomb_read; [apply Hi, Forall_replicate; lia|lia|done|lia].
  - rewrite <- list_fmap_compose. apply NoDup_fmap_2_strong; [|apply NoDup_ListNoDup, seq_NoDup]. intros i j Hi' Hj E. apply elem_of_list_In, in_seq in Hi', Hj. cbn in E. apply (letters_inj 12) in E; [lia|change (16 ^ Z.of_nat 12) with (2 ^ 48); lia..].
  - apply Forall_fmap, Forall_true. intros i. split; [done|]. by eexists.
  - rewrite bomb_output, seq_length. pose proof (bomb_length deflate n Hl). assert (Z.of_nat (length (bomb deflate n)) ≤ 97 * Z.of_nat n + 300) by lia. rewrite Hn in *. nia.
Qed.
Print Assumptions unzip_output_linear_refuted.
(** 120 files of 120 bytes share a record *)
Example unzip_output_case : output <$> (match read_zip Some (bomb id 120) with Ret r => r | _ => None end) = Some 14400 ∧ Z.of_nat (length (bomb id 120)) = 8249.
Proof. split; by vm_compute. Qed.

(** a stored content is no longer than the archive, and with a decompressor of ratio [r] all together are no
    longer than [r] times the square of its size by 46 *)
Lemma section_length x o n : (length (section x o n) ≤ length x)%nat.
Proof. unfold section. destruct (_ <? _); [cbn; lia|]. rewrite take_length, drop_length. lia. Qed.
Theorem unzip_output_partial inflate x is r : bytes x → 1 ≤ r → (∀ c d, inflate c = Some d → Z.of_nat (length d) ≤ r * Z.of_nat (length c)) → read_zip inflate x = Ret (Some is) →
  46 * output is ≤ r * Z.of_nat (length x) * Z.of_nat (length x).
Proof.
  intros Hb Hr Hrat E. destruct (unzip_reads_anything inflate x Hb) as (o & Eo & Hn). rewrite E in Eo. injection Eo as <-. specialize (Hn _ eq_refl).
  assert (Hone : ∀ fs is, read_items inflate x fs = Ret is → output is ≤ r * Z.of_nat (length x) * Z.of_nat (length is) ∧ 0 ≤ output is).
  { clear -Hr Hrat. induction fs as [|f fs IH]; intros is E; cbn [read_items] in E; [injection E as <-; cbn; lia|]. destruct (read_item inflate x f) as [j| |] eqn:Ej; [|done..]. cbn [mbind go_bind] in E. destruct (read_items inflate x fs) as [js| |] eqn:Es; [|done..]. cbn in E. injection E as <-. specialize (IH js eq_refl).
    cbn [output foldr length]. change (foldr _ 0 js) with (output js). assert (H : match i_data j with Some d => Z.of_nat (length d) | None => 0 end ≤ r * Z.of_nat (length x)).
    { unfold read_item in Ej. destruct (mode_dir _ _ _). { injection Ej as <-. cbn. nia. } destruct (read_file inflate x f) as [d| |] eqn:Ef; [|done..]. cbn in Ej. injection Ej as <-. cbn [i_data]. destruct d as [d|]; [|nia]. unfold read_file in Ef. destruct (open_file x f) as [o| |] eqn:Eo; [|done..]. cbn [mbind go_bind] in Ef. injection Ef as Ef. destruct o as [|comp after]; [done|].
      assert (Hc : (length comp ≤ length x)%nat).
      { unfold open_file in Eo. destruct (read_at _ _ _) as [b|]; [|done]. destruct (rd 4 b) as [[sig b1]| |]; [|done..]. cbn [mbind go_bind] in Eo. destruct (negb _); [done|]. destruct (rd_skip 22 b1) as [b2| |]; [|done..]. cbn [mbind go_bind] in Eo. destruct (rd 2 b2) as [[nl b3]| |]; [|done..]. cbn [mbind go_bind] in Eo. destruct (rd 2 b3) as [[el b4]| |]; [|done..]. cbn [mbind go_bind] in Eo. destruct (_ && _); [done|]. injection Eo as <- _. apply section_length. }
      destruct (if z_method f =? 0 then Some comp else inflate comp) as [data|] eqn:Ed; [|done]. assert (d = data) as -> by (destruct (negb _); [done|]; destruct (negb _); [destruct (_ && _); congruence|]; destruct (_ && _); congruence).
      destruct (z_method f =? 0). { injection Ed as ->. nia. } apply Hrat in Ed. nia. }
    destruct (i_data j); nia. }
  unfold read_zip in E. destruct (open_zip x) as [[fs|]| |]; [|done..]. cbn [mbind go_bind] in E. destruct (read_items inflate x fs) as [js| |] eqn:Es; [|done..]. cbn in E. injection E as <-. destruct (Hone _ _ Es) as [H1 H2]. transitivity (r * Z.of_nat (length x) * (46 * Z.of_nat (length js))); [lia|]. apply Z.mul_le_mono_nonneg_l; [nia|lia].
Qed.
Print Assumptions unzip_output_partial.
