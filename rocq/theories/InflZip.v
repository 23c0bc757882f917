(** * C114, C117: Unzip with the decompressor of compress/flate; the compressor may be any that follows RFC 1951 *)
From Verif Require Import GoBase GoStr.
From Verif Require InflModel InflSpec InflProps.
From Verif Require Import PathModel FsModel FsSpec UpfsModel UpfsSpec UpfsProps ZipfsModel ZipfsSpec ZipfsProps ZfmtModel ZfmtSpec ZfmtProofs ZfmtSafe ZfmtCrc ZfmtBomb ZfmtProps.
Local Open Scope Z_scope.
Notation inflate := InflModel.inflate.
Notation stands_for := InflSpec.stands_for.

(** what was written is read, whatever the compressor makes of the contents *)
Theorem zip_archive_roundtrip_flate deflate fs : Forall fits fs → Forall (λ f, stands_for (deflate (w_data f)) (w_data f)) fs → Z.of_nat (length (write_zip deflate fs)) < 2 ^ 62 →
  ∃ is, read_zip inflate (write_zip deflate fs) = Ret (Some is) ∧ Forall2 comes_out fs is.
Proof. intros Hf Hd Hl. apply zip_archive_roundtrip; [done| |done]. eapply Forall_impl; [exact Hd|]. intros f H. by apply InflProps.inflate_rfc1951. Qed.
Print Assumptions zip_archive_roundtrip_flate.
Example zip_archive_roundtrip_flate_case : let f := WFile (str "a") false 420 0 0 0 false (str "hello") in
  stands_for (InflProps.store (w_data f)) (w_data f) ∧ read_zip inflate (write_zip InflProps.store [f]) = Ret (Some [Item (str "a") false (Some (str "hello"))]).
Proof. split; [|by vm_compute]. by apply InflProps.inflate_rfc1951; vm_compute. Qed.

(** and what ZipFiles packed Unzip unpacks *)
Theorem zip_unzip_flate deflate meta P s filename files old new q xs dest cs : let es := entries files old new xs in let enc := zip_enc deflate meta in
  Forall (λ e, fits (meta e) ∧ faithful_meta meta e ∧ stands_for (deflate (e_data e)) (e_data e)) es → Z.of_nat (length (enc es)) < 2 ^ 62 →
  good_tree s → open_proc P s → open_place P s filename = Ok q → Forall2 (source P s q) files xs → dest_names dest cs →
  Forall (λ e, inside dest (e_name e) ∧ ¬ dir_entry e ∧ room P s dest cs e ∧ ¬ q `prefix_of` entry_place P dest cs e) es → separate es →
  ∃ s1 s2, zip_files P enc s filename files old new ZDone = (s1, None) ∧ unzip_file P (zip_dec inflate) s1 filename dest None = Ret (s2, out_path dest cs <$> es, None) ∧
    (∀ i f x, files !! i = Some f → xs !! i = Some x → s2 (base_place P dest ++ cs ++ parts (go_replace f old new)) = Some (NFile x)) ∧ s2 q = Some (NFile (enc es)).
Proof.
  intros es enc Hm. apply (zip_unzip_format deflate inflate meta). eapply Forall_impl; [exact Hm|]. intros e (H1 & H2 & H3). split_and!; [done..|]. by apply InflProps.inflate_rfc1951.
Qed.
Print Assumptions zip_unzip_flate.

(** how much comes out of an archive, for every archive: 1032 times its size for each of its headers of 46 bytes *)
Theorem unzip_output_flate x is : bytes x → read_zip inflate x = Ret (Some is) → 46 * output is ≤ 1032 * Z.of_nat (length x) * Z.of_nat (length x).
Proof. intros Hb E. apply (unzip_output_partial inflate); [done|lia| |done]. intros c d H. by apply InflProps.inflate_ratio. Qed.
Print Assumptions unzip_output_flate.
(** and not in proportion to it *)
Theorem unzip_output_flate_linear_refuted k : 0 ≤ k ≤ 2 ^ 40 →
  ∃ x is, bytes x ∧ read_zip inflate x = Ret (Some is) ∧ NoDup (i_name <$> is) ∧ Forall (λ i, i_dir i = false ∧ is_Some (i_data i)) is ∧ k * Z.of_nat (length x) < output is.
Proof.
  intros Hk. set (deflate := λ d, if decide (bytes d) then InflProps.store d else []). apply (unzip_output_linear_refuted deflate); [..|done]; unfold deflate.
  - intros d Hd. rewrite decide_True by done. apply InflProps.inflate_rfc1951. by apply InflProps.every_content_compresses.
  - intros d Hd. rewrite decide_True by done. by apply InflProps.every_content_compresses.
  - intros d. destruct (decide (bytes d)) as [Hd|]; [|cbn; lia]. pose proof (InflProps.every_content_compresses d Hd) as (_ & _ & H). lia.
Qed.
Print Assumptions unzip_output_flate_linear_refuted.
