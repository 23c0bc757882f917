(** * C123: ZipFiles and Unzip with the compressor and the decompressor of compress/flate *)
From Verif Require Import GoBase GoStr.
From Verif Require InflModel InflSpec InflProps LzModel LzProps HufModel HcModel HufProps.
From Verif Require Import PathModel FsModel FsSpec UpfsModel UpfsSpec UpfsProps ZipfsModel ZipfsSpec ZipfsProps ZfmtModel ZfmtSpec ZfmtProofs ZfmtSafe ZfmtCrc ZfmtBomb ZfmtProps InflZip.
Local Open Scope Z_scope.

(** what the compressor makes of [d] at some level, written somehow, with some window *)
Definition compressed (deflate : gostr → gostr) (d : gostr) : Prop := ∃ lv win bs, Z.of_nat (length win) = 65536 ∧ concat bs = d ∧ HufModel.compress HcModel.generate lv win bs = Ret (deflate d).
(** ** what ZipFiles packed with this compressor, Unzip unpacks; nothing of compress/flate is assumed any more *)
Theorem zip_unzip_compressed deflate meta P s filename files old new q xs dest cs : let es := entries files old new xs in let enc := zip_enc deflate meta in
  Forall (λ e, fits (meta e) ∧ faithful_meta meta e ∧ bytes (e_data e) ∧ compressed deflate (e_data e)) es → Z.of_nat (length (enc es)) < 2 ^ 62 →
  good_tree s → open_proc P s → open_place P s filename = Ok q → Forall2 (source P s q) files xs → dest_names dest cs →
  Forall (λ e, inside dest (e_name e) ∧ ¬ dir_entry e ∧ room P s dest cs e ∧ ¬ q `prefix_of` entry_place P dest cs e) es → separate es →
  ∃ s1 s2, zip_files P enc s filename files old new ZDone = (s1, None) ∧ unzip_file P (zip_dec inflate) s1 filename dest None = Ret (s2, out_path dest cs <$> es, None) ∧
    (∀ i f x, files !! i = Some f → xs !! i = Some x → s2 (base_place P dest ++ cs ++ parts (go_replace f old new)) = Some (NFile x)) ∧ s2 q = Some (NFile (enc es)).
Proof.
  intros es enc Hm. apply InflZip.zip_unzip_flate. eapply Forall_impl; [exact Hm|]. intros e (H1 & H2 & H3 & lv & win & bs & W1 & W2 & W3). split_and!; [done..|].
  destruct (HufProps.compress_inflate lv win bs W1) as (x & X1 & _ & X2 & _); [by rewrite W2|]. rewrite W3 in X1. injection X1 as <-. by rewrite W2 in X2.
Qed.
Print Assumptions zip_unzip_compressed.
Definition level5_deflate (d : gostr) : gostr := match HufModel.compress HcModel.generate LzModel.level5 LzProps.old_window [d] with Ret x => x | _ => [] end.
Example zip_unzip_compressed_case : let meta e := WFile (e_name e) (e_isdir e) 420 0 0 0 false (e_data e) in
  Forall (λ e, bytes (e_data e) ∧ compressed level5_deflate (e_data e)) (entries [str "a/x"; str "./b/x"] (str "a") (str "c") [str "one"; str "two"]) ∧
  ∃ s1 s2, zip_files box_proc (zip_enc level5_deflate meta) box (str "z") [str "a/x"; str "./b/x"] (str "a") (str "c") ZDone = (s1, None) ∧
    unzip_file box_proc (zip_dec inflate) s1 (str "z") (str "new") None = Ret (s2, [str "new/c/x"; str "new/b/x"], None) ∧
    s2 [w; str "new"; str "c"; str "x"] = Some (NFile (str "one")) ∧ s2 [w; str "new"; str "b"; str "x"] = Some (NFile (str "two")).
Proof.
  intros meta. assert (Hc : Forall (λ e, bytes (e_data e) ∧ compressed level5_deflate (e_data e)) (entries [str "a/x"; str "./b/x"] (str "a") (str "c") [str "one"; str "two"])).
  { constructor; [|constructor; [|constructor]]; (split; [apply (bool_decide_unpack _); by vm_compute|exists LzModel.level5, LzProps.old_window; eexists [_]; split_and!; [by vm_compute|cbn; by rewrite app_nil_r|by vm_compute]]). }
  split; [done|]. destruct box_good as [Hg Hop]. destruct (zip_unzip_compressed level5_deflate meta box_proc box (str "z") [str "a/x"; str "./b/x"] (str "a") (str "c") [w; str "z"] [str "one"; str "two"] (str "new") [str "new"]) as (s1 & s2 & E1 & E2 & X1 & _); try done.
  - inversion_clear Hc as [|? ? C1 Hc']. inversion_clear Hc' as [|? ? C2 _]. constructor; [|constructor; [|constructor]]; (split; [constructor; cbn; try lia; try done; repeat (apply Forall_cons_2 || apply Forall_nil_2); lia|split; [done|done]]).
  - constructor; [|constructor; [|constructor]]; (eapply box_source; [by vm_compute|by vm_compute|done]).
  - split; [by vm_compute|]. constructor; [|constructor]. split; [done|]. apply (bool_decide_unpack _). by vm_compute.
  - assert (HE : ∀ n x, bool_decide (str ".." ∉ comps n) = true → last n ≠ Some 47 → room box_proc box (str "new") [str "new"] (Entry n false x) → inside (str "new") n ∧ ¬ dir_entry (Entry n false x) ∧ room box_proc box (str "new") [str "new"] (Entry n false x) ∧ ¬ [w; str "z"] `prefix_of` entry_place box_proc (str "new") [str "new"] (Entry n false x)).
    { intros n x H1%bool_decide_eq_true H2 H3. split_and!; [split; [done|by left]|intros [?|?]; done|done|]. intros [k E]. done. }
    constructor; [|constructor; [|constructor]]; (apply HE; [by vm_compute|by vm_compute|]); (apply box_room; by vm_compute).
  - intros [|[|i]] [|[|j]] a b Ha Hb Hij _; try done; injection Ha as <-; injection Hb as <-; intros [k E]; by vm_compute in E.
  - exists s1, s2. split_and!; [done|by rewrite E2; vm_compute| |]; [exact (X1 0%nat _ _ eq_refl eq_refl)|exact (X1 1%nat _ _ eq_refl eq_refl)].
Qed.
