(** * IsTextFile, IsImageFile, IsPDFFile, IsVideoFile: which data they accept *)
From Verif Require Import SniffModel SniffSpec SniffProofs.
Local Open Scope Z_scope.

(** ** helpers: the first 512 bytes *)
Lemma starts_take n p d : (length p ≤ n)%nat → starts p (take n d) ↔ starts p d.
Proof.
  intros Hp. split; intros [r E].
  - exists (r ++ drop n d). by rewrite app_assoc, <- E, take_drop.
  - exists (take (n - length p) r). rewrite E. by rewrite take_app_ge by done.
Qed.
Lemma chunk_take n tag kind d : (length tag + 4 + length kind ≤ n)%nat → chunk tag kind (take n d) ↔ chunk tag kind d.
Proof.
  intros Hn. split; intros (l & r & Hl & E).
  - exists l, (r ++ drop n d). split; [done|]. rewrite <- (take_drop n d) at 1. rewrite E, <- !app_assoc. done.
  - exists l, (take (n - (length tag + 4 + length kind)) r). split; [done|]. rewrite E.
    rewrite take_app_ge by lia. f_equal. rewrite take_app_ge by lia. f_equal. rewrite take_app_ge by lia. f_equal. f_equal. lia.
Qed.
Lemma image_take d : image (take 512 d) ↔ image d.
Proof. unfold image, icon. rewrite !starts_take by (vm_compute; lia). rewrite chunk_take by (vm_compute; lia). done. Qed.
Lemma pdf_take d : pdf (take 512 d) ↔ pdf d.
Proof. apply starts_take. vm_compute. lia. Qed.
Lemma is_text_answers data : is_text_file data = fst (fst (fst (answers (detect data)))).
Proof. destruct data; [reflexivity|reflexivity]. Qed.
Lemma answers_inj ct a b c d a' b' c' d' : answers ct = (a, b, c, d) → answers ct = (a', b', c', d') → (a, b, c, d) = (a', b', c', d').
Proof. by intros -> ->. Qed.
Lemma answers_parts ct a b c d : answers ct = (a, b, c, d) →
  contains ct (str "text/") = a ∧ contains ct (str "image/") = b ∧ contains ct (str "application/pdf") = c ∧ contains ct (str "video/") = d.
Proof. unfold answers. intros E. repeat split; congruence. Qed.
Lemma detect_cases data : Forall byte data → let d := take 512 data in
  answers (detect data) = (true, false, false, false) ∧ (markup d ∨ bom d ∨ plain_text d ∧ Forall (λ s, match_sig s d = None) tables) ∨
  answers (detect data) = (false, true, false, false) ∧ image d ∨
  answers (detect data) = (false, false, true, false) ∧ pdf d ∨
  answers (detect data) = (false, false, false, true) ∧ (avi d ∨ mp4 d ∨ webm d) ∨
  answers (detect data) = (false, false, false, false) ∧ (other_format d ∨ ¬ plain_text d).
Proof.
  intros Hb d. assert (Hd : Forall byte d) by (by apply Forall_take). unfold detect. fold d.
  destruct (verdict d Hd) as [(s & ct & Hs & Hm & ->)|[Hn [[Hp ->]|[Hp ->]]]].
  - destruct (classify s ct d Hd Hs Hm) as [[-> H]|[[-> H]|[[-> H]|[[-> H]|[-> H]]]]]; unfold other_format; tauto.
  - left. split; [reflexivity|]. tauto.
  - do 4 right. split; [reflexivity|]. tauto.
Qed.

(** ** C88: PDF and images, by their magic numbers; never two answers; the first 512 bytes *)
Theorem sniff_exclusive data : Forall byte data →
  (length (filter (λ b : bool, b = true) [is_text_file data; is_image_file data; is_pdf_file data; is_video_file data]) ≤ 1)%nat.
Proof.
  intros Hb. rewrite is_text_answers. unfold is_image_file, is_pdf_file, is_video_file.
  destruct (detect_cases data Hb) as [[E _]|[[E _]|[[E _]|[[E _]|[E _]]]]]; rewrite E; apply answers_parts in E as (_ & -> & -> & ->); vm_compute; lia.
Qed.
Theorem sniff_512 data data' : data ≠ [] → data' ≠ [] → take 512 data = take 512 data' →
  is_text_file data = is_text_file data' ∧ is_image_file data = is_image_file data' ∧ is_pdf_file data = is_pdf_file data' ∧ is_video_file data = is_video_file data'.
Proof. intros H1 H2 E. rewrite !is_text_answers. unfold is_image_file, is_pdf_file, is_video_file, detect. by rewrite E. Qed.
Theorem is_pdf_iff data : Forall byte data → is_pdf_file data = true ↔ pdf data.
Proof.
  intros Hb. unfold is_pdf_file. split.
  - intros H. destruct (detect_cases data Hb) as [[E _]|[[E _]|[[E Hp]|[[E _]|[E _]]]]]; try (unfold answers in E; congruence). by apply pdf_take.
  - intros Hp. apply pdf_take, pdf_answers in Hp. unfold answers, detect in *. congruence.
Qed.
Theorem is_image_iff data : Forall byte data → is_image_file data = true ↔ image data.
Proof.
  intros Hb. unfold is_image_file. split.
  - intros H. destruct (detect_cases data Hb) as [[E _]|[[E Hp]|[[E _]|[[E _]|[E _]]]]]; try (unfold answers in E; congruence). by apply image_take.
  - intros Hp. apply image_take, image_answers in Hp. unfold answers, detect in *. congruence.
Qed.
Example sniff_examples :
  is_pdf_file (str "%PDF-1.7 ...") = true ∧ is_pdf_file (str " %PDF-1.7 ...") = false ∧
  is_image_file ([255; 216; 255; 224; 0; 16] ++ str "JFIF") = true ∧ is_text_file ([255; 216; 255; 224; 0; 16] ++ str "JFIF") = false ∧
  is_image_file (str "RIFF" ++ [36; 0; 0; 0] ++ str "WEBPVP8 ") = true ∧
  take 512 (replicate 600 65) = take 512 (replicate 512 65 ++ [0]).
Proof. split_and!; vm_compute; reflexivity. Qed.

(** ** C89: text *)
Theorem is_text_exact data : Forall byte data → let d := take 512 data in
  is_text_file data = true ↔ markup d ∨ bom d ∨ plain_text d ∧ ¬ other_format d.
Proof.
  intros Hb d. assert (Hd : Forall byte d) by (by apply Forall_take). rewrite is_text_answers.
  split.
  - intros H. destruct (detect_cases data Hb) as [[E Hp]|[[E _]|[[E _]|[[E _]|[E _]]]]]; try (rewrite E in H; discriminate H). fold d in Hp.
    destruct Hp as [Hp|[Hp|[Hp Hn]]]; [tauto|tauto|]. right; right. split; [done|]. intros Ho.
    assert (HE : ∀ i p ct, tables !! i = Some (Exact p ct) → ¬ starts p d).
    { intros i p ct Hin Hst. eapply Forall_lookup_1 in Hin; [|exact Hn]. cbn [match_sig] in Hin. apply starts_iff in Hst. rewrite Hst in Hin. done. }
    assert (HF : ∀ i p ct, tables !! i = Some (Masked (ff (length p)) p false ct) → ¬ starts p d).
    { intros i p ct Hin Hst. eapply Forall_lookup_1 in Hin; [|exact Hn]. cbn [match_sig] in Hin. apply starts_masked in Hst; [|done]. rewrite Hst in Hin. done. }
    assert (HC : ∀ i p q ct, tables !! i = Some (Masked (ff (length p) ++ zz 4 ++ ff (length q)) (p ++ zz 4 ++ q) false ct) → ¬ chunk p q d).
    { intros i p q ct Hin Hst. eapply Forall_lookup_1 in Hin; [|exact Hn]. cbn [match_sig] in Hin. apply chunk_masked in Hst; [|done]. rewrite Hst in Hin. done. }
    assert (HL : ¬ ∃ l r, length l = 34%nat ∧ d = l ++ str "LP" ++ r).
    { intros Hst. apply (lp_masked 34 (str "LP")) in Hst; [|done]. pose proof (Forall_lookup_1 _ _ 40 _ Hn eq_refl) as Hin. cbn [match_sig] in Hin.
      change (zz 34 ++ ff 2) with (zz 34 ++ ff (length (str "LP"))) in Hin. rewrite Hst in Hin. done. }
    assert (H4 : ¬ mp4 d).
    { intros Hst. apply mp4_iff in Hst; [|done]. pose proof (Forall_lookup_1 _ _ 38 _ Hn eq_refl) as Hin. cbn [match_sig] in Hin. rewrite Hst in Hin. done. }
    destruct Ho as [Ho|[Ho|[Ho|[Ho|[Ho|[Ho|[Ho|[Ho|[Ho|Ho]]]]]]]]].
    + by eapply (HE 18%nat).
    + by eapply (HE 19%nat).
    + destruct Ho as [[Ho|Ho]|[Ho|[Ho|[Ho|[Ho|[Ho|Ho]]]]]]; revert Ho; [eapply (HE 23%nat)|eapply (HE 24%nat)|eapply (HE 25%nat)|eapply (HE 26%nat)|eapply (HE 27%nat)|eapply (HC 28%nat)|eapply (HE 29%nat)|eapply (HE 30%nat)]; reflexivity.
    + revert Ho. by eapply (HC 36%nat).
    + done.
    + by eapply (HE 39%nat).
    + destruct Ho as [Ho|[Ho|[Ho|[Ho|[Ho|Ho]]]]]; revert Ho; [eapply (HF 31%nat)|eapply (HC 32%nat)|eapply (HF 33%nat)|eapply (HF 34%nat)|eapply (HF 35%nat)|eapply (HC 37%nat)]; reflexivity.
    + destruct Ho as [Ho|[Ho|[Ho|[Ho|[Ho|Ho]]]]]; [done|..]; revert Ho; [eapply (HE 41%nat)|eapply (HE 42%nat)|eapply (HE 43%nat)|eapply (HE 44%nat)|eapply (HE 45%nat)]; reflexivity.
    + destruct Ho as [Ho|[Ho|[Ho|Ho]]]; revert Ho; [eapply (HE 46%nat)|eapply (HE 47%nat)|eapply (HE 48%nat)|eapply (HE 49%nat)]; reflexivity.
    + by eapply (HE 50%nat).
  - intros [H|[H|[Hp Ho]]].
    + unfold detect. fold d. rewrite markup_answers by done. done.
    + unfold detect. fold d. rewrite bom_answers by done. done.
    + destruct (detect_cases data Hb) as [[E H]|[[E H]|[[E H]|[[E H]|[E H]]]]]; rewrite E; [done|..]; fold d in H; exfalso; unfold other_format in Ho; tauto.
Qed.
(** what the name promises: text, and only text *)
Theorem is_text_refuted :
  (** texts that are refused *)
  (∃ t1 t2, plain_text t1 ∧ plain_text t2 ∧ is_text_file t1 = false ∧ is_image_file t1 = true ∧ is_text_file t2 = false ∧
     t1 = str "BMW and Mercedes" ∧ t2 = str "My favourite records are all good LPs.") ∧
  (** binary data that is accepted: behind the first 512 bytes, or behind a tag *)
  (∃ b1 b2, is_text_file b1 = true ∧ is_text_file b2 = true ∧ Exists no_text b1 ∧ Exists no_text b2 ∧
     b1 = replicate 512 65 ++ [0; 1; 2] ∧ b2 = str "<p>" ++ [0; 1; 2]).
Proof.
  split.
  - exists (str "BMW and Mercedes"), (str "My favourite records are all good LPs.").
    split; [apply (bool_decide_unpack _); by vm_compute|]. split; [apply (bool_decide_unpack _); by vm_compute|]. by vm_compute.
  - exists (replicate 512 65 ++ [0; 1; 2]), (str "<p>" ++ [0; 1; 2]). split; [vm_compute; reflexivity|]. split; [vm_compute; reflexivity|]. split; [|split; [|split; reflexivity]].
    + apply Exists_app. right. left. unfold no_text. lia.
    + right. right. right. left. unfold no_text. lia.
Qed.
(** short data without any signature *)
Corollary is_text_short data : Forall byte data → (length data ≤ 512)%nat → ¬ other_format data → ¬ markup data → ¬ bom data →
  is_text_file data = true ↔ plain_text data.
Proof. intros Hb Hl H1 H2 H3. rewrite is_text_exact by done. cbv zeta. rewrite take_ge by done. tauto. Qed.
Example is_text_examples :
  is_text_file [] = true ∧ is_text_file (str "hello, world") = true ∧ is_text_file (str "  <!DocType html>" ) = true ∧ is_text_file [104; 0] = false ∧
  is_text_file ([239; 187; 191] ++ str "x") = true ∧ is_text_file (str "<?xml version='1.0'?>") = true.
Proof. by vm_compute. Qed.

(** ** C90: video *)
Theorem is_video_exact data : Forall byte data → let d := take 512 data in
  is_video_file data = true ↔ avi d ∨ webm d ∨ mp4 d ∧ ¬ icon d.
Proof.
  intros Hb d. assert (Hd : Forall byte d) by (by apply Forall_take). unfold is_video_file. split.
  - intros H. destruct (detect_cases data Hb) as [[E _]|[[E _]|[[E _]|[[E Hv]|[E _]]]]]; try (unfold answers in E; congruence). fold d in Hv.
    destruct Hv as [Hv|[Hv|Hv]]; [tauto| |tauto]. right; right. split; [done|]. intros Hi.
    assert (Him : image d) by (by left). apply image_answers in Him. unfold detect in E. fold d in E. congruence.
  - intros H. assert (E : answers (detect data) = (false, false, false, true)).
    { unfold detect. fold d. destruct H as [H|[H|[H1 H2]]]; [by apply avi_answers|by apply webm_answers|].
      apply mp4_answers; [done| |done|done]. unfold d. rewrite take_length. lia. }
    unfold answers in E. congruence.
Qed.
(** an MP4 file whose first box has 256 bytes is taken for an icon *)
Definition odd_mp4 : gostr := [0; 0; 1; 0] ++ str "ftypisom" ++ [0; 0; 2; 0] ++ str "mp41" ++ replicate 236 32.
Theorem is_video_refuted : ∃ data, Forall byte data ∧ mp4 data ∧ is_video_file data = false ∧ is_image_file data = true ∧ data = odd_mp4.
Proof.
  exists odd_mp4. split; [apply (bool_decide_unpack _); by vm_compute|]. split; [|split_and!; vm_compute; reflexivity].
  exists 0, 0, 1, 0, (drop 8 odd_mp4), 4. cbv zeta. split; [vm_compute; reflexivity|]. split; [apply Nat.leb_le; by vm_compute|]. split; [apply Z.leb_le; by vm_compute|].
  split; [done|]. split; [lia|]. split; [done|]. exists (take 16 odd_mp4), (drop 19 odd_mp4). split; vm_compute; reflexivity.
Qed.
Definition small_mp4 : gostr := [0; 0; 0; 24] ++ str "ftypisom" ++ [0; 0; 2; 0] ++ str "isommp42" ++ [1; 2; 3].
Example is_video_examples :
  is_video_file small_mp4 = true ∧ is_video_file ([26; 69; 223; 163] ++ [1]) = true ∧ is_video_file (str "RIFF" ++ [1; 2; 3; 4] ++ str "AVI LIST") = true ∧
  is_video_file (str "RIFF" ++ [1; 2; 3; 4] ++ str "WAVEfmt ") = false.
Proof. by vm_compute. Qed.
