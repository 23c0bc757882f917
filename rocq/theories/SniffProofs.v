(** * Lemmas about the content sniffer: what each entry of the table recognises *)
From Verif Require Import SniffModel SniffSpec.
Local Open Scope Z_scope.

(** ** the table as a whole *)
Lemma first_match_skip pre post d : Forall (λ s, match_sig s d = None) pre → first_match (pre ++ post) d = first_match post d.
Proof. induction 1 as [|s pre Hs _ IH]; [done|]. cbn [app first_match]. by rewrite Hs. Qed.
Lemma first_match_cases sigs d :
  (∃ s ct, s ∈ sigs ∧ match_sig s d = Some ct ∧ first_match sigs d = ct) ∨
  Forall (λ s, match_sig s d = None) sigs ∧ first_match sigs d = str "application/octet-stream".
Proof.
  induction sigs as [|s sigs IH]; [right; split; [constructor|done]|]. cbn [first_match]. destruct (match_sig s d) as [ct|] eqn:E.
  - left. exists s, ct. split; [by left|done].
  - destruct IH as [(s' & ct & Hs & Hm & Hf)|[Hn Hf]]; [left; exists s', ct; split; [by right|done]|right; split; [by constructor|done]].
Qed.

(** ** masked entries *)
Lemma land_255 b : byte b → Z.land b 255 = b.
Proof. intros Hb. change 255 with (Z.ones 8). rewrite Z.land_ones by lia. apply Z.mod_small. exact Hb. Qed.
Lemma masked_app m1 p1 m2 p2 d : length m1 = length p1 →
  masked_match (m1 ++ m2) (p1 ++ p2) d = masked_match m1 p1 d && masked_match m2 p2 (drop (length p1) d).
Proof.
  revert p1 d. induction m1 as [|m m1 IH]; intros [|p p1] d Hl; try done. destruct d as [|x d]; [done|].
  cbn [app masked_match length]. rewrite IH by (simpl in Hl; lia). change (drop (S (length p1)) (x :: d)) with (drop (length p1) d). by rewrite andb_assoc.
Qed.
Lemma masked_ff p d : Forall byte d → masked_match (ff (length p)) p d = has_prefix p d.
Proof.
  revert d. induction p as [|b p IH]; intros d Hd; [done|]. destruct d as [|x d]; [done|]. apply Forall_cons in Hd as [Hx Hd].
  unfold ff. cbn [length replicate masked_match has_prefix]. rewrite land_255 by done. rewrite (Z.eqb_sym x b). f_equal. by apply IH.
Qed.
Lemma masked_zz n d : masked_match (zz n) (zz n) d = (n <=? length d)%nat.
Proof.
  revert d. induction n as [|n IH]; intros d; [done|]. destruct d as [|x d]; [done|].
  unfold zz. cbn [replicate masked_match length]. rewrite Z.land_0_r. cbn. apply IH.
Qed.
Lemma starts_iff p d : has_prefix p d = true ↔ starts p d.
Proof. apply has_prefix_iff. Qed.
Lemma starts_masked p d : Forall byte d → masked_match (ff (length p)) p d = true ↔ starts p d.
Proof. intros Hd. rewrite masked_ff by done. apply starts_iff. Qed.
Lemma Forall_byte_drop n d : Forall byte d → Forall byte (drop n d).
Proof. apply Forall_drop. Qed.
Lemma chunk_masked tag kind d : Forall byte d →
  masked_match (ff (length tag) ++ zz 4 ++ ff (length kind)) (tag ++ zz 4 ++ kind) d = true ↔ chunk tag kind d.
Proof.
  intros Hd. rewrite masked_app by (unfold ff; by rewrite replicate_length). rewrite masked_app by done. rewrite masked_zz. change (length (zz 4)) with 4%nat.
  rewrite !masked_ff by (repeat apply Forall_drop; done). rewrite !andb_true_iff, !starts_iff, Nat.leb_le. split.
  - intros ([r ->] & Hl & [r' Hr]). rewrite drop_app in *. exists (take 4 r), r'. rewrite take_length. split; [lia|]. f_equal. by rewrite <- Hr, take_drop.
  - intros (l & r & Hl & ->). rewrite drop_app. split; [by exists (l ++ kind ++ r)|]. split; [rewrite app_length; lia|]. exists r. rewrite <- Hl. by rewrite drop_app.
Qed.
Lemma lp_masked n kind d : Forall byte d →
  masked_match (zz n ++ ff (length kind)) (zz n ++ kind) d = true ↔ ∃ l r, length l = n ∧ d = l ++ kind ++ r.
Proof.
  intros Hd. rewrite masked_app by done. rewrite masked_zz. unfold zz at 1. rewrite replicate_length.
  rewrite masked_ff by (apply Forall_drop; done). rewrite andb_true_iff, starts_iff, Nat.leb_le. split.
  - intros (Hl & [r' Hr]). exists (take n d), r'. rewrite take_length. split; [lia|]. by rewrite <- Hr, take_drop.
  - intros (l & r & Hl & ->). split; [rewrite app_length; lia|]. exists r. rewrite <- Hl. by rewrite drop_app.
Qed.
Lemma bom_masked p n d : Forall byte d →
  masked_match (ff (length p) ++ zz n) (p ++ zz n) d = true ↔ starts p d ∧ (length p + n ≤ length d)%nat.
Proof.
  intros Hd. rewrite masked_app by (unfold ff; by rewrite replicate_length). rewrite masked_zz, masked_ff by done. rewrite andb_true_iff, starts_iff, Nat.leb_le, drop_length.
  split; intros [H1 H2]; split; try done.
  - destruct H1 as [r ->]. rewrite app_length in *. lia.
  - lia.
Qed.

(** ** white space, markup *)
Lemma sniff_ws_iff c : sniff_ws c = true ↔ c = 9 ∨ c = 10 ∨ c = 12 ∨ c = 13 ∨ c = 32.
Proof. unfold sniff_ws. rewrite !orb_true_iff, !Z.eqb_eq. tauto. Qed.
Lemma drop_ws_split d : ∃ w, blank w ∧ d = w ++ drop_ws d.
Proof.
  induction d as [|b d (w & Hw & E)]; [by exists []; split; [constructor|]|]. cbn [drop_ws]. destruct (sniff_ws b) eqn:Eb.
  - exists (b :: w). split; [constructor; [by apply sniff_ws_iff|done]|]. cbn. by rewrite <- E.
  - exists []. split; [constructor|done].
Qed.
Lemma drop_ws_blank w x d : blank w → sniff_ws x = false → drop_ws (w ++ x :: d) = x :: d.
Proof.
  intros Hw Hx. induction Hw as [|c w Hc Hw IH]; cbn [app drop_ws]; [by rewrite Hx|]. apply sniff_ws_iff in Hc. by rewrite Hc.
Qed.
Lemma land_223 x b : byte x → 65 ≤ b ≤ 90 → b = Z.land x 223 ↔ x = b ∨ x = b + 32.
Proof.
  intros Hx Hb. unfold byte in Hx.
  assert (H : forallb (λ n, let x := Z.of_nat n in forallb (λ m, let b := 65 + Z.of_nat m in
    Bool.eqb (b =? Z.land x 223) ((x =? b) || (x =? b + 32))) (seq 0 26)) (seq 0 256) = true) by (by vm_compute).
  rewrite forallb_forall in H. specialize (H (Z.to_nat x)). rewrite in_seq in H. specialize (H ltac:(lia)). cbv zeta in H.
  rewrite forallb_forall in H. specialize (H (Z.to_nat (b - 65))). rewrite in_seq in H. specialize (H ltac:(lia)).
  rewrite Z2Nat.id in H by lia. rewrite Z2Nat.id in H by lia. replace (65 + (b - 65)) with b in H by lia.
  apply Bool.eqb_prop in H. rewrite <- Z.eqb_eq, H, orb_true_iff, !Z.eqb_eq. done.
Qed.
Lemma html_match_iff h d : Forall byte d →
  html_match h d = true ↔ ∃ t e r, Forall2 same_letter h t ∧ (e = 32 ∨ e = 62) ∧ d = t ++ e :: r.
Proof.
  revert d. induction h as [|b h IH]; intros d Hd.
  - destruct d as [|x d]; cbn [html_match].
    + split; [done|]. intros (t & e & r & _ & _ & E). by destruct t.
    + unfold is_tt. rewrite orb_true_iff, !Z.eqb_eq. split; [intros He; exists [], x, d; split; [constructor|done]|].
      intros (t & e & r & Ht & He & E). inversion Ht; subst. injection E as -> ->. done.
  - destruct d as [|x d]; cbn [html_match].
    + split; [done|]. intros (t & e & r & _ & _ & E). by destruct t.
    + apply Forall_cons in Hd as [Hx Hd]. rewrite andb_true_iff, (IH d Hd), Z.eqb_eq. destruct (between 65 90 b) eqn:Eb.
      * apply between_iff in Eb. rewrite land_223 by done. split.
        -- intros [Hb (t & e & r & Ht & He & ->)]. exists (x :: t), e, r. split; [constructor; [|done]|done]. destruct Hb as [->| ->]; [by left|by right].
        -- intros (t & e & r & Ht & He & E). inversion Ht as [|? y ? t' Hy Ht' E1 E2]; subst. injection E as -> ->. split; [destruct Hy as [->|[_ ->]]; auto|]. by exists t', e, r.
      * split.
        -- intros [-> (t & e & r & Ht & He & ->)]. exists (x :: t), e, r. split; [constructor; [by left|done]|done].
        -- intros (t & e & r & Ht & He & E). inversion Ht as [|? y ? t' Hy Ht' E1 E2]; subst. injection E as -> ->.
           split; [|by exists t', e, r]. destruct Hy as [->|[Hr _]]; [done|]. apply between_iff in Hr. congruence.
Qed.

(** ** the brands of an MP4 file *)
Lemma mp4_brands_iff fuel st box d : (box < st + 4 * fuel)%nat →
  mp4_brands fuel st box d = true ↔ ∃ k, (st + 4 * k < box)%nat ∧ (st + 4 * k ≠ 12)%nat ∧ sub d (st + 4 * k) 3 = str "mp4".
Proof.
  revert st. induction fuel as [|f IH]; intros st Hf.
  - cbn [mp4_brands]. split; [done|]. intros (k & Hk & _). lia.
  - cbn [mp4_brands]. destruct (Nat.ltb_spec st box) as [Hs|Hs].
    2: { split; [done|]. intros (k & Hk & _). lia. }
    assert (Hrec : mp4_brands f (st + 4) box d = true ↔ ∃ k, (st + 4 * S k < box)%nat ∧ (st + 4 * S k ≠ 12)%nat ∧ sub d (st + 4 * S k) 3 = str "mp4").
    { rewrite IH by lia. split; intros (k & Hk); exists k; replace (st + 4 * S k)%nat with (st + 4 + 4 * k)%nat in * by lia; done. }
    destruct (Nat.eqb_spec st 12) as [->|H12].
    + rewrite Hrec. split; [intros (k & Hk); by exists (S k)|]. intros ([|k] & Hk & Hn & Hb); [lia|by exists k].
    + destruct (decide (sub d st 3 = str "mp4")) as [Hb|Hb].
      * split; [|done]. intros _. exists 0%nat. rewrite Nat.mul_0_r, Nat.add_0_r. done.
      * rewrite Hrec. split; [intros (k & Hk); by exists (S k)|]. intros ([|k] & Hk & Hn & Hb'); [rewrite Nat.mul_0_r, Nat.add_0_r in Hb'; done|by exists k].
Qed.
Lemma sub_iff d i p : sub d i (length p) = p ↔ (∃ u v, d = u ++ p ++ v ∧ length u = i) ∨ p = [].
Proof.
  unfold sub. split.
  - intros E. destruct (decide (p = [])) as [->|Hp]; [by right|]. left. exists (take i d), (drop (length p) (drop i d)).
    assert (i ≤ length d)%nat. { destruct (decide (i ≤ length d)%nat); [done|]. exfalso. rewrite drop_ge in E by lia. rewrite take_nil in E. congruence. }
    split; [|rewrite take_length; lia]. rewrite <- E at 1. by rewrite take_drop, take_drop.
  - intros [(u & v & -> & <-)| ->]; [|done]. by rewrite drop_app, take_app.
Qed.
Lemma mp4_iff d : Forall byte d → mp4_match d = true ↔ mp4 d.
Proof.
  intros Hd. destruct d as [|a [|b [|c [|e r]]]]; try (split; [done|]; intros (? & ? & ? & ? & ? & ? & E & _); discriminate E).
  unfold mp4_match. set (d := a :: b :: c :: e :: r) in *.
  assert (Hb : byte a ∧ byte b ∧ byte c ∧ byte e) by (repeat apply Forall_cons in Hd as [? Hd]; done). unfold byte in Hb.
  set (box := a * 16777216 + b * 65536 + c * 256 + e).
  assert (Hbox : box = 16777216 * a + 65536 * b + 256 * c + e) by (unfold box; lia).
  assert (Hmod : (box mod 4 =? 0) = true ↔ (16777216 * a + 65536 * b + 256 * c + e) mod 4 = 0) by (by rewrite Z.eqb_eq, <- Hbox).
  cbv zeta. destruct (Nat.ltb_spec (length d) 12) as [H12|H12].
  { split; [done|]. intros (a' & b' & c' & e' & bx & i & _ & Hl & _). lia. }
  destruct ((Z.of_nat (length d) <? box) || negb (box mod 4 =? 0)) eqn:E.
  { split; [done|]. intros (a' & b' & c' & e' & bx & i & Hdd & _ & Hl & Hm & _). injection Hdd as <- <- <- <- _.
    apply orb_true_iff in E as [E|E]; [apply Z.ltb_lt in E; lia|]. apply negb_true_iff in E. apply Hmod in Hm. congruence. }
  apply orb_false_iff in E as [E1 E2]. apply Z.ltb_ge in E1. apply negb_false_iff in E2. pose proof (proj1 Hmod E2) as Hm. clear E2.
  destruct (decide (sub d 4 4 = str "ftyp")) as [Ef|Ef].
  - rewrite mp4_brands_iff by lia. apply (sub_iff d 4 (str "ftyp")) in Ef as [(u & v & Ed & Hu)|]; [|done].
    assert (Eu : u = [a; b; c; e]). { rewrite <- (take_app u (str "ftyp" ++ v)), <- Ed, Hu. done. }
    split.
    + intros (k & Hk & Hn & Hs). apply (sub_iff d _ (str "mp4")) in Hs as [(x & y & Ex & Hx)|]; [|done].
      exists a, b, c, e, v, (2 + Z.of_nat k). cbv zeta. split; [by rewrite <- Eu|]. split; [done|]. split; [lia|]. split; [done|]. split; [lia|]. split; [lia|].
      exists x, y. split; [done|lia].
    + intros (a' & b' & c' & e' & bx & i & Hdd & _ & Hl & _ & Hi & Hn & x & y & Ex & Hx). injection Hdd as <- <- <- <- _.
      exists (Z.to_nat (i - 2)). split; [lia|]. split; [lia|]. apply (sub_iff d _ (str "mp4")). left. exists x, y. split; [done|lia].
  - split; [done|]. intros (a' & b' & c' & e' & bx & i & Hdd & _). exfalso. apply Ef. apply (sub_iff d 4 (str "ftyp")). left. exists [a'; b'; c'; e'], bx. done.
Qed.

(** ** plain text *)
Lemma binary_iff b : byte b → binary b = true ↔ no_text b.
Proof. unfold byte, binary, no_text. rewrite !orb_true_iff, !between_iff, Z.leb_le, Z.eqb_eq. lia. Qed.
Lemma text_match_iff d : Forall byte d → text_match d = true ↔ plain_text d.
Proof.
  intros Hd. unfold text_match, plain_text. rewrite forallb_forall.
  destruct (drop_ws_split d) as (w & Hw & E). rewrite E in Hd. apply Forall_app in Hd as [_ Hd].
  assert (Hs : Forall (λ b, ¬ no_text b) d ↔ Forall (λ b, ¬ no_text b) w ∧ Forall (λ b, ¬ no_text b) (drop_ws d)) by (rewrite <- Forall_app, <- E; done).
  rewrite Hs. split.
  - intros H. split.
    + eapply Forall_impl; [exact Hw|]. intros c Hc Hn. unfold no_text in Hn. simpl in Hc. lia.
    + apply Forall_forall. intros c Hc Hn. rewrite Forall_forall in Hd. apply binary_iff in Hn; [|by apply Hd]. apply elem_of_list_In in Hc. apply H in Hc. rewrite Hn in Hc. done.
  - intros [_ H] c Hc. apply elem_of_list_In in Hc. rewrite Forall_forall in H, Hd. apply negb_true_iff. apply not_true_iff_false. intros Hb. apply binary_iff in Hb; [|by apply Hd]. by apply (H c).
Qed.

(** ** what an entry says about the data *)
Definition markup_ct (ct : gostr) : Prop := ct = str "text/html; charset=utf-8" ∨ ct = str "text/xml; charset=utf-8".
Lemma html_means h d : Forall byte d → h ∈ tags → html_match h (drop_ws d) = true → markup d.
Proof.
  intros Hd Ht H. destruct (drop_ws_split d) as (w & Hw & E). apply html_match_iff in H as (t & e & r & H1 & H2 & H3).
  - left. exists w, h, t, e, r. rewrite <- H3. done.
  - rewrite E in Hd. by apply Forall_app in Hd as [_ Hd].
Qed.
Lemma xml_means d : Forall byte d → masked_match (ff 5) (str "<?xml") (drop_ws d) = true → markup d.
Proof.
  intros Hd H. destruct (drop_ws_split d) as (w & Hw & E). apply (starts_masked (str "<?xml")) in H as [r H].
  - right. exists w, r. rewrite <- H. done.
  - rewrite E in Hd. by apply Forall_app in Hd as [_ Hd].
Qed.
(** the four answers for a content type *)
Definition answers (ct : gostr) : bool * bool * bool * bool :=
  (contains ct (str "text/"), contains ct (str "image/"), contains ct (str "application/pdf"), contains ct (str "video/")).
Definition tables : list sig := take 51 signatures.
Lemma signatures_split : signatures = tables ++ [Text].
Proof. reflexivity. Qed.
Lemma classify s ct d : Forall byte d → s ∈ tables → match_sig s d = Some ct →
  answers ct = (true, false, false, false) ∧ (markup d ∨ bom d) ∨
  answers ct = (false, true, false, false) ∧ image d ∨
  answers ct = (false, false, true, false) ∧ pdf d ∨
  answers ct = (false, false, false, true) ∧ (avi d ∨ mp4 d ∨ webm d) ∨
  answers ct = (false, false, false, false) ∧ (starts (str "%!PS-Adobe-") d ∨ audio d ∨ font d ∨ archive d ∨ starts [0; 97; 115; 109] d).
Proof.
  intros Hd Hs. revert s Hs ct.
  match goal with |- ∀ s, s ∈ ?l → @?P s => apply (proj1 (Forall_forall P l)) end. unfold tables, signatures. cbn [take].
  repeat (apply Forall_cons_2; [cbn [match_sig]; intros ct H|]); [..|apply Forall_nil_2].
  all: match type of H with (if ?b then _ else _) = _ => destruct b eqn:E; [|discriminate H]; apply (inj Some) in H as <- end.
  1-17: (left; split; [reflexivity|left; eapply html_means; [exact Hd| |exact E]; apply (bool_decide_unpack _); by vm_compute]).
  - left. split; [reflexivity|]. left. by apply xml_means.
  - right; right; left. split; [reflexivity|]. by apply starts_iff.
  - do 4 right. split; [reflexivity|]. left. by apply starts_iff.
  - left. split; [reflexivity|]. right. apply (bom_masked [254; 255] 2) in E as [E1 E2]; [|done]. split; [exact E2|tauto].
  - left. split; [reflexivity|]. right. apply (bom_masked [255; 254] 2) in E as [E1 E2]; [|done]. split; [exact E2|tauto].
  - left. split; [reflexivity|]. right. apply (bom_masked [239; 187; 191] 1) in E as [E1 E2]; [|done]. split; [exact E2|tauto].
  - apply starts_iff in E. right; left. split; [reflexivity|]. unfold image, icon. tauto.
  - apply starts_iff in E. right; left. split; [reflexivity|]. unfold image, icon. tauto.
  - apply starts_iff in E. right; left. split; [reflexivity|]. unfold image. tauto.
  - apply starts_iff in E. right; left. split; [reflexivity|]. unfold image. tauto.
  - apply starts_iff in E. right; left. split; [reflexivity|]. unfold image. tauto.
  - apply (chunk_masked (str "RIFF") (str "WEBPVP")) in E; [|done]. right; left. split; [reflexivity|]. unfold image. tauto.
  - apply starts_iff in E. right; left. split; [reflexivity|]. unfold image. tauto.
  - apply starts_iff in E. right; left. split; [reflexivity|]. unfold image. tauto.
  - apply (starts_masked (str ".snd")) in E; [|done]. do 4 right. split; [reflexivity|]. unfold audio. tauto.
  - apply (chunk_masked (str "FORM") (str "AIFF")) in E; [|done]. do 4 right. split; [reflexivity|]. unfold audio. tauto.
  - apply (starts_masked (str "ID3")) in E; [|done]. do 4 right. split; [reflexivity|]. unfold audio. tauto.
  - apply (starts_masked (str "OggS" ++ [0])) in E; [|done]. do 4 right. split; [reflexivity|]. unfold audio. tauto.
  - apply (starts_masked (str "MThd" ++ [0; 0; 0; 6])) in E; [|done]. do 4 right. split; [reflexivity|]. unfold audio. tauto.
  - apply (chunk_masked (str "RIFF") (str "AVI ")) in E; [|done]. do 3 right. left. split; [reflexivity|]. by left.
  - apply (chunk_masked (str "RIFF") (str "WAVE")) in E; [|done]. do 4 right. split; [reflexivity|]. unfold audio. tauto.
  - apply mp4_iff in E; [|done]. do 3 right. left. split; [reflexivity|]. tauto.
  - apply starts_iff in E. do 3 right. left. split; [reflexivity|]. unfold webm. tauto.
  - apply (lp_masked 34 (str "LP")) in E; [|done]. do 4 right. split; [reflexivity|]. unfold font. tauto.
  - apply starts_iff in E. do 4 right. split; [reflexivity|]. unfold font. tauto.
  - apply starts_iff in E. do 4 right. split; [reflexivity|]. unfold font. tauto.
  - apply starts_iff in E. do 4 right. split; [reflexivity|]. unfold font. tauto.
  - apply starts_iff in E. do 4 right. split; [reflexivity|]. unfold font. tauto.
  - apply starts_iff in E. do 4 right. split; [reflexivity|]. unfold font. tauto.
  - apply starts_iff in E. do 4 right. split; [reflexivity|]. unfold archive. tauto.
  - apply starts_iff in E. do 4 right. split; [reflexivity|]. unfold archive. tauto.
  - apply starts_iff in E. do 4 right. split; [reflexivity|]. unfold archive. tauto.
  - apply starts_iff in E. do 4 right. split; [reflexivity|]. unfold archive. tauto.
  - apply starts_iff in E. do 4 right. split; [reflexivity|]. tauto.
Qed.
(** the verdict: an entry of the table, or plain text, or nothing *)
Lemma verdict d : Forall byte d →
  (∃ s ct, s ∈ tables ∧ match_sig s d = Some ct ∧ first_match signatures d = ct) ∨
  (Forall (λ s, match_sig s d = None) tables ∧
   (plain_text d ∧ first_match signatures d = str "text/plain; charset=utf-8" ∨
    ¬ plain_text d ∧ first_match signatures d = str "application/octet-stream")).
Proof.
  intros Hd. destruct (first_match_cases tables d) as [(s & ct & Hs & Hm & Hf)|[Hn _]].
  - left. exists s, ct. split; [done|]. split; [done|]. rewrite signatures_split. clear -Hf Hs Hm. revert Hs Hf. generalize tables as l.
    induction l as [|x l IH]; intros Hs Hf; [by apply elem_of_nil in Hs|]. cbn [app first_match] in *. destruct (match_sig x d) as [c|] eqn:Ex; [done|].
    apply elem_of_cons in Hs as [->|Hs]; [congruence|]. by apply IH.
  - right. split; [done|]. rewrite signatures_split, first_match_skip by done. cbn [first_match match_sig].
    destruct (text_match d) eqn:E; [left|right]; (split; [|reflexivity]).
    + by apply text_match_iff.
    + intros Hp. apply text_match_iff in Hp; [congruence|done].
Qed.

(** ** the other direction: data of a format meets no earlier entry *)
Lemma z_land_0 x : Z.land x 0 =? 0 = true.
Proof. by rewrite Z.land_0_r. Qed.
Lemma starts_answers p r b1 b2 b3 b4 ct : first_match signatures (p ++ r) = ct → answers ct = (b1, b2, b3, b4) → answers (first_match signatures (p ++ r)) = (b1, b2, b3, b4).
Proof. by intros ->. Qed.
(** entries in front of the MP4 one *)
Definition before_mp4 : list sig := take 38 signatures.
Lemma signatures_mp4 : signatures = before_mp4 ++ Mp4 :: drop 39 signatures.
Proof. reflexivity. Qed.
Lemma webm_answers d : webm d → answers (first_match signatures d) = (false, false, false, true).
Proof.
  intros [r ->]. rewrite signatures_mp4, first_match_skip.
  - cbn [first_match]. destruct (match_sig Mp4 _) as [ct|] eqn:E; [|reflexivity]. cbn [match_sig] in E. destruct (mp4_match _); [|discriminate E]. apply (inj Some) in E as <-. reflexivity.
  - unfold before_mp4, signatures. cbn [take]. repeat (apply Forall_cons_2; [reflexivity|]). apply Forall_nil_2.
Qed.
Lemma mp4_answers d : Forall byte d → (length d ≤ 512)%nat → mp4 d → ¬ icon d → answers (first_match signatures d) = (false, false, false, true).
Proof.
  intros Hd Hl Hm Hi. assert (Hmm : mp4_match d = true) by (by apply mp4_iff).
  destruct Hm as (a & b & c & e & box & i & Ed & _ & Hs & Hmod & _). subst d. cbn [app str] in *. cbv zeta in *.
  apply Forall_cons in Hd as [Ha Hd]. apply Forall_cons in Hd as [Hb Hd]. apply Forall_cons in Hd as [Hc Hd]. apply Forall_cons in Hd as [He Hd]. unfold byte in *.
  assert (a = 0) as -> by lia. assert (b = 0) as -> by lia. assert (Hcc : c = 0 ∨ c = 1 ∨ c = 2) by lia.
  assert (He1 : c = 1 → e ≠ 0). { intros -> ->. apply Hi. left. by eexists. }
  assert (He2 : c ≠ 2). { intros ->. assert (e = 0) as -> by lia. apply Hi. right. by eexists. }
  rewrite signatures_mp4, first_match_skip.
  - cbn [first_match match_sig]. rewrite Hmm. reflexivity.
  - assert (He' : c = 0 ∨ c = 1 ∧ 0 =? e = false) by lia.
    unfold before_mp4, signatures. cbn [take]. destruct He' as [->|[-> He']]; repeat (apply Forall_cons_2; [first [reflexivity|cbn [match_sig has_prefix]; rewrite He'; reflexivity]|]); apply Forall_nil_2.
Qed.
Lemma pdf_answers d : pdf d → answers (first_match signatures d) = (false, false, true, false).
Proof. intros [r ->]. eapply starts_answers; [vm_compute; reflexivity|reflexivity]. Qed.
Lemma chunk_webp d : chunk (str "RIFF") (str "WEBPVP") d → answers (first_match signatures d) = (false, true, false, false).
Proof.
  intros (l & r & Hl & ->). destruct l as [|a [|b [|c [|e [|]]]]]; try discriminate Hl.
  destruct a, b, c, e; (eapply starts_answers; [vm_compute; reflexivity|reflexivity]).
Qed.
Lemma avi_answers d : avi d → answers (first_match signatures d) = (false, false, false, true).
Proof.
  intros (l & r & Hl & ->). destruct l as [|a [|b [|c [|e [|]]]]]; try discriminate Hl.
  destruct a, b, c, e; (eapply starts_answers; [vm_compute; reflexivity|reflexivity]).
Qed.
Lemma image_answers d : image d → answers (first_match signatures d) = (false, true, false, false).
Proof.
  intros [[[r ->]|[r ->]]|[[r ->]|[[r ->]|[[r ->]|[H|[[r ->]|[r ->]]]]]]]; try (eapply starts_answers; [vm_compute; reflexivity|reflexivity]).
  by apply chunk_webp.
Qed.

(** markup and byte order marks *)
Lemma first_match_app l1 l2 d s ct : s ∈ l1 → match_sig s d = Some ct → ∃ s' ct', s' ∈ l1 ∧ match_sig s' d = Some ct' ∧ first_match (l1 ++ l2) d = ct'.
Proof.
  intros Hs Hm. induction l1 as [|x l1 IH]; [by apply elem_of_nil in Hs|]. cbn [app first_match]. destruct (match_sig x d) as [c|] eqn:Ex.
  - exists x, c. split; [by left|done].
  - apply elem_of_cons in Hs as [->|Hs]; [congruence|]. destruct (IH Hs) as (s' & ct' & H1 & H2 & H3). exists s', ct'. split; [by right|done].
Qed.
Definition html_entries : list sig := take 17 signatures.
Lemma html_entries_tags : html_entries = Html <$> tags.
Proof. reflexivity. Qed.
Lemma signatures_html : signatures = html_entries ++ drop 17 signatures.
Proof. reflexivity. Qed.
Lemma signatures_xml : signatures = take 18 signatures ++ drop 18 signatures.
Proof. reflexivity. Qed.
Lemma text_entry s ct d : s ∈ take 18 signatures → match_sig s d = Some ct → answers ct = (true, false, false, false).
Proof.
  intros Hs. revert s Hs ct.
  match goal with |- ∀ s, s ∈ ?l → @?P s => apply (proj1 (Forall_forall P l)) end. unfold signatures. cbn [take].
  repeat (apply Forall_cons_2; [cbn [match_sig]; intros ct H|]); [..|apply Forall_nil_2].
  all: match type of H with (if ?b then _ else _) = _ => destruct b eqn:E; [|discriminate H]; apply (inj Some) in H as <- end; reflexivity.
Qed.
Lemma tags_lt tag : tag ∈ tags → ∃ u, tag = 60 :: u.
Proof.
  revert tag. match goal with |- ∀ s, s ∈ ?l → @?P s => apply (proj1 (Forall_forall P l)) end. unfold tags. cbn [fmap list_fmap].
  repeat (apply Forall_cons_2; [by eexists|]). apply Forall_nil_2.
Qed.
Lemma markup_answers d : Forall byte d → markup d → answers (first_match signatures d) = (true, false, false, false).
Proof.
  intros Hd Hm. assert (∃ s ct, s ∈ take 18 signatures ∧ match_sig s d = Some ct) as (s & ct & Hs & Hc).
  { destruct Hm as [(w & tag & t & e & r & Hw & Htag & Ht & He & E)|(w & r & Hw & E)].
    - exists (Html tag), (str "text/html; charset=utf-8"). split.
      + change (take 18 signatures) with ((Html <$> tags) ++ [Masked (ff 5) (str "<?xml") true (str "text/xml; charset=utf-8")]). apply elem_of_app. left. by apply elem_of_list_fmap_1.
      + cbn [match_sig]. destruct (tags_lt tag Htag) as [u ->]. inversion Ht as [|? y ? t' Hy Ht' E1 E2]; subst. destruct Hy as [->|[Hy _]]; [|lia].
        change ((60 :: t') ++ e :: r) with (60 :: (t' ++ e :: r)) in *. rewrite drop_ws_blank by done.
        rewrite (proj2 (html_match_iff _ _ (proj2 (proj1 (Forall_app _ _ _) Hd)))); [done|]. by exists (60 :: t'), e, r.
    - exists (Masked (ff 5) (str "<?xml") true (str "text/xml; charset=utf-8")), (str "text/xml; charset=utf-8"). split.
      + change (take 18 signatures) with ((Html <$> tags) ++ [Masked (ff 5) (str "<?xml") true (str "text/xml; charset=utf-8")]). apply elem_of_app. right. by apply elem_of_list_singleton.
      + cbn [match_sig]. subst d. change (str "<?xml" ++ r) with (60 :: (str "?xml" ++ r)) in *. rewrite drop_ws_blank by done.
        change (ff 5) with (ff (length (str "<?xml"))). rewrite (proj2 (starts_masked (str "<?xml") _ (proj2 (proj1 (Forall_app _ _ _) Hd)))); [done|]. by exists r. }
  rewrite signatures_xml. destruct (first_match_app _ (drop 18 signatures) d s ct Hs Hc) as (s' & ct' & H1 & H2 & ->). by eapply text_entry.
Qed.
Lemma bom_answers d : bom d → answers (first_match signatures d) = (true, false, false, false).
Proof.
  intros [Hl [[r ->]|[[r ->]|[r ->]]]].
  - destruct r as [|x [|y r]]; [simpl in Hl; lia|simpl in Hl; lia|]. destruct x, y; (eapply starts_answers; [vm_compute; reflexivity|reflexivity]).
  - destruct r as [|x [|y r]]; [simpl in Hl; lia|simpl in Hl; lia|]. destruct x, y; (eapply starts_answers; [vm_compute; reflexivity|reflexivity]).
  - destruct r as [|x r]; [simpl in Hl; lia|]. destruct x; (eapply starts_answers; [vm_compute; reflexivity|reflexivity]).
Qed.
