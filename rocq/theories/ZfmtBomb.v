(** * Archives whose headers share one record *)
From Verif Require Import GoBase GoStr PathModel ZipfsModel ZfmtModel ZfmtSpec ZfmtProofs.
Local Open Scope Z_scope.

Lemma slash_iff n : ends_slash n = true ↔ last n = Some 47.
Proof. unfold ends_slash. destruct (last n) as [c|]; [|by split]. rewrite Z.eqb_eq. split; congruence. Qed.
(** headers of one record: the name is that of the header, the place that of the first file *)
Lemma read_headers_at deflate gs o stop : Forall wf gs → Forall (λ g, w_csize deflate g < 2 ^ 62) gs → 0 ≤ o < 2 ^ 62 → read_header stop = Ret HStop → ∀ fuel, (length gs < fuel)%nat →
  read_headers fuel ((gs ≫= λ g, dir_header deflate g o) ++ stop) = Ret (Some ((λ g, hdr_of deflate g o) <$> gs)).
Proof.
  intros H1 H2 Ho Hs. induction gs as [|g gs IH]; intros [|fuel] Hf; cbn [length] in Hf; try lia.
  - cbn. by rewrite Hs.
  - inversion H1; inversion H2; subst. cbn [mbind list_bind read_headers fmap list_fmap]. change (list_bind _ _ ?f gs) with (gs ≫= f). rewrite <- app_assoc, read_header_ok by done. cbn [mbind go_bind]. rewrite IH by (done || lia). done.
Qed.
Fixpoint letters (k : nat) (i : Z) : gostr := match k with O => [] | S k => 97 + i mod 16 :: letters k (i / 16) end.
Lemma letters_length k : ∀ i, length (letters k i) = k.
Proof. induction k; intros i; [done|]. cbn. by rewrite IHk. Qed.
Lemma letters_range k : ∀ i, Forall (λ c, 97 ≤ c < 113) (letters k i).
Proof. induction k; intros i; constructor; [|done]. pose proof (Z.mod_pos_bound i 16). lia. Qed.
Lemma letters_inj k : ∀ i j, 0 ≤ i < 16 ^ Z.of_nat k → 0 ≤ j < 16 ^ Z.of_nat k → letters k i = letters k j → i = j.
Proof.
  induction k as [|k IH]; intros i j Hi Hj E. { cbn in Hi, Hj. lia. }
  rewrite Nat2Z.inj_succ, Z.pow_succ_r in Hi, Hj by lia. cbn in E. injection E as E1 E2. apply IH in E2; [|split; [apply Z.div_pos; lia|apply Z.div_lt_upper_bound; lia]..]. rewrite (Z.div_mod i 16), (Z.div_mod j 16) by lia. lia.
Qed.
Definition bomb_file (n : nat) (i : nat) : wfile := WFile (letters 12 (Z.of_nat i)) false 420 0 0 0 false (replicate n 0).
Definition bomb (deflate : gostr → gostr) (n : nat) : gostr :=
  let body := w_record deflate (bomb_file n 0) in let dir := seq 0 n ≫= λ i, dir_header deflate (bomb_file n i) 0 in
  body ++ dir ++ end_records (Z.of_nat n) (Z.of_nat (length dir)) (Z.of_nat (length body)).
Lemma letters_slash i : ends_slash (letters 12 i) = false.
Proof.
  apply not_true_is_false. intros H. apply slash_iff in H. pose proof (letters_range 12 i) as Hr. rewrite Forall_forall in Hr. apply last_Some in H as [l E]. specialize (Hr 47). rewrite E in Hr. assert (97 ≤ 47 < 113) by (apply Hr, elem_of_app; right; by apply elem_of_list_singleton). lia.
Qed.
Lemma bomb_wf n i : Z.of_nat n < 2 ^ 60 → wf (bomb_file n i).
Proof.
  intros Hn. constructor; cbn [bomb_file w_name w_perm w_data].
  - rewrite letters_length. lia.
  - eapply Forall_impl; [apply letters_range|]. cbn. lia.
  - lia.
  - rewrite replicate_length. lia.
  - rewrite letters_slash. done.
Qed.
Lemma bomb_dir_length deflate n m : ∀ o, let dir := seq o m ≫= λ i, dir_header deflate (bomb_file n i) 0 in (length dir ≤ 95 * m)%nat ∧ (55 * m ≤ length dir)%nat.
Proof.
  induction m as [|m IH]; intros o dir; unfold dir; [done|]. cbn [seq mbind list_bind]. rewrite app_length. change (list_bind _ _ ?f ?l) with (l ≫= f). specialize (IH (S o)). cbv zeta in IH. pose proof (dir_header_length deflate (bomb_file n o) 0).
  assert (length (dir_header deflate (bomb_file n o) 0) ≤ 95)%nat; [|lia]. rewrite dir_header_eq, !app_length, hfront_length, hback_length. unfold dextra. rewrite app_length, w_extra_length. cbn [bomb_file w_name]. rewrite letters_length. destruct (big _ _ _); rewrite ?big_extra_length; cbn; lia.
Qed.
Lemma bomb_read deflate inflate n : inflate (deflate (replicate n 0)) = Some (replicate n 0) → Z.of_nat n < 2 ^ 50 → (length (deflate (replicate n 0%Z)) ≤ 2 * n + 64)%nat → (0 < n)%nat →
  read_zip inflate (bomb deflate n) = Ret (Some ((λ i, Item (letters 12 (Z.of_nat i)) false (Some (replicate n 0))) <$> seq 0 n)).
Proof.
  intros Hi Hn Hd H0. unfold bomb. set (body := w_record deflate (bomb_file n 0)). set (dir := seq 0 n ≫= _). set (er := end_records _ _ _).
  assert (Hcs : ∀ i, w_csize deflate (bomb_file n i) < 2 ^ 62). { intros i. unfold w_csize, w_comp. cbn [bomb_file w_name w_data]. rewrite letters_slash. lia. }
  assert (Hwf : ∀ i, wf (bomb_file n i)) by (intros i; apply bomb_wf; lia).
  assert (Hdl : (length dir ≤ 95 * n)%nat ∧ (55 * n ≤ length dir)%nat) by exact (bomb_dir_length deflate n n 0).
  assert (Hb : (length body ≤ 2 * n + 200)%nat).
  { unfold body, w_record, local_header, descriptor, w_comp. cbn [bomb_file w_name w_data]. rewrite letters_slash, !app_length, !to_le_length, w_extra_length, letters_length. destruct (w_zip64 _ _); rewrite !app_length, !to_le_length; lia. }
  assert (Ho : open_zip (body ++ dir ++ er) = Ret (Some ((λ g, hdr_of deflate g 0) <$> (bomb_file n <$> seq 0 n)))).
  { unfold open_zip. assert (ER : read_end (body ++ dir ++ er) = Ret (Some (DEnd (Z.of_nat n) (Z.of_nat (length dir)) (Z.of_nat (length body))))).
    { rewrite app_assoc. apply read_end_ok; [lia|lia|lia|rewrite app_length; lia|lia|]. intros E Hb' post. assert (Es : seq 0 n = seq 0 (n - 1) ++ [(n - 1)%nat]) by (replace n with (S (n - 1)) at 1 by lia; by rewrite seq_S). unfold dir. rewrite Es, bind_app. cbn [mbind list_bind]. rewrite app_nil_r.
      set (pre := seq 0 (n - 1) ≫= _). set (h := dir_header _ _ _). replace ((body ++ pre ++ h) ++ post) with ((body ++ pre) ++ h ++ post) by (by rewrite <- !app_assoc). rewrite (app_assoc body). apply no_locator; [apply Hwf|apply Hwf|lia]. }
    rewrite ER. cbn [mbind go_bind d_offset d_records]. rewrite i64_small by lia. rewrite Nat2Z.id, drop_app.
    assert (Ed : dir = (bomb_file n <$> seq 0 n) ≫= λ g, dir_header deflate g 0) by (unfold dir; clear; generalize (seq 0 n); intros l; induction l as [|i l IH]; [done|]; cbn [mbind list_bind fmap list_fmap] in *; by rewrite <- IH).
    rewrite Ed, read_headers_at; [|by apply Forall_fmap, Forall_true|by apply Forall_fmap, Forall_true|lia|apply stop_ok|].
    - cbn [mbind go_bind]. rewrite !fmap_length, seq_length, Z.eqb_refl. done.
    - rewrite fmap_length, seq_length, !app_length. rewrite <- Ed. lia. }
  unfold read_zip. rewrite Ho. cbn [mbind go_bind]. assert (HR : ∀ l, read_items inflate (body ++ dir ++ er) ((λ g, hdr_of deflate g 0) <$> (bomb_file n <$> l)) = Ret ((λ i, Item (letters 12 (Z.of_nat i)) false (Some (replicate n 0))) <$> l)).
  { intros l. induction l as [|i l IH]; [done|]. cbn [fmap list_fmap read_items]. change (list_fmap _ _ ?f ?l) with (f <$> l). rewrite IH.
    assert (E : read_item inflate (body ++ dir ++ er) (hdr_of deflate (bomb_file n i) 0) = Ret (Item (letters 12 (Z.of_nat i)) false (Some (replicate n 0)))).
    { assert (EF : read_file inflate (body ++ dir ++ er) (hdr_of deflate (bomb_file n i) 0) = read_file inflate (body ++ dir ++ er) (hdr_of deflate (bomb_file n 0) 0)).
      { unfold read_file, open_file, hdr_of. cbn [z_offset z_method z_csize z_usize z_flags z_crc]. unfold w_method, w_flags, w_csize, w_comp, w_usize, w_crc. cbn [bomb_file w_name w_data w_utf8]. by rewrite !letters_slash. }
      pose proof (read_file_ok deflate inflate [] (bomb_file n 0) (dir ++ er) (Hwf 0%nat) (letters_slash _) Hi (Hcs _)) as E0. cbn [app length] in E0. change (Z.of_nat 0) with 0 in E0. fold body in E0. rewrite E0 in EF.
      unfold read_item. replace (mode_dir _ _ _) with false. { rewrite EF. done. } cbn [hdr_of z_creator z_attrs z_name]. rewrite mode_dir_w by (cbn; lia). cbn [bomb_file w_isdir w_name]. by rewrite letters_slash. }
    rewrite E. done. }
  rewrite HR. done.
Qed.

Lemma bomb_bytes deflate n : (∀ d, bytes d → bytes (deflate d)) → bytes (bomb deflate n).
Proof.
  intros Hd. assert (Hr : bytes (replicate n 0)) by (apply Forall_replicate; lia). assert (Hl : ∀ i, Forall byte (letters 12 i)) by (intros i; eapply Forall_impl; [apply letters_range|]; unfold byte; cbn; lia).
  unfold bomb, bytes. rewrite !Forall_app. split_and!.
  - unfold w_record, local_header, descriptor, w_comp, w_extra. cbn [bomb_file w_name w_data]. rewrite letters_slash. destruct (w_zip64 _ _); rewrite !Forall_app; split_and!; try apply to_le_bytes; try apply Hl; by apply Hd.
  - apply Forall_bind, Forall_true. intros i. unfold compose. rewrite dir_header_eq, !Forall_app. split_and!; [apply hfront_bytes|apply hback_bytes|apply Hl|apply dextra_bytes].
  - unfold end_records, end_record. destruct (_ || _); rewrite !Forall_app; split_and!; apply to_le_bytes.
Qed.
Lemma bomb_length deflate n : (length (deflate (replicate n 0%Z)) ≤ 2 * n + 64)%nat → (length (bomb deflate n) ≤ 97 * n + 300)%nat.
Proof.
  intros Hd. unfold bomb. rewrite !app_length. pose proof (bomb_dir_length deflate n n 0) as [H _].
  assert (Hb : (length (w_record deflate (bomb_file n 0)) ≤ 2 * n + 200)%nat).
  { unfold w_record, local_header, descriptor, w_comp. cbn [bomb_file w_name w_data]. rewrite letters_slash, !app_length, !to_le_length, w_extra_length, letters_length. destruct (w_zip64 _ _); rewrite !app_length, !to_le_length; lia. }
  assert (He : ∀ a b c, (length (end_records a b c) ≤ 98)%nat). { intros a b c. unfold end_records, end_record. destruct (_ || _); rewrite !app_length, !to_le_length; lia. }
  specialize (He (Z.of_nat n) (Z.of_nat (length (seq 0 n ≫= λ i, dir_header deflate (bomb_file n i) 0))) (Z.of_nat (length (w_record deflate (bomb_file n 0))))). lia.
Qed.
Lemma bomb_output n l : output ((λ i : nat, Item (letters 12 (Z.of_nat i)) false (Some (replicate n 0))) <$> l) = Z.of_nat n * Z.of_nat (length l).
Proof. induction l as [|i l IH]; [cbn; lia|]. cbn [fmap list_fmap output foldr i_data length]. change (list_fmap _ _ ?f ?l) with (f <$> l). change (foldr _ 0 ?x) with (output x). rewrite IH, replicate_length. lia. Qed.
