(** * Property C114: the bytes ZipFiles writes are an archive *)
From Verif Require Import GoBase GoStr PathModel ZipfsModel ZfmtModel ZfmtSpec ZfmtProofs ZfmtCrc ZfmtBomb ZfmtProps ZlaySpec.
Local Open Scope Z_scope.

Lemma at_here b q : at_pos (b ++ q) 0 b.
Proof. by exists [], q. Qed.
Lemma at_all b : at_pos b 0 b.
Proof. exists [], []. by rewrite app_nil_r. Qed.
Lemma at_skip a r o b : at_pos r (o - Z.of_nat (length a)) b → at_pos (a ++ r) o b.
Proof. intros (p & q & -> & E). exists (a ++ p), q. rewrite <- !app_assoc. split; [done|]. rewrite app_length. lia. Qed.
Lemma at_in x o y k b : at_pos x o y → at_pos y (k - o) b → at_pos x k b.
Proof. intros (p & q & -> & E) (p' & q' & -> & E'). exists (p ++ p'), (q' ++ q). rewrite <- !app_assoc. split; [done|]. rewrite app_length. lia. Qed.
Lemma field_in x o y k n v : at_pos x o y → field y (k - o) n v → field x k n v.
Proof. intros H (b & Hb & R). exists b. split; [by eapply at_in|done]. Qed.
Lemma field_skip a r o n v : field r (o - Z.of_nat (length a)) n v → field (a ++ r) o n v.
Proof. intros (b & Hb & R). exists b. split; [by apply at_skip|done]. Qed.
Lemma field_le n v : 0 ≤ v < 256 ^ Z.of_nat n → ∀ b, b = to_le n v → length b = n ∧ bytes b ∧ v = foldr (λ c s, c + 256 * s) 0 b.
Proof. intros Hv b ->. split_and!; [apply to_le_length|apply to_le_bytes|]. rewrite <- (Z.mod_small v (256 ^ Z.of_nat n)) at 1 by lia. rewrite <- le_val_to_le. generalize (to_le n v). clear. induction l; cbn; congruence. Qed.
Lemma field_here n v r o : o = 0 → 0 ≤ v < 256 ^ Z.of_nat n → field (to_le n v ++ r) o n v.
Proof. intros -> H. exists (to_le n v). split; [apply at_here|by apply field_le]. Qed.
Lemma field_last n v o : o = 0 → 0 ≤ v < 256 ^ Z.of_nat n → field (to_le n v) o n v.
Proof. intros -> H. exists (to_le n v). split; [apply at_all|by apply field_le]. Qed.
(** a field of four bytes 0 is two of two bytes *)
Lemma zero_split : to_le 4 0 = to_le 2 0 ++ to_le 2 0. Proof. done. Qed.
Ltac pw := first [change (256 ^ Z.of_nat 8) with 18446744073709551616 | change (256 ^ Z.of_nat 4) with 4294967296 | change (256 ^ Z.of_nat 2) with 65536]; unfold max16, max32 in *.
Ltac fd := first [apply field_here; [lia|pw] | apply field_last; [lia|pw] | apply field_skip; rewrite ?to_le_length; fd].
Ltac ap := first [match goal with |- at_pos _ ?o _ => replace o with 0 by lia end; first [apply at_here | apply at_all] | apply at_skip; rewrite ?to_le_length; ap].

Section layout.
Context (deflate : gostr → gostr).
Definition member_of (f : wfile) : member := Member (w_name f) (negb (ends_slash (w_name f))) (w_comp deflate f) (w_usize f) (w_crc f) ((if w_isdir f then 4 else 8) * 4096 + w_perm f).
Lemma long_member f : m_long (member_of f) = w_zip64 deflate f.
Proof. unfold m_long, w_zip64, is_zip64, m_csize, w_csize, max32. cbn. apply eq_true_iff_eq. rewrite bool_decide_eq_true, orb_true_iff, !Z.leb_le. lia. Qed.
Lemma flags_bits f : bit (w_flags f) 3 (negb (ends_slash (w_name f))) ∧ bit (w_flags f) 0 false ∧ bit (w_flags f) 6 false.
Proof. unfold bit, w_flags. by destruct (w_utf8 f), (ends_slash (w_name f)). Qed.
Lemma local_ok x f o : wf f → w_csize deflate f < 2 ^ 62 → at_pos x o (w_record deflate f) → local_at x (member_of f) o (o + Z.of_nat (length (w_record deflate f))).
Proof.
  intros Hf Hc Hx. pose proof (w_flags_range f) as Hfl. pose proof (w_method_range f). pose proof (w_crc_range f). pose proof (w_usize_range f Hf). destruct Hf as [Hn _ _ _ _].
  assert (Hcs : m_csize (member_of f) = w_csize deflate f) by done. assert (0 ≤ w_csize deflate f) by (unfold w_csize; lia).
  unfold local_at. rewrite long_member, Hcs. cbn [member_of m_name m_deflated m_comp m_size m_crc m_mode]. change (m_nlen (member_of f)) with (Z.of_nat (length (w_name f))).
  assert (Hr : w_record deflate f = to_le 4 file_sig ++ to_le 2 20 ++ to_le 2 (w_flags f) ++ to_le 2 (w_method f) ++ to_le 2 (w_time f) ++ to_le 2 (w_date f) ++
    to_le 4 0 ++ to_le 4 0 ++ to_le 4 0 ++ to_le 2 (Z.of_nat (length (w_name f))) ++ to_le 2 9 ++ w_name f ++ to_le 2 21589 ++ to_le 2 5 ++ to_le 1 1 ++ to_le 4 (w_sec f) ++ w_comp deflate f ++ descriptor deflate f).
  { unfold w_record, local_header. rewrite w_extra_length. unfold w_extra. rewrite <- !app_assoc. done. }
  assert (Hl : Z.of_nat (length (w_record deflate f)) = 39 + Z.of_nat (length (w_name f)) + w_csize deflate f + Z.of_nat (length (descriptor deflate f))).
  { rewrite Hr, !app_length, !to_le_length. unfold w_csize. lia. }
  rewrite Hl. rewrite Hr in Hx. clear Hr Hl.
  assert (Hxd : at_pos x (o + 39 + Z.of_nat (length (w_name f)) + w_csize deflate f) (descriptor deflate f)).
    { eapply at_in; [exact Hx|]. unfold w_csize. repeat (apply at_skip; rewrite ?to_le_length). match goal with |- at_pos _ ?o _ => replace o with 0 by lia end. apply at_all. }
  split_and!.
  - eapply at_in; [exact Hx|]. change (PK 3 4) with (to_le 4 file_sig). ap.
  - eapply field_in; [exact Hx|]. fd. lia.
  - exists (w_flags f). split; [|apply flags_bits]. eapply field_in; [exact Hx|]. fd. lia.
  - eapply field_in; [exact Hx|]. replace (if negb (ends_slash (w_name f)) then 8 else 0) with (w_method f) by (unfold w_method; by destruct (ends_slash _)). fd. lia.
  - eapply field_in; [exact Hx|]. fd. lia.
  - eapply field_in; [exact Hx|]. fd. lia.
  - eapply at_in; [exact Hx|]. ap.
  - eapply field_in; [exact Hx|]. fd. lia.
  - eapply field_in; [exact Hx|]. fd. lia.
  - eapply at_in; [exact Hx|]. do 16 (apply at_skip; rewrite ?to_le_length). match goal with |- at_pos _ ?o _ => replace o with 0 by lia end. apply at_here.
  - unfold descriptor in *. destruct (ends_slash (w_name f)); cbn [negb]. { cbn [length]. lia. }
    split; [|split].
    + eapply at_in; [exact Hxd|]. change (PK 7 8) with (to_le 4 desc_sig). ap.
    + eapply field_in; [exact Hxd|]. fd. lia.
    + destruct (w_zip64 deflate f) eqn:Ez.
      * rewrite !app_length, !to_le_length. split_and!; [eapply field_in; [exact Hxd|]; fd; lia..|lia].
      * unfold w_zip64, is_zip64 in Ez. apply orb_false_iff in Ez as [E1%Z.leb_gt E2%Z.leb_gt]. unfold max32 in *. rewrite !app_length, !to_le_length. split_and!; [eapply field_in; [exact Hxd|]; fd; lia..|lia].
Qed.
Lemma attrs_mode f : 0 ≤ w_perm f < 4096 → Z.shiftr (w_attrs f) 16 = (if w_isdir f then 4 else 8) * 4096 + w_perm f.
Proof. intros H. rewrite w_attrs_eq by done. pose proof (attrs_low_range f). rewrite Z.shiftr_div_pow2 by lia. change (2 ^ 16) with 65536. rewrite Z.div_add_l, (Z.div_small (attrs_low f)) by lia. destruct (w_isdir f); lia. Qed.
Lemma central_ok x f o c : wf f → w_csize deflate f < 2 ^ 62 → 0 ≤ o < 2 ^ 62 → at_pos x c (dir_header deflate f o) → central_at x (member_of f) o c (c + Z.of_nat (length (dir_header deflate f o))).
Proof.
  intros Hf Hc Ho Hx. pose proof (w_flags_range f) as Hfl. pose proof (w_method_range f). pose proof (w_crc_range f). pose proof (w_usize_range f Hf). destruct Hf as [Hn _ Hp _ _]. pose proof (w_attrs_range f Hp). pose proof (attrs_mode f Hp) as Hm.
  assert (Hcs : m_csize (member_of f) = w_csize deflate f) by done. assert (0 ≤ w_csize deflate f) by (unfold w_csize; lia).
  assert (Hbig : bool_decide (m_long (member_of f) = true ∨ 2 ^ 32 - 1 ≤ o) = w_zip64 deflate f || (max32 <=? o)).
  { rewrite long_member. apply eq_true_iff_eq. rewrite bool_decide_eq_true, orb_true_iff, Z.leb_le. unfold max32. naive_solver lia. }
  unfold central_at. rewrite Hbig, long_member, Hcs. clear Hbig. cbn [member_of m_name m_deflated m_comp m_size m_crc m_mode]. change (m_nlen (member_of f)) with (Z.of_nat (length (w_name f))).
  assert (Hb : w_zip64 deflate f || (max32 <=? o) = false → w_csize deflate f < 2 ^ 32 - 1 ∧ w_usize f < 2 ^ 32 - 1).
  { intros [E _]%orb_false_iff. unfold w_zip64, is_zip64 in E. apply orb_false_iff in E as [E1%Z.leb_gt E2%Z.leb_gt]. unfold max32 in *. lia. }
  revert Hx. unfold dir_header. cbv zeta. set (b := w_zip64 deflate f || (max32 <=? o)) in *. clearbody b.
  set (ex := w_extra f ++ (if b then to_le 2 1 ++ to_le 2 24 ++ to_le 8 (w_usize f) ++ to_le 8 (w_csize deflate f) ++ to_le 8 o else [])).
  assert (Hex : Z.of_nat (length ex) = if b then 37 else 9). { unfold ex. rewrite app_length, w_extra_length. destruct b; [rewrite !app_length, !to_le_length|cbn [length]]; lia. }
  rewrite zero_split.
  replace (if b then to_le 4 max32 ++ to_le 4 max32 else to_le 4 (w_csize deflate f) ++ to_le 4 (w_usize f)) with (to_le 4 (if b then max32 else w_csize deflate f) ++ to_le 4 (if b then max32 else w_usize f)) by (by destruct b).
  rewrite Hex, <- !app_assoc. intros Hx.
  match goal with |- context [c + Z.of_nat (length ?l)] => assert (Hl : Z.of_nat (length l) = 46 + Z.of_nat (length (w_name f)) + if b then 37 else 9) end.
  { rewrite !app_length, !to_le_length. rewrite <- Hex. lia. }
  rewrite Hl. clear Hl.
  assert (Hxe : at_pos x (c + 46 + Z.of_nat (length (w_name f))) ex).
  { eapply at_in; [exact Hx|]. do 18 (apply at_skip; rewrite ?to_le_length). match goal with |- at_pos _ ?o _ => replace o with 0 by lia end. apply at_all. }
  unfold ex, w_extra in Hxe. rewrite <- !app_assoc in Hxe. clear Hex. clearbody ex.
  split_and!.
  - eapply at_in; [exact Hx|]. change (PK 1 2) with (to_le 4 dir_sig). ap.
  - eapply field_in; [exact Hx|]. fd. lia.
  - eapply field_in; [exact Hx|]. fd. destruct (w_zip64 deflate f); lia.
  - exists (w_flags f). split; [|apply flags_bits]. eapply field_in; [exact Hx|]. fd. lia.
  - eapply field_in; [exact Hx|]. replace (if negb (ends_slash (w_name f)) then 8 else 0) with (w_method f) by (unfold w_method; by destruct (ends_slash _)). fd. lia.
  - eapply field_in; [exact Hx|]. fd. lia.
  - eapply field_in; [exact Hx|]. fd. destruct b; lia.
  - eapply field_in; [exact Hx|]. fd. destruct b; lia.
  - eapply field_in; [exact Hx|]. fd. lia.
  - eapply field_in; [exact Hx|]. fd. destruct b; lia.
  - eapply field_in; [exact Hx|]. fd. lia.
  - eapply field_in; [exact Hx|]. fd. lia.
  - eapply field_in; [exact Hx|]. fd. lia.
  - exists (w_attrs f). split; [|exact Hm]. eapply field_in; [exact Hx|]. fd. lia.
  - eapply field_in; [exact Hx|]. replace (Z.min o (2 ^ 32 - 1)) with (if max32 <? o then max32 else o) by (unfold max32; destruct (Z.ltb_spec 4294967295 o); lia). fd. destruct (Z.ltb_spec 4294967295 o); lia.
  - eapply at_in; [exact Hx|]. ap.
  - eapply field_in; [exact Hxe|]. fd. lia.
  - eapply field_in; [exact Hxe|]. fd. lia.
  - destruct b; [|lia]. split_and!; [eapply field_in; [exact Hxe|]; fd; lia..|lia].
Qed.
Lemma members_ok x fs : Forall wf fs → ∀ o c, 0 ≤ o → o + total deflate fs < 2 ^ 62 → at_pos x o (fs ≫= w_record deflate) → at_pos x c (dir_headers deflate fs o) →
  members_at x (member_of <$> fs) o (o + total deflate fs) c (c + Z.of_nat (length (dir_headers deflate fs o))).
Proof.
  induction 1 as [|f fs Hf _ IH]; intros o c Ho Ht Hb Hd. { unfold total. cbn. lia. }
  rewrite total_cons in *. pose proof (csize_record deflate f). assert (0 ≤ total deflate fs) by (unfold total; lia). cbn [dir_headers] in Hd. change ((f :: fs) ≫= w_record deflate) with (w_record deflate f ++ (fs ≫= w_record deflate)) in Hb.
  cbn [fmap list_fmap members_at dir_headers]. eexists _, _. split; [|split].
  - apply local_ok; [done|lia|]. eapply at_in; [exact Hb|]. rewrite Z.sub_diag. apply at_here.
  - apply central_ok; [done|lia|lia|]. eapply at_in; [exact Hd|]. rewrite Z.sub_diag. apply at_here.
  - rewrite app_length, Nat2Z.inj_add. rewrite !Z.add_assoc. apply IH; [lia|lia|..].
    + eapply at_in; [exact Hb|]. apply at_skip. match goal with |- at_pos _ ?o _ => replace o with 0 by lia end. apply at_all.
    + eapply at_in; [exact Hd|]. apply at_skip. match goal with |- at_pos _ ?o _ => replace o with 0 by lia end. apply at_all.
Qed.
Lemma end_ok x e n size start : 0 ≤ n < 65536 → 0 ≤ size < 2 ^ 32 → 0 ≤ start < 2 ^ 32 → at_pos x e (end_record n size start) → Z.of_nat (length x) = e + 22 → end_at x e n size start.
Proof.
  intros Hn Hs Ht Hx Hl. unfold end_record in Hx. rewrite zero_split, <- !app_assoc in Hx. unfold end_at. split_and!; [|eapply field_in; [exact Hx|]; fd; lia..|done].
  eapply at_in; [exact Hx|]. change (PK 5 6) with (to_le 4 end_sig). ap.
Qed.
Lemma end64_ok x e n size start : 0 ≤ n < 2 ^ 64 → 0 ≤ size < 2 ^ 64 → 0 ≤ start < 2 ^ 64 → 0 ≤ e < 2 ^ 64 → at_pos x e (end64 n size start ++ loc64 e) → end64_at x e n size start.
Proof.
  intros Hn Hs Ht He Hx. unfold end64, loc64 in Hx. rewrite <- !app_assoc in Hx. unfold end64_at. split_and!.
  - eapply at_in; [exact Hx|]. change (PK 6 6) with (to_le 4 end64_sig). ap.
  - eapply field_in; [exact Hx|]; fd; lia.
  - eapply field_in; [exact Hx|]; fd; lia.
  - eapply field_in; [exact Hx|]; fd; lia.
  - eapply field_in; [exact Hx|]; fd; lia.
  - eapply field_in; [exact Hx|]; fd; lia.
  - eapply field_in; [exact Hx|]; fd; lia.
  - eapply field_in; [exact Hx|]; fd; lia.
  - eapply at_in; [exact Hx|]. change (PK 6 7) with (to_le 4 loc64_sig). ap.
  - eapply field_in; [exact Hx|]; fd; lia.
  - eapply field_in; [exact Hx|]; fd; lia.
  - eapply field_in; [exact Hx|]; fd; lia.
Qed.
End layout.

Lemma member_of_for deflate f : 0 ≤ w_perm f < 4096 → member_for deflate f (member_of deflate f).
Proof.
  intros _. unfold member_for, member_of, w_comp, w_usize, w_crc. pose proof (slash_iff (w_name f)). cbn. split_and!; [done|done|..]; intros Hs.
  - apply slash_iff in Hs. by rewrite Hs.
  - assert (Hf : ends_slash (w_name f) = false) by (apply not_true_is_false; naive_solver). rewrite Hf. split_and!; [done..|]. apply crc32_remainder.
Qed.
(** what ZipFiles writes is an archive in the sense of the format, with a member for every file in their order *)
Theorem zip_archive_layout deflate fs : Forall fits fs → Z.of_nat (length (write_zip deflate fs)) < 2 ^ 62 →
  ∃ ms, Forall2 (member_for deflate) fs ms ∧ archive (write_zip deflate fs) ms.
Proof.
  intros Hf Hl. exists (member_of deflate <$> fs). split. { apply Forall2_fmap_r, Forall_Forall2_diag. eapply Forall_impl; [exact Hf|]. intros f Hff. apply member_of_for, Hff. }
  assert (Hw : Forall wf fs) by (eapply Forall_impl; [exact Hf|apply fits_wf]). clear Hf. unfold write_zip in *. set (body := fs ≫= w_record deflate) in *. set (dir := dir_headers deflate fs 0) in *.
  rewrite !app_length in Hl. exists (Z.of_nat (length body)), (Z.of_nat (length body) + Z.of_nat (length dir)). rewrite fmap_length. cbv zeta. pose proof (dir_headers_length deflate fs 0) as Hd. fold dir in Hd. split.
  - apply (members_ok deflate (body ++ dir ++ end_records (Z.of_nat (length fs)) (Z.of_nat (length dir)) (Z.of_nat (length body))) fs Hw 0 (Z.of_nat (length body))); [lia|unfold total; fold body; lia|apply at_here|].
    apply at_skip. rewrite Z.sub_diag. apply at_here.
  - replace (Z.of_nat (length body) + Z.of_nat (length dir) - Z.of_nat (length body)) with (Z.of_nat (length dir)) by lia. rewrite end_records_eq.
    replace (bool_decide _) with ((max16 <=? Z.of_nat (length fs)) || (max32 <=? Z.of_nat (length dir)) || (max32 <=? Z.of_nat (length body))) by (apply eq_true_iff_eq; rewrite bool_decide_eq_true, !orb_true_iff, !Z.leb_le; unfold max16, max32; lia).
    destruct (_ || _) eqn:E.
    + split.
      * apply end64_ok; [lia..|]. rewrite (app_assoc body). rewrite (app_assoc (end64 _ _ _)). apply at_skip. rewrite app_length. match goal with |- at_pos _ ?o _ => replace o with 0 by lia end. apply at_here.
      * apply (end_ok _ _ max16 max32 max32); [unfold max16, max32; lia..| |].
        -- do 4 apply at_skip. rewrite end64_length, loc64_length. match goal with |- at_pos _ ?o _ => replace o with 0 by lia end. apply at_all.
        -- rewrite !app_length, end64_length, loc64_length, end_record_length. lia.
    + apply orb_false_iff in E as [[E1%Z.leb_gt E2%Z.leb_gt]%orb_false_iff E3%Z.leb_gt]. unfold max16, max32 in *. apply end_ok; [lia..| |].
      * do 2 apply at_skip. match goal with |- at_pos _ ?o _ => replace o with 0 by lia end. apply at_all.
      * rewrite !app_length, end_record_length. lia.
Qed.
Print Assumptions zip_archive_layout.
(** a file and a directory, with a compressor that leaves the bytes as they are *)
Example zip_archive_layout_case : let fs := [WFile (str "a") false 420 7 0 0 false (str "hello"); WFile (str "d/") true 493 0 0 0 false []] in
  Forall fits fs ∧ take 4 (write_zip id fs) = PK 3 4 ∧ take 4 (drop 45 (write_zip id fs)) = PK 7 8 ∧ take 4 (drop 61 (write_zip id fs)) = PK 3 4 ∧
  take 4 (drop 102 (write_zip id fs)) = PK 1 2 ∧ take 4 (drop 144 (write_zip id fs)) = [0; 0; 0; 0] ∧ take 4 (drop 158 (write_zip id fs)) = PK 1 2 ∧ take 4 (drop 200 (write_zip id fs)) = [61; 0; 0; 0] ∧
  drop 215 (write_zip id fs) = PK 5 6 ++ [0; 0; 0; 0; 2; 0; 2; 0; 113; 0; 0; 0; 102; 0; 0; 0; 0; 0].
Proof. cbv zeta. split; [|split_and!; by vm_compute]. repeat (apply Forall_cons_2 || apply Forall_nil_2); constructor; cbn; try lia; try done; repeat (apply Forall_cons_2 || apply Forall_nil_2); lia. Qed.
