(** * Lemmas about reading an archive of another program *)
From Verif Require Import GoBase GoStr ZipfsModel ZfmtModel ZfmtSpec ZfmtProofs ZfmtSafe ZfmtCrc ZlaySpec ZlayProps ZanySpec ZanyCrc.
From Verif Require InflSpec.
Local Open Scope Z_scope.

(** ** numbers *)
Lemma le_val_foldr b : foldr (λ c s, c + 256 * s) 0 b = le_val b.
Proof. induction b as [|c b IH]; cbn; congruence. Qed.
Lemma num_rd n v b r : le_num n v b → rd n (b ++ r) = Ret (v, r).
Proof. intros (H & _ & ->). rewrite (le_val_foldr b). by apply rd_app. Qed.
Lemma num_rd_end n v b : le_num n v b → rd n b = Ret (v, []).
Proof. intros H. rewrite <- (app_nil_r b). by apply num_rd. Qed.
Lemma num_len n v b : le_num n v b → length b = n.
Proof. by intros (H & _). Qed.
Lemma num_val n v b : le_num n v b → le_val b = v.
Proof. intros (_ & _ & ->). by rewrite (le_val_foldr b). Qed.
Lemma num_range n v b : le_num n v b → 0 ≤ v < 256 ^ Z.of_nat n.
Proof. intros (<- & H & ->). rewrite (le_val_foldr b). by apply le_val_range. Qed.
Lemma short4_num b v w : short4 b v w → le_num 4 (if b then 2 ^ 32 - 1 else v) w.
Proof. destruct b; cbn; tauto. Qed.
Lemma short4_eq b v w : short4 b v w → ((if b then 2 ^ 32 - 1 else v) =? max32) = b.
Proof. destruct b; cbn [short4]; [done|]. intros [H _]. apply Z.eqb_neq. unfold max32. lia. Qed.
Lemma at_range x o b : at_pos x o b → 0 ≤ o ∧ o + Z.of_nat (length b) ≤ Z.of_nat (length x).
Proof. intros (p & q & -> & <-). rewrite !app_length. lia. Qed.
Lemma at_read x o b r : at_pos x o (b ++ r) → read_at x o (length b) = Some b.
Proof. intros (p & q & -> & <-). rewrite <- app_assoc. apply read_at_app. Qed.
Lemma at_drop x o b : at_pos x o b → ∃ r, drop (Z.to_nat o) x = b ++ r.
Proof. intros (p & q & -> & <-). exists q. by rewrite Nat2Z.id, drop_app. Qed.
Ltac rdn := match goal with H : le_num ?n _ ?b |- context [rd ?n (?b ++ _)] => rewrite (num_rd _ _ _ _ H); cbv beta iota end.
Ltac rdx := match goal with H : length ?b = ?n |- context [rd ?n (?b ++ _)] => rewrite (rd_app _ _ _ H); cbv beta iota end.
Ltac rds := match goal with H : length ?b = ?n |- context [rd_skip ?n (?b ++ _)] => rewrite (rd_skip_app _ _ _ H); cbv beta iota end.

(** ** extra fields *)
Lemma parse_block k s t d a b w : le_num 2 t a → le_num 2 (Z.of_nat (length d)) b → bytes d →
  parse_extras (S k) s (a ++ b ++ d ++ w) =
  if t =? 1 then r ← zip64_extra s d; match r with None => Ret None | Some s => parse_extras k s w end else parse_extras k s w.
Proof.
  intros Ha Hb Hd. cbn [parse_extras]. pose proof (num_len _ _ _ Ha) as La. pose proof (num_len _ _ _ Hb) as Lb.
  destruct (Nat.ltb_spec (length (a ++ b ++ d ++ w)) 4) as [H|_]; [rewrite !app_length in H; lia|].
  cbv [mbind go_bind]. do 2 rdn. destruct (Z.ltb_spec (Z.of_nat (length (d ++ w))) (Z.of_nat (length d))) as [H|_]; [rewrite app_length in H; lia|].
  rewrite Nat2Z.id, rd_sub_app by done. cbv beta iota. destruct (t =? 1); [done|].
  assert (E : ∀ (A : Type) (m : go unit) (f : go A), m = Ret () → match m with Ret _ => f | Panic p => Panic p | Diverge => Diverge end = f) by (intros A m f ->; done).
  apply E. destruct (t =? 10).
  - destruct (Nat.ltb_spec (length d) 4); [done|]. destruct (rd_ok 4 d) as (v & d' & Hr & Hl & Hf); [done|]. rewrite Hr. apply ntfs_total; [lia|]. by apply Hf.
  - destruct ((t =? 13) || (t =? 22613)).
    + destruct (Nat.ltb_spec (length d) 8); [done|]. destruct (rd_ok 4 d) as (v & d' & Hr & Hl & _); [lia|]. rewrite Hr. destruct (rd_ok 4 d') as (v' & d'' & Hr' & _); [lia|]. by rewrite Hr'.
    + destruct (t =? 21589); [|done]. destruct (Nat.ltb_spec (length d) 5); [done|]. destruct (rd_ok 1 d) as (v & d' & Hr & Hl & _); [lia|]. rewrite Hr. destruct (Z.land v 1 =? 0); [done|].
      destruct (rd_ok 4 d') as (v' & d'' & Hr' & _); [lia|]. by rewrite Hr'.
Qed.
Definition settled (s : sizes) : Prop := need_u s = false ∧ need_c s = false ∧ need_o s = false.
Lemma zip64_settled s d : settled s → zip64_extra s d = Ret (Some s).
Proof. destruct s as [u c o bu bc bo]. intros (H1 & H2 & H3). cbn in H1, H2, H3. by subst. Qed.
Lemma parse_settled bl w : extra_bytes bl w → ∀ k s, settled s → (length w < k)%nat → parse_extras k s w = Ret (Some s).
Proof.
  induction 1 as [|t d a b r w Ha Hb Hd _ IH]; intros k s Hs Hk; (destruct k as [|k]; [lia|]); [done|].
  rewrite (parse_block _ _ t) by done. pose proof (num_len _ _ _ Ha). rewrite !app_length in Hk. rewrite zip64_settled by done. cbn [mbind go_bind]. rewrite IH by (done || lia). by destruct (t =? 1).
Qed.
Lemma extra_app_inv pre : ∀ bl w, extra_bytes (pre ++ bl) w → Forall (λ b, b.1 ≠ 1) pre → ∃ k w1 w2, w = w1 ++ w2 ∧ extra_bytes bl w2 ∧ (k ≤ length w1)%nat ∧ ∀ j s, parse_extras (k + j) s w = parse_extras j s w2.
Proof.
  induction pre as [|[t d] pre IH]; intros bl w H Hp; [by exists O, [], w|]. cbn in H. inversion H as [|?? a b ? w' Ha Hb Hd Hw]; subst. inversion Hp as [|?? Ht Hp']; subst. cbn in Ht.
  destruct (IH _ _ Hw Hp') as (k & w1 & w2 & -> & Hbl & Hk & E). exists (S k), (a ++ b ++ d ++ w1), w2. rewrite <- !app_assoc. split_and!; [done..| |].
  - rewrite !app_length. pose proof (num_len _ _ _ Ha). lia.
  - intros j s. cbn [Nat.add]. rewrite (parse_block _ _ t) by done. rewrite (proj2 (Z.eqb_neq t 1)) by done. apply E.
Qed.
Lemma want_yes v a r old : le_num 8 v a → want true old (a ++ r) = Ret (Some (v, r)).
Proof. intros H. unfold want. destruct (Nat.ltb_spec (length (a ++ r)) 8) as [L|_]; [rewrite app_length, (num_len _ _ _ H) in L; lia|]. cbv [mbind go_bind]. by rdn. Qed.
Lemma parse_long q bu bc bo bl w k u c o : extra_bytes bl w → long_fields bu bc bo q bl → 0 ≤ q_offset q < 2 ^ 63 → (bu = false → u = q_size q) → (bc = false → c = q_csize q) → (bo = false → o = q_offset q) → (length w < k)%nat →
  parse_extras k (Sizes u c o bu bc bo) w = Ret (Some (Sizes (q_size q) (q_csize q) (q_offset q) false false false)).
Proof.
  intros Hw Hl Ho Eu Ec Eo Hk. destruct (bu || bc || bo) eqn:Eb.
  - destruct (Hl Eb) as (pre & d & post & nu & nc & no & more & -> & Hpre & -> & Hu & Hc & Hoo).
    destruct (extra_app_inv _ _ _ Hw Hpre) as (j & w1 & w2 & -> & Hw2 & Hj & E). rewrite app_length in Hk. replace k with (j + (k - j))%nat by lia. rewrite E. clear E.
    inversion Hw2 as [|?? a b ? w' Ha Hb Hd Hw']; subst. destruct (k - j)%nat as [|i] eqn:Ei; [lia|]. rewrite (parse_block _ _ 1) by done. cbn [Z.eqb Pos.eqb].
    assert (E : zip64_extra (Sizes u c o bu bc bo) ((if bu then nu else []) ++ (if bc then nc else []) ++ (if bo then no else []) ++ more) = Ret (Some (Sizes (q_size q) (q_csize q) (q_offset q) false false false))).
    { unfold zip64_extra. cbn [need_u need_c need_o s_usize s_csize s_offset]. 
      assert (W : ∀ (b : bool) old v a r, le_num 8 v a → (b = false → old = v) → want b old ((if b then a else []) ++ r) = Ret (Some (v, r))).
      { intros [] old v z r H Hold; [by apply want_yes|]. cbn. by rewrite Hold. }
      rewrite (W _ _ _ _ _ Hu Eu). cbn [mbind go_bind]. rewrite (W _ _ _ _ _ Hc Ec). cbn [mbind go_bind]. rewrite (W _ _ _ _ _ Hoo Eo). cbn [mbind go_bind]. destruct bo; by rewrite ?i64_small. }
    rewrite E. cbn [mbind go_bind]. apply (parse_settled post); [done|done|]. pose proof (num_len _ _ _ Ha). rewrite !app_length in Hk. lia.
  - apply orb_false_iff in Eb as [Eb ->]. apply orb_false_iff in Eb as [-> ->]. rewrite <- Eu, <- Ec, <- Eo by done. by apply (parse_settled bl).
Qed.

(** ** the directory *)
Definition header_of (q : zentry) : zfile := ZFile (q_name q) (q_creator q) (q_flags q) (q_method q) (q_crc q) (q_csize q) (q_size q) (q_attrs q) (q_offset q).
Lemma central_length q h : central_bytes q h → (46 ≤ length h)%nat.
Proof.
  intros (ver & need & fl & me & tm & cr & cs & us & nl & el & cl & di & ea & off & bl & ext & com & bu & bc & bo & -> & H1 & H2 & H3 & H4 & H5 & H6 & H7 & H8 & H9 & H10 & H11 & H12 & H13 & H14 & _).
  apply short4_num, num_len in H7, H8, H14. apply num_len in H1, H3, H4, H6, H9, H10, H11, H13. rewrite !app_length. cbn [PK length]. lia.
Qed.
Lemma read_central q h rest : central_bytes q h → 0 ≤ q_offset q < 2 ^ 63 → read_header (h ++ rest) = Ret (HFile (header_of q) rest).
Proof.
  intros (ver & need & fl & me & tm & cr & cs & us & nl & el & cl & di & ea & off & bl & ext & com & bu & bc & bo & -> & H1 & H2 & H3 & H4 & H5 & H6 & H7 & H8 & H9 & H10 & H11 & H12 & H13 & H14 & Hext & Hlong) Ho.
  pose proof (short4_eq _ _ _ H7) as E7. pose proof (short4_eq _ _ _ H8) as E8. pose proof (short4_eq _ _ _ H14) as E14.
  apply short4_num in H7, H8, H14.
  set (fixed := PK 1 2 ++ ver ++ need ++ fl ++ me ++ tm ++ cr ++ cs ++ us ++ nl ++ el ++ cl ++ di ++ ea ++ off).
  assert (Lf : length fixed = 46%nat).
  { unfold fixed. rewrite !app_length. rewrite (num_len _ _ _ H1), (num_len _ _ _ H3), (num_len _ _ _ H4), (num_len _ _ _ H6), (num_len _ _ _ H7), (num_len _ _ _ H8), (num_len _ _ _ H9), (num_len _ _ _ H10), (num_len _ _ _ H11), (num_len _ _ _ H13), (num_len _ _ _ H14), H2, H5, H12. done. }
  set (tail := q_name q ++ ext ++ com).
  match goal with |- read_header ?y = _ => replace y with (fixed ++ tail ++ rest) by (unfold fixed, tail; rewrite <- !app_assoc; done) end.
  unfold read_header. rewrite app_length, Lf. destruct (Nat.eqb_spec (46 + length (tail ++ rest)) 0); [lia|]. destruct (Nat.ltb_spec (46 + length (tail ++ rest)) 46); [lia|].
  rewrite take_app_alt, drop_app_alt by done. cbv zeta. unfold fixed. cbv [mbind go_bind].
  rewrite rd_app by done. cbv beta iota. change (negb (le_val (PK 1 2) =? dir_sig)) with false. cbv iota.
  rdn. rdx. do 2 rdn.
  rewrite <- (take_drop 2 tm) at 1. rewrite <- app_assoc. rewrite rd_app by (rewrite take_length; lia). cbv beta iota. rewrite rd_app by (rewrite drop_length; lia). cbv beta iota.
  do 6 rdn. rds. rdn. rewrite (num_rd_end _ _ _ H14). cbv beta iota.
  replace (Z.to_nat (Z.of_nat (length (q_name q)) + Z.of_nat (length ext) + Z.of_nat (length com))) with (length tail) by (unfold tail; rewrite !app_length; lia).
  rewrite !(app_length tail rest). destruct (Nat.ltb_spec (length tail + length rest) (length tail)); [lia|].
  assert (Ez : (0 <? length tail)%nat && (length tail + length rest =? 0)%nat = false).
  { destruct (Nat.ltb_spec 0 (length tail)); [|done]. destruct (Nat.eqb_spec (length tail + length rest) 0); [lia|done]. }
  rewrite Ez. rewrite take_app, drop_app, !Nat2Z.id. unfold tail. rewrite rd_sub_app by done. cbv beta iota. rewrite rd_sub_app by done. cbv beta iota.
  rewrite E7, E8, E14. rewrite (parse_long q bu bc bo bl); [done|done|done|done| | | |lia]; by intros ->.
Qed.
Lemma read_stop next rest : next = PK 5 5 ∨ next = PK 6 6 ∨ next = PK 5 6 → read_header (next ++ rest) = Ret HStop.
Proof.
  intros H. assert (L : length next = 4%nat) by (by destruct H as [->|[->| ->]]). unfold read_header. rewrite app_length, L. destruct (Nat.eqb_spec (4 + length rest) 0); [lia|]. destruct (Nat.ltb_spec (4 + length rest) 46); [done|].
  cbv zeta. destruct H as [->|[->| ->]]; done.
Qed.
Lemma read_directory qs hs : Forall2 central_bytes qs hs → Forall (λ q, 0 ≤ q_offset q < 2 ^ 63) qs → ∀ stop fuel, read_header stop = Ret HStop → (length qs < fuel)%nat →
  read_headers fuel (mjoin hs ++ stop) = Ret (Some (header_of <$> qs)).
Proof.
  induction 1 as [|q h qs hs Hq _ IH]; intros Hf stop fuel Hs Hfu; (destruct fuel as [|k]; [lia|]).
  - cbn [mjoin list_join app read_headers]. by rewrite Hs.
  - inversion Hf as [|?? Hf1 Hf2]; subst. cbn [read_headers]. change (mjoin (h :: hs)) with (h ++ mjoin hs). rewrite <- app_assoc, (read_central q) by done. cbn [mbind go_bind]. cbn [length] in Hfu. rewrite IH by (done || lia). done.
Qed.
Lemma directory_length qs hs : Forall2 central_bytes qs hs → (46 * length qs ≤ length (mjoin hs))%nat.
Proof. induction 1 as [|q h qs hs Hq _ IH]; [cbn; lia|]. change (mjoin (h :: hs)) with (h ++ mjoin hs). rewrite app_length. apply central_length in Hq. cbn [length]. lia. Qed.

(** ** the end *)
Definition hit (b : gostr) (j : nat) : Prop := take 4 (drop j b) = [80; 75; 5; 6] ∧ le_val (take 2 (drop (j + 20) b)) + 22 + Z.of_nat j ≤ Z.of_nat (length b).
Lemma hit_bool b j : bool_decide (take 4 (drop j b) = [80; 75; 5; 6]) && (le_val (take 2 (drop (j + 20) b)) + 22 + Z.of_nat j <=? Z.of_nat (length b)) = true ↔ hit b j.
Proof. unfold hit. by rewrite andb_true_iff, bool_decide_eq_true, Z.leb_le. Qed.
Lemma find_sig_at b p i : (p < i)%nat → (∀ j, (p < j < i)%nat → ¬ hit b j) → hit b p → find_sig b i = Some p.
Proof.
  induction i as [|i IH]; intros Hp Hno Hh; [lia|]. cbn [find_sig]. destruct (decide (i = p)) as [->|Hne].
  - by rewrite (proj2 (hit_bool b p)).
  - destruct (_ && _) eqn:E; [apply hit_bool in E; exfalso; apply (Hno i); [lia|done]|]. apply IH; [lia|intros j Hj; apply Hno; lia|done].
Qed.
Lemma find_sig_none b i : (∀ j, (j < i)%nat → ¬ hit b j) → find_sig b i = None.
Proof.
  induction i as [|i IH]; intros Hno; [done|]. cbn [find_sig]. destruct (_ && _) eqn:E; [apply hit_bool in E; exfalso; apply (Hno i); [lia|done]|]. apply IH. intros j Hj. apply Hno. lia.
Qed.
Lemma hit_drop b k j : (k ≤ length b)%nat → hit (drop k b) j ↔ hit b (k + j).
Proof. intros Hk. unfold hit. rewrite !drop_drop, drop_length, Nat.add_assoc. split; intros [H1 H2]; (split; [done|lia]). Qed.
Lemma at_take x j b : (j ≤ length x)%nat → at_pos x (Z.of_nat j) b ↔ take (length b) (drop j x) = b.
Proof.
  intros H. split.
  - intros (p & q & -> & E). apply Nat2Z.inj in E as <-. by rewrite drop_app, take_app.
  - intros E. exists (take j x), (drop (length b) (drop j x)). split; [|rewrite take_length; lia]. rewrite <- E at 1. by rewrite !take_drop.
Qed.
Lemma find_end_at x e disks n1 n2 sz st cl com : at_pos x e (PK 5 6 ++ disks ++ n1 ++ n2 ++ sz ++ st ++ cl ++ com) → Z.of_nat (length x) = e + 22 + Z.of_nat (length com) →
  length disks = 4%nat → length n1 = 2%nat → length n2 = 2%nat → length sz = 4%nat → length st = 4%nat → le_num 2 (Z.of_nat (length com)) cl → last_end x e → bytes x →
  find_end x = Some (PK 5 6 ++ disks ++ n1 ++ n2 ++ sz ++ st ++ cl ++ com, e).
Proof.
  intros Hat Hlen L1 L2 L3 L4 L5 Hcl Hlast Hb. set (r := PK 5 6 ++ disks ++ n1 ++ n2 ++ sz ++ st ++ cl ++ com) in *. pose proof (num_len _ _ _ Hcl) as L6. pose proof (num_range _ _ _ Hcl) as Hc. change (256 ^ Z.of_nat 2) with 65536 in Hc.
  assert (Lr : length r = (22 + length com)%nat) by (unfold r; rewrite !app_length; cbn [PK length]; lia).
  destruct Hat as (y & z & Ex & <-). rewrite Ex, !app_length, Lr in Hlen. assert (z = []) as -> by (apply nil_length_inv; lia). rewrite app_nil_r in Ex.
  assert (Lx : length x = (length y + 22 + length com)%nat) by (rewrite Ex, app_length, Lr; lia).
  assert (Hno : ∀ j, (length y < j)%nat → ¬ hit x j).
  { intros j H1 [E1 E2]. assert (Hj : (j + 22 ≤ length x)%nat).
    { pose proof (le_val_range (take 2 (drop (j + 20) x)) (Forall_take _ _ _ (Forall_drop _ _ _ Hb))). lia. }
    assert (X : Z.of_nat (length x) < Z.of_nat j + 22 + le_val (take 2 (drop (j + 20) x))); [|lia]. apply (Hlast (Z.of_nat j)); [lia|apply at_take; [lia|done]|].
    exists (take 2 (drop (j + 20) x)). assert (L2' : length (take 2 (drop (j + 20) x)) = 2%nat) by (rewrite take_length, drop_length; lia). split_and!; [|done|by apply Forall_take, Forall_drop|symmetry; apply le_val_foldr].
    replace (Z.of_nat j + 20) with (Z.of_nat (j + 20)) by lia. apply at_take; [lia|]. by rewrite L2'. }
  assert (D1 : drop (length y) x = r) by (rewrite Ex; apply drop_app).
  assert (D2 : take 2 (drop (length y + 20) x) = cl).
  { rewrite <- drop_drop, D1. unfold r. replace (PK 5 6 ++ disks ++ n1 ++ n2 ++ sz ++ st ++ cl ++ com) with ((PK 5 6 ++ disks ++ n1 ++ n2 ++ sz ++ st) ++ cl ++ com) by (rewrite <- !app_assoc; done).
    rewrite drop_app_alt by (rewrite !app_length; cbn [PK length]; lia). by apply take_app_alt. }
  assert (Yes : ∀ n, (22 + length com ≤ n ≤ length x)%nat → find_in_block (drop (length x - n) x) = Some (length y - (length x - n))%nat).
  { intros n Hn. unfold find_in_block. rewrite drop_length. apply find_sig_at.
    - lia.
    - intros j Hj. rewrite hit_drop by lia. apply Hno; lia.
    - rewrite hit_drop by lia. replace (length x - n + (length y - (length x - n)))%nat with (length y) by lia. split; [by rewrite D1|]. rewrite D2, (num_val _ _ _ Hcl). lia. }
  assert (No : ∀ n, (n < 22 + length com)%nat → find_in_block (drop (length x - n) x) = None).
  { intros n Hn. unfold find_in_block. rewrite drop_length. apply find_sig_none. intros j Hj. rewrite hit_drop by lia. apply Hno; lia. }
  unfold find_end. destruct (decide (22 + length com ≤ Nat.min 1024 (length x))%nat) as [H|H].
  - rewrite Yes by lia. replace (length x - Nat.min 1024 (length x) + (length y - (length x - Nat.min 1024 (length x))))%nat with (length y) by lia. by rewrite D1.
  - rewrite No by lia. destruct (Nat.leb_spec (length x) 1024); [lia|]. change (65 * 1024)%nat with (Z.to_nat 66560). rewrite Yes by lia.
    replace (length x - Nat.min (Z.to_nat 66560) (length x) + (length y - (length x - Nat.min (Z.to_nat 66560) (length x))))%nat with (length y) by lia. by rewrite D1.
Qed.
Lemma read_end64_at x e n size start : end64_bytes x e n size start → Z.of_nat (length x) < 2 ^ 63 → ∃ p, find_end64 x e = Ret (Some p) ∧ 0 ≤ p ∧ read_end64 x p = Ret (Some (DEnd n size start)).
Proof.
  intros (p & rest & vers & ver & disks & n1 & n2 & sz & st & po & Hp & L1 & L2 & L3 & L4 & L5 & H6 & H7 & H8 & H9 & Hloc) Hx. exists p. pose proof (at_range _ _ _ Hp) as Rp. pose proof (at_range _ _ _ Hloc) as Rl.
  pose proof (num_len _ _ _ H9) as L9. split_and!; [|lia|].
  - unfold find_end64. rewrite (proj2 (Z.ltb_ge _ _)) by lia. set (b := PK 6 7 ++ [0; 0; 0; 0] ++ po ++ [1; 0; 0; 0]) in *. assert (Lb : length b = 20%nat) by (unfold b; rewrite !app_length; cbn [PK length]; lia).
    rewrite <- Lb, (at_read x (e - 20) b []) by (by rewrite app_nil_r). unfold b. cbv [mbind go_bind]. rewrite rd_app by done. cbv beta iota. change (negb (le_val (PK 6 7) =? loc64_sig)) with false. cbv iota.
    rewrite rd_app by done. cbv beta iota. change (negb (le_val [0; 0; 0; 0] =? 0)) with false. cbv iota. rdn. rewrite <- (app_nil_r [1; 0; 0; 0]), rd_app by done. cbv beta iota. change (negb (le_val [1; 0; 0; 0] =? 1)) with false. cbv iota. by rewrite i64_small by lia.
  - unfold read_end64. set (b := PK 6 6 ++ rest ++ vers ++ ver ++ disks ++ n1 ++ n2 ++ sz ++ st) in *. assert (Lb : length b = 56%nat) by (unfold b; apply num_len in H6, H7, H8; rewrite !app_length; cbn [PK length]; lia).
    rewrite <- Lb, (at_read x p b []) by (by rewrite app_nil_r). unfold b. cbv [mbind go_bind]. rewrite rd_app by done. cbv beta iota. change (negb (le_val (PK 6 6) =? end64_sig)) with false. cbv iota.
    replace (rest ++ vers ++ ver ++ disks ++ n1 ++ n2 ++ sz ++ st) with ((rest ++ vers ++ ver) ++ take 4 disks ++ drop 4 disks ++ n1 ++ n2 ++ sz ++ st) by (rewrite (app_assoc (take 4 disks)), take_drop, <- !app_assoc; done).
    rewrite rd_skip_app by (rewrite !app_length; lia). cbv beta iota. rewrite rd_app by (rewrite take_length; lia). cbv beta iota. rewrite rd_app by (rewrite drop_length; lia). cbv beta iota. rdx. do 2 rdn. by rewrite (num_rd_end _ _ _ H8).
Qed.
Lemma at_PK67 x e : 20 ≤ e → e ≤ Z.of_nat (length x) → ¬ at_pos x (e - 20) (PK 6 7) → bytes x → find_end64 x e = Ret (Some (-1)).
Proof.
  intros He Hx Hno Hb. unfold find_end64. rewrite (proj2 (Z.ltb_ge _ _)) by lia. destruct (read_at x (e - 20) 20) as [b|] eqn:Er.
  - assert (Hb' : b = take 20 (drop (Z.to_nat (e - 20)) x)). { unfold read_at in Er. destruct (_ || _); [done|]. by injection Er. }
    destruct (read_at_len _ _ _ _ Er) as [Lb Fb]. specialize (Fb Hb).
    rewrite <- (take_drop 4 b). cbv [mbind go_bind]. rewrite rd_app by (rewrite take_length; lia). cbv beta iota. destruct (Z.eqb_spec (le_val (take 4 b)) loc64_sig) as [E|]; [|done]. exfalso. apply Hno.
    replace (e - 20) with (Z.of_nat (Z.to_nat (e - 20))) by lia. apply at_take; [lia|]. cbn [PK length].
    replace (take 4 (drop (Z.to_nat (e - 20)) x)) with (take 4 b) by (rewrite Hb', take_take; done).
    apply le_val_inj; [rewrite take_length, Lb; done| |repeat constructor; done|by rewrite E]. by apply Forall_take.
  - unfold read_at in Er. destruct (Z.ltb_spec (e - 20) 0); [lia|]. destruct (Z.ltb_spec (Z.of_nat (length x)) (e - 20 + Z.of_nat 20)); [lia|done].
Qed.
Lemma read_end_at x e n size start long : end_bytes x e n size start long → last_end x e → no_false_locator x e size long → bytes x → Z.of_nat (length x) < 2 ^ 63 → 0 ≤ start < Z.of_nat (length x) →
  ∃ d, read_end x = Ret (Some d) ∧ d_offset d = start ∧ d_records d = n.
Proof.
  intros (disks & n1 & n2 & sz & st & cl & com & bn & bz & bs & Hat & Hlen & L1 & L2 & Hn & Hsz & Hst & Hcl & Hlong & H64) Hlast Hloc Hb Hx Hs. pose proof (at_range _ _ _ Hat) as Ra.
  assert (Hn2 : le_num 2 (if bn then 65535 else n) n2 ∧ (bn = false → n < 65535)) by (destruct bn; [by split|by destruct Hn]). destruct Hn2 as [Hn2 Hnb].
  pose proof (short4_eq _ _ _ Hst) as Es. pose proof (short4_num _ _ _ Hsz) as Hsz'. pose proof (short4_num _ _ _ Hst) as Hst'.
  assert (Hcheck : ∀ d, d_offset d = start → d_records d = n → ∃ d', Ret (if (i64 (d_offset d) <? 0) || (Z.of_nat (length x) <=? i64 (d_offset d)) then None else Some d) = Ret (Some d') ∧ d_offset d' = start ∧ d_records d' = n).
  { intros d E1 E2. exists d. split_and!; [|done..]. rewrite E1, i64_small by lia. destruct (Z.ltb_spec start 0); [lia|]. destruct (Z.leb_spec (Z.of_nat (length x)) start); [lia|done]. }
  unfold read_end. rewrite (find_end_at _ _ _ _ _ _ _ _ _ Hat Hlen L1 L2 (num_len _ _ _ Hn2) (num_len _ _ _ Hsz') (num_len _ _ _ Hst') Hcl Hlast Hb).
  cbv [mbind go_bind]. rewrite rd_skip_app by done. cbv beta iota. rewrite <- (take_drop 2 disks), <- app_assoc. rewrite rd_app by (rewrite take_length; lia). cbv beta iota. rewrite rd_app by (rewrite drop_length; lia). cbv beta iota.
  rdx. do 4 rdn. rewrite Z.ltb_irrefl. rewrite Es. set (nn := if bn then 65535 else n) in *. set (zz := if bz then 2 ^ 32 - 1 else size) in *. set (ss := if bs then 2 ^ 32 - 1 else start) in *.
  destruct ((nn =? max16) || (zz =? 65535) || bs) eqn:Et.
  - destruct long.
    + destruct (read_end64_at x e n size start (H64 eq_refl) Hx) as (p & E1 & Hp & E2). rewrite E1. cbv beta iota. rewrite (proj2 (Z.leb_le _ _)) by lia. rewrite E2. cbv beta iota. by apply Hcheck.
    + assert (Hf : bn = false ∧ bz = false ∧ bs = false) by (destruct bn, bz, bs; (done || (exfalso; by discriminate (Hlong eq_refl)))). destruct Hf as (-> & -> & ->). cbv beta iota in *.
      assert (Ez : size = 65535). { rewrite orb_false_r in Et. apply orb_true_iff in Et as [Et|Et]; apply Z.eqb_eq in Et; [|done]. subst nn. specialize (Hnb eq_refl). unfold max16 in Et. lia. }
      specialize (Hloc eq_refl Ez). assert (E : find_end64 x e = Ret (Some (-1))).
      { destruct (decide (20 ≤ e)) as [He|He]; [by apply at_PK67; [|lia|..]|]. unfold find_end64. by rewrite (proj2 (Z.ltb_lt _ _)) by lia. }
      rewrite E. cbv beta iota. change (0 <=? -1) with false. cbv iota. by apply Hcheck.
  - apply orb_false_iff in Et as [Et ->]. apply orb_false_iff in Et as [Et _]. cbv beta iota. apply Hcheck; [done|]. cbn [d_records]. unfold nn in *. destruct bn; [done|done].
Qed.

(** ** the contents *)
Lemma read_content x q h d : local_bytes q h → at_pos x (q_offset q) h → no_false_signature q → content q d → Z.of_nat (length x) < 2 ^ 63 → ∀ inflate, (q_method q = 8 → inflate (q_comp q) = Some d) → read_file inflate x (header_of q) = Ret (Some d).
Proof.
  intros (rest & nl & el & name & ext & desc & -> & L1 & Hnl & Hel & Hdesc) Hat Hsig (Hm & Hd & Hsize & Hcrc) Hx inflate Hinf. pose proof (at_range _ _ _ Hat) as Ra. rewrite !app_length in Ra.
  assert (Ec : q_crc q = crc32 d) by (eapply crc_unique; [done|by apply crc32_poly]).
  unfold read_file, open_file, header_of. cbn [z_offset z_method z_csize z_usize z_crc z_flags].
  set (b := PK 3 4 ++ rest ++ nl ++ el). assert (Lb : length b = 30%nat) by (unfold b; apply num_len in Hnl, Hel; rewrite !app_length; cbn [PK length]; lia).
  assert (Hat' : at_pos x (q_offset q) (b ++ name ++ ext ++ q_comp q ++ desc)) by (unfold b; rewrite <- !app_assoc; done).
  replace (read_at x (q_offset q) 30) with (Some b) by (rewrite <- Lb; symmetry; by eapply at_read). unfold b. cbv [mbind go_bind]. rewrite rd_app by done. cbv beta iota. change (negb (le_val (PK 3 4) =? file_sig)) with false. cbv iota.
  rds. rdn. rewrite (num_rd_end _ _ _ Hel). cbv beta iota.
  assert (Em : negb (q_method q =? 0) && negb (q_method q =? 8) = false) by (destruct Hm as [[-> _]|[-> _]]; done). rewrite Em.
  rewrite i64_small by (unfold q_csize; lia). destruct Hat' as (pre & post & Ex & Hpre).
  assert (E1 : section x (q_offset q + 30 + Z.of_nat (length name) + Z.of_nat (length ext)) (q_csize q) = q_comp q).
  { rewrite Ex. replace (pre ++ (b ++ name ++ ext ++ q_comp q ++ desc) ++ post) with ((pre ++ b ++ name ++ ext) ++ q_comp q ++ desc ++ post) by (rewrite <- !app_assoc; done). apply section_app; [|done]. rewrite !app_length. lia. }
  rewrite E1. assert (Edata : (if q_method q =? 0 then Some (q_comp q) else inflate (q_comp q)) = Some d) by (destruct Hm as [[-> ->]|[Hm8 _]]; [done|rewrite Hm8; by apply Hinf]).
  rewrite Edata. rewrite Hsize, Z.eqb_refl. cbn [negb]. rewrite Ec, Z.eqb_refl, andb_false_r, andb_true_r.
  assert (Ebit : (Z.land (q_flags q) 8 =? 0) = negb (Z.testbit (q_flags q) 3)).
  { destruct (Z.testbit (q_flags q) 3) eqn:Et; cbn [negb].
    - apply Z.eqb_neq. intros E. assert (X : Z.testbit (Z.land (q_flags q) 8) 3 = false) by (by rewrite E). rewrite Z.land_spec, Et in X. done.
    - apply Z.eqb_eq. apply Z.bits_inj'. intros k Hk. rewrite Z.land_spec, Z.bits_0. destruct (decide (k = 3)) as [->|]; [by rewrite Et|]. change 8 with (2 ^ 3). rewrite Z.pow2_bits_false by lia. apply andb_false_r. }
  rewrite Ebit, negb_involutive. destruct (Z.testbit (q_flags q) 3) eqn:Et; [|done].
  destruct (Hdesc eq_refl) as (cr & sizes & Hcr & Hsz & Ed).
  set (after := section x (q_offset q + 30 + Z.of_nat (length name) + Z.of_nat (length ext) + q_csize q) 16).
  assert (Ea : after = take 16 (desc ++ post)).
  { unfold after, section. rewrite (proj2 (Z.ltb_ge _ _)) by (unfold q_csize; lia). rewrite Ex. replace (pre ++ (b ++ name ++ ext ++ q_comp q ++ desc) ++ post) with ((pre ++ b ++ name ++ ext ++ q_comp q) ++ desc ++ post) by (rewrite <- !app_assoc; done).
    rewrite drop_app_alt by (rewrite !app_length; unfold q_csize; lia). done. }
  assert (Ok : desc_ok after (crc32 d) = true); [|by rewrite Ok].
  pose proof (num_len _ _ _ Hcr) as Lcr. pose proof (num_val _ _ _ Hcr) as Vcr. rewrite Ec in Vcr. rewrite Ea, Ed. destruct (q_signed q) eqn:Eq.
  - rewrite <- !app_assoc. unfold desc_ok. rewrite take_length. rewrite Nat.min_l by (rewrite !app_length; cbn [PK length]; lia). cbn [Nat.ltb Nat.leb]. change (take 4 (take 16 (PK 7 8 ++ cr ++ sizes ++ post))) with (PK 7 8). change (le_val (PK 7 8) =? desc_sig) with true. cbv iota. cbn [andb].
    change (drop 4 (take 16 (PK 7 8 ++ cr ++ sizes ++ post))) with (take 12 (cr ++ sizes ++ post)). rewrite take_take. cbn [Nat.min]. rewrite take_app_alt by done. apply Z.eqb_eq. done.
  - cbn [app]. rewrite <- app_assoc. set (y := cr ++ sizes ++ post). assert (Ty : take 4 y = cr) by (unfold y; by apply take_app_alt). assert (Ly : (12 ≤ length (take 16 y))%nat) by (unfold y; rewrite take_length, !app_length; lia).
    unfold desc_ok. rewrite take_take. change (4 `min` 16)%nat with 4%nat. rewrite Ty. rewrite (proj2 (Nat.ltb_ge (length (take 16 y)) 4)) by lia. rewrite (proj2 (Nat.leb_le 12 (length (take 16 y)))) by lia. cbn [andb]. rewrite Vcr, Z.eqb_refl. destruct (Z.eqb_spec (crc32 d) desc_sig) as [E|_]; [|done].
    exfalso. apply (Hsig Et Eq). replace (PK 7 8) with cr; [done|]. destruct Hcr as (_ & Hby & _). apply le_val_inj; [done|done|repeat constructor; done|]. by rewrite Vcr.
Qed.
Lemma dir_says q : 0 ≤ q_creator q < 65536 → 0 ≤ q_attrs q < 2 ^ 32 → mode_dir (q_creator q) (q_attrs q) (q_name q) = true ↔ says_dir q.
Proof.
  intros Hc Ha. unfold mode_dir, says_dir. cbv zeta. rewrite Z.shiftr_div_pow2 by lia. change (2 ^ 8) with 256. set (h := q_creator q / 256).
  assert (Es : ends_slash (q_name q) = true ↔ last (q_name q) = Some 47).
  { unfold ends_slash. destruct (last (q_name q)) as [c|]; [|done]. rewrite Z.eqb_eq. split; congruence. }
  assert (Eu : (Z.land (Z.shiftr (q_attrs q) 16) 61440 =? 16384) = true ↔ q_attrs q / 2 ^ 28 = 4).
  { rewrite Z.eqb_eq. change 61440 with (Z.shiftl (Z.ones 4) 12). replace (Z.land (Z.shiftr (q_attrs q) 16) (Z.shiftl (Z.ones 4) 12)) with (Z.shiftl (Z.land (Z.shiftr (Z.shiftr (q_attrs q) 16) 12) (Z.ones 4)) 12).
    - rewrite Z.shiftr_shiftr by lia. change (16 + 12) with 28. rewrite Z.land_ones by lia. rewrite Z.shiftr_div_pow2 by lia. change (2 ^ 4) with 16. rewrite Z.mod_small by (split; [apply Z.div_pos; lia|apply Z.div_lt_upper_bound; lia]).
      rewrite Z.shiftl_mul_pow2 by lia. change (2 ^ 12) with 4096. lia.
    - apply Z.bits_inj'. intros k Hk. rewrite Z.land_spec. destruct (decide (k < 12)).
      + rewrite !Z.shiftl_spec_low by lia. by rewrite andb_false_r.
      + rewrite !Z.shiftl_spec by lia. rewrite Z.land_spec, (Z.shiftr_spec _ 12) by lia. do 2 f_equal. lia. }
  assert (Em : negb (Z.land (q_attrs q) 16 =? 0) = true ↔ Z.testbit (q_attrs q) 4 = true).
  { rewrite negb_true_iff, Z.eqb_neq. split.
    - intros H. destruct (Z.testbit (q_attrs q) 4) eqn:E; [done|]. exfalso. apply H. apply Z.bits_inj'. intros k Hk. rewrite Z.land_spec, Z.bits_0. destruct (decide (k = 4)) as [->|]; [by rewrite E|]. change 16 with (2 ^ 4). rewrite Z.pow2_bits_false by lia. apply andb_false_r.
    - intros H E. assert (X : Z.testbit (Z.land (q_attrs q) 16) 4 = false) by (by rewrite E). rewrite Z.land_spec, H in X. done. }
  rewrite orb_true_iff, Es. destruct (Z.eqb_spec h 3) as [E3|N3]; cbn [orb]. { rewrite Eu. split; intros [H|H]; try tauto; lia. }
  destruct (Z.eqb_spec h 19) as [E19|N19]. { rewrite Eu. split; intros [H|H]; try tauto; lia. }
  destruct (Z.eqb_spec h 11) as [E11|N11]; cbn [orb]. { rewrite Em. split; intros [H|H]; try tauto; lia. }
  destruct (Z.eqb_spec h 14) as [E14|N14]; cbn [orb]. { rewrite Em. split; intros [H|H]; try tauto; lia. }
  destruct (Z.eqb_spec h 0) as [E0|N0]. { rewrite Em. split; intros [H|H]; try tauto; lia. }
  split; intros [H|H]; try tauto; done.
Qed.
