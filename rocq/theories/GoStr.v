(** * GoStr: Go strings as byte lists, UTF-8 as in unicode/utf8

    Nothing here models a file of /repo; it fixes how Go strings and their conversion to and from
    []rune are represented. *)
From Coq Require Export Ascii.
From Verif Require Export GoBase.
Local Open Scope Z_scope.

(** a Go string is a list of bytes *)
Notation gostr := (list Z).
Definition byte (b : Z) : Prop := 0 ≤ b < 256.
(** string literals *)
Fixpoint str (s : string) : gostr :=
  match s with EmptyString => [] | String c s => Z.of_N (N_of_ascii c) :: str s end.

Global Instance byte_dec b : Decision (byte b).
Proof. unfold byte. apply _. Defined.
Definition between (a b x : Z) : bool := (a <=? x) && (x <=? b).
Lemma between_iff a b x : between a b x = true ↔ a ≤ x ≤ b.
Proof. unfold between. rewrite andb_true_iff, !Z.leb_le. done. Qed.

(** utf8.DecodeRune: the rune and its width; invalid input gives U+FFFD and width 1 *)
Definition rune_error : Z := 65533.
Definition cont : Z → bool := between 128 191.
Definition decode_rune (s : gostr) : Z * nat :=
  match s with
  | [] => (rune_error, 0%nat)
  | b0 :: r =>
    if b0 <? 128 then (b0, 1%nat)
    else if between 194 223 b0 then
      match r with
      | b1 :: _ => if cont b1 then (b0 mod 32 * 64 + b1 mod 64, 2%nat) else (rune_error, 1%nat)
      | _ => (rune_error, 1%nat) end
    else if between 224 239 b0 then
      match r with
      | b1 :: b2 :: _ =>
        if between (if b0 =? 224 then 160 else 128) (if b0 =? 237 then 159 else 191) b1 && cont b2
        then (b0 mod 16 * 4096 + b1 mod 64 * 64 + b2 mod 64, 3%nat) else (rune_error, 1%nat)
      | _ => (rune_error, 1%nat) end
    else if between 240 244 b0 then
      match r with
      | b1 :: b2 :: b3 :: _ =>
        if between (if b0 =? 240 then 144 else 128) (if b0 =? 244 then 143 else 191) b1 && cont b2 && cont b3
        then (b0 mod 8 * 262144 + b1 mod 64 * 4096 + b2 mod 64 * 64 + b3 mod 64, 4%nat) else (rune_error, 1%nat)
      | _ => (rune_error, 1%nat) end
    else (rune_error, 1%nat)
  end.
(** utf8.EncodeRune / the conversion of one rune to a string *)
Definition valid_rune (c : Z) : bool := between 0 55295 c || between 57344 1114111 c.
Definition encode_rune (c0 : Z) : gostr :=
  let c := if valid_rune c0 then c0 else rune_error in
  if c <? 128 then [c]
  else if c <? 2048 then [192 + c / 64; 128 + c mod 64]
  else if c <? 65536 then [224 + c / 4096; 128 + c / 64 mod 64; 128 + c mod 64]
  else [240 + c / 262144; 128 + c / 4096 mod 64; 128 + c / 64 mod 64; 128 + c mod 64].

(** [for i, c := range s]: the positions and runes; [skip] bytes belong to the previous rune *)
Fixpoint range_from (skip i : nat) (s : gostr) : list (nat * Z) :=
  match s with
  | [] => []
  | _ :: r => match skip with
    | S k => range_from k (S i) r
    | O => let '(c, w) := decode_rune s in (i, c) :: range_from (w - 1) (S i) r
    end
  end.
Definition go_range (s : gostr) : list (nat * Z) := range_from 0 0 s.
(** []rune(s) and string(rs) *)
Definition runes (s : gostr) : list Z := (go_range s).*2.
Definition of_runes (rs : list Z) : gostr := rs ≫= encode_rune.

(** ** Facts *)
Lemma decode_rune_width s : s ≠ [] → (1 ≤ (decode_rune s).2 ≤ length s)%nat.
Proof.
  destruct s as [|b0 r]; [done|]. intros _. unfold decode_rune. destruct (b0 <? 128); [simpl; lia|]. destruct (between 194 223 b0).
  { destruct r as [|b1 r]; [simpl; lia|]. destruct (cont b1); simpl; lia. }
  destruct (between 224 239 b0).
  { destruct r as [|b1 [|b2 r]]; [simpl; lia..|]. destruct (_ && _); simpl; lia. }
  destruct (between 240 244 b0); [|simpl; lia].
  destruct r as [|b1 [|b2 [|b3 r]]]; [simpl; lia..|]. destruct (_ && _); simpl; lia.
Qed.
Lemma valid_rune_iff c : valid_rune c = true ↔ 0 ≤ c < 55296 ∨ 57344 ≤ c ≤ 1114111.
Proof. unfold valid_rune. rewrite orb_true_iff, !between_iff. lia. Qed.
Lemma decode_encode c s : valid_rune c = true → decode_rune (encode_rune c ++ s) = (c, length (encode_rune c)).
Proof.
  intros Hv. unfold encode_rune. rewrite Hv. apply valid_rune_iff in Hv.
  destruct (Z.ltb_spec c 128); [simpl; destruct (Z.ltb_spec c 128); [done|lia]|].
  destruct (Z.ltb_spec c 2048); [|destruct (Z.ltb_spec c 65536)]; simpl.
  - destruct (Z.ltb_spec (192 + c / 64) 128); [pose proof (Z.div_pos c 64); lia|].
    assert (between 194 223 (192 + c / 64) = true) as -> by (apply between_iff; Z.div_mod_to_equations; lia).
    assert (cont (128 + c mod 64) = true) as -> by (apply between_iff; Z.div_mod_to_equations; lia). f_equal.
    Z.div_mod_to_equations; lia.
  - destruct (Z.ltb_spec (224 + c / 4096) 128); [pose proof (Z.div_pos c 4096); lia|].
    assert (between 194 223 (224 + c / 4096) = false) as ->. { apply not_true_is_false. rewrite between_iff. pose proof (Z.div_pos c 4096). lia. }
    assert (between 224 239 (224 + c / 4096) = true) as -> by (apply between_iff; Z.div_mod_to_equations; lia).
    assert (between (if 224 + c / 4096 =? 224 then 160 else 128) (if 224 + c / 4096 =? 237 then 159 else 191) (128 + (c / 64) mod 64) = true) as ->.
    { apply between_iff. destruct (Z.eqb_spec (224 + c / 4096) 224); destruct (Z.eqb_spec (224 + c / 4096) 237); Z.div_mod_to_equations; lia. }
    assert (cont (128 + c mod 64) = true) as -> by (apply between_iff; Z.div_mod_to_equations; lia). simpl. f_equal. Z.div_mod_to_equations; lia.
  - destruct (Z.ltb_spec (240 + c / 262144) 128); [pose proof (Z.div_pos c 262144); lia|].
    assert (between 194 223 (240 + c / 262144) = false) as ->. { apply not_true_is_false. rewrite between_iff. pose proof (Z.div_pos c 262144). lia. }
    assert (between 224 239 (240 + c / 262144) = false) as ->. { apply not_true_is_false. rewrite between_iff. pose proof (Z.div_pos c 262144). lia. }
    assert (between 240 244 (240 + c / 262144) = true) as -> by (apply between_iff; Z.div_mod_to_equations; lia).
    assert (between (if 240 + c / 262144 =? 240 then 144 else 128) (if 240 + c / 262144 =? 244 then 143 else 191) (128 + (c / 4096) mod 64) = true) as ->.
    { apply between_iff. destruct (Z.eqb_spec (240 + c / 262144) 240); destruct (Z.eqb_spec (240 + c / 262144) 244); Z.div_mod_to_equations; lia. }
    assert (cont (128 + (c / 64) mod 64) = true) as -> by (apply between_iff; Z.div_mod_to_equations; lia).
    assert (cont (128 + c mod 64) = true) as -> by (apply between_iff; Z.div_mod_to_equations; lia). simpl. f_equal. Z.div_mod_to_equations; lia.
Qed.
Lemma encode_rune_length c : (1 ≤ length (encode_rune c) ≤ 4)%nat.
Proof. unfold encode_rune. repeat match goal with |- context [if ?b then _ else _] => destruct b end; simpl; lia. Qed.
Lemma range_from_skip k i s : range_from k i s = range_from 0 (i + (k `min` length s)) (drop k s).
Proof.
  revert k i. induction s as [|b s IH]; intros k i; [by destruct k|]. destruct k as [|k]; simpl; [by rewrite Nat.add_0_r|]. rewrite IH. f_equal. lia.
Qed.
Lemma range_from_cons i b s : range_from 0 i (b :: s) = (i, (decode_rune (b :: s)).1) :: range_from 0 (i + (decode_rune (b :: s)).2) (drop (decode_rune (b :: s)).2 (b :: s)).
Proof.
  pose proof (decode_rune_width (b :: s) ltac:(done)) as Hw. cbn [range_from]. destruct (decode_rune (b :: s)) as [c w]. cbn [fst snd] in *. f_equal.
  rewrite range_from_skip. simpl in Hw. destruct w as [|w]; [lia|]. simpl. f_equal; [|by rewrite Nat.sub_0_r]. lia.
Qed.
Lemma range_shift k i s : (range_from k i s).*2 = (range_from k 0 s).*2.
Proof.
  revert k i. induction s as [|b s IH]; intros k i; [done|]. cbn [range_from]. destruct k as [|k]; [|by rewrite IH, (IH _ 1%nat)].
  destruct (decode_rune (b :: s)) as [c w]. simpl. by rewrite IH, (IH _ 1%nat).
Qed.
Lemma runes_nil : runes [] = [].
Proof. done. Qed.
Lemma runes_cons b s : runes (b :: s) = (decode_rune (b :: s)).1 :: runes (drop (decode_rune (b :: s)).2 (b :: s)).
Proof. unfold runes, go_range. rewrite range_from_cons. cbn [fmap list_fmap snd]. by rewrite range_shift. Qed.
Lemma runes_encode c s : valid_rune c = true → runes (encode_rune c ++ s) = c :: runes s.
Proof.
  intros Hv. pose proof (decode_encode c s Hv) as Hd. pose proof (encode_rune_length c) as Hl. destruct (encode_rune c) as [|b e] eqn:Ee; [simpl in Hl; lia|].
  simpl ((b :: e) ++ s) in *. rewrite runes_cons, Hd. cbn [fst snd]. f_equal. f_equal. change (b :: e ++ s) with ((b :: e) ++ s). by rewrite drop_app.
Qed.
(** []rune(string(rs)) = rs for valid runes *)
Lemma runes_of_runes rs s : Forall (λ c, valid_rune c = true) rs → runes (of_runes rs ++ s) = rs ++ runes s.
Proof. induction 1 as [|c rs Hc _ IH]; [done|]. unfold of_runes. cbn [mbind list_bind]. rewrite <- app_assoc, runes_encode by done. simpl. by rewrite <- IH. Qed.
Lemma runes_of_runes_nil rs : Forall (λ c, valid_rune c = true) rs → runes (of_runes rs) = rs.
Proof. intros H. pose proof (runes_of_runes rs [] H) as E. by rewrite !app_nil_r in E. Qed.
Lemma decode_rune_valid s : Forall byte s → s ≠ [] → valid_rune (decode_rune s).1 = true.
Proof.
  destruct s as [|b0 r]; [done|]. intros Hb _. inversion_clear Hb as [|? ? H0 Hr]. unfold byte in *. unfold decode_rune. destruct (Z.ltb_spec b0 128); [apply valid_rune_iff; simpl; lia|]. destruct (between 194 223 b0) eqn:E1.
  { destruct r as [|b1 r]; [done|]. destruct (cont b1) eqn:E2; [|done]. apply between_iff in E1, E2. apply valid_rune_iff. simpl. Z.div_mod_to_equations; lia. }
  destruct (between 224 239 b0) eqn:E2.
  { destruct r as [|b1 [|b2 r]]; [done..|]. destruct (_ && _) eqn:E3; [|done]. apply andb_true_iff in E3 as [E3 E4]. apply between_iff in E2, E3, E4. apply valid_rune_iff. simpl.
    destruct (Z.eqb_spec b0 224), (Z.eqb_spec b0 237); Z.div_mod_to_equations; lia. }
  destruct (between 240 244 b0) eqn:E3; [|done].
  destruct r as [|b1 [|b2 [|b3 r]]]; [done..|]. destruct (_ && _) eqn:E4; [|done]. apply andb_true_iff in E4 as [E4 E6]. apply andb_true_iff in E4 as [E4 E5]. apply between_iff in E3, E4, E5, E6. apply valid_rune_iff. simpl.
  destruct (Z.eqb_spec b0 240), (Z.eqb_spec b0 244); Z.div_mod_to_equations; lia.
Qed.
Lemma runes_ind (P : gostr → Prop) : P [] → (∀ b s, P (drop (decode_rune (b :: s)).2 (b :: s)) → P (b :: s)) → ∀ s, P s.
Proof.
  intros H0 HS s. remember (length s) as n eqn:En. revert s En. induction n as [n IH] using lt_wf_ind. intros [|b s] ->; [done|]. apply HS.
  eapply IH; [|done]. rewrite drop_length. pose proof (decode_rune_width (b :: s) ltac:(done)). simpl in *. lia.
Qed.
Lemma runes_valid s : Forall byte s → Forall (λ c, valid_rune c = true) (runes s).
Proof.
  induction s as [|b s IH] using runes_ind; intros Hs; [constructor|]. rewrite runes_cons. constructor; [by apply decode_rune_valid|]. apply IH. by apply Forall_drop.
Qed.
Lemma runes_length s : (length (runes s) ≤ length s)%nat.
Proof.
  induction s as [|b s IH] using runes_ind; [done|]. rewrite runes_cons. cbn [length]. rewrite drop_length in IH. pose proof (decode_rune_width (b :: s) ltac:(done)). simpl in *. lia.
Qed.
(** at most four bytes per rune *)
Lemma decode_rune_width4 s : ((decode_rune s).2 ≤ 4)%nat.
Proof.
  destruct s as [|b0 r]; [simpl; lia|]. unfold decode_rune. destruct (b0 <? 128); [simpl; lia|]. destruct (between 194 223 b0).
  { destruct r as [|b1 r]; [simpl; lia|]. destruct (cont b1); simpl; lia. }
  destruct (between 224 239 b0).
  { destruct r as [|b1 [|b2 r]]; [simpl; lia..|]. destruct (_ && _); simpl; lia. }
  destruct (between 240 244 b0); [|simpl; lia].
  destruct r as [|b1 [|b2 [|b3 r]]]; [simpl; lia..|]. destruct (_ && _); simpl; lia.
Qed.
Lemma runes_length4 s : (length s ≤ 4 * length (runes s))%nat.
Proof.
  induction s as [|b s IH] using runes_ind; [done|]. rewrite runes_cons. cbn [length]. rewrite drop_length in IH. pose proof (decode_rune_width4 (b :: s)). simpl in *. lia.
Qed.
(** an ASCII byte starts a new rune, whatever precedes it *)
Lemma decode_rune_app s b t : b < 128 → s ≠ [] → decode_rune (s ++ b :: t) = decode_rune s.
Proof.
  intros Hb Hs. destruct s as [|b0 r]; [done|]. simpl. assert (Hc : ∀ x y, 128 ≤ x → between x y b = false). { intros x y Hx. apply not_true_is_false. rewrite between_iff. lia. }
  assert (Hc' : cont b = false) by (apply Hc; lia). destruct (b0 <? 128); [done|]. destruct (between 194 223 b0).
  { destruct r as [|b1 r]; simpl; [by rewrite Hc'|done]. }
  destruct (between 224 239 b0).
  { destruct r as [|b1 [|b2 r]]; simpl; [|by rewrite Hc', andb_false_r|done]. destruct t; [done|]. rewrite Hc; [done|]. destruct (b0 =? 224); lia. }
  destruct (between 240 244 b0); [|done].
  destruct r as [|b1 [|b2 [|b3 r]]]; simpl; [| |by rewrite Hc', andb_false_r|done].
  - destruct t as [|? [|? ?]]; [done..|]. rewrite Hc; [done|]. destruct (b0 =? 240); lia.
  - destruct t as [|? ?]; [done..|]. by rewrite Hc', andb_false_r.
Qed.
Lemma runes_app_ascii s b t : b < 128 → runes (s ++ b :: t) = runes s ++ runes (b :: t).
Proof.
  intros Hb. induction s as [|x s IH] using runes_ind; [done|]. change ((x :: s) ++ b :: t) with (x :: (s ++ b :: t)). rewrite (runes_cons x (s ++ b :: t)), (runes_cons x s).
  change (x :: s ++ b :: t) with ((x :: s) ++ b :: t). rewrite decode_rune_app by done. cbn [app]. f_equal. rewrite <- IH. f_equal. change (x :: s ++ b :: t) with ((x :: s) ++ b :: t). apply drop_app_le.
  apply decode_rune_width. done.
Qed.
Lemma runes_ascii s : Forall (λ b, b < 128) s → runes s = s.
Proof.
  induction 1 as [|b s Hb _ IH]; [done|]. rewrite runes_cons. simpl. destruct (Z.ltb_spec b 128); [|lia]. simpl. by rewrite drop_0, IH.
Qed.
Lemma range_ascii i s : Forall (λ b, b < 128) s → range_from 0 i s = imap (λ j b, ((i + j)%nat, b)) s.
Proof.
  revert i. induction s as [|b s IH]; intros i Hs; [done|]. inversion_clear Hs as [|? ? Hb Hr]. cbn [range_from imap]. unfold decode_rune. destruct (Z.ltb_spec b 128); [|lia]. cbn [Nat.sub]. rewrite Nat.add_0_r. f_equal.
  rewrite IH by done. apply imap_ext. intros j x _. simpl. f_equal. lia.
Qed.
Lemma of_runes_ascii s : Forall (λ b, 0 ≤ b < 128) s → of_runes s = s.
Proof.
  induction 1 as [|b s Hb _ IH]; [done|]. unfold of_runes in *. cbn [mbind list_bind]. rewrite IH. unfold encode_rune.
  assert (valid_rune b = true) as -> by (apply valid_rune_iff; lia). destruct (Z.ltb_spec b 128); [done|lia].
Qed.
Lemma of_runes_app a b : of_runes (a ++ b) = of_runes a ++ of_runes b.
Proof. apply bind_app. Qed.
Lemma str_bytes s : Forall byte (str s).
Proof. induction s as [|c s IH]; [constructor|]. constructor; [|done]. unfold byte. pose proof (N_ascii_bounded c). lia. Qed.
(** decoding is faithful except for bytes that are not UTF-8 *)
Lemma encode_decode_ok s : Forall byte s → s ≠ [] → decode_rune s ≠ (rune_error, 1%nat) → encode_rune (decode_rune s).1 = take (decode_rune s).2 s.
Proof.
  intros Hb Hs Hr. pose proof (decode_rune_valid s Hb Hs) as Hv. unfold encode_rune. rewrite Hv. clear Hv. destruct s as [|b0 r]; [done|]. clear Hs. apply Forall_cons_1 in Hb as [H0 Hb]. unfold byte in *. revert Hr. unfold decode_rune.
  destruct (Z.ltb_spec b0 128); [intros _; cbn [fst snd]; destruct (Z.ltb_spec b0 128); [done|lia]|]. destruct (between 194 223 b0) eqn:E1.
  { destruct r as [|b1 r]; [done|]. destruct (cont b1) eqn:E2; [|done]. intros _. apply between_iff in E1, E2. cbn [fst snd take].
    destruct (Z.ltb_spec (b0 mod 32 * 64 + b1 mod 64) 128); [Z.div_mod_to_equations; lia|]. destruct (Z.ltb_spec (b0 mod 32 * 64 + b1 mod 64) 2048); [|Z.div_mod_to_equations; lia].
    assert (192 + (b0 mod 32 * 64 + b1 mod 64) / 64 = b0) as -> by (Z.div_mod_to_equations; lia). assert (128 + (b0 mod 32 * 64 + b1 mod 64) mod 64 = b1) as -> by (Z.div_mod_to_equations; lia). done. }
  destruct (between 224 239 b0) eqn:E2.
  { destruct r as [|b1 [|b2 r]]; [done..|]. destruct (_ && _) eqn:E3; [|done]. intros _. apply andb_true_iff in E3 as [E3 E4]. apply between_iff in E2, E3, E4. cbn [fst snd take].
    set (c := b0 mod 16 * 4096 + b1 mod 64 * 64 + b2 mod 64). 
    assert (2048 ≤ c < 65536 ∧ c / 4096 = b0 - 224 ∧ c / 64 mod 64 = b1 - 128 ∧ c mod 64 = b2 - 128) as (H1 & H2 & H3 & H4).
    { unfold c. destruct (Z.eqb_spec b0 224), (Z.eqb_spec b0 237); split_and!; Z.div_mod_to_equations; lia. }
    destruct (Z.ltb_spec c 128); [lia|]. destruct (Z.ltb_spec c 2048); [lia|]. destruct (Z.ltb_spec c 65536); [|lia]. rewrite H2, H3, H4.
    assert (224 + (b0 - 224) = b0) as -> by lia. assert (128 + (b1 - 128) = b1) as -> by lia. assert (128 + (b2 - 128) = b2) as -> by lia. done. }
  destruct (between 240 244 b0) eqn:E3; [|done].
  destruct r as [|b1 [|b2 [|b3 r]]]; [done..|]. destruct (_ && _) eqn:E4; [|done]. intros _. apply andb_true_iff in E4 as [E4 E6]. apply andb_true_iff in E4 as [E4 E5]. apply between_iff in E3, E4, E5, E6. cbn [fst snd take].
  set (c := b0 mod 8 * 262144 + b1 mod 64 * 4096 + b2 mod 64 * 64 + b3 mod 64).
  assert (65536 ≤ c ∧ c / 262144 = b0 - 240 ∧ c / 4096 mod 64 = b1 - 128 ∧ c / 64 mod 64 = b2 - 128 ∧ c mod 64 = b3 - 128) as (H1 & H2 & H3 & H4 & H5).
  { unfold c. destruct (Z.eqb_spec b0 240), (Z.eqb_spec b0 244); split_and!; Z.div_mod_to_equations; lia. }
  destruct (Z.ltb_spec c 128); [lia|]. destruct (Z.ltb_spec c 2048); [lia|]. destruct (Z.ltb_spec c 65536); [lia|]. rewrite H2, H3, H4, H5.
  assert (240 + (b0 - 240) = b0) as -> by lia. assert (128 + (b1 - 128) = b1) as -> by lia. assert (128 + (b2 - 128) = b2) as -> by lia. assert (128 + (b3 - 128) = b3) as -> by lia. done.
Qed.
Lemma encode_decode s : Forall byte s → s ≠ [] → (decode_rune s).1 ≠ rune_error → encode_rune (decode_rune s).1 = take (decode_rune s).2 s.
Proof. intros Hb Hs Hr. apply encode_decode_ok; [done|done|]. intros E. by rewrite E in Hr. Qed.
Lemma of_runes_runes s : Forall byte s → Forall (λ c, c ≠ rune_error) (runes s) → of_runes (runes s) = s.
Proof.
  induction s as [|b s IH] using runes_ind; intros Hb Hr; [done|]. rewrite runes_cons in Hr. apply Forall_cons_1 in Hr as [Hr1 Hr2]. rewrite runes_cons. unfold of_runes in *. cbn [mbind list_bind].
  rewrite encode_decode by done. rewrite IH; [|by apply Forall_drop|done]. apply take_drop.
Qed.

(** strings.Index and strings.Split, for a non-empty separator *)
Fixpoint has_prefix (p s : gostr) : bool :=
  match p, s with [], _ => true | _, [] => false | a :: p, b :: s => (a =? b) && has_prefix p s end.
Fixpoint go_index (sep s : gostr) : option nat :=
  if has_prefix sep s then Some 0%nat else match s with [] => None | _ :: r => S <$> go_index sep r end.
Fixpoint split_fuel (fuel : nat) (sep s : gostr) : list gostr :=
  match fuel with
  | O => [s]
  | S f => match go_index sep s with None => [s] | Some i => take i s :: split_fuel f sep (drop (i + length sep) s) end
  end.
Definition go_split (sep s : gostr) : list gostr := split_fuel (length s) sep s.
Lemma has_prefix_iff p s : has_prefix p s = true ↔ ∃ t, s = p ++ t.
Proof.
  revert s. induction p as [|a p IH]; intros s; [split; [by exists s|done]|]. destruct s as [|b s]; simpl.
  - split; [done|]. by intros [t ?].
  - rewrite andb_true_iff, Z.eqb_eq, IH. split; [intros [-> [t ->]]; by exists t|]. intros [t [= -> ->]]. split; [done|by exists t].
Qed.
Lemma go_index_Some sep s i : go_index sep s = Some i → (i ≤ length s)%nat ∧ s = take i s ++ sep ++ drop (i + length sep) s.
Proof.
  revert i. induction s as [|b s IH]; intros i; cbn [go_index].
  - destruct (has_prefix sep []) eqn:E; [|done]. intros [= <-]. apply has_prefix_iff in E as [t E]. split; [done|]. symmetry in E. apply app_nil in E as [-> ->]. done.
  - destruct (has_prefix sep (b :: s)) eqn:E.
    + intros [= <-]. apply has_prefix_iff in E as [t E]. split; [simpl; lia|]. rewrite E. simpl. by rewrite drop_app.
    + intros H. destruct (go_index sep s) as [j|] eqn:Ej; [|done]. injection H as <-. destruct (IH j eq_refl) as [H1 H2]. split; [simpl; lia|]. cbn [take drop Nat.add app]. by rewrite <- H2.
Qed.
(** no occurrence starts before the index *)
Lemma go_index_first sep s i : go_index sep s = Some i → ∀ j, (j < i)%nat → has_prefix sep (drop j s) = false.
Proof.
  revert i. induction s as [|b s IH]; intros i; cbn [go_index].
  - destruct (has_prefix sep []); [|done]. intros [= <-] j Hj. lia.
  - destruct (has_prefix sep (b :: s)) eqn:E; [intros [= <-] j Hj; lia|]. intros H. destruct (go_index sep s) as [k|] eqn:Ek; [|done]. injection H as <-. intros [|j] Hj; [done|]. simpl. eapply IH; [done|lia].
Qed.
Lemma go_index_None sep s : go_index sep s = None → ∀ j, (j ≤ length s)%nat → has_prefix sep (drop j s) = false.
Proof.
  induction s as [|b s IH]; cbn [go_index].
  - destruct (has_prefix sep []) eqn:E; [done|]. intros _ [|j] Hj; [done|simpl in Hj; lia].
  - destruct (has_prefix sep (b :: s)) eqn:E; [done|]. intros H. destruct (go_index sep s) as [k|]; [done|]. intros [|j] Hj; [done|]. simpl. apply IH; [done|simpl in Hj; lia].
Qed.
(** a one-byte separator *)
Lemma go_index_char c a t : c ∉ a → go_index [c] (a ++ c :: t) = Some (length a).
Proof.
  induction a as [|x a IH]; intros Hc; cbn [app go_index has_prefix].
  - by rewrite Z.eqb_refl.
  - apply not_elem_of_cons in Hc as [Hx Hc]. apply Z.eqb_neq in Hx. rewrite Hx. cbn [andb]. by rewrite IH.
Qed.
Lemma go_index_char_None c s : go_index [c] s = None ↔ c ∉ s.
Proof.
  induction s as [|x s IH]; cbn [go_index has_prefix].
  - split; [|done]. intros _. apply not_elem_of_nil.
  - rewrite not_elem_of_cons. destruct (Z.eqb_spec c x) as [->|Hx]; cbn [andb].
    + split; [done|]. by intros [].
    + destruct (go_index [c] s); [split; [done|]; intros [_ H]; by apply IH in H|]. split; [|done]. intros _. split; [done|by apply IH].
Qed.
