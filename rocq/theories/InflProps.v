(** * C118: the decompressor behind Unzip reads what RFC 1951 says *)
From Verif Require Import GoBase GoStr InflModel InflSpec InflHuff InflProofs InflMain.
Local Open Scope Z_scope.

Lemma whole_bytes (x : gostr) : (0 + Z.of_nat (length (x ≫= byte_seq))) mod 8 = 0.
Proof. rewrite bind_length. replace (0 + Z.of_nat (8 * length x)) with (Z.of_nat (length x) * 8) by lia. by rewrite Z.mod_mul. Qed.

(** ** it returns a content exactly if the compressed text stands for it *)
Theorem inflate_rfc1951 x d : inflate x = Some d ↔ stands_for x d.
Proof.
  unfold inflate, inflate_run. change (bits_of x) with (x ≫= byte_seq). pose proof (whole_bytes x) as Hm. split.
  - destruct (blocks _ _ _) as [[r out]| |] eqn:E; [|done..]. intros [= ->]. apply (blocks_sound _ 0) in E as (w & Hw & Hs); [|done]. by exists w, r.
  - intros (w & r & Hw & Hs). rewrite Hw in *. rewrite (blocks_complete 0 [] d w Hs _ r); [done| |done]. rewrite app_length. lia.
Qed.
Print Assumptions inflate_rfc1951.

(** the format leaves no choice: neither of the content nor of where the compressed text ends *)
Theorem rfc1951_unique x d d' w w' r r' : x ≫= byte_seq = w ++ r → x ≫= byte_seq = w' ++ r' → stream 0 [] d w → stream 0 [] d' w' → d = d' ∧ w = w'.
Proof.
  intros H1 H2 S1 S2. pose proof (whole_bytes x) as Hm. set (n := S (length (x ≫= byte_seq))).
  assert (E1 : blocks n (x ≫= byte_seq) [] = DOk (r, d)). { unfold n. rewrite H1 in *. apply (blocks_complete 0); [done| |done]. rewrite app_length. lia. }
  assert (E2 : blocks n (x ≫= byte_seq) [] = DOk (r', d')). { unfold n. rewrite H2 in *. apply (blocks_complete 0); [done| |done]. rewrite app_length. lia. }
  rewrite E1 in E2. injection E2 as <- <-. split; [done|]. rewrite H1 in H2. by apply app_inv_tail in H2.
Qed.
Print Assumptions rfc1951_unique.

(** ** no input keeps it busy for ever *)
Lemma take_bits_shrinks n b v r : take_bits n b = DOk (v, r) → length b = (n + length r)%nat.
Proof. unfold take_bits. destruct (Nat.ltb_spec (length b) n); [done|]. intros [= _ <-]. rewrite drop_length. lia. Qed.
Lemma take_bits_fuel n b : take_bits n b ≠ DFuel.
Proof. unfold take_bits. by destruct (_ <? _)%nat. Qed.
Lemma huff_from_shrinks t k : ∀ n c b s r, huff_sym_from t k n c b = DOk (s, r) → (length r < length b)%nat.
Proof.
  induction k as [|k IH]; intros n c b s r E; [done|]. cbn [huff_sym_from] in E. destruct b as [|x b]; [done|]. cbv zeta in E. destruct (find_code _ _ _) as [s'|].
  - injection E as _ <-. cbn. lia. - apply IH in E. cbn. lia.
Qed.
Lemma huff_from_fuel t k : ∀ n c b, huff_sym_from t k n c b ≠ DFuel.
Proof. induction k as [|k IH]; intros n c b; [done|]. cbn [huff_sym_from]. destruct b as [|x b]; [done|]. cbv zeta. destruct (find_code _ _ _); [done|]. apply IH. Qed.
Lemma read_clens_fuel order : ∀ n lens b, read_clens order n lens b ≠ DFuel.
Proof.
  induction order as [|o l IH]; intros n lens b; destruct n as [|n]; try done. cbn [read_clens]. pose proof (take_bits_fuel 3 b). destruct (take_bits 3 b) as [[v r]| |]; [|done..]. cbn [mbind dres_bind]. apply IH.
Qed.
Lemma read_lens_fuel fuel : ∀ t n lens b, (n ≤ length lens + fuel)%nat → read_lens fuel t n lens b ≠ DFuel.
Proof.
  induction fuel as [|k IH]; intros t n lens b Hf; cbn [read_lens]; (destruct (Nat.leb_spec n (length lens)); [done|]); [lia|]. unfold huff_sym. pose proof (huff_from_fuel t 15 0 0 b). destruct (huff_sym_from _ _ _ _ _) as [[x r]| |]; [|done..]. cbn [mbind dres_bind].
  destruct (_ <? _)%nat. { apply IH. rewrite app_length. cbn. lia. }
  match goal with |- mbind _ ?m ≠ _ => destruct m as [[[rep nb] v]| |] eqn:Em end.
  - cbn [mbind dres_bind]. pose proof (take_bits_fuel nb r). destruct (take_bits nb r) as [[e r']| |] eqn:Et; [|done..]. cbn [mbind dres_bind]. cbv zeta. destruct (_ <? _)%nat; [done|]. apply IH. rewrite app_length, replicate_length.
    assert (0 ≤ e). { unfold take_bits in Et. destruct (_ <? _)%nat; [done|]. injection Et as <- _. change (0 ≤ num (take nb r)). apply num_range. }
    assert (3 ≤ rep). { destruct (x =? 16)%nat. { destruct (last lens); [|done]. injection Em as <- _ _. lia. } destruct (x =? 17)%nat; injection Em as <- _ _; lia. } lia.
  - done.
  - exfalso. destruct (x =? 16)%nat; [by destruct (last lens)|by destruct (x =? 17)%nat].
Qed.
Lemma read_huffman_fuel b : read_huffman b ≠ DFuel.
Proof.
  unfold read_huffman. pose proof (take_bits_fuel 5 b). destruct (take_bits 5 b) as [[h1 b1]| |]; [|done..]. cbn [mbind dres_bind]. cbv zeta. destruct (_ <? _)%nat; [done|]. pose proof (take_bits_fuel 5 b1). destruct (take_bits 5 b1) as [[h2 b2]| |]; [|done..]. cbn [mbind dres_bind]. destruct (_ <? _)%nat; [done|].
  pose proof (take_bits_fuel 4 b2). destruct (take_bits 4 b2) as [[h3 b3]| |]; [|done..]. cbn [mbind dres_bind]. match goal with |- mbind _ ?m ≠ _ => assert (Hc : m ≠ DFuel) by apply read_clens_fuel; destruct m as [[cl b4]| |]; [|done..] end. cbn [mbind dres_bind].
  destruct (huff_init cl) as [t|]; [|done]. match goal with |- mbind _ ?m ≠ _ => assert (Hl : m ≠ DFuel) by (apply read_lens_fuel; lia); destruct m as [[l b5]| |]; [|done..] end. cbn [mbind dres_bind]. destruct (huff_init (take _ _)); [|done]. destruct (huff_init (drop _ _)); done.
Qed.
Lemma dist_sym_shrinks hd b : match dist_sym hd b with DOk (_, r) => (length r < length b)%nat | DErr => True | DFuel => False end.
Proof.
  unfold dist_sym. destruct hd as [t|].
  - unfold huff_sym. pose proof (huff_from_fuel t 15 0 0 b). destruct (huff_sym_from _ _ _ _ _) as [[s r]| |] eqn:E; [|done..]. by apply huff_from_shrinks in E.
  - destruct (Nat.ltb_spec (length b) 5); [done|]. cbn [mbind dres_bind]. rewrite drop_length. lia.
Qed.
Lemma dist_of_shrinks d b : match dist_of d b with DOk (_, r) => (length r ≤ length b)%nat | DErr => True | DFuel => False end.
Proof.
  unfold dist_of. destruct (d <? 4); [lia|]. destruct (d <? 30); [|done]. cbv zeta. pose proof (take_bits_fuel (Z.to_nat (Z.shiftr (d - 2) 1)) b). destruct (take_bits _ b) as [[e r]| |] eqn:E; [|done..]. cbn [mbind dres_bind]. apply take_bits_shrinks in E. lia.
Qed.
Lemma huff_block_fuel fuel : ∀ hl hd b out, (length b < fuel)%nat → huff_block fuel hl hd b out ≠ DFuel.
Proof.
  induction fuel as [|k IH]; intros hl hd b out Hf; [lia|]. cbn [huff_block]. unfold huff_sym. pose proof (huff_from_fuel hl 15 0 0 b). destruct (huff_sym_from _ _ _ _ _) as [[v r]| |] eqn:E; [|done..]. apply huff_from_shrinks in E. cbn [mbind dres_bind].
  destruct (_ <? _)%nat. { apply IH. lia. } destruct (_ =? _)%nat; [done|]. destruct (len_of _) as [[base n]|]; [|done]. pose proof (take_bits_fuel n r). destruct (take_bits n r) as [[e r1]| |] eqn:E1; [|done..]. apply take_bits_shrinks in E1. cbn [mbind dres_bind].
  pose proof (dist_sym_shrinks hd r1) as Hd. destruct (dist_sym hd r1) as [[d r2]| |]; [|done..]. cbn [mbind dres_bind]. pose proof (dist_of_shrinks (Z.of_nat d) r2) as Hd2. destruct (dist_of _ r2) as [[dist r3]| |]; [|done..]. cbn [mbind dres_bind]. destruct (_ <? _); [done|]. apply IH. lia.
Qed.
Lemma data_block_fuel b out : data_block b out ≠ DFuel.
Proof.
  unfold data_block. cbv zeta. set (b0 := drop _ b). pose proof (take_bits_fuel 16 b0). destruct (take_bits 16 b0) as [[n b1]| |]; [|done..]. cbn [mbind dres_bind]. pose proof (take_bits_fuel 16 b1). destruct (take_bits 16 b1) as [[nn b2]| |]; [|done..]. cbn [mbind dres_bind]. destruct (negb _); [done|]. by destruct (_ <? _)%nat.
Qed.
Lemma blocks_fuel fuel : ∀ b out, (length b < fuel)%nat → blocks fuel b out ≠ DFuel.
Proof.
  induction fuel as [|k IH]; intros b out Hf; [lia|]. rewrite blocks_unfold. pose proof (take_bits_fuel 1 b). destruct (take_bits 1 b) as [[f b1]| |] eqn:E1; [|done..]. apply take_bits_shrinks in E1. cbn [mbind dres_bind].
  match goal with |- mbind _ ?m ≠ _ => destruct m as [[b2 out2]| |] eqn:Eb end; [|done|].
  - cbn [mbind dres_bind]. destruct (f =? 1); [done|]. apply (one_block_sound (- Z.of_nat (length b1))) in Eb as (w & -> & _); [|by replace (- Z.of_nat (length b1) + Z.of_nat (length b1)) with 0 by lia]. rewrite app_length in E1. apply IH. lia.
  - exfalso. revert Eb. pose proof (take_bits_fuel 2 b1). destruct (take_bits 2 b1) as [[typ b2]| |]; [|done..]. cbn [mbind dres_bind]. destruct (typ =? 0); [apply data_block_fuel|]. destruct (typ =? 1); [apply huff_block_fuel; lia|]. destruct (typ =? 2); [|done].
    pose proof (read_huffman_fuel b2). destruct (read_huffman b2) as [[[hl hd] b3]| |]; [|done..]. cbn [mbind dres_bind]. apply huff_block_fuel. lia.
Qed.
Theorem inflate_total x : inflate_run x ≠ DFuel.
Proof. apply blocks_fuel. lia. Qed.
Print Assumptions inflate_total.

(** ** how much comes out: at most 1032 times as much, since a copy of 258 bytes takes two bits *)
Lemma coded_nonempty lens first rows v w : coded lens first rows v w → (1 ≤ length w)%nat.
Proof. intros (i & base & n & w1 & e & _ & (H & _) & _ & _ & ->). rewrite app_length. destruct w1; [done|cbn; lia]. Qed.
Lemma items_ratio L D out out' w : items L D out out' w → Z.of_nat (length out') ≤ Z.of_nat (length out) + 129 * Z.of_nat (length w).
Proof.
  induction 1 as [out w Hw|it out out1 out2 w1 w2 Hi Ha _ IH]; [lia|]. rewrite app_length. assert (Z.of_nat (length out1) ≤ Z.of_nat (length out) + 129 * Z.of_nat (length w1)); [|lia]. destruct it as [c|len dist]; cbn [item_bits adds] in Hi, Ha.
  - destruct Hi as (_ & H & _). subst out1. rewrite app_length. destruct w1; [done|]. cbn. lia.
  - destruct Hi as (a & b & Hl & Hd & ->), Ha as (_ & _ & -> & _). apply coded_nonempty in Hd. assert (len ≤ 258). { destruct Hl as (i & base & n & u & e & Hr & _ & He & -> & _). apply len_rows_pos in Hr. pose proof (num_range e). rewrite He in *. lia. } apply coded_nonempty in Hl. rewrite app_length. lia.
Qed.
Lemma block_ratio pos out out' w : block pos out out' w → Z.of_nat (length out') ≤ Z.of_nat (length out) + 129 * Z.of_nat (length w).
Proof.
  destruct 1 as [pad n nn data _ _ _ _ _ ->|w Hi|L D w1 w2 _ Hi]; rewrite ?app_length, ?bind_length; cbn [length]; [|apply items_ratio in Hi..]; lia.
Qed.
Lemma stream_ratio pos out out' w : stream pos out out' w → Z.of_nat (length out') ≤ Z.of_nat (length out) + 129 * Z.of_nat (length w).
Proof. induction 1 as [pos out out' w Hb|pos out out1 out' w1 w2 Hb _ IH]; apply block_ratio in Hb; cbn [length]; rewrite ?app_length; lia. Qed.
Theorem inflate_ratio x d : inflate x = Some d → Z.of_nat (length d) ≤ 1032 * Z.of_nat (length x).
Proof.
  intros (w & r & Hw & Hs)%inflate_rfc1951. apply stream_ratio in Hs. pose proof (bind_length x) as Hl. rewrite Hw, app_length in Hl. cbn in Hs. lia.
Qed.
Print Assumptions inflate_ratio.

(** ** the codes a block may announce can be read in one way only, and a complete set leaves no text unread *)
Theorem huffman_rules lens : usable lens → (∀ s t w v, code_of lens s w → code_of lens t (w ++ v) → s = t ∧ v = []) ∧
  (∀ s n, lens !! s = Some n → n ≠ 0%nat → ∃ w, code_of lens s w ∧ length w = n) ∧ (full lens → ∀ b, length b = 15%nat → ∃ s w, code_of lens s w ∧ w `prefix_of` b).
Proof.
  intros Hu. split_and!.
  - intros s t w v H1 H2. pose proof (code_prefix _ _ _ _ _ H2 H1) as ->. rewrite app_nil_r in H2. split; [by eapply code_fun|done].
  - intros s n Hs Hn. destruct (code_exists lens s n Hu Hs Hn) as [w Hw]. exists w. split; [done|]. destruct Hw as (_ & H & _). congruence.
  - intros Hf b Hb. destruct (full_decodes lens b) as (s & w & r & Hc & ->); [apply Hu|done|done|]. exists s, w. split; [done|]. by exists r.
Qed.
Print Assumptions huffman_rules.

(** ** some compressed text stands for every content: blocks that are not compressed *)
Definition le16 (n : Z) : gostr := [n mod 256; n / 256].
Definition stored (final : bool) (d : gostr) : gostr := let n := Z.of_nat (length d) in Z.b2z final :: le16 n ++ le16 (65535 - n) ++ d.
Fixpoint store_from (fuel : nat) (d : gostr) : gostr :=
  match fuel with
  | O => stored true d
  | S k => if Z.of_nat (length d) <=? 65535 then stored true d else stored false (take (Z.to_nat 65535) d) ++ store_from k (drop (Z.to_nat 65535) d)
  end.
Definition store (d : gostr) : gostr := store_from (length d) d.
Lemma num_app a b : num (a ++ b) = num a + 2 ^ Z.of_nat (length a) * num b.
Proof. induction a as [|c a IH]; [change (num b = 0 + 1 * num b); lia|]. cbn [app num foldr length]. change (foldr _ 0 (a ++ b)) with (num (a ++ b)). change (foldr _ 0 a) with (num a). rewrite IH, Nat2Z.inj_succ, Z.pow_succ_r by lia. lia. Qed.
Lemma le16_num n : 0 ≤ n < 65536 → is_num 16 n (le16 n ≫= byte_seq).
Proof.
  intros Hn. split; [by rewrite bind_length|]. unfold le16. cbn [mbind list_bind]. rewrite app_nil_r, num_app, !num_byte; [|split; [apply Z.div_pos; lia|apply Z.div_lt_upper_bound; lia]|apply Z.mod_pos_bound; lia]. rewrite byte_seq_length. change (2 ^ Z.of_nat 8) with 256. pose proof (Z.div_mod n 256). lia.
Qed.
Lemma stored_block pos final d out : pos mod 8 = 0 → Z.of_nat (length d) ≤ 65535 → Forall (λ c, 0 ≤ c < 256) d → ∃ w, stored final d ≫= byte_seq = final :: w ∧ block (pos + 1) out (out ++ d) w.
Proof.
  intros Hp Hl Hd. set (n := Z.of_nat (length d)) in *. exists ([false; false] ++ replicate 5 false ++ (le16 n ≫= byte_seq) ++ (le16 (65535 - n) ≫= byte_seq) ++ (d ≫= byte_seq)). split.
  - unfold stored. cbv zeta. fold n. change ((Z.b2z final :: ?r) ≫= byte_seq) with (byte_seq (Z.b2z final) ++ (r ≫= byte_seq)). rewrite !bind_app. destruct final; done.
  - apply block_stored; try done; [cbn; lia| |by apply le16_num; lia..]. rewrite replicate_length. change (Z.of_nat 5) with 5. replace (pos + 1 + 2 + 5) with (pos + 1 * 8) by lia. by rewrite Z.mod_add.
Qed.
Lemma store_from_ok fuel : ∀ pos d out, pos mod 8 = 0 → (length d ≤ fuel)%nat → Forall (λ c, 0 ≤ c < 256) d → stream pos out (out ++ d) (store_from fuel d ≫= byte_seq).
Proof.
  assert (Hlast : ∀ pos d out, pos mod 8 = 0 → Z.of_nat (length d) ≤ 65535 → Forall (λ c, 0 ≤ c < 256) d → stream pos out (out ++ d) (stored true d ≫= byte_seq)).
  { intros pos d out Hp Hl Hd. destruct (stored_block pos true d out Hp Hl Hd) as (w & -> & Hb). by constructor. }
  induction fuel as [|k IH]; intros pos d out Hp Hf Hd; cbn [store_from]; [apply Hlast; [done|lia|done]|]. destruct (Z.leb_spec (Z.of_nat (length d)) 65535) as [Hs|Hs]; [by apply Hlast|]. set (m := Z.to_nat 65535) in *. assert (Hm : Z.of_nat m = 65535) by (unfold m; lia). clearbody m.
  assert (Hlm : length (take m d) = m) by (rewrite take_length; lia). destruct (stored_block pos false (take m d) out Hp) as (w & Hw & Hb); [lia|by apply Forall_take|]. assert (Hwl : length (stored false (take m d) ≫= byte_seq) = S (length w)) by (by rewrite Hw). rewrite bind_length in Hwl.
  rewrite bind_app, Hw. cbn [app]. eapply stream_more; [exact Hb|]. rewrite <- (take_drop m d) at 2. rewrite app_assoc. apply IH; [|rewrite drop_length; lia|by apply Forall_drop].
  replace (pos + 1 + Z.of_nat (length w)) with (pos + Z.of_nat (length (stored false (take m d))) * 8) by lia. by rewrite Z.mod_add.
Qed.
Theorem every_content_compresses d : Forall (λ c, 0 ≤ c < 256) d → stands_for (store d) d ∧ Forall (λ c, 0 ≤ c < 256) (store d) ∧ (length (store d) ≤ 2 * length d + 5)%nat.
Proof.
  intros Hd. split_and!.
  - exists (store d ≫= byte_seq), []. split; [by rewrite app_nil_r|]. by apply (store_from_ok _ 0 d []).
  - unfold store. assert (H : ∀ fuel d, (length d ≤ fuel)%nat → Forall (λ c, 0 ≤ c < 256) d → Forall (λ c, 0 ≤ c < 256) (store_from fuel d)); [|by apply H]. clear.
    assert (Hst : ∀ f d, Z.of_nat (length d) ≤ 65535 → Forall (λ c, 0 ≤ c < 256) d → Forall (λ c, 0 ≤ c < 256) (stored f d)).
    { intros f d Hl Hd. unfold stored, le16. cbn [app]. repeat (apply Forall_cons; split); try done; try (apply Z.mod_pos_bound; lia); try (split; [apply Z.div_pos; lia|apply Z.div_lt_upper_bound; lia]). destruct f; cbn; lia. }
    induction fuel as [|k IH]; intros d Hl Hd; cbn [store_from]; [apply Hst; [lia|done]|]. destruct (Z.leb_spec (Z.of_nat (length d)) 65535); [by apply Hst|]. set (m := Z.to_nat 65535) in *. assert (Hm : Z.of_nat m = 65535) by (unfold m; lia). clearbody m. apply Forall_app. split; [apply Hst; [rewrite take_length; lia|by apply Forall_take]|]. apply IH; [rewrite drop_length; lia|by apply Forall_drop].
  - unfold store. assert (H : ∀ fuel d, (length d ≤ fuel)%nat → (length (store_from fuel d) ≤ 2 * length d + 5)%nat); [|by apply H]. clear.
    assert (Hst : ∀ f d, length (stored f d) = (5 + length d)%nat) by (intros; done). induction fuel as [|k IH]; intros d Hl; cbn [store_from]; [rewrite Hst; lia|]. destruct (Z.leb_spec (Z.of_nat (length d)) 65535); [rewrite Hst; lia|]. set (m := Z.to_nat 65535) in *. assert (Hm : Z.of_nat m = 65535) by (unfold m; lia). clearbody m. rewrite app_length, Hst, take_length. specialize (IH (drop m d)). rewrite drop_length in IH. lia.
Qed.
Print Assumptions every_content_compresses.

(** what zlib makes of texts: fixed codes with a copy, own codes, no compression; a wrong bit, an end that is
    missing; a distance before the beginning *)
Definition own_codes : gostr := [5; 193; 1; 1; 0; 0; 0; 130; 160; 173; 216; 255; 15; 129; 182; 193; 200; 96; 180; 137; 38; 80; 68; 50; 66; 230].
Example inflate_case : inflate [203; 72; 205; 201; 201; 87; 200; 64; 39; 21; 1] = Some (str "hello hello hello hello!") ∧ inflate own_codes = Some (str "abcccaaaacaabacaaaacaabccabaabcabaaaaabbaabaababacaabaaabaca") ∧
  inflate [1; 5; 0; 250; 255; 104; 101; 108; 108; 111; 99] = Some (str "hello") ∧ inflate (<[4%nat := Z.lxor 8 (nth 4 own_codes 0)]> own_codes) = None ∧ inflate (take 25 own_codes) = None ∧ inflate [] = None ∧
  inflate [99; 0; 2; 0] = Some [0; 0; 0; 0] ∧ inflate [99; 0; 66; 0] = None ∧ inflate (store (str "kept")) = Some (str "kept").
Proof. split_and!; by vm_compute. Qed.
(** six symbols: a complete set with codes of 1, 2, 3, 4, 5 and 5 bits; a set with two codes of two bits and none
    else is not usable, one code of one bit is *)
Example huffman_rules_case : usable [2; 5; 1; 3; 5; 4]%nat ∧ full [2; 5; 1; 3; 5; 4]%nat ∧ code_of [2; 5; 1; 3; 5; 4]%nat 4 [true; true; true; true; true] ∧ code_of [2; 5; 1; 3; 5; 4]%nat 0 [true; false] ∧ ¬ usable [2; 2; 0]%nat ∧ usable [0; 1]%nat.
Proof.
  assert (Hf : full [2; 5; 1; 3; 5; 4]%nat) by (by vm_compute). split_and!; try done.
  - split; [repeat (apply Forall_cons; split; [lia|]); constructor|by left].
  - intros [_ [H|[(s & H1 & _)|H]]]; [by vm_compute in H| |by inversion H]. do 3 (destruct s as [|s]; [done|]). done.
  - split; [repeat (apply Forall_cons; split; [lia|]); constructor|right; left]. exists 1%nat. split; [done|]. intros [|[|t]] n Hn Ht; [by injection Hn|done|done].
Qed.
