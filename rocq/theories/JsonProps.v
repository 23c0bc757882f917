(** * Theorems about the JSON helpers (C85, C86, C87) *)
From stdpp Require Import gmap sorting.
From Verif Require Import GoBase GoStr ConvModel ConvSpec ConvProps JsonModel JsonSpec JsonProofs JsonDec JsonEnc.
Local Open Scope Z_scope.

(** ** C85: JsonStringToMap *)
(** the text of an object: the last member of every name, 0 for every value that is not an
    integer of 32 bits *)
Theorem json_to_map_exact : ∀ s ms, Forall byte s → json_text (JObj ms) s → Z.of_nat (depth (JObj ms)) ≤ 10000 →
  ∃ m, json_to_map s = Some m ∧ ∀ k n, m !! k = Some n ↔ ∃ v, last_member ms k v ∧ (int32 v n ∨ n = 0 ∧ ∀ n', ¬ int32 v n').
Proof.
  intros s ms Hb Ht Hd. assert (parse s = Some (JObj ms)) as Hp. { apply parse_iff. split; [done|]. unfold max_depth. lia. }
  exists (dec_members ∅ ms). unfold json_to_map. rewrite Hp. split; [done|]. intros k n. rewrite dec_members_iff by (by eapply object_chars). split; intros (v & Hl & Hv); exists v; (split; [done|]).
  - destruct (int32_dec v) as [[n' Hn']|Hn]; [left; rewrite (dec_int32_ok _ _ Hn') in Hv; by subst|]. rewrite (dec_int32_bad _ Hn) in Hv. by right.
  - destruct Hv as [Hv|[-> Hv]]; [by apply dec_int32_ok|by apply dec_int32_bad].
Qed.
(** if all values are integers of 32 bits, the map holds exactly what the object holds *)
Theorem json_to_map_partial : ∀ s ms, Forall byte s → json_text (JObj ms) s → Z.of_nat (depth (JObj ms)) ≤ 10000 → (∀ raw v, (raw, v) ∈ ms → ∃ n, int32 v n) →
  ∃ m, json_to_map s = Some m ∧ holds m ms.
Proof.
  intros s ms Hb Ht Hd Hi. destruct (json_to_map_exact s ms Hb Ht Hd) as (m & Hm & H). exists m. split; [done|]. intros k n. rewrite H. split; intros (v & Hl & Hv); exists v; (split; [done|]); [|by left].
  destruct Hv as [Hv|[_ Hv]]; [done|]. destruct Hl as (a & raw & b & -> & _). destruct (Hi raw v) as [n' Hn']; [apply elem_of_app; right; by left|]. by edestruct Hv.
Qed.
(** any other text gives nil *)
Theorem json_to_map_nil : ∀ s, (∀ ms, json_text (JObj ms) s → ¬ Z.of_nat (depth (JObj ms)) ≤ 10000) → json_to_map s = None.
Proof.
  intros s H. unfold json_to_map. destruct (parse s) as [[| | | | |ms]|] eqn:E; try done. apply parse_iff in E as [Ht Hd]. destruct (H ms Ht). unfold max_depth in Hd. lia.
Qed.
(** values of other types and integers that are too large come out as 0; nothing tells them
    from zeros *)
Lemma json_mixed_text : json_text (JObj [(str "a", JStr (str "7")); (str "b", JNum (str "3000000000")); (str "c", JNum (str "2.0"))]) (str "{""a"":""7"",""b"":3000000000,""c"":2.0}").
Proof. apply (proj1 (parse_iff _ _)). by vm_compute. Qed.
Theorem json_to_map_refuted : ∃ s ms m, Forall byte s ∧ json_text (JObj ms) s ∧ json_to_map s = Some m ∧ ¬ holds m ms ∧ (∀ raw v n, (raw, v) ∈ ms → ¬ int32 v n) ∧
  json_to_map s = json_to_map (str "{""a"":0,""b"":0,""c"":0}").
Proof.
  eexists _, _, (dec_members ∅ [(str "a", JNum (str "0")); (str "b", JNum (str "0")); (str "c", JNum (str "0"))]). split; [|split; [apply json_mixed_text|]]; [apply str_bytes|].
  assert (HN : ∀ raw v n, (raw, v) ∈ [(str "a", JStr (str "7")); (str "b", JNum (str "3000000000")); (str "c", JNum (str "2.0"))] → ¬ int32 v n).
  { intros raw v n Hin Hi. assert (is_i64 n) as Hn by (destruct Hi as (? & _ & _ & ?); unfold is_i64; lia). destruct Hi as (lit & -> & Hd & Hr). assert (parse_int lit = Some n) as Hp by (by apply parse_int_ok).
    rewrite !elem_of_cons, elem_of_nil in Hin. destruct_or! Hin; try done; injection Hin as -> ->; vm_compute in Hp; [injection Hp as <-; lia|done]. }
  split_and!; [by vm_compute| |done|by vm_compute]. intros Hh. destruct (proj1 (Hh (str "a") 0)) as (v & (a & raw & b & E & _) & Hi); [by vm_compute|]. apply (HN raw v 0); [rewrite E; apply elem_of_app; right; by left|done].
Qed.
Example json_to_map_cases : json_to_map (str "[1]") = None ∧ json_to_map (str "{""a"":1") = None ∧ json_to_map (str "null") = None ∧ map_to_list <$> json_to_map (str "{}") = Some [] ∧
  map_to_list <$> json_to_map (str " {""k"":1, ""k"" : -2147483648}") = Some [(str "k", -2147483648)].
Proof. by vm_compute. Qed.

(** ** C86: the round trip *)
Lemma before_irrefl a : ¬ before a a.
Proof. induction a as [|x a IH]; intros H; inversion H; subst; [lia|by apply IH]. Qed.
Lemma sorted_split a x b : StronglySorted before (a ++ x :: b) → (∀ y, y ∈ a → before y x) ∧ ∀ y, y ∈ b → before x y.
Proof.
  induction a as [|y a IH]; cbn [app]; intros H; apply StronglySorted_inv in H as [H1 H2].
  - rewrite Forall_forall in H2. split; [intros y Hy; by apply elem_of_nil in Hy|done].
  - destruct (IH H1) as [H3 H4]. rewrite Forall_forall in H2. split; [|done]. intros z [->|Hz]%elem_of_cons; [|by apply H3]. apply H2, elem_of_app. right; by left.
Qed.
(** what comes back: keys with the bytes that are not UTF-8 replaced; of keys that become equal
    the last in the order of the keys wins *)
Theorem json_round_trip_exact : ∀ (m : gmap gostr Z), (∀ k n, m !! k = Some n → Forall byte k ∧ - 2 ^ 31 ≤ n < 2 ^ 31) →
  ∃ m', json_to_map (map_int_to_json (Some m)) = Some m' ∧
  ∀ k n, m' !! k = Some n ↔ ∃ k0, m !! k0 = Some n ∧ utf8 k0 = k ∧ ∀ k1, is_Some (m !! k1) → utf8 k1 = k → k1 = k0 ∨ before k1 k0.
Proof.
  intros m Hm. set (l := map (λ p, (p.1, VInt p.2)) (map_to_list m)). assert (Hk : l.*1 = (map_to_list m).*1) by (unfold l; clear; generalize (map_to_list m) as x; induction x as [|p x IH]; [done|]; cbn [map]; rewrite !fmap_cons; by f_equal).
  assert (Hl : ∀ k v, (k, v) ∈ l ↔ ∃ n, v = VInt n ∧ m !! k = Some n).
  { intros k v. unfold l. rewrite elem_of_list_In, in_map_iff. split.
    - intros ([k' n] & [= <- <-] & Hin). apply elem_of_list_In, elem_of_map_to_list in Hin. eauto.
    - intros (n & -> & Hin). exists (k, n). split; [done|]. apply elem_of_list_In. by apply elem_of_map_to_list. }
  assert (Hg : go_value (VMap l)).
  { cbn [go_value]. split_and!.
    - rewrite Hk. apply NoDup_fst_map_to_list.
    - apply Forall_forall. intros k Hin. apply elem_of_list_fmap in Hin as ([k' v] & -> & Hin). apply Hl in Hin as (n & -> & Hin). by apply Hm in Hin as [? _].
    - rewrite Forall_id_map. apply Forall_forall. intros [k v] Hin. apply Hl in Hin as (n & -> & Hin). apply Hm in Hin as [_ Hin]. cbn. unfold is_i64. lia. }
  destruct (enc_total (VMap l)) as [t Ht].
  { intros Hbad. inversion Hbad as [| |k v m0 Hin Hv]; subst. apply Hl in Hin as (n & -> & _). inversion Hv. }
  destruct (enc_ok _ t Hg Ht) as (j & Hj & He & Hp). assert (map_int_to_json (Some m) = t) as -> by (unfold map_int_to_json, to_json; fold l; by rewrite Ht).
  inversion He as [| | | | |m0 m' ms Hpm Hst HF]; subst. clear He.
  assert (HD : Z.of_nat (depth (JObj ms)) ≤ 10000).
  { cbn [depth]. assert (list_max (map (λ p, depth p.2) ms) = 0%nat) as ->; [|lia]. assert (∀ p, p ∈ m' → ∃ n, p.2 = VInt n) as Hin by (intros [k v] Hin; rewrite Hpm in Hin; apply Hl in Hin as (n & -> & _); by exists n). clear - HF Hin. induction HF as [|p q m' ms (_ & Hq) _ IH]; [done|].
    cbn [map list_max]. destruct (Hin p) as [n Hn]; [by left|]. rewrite Hn in Hq. inversion Hq; subst. cbn. apply IH. intros p' Hp'. apply Hin. by right. }
  assert (HB : Forall byte t) by (eapply Forall_impl; [exact Hp|]; intros c; unfold plain, byte; lia).
  assert (HT : json_text (JObj ms) t) by (exists [], t, []; split_and!; [by rewrite app_nil_r|constructor|done|constructor]).
  pose proof (object_chars _ _ HT HB) as Hch. destruct (json_to_map_exact t ms HB HT HD) as (m2 & Hm2 & Hx). exists m2. split; [done|].
  assert (Hsp : ∀ raw v k k', (raw, v) ∈ ms → spells raw k → spells raw k' → k = k').
  { intros raw v k k' Hin H1 H2. destruct (Hch _ _ Hin). apply spells_iff in H1 as ->; [|done..]. by apply spells_iff in H2 as ->. }
  intros k n. rewrite Hx. clear Hx Hm2. split.
  - intros (v & (a & raw & b & -> & Hs & Hb) & Hv). apply Forall2_app_inv_r in HF as (a' & pb & HFa & HFp & ->). inversion HFp as [|[k0 v0] q b' ? [Hs0 He0] HFb]; subst. cbn [fst snd] in *.
    assert ((k0, v0) ∈ l) as Hin by (rewrite <- Hpm; apply elem_of_app; right; by left). apply Hl in Hin as (n0 & -> & Hn0). inversion He0 as [| |z lit Hdec| | |]; subst.
    assert (int32 (JNum lit) n0) as Hi by (exists lit; split_and!; [done|done|apply (Hm k0 n0 Hn0)|apply (Hm k0 n0 Hn0)]).
    assert (n = n0) as -> by (destruct Hv as [Hv|[_ Hv]]; [by eapply int32_fun|by edestruct Hv]). assert (utf8 k0 = k) as <- by (eapply Hsp; [|done|done]; apply elem_of_app; right; by left). exists k0. split_and!; [done|done|].
    intros k1 [n1 Hk1] Hu. rewrite fmap_app, fmap_cons in Hst. apply sorted_split in Hst as [Hst1 Hst2]. assert ((k1, VInt n1) ∈ a' ++ (k0, VInt n0) :: b') as Hin by (rewrite Hpm; apply Hl; eauto).
    apply elem_of_app in Hin as [Hin|[[= -> ->]|Hin]%elem_of_cons]; [right; apply Hst1, elem_of_list_fmap; by exists (k1, VInt n1)|by left|]. exfalso.
    apply elem_of_list_lookup in Hin as [i Hi1]. destruct (Forall2_lookup_l _ _ _ _ _ HFb Hi1) as ([raw1 v1] & Hi2 & Hs1 & _). cbn [fst snd] in *. eapply (Hb raw1 v1); [by eapply elem_of_list_lookup_2|]. by rewrite <- Hu.
  - intros (k0 & Hk0 & <- & Hmax). assert ((k0, VInt n) ∈ m') as Hin by (rewrite Hpm; apply Hl; eauto). apply elem_of_list_split in Hin as (a' & b' & ->). apply Forall2_app_inv_l in HF as (a & pb & HFa & HFp & ->). inversion HFp as [|? [raw v] ? b [Hs0 He0] HFb]; subst. cbn [fst snd] in *.
    inversion He0 as [| |z lit Hdec| | |]; subst. exists (JNum lit). split; [|left; exists lit; split_and!; [done|done|apply (Hm k0 n Hk0)|apply (Hm k0 n Hk0)]]. exists a, raw, b. split_and!; [done|done|].
    intros raw1 v1 Hin Hs1. apply elem_of_list_lookup in Hin as [i Hi1]. destruct (Forall2_lookup_r _ _ _ _ _ HFb Hi1) as ([k1 v2] & Hi2 & Hs2 & _). cbn [fst snd] in *.
    assert (utf8 k1 = utf8 k0) as Hu by (eapply (Hsp raw1 v1); [apply elem_of_app; right; right; by eapply elem_of_list_lookup_2|done|done]).
    rewrite fmap_app, fmap_cons in Hst. apply sorted_split in Hst as [_ Hst2]. assert (before k0 k1) as Hb by (apply Hst2, elem_of_list_fmap; exists (k1, v2); split; [done|by eapply elem_of_list_lookup_2]).
    assert (is_Some (m !! k1)) as Hk1. { assert ((k1, v2) ∈ l) as Hin by (rewrite <- Hpm; apply elem_of_app; right; right; by eapply elem_of_list_lookup_2). apply Hl in Hin as (n1 & _ & Hn1). eauto. }
    destruct (Hmax k1 Hk1 Hu) as [->|Hb2]; [by eapply before_irrefl|]. eapply (before_irrefl k0), before_trans; done.
Qed.
(** keys that are UTF-8: the map comes back *)
Theorem json_round_trip : ∀ (o : option (gmap gostr Z)), (∀ m k n, o = Some m → m !! k = Some n → (∃ rs, Forall (λ c, valid_rune c = true) rs ∧ k = of_runes rs) ∧ - 2 ^ 31 ≤ n < 2 ^ 31) →
  json_to_map (map_int_to_json o) = o.
Proof.
  intros [m|] H; [|by vm_compute]. destruct (json_round_trip_exact m) as (m' & -> & Hx).
  { intros k n Hk. destruct (H m k n eq_refl Hk) as [(rs & Hrs & ->) Hn]. split; [|done]. clear - Hrs. induction Hrs as [|c rs Hc _ IH]; [constructor|]. rewrite of_runes_cons. apply Forall_app. split; [apply encode_bytes|done]. }
  assert (Hu : ∀ k, is_Some (m !! k) → utf8 k = k). { intros k [n Hk]. destruct (H m k n eq_refl Hk) as [(rs & Hrs & ->) _]. unfold utf8. by rewrite runes_of_runes_nil. }
  f_equal. apply map_eq. intros k. apply option_eq. intros n. rewrite Hx. split.
  - intros (k0 & Hk0 & <- & _). by rewrite Hu by eauto.
  - intros Hk. exists k. split_and!; [done|apply Hu; eauto|]. intros k1 H1 E. left. by rewrite <- E, Hu.
Qed.
(** other keys change, and entries are lost *)
Theorem json_round_trip_refuted : ∃ m : gmap gostr Z, (∀ k n, m !! k = Some n → Forall byte k ∧ - 2 ^ 31 ≤ n < 2 ^ 31) ∧ size m = 2%nat ∧ ∃ m', json_to_map (map_int_to_json (Some m)) = Some m' ∧ size m' = 1%nat ∧ m' ≠ m ∧ ∀ k, is_Some (m !! k) → m' !! k = None.
Proof.
  exists (<[[255] := 1]> {[ [254] := 2 ]}). split_and!; [|by vm_compute|].
  - intros k n. rewrite lookup_insert_Some, lookup_singleton_Some. intros [[<- <-]|[_ [<- <-]]]; (split; [repeat constructor; unfold byte; lia|lia]).
  - eexists. split; [by vm_compute|]. split_and!; [by vm_compute| |].
    + intros E. apply (f_equal (.!! [255])) in E. by vm_compute in E.
    + intros k [n Hk]. rewrite lookup_insert_Some, lookup_singleton_Some in Hk. by destruct Hk as [[<- <-]|[_ [<- <-]]]; vm_compute.
Qed.
Example json_round_trip_case : map_int_to_json (Some (<[str "b" := 5]> {[ str "a""" := -1 ]})) = str "{""a\"""":-1,""b"":5}" ∧ map_int_to_json None = str "null" ∧ map_int_to_json (Some ∅) = str "{}".
Proof. by vm_compute. Qed.

(** ** C87: MapToJsonString and Map2JsonString *)
Theorem to_json_partial : ∀ v, go_value v → ¬ has_bad v → ∃ j, json_text j (to_json v) ∧ encodes v j.
Proof.
  intros v Hg Hb. destruct (enc_total v Hb) as [t Ht]. destruct (enc_ok v t Hg Ht) as (j & Hj & He & _). exists j. unfold to_json. rewrite Ht. split; [|done]. exists [], t, []. split_and!; [by rewrite app_nil_r|constructor|done|constructor].
Qed.
(** one line that is safe inside HTML *)
Theorem to_json_plain : ∀ v c, go_value v → c ∈ to_json v → 32 ≤ c < 256 ∧ c ≠ 38 ∧ c ≠ 60 ∧ c ≠ 62.
Proof.
  intros v c Hg Hc. unfold to_json in Hc. destruct (enc v) as [t|] eqn:Et; [|by apply elem_of_nil in Hc]. destruct (enc_ok v t Hg Et) as (j & _ & _ & Hp). rewrite Forall_forall in Hp. by apply Hp.
Qed.
Lemma not_json_empty v : ¬ json_text v [].
Proof. intros (w1 & t & w2 & E & _ & Ht & _). symmetry in E. apply app_eq_nil in E as [_ E]. apply app_eq_nil in E as [-> _]. by destruct (text_head _ _ Ht) as (? & ? & ? & _). Qed.
(** one value without a JSON form anywhere inside: nothing is returned, and that is not JSON *)
Theorem to_json_refuted : (∀ v, has_bad v → to_json v = []) ∧ (∀ j, ¬ json_text j []) ∧ ∃ m, go_value (VMap m) ∧ has_bad (VMap m) ∧ to_json (VMap m) = [] ∧ length m = 2%nat.
Proof.
  split_and!; [intros v Hv; unfold to_json; by rewrite enc_bad|apply not_json_empty|]. exists [(str "id", VInt 1); (str "f", VBad)]. split_and!; [| |by vm_compute|done].
  - cbn [go_value]. split_and!; [apply (bool_decide_unpack _); by vm_compute|constructor; [apply str_bytes|constructor; [apply str_bytes|constructor]]|repeat constructor; unfold is_i64; cbn; lia].
  - eapply (bad_map (str "f") VBad); [right; by left|constructor].
Qed.
Print Assumptions json_to_map_exact.
Print Assumptions json_to_map_partial.
Print Assumptions json_to_map_nil.
Print Assumptions json_to_map_refuted.
Print Assumptions json_round_trip_exact.
Print Assumptions json_round_trip.
Print Assumptions json_round_trip_refuted.
Print Assumptions to_json_partial.
Print Assumptions to_json_plain.
Print Assumptions to_json_refuted.
