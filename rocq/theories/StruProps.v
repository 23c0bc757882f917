(** * C120, C121: InsertToTable for structs *)
From stdpp Require Import gmap.
From Verif Require Import GoBase GoStr GormModel GormSpec GwrapModel StruModel StruSpec.
Local Open Scope Z_scope.

Lemma is_zero_unset x : is_zero x = true ↔ unset x.
Proof.
  unfold unset. destruct x as [[|z|s]|[v|]]; cbn [is_zero].
  - naive_solver.
  - rewrite Z.eqb_eq. split; [intros ->; by left|]. intros [H|[H|[H|H]]]; try discriminate. by injection H.
  - rewrite bool_decide_eq_true. split; [intros ->; by right; left|]. intros [H|[H|[H|H]]]; try discriminate. by injection H.
  - naive_solver.
  - naive_solver.
Qed.
Lemma is_zero_set x : is_zero x = false ↔ ¬ unset x.
Proof. rewrite <- is_zero_unset. by destruct (is_zero x). Qed.
Lemma set_same s c v : value_of (set_field s c v c) = v.
Proof. unfold set_field. rewrite decide_True by done. by destruct (s c). Qed.
Lemma set_other s c v d : d ≠ c → set_field s c v d = s d.
Proof. intros H. unfold set_field. by rewrite decide_False. Qed.
Lemma filter_in {A} (P Q : A → Prop) `{∀ x, Decision (P x), ∀ x, Decision (Q x)} (l : list A) : (∀ x, x ∈ l → P x ↔ Q x) → filter P l = filter Q l.
Proof.
  induction l as [|x l IH]; intros HPQ; [done|]. rewrite !filter_cons. rewrite IH by (intros y Hy; apply HPQ; by right). specialize (HPQ x (elem_of_list_here _ _)). repeat case_decide; tauto.
Qed.
Lemma statement_tokens table v : statement table v = sstmt_tokens (match sv_cols v with [] => SNone table | cols => SRows table cols (sv_rows v) end).
Proof. unfold statement, build_svalues. by destruct (sv_cols v). Qed.

(** ** the values of the statement *)
Section fill.
  Context (now : gostr → val).
  Definition stored (f : sfield) (x : fval) : val :=
    if is_zero x then match f_def f with TagDefault v => v | _ => if f_time f then now (f_col f) else value_of x end else value_of x.
  Lemma fill_ok f s : ∃ s', fill now true f s = Ret (stored f (s (f_col f)), s') ∧ (∀ d, d ≠ f_col f → s' d = s d) ∧ value_of (s' (f_col f)) = stored f (s (f_col f)).
  Proof.
    unfold fill, stored. destruct (is_zero (s (f_col f))); [|by eexists]. destruct (f_def f) as [| |v]; [destruct (f_time f)|destruct (f_time f)|]; (eexists; split; [by rewrite ?set_same|]); (split; [intros d Hd; by rewrite ?set_other|by rewrite ?set_same]).
  Qed.
  Lemma fill_all_ok fs : NoDup (f_col <$> fs) → ∀ s, ∃ s', fill_all now true fs s = Ret ((λ f, stored f (s (f_col f))) <$> fs, s') ∧ (∀ d, d ∉ f_col <$> fs → s' d = s d) ∧ ∀ f, f ∈ fs → value_of (s' (f_col f)) = stored f (s (f_col f)).
  Proof.
    induction fs as [|f fs IH]; intros Hnd s; [exists s; split_and!; [done..|]; by intros f ?%elem_of_nil|]. cbn [fmap list_fmap] in Hnd. apply NoDup_cons in Hnd as [Hf Hnd]. cbn [fill_all]. destruct (fill_ok f s) as (s1 & -> & H1 & V1). cbn [mbind go_bind].
    assert (E1 : ∀ g, g ∈ fs → s1 (f_col g) = s (f_col g)). { intros g Hg. apply H1. intros E. apply Hf. rewrite <- E. by apply elem_of_list_fmap_1. }
    destruct (IH Hnd s1) as (s2 & -> & H2 & V2). cbn [mbind go_bind]. exists s2. split_and!.
    - cbn [fmap list_fmap]. do 3 f_equal. apply list_fmap_ext. intros i g Hg. f_equal. apply E1. by eapply elem_of_list_lookup_2.
    - intros d Hd. cbn [fmap list_fmap] in Hd. apply not_elem_of_cons in Hd as [Hd1 Hd2]. rewrite H2 by done. by apply H1.
    - intros g [->|Hg]%elem_of_cons; [by rewrite H2|]. rewrite V2 by done. by rewrite E1.
  Qed.
  (** a struct that is not addressable *)
  Definition no_set (fs : list sfield) (s : structv) : Prop := ∀ f, f ∈ fs → is_zero (s (f_col f)) = true → f_time f = false ∧ ∀ v, f_def f ≠ TagDefault v.
  Lemma fill_value f s : no_set [f] s → fill now false f s = fill now true f s ∧ ∀ v s', fill now false f s = Ret (v, s') → s' = s.
  Proof.
    intros H. unfold fill. destruct (is_zero (s (f_col f))) eqn:Ez; [|split; [done|by intros v s' [= <- <-]]]. destruct (H f (elem_of_list_here _ _) Ez) as [Ht Hd]. rewrite Ht.
    destruct (f_def f) as [| |v]; [| |by destruct (Hd v)]; (split; [done|by intros v s' [= <- <-]]).
  Qed.
  Lemma fill_all_value fs s : no_set fs s → fill_all now false fs s = fill_all now true fs s ∧ ∀ v s', fill_all now false fs s = Ret (v, s') → s' = s.
  Proof.
    induction fs as [|f fs IH]; intros H; [split; [done|by intros v s' [= <- <-]]|]. cbn [fill_all]. destruct (fill_value f s) as [E1 E2]. { intros g Hg. apply H. apply elem_of_list_singleton in Hg as ->. by left. }
    rewrite <- E1. destruct (fill now false f s) as [[v s1]|p|] eqn:Ef; cbn [mbind go_bind]; [|done..]. rewrite (E2 _ _ eq_refl). destruct IH as [I1 I2]. { intros g Hg. apply H. by right. }
    rewrite <- I1. destruct (fill_all now false fs s) as [[vs s2]|p|] eqn:Ea; cbn [mbind go_bind]; [|done..]. split; [done|]. intros w s' [= <- <-]. by eapply I2.
  Qed.
  Lemma fill_panic f s : is_zero (s (f_col f)) = true → f_def f ≠ DbDefault → f_time f = true ∨ (∃ v, f_def f = TagDefault v) → fill now false f s = Panic unaddressable.
  Proof. intros Hz Hn H. unfold fill. rewrite Hz. destruct (f_def f) as [| |v]; [|done|done]; (destruct H as [->|[v H]]; [done|discriminate]). Qed.
  Lemma fill_all_panic fs s : Forall (λ f, f_def f ≠ DbDefault) fs → ¬ no_set fs s → fill_all now false fs s = Panic unaddressable.
  Proof.
    induction fs as [|f fs IH]; intros Hdb H. { exfalso. apply H. intros f Hf. by apply elem_of_nil in Hf. } inversion Hdb as [|?? Hd1 Hd2]; subst. cbn [fill_all].
    destruct (is_zero (s (f_col f))) eqn:Ez.
    - destruct (f_time f) eqn:Et. { rewrite fill_panic; [done|done|done|by left]. } destruct (f_def f) as [| |v] eqn:Ed; [| |rewrite fill_panic; [done|done|by rewrite Ed|right; by eauto]]; [|done].
      unfold fill. rewrite Ez, Ed, Et. cbn [mbind go_bind]. rewrite IH; [done|done|]. intros Hn. apply H. intros g [->|Hg]%elem_of_cons Hz; [|by apply Hn]. rewrite Ed. split; [done|]. by intros w.
    - unfold fill. rewrite Ez. cbn [mbind go_bind]. rewrite IH; [done|done|]. intros Hn. apply H. intros g [->|Hg]%elem_of_cons Hz; [congruence|by apply Hn].
  Qed.
End fill.

Section values.
  Context (sc : schema) (now : gostr → val) (table : gostr).
  Notation pf := (plain_fields sc). Notation dd := (sc_dbdef sc).
  Context (Hnd : NoDup ((f_col <$> pf) ++ dd)).
  Lemma nd_plain : NoDup (f_col <$> pf). Proof. by apply NoDup_app in Hnd as (H & _ & _). Qed.
  Lemma nd_not c : c ∈ dd → c ∉ f_col <$> pf. Proof. apply NoDup_app in Hnd as (_ & H & _). intros Hc Hp. by apply (H c). Qed.
  Definition plain_row_of (s : structv) : list val := (λ f, stored now f (s (f_col f))) <$> pf.
  Definition same_late (s s' : structv) : Prop := (∀ d, d ∉ f_col <$> pf → s' d = s d) ∧ ∀ f, f ∈ pf → value_of (s' (f_col f)) = stored now f (s (f_col f)).
  Lemma fill_rows_ok ss : ∃ ss', fill_rows sc now true (Some <$> ss) = Ret (plain_row_of <$> ss, Some <$> ss', true) ∧ Forall2 same_late ss ss'.
  Proof.
    induction ss as [|s ss (ss' & IH & HF)]; [by exists []|]. cbn [fmap list_fmap fill_rows]. destruct (fill_all_ok now pf nd_plain s) as (s' & -> & Hs). cbn [mbind go_bind].
    change (list_fmap _ _ Some ss) with (Some <$> ss). rewrite IH. cbn [mbind go_bind]. exists (s' :: ss'). split; [done|]. by constructor.
  Qed.
  Lemma omap_some {A} (l : list A) : omap id (Some <$> l) = l.
  Proof. induction l as [|x l IH]; [done|]. cbn. f_equal. exact IH. Qed.
  Lemma has_value_same s s' c : same_late s s' → c ∈ dd → has_value s' c = has_value s c ∧ s' c = s c.
  Proof. intros [H _] Hc. unfold has_value. rewrite (H c) by by apply nd_not. done. Qed.
  Lemma late_same ss ss' : Forall2 same_late ss ss' → set_somewhere sc ss' = set_somewhere sc ss.
  Proof.
    intros H. unfold set_somewhere. apply filter_in. intros c Hc. induction H as [|s s' ss ss' Hs _ IH]; [done|]. cbn [existsb]. rewrite (proj1 (has_value_same s s' c Hs Hc)). destruct (has_value s c); [done|exact IH].
  Qed.
  Definition cell_for (s : structv) (c : gostr) : cell := if has_value s c then CVal (value_of (s c)) else CDefault.
  Definition row_cells (late : list gostr) (s : structv) : list cell := (CVal <$> plain_row_of s) ++ (cell_for s <$> late).
  Lemma values_ok ss ss' : Forall2 same_late ss ss' → values_for sc (plain_row_of <$> ss) ss' = SValues ((f_col <$> pf) ++ set_somewhere sc ss) (row_cells (set_somewhere sc ss) <$> ss).
  Proof.
    intros H. unfold values_for. rewrite (late_same ss ss') by done. f_equal. assert (Hl : ∀ c, c ∈ set_somewhere sc ss → c ∈ dd) by (intros c [_ Hc]%elem_of_list_filter; done).
    set (late := set_somewhere sc ss) in *. clearbody late. induction H as [|s s' ss ss' Hs _ IH]; [done|]. cbn [fmap list_fmap zip_with]. f_equal; [|exact IH]. unfold row_cells. f_equal. unfold late_cells. apply list_fmap_ext. intros i c Hc. apply elem_of_list_lookup_2, Hl in Hc.
    destruct (has_value_same s s' c Hs Hc) as [E1 E2]. unfold cell_for. by rewrite E1, E2.
  Qed.
  (** the cell of each column *)
  Definition at_col (fs : list sfield) (c : gostr) : option sfield := head (filter (λ f, f_col f = c) fs).
  Lemma at_col_some fs c f : at_col fs c = Some f → f ∈ fs ∧ f_col f = c.
  Proof.
    unfold at_col. destruct (filter _ fs) as [|g l] eqn:E; [done|]. intros [= <-]. assert (H : g ∈ filter (λ f, f_col f = c) fs) by (rewrite E; by left). by apply elem_of_list_filter in H as [? ?].
  Qed.
  Lemma at_col_in fs f : NoDup (f_col <$> fs) → f ∈ fs → at_col fs (f_col f) = Some f.
  Proof.
    unfold at_col. induction fs as [|g fs IH]; intros Hd Hf; [by apply elem_of_nil in Hf|]. cbn [fmap list_fmap] in Hd. apply NoDup_cons in Hd as [Hg Hd]. rewrite filter_cons.
    apply elem_of_cons in Hf as [->|Hf]; [by rewrite decide_True|]. rewrite decide_False; [by apply IH|]. intros E. apply Hg. rewrite E. by apply elem_of_list_fmap_1.
  Qed.
  Lemma at_col_none fs c : at_col fs c = None ↔ c ∉ f_col <$> fs.
  Proof.
    split.
    - intros E Hc. apply elem_of_list_fmap in Hc as (f & -> & Hf). unfold at_col in E. destruct (filter _ fs) as [|g l] eqn:El; [|done]. assert (X : f ∈ filter (λ g, f_col g = f_col f) fs) by (by apply elem_of_list_filter). rewrite El in X. by apply elem_of_nil in X.
    - intros Hc. destruct (at_col fs c) as [f|] eqn:E; [|done]. apply at_col_some in E as [Hf <-]. destruct Hc. by apply elem_of_list_fmap_1.
  Qed.
  Definition col_cell (s : structv) (c : gostr) : cell := match at_col pf c with Some f => CVal (stored now f (s c)) | None => cell_for s c end.
  Lemma row_cells_eq late s : (∀ c, c ∈ late → c ∈ dd) → row_cells late s = col_cell s <$> ((f_col <$> pf) ++ late).
  Proof.
    intros Hl. rewrite fmap_app. unfold row_cells. f_equal.
    - unfold plain_row_of. rewrite <- !list_fmap_compose. apply Forall_fmap_ext_1, Forall_forall. intros f Hf. unfold compose, col_cell. by rewrite (at_col_in pf f nd_plain Hf).
    - apply list_fmap_ext. intros i c Hc. apply elem_of_list_lookup_2, Hl in Hc. unfold col_cell. by rewrite (proj2 (at_col_none pf c)) by by apply nd_not.
  Qed.
  Definition cell_meaning (d : option val) (c : cell) : option val := match c with CVal v => Some v | CDefault => d end.
  Lemma sadds_rows dflt cols (ss : list structv) (g : structv → gostr → cell) new : NoDup cols →
    sadds dflt (SRows table cols ((λ s, g s <$> cols) <$> ss)) new ↔
    length new = length ss ∧ ∀ i s r, ss !! i = Some s → new !! i = Some r → ∀ c, r !! c = if decide (c ∈ cols) then cell_meaning (dflt i !! c) (g s c) else dflt i !! c.
  Proof.
    intros Hc. cbn [sadds]. rewrite fmap_length. split.
    - intros (_ & Hl & H). split; [done|]. intros i s r Hs Hr c. destruct (H i (g s <$> cols) r) as (_ & H1 & H2 & H3); [by rewrite list_lookup_fmap, Hs|done|]. case_decide as Hd; [|by apply H3].
      apply elem_of_list_lookup in Hd as [j Hj]. destruct (g s c) as [v|] eqn:Eg; cbn [cell_meaning]; [apply (H1 j)|apply (H2 j)]; try done; by rewrite list_lookup_fmap, Hj; cbn; rewrite Eg.
    - intros [Hl H]. split_and!; [done..|]. intros i row r Hrow Hr. rewrite list_lookup_fmap in Hrow. destruct (ss !! i) as [s|] eqn:Es; [|done]. injection Hrow as <-. specialize (H i s r Es Hr). split_and!; [by rewrite fmap_length| | |].
      + intros j c v Hj Hv. rewrite list_lookup_fmap, Hj in Hv. injection Hv as Hv. rewrite H, decide_True by (by eapply elem_of_list_lookup_2). by rewrite Hv.
      + intros j c Hj Hv. rewrite list_lookup_fmap, Hj in Hv. injection Hv as Hv. rewrite H, decide_True by (by eapply elem_of_list_lookup_2). by rewrite Hv.
      + intros c Hd. by rewrite H, decide_False.
  Qed.
End values.


(** ** the schema *)
Section schema.
  Context (fs : list sfield) (pk : option gostr) (auto : bool) (inc : Z) (Hst : struct_type fs pk auto).
  Notation sc := (finish fs pk auto inc).
  Notation key := (auto_key pk auto).
  Definition plain_in (key : option gostr) (f : sfield) : Prop := is_db f = false ∧ key ≠ Some (f_col f).
  Global Instance plain_in_dec k f : Decision (plain_in k f).
  Proof. unfold plain_in. apply _. Defined.
  Lemma filter_keyed c (l : list sfield) : (∀ f v, f ∈ l → f_col f = c → f_def f ≠ TagDefault v) →
    filter (λ f, negb (is_db f)) ((λ f, if decide (f_col f = c) then has_default f else f) <$> l) = filter (plain_in (Some c)) l.
  Proof.
    induction l as [|f l IH]; intros Htag; [done|]. cbn [fmap list_fmap]. change (list_fmap _ _ ?h l) with (h <$> l). rewrite !filter_cons. rewrite IH by (intros g v Hg; apply Htag; by right).
    destruct (decide (f_col f = c)) as [E|E].
    - rewrite (decide_False (P := plain_in _ _)) by (intros [_ H]; congruence). rewrite decide_False; [done|]. intros H. apply negb_prop_elim in H. apply H.
      unfold has_default. destruct (f_def f) as [| |v] eqn:Ed; [done|by unfold is_db; rewrite Ed|]. by destruct (Htag f v (elem_of_list_here _ _) E).
    - destruct (is_db f) eqn:Ei.
      + rewrite (decide_False (P := plain_in _ _)) by (intros [H _]; congruence). by rewrite decide_False by (cbn; auto).
      + rewrite (decide_True (P := plain_in _ _)) by (split; congruence). by rewrite decide_True by (cbn; auto).
  Qed.
  Lemma filter_unkeyed (l : list sfield) : filter (λ f, negb (is_db f)) l = filter (plain_in None) l.
  Proof. apply filter_in. intros f _. unfold plain_in. destruct (is_db f); cbn; naive_solver. Qed.
  Lemma plain_spec : plain_fields sc = filter (plain_in key) fs.
  Proof.
    unfold plain_fields, finish, auto_key. destruct Hst as [_ _ Htag]. destruct pk as [c|]; [destruct auto|]; cbn [sc_fields]; try apply filter_unkeyed; [|by destruct auto; apply filter_unkeyed].
    apply filter_keyed. intros f v Hf E. apply Htag; [done|done|congruence].
  Qed.
  Lemma plain_from f : f ∈ plain_fields sc → f ∈ fs ∧ is_db f = false ∧ key ≠ Some (f_col f).
  Proof. rewrite plain_spec, elem_of_list_filter. unfold plain_in. naive_solver. Qed.
  Definition late_in (f : sfield) : Prop := f_def f = DbDefault ∨ key = Some (f_col f).
  Lemma db_cols (l : list sfield) c : c ∈ f_col <$> filter (λ f, is_db f) l ↔ ∃ f, f ∈ l ∧ f_col f = c ∧ f_def f = DbDefault.
  Proof.
    rewrite elem_of_list_fmap. setoid_rewrite elem_of_list_filter. unfold is_db. split.
    - intros (f & -> & Hd & Hf). exists f. split_and!; [done..|]. by destruct (f_def f).
    - intros (f & Hf & <- & Hd). exists f. by rewrite Hd.
  Qed.
  Lemma dbdef_spec c : c ∈ sc_dbdef sc ↔ ∃ f, f ∈ fs ∧ f_col f = c ∧ late_in f.
  Proof.
    unfold finish, late_in, auto_key. pose proof (st_key _ _ _ Hst) as Hk. destruct pk as [k|]; [destruct auto|]; cbn [sc_dbdef].
    - rewrite elem_of_app, db_cols. split.
      + intros [(f & ? & ? & ?)|H]; [naive_solver|]. case_decide; [by apply elem_of_nil in H|]. apply elem_of_list_singleton in H as ->. specialize (Hk k eq_refl). apply elem_of_list_fmap in Hk as (f & -> & Hf). exists f. naive_solver.
      + intros (f & Hf & <- & [Hd|Hd]); [left; naive_solver|]. injection Hd as ->. case_decide as Hin; [left; by apply db_cols in Hin|right; by apply elem_of_list_singleton].
    - rewrite db_cols. naive_solver.
    - rewrite db_cols. destruct auto; naive_solver.
  Qed.
  Lemma nodup_filter_cols (P : sfield → Prop) `{∀ f, Decision (P f)} (l : list sfield) : NoDup (f_col <$> l) → NoDup (f_col <$> filter P l).
  Proof.
    induction l as [|f l IH]; [done|]. cbn [fmap list_fmap]. intros [Hf Hl]%NoDup_cons. rewrite filter_cons. case_decide; [|by apply IH]. cbn [fmap list_fmap]. apply NoDup_cons. split; [|by apply IH].
    intros Hx. apply Hf. apply elem_of_list_fmap in Hx as (g & -> & Hg). apply elem_of_list_filter in Hg as [_ Hg]. by apply elem_of_list_fmap_1.
  Qed.
  Lemma same_col f g : f ∈ fs → g ∈ fs → f_col f = f_col g → f = g.
  Proof. intros Hf Hg E. destruct Hst as [Hc _ _]. pose proof (at_col_in fs f Hc Hf) as H1. pose proof (at_col_in fs g Hc Hg) as H2. rewrite E in H1. congruence. Qed.
  Lemma cols_nodup : NoDup ((f_col <$> plain_fields sc) ++ sc_dbdef sc).
  Proof.
    apply NoDup_app. split_and!.
    - rewrite plain_spec. by apply nodup_filter_cols, Hst.
    - intros c Hp Hd. apply dbdef_spec in Hd as (f & Hf & <- & Hl). rewrite plain_spec in Hp. apply elem_of_list_fmap in Hp as (g & E & Hg). apply elem_of_list_filter in Hg as [[Hg1 Hg2] Hg]. rewrite (same_col f g Hf Hg E) in *.
      destruct Hl as [Hl|Hl]; [|done]. unfold is_db in Hg1. by rewrite Hl in Hg1.
    - unfold finish. destruct pk as [k|]; [destruct auto|]; cbn [sc_dbdef]; try (by apply nodup_filter_cols, Hst). apply NoDup_app. split_and!; [by apply nodup_filter_cols, Hst| |case_decide; repeat constructor; by intros ?%elem_of_nil].
      intros c Hc. case_decide; [by apply not_elem_of_nil|]. intros ->%elem_of_list_singleton. done.
  Qed.

  Context (now : gostr → val) (table : gostr).
  (** the statement for some structs *)
  Definition columns (ss : list structv) : list gostr := (f_col <$> plain_fields sc) ++ set_somewhere sc ss.
  Definition the_stmt (ss : list structv) : sstmt :=
    match columns ss with [] => SNone table | _ => SRows table (columns ss) ((λ s, col_cell sc now s <$> columns ss) <$> ss) end.
  Lemma set_somewhere_in ss c : c ∈ set_somewhere sc ss ↔ c ∈ sc_dbdef sc ∧ ∃ s, s ∈ ss ∧ ¬ unset (s c).
  Proof.
    unfold set_somewhere. rewrite elem_of_list_filter, Is_true_true, existsb_exists. unfold has_value. setoid_rewrite negb_true_iff. setoid_rewrite is_zero_set. setoid_rewrite elem_of_list_In. naive_solver.
  Qed.
  Lemma columns_nodup ss : NoDup (columns ss).
  Proof.
    pose proof cols_nodup as (H1 & H2 & H3)%NoDup_app. unfold columns. apply NoDup_app. split_and!; [done| |by apply NoDup_filter]. intros c Hc [Hd _]%set_somewhere_in. by apply (H2 c).
  Qed.
  Lemma row_iff (i : nat) ss s (dflt : nat → fields) (r : fields) : s ∈ ss →
    (∀ c, r !! c = if decide (c ∈ columns ss) then cell_meaning (dflt i !! c) (col_cell sc now s c) else dflt i !! c) ↔ row_for fs key now (dflt i) s r.
  Proof.
    intros Hs. pose proof cols_nodup as Hnd.
    assert (Hp : ∀ f, f ∈ fs → plain_in key f → f_col f ∈ columns ss ∧ col_cell sc now s (f_col f) = CVal (stored now f (s (f_col f)))).
    { intros f Hf Hpf. assert (Hin : f ∈ plain_fields sc) by (rewrite plain_spec; by apply elem_of_list_filter). split; [apply elem_of_app; left; by apply elem_of_list_fmap_1|]. unfold col_cell. by rewrite (at_col_in _ f (nd_plain sc Hnd) Hin). }
    assert (Hq : ∀ f, f ∈ fs → late_in f → (f_col f ∈ columns ss ↔ ∃ s', s' ∈ ss ∧ ¬ unset (s' (f_col f))) ∧ col_cell sc now s (f_col f) = cell_for s (f_col f)).
    { intros f Hf Hl. assert (Hin : f_col f ∈ sc_dbdef sc) by (apply dbdef_spec; by exists f). pose proof (nd_not sc Hnd _ Hin) as Hn. unfold columns, col_cell. rewrite elem_of_app, set_somewhere_in, (proj2 (at_col_none _ _) Hn). split; [|done]. split; [intros [?|[_ ?]]; done|]. intros H. right. done. }
    assert (Hcase : ∀ f, plain_in key f ∨ late_in f). { intros f. unfold plain_in, late_in, is_db. destruct (decide (key = Some (f_col f))); [by right; right|]. destruct (f_def f) eqn:Ed; rewrite ?Ed; naive_solver. }
    assert (Hcols : ∀ c, c ∈ columns ss → c ∈ f_col <$> fs).
    { intros c. unfold columns. rewrite elem_of_app, set_somewhere_in, dbdef_spec, plain_spec. intros [Hc|[(f & Hf & <- & _) _]]; [|by apply elem_of_list_fmap_1]. apply elem_of_list_fmap in Hc as (f & -> & [_ Hf]%elem_of_list_filter). by apply elem_of_list_fmap_1. }
    split.
    - intros H. split.
      + intros f Hf c. subst c. rewrite H. destruct (Hcase f) as [Hc|Hc].
        * destruct (Hp f Hf Hc) as [H1 H2]. rewrite decide_True, H2 by done. cbn [cell_meaning]. unfold stored. destruct Hc as [Hc1 Hc2]. unfold is_db in Hc1. split_and!.
          -- intros Hu%is_zero_set. by rewrite Hu.
          -- intros _ [?|Hd]; [done|]. by rewrite Hd in Hc1.
          -- intros Hu%is_zero_unset _ v Hv. by rewrite Hu, Hv.
          -- intros Hu%is_zero_unset _ Hv. by rewrite Hu, Hv.
        * destruct (Hq f Hf Hc) as [H1 H2]. rewrite H2. unfold cell_for, has_value. split_and!.
          -- intros Hu. rewrite decide_True by (apply H1; by exists s). apply is_zero_set in Hu. by rewrite Hu.
          -- intros Hu%is_zero_unset _. rewrite Hu. by case_decide.
          -- intros Hu Hk v Hv. destruct Hc; congruence.
          -- intros Hu Hk Hv. destruct Hc; congruence.
      + intros c Hc. rewrite H, decide_False; [done|]. intros X. by apply Hc, Hcols.
    - intros [H1 H2] c. destruct (decide (c ∈ f_col <$> fs)) as [Hc|Hc]; [|rewrite decide_False by (intros X; by apply Hc, Hcols); by apply H2].
      apply elem_of_list_fmap in Hc as (f & -> & Hf). destruct (H1 f Hf) as (I1 & I2 & I3 & I4). destruct (Hcase f) as [Hc|Hc].
      + destruct (Hp f Hf Hc) as [J1 J2]. rewrite decide_True, J2 by done. cbn [cell_meaning]. unfold stored. destruct (is_zero (s (f_col f))) eqn:Ez.
        * apply is_zero_unset in Ez. destruct Hc as [Hc1 Hc2]. unfold is_db in Hc1. destruct (f_def f) as [| |v] eqn:Ed; [by apply I4|done|by apply I3].
        * apply I1. by apply is_zero_set.
      + destruct (Hq f Hf Hc) as [J1 J2]. rewrite J2. unfold cell_for, has_value. destruct (is_zero (s (f_col f))) eqn:Ez.
        * rewrite I2; [by case_decide|by apply is_zero_unset|]. destruct Hc as [Hc|Hc]; [by right|by left].
        * apply is_zero_set in Ez. rewrite decide_True; [by apply I1|]. apply J1. by exists s.
  Qed.
  Lemma stmt_adds ss dflt new : ss ≠ [] → columns ss ≠ [] ∨ length ss = 1%nat →
    sadds dflt (the_stmt ss) new ↔ length new = length ss ∧ ∀ i s r, ss !! i = Some s → new !! i = Some r → row_for fs key now (dflt i) s r.
  Proof.
    intros Hne Hone. destruct (decide (columns ss = [])) as [Ec|Ec].
    - destruct Hone as [?|Hone]; [done|]. destruct ss as [|s [|? ?]]; [done| |done]. unfold the_stmt. rewrite Ec. cbn [sadds].
      assert (R : ∀ r : fields, row_for fs key now (dflt 0%nat) s r ↔ r = dflt 0%nat). { intros r. rewrite <- (row_iff 0%nat [s] s dflt r) by by left. rewrite Ec. split; [intros H; apply map_eq; intros c; rewrite H; by rewrite decide_False by apply not_elem_of_nil|]. intros -> c. by rewrite decide_False by apply not_elem_of_nil. }
      split.
      + intros ->. split; [done|]. intros [|i] s' r Hs Hr; [|done]. injection Hs as <-. injection Hr as <-. by apply R.
      + intros [Hl H]. destruct new as [|r [|? ?]]; [done| |done]. f_equal. apply R. by apply (H 0%nat).
    - unfold the_stmt. destruct (columns ss) as [|c0 cl] eqn:E; [done|]. rewrite <- E. rewrite sadds_rows by apply columns_nodup. split; intros [Hl H]; (split; [done|]); intros i s r Hs Hr.
      + apply (row_iff i ss s dflt r); [by eapply elem_of_list_lookup_2|]. by apply H.
      + apply (row_iff i ss s dflt r); [by eapply elem_of_list_lookup_2|]. by apply H.
  Qed.
  Lemma sent_ok ss ss' : Forall2 (same_late sc now) ss ss' → statement table (values_for sc (plain_row_of sc now <$> ss) ss') = sstmt_tokens (the_stmt ss).
  Proof.
    intros H. rewrite (values_ok sc now cols_nodup ss ss' H), statement_tokens. cbn [sv_cols sv_rows]. unfold the_stmt. fold (columns ss). destruct (columns ss) as [|c0 cl] eqn:E; [done|]. rewrite <- E. do 2 f_equal. apply list_fmap_ext. intros i s _.
    rewrite (row_cells_eq sc now cols_nodup) by (intros c Hc; by apply set_somewhere_in in Hc as [? _]). done.
  Qed.
End schema.

(** ** one call *)
Section call.
  Context (fs : list sfield) (pk : option gostr) (auto : bool) (inc : Z) (Hst : struct_type fs pk auto).
  Notation sc := (finish fs pk auto inc).
  Context (now : gostr → val) (table : gostr) (skip : bool) (begin_err commit_err : option gostr) (db : stmt → sanswer).
  Notation insert := (insert_data sc now table skip begin_err commit_err db).
  Notation the_stmt := (the_stmt fs pk auto inc now table).
  Lemma write_total p i ss : ∃ ss', write_ids sc true p i (Some <$> ss) = Ret (Some <$> ss').
  Proof.
    revert i. induction ss as [|s ss IH]; intros i; [by exists []|]. cbn [fmap list_fmap write_ids]. change (list_fmap _ _ Some ss) with (Some <$> ss). destruct (is_zero (s p)).
    - destruct (IH (i + sc_inc sc)) as [ss' ->]. cbn [mbind go_bind]. by exists (set_field s p (VInt i) :: ss').
    - destruct (IH i) as [ss' ->]. cbn [mbind go_bind]. by exists (s :: ss').
  Qed.
  Lemma after_total a ss : ∃ ss' e, after_exec sc true a (Some <$> ss) = Ret (Some <$> ss', e) ∧ (sa_err a ≠ None → e ≠ None).
  Proof.
    unfold after_exec. destruct (sa_err a) as [e|]; [by exists ss; eexists|]. destruct (sa_rows a =? 0); [by exists ss; eexists|]. destruct (pk_has_default sc) as [p|]; [|by exists ss; eexists]. destruct (sa_id a) as [e|i]; [by exists ss; eexists|]. destruct (0 <? i); [|by exists ss; eexists].
    destruct (write_total p i ss) as [ss' ->]. cbn [mbind go_bind]. by exists ss'; eexists.
  Qed.
  Lemma create_ok ss : (if skip then None else begin_err) = None →
    ∃ ss' ss'' e, Forall2 (same_late sc now) ss ss' ∧ after_exec sc true (db (sstmt_tokens (the_stmt ss))) (Some <$> ss') = Ret (Some <$> ss'', e) ∧
      (sa_err (db (sstmt_tokens (the_stmt ss))) ≠ None → e ≠ None) ∧
      create sc now table skip begin_err commit_err db true (Some <$> ss) = finish_tx skip commit_err ((if skip then [] else [EvBegin]) ++ [EvExec (sstmt_tokens (the_stmt ss))]) (Some <$> ss'') e.
  Proof.
    intros Hb. unfold create. rewrite Hb. destruct (fill_rows_ok sc now (cols_nodup fs pk auto inc Hst) ss) as (ss' & -> & HF). cbn [negb]. rewrite (omap_some ss'), (sent_ok fs pk auto inc Hst now table ss ss' HF).
    destruct (after_total (db (sstmt_tokens (the_stmt ss))) ss') as (ss'' & e & Ha & He). exists ss', ss'', e. by rewrite Ha.
  Qed.
  Lemma sc_pk_eq : sc_pk sc = pk. Proof. unfold finish. destruct pk; [|done]. by destruct auto. Qed.
  Lemma pk_default p : pk_has_default sc = Some p → pk = Some p.
  Proof. unfold pk_has_default. rewrite sc_pk_eq. destruct pk as [c|]; [|done]. by destruct (existsb _ _). Qed.
  Lemma by_value_same s : complete fs pk s → insert (ByValue s) = insert (Pointer (Some s)).
  Proof.
    intros [Hf Hk]. cbn [insert_data]. unfold create. destruct (if skip then None else begin_err); [done|]. cbn [fill_rows].
    assert (Hn : no_set (plain_fields sc) s). { intros f Hin%(plain_from fs pk auto inc Hst) Hz. destruct Hin as [Hin _]. apply Hf; [done|]. by apply is_zero_unset. }
    destruct (fill_all_value now (plain_fields sc) s Hn) as [E1 E2]. rewrite <- E1. destruct (fill_all now false (plain_fields sc) s) as [[vs s1]|p|] eqn:Ef; cbn [mbind go_bind]; [|done..]. rewrite (E2 _ _ eq_refl). cbn [negb].
    set (st := statement _ _). assert (Ha : after_exec sc false (db st) [Some s] = after_exec sc true (db st) [Some s]); [|by rewrite Ha].
    unfold after_exec. destruct (sa_err (db st)); [done|]. destruct (sa_rows (db st) =? 0); [done|]. destruct (pk_has_default sc) as [p|] eqn:Ep; [|done]. destruct (sa_id (db st)) as [e|i]; [done|]. destruct (0 <? i); [|done].
    cbn [write_ids]. apply pk_default in Ep. specialize (Hk p Ep). apply is_zero_set in Hk. by rewrite Hk.
  Qed.
End call.

(** The rows of some structs are the rows wanted, however they are given; with an error nothing is kept.  A struct by
    value must have nothing to be filled in, and several structs need a column. *)
Theorem insert_structs_rows_partial fs pk auto inc now table skip begin_err commit_err db d ss :
  struct_type fs pk auto → given_as fs pk d ss →
  length ss = 1%nat ∨ (∃ f, f ∈ fs ∧ f_def f ≠ DbDefault ∧ auto_key pk auto ≠ Some (f_col f)) ∨ (∃ s f, s ∈ ss ∧ f ∈ fs ∧ ¬ unset (s (f_col f))) →
  let '(evs, e, _) := insert_data (finish fs pk auto inc) now table skip begin_err commit_err db d in
  let ok := λ t, bool_decide (sa_err (db t) = None) in
  ∃ st err, e = Done err ∧
    (∀ dflt new, sadds dflt st new ↔ length new = length ss ∧ ∀ i s r, ss !! i = Some s → new !! i = Some r → row_for fs (auto_key pk auto) now (dflt i) s r) ∧
    (err = None → kept ok None evs = [sstmt_tokens st]) ∧
    (err ≠ None → skip = false → commit_err = None → kept ok None evs = []) ∧
    (sa_err (db (sstmt_tokens st)) ≠ None → err ≠ None) ∧
    left_open false evs = false.
Proof.
  intros Hst [Hne Hd] Hcol.
  assert (Hi : insert_data (finish fs pk auto inc) now table skip begin_err commit_err db d = create (finish fs pk auto inc) now table skip begin_err commit_err db true (Some <$> ss)).
  { destruct Hd as [->|(s & -> & [->|[-> Hc]])]; [by destruct ss|done|]. by rewrite by_value_same. }
  rewrite Hi. clear Hi.
  assert (Hadd := λ dflt new, stmt_adds fs pk auto inc Hst now table ss dflt new Hne).
  assert (Hcols : columns fs pk auto inc ss ≠ [] ∨ length ss = 1%nat).
  { destruct Hcol as [H|[(f & Hf & Hfd & Hk)|(s & f & Hs & Hf & Hu)]]; [by right| |]; left; intros E.
    - assert (X : f_col f ∈ columns fs pk auto inc ss); [|by rewrite E in X; apply elem_of_nil in X]. unfold columns. apply elem_of_app. left. apply elem_of_list_fmap_1. rewrite plain_spec by done. apply elem_of_list_filter. split; [|done]. split; [|done]. unfold is_db. by destruct (f_def f).
    - assert (X : f_col f ∈ columns fs pk auto inc ss); [|by rewrite E in X; apply elem_of_nil in X]. unfold columns. rewrite elem_of_app, set_somewhere_in, dbdef_spec by done. destruct (decide (plain_in (auto_key pk auto) f)) as [Hp|Hp].
      + left. apply elem_of_list_fmap_1. rewrite plain_spec by done. by apply elem_of_list_filter.
      + right. split; [|by exists s]. exists f. split_and!; [done..|]. unfold late_in. destruct (decide (auto_key pk auto = Some (f_col f))); [by right|]. left. unfold plain_in, is_db in Hp. destruct (f_def f); naive_solver. }
  destruct (if skip then None else begin_err) as [e0|] eqn:Hb.
  - unfold create. rewrite Hb. exists (the_stmt fs pk auto inc now table ss), (Some (SDatabase e0)). split_and!; [done| |done..]. intros dflt new. by apply Hadd.
  - destruct (create_ok fs pk auto inc Hst now table skip begin_err commit_err db ss Hb) as (ss' & ss'' & e & _ & _ & Herr & ->). unfold finish_tx.
    set (st := the_stmt fs pk auto inc now table ss) in *. destruct skip; [|destruct e as [e|]].
    + exists st, e. split_and!; [done|intros dflt new; by apply Hadd| |done|done|done]. intros ->. cbn [kept app]. rewrite bool_decide_eq_true_2; [done|]. destruct (sa_err _); [by destruct Herr|done].
    + exists st, (Some e). split_and!; [done|intros dflt new; by apply Hadd|done| |done|done]. intros _ _ _. cbn [kept app]. by case_bool_decide.
    + assert (Ho : sa_err (db (sstmt_tokens st)) = None) by (destruct (sa_err _); [by destruct Herr|done]). exists st, (SDatabase <$> commit_err). split_and!; [done|intros dflt new; by apply Hadd| | | |done].
      * intros _. cbn [kept app]. by rewrite bool_decide_eq_true_2.
      * intros H _ Hc. by rewrite Hc in H.
      * by rewrite Ho.
Qed.
(** what is no struct: an error, and nothing is sent *)
Theorem insert_structs_invalid fs pk auto inc now table skip begin_err commit_err db d :
  struct_type fs pk auto → d = Pointer None ∨ d = Slice [] ∨ (∃ l, d = Slice l ∧ None ∈ l) →
  let '(evs, e, _) := insert_data (finish fs pk auto inc) now table skip begin_err commit_err db d in
  (∃ err, e = Done (Some err)) ∧ (∀ t, EvExec t ∉ evs) ∧ left_open false evs = false.
Proof.
  intros Hst Hd. assert (Hq : ∀ P : Prop, P → (∀ t, EvExec t ∉ [EvBegin; EvRollback]) ∧ (∀ t, EvExec t ∉ [])).
  { intros _ _. split; intros t H; repeat (apply elem_of_cons in H as [H|H]; [discriminate|]); by apply elem_of_nil in H. }
  destruct (Hq True I) as [Hq1 Hq2]. clear Hq. destruct Hd as [->|[->|(l & -> & Hl)]].
  - cbn [insert_data]. split_and!; [by eexists|done|done].
  - cbn [insert_data]. unfold nothing_sent. destruct (if skip then None else begin_err); [split_and!; [by eexists|done|done]|]. unfold finish_tx. destruct skip; (split_and!; [by eexists|done|done]).
  - assert (Hf : ∃ rows l', fill_rows (finish fs pk auto inc) now true l = Ret (rows, l', false)).
    { induction l as [|[s|] l IH]; [by apply elem_of_nil in Hl| |by exists [], (None :: l)]. apply elem_of_cons in Hl as [Hl|Hl]; [discriminate|]. cbn [fill_rows].
      destruct (fill_all_ok now _ (nd_plain _ (cols_nodup fs pk auto inc Hst)) s) as (s' & -> & _). cbn [mbind go_bind]. destruct (IH Hl) as (rows & l' & ->). cbn [mbind go_bind]. by do 2 eexists. }
    destruct Hf as (rows & l' & Hf). destruct l as [|x l]; [by apply elem_of_nil in Hl|]. cbn [insert_data]. unfold create. rewrite Hf. destruct (if skip then None else begin_err); [split_and!; [by eexists|done|done]|]. cbn [negb]. unfold finish_tx. destruct skip; (split_and!; [by eexists|done|done]).
Qed.

(** ** a struct by value *)
(** one that something has to be filled into: the call panics, before the INSERT or after it, and its transaction
    stays open, so that nothing is kept *)
Theorem insert_struct_by_value_panics fs pk auto inc now table commit_err db s :
  struct_type fs pk auto →
  (∃ f, f ∈ fs ∧ f_def f ≠ DbDefault ∧ auto_key pk auto ≠ Some (f_col f) ∧ unset (s (f_col f)) ∧ (f_time f = true ∨ ∃ v, f_def f = TagDefault v)) ∨
  (∃ c, auto_key pk auto = Some c ∧ unset (s c) ∧ ∀ t, sa_err (db t) = None ∧ sa_rows (db t) ≠ 0 ∧ ∃ i, sa_id (db t) = inr i ∧ 0 < i) →
  let '(evs, e, _) := insert_data (finish fs pk auto inc) now table false None commit_err db (ByValue s) in
  e = Panicked ∧ left_open false evs = true ∧ ∀ ok, kept ok None evs = [].
Proof.
  intros Hst Hs. cbn [insert_data]. unfold create. cbn [fill_rows].
  assert (Hpl : Forall (λ f, f_def f ≠ DbDefault) (plain_fields (finish fs pk auto inc))). { apply Forall_forall. intros f Hf. destruct (plain_from fs pk auto inc Hst f Hf) as (_ & H & _). unfold is_db in H. by destruct (f_def f). }
  destruct (decide (Forall (λ f, is_zero (s (f_col f)) = true → f_time f = false ∧ match f_def f with TagDefault _ => false | _ => true end = true) (plain_fields (finish fs pk auto inc)))) as [Hn|Hn].
  - assert (Hns : no_set (plain_fields (finish fs pk auto inc)) s). { intros f Hf Hz. rewrite Forall_forall in Hn. destruct (Hn f Hf Hz) as [Ht Hd]. split; [done|]. intros v Hv. by rewrite Hv in Hd. }
    destruct Hs as [(f & Hf & Hfd & Hk & Hu & Hx)|(c & Hk & Hu & Hdb)].
    + exfalso. apply is_zero_unset in Hu. destruct (Hns f) with (2 := Hu) as [Ht Hv]; [|destruct Hx as [?|[v ?]]; [congruence|by eapply Hv]]. rewrite plain_spec by done. apply elem_of_list_filter. split; [|done]. split; [|done]. unfold is_db. by destruct (f_def f).
    + destruct (fill_all_value now _ s Hns) as [E1 E2]. destruct (fill_all_ok now _ (nd_plain _ (cols_nodup fs pk auto inc Hst)) s) as (s' & E3 & _). rewrite <- E1 in E3. rewrite E3. pose proof (E2 _ _ E3) as ->. cbn [mbind go_bind negb]. set (st := statement _ _).
      destruct (Hdb st) as (Ha & Hr & i & Hi & Hpos). unfold after_exec. rewrite Ha. rewrite (proj2 (Z.eqb_neq _ _) Hr), Hi, (proj2 (Z.ltb_lt _ _) Hpos).
      assert (Hp : pk_has_default (finish fs pk auto inc) = Some c).
      { unfold auto_key in Hk. destruct auto; [|done]. subst pk. unfold pk_has_default, finish. cbn [sc_pk sc_fields]. rewrite (proj2 (existsb_exists _ _)); [done|]. pose proof (st_key _ _ _ Hst c eq_refl) as Hc. apply elem_of_list_fmap in Hc as (f & -> & Hf). exists (has_default f). split.
        - apply elem_of_list_In, elem_of_list_fmap. exists f. by rewrite decide_True.
        - unfold has_default. destruct (f_def f) eqn:Ed; cbn; rewrite ?Ed; by rewrite bool_decide_eq_true_2. }
      rewrite Hp. cbn [write_ids]. apply is_zero_unset in Hu. rewrite Hu. cbn [mbind go_bind]. split_and!; [done|done|]. intros ok. cbn [kept app]. by destruct (ok st).
  - rewrite (fill_all_panic now _ s Hpl); [by cbn [mbind go_bind]|]. intros H. apply Hn, Forall_forall. intros f Hf Hz. destruct (H f Hf Hz) as [Ht Hd]. split; [done|]. destruct (f_def f) as [| |v] eqn:E; [done|done|by destruct (Hd v)].
Qed.
(** BaseModel with a name, as gorm.go:13-18 *)
Definition id_col : gostr := str "id".
Definition base_fields : list sfield := [SField id_col NoDefault false; SField (str "created_at") NoDefault true; SField (str "updated_at") NoDefault true; SField (str "deleted_at") NoDefault false; SField (str "name") NoDefault false].
Definition base_struct (id created updated : Z) (name : gostr) : structv := λ c,
  if decide (c = id_col) then Plain (VInt id) else if decide (c = str "created_at") then Plain (VInt created) else if decide (c = str "updated_at") then Plain (VInt updated) else
  if decide (c = str "name") then Plain (VStr name) else Plain (VInt 0).
Lemma base_type : struct_type base_fields (Some id_col) true.
Proof.
  split; [apply (bool_decide_unpack _); by vm_compute|intros c [= <-]; apply (bool_decide_unpack _); by vm_compute|].
  intros f v Hf _ _. unfold base_fields in Hf. repeat (apply elem_of_cons in Hf as [->|Hf]; [done|]). by apply elem_of_nil in Hf.
Qed.
(** by value a BaseModel that is new: what a call InsertToTable("t", record, db) does *)
Theorem insert_struct_by_value_refuted : ∃ s s',
  (∀ now table commit_err db, let '(evs, e, _) := insert_data (finish base_fields (Some id_col) true 1) now table false None commit_err db (ByValue s) in
     e = Panicked ∧ left_open false evs = true ∧ ∀ ok, kept ok None evs = []) ∧
  (∀ now table commit_err, let '(evs, e, _) := insert_data (finish base_fields (Some id_col) true 1) now table false None commit_err (λ _, SAnswer None 1 (inr 7)) (ByValue s') in
     e = Panicked ∧ left_open false evs = true ∧ ∀ ok, kept ok None evs = []).
Proof.
  exists (base_struct 5 0 0 (str "a")), (base_struct 0 100 100 (str "a")). split; intros; (apply insert_struct_by_value_panics; [apply base_type|]).
  - left. exists (SField (str "created_at") NoDefault true). split_and!; [by right; left|done|by intros [=]|by left|by left].
  - right. exists id_col. split_and!; [done|by left|]. intros t. split_and!; [done|done|]. by exists 7.
Qed.

(** ** what else is not as one may expect *)
(** a zero that the caller means, in a field with a default in its tag, is not stored *)
Definition status_fields : list sfield := [SField id_col NoDefault false; SField (str "status") (TagDefault (VInt 1)) false].
Definition status_struct (id status : Z) : structv := λ c, if decide (c = id_col) then Plain (VInt id) else Plain (VInt status).
Theorem insert_struct_tag_default_refuted : ∃ fs pk s, struct_type fs pk true ∧ ∀ now table, ∃ st,
  kept (λ _, true) None (insert_data (finish fs pk true 1) now table false None None (λ _, SAnswer None 1 (inr 7)) (Pointer (Some s))).1.1 = [sstmt_tokens st] ∧
  ∀ dflt new r, sadds dflt st new → new !! 0%nat = Some r → ¬ plain_row fs s r.
Proof.
  exists status_fields, (Some id_col), (status_struct 3 0). split.
  { split; [apply (bool_decide_unpack _); by vm_compute|intros c [= <-]; apply (bool_decide_unpack _); by vm_compute|]. intros f v Hf _ Hk. unfold status_fields in Hf. repeat (apply elem_of_cons in Hf as [->|Hf]; [done|]). by apply elem_of_nil in Hf. }
  intros now table. exists (SRows table [str "status"; id_col] [[CVal (VInt 1); CVal (VInt 3)]]). split; [by vm_compute|].
  intros dflt new r (_ & _ & H) Hr Hp. destruct (H 0%nat _ r eq_refl Hr) as (_ & H1 & _). specialize (H1 0%nat _ _ eq_refl eq_refl). specialize (Hp (SField (str "status") (TagDefault (VInt 1)) false)). cbn [f_col f_time] in Hp. rewrite H1 in Hp. assert (X : Some (VInt 1) = Some (VInt 0)) by (apply Hp; [right; by left|done]). by injection X.
Qed.
(** an integer key with a value in its tag is a column twice: the database refuses the statement *)
Theorem insert_struct_key_tag_refuted : ∃ fs pk s, ∀ now table, ∃ st,
  kept (λ _, true) None (insert_data (finish fs pk true 1) now table false None None (λ _, SAnswer None 1 (inr 7)) (Pointer (Some s))).1.1 = [sstmt_tokens st] ∧ ∀ dflt new, ¬ sadds dflt st new.
Proof.
  exists [SField id_col (TagDefault (VInt 5)) false], (Some id_col), (λ _, Plain (VInt 0)). intros now table. exists (SRows table [id_col; id_col] [[CVal (VInt 5); CVal (VInt 5)]]). split; [by vm_compute|].
  intros dflt new (H & _). apply NoDup_cons in H as [H _]. apply H. by left.
Qed.
(** of several structs with nothing but a key that is not set one row comes *)
Theorem insert_structs_empty_refuted : ∃ fs pk ss, struct_type fs pk true ∧ length ss = 3%nat ∧ ∀ now table, ∃ st,
  kept (λ _, true) None (insert_data (finish fs pk true 1) now table false None None (λ _, SAnswer None 1 (inr 7)) (Slice (Some <$> ss))).1.1 = [sstmt_tokens st] ∧ ∀ dflt new, sadds dflt st new → length new = 1%nat.
Proof.
  exists [SField id_col NoDefault false], (Some id_col), [(λ _, Plain (VInt 0)); (λ _, Plain (VInt 0)); (λ _, Plain (VInt 0))]. split_and!; [|done|].
  { split; [apply (bool_decide_unpack _); by vm_compute|intros c [= <-]; apply (bool_decide_unpack _); by vm_compute|]. intros f v Hf _ _. apply elem_of_list_singleton in Hf as ->. done. }
  intros now table. exists (SNone table). split; [by vm_compute|]. by intros dflt new ->.
Qed.
(** a case: two new records, one with a key *)
Example insert_structs_case :
  insert_data (finish base_fields (Some id_col) true 1) (λ _, VInt 1700) (str "t") false None None (λ _, SAnswer None 2 (inr 8)) (Slice [Some (base_struct 0 0 0 (str "a")); Some (base_struct 5 90 0 (str "b"))])
  = let t := sstmt_tokens (SRows (str "t") [str "created_at"; str "updated_at"; str "deleted_at"; str "name"; id_col] [[CVal (VInt 1700); CVal (VInt 1700); CVal (VInt 0); CVal (VStr (str "a")); CDefault]; [CVal (VInt 90); CVal (VInt 1700); CVal (VInt 0); CVal (VStr (str "b")); CVal (VInt 5)]]) in
    let '(_, _, l) := insert_data (finish base_fields (Some id_col) true 1) (λ _, VInt 1700) (str "t") false None None (λ _, SAnswer None 2 (inr 8)) (Slice [Some (base_struct 0 0 0 (str "a")); Some (base_struct 5 90 0 (str "b"))]) in
    ([EvBegin; EvExec t; EvCommit], Done None, l).
Proof. by vm_compute. Qed.

Lemma base_cases d c : d ∈ f_col <$> base_fields → base_struct 5 90 91 (str "a") d = c → d = str "deleted_at" ∨ ¬ unset c.
Proof.
  intros Hd <-. cbn [base_fields fmap list_fmap f_col] in Hd. repeat (apply elem_of_cons in Hd as [->|Hd]; [first [by left|right; apply is_zero_set; by vm_compute]|]). by apply elem_of_nil in Hd.
Qed.
(** by value with nothing to fill in *)
Example insert_by_value_case : given_as base_fields (Some id_col) (ByValue (base_struct 5 90 91 (str "a"))) [base_struct 5 90 91 (str "a")] ∧
  insert_data (finish base_fields (Some id_col) true 1) (λ _, VInt 1700) (str "t") false None None (λ _, SAnswer None 1 (inr 5)) (ByValue (base_struct 5 90 91 (str "a")))
  = ([EvBegin; EvExec (sstmt_tokens (SRows (str "t") [str "created_at"; str "updated_at"; str "deleted_at"; str "name"; id_col] [[CVal (VInt 90); CVal (VInt 91); CVal (VInt 0); CVal (VStr (str "a")); CVal (VInt 5)]])); EvCommit], Done None, [Some (base_struct 5 90 91 (str "a"))]).
Proof.
  split; [|by vm_compute]. split; [done|]. right. eexists. split; [done|]. right. split; [done|]. split.
  - intros f Hf Hu. destruct (base_cases (f_col f) _ ltac:(by apply elem_of_list_fmap_1) eq_refl) as [E|E]; [|done]. unfold base_fields in Hf. repeat (apply elem_of_cons in Hf as [->|Hf]; [first [by split|by vm_compute in E]|]). by apply elem_of_nil in Hf.
  - intros c [= <-]. apply is_zero_set. by vm_compute.
Qed.
(** a nil among the elements, and a database that refuses *)
Example insert_structs_error_case :
  (insert_data (finish base_fields (Some id_col) true 1) (λ _, VInt 1700) (str "t") false None None (λ _, SAnswer None 1 (inr 5)) (Slice [Some (base_struct 5 90 91 (str "a")); None])).1 = ([EvBegin; EvRollback], Done (Some SInvalidData)) ∧
  (insert_data (finish base_fields (Some id_col) true 1) (λ _, VInt 1700) (str "t") false None None (λ _, SAnswer (Some (str "duplicate")) 0 (inr 0)) (Pointer (Some (base_struct 5 90 91 (str "a"))))).1.2 = Done (Some (SDatabase (str "duplicate"))).
Proof. by vm_compute. Qed.

(** ** the keys *)
Lemma own_key_none pk s z : s pk = Plain (VInt z) → own_key pk s = if is_zero (s pk) then None else Some z.
Proof. intros H. unfold own_key. rewrite H. cbn [is_zero]. destruct (Z.eqb_spec z 0); [by rewrite decide_True|by rewrite decide_False]. Qed.
Lemma write_ids_keys sc pk counter i ss : sc_inc sc = 1 → (∀ s, s ∈ ss → ∃ z, s pk = Plain (VInt z) ∧ z < counter) → ((∃ s, s ∈ ss ∧ unset (s pk)) → i = counter) →
  ∃ ss', write_ids sc true pk i (Some <$> ss) = Ret (Some <$> ss') ∧
    Forall2 (λ s s', (∀ c, c ≠ pk → s' c = s c) ∧ (is_zero (s pk) = false → s' pk = s pk)) ss ss' ∧ Forall2 (λ k s', s' pk = Plain (VInt k)) (auto_ids counter (own_key pk <$> ss)) ss'.
Proof.
  intros Hinc. revert i counter. induction ss as [|s ss IH]; intros i counter Hz Hi; [exists []; by repeat constructor|].
  destruct (Hz s (elem_of_list_here _ _)) as (z & Hs & Hlt). cbn [fmap list_fmap write_ids]. change (list_fmap _ _ Some ss) with (Some <$> ss). change (list_fmap _ _ (own_key pk) ss) with (own_key pk <$> ss). rewrite (own_key_none pk s z Hs).
  destruct (is_zero (s pk)) eqn:E.
  - rewrite Hi by (exists s; split; [by left|by apply is_zero_unset]). destruct (IH (counter + sc_inc sc) (counter + 1)) as (ss' & -> & H1 & H2).
    { intros s' Hs'. destruct (Hz s') as (z' & ? & ?); [by right|]. exists z'. split; [done|lia]. } { intros _. lia. }
    cbn [mbind go_bind auto_ids]. exists (set_field s pk (VInt counter) :: ss'). split_and!; [done| |]; (constructor; [|done]).
    + split; [intros c Hc; by apply set_other|by rewrite E].
    + unfold set_field. rewrite decide_True by done. by rewrite Hs.
  - destruct (IH i counter) as (ss' & -> & H1 & H2). { intros s' Hs'. apply Hz. by right. } { intros (s' & ? & ?). apply Hi. exists s'. split; [by right|done]. }
    cbn [mbind go_bind auto_ids]. replace (Z.max counter (z + 1)) with counter by lia. exists (s :: ss'). split_and!; [done| |]; (constructor; [|done]); [done|by rewrite Hs].
Qed.
Lemma write_ids_none sc pk i ss : (∀ s, s ∈ ss → ¬ unset (s pk)) → write_ids sc true pk i (Some <$> ss) = Ret (Some <$> ss).
Proof.
  induction ss as [|s ss IH]; intros H; [done|]. cbn [fmap list_fmap write_ids]. change (list_fmap _ _ Some ss) with (Some <$> ss). pose proof (H s (elem_of_list_here _ _)) as Hs. apply is_zero_set in Hs. rewrite Hs, IH; [done|]. intros s' Hs'. apply H. by right.
Qed.
Lemma write_ids_all sc pk counter i ss : sc_inc sc = 1 → 0 < counter → (∀ s, s ∈ ss → ∃ z, s pk = Plain (VInt z) ∧ z < counter) → ((∃ s, s ∈ ss ∧ unset (s pk)) → i = counter) →
  ∃ ss', (if 0 <? i then r ← write_ids sc true pk i (Some <$> ss); Ret (r, @None serr) else Ret (Some <$> ss, None)) = Ret (Some <$> ss', None) ∧
    Forall2 (λ s s', (∀ c, c ≠ pk → s' c = s c) ∧ (is_zero (s pk) = false → s' pk = s pk)) ss ss' ∧ Forall2 (λ k s', s' pk = Plain (VInt k)) (auto_ids counter (own_key pk <$> ss)) ss'.
Proof.
  intros Hinc Hc Hz Hi. destruct (write_ids_keys sc pk counter i ss Hinc Hz Hi) as (ss' & Hw & H1 & H2). exists ss'. split_and!; [|done..]. destruct (Z.ltb_spec 0 i); [by rewrite Hw|].
  assert (E : write_ids sc true pk i (Some <$> ss) = Ret (Some <$> ss)).
  { apply write_ids_none. intros s Hs Hu. assert (i = counter) by (apply Hi; by exists s). lia. }
  rewrite E in Hw. by injection Hw as ->.
Qed.
(** The structs hold what their rows hold afterwards, the generated keys included, provided that keys given along with
    others are below the counter of the table.  A column that the table fills by itself is not read back. *)
Theorem struct_keys_partial fs pk now table skip begin_err commit_err db d ss counter n id :
  struct_type fs (Some pk) true → given_as fs (Some pk) d ss → 0 < counter → (∀ s, s ∈ ss → ∃ z, s pk = Plain (VInt z) ∧ z < counter) →
  let '(evs, e, out) := insert_data (finish fs (Some pk) true 1) now table skip begin_err commit_err db d in
  (∀ st, EvExec st ∈ evs → db st = SAnswer None n (inr id)) → n ≠ 0 → ((∃ s, s ∈ ss ∧ unset (s pk)) → id = counter) →
  e = Done None →
  ∃ ss', out = Some <$> ss' ∧ length ss' = length ss ∧
    ∀ i s s' k, ss !! i = Some s → ss' !! i = Some s' → auto_ids counter (own_key pk <$> ss) !! i = Some k →
      s' pk = Plain (VInt k) ∧
      ∀ dflt r f, row_for fs (Some pk) now dflt s r → dflt !! pk = Some (VInt k) → f ∈ fs → f_col f = pk ∨ f_def f ≠ DbDefault ∨ ¬ unset (s (f_col f)) →
        r !! f_col f = Some (value_of (s' (f_col f))).
Proof.
  intros Hst [Hne Hd] Hc Hz.
  assert (Hins : insert_data (finish fs (Some pk) true 1) now table skip begin_err commit_err db d = create (finish fs (Some pk) true 1) now table skip begin_err commit_err db true (Some <$> ss)).
  { destruct Hd as [->|(s & -> & [->|[-> Hcp]])]; [by destruct ss|done|]. by rewrite by_value_same. }
  rewrite Hins. clear Hins. destruct (if skip then None else begin_err) as [e0|] eqn:Hb; [unfold create; by rewrite Hb|].
  destruct (create_ok fs (Some pk) true 1 Hst now table skip begin_err commit_err db ss Hb) as (ss1 & ss2 & e & HF & Ha & _ & ->).
  set (st := sstmt_tokens _) in *.
  assert (Hx : ∀ evs, (let '(x, _, _) := finish_tx skip commit_err (evs ++ [EvExec st]) (Some <$> ss2) e in EvExec st ∈ x) ∧ (let '(_, _, x) := finish_tx skip commit_err (evs ++ [EvExec st]) (Some <$> ss2) e in x = Some <$> ss2)).
  { intros evs. unfold finish_tx. destruct skip; [|destruct e]; (split; [|done]); rewrite ?elem_of_app; set_solver. }
  specialize (Hx (if skip then [] else [EvBegin])). destruct (finish_tx _ _ _ _ _) as [[evs en] out]. destruct Hx as [Hx1 ->]. intros Hdb Hn Hid _. rewrite (Hdb st Hx1) in Ha.
  assert (Hplain : pk ∉ f_col <$> plain_fields (finish fs (Some pk) true 1)).
  { intros Hin. apply elem_of_list_fmap in Hin as (f & E & Hf). destruct (plain_from fs _ true 1 Hst f Hf) as (_ & _ & H). apply H. cbn. congruence. }
  assert (Hz1 : ∀ s1, s1 ∈ ss1 → ∃ z, s1 pk = Plain (VInt z) ∧ z < counter).
  { intros s1 Hs1. apply elem_of_list_lookup in Hs1 as [j Hj]. destruct (Forall2_lookup_r _ _ _ _ _ HF Hj) as (s & Hs & [Hsame _]). rewrite Hsame by by apply Hplain. apply Hz. by eapply elem_of_list_lookup_2. }
  assert (Hi1 : (∃ s1, s1 ∈ ss1 ∧ unset (s1 pk)) → id = counter).
  { intros (s1 & Hs1 & Hu). apply elem_of_list_lookup in Hs1 as [j Hj]. destruct (Forall2_lookup_r _ _ _ _ _ HF Hj) as (s & Hs & [Hsame _]). rewrite Hsame in Hu by by apply Hplain. apply Hid. exists s. split; [by eapply elem_of_list_lookup_2|done]. }
  assert (Hown : own_key pk <$> ss1 = own_key pk <$> ss).
  { clear - HF Hplain. induction HF as [|s s1 l l1 [Hsame _] _ IH]; [done|]. cbn [fmap list_fmap]. f_equal; [|exact IH]. unfold own_key. by rewrite Hsame by by apply Hplain. }
  assert (Hp : pk_has_default (finish fs (Some pk) true 1) = Some pk).
  { unfold pk_has_default, finish. cbn [sc_pk sc_fields]. rewrite (proj2 (existsb_exists _ _)); [done|]. pose proof (st_key _ _ _ Hst pk eq_refl) as Hin. apply elem_of_list_fmap in Hin as (f & -> & Hf). exists (has_default f). split.
    - apply elem_of_list_In, elem_of_list_fmap. exists f. rewrite decide_True by done. done.
    - unfold has_default. destruct (f_def f) eqn:Ed; cbn; rewrite ?Ed; by rewrite bool_decide_eq_true_2. }
  unfold after_exec in Ha. cbn [sa_err sa_rows sa_id] in Ha. rewrite (proj2 (Z.eqb_neq _ _) Hn), Hp in Ha.
  destruct (write_ids_all (finish fs (Some pk) true 1) pk counter id ss1 eq_refl Hc Hz1 Hi1) as (ss' & Hw & H1 & H2). rewrite Hw in Ha. injection Ha as Ha <-. rewrite <- Ha in *. clear Ha ss2.
  exists ss'. split; [done|]. split; [by rewrite <- (Forall2_length _ _ _ H1), (Forall2_length _ _ _ HF)|]. intros i s s' k Hs Hs' Hk. rewrite Hown in H2.
  pose proof (Forall2_lookup_lr _ _ _ _ _ _ H2 Hk Hs') as Hkey. cbn beta in Hkey. destruct (Forall2_lookup_l _ _ _ _ _ HF Hs) as (s1 & Hs1 & [Hsame Hst1]). pose proof (Forall2_lookup_lr _ _ _ _ _ _ H1 Hs1 Hs') as [Hrest Hown1]. split; [done|].
  intros dflt r f [Hrow _] Hdf Hf Hwhich. destruct (Hrow f Hf) as (R1 & R2 & R3 & R4). destruct (decide (f_col f = pk)) as [E|Hpk].
  - rewrite E in *. rewrite Hkey. cbn [value_of]. destruct (Hz s) as (z & Hsz & Hlt); [by eapply elem_of_list_lookup_2|]. destruct (is_zero (s pk)) eqn:Ez.
    + apply is_zero_unset in Ez. rewrite R2; [done|done|by left].
    + pose proof Ez as Ez'. apply is_zero_set in Ez'. rewrite R1 by done. rewrite Hsz. cbn [value_of].
      assert (G : s' pk = s pk); [|rewrite Hkey, Hsz in G; by injection G as ->]. rewrite Hown1; rewrite Hsame by done; done.
  - rewrite Hrest by done. destruct (decide (plain_in (Some pk) f)) as [Hp1|Hp1].
    + assert (Hin : f ∈ plain_fields (finish fs (Some pk) true 1)) by (rewrite plain_spec by done; by apply elem_of_list_filter). rewrite (Hst1 f Hin). unfold stored. destruct (is_zero (s (f_col f))) eqn:Ez.
      * apply is_zero_unset in Ez. assert (Some pk ≠ Some (f_col f)) by congruence. destruct Hp1 as [Hp1 _]. unfold is_db in Hp1. destruct (f_def f) as [| |v] eqn:Ed; [by apply R4|done|by apply R3].
      * apply R1. by apply is_zero_set.
    + assert (Hdb2 : f_def f = DbDefault). { unfold plain_in, is_db in Hp1. destruct (f_def f); [|done|]; exfalso; apply Hp1; (split; [done|congruence]). }
      rewrite Hsame; [|apply nd_not; [by apply cols_nodup|]; apply dbdef_spec; [done|]; exists f; split_and!; [done..|by left]]. apply R1. destruct Hwhich as [?|[?|?]]; done.
Qed.
(** a key above the counter moves it, which the ids given to the other structs do not take into account *)
Theorem struct_keys_refuted : ∃ ss counter, ss ≠ [] ∧ ∀ now table,
  let '(_, e, out) := insert_data (finish base_fields (Some id_col) true 1) now table false None None (λ _, SAnswer None 3 (inr counter)) (Slice (Some <$> ss)) in
  e = Done None ∧ auto_ids counter (own_key id_col <$> ss) = [1; 10; 11] ∧ (λ o, default (Plain VNull) (o ≫= λ s : structv, Some (s id_col))) <$> out = Plain ∘ VInt <$> [1; 10; 2].
Proof. exists [base_struct 0 9 9 (str "a"); base_struct 10 9 9 (str "b"); base_struct 0 9 9 (str "c")], 1. split; [done|]. intros now table. by vm_compute. Qed.
(** a case: the third of four records has a key, and the counter is at 21 *)
Example struct_keys_case :
  let ss := [base_struct 0 0 0 (str "a"); base_struct 0 9 9 (str "b"); base_struct 20 9 9 (str "c"); base_struct 0 9 9 []] in
  let '(_, e, out) := insert_data (finish base_fields (Some id_col) true 1) (λ _, VInt 1700) (str "t") false None None (λ _, SAnswer None 4 (inr 21)) (Slice (Some <$> ss)) in
  e = Done None ∧ auto_ids 21 (own_key id_col <$> ss) = [21; 22; 20; 23] ∧
  (λ o, default (Plain VNull) (o ≫= λ s : structv, Some (s id_col))) <$> out = Plain ∘ VInt <$> [21; 22; 20; 23] ∧
  (λ o, default (Plain VNull) (o ≫= λ s : structv, Some (s (str "created_at")))) <$> out = Plain ∘ VInt <$> [1700; 9; 9; 9].
Proof. by vm_compute. Qed.
