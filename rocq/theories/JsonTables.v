(** Proofs for C82: tables and the payload. *)
From Verif Require Import JsonSpec JsonProofs.
Open Scope list_scope.

Section Tables.
Variables repr dumps : json -> text.
Notation safe := (json_safe repr dumps).

Lemma record_json : forall names values, NoDup names -> (length names = length values)%nat ->
  safe (record_of names values) = JDict (combine (map JStr names) (map safe values)).
Proof.
  intros names values ND LE. unfold record_of. cbn [json_safe]. f_equal.
  assert (E : map (fun '(k, w) => (match k with VStr s => JStr s | _ => match safe k with JScalar s => s | c => JStr (dumps c) end end, safe w))
                (combine (map VStr names) values) = combine (map JStr names) (map safe values)).
  { clear ND. revert values LE. induction names as [|n names IH]; intros [|v values] LE; try discriminate LE; [reflexivity|].
    injection LE as LE. cbn [map combine]. rewrite (IH values LE). reflexivity. }
  rewrite E. apply dict_apart.
  assert (F : map fst (combine (map JStr names) (map safe values)) = map JStr names).
  { clear ND E. revert values LE. induction names as [|n names IH]; intros [|v values] LE; try discriminate LE; [reflexivity|].
    injection LE as LE. cbn [map combine fst]. now rewrite (IH values LE). }
  rewrite F. now apply apart_str.
Qed.
Lemma combine_nth : forall {A B} (a : list A) (b : list B) i x y,
  nth_error (combine a b) i = Some (x, y) <-> nth_error a i = Some x /\ nth_error b i = Some y.
Proof.
  intros A B. induction a as [|x0 a IH]; intros [|y0 b] [|i] x y; cbn; split; intros H; try discriminate; try (destruct H; discriminate).
  - injection H as <- <-. auto.
  - destruct H as [H1 H2]. congruence.
  - now apply IH.
  - now apply IH.
Qed.
Lemma record_spec : forall names values, NoDup names -> (length names = length values)%nat ->
  exists es, safe (record_of names values) = JDict es /\ NoDup (map fst es) /\
    (forall n v, (exists i, nth_error names i = Some n /\ nth_error values i = Some v) -> In (JStr n, safe v) es) /\
    (forall k e, In (k, e) es -> exists n v, k = JStr n /\ (exists i, nth_error names i = Some n /\ nth_error values i = Some v) /\ e = safe v).
Proof.
  intros names values ND LE. exists (combine (map JStr names) (map safe values)). split; [now apply record_json|]. split; [|split].
  - assert (F : map fst (combine (map JStr names) (map safe values)) = map JStr names).
    { clear ND. revert values LE. induction names as [|n names IH]; intros [|v values] LE; try discriminate LE; [reflexivity|].
      injection LE as LE. cbn [map combine fst]. now rewrite (IH values LE). }
    rewrite F. apply FinFun.Injective_map_NoDup; [|exact ND]. intros a b E. congruence.
  - intros n v (i & N & V). apply (nth_error_In _ i). apply combine_nth. rewrite !nth_error_map, N, V. now split.
  - intros k e I. apply In_nth_error in I. destruct I as [i E]. apply combine_nth in E. destruct E as [K V].
    rewrite nth_error_map in K, V. destruct (nth_error names i) as [n|] eqn:N; [|discriminate]. destruct (nth_error values i) as [v|] eqn:W; [|discriminate].
    cbn in K, V. exists n, v. split; [congruence|]. split; [exists i; now split|congruence].
Qed.

(** ** Index and columns *)
Lemma levels_named : forall t, named_index t -> map Some (level_names t) = t_index t.
Proof.
  intros t. unfold named_index, level_names. induction (t_index t) as [|o l IH]; intros N; [reflexivity|]. cbn.
  destruct (N o) as [s ->]; [now left|]. cbn. f_equal. apply IH. intros o I. apply N. now right.
Qed.
Lemma levels_unnamed : forall t, unnamed_index t -> level_names t = [].
Proof.
  intros t. unfold unnamed_index, level_names. induction (t_index t) as [|o l IH]; intros N; [reflexivity|]. cbn.
  rewrite (N o) by now left. cbn. apply IH. intros o' I. apply N. now right.
Qed.
Definition dropped (t : table) : bool := forallb (fun o => negb (is_named o)) (t_index t).
Lemma dropped_spec : forall t, table_ok t -> (dropped t = true /\ unnamed_index t) \/ (dropped t = false /\ named_index t /\ t_index t <> []).
Proof.
  intros t ([[N NE]|U] & _).
  - right. split; [|now split]. unfold dropped. destruct (t_index t) as [|o l] eqn:E; [congruence|]. cbn.
    destruct (N o) as [s ->]; [rewrite E; now left|]. reflexivity.
  - left. split; [|exact U]. unfold dropped. apply forallb_forall. intros o I. now rewrite (U o I).
Qed.
Definition shown_names (t : table) := if dropped t then t_columns t else level_names t ++ t_columns t.
Definition shown_values (t : table) (r : list pyval * list pyval) := if dropped t then snd r else fst r ++ snd r.
Lemma shown_fields : forall t r, table_ok t -> In r (t_rows t) ->
  NoDup (shown_names t) /\ (length (shown_names t) = length (shown_values t r))%nat /\
  forall n v, has_field t r n v <-> exists i, nth_error (shown_names t) i = Some n /\ nth_error (shown_values t r) i = Some v.
Proof.
  intros t [ix vs] OK I. destruct (OK) as (_ & ND & NC & LN). destruct (LN ix vs I) as [L1 L2].
  assert (FN : field_names t = level_names t ++ t_columns t) by reflexivity. rewrite FN in ND.
  unfold shown_names, shown_values, has_field. cbn [fst snd]. destruct (dropped_spec t OK) as [[-> U]|(-> & N & NE)].
  - rewrite (levels_unnamed t U) in ND. split; [exact ND|]. split; [now symmetry|]. intros n v. split.
    + intros [(i & E & _)|(i & E & V)]; [|exists i; now split]. apply nth_error_In in E. specialize (U _ E). discriminate.
    + intros (i & E & V). right. exists i. now split.
  - assert (LL := levels_named t N). assert (LE : (length (level_names t) = length (t_index t))%nat) by (rewrite <- LL; now rewrite map_length).
    split; [exact ND|]. split; [rewrite !app_length; lia|]. intros n v. split.
    + intros [(i & E & V)|(i & E & V)].
      * exists i. rewrite <- LL in E. rewrite nth_error_map in E. destruct (nth_error (level_names t) i) as [m|] eqn:M; [|discriminate]. injection E as ->.
        assert (B : (i < length (level_names t))%nat) by (apply nth_error_Some; congruence).
        rewrite !nth_error_app1 by lia. now split.
      * exists (length (level_names t) + i)%nat. rewrite !nth_error_app2 by lia.
        replace (length (level_names t) + i - length (level_names t))%nat with i by lia.
        replace (length (level_names t) + i - length ix)%nat with i by lia. now split.
    + intros (i & E & V). destruct (le_lt_dec (length (level_names t)) i) as [GE|LT].
      * right. rewrite nth_error_app2 in E, V by lia. exists (i - length (level_names t))%nat.
        replace (i - length ix)%nat with (i - length (level_names t))%nat in V by lia. now split.
      * left. rewrite nth_error_app1 in E, V by lia. exists i. split; [|exact V]. rewrite <- LL, nth_error_map, E. reflexivity.
Qed.
Lemma row_record : forall t r, table_ok t -> In r (t_rows t) -> is_record repr dumps t r (safe (record_of (shown_names t) (shown_values t r))).
Proof.
  intros t r OK I. destruct (shown_fields t r OK I) as (ND & LE & HF).
  destruct (record_spec (shown_names t) (shown_values t r) ND LE) as (es & E & NE & C1 & C2). exists es. split; [exact E|]. split; [exact NE|]. split.
  - intros n v F. apply C1. now apply HF.
  - intros k e K. destruct (C2 k e K) as (n & v & -> & F & ->). exists n, v. split; [reflexivity|]. split; [now apply HF|reflexivity].
Qed.
Lemma limit_in : forall {A} m (l : list A) x, In x (limit m l) -> In x l.
Proof.
  intros A m l x I. unfold limit in I. destruct m as [m|]; [|exact I]. rewrite <- (firstn_skipn (Z.to_nat m) l). apply in_or_app. now left.
Qed.
Lemma records_ok : forall t m js, table_ok t -> dataframe_records repr dumps t m = Got js ->
  Forall2 (is_record repr dumps t) (limit m (t_rows t)) js.
Proof.
  intros t m js OK. unfold dataframe_records. destruct (match m with Some m => (m <? 0)%Z | None => false end); [discriminate|].
  assert (NC : t_columns t <> []) by (destruct OK as (_ & _ & NC & _); exact NC).
  destruct (table_empty t) eqn:TE.
  - intros H. injection H as <-. unfold table_empty in TE. apply orb_true_iff in TE. destruct TE as [TE|TE]; apply Nat.eqb_eq in TE.
    + destruct (t_rows t); [|discriminate]. unfold limit. destruct m; [rewrite firstn_nil|]; constructor.
    + destruct (t_columns t); [congruence|discriminate].
  - cbv zeta. fold (dropped t). fold (shown_names t).
    assert (J : forall (T : Type) (a b : T), Got a = Got b -> a = b) by congruence. intros H. apply J in H. subst js.
    assert (E : match m with Some m0 => firstn (Z.to_nat m0) (map (fun '(ix, vs) => if dropped t then vs else ix ++ vs) (t_rows t))
                | None => map (fun '(ix, vs) => if dropped t then vs else ix ++ vs) (t_rows t) end = map (shown_values t) (limit m (t_rows t))).
    { assert (X : forall l : list (list pyval * list pyval), map (fun '(ix, vs) => if dropped t then vs else ix ++ vs) l = map (shown_values t) l)
        by (intros l; apply map_ext; now intros [ix vs]). unfold limit. destruct m; rewrite X; [apply firstn_map|reflexivity]. }
    rewrite E, map_map. assert (IN : forall r, In r (limit m (t_rows t)) -> In r (t_rows t)) by (intros r; apply limit_in).
    revert IN. generalize (limit m (t_rows t)). intros l. induction l as [|r l IH]; intros IN; cbn [map]; constructor.
    + apply row_record; [exact OK|]. apply IN. now left.
    + apply IH. intros r' I. apply IN. now right.
Qed.
Lemma records_defined : forall t m, nonnegative m <-> exists js, dataframe_records repr dumps t m = Got js.
Proof.
  intros t m. unfold dataframe_records, nonnegative. destruct m as [m|].
  - destruct (Z.ltb_spec m 0); split; try lia; [intros [js H']; discriminate|]. intros _. destruct (table_empty t); cbv zeta; eauto.
  - split; [|trivial]. intros _. destruct (table_empty t); cbv zeta; eauto.
Qed.
Lemma records_fail : forall t m, (exists js, dataframe_records repr dumps t m = Got js) \/ (~ nonnegative m /\ dataframe_records repr dumps t m = Fails BadMaxRows).
Proof.
  intros t m. unfold dataframe_records, nonnegative. destruct m as [m|].
  - destruct (Z.ltb_spec m 0); [right; split; [lia|reflexivity]|]. left. destruct (table_empty t); cbv zeta; eauto.
  - left. destruct (table_empty t); cbv zeta; eauto.
Qed.

(** ** Rows of the requested symbols *)
Lemma nodup_right : forall {A} (a b : list A), NoDup (a ++ b) -> NoDup b.
Proof. intros A a b. induction a as [|x a IH]; cbn; [easy|]. intros N. apply NoDup_cons_iff in N. now apply IH. Qed.
Lemma nodup_left : forall {A} (a b : list A), NoDup (a ++ b) -> NoDup a.
Proof.
  intros A a b. induction a as [|x a IH]; cbn; intros N; [constructor|]. apply NoDup_cons_iff in N. destruct N as [NI N].
  constructor; [|now apply IH]. intros I. apply NI. apply in_or_app. now left.
Qed.
Lemma field_nth : forall names values name v, NoDup names ->
  (field names values name = Some v <-> exists i, nth_error names i = Some name /\ nth_error values i = Some v).
Proof.
  induction names as [|n names IH]; intros values name v ND.
  - cbn. split; [discriminate|]. intros ([|i] & E & _); discriminate.
  - apply NoDup_cons_iff in ND. destruct ND as [NI ND]. destruct values as [|w values].
    + cbn. split; [discriminate|]. intros ([|i] & _ & E); discriminate.
    + cbn [field]. destruct (text_eqb n name) eqn:E.
      * apply text_eqb_eq in E. subst n. split.
        -- intros H. injection H as ->. exists 0%nat. now split.
        -- intros ([|i] & E1 & E2); cbn in E1, E2; [congruence|]. apply nth_error_In in E1. contradiction.
      * rewrite IH by exact ND. split.
        -- intros (i & E1 & E2). exists (S i). now split.
        -- intros ([|i] & E1 & E2); cbn in E1, E2; [|exists i; now split]. injection E1 as ->.
           assert (T : text_eqb name name = true) by now apply text_eqb_eq. congruence.
Qed.
Lemma in_symbols_spec : forall syms o, in_symbols syms o = true <-> exists s, o = Some (VStr s) /\ In s syms.
Proof.
  intros syms o. split.
  - destruct o as [[]|]; cbn; try discriminate. intros H. apply text_mem_in in H. eauto.
  - intros (s & -> & I). cbn. now apply text_mem_in.
Qed.
Lemma column_rows : forall t l r, table_ok t -> In r (t_rows t) -> In (lit "symbol") (t_columns t) ->
  (in_symbols l (field (t_columns t) (snd r) (lit "symbol")) = true <-> requested t (Some l) r).
Proof.
  intros t l r OK I C. destruct OK as (_ & ND & _ & _). unfold field_names in ND. apply nodup_right in ND as NDC.
  rewrite in_symbols_spec. unfold requested. split.
  - intros (s & F & IS) _. exists s. split; [|exact IS]. right. now apply field_nth in F.
  - intros H. destruct (H (or_introl C)) as (s & F & IS). exists s. split; [|exact IS]. apply field_nth; [exact NDC|].
    destruct F as [(i & E & _)|F]; [|exact F]. exfalso. apply nth_error_In in E.
    set (names := flat_map _ _) in ND. assert (IL : In (lit "symbol") names) by (apply in_flat_map; exists (Some (lit "symbol")); split; [exact E|now left]).
    clear - ND IL C. induction names as [|n names IH]; [destruct IL|]. cbn in ND. apply NoDup_cons_iff in ND. destruct ND as [NI ND].
    destruct IL as [->|IL]; [|now apply IH]. apply NI. apply in_or_app. now right.
Qed.
Lemma filter_rows : forall t symbols, table_ok t ->
  exists chosen, t_index (filter_symbols t symbols) = t_index t /\ t_columns (filter_symbols t symbols) = t_columns t /\
    t_rows (filter_symbols t symbols) = filter chosen (t_rows t) /\
    forall r, In r (t_rows t) -> (chosen r = true <-> requested t symbols r).
Proof.
  intros t symbols OK. assert (TR : forall l : list (list pyval * list pyval), filter (fun _ => true) l = l) by (induction l; cbn; congruence).
  destruct symbols as [l|].
  2:{ exists (fun _ => true). cbn. rewrite TR. do 3 (split; [reflexivity|]). intros r _. now split. }
  cbn [filter_symbols]. destruct (table_empty t) eqn:TE.
  { exists (fun _ => true). rewrite TR. do 3 (split; [reflexivity|]). intros r I. unfold table_empty in TE. apply orb_true_iff in TE.
    destruct OK as (_ & _ & NC & _). destruct TE as [TE|TE]; apply Nat.eqb_eq in TE; [destruct (t_rows t); [destruct I|discriminate]|].
    destruct (t_columns t); [congruence|discriminate]. }
  destruct (text_mem (lit "symbol") (t_columns t)) eqn:TC.
  { apply text_mem_in in TC. eexists. do 3 (split; [reflexivity|]). intros r I. now apply column_rows. }
  assert (NC : ~ In (lit "symbol") (t_columns t)) by (intros C; apply text_mem_in in C; congruence).
  destruct (Nat.ltb 1 (length (t_index t)) && text_mem (lit "symbol") (level_names t)) eqn:TM.
  - apply andb_true_iff in TM. destruct TM as [T1 T2]. apply Nat.ltb_lt in T1. apply text_mem_in in T2.
    eexists. do 3 (split; [reflexivity|]). intros r I. cbn beta. rewrite in_symbols_spec. destruct (OK) as (NU & ND & _ & _).
    assert (NA : named_index t). { destruct NU as [[N _]|U]; [exact N|]. rewrite (levels_unnamed t U) in T2. destruct T2. }
    assert (LL := levels_named t NA). change (field_names t) with (level_names t ++ t_columns t) in ND. apply nodup_left in ND.
    assert (FI : forall v, field (level_names t) (fst r) (lit "symbol") = Some v <-> exists i, nth_error (t_index t) i = Some (Some (lit "symbol")) /\ nth_error (fst r) i = Some v).
    { intros v. rewrite field_nth by exact ND. split; intros (i & E1 & E2); exists i; (split; [|exact E2]).
      - rewrite <- LL, nth_error_map, E1. reflexivity.
      - rewrite <- LL, nth_error_map in E1. destruct (nth_error (level_names t) i); cbn [option_map] in E1; congruence. }
    unfold requested. split.
    + intros (s & F & IS) _. exists s. split; [|exact IS]. left. now apply FI.
    + intros H. destruct H as (s & F & IS).
      { right. split; [exact T1|]. rewrite <- LL. now apply in_map. }
      exists s. split; [|exact IS]. apply FI. destruct F as [F|(i & E & _)]; [exact F|]. apply nth_error_In in E. contradiction.
  - exists (fun _ => true). rewrite TR. do 3 (split; [reflexivity|]). intros r I. split; [|reflexivity]. intros _ [C|[T1 T2]]; [contradiction|].
    exfalso. apply andb_false_iff in TM. destruct TM as [TM|TM]; [apply Nat.ltb_ge in TM; lia|].
    assert (IL : In (lit "symbol") (level_names t)) by (unfold level_names; apply in_flat_map; exists (Some (lit "symbol")); split; [exact T2|now left]).
    apply text_mem_in in IL. congruence.
Qed.
Lemma same_shape_ok : forall t t' chosen, table_ok t -> t_index t' = t_index t -> t_columns t' = t_columns t -> t_rows t' = filter chosen (t_rows t) -> table_ok t'.
Proof.
  intros t t' chosen (NU & ND & NC & LN) EI EC ER. unfold table_ok, named_index, unnamed_index, field_names. rewrite EI, EC, ER.
  split; [exact NU|]. split; [exact ND|]. split; [exact NC|]. intros ix vs I. apply filter_In in I. now apply LN.
Qed.
Lemma same_shape_record : forall t t' r j, t_index t' = t_index t -> t_columns t' = t_columns t -> is_record repr dumps t' r j -> is_record repr dumps t r j.
Proof.
  intros t t' r j EI EC (es & E & ND & C1 & C2). exists es. unfold has_field in *. rewrite EI, EC in *. now repeat (split; [assumption|]).
Qed.
Lemma Forall2_weaken : forall {A B} (P Q : A -> B -> Prop) a b, (forall x y, P x y -> Q x y) -> Forall2 P a b -> Forall2 Q a b.
Proof. intros A B P Q a b H F. induction F; constructor; auto. Qed.
Lemma filtered_section : forall t symbols m o, table_ok t -> table_json repr dumps (filter_symbols t symbols) m = Got o ->
  exists j, o = Some j /\ table_section repr dumps t symbols m j.
Proof.
  intros t symbols m o OK. destruct (filter_rows t symbols OK) as (chosen & EI & EC & ER & CH). unfold table_json, jbind.
  destruct (dataframe_records repr dumps (filter_symbols t symbols) m) as [js|] eqn:D; [|discriminate]. intros H. injection H as <-.
  exists (JList js). split; [reflexivity|]. exists chosen, js. split; [reflexivity|]. split; [exact CH|].
  apply records_ok in D; [|exact (same_shape_ok t _ chosen OK EI EC ER)]. rewrite ER in D.
  apply (Forall2_weaken (is_record repr dumps (filter_symbols t symbols)) _ _ _ (fun r j => same_shape_record t _ r j EI EC) D).
Qed.
Lemma whole_section : forall t m o, table_ok t -> table_json repr dumps t m = Got o ->
  exists j, o = Some j /\ table_section repr dumps t None m j.
Proof. intros t m o OK. apply (filtered_section t None m o OK). Qed.
Lemma stops_section : forall t symbols m o, table_ok t -> (In (lit "symbol") (t_columns t) \/ (length (t_index t) <= 1)%nat) ->
  table_json repr dumps (filter_stops t symbols) m = Got o -> exists j, o = Some j /\ table_section repr dumps t symbols m j.
Proof.
  intros t symbols m o OK SC H. destruct symbols as [l|]; [|now apply whole_section].
  assert (E : t_index (filter_stops t (Some l)) = t_index t /\ t_columns (filter_stops t (Some l)) = t_columns t /\
    exists chosen, t_rows (filter_stops t (Some l)) = filter chosen (t_rows t) /\ forall r, In r (t_rows t) -> (chosen r = true <-> requested t (Some l) r)).
  { unfold filter_stops. destruct (text_mem (lit "symbol") (t_columns t)) eqn:TC.
    - apply text_mem_in in TC. split; [reflexivity|]. split; [reflexivity|]. eexists. split; [reflexivity|]. intros r I. now apply column_rows.
    - split; [reflexivity|]. split; [reflexivity|]. exists (fun _ => true). split; [induction (t_rows t); cbn; congruence|].
      intros r I. split; [|reflexivity]. intros _ [C|[T1 T2]]; [apply text_mem_in in C; congruence|]. exfalso.
      destruct SC as [C|LE]; [apply text_mem_in in C; congruence|lia]. }
  destruct E as (EI & EC & chosen & ER & CH). unfold table_json, jbind in H.
  destruct (dataframe_records repr dumps (filter_stops t (Some l)) m) as [js|] eqn:D; [|discriminate]. injection H as <-.
  exists (JList js). split; [reflexivity|]. exists chosen, js. split; [reflexivity|]. split; [exact CH|].
  apply records_ok in D; [|exact (same_shape_ok t _ chosen OK EI EC ER)]. rewrite ER in D.
  apply (Forall2_weaken (is_record repr dumps (filter_stops t (Some l))) _ _ _ (fun r j => same_shape_record t _ r j EI EC) D).
Qed.

(** ** The payload *)
Fixpoint sections (inc : list text) (l : list (text * jres (option json))) (p : list (text * json)) : jres (list (text * json)) :=
  match l with
  | [] => Got p
  | (n, v) :: rest => jbind (section inc n v p) (sections inc rest)
  end.
Lemma sections_spec : forall inc l p p', sections inc l p = Got p' ->
  exists added, p' = p ++ added /\ (forall n j, In (n, j) added <-> In n inc /\ In (n, Got (Some j)) l) /\
    (NoDup (map fst l) -> NoDup (map fst added)).
Proof.
  intros inc. induction l as [|[n v] l IH]; intros p p'; cbn [sections].
  - intros H. injection H as <-. exists []. rewrite app_nil_r. split; [reflexivity|]. split; [|intros _; constructor].
    intros n j. cbn. tauto.
  - unfold section. destruct (text_mem n inc) eqn:TM; cbn [jbind].
    + apply text_mem_in in TM. destruct v as [[j|]|e]; cbn [jbind]; [| |discriminate].
      * intros H. destruct (IH _ _ H) as (added & -> & IN & ND). exists ((n, j) :: added). rewrite <- app_assoc. split; [reflexivity|]. split.
        -- intros n' j'. cbn [In]. rewrite IN. split.
           ++ intros [E|[I1 I2]]; [injection E as -> ->; auto|auto].
           ++ intros [I1 [E|I2]]; [left; congruence|auto].
        -- cbn [map fst]. intros NDL. apply NoDup_cons_iff in NDL. destruct NDL as [NI NDL]. constructor; [|now apply ND].
           intros I. apply in_map_iff in I. destruct I as ([n' j'] & E & I). cbn in E. subst n'. apply IN in I. apply NI.
           apply in_map_iff. exists (n, Got (Some j')). split; [reflexivity|apply I].
      * intros H. destruct (IH _ _ H) as (added & -> & IN & ND). exists added. split; [reflexivity|]. split.
        -- intros n' j'. rewrite IN. cbn [In]. split; [tauto|]. intros [I1 [E|I2]]; [congruence|auto].
        -- intros NDL. cbn [map fst] in NDL. apply NoDup_cons_iff in NDL. now apply ND.
    + intros H. destruct (IH _ _ H) as (added & -> & IN & ND). exists added. split; [reflexivity|]. split.
      -- intros n' j'. rewrite IN. cbn [In]. split; [tauto|]. intros [I1 [E|I2]]; [|auto].
         injection E as -> E2. apply text_mem_in in I1. congruence.
      -- intros NDL. cbn [map fst] in NDL. apply NoDup_cons_iff in NDL. now apply ND.
Qed.
Lemma sections_defined : forall inc l p, (exists p', sections inc l p = Got p') <-> forall n v, In (n, v) l -> In n inc -> exists o, v = Got o.
Proof.
  intros inc. induction l as [|[n v] l IH]; intros p; cbn [sections].
  - split; [intros _ n v []|eauto].
  - unfold section. destruct (text_mem n inc) eqn:TM; cbn [jbind].
    + apply text_mem_in in TM. destruct v as [[j|]|e]; cbn [jbind].
      * rewrite IH. split; intros H n' v' I; [destruct I as [E|I]; [injection E as <- <-; eauto|eauto]|apply H; now right].
      * rewrite IH. split; intros H n' v' I; [destruct I as [E|I]; [injection E as <- <-; eauto|eauto]|apply H; now right].
      * split; [intros [p' H]; discriminate|]. intros H. destruct (H n (Fails e)) as [o E]; [now left|exact TM|discriminate].
    + rewrite IH. split; intros H n' v' I; [|apply H; now right]. destruct I as [E|I]; [|eauto]. injection E as <- <-. intros C.
      apply text_mem_in in C. congruence.
Qed.
Definition checked_symbols (r : result) (symbols : option names_arg) : jres (option (list text)) :=
  match symbols with
  | None => Got None
  | Some (AStr _) => Fails SymbolsIsStr
  | Some (ANames l) =>
      match l with
      | [] => Fails SymbolsEmpty
      | _ => if forallb (fun s => text_mem s (r_symbols r)) l then Got (Some l) else Fails SymbolNotFound
      end
  end.
Definition all_sections (r : result) (m : option Z) (syms : option (list text)) : list (text * jres (option json)) :=
  [(lit "metrics", Got (Some (safe (VNamed (r_metrics r)))));
   (lit "metrics_df", table_json repr dumps (r_metrics_df r) m);
   (lit "trades", table_json repr dumps (filter_symbols (r_trades r) syms) m);
   (lit "orders", table_json repr dumps (filter_symbols (r_orders r) syms) m);
   (lit "portfolio", table_json repr dumps (r_portfolio r) m);
   (lit "positions", table_json repr dumps (filter_symbols (r_positions r) syms) m);
   (lit "bootstrap", match r_bootstrap r with None => Got None | Some b => jbind (bootstrap_json repr dumps b) (fun j => Got (Some j)) end);
   (lit "signals", match r_signals r with None => Got None | Some l => jbind (signals_json repr dumps l m syms) (fun d => Got (Some (JDict d))) end);
   (lit "stops", match r_stops r with None => Got None | Some t => table_json repr dumps (filter_stops t syms) m end)].
Definition start_payload (r : result) : list (text * json) :=
  [(lit "start_date", JScalar (JStr (r_start r))); (lit "end_date", JScalar (JStr (r_end r)))].
Lemma to_json_sections : forall r inc m symbols,
  to_json repr dumps r (ANames inc) m symbols =
  if negb (forallb (fun s => text_mem s valid_sections) inc) then Fails UnknownSection
  else jbind (checked_symbols r symbols) (fun syms => sections inc (all_sections r m syms) (start_payload r)).
Proof.
  intros r inc m symbols. unfold to_json. destruct (negb (forallb (fun s => text_mem s valid_sections) inc)); [reflexivity|].
  fold (checked_symbols r symbols). destruct (checked_symbols r symbols) as [syms|e]; [|reflexivity]. cbn [jbind].
  unfold all_sections. cbn [sections]. fold (start_payload r).
  assert (LAST : forall x : jres (list (text * json)), jbind x (fun p => Got p) = x) by now intros [|].
  repeat match goal with |- jbind ?x _ = jbind ?x _ => destruct x; cbn [jbind]; [|reflexivity] end.
  symmetry. apply LAST.
Qed.
Lemma checked_ok : forall r symbols syms, checked_symbols r symbols = Got syms <->
  match symbols with
  | None => syms = None
  | Some (AStr _) => False
  | Some (ANames l) => l <> [] /\ (forall s, In s l -> In s (r_symbols r)) /\ syms = Some l
  end.
Proof.
  intros r symbols syms. unfold checked_symbols. destruct symbols as [[s|[|s l]]|].
  - split; [discriminate|tauto].
  - split; [discriminate|intros [H _]; congruence].
  - destruct (forallb (fun s => text_mem s (r_symbols r)) (s :: l)) eqn:F.
    + rewrite forallb_forall in F. split.
      * intros H. injection H as <-. split; [discriminate|]. split; [|reflexivity]. intros x I. apply text_mem_in. now apply F.
      * intros (_ & _ & ->). reflexivity.
    + split; [discriminate|]. intros (_ & H & _). exfalso. assert (forallb (fun s => text_mem s (r_symbols r)) (s :: l) = true); [|congruence].
      apply forallb_forall. intros x I. apply text_mem_in. now apply H.
  - split; [congruence|now intros ->].
Qed.
Lemma signals_ok : forall l m syms d, signals_json repr dumps l m syms = Got d ->
  Forall2 (fun e x => fst x = JStr (fst e) /\ exists js, snd x = JList js /\ dataframe_records repr dumps (snd e) m = Got js)
    (filter (fun e => match syms with None => true | Some s => text_mem (fst e) s end) l) d.
Proof.
  induction l as [|[s t] l IH]; intros m syms d; cbn [signals_json filter fst].
  - intros H. injection H as <-. constructor.
  - destruct (match syms with None => true | Some s0 => text_mem s s0 end).
    + destruct (dataframe_records repr dumps t m) as [js|] eqn:D; cbn [jbind]; [|discriminate].
      destruct (signals_json repr dumps l m syms) as [rest|] eqn:SJ; cbn [jbind]; [|discriminate]. intros H. injection H as <-.
      constructor; [|now apply IH]. cbn. split; [reflexivity|]. now exists js.
    + apply IH.
Qed.
Lemma signals_defined : forall l m syms, nonnegative m -> exists d, signals_json repr dumps l m syms = Got d.
Proof.
  intros l m syms N. induction l as [|[s t] l [d IH]]; cbn [signals_json]; [eauto|].
  destruct (match syms with None => true | Some s0 => text_mem s s0 end); [|eauto].
  destruct (proj1 (records_defined t m) N) as [js ->]. cbn [jbind]. rewrite IH. cbn [jbind]. eauto.
Qed.
Lemma signals_fail : forall l m syms, ~ nonnegative m -> (exists d, signals_json repr dumps l m syms = Got d) ->
  filter (fun e => match syms with None => true | Some s => text_mem (fst e) s end) l = [].
Proof.
  intros l m syms N. induction l as [|[s t] l IH]; cbn [signals_json filter fst]; [reflexivity|].
  destruct (match syms with None => true | Some s0 => text_mem s s0 end); [|exact IH].
  destruct (records_fail t m) as [G|[_ ->]]; [apply records_defined in G; contradiction|]. cbn. intros [d H]. discriminate.
Qed.
End Tables.
