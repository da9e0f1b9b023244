(** C81, C82: the JSON export. *)
From Verif Require Import JsonSpec JsonProofs JsonTables.
Open Scope list_scope.

(** ** C81: values *)
(** Exactly the missing values become null. *)
Theorem C81_null : forall repr dumps v, json_safe repr dumps v = JScalar JNull <-> missing v.
Proof. exact null_missing. Qed.
Print Assumptions C81_null.
Example C81_null_ex : forall repr dumps,
  json_safe repr dumps (VEnum (VFloat NaN)) = JScalar JNull /\ json_safe repr dumps (VFloat (Fin 0)) <> JScalar JNull.
Proof. intros repr dumps. split; [|discriminate]. apply C81_null. repeat constructor. Qed.

(** An infinity is named, and a finite number that a double can hold is kept. *)
Theorem C81_numbers : forall repr dumps v x, v = VFloat x \/ v = VDecimal x \/ v = VNpFloat x ->
  match x with
  | NaN => json_safe repr dumps v = JScalar JNull
  | PosInf => json_safe repr dumps v = JScalar (JStr (lit "Infinity"))
  | NegInf => json_safe repr dumps v = JScalar (JStr (lit "-Infinity"))
  | Fin q => ~ too_large (Fin q) -> json_safe repr dumps v = JScalar (JFloat (Fin q))
  end.
Proof.
  intros repr dumps v x H. destruct x as [| | |q]; try (destruct H as [->|[->| ->]]; reflexivity).
  intros NL. assert (E : to_float (Fin q) = Fin q).
  { unfold to_float. destruct (Qle_bool double_bound q) eqn:E1.
    - exfalso. apply NL. constructor. apply Qle_bool_iff in E1. unfold double_bound in E1. apply (Qle_trans _ q); [exact E1|apply Qle_Qabs].
    - destruct (Qle_bool q (- double_bound)) eqn:E2; [|reflexivity]. exfalso. apply NL. constructor. apply Qle_bool_iff in E2.
      unfold double_bound in E2. rewrite <- Qabs_opp. apply (Qle_trans _ (- q)); [|apply Qle_Qabs].
      rewrite <- (Qopp_involutive (2 ^ 1024 # 1)). now apply Qopp_le_compat. }
  destruct H as [->|[->| ->]]; cbn [json_safe safe_float safe_num]; [reflexivity| |]; now rewrite E.
Qed.
Print Assumptions C81_numbers.

(** A bool, an integer and a text are kept, a date is its text, and a sequence or an
    array is a list of as many elements, each converted where it stands; an Enum member
    and a 0-d array are what they hold. *)
Theorem C81_plain : forall repr dumps,
  (forall b v, v = VBool b \/ v = VNpBool b -> json_safe repr dumps v = JScalar (JBool b)) /\
  (forall z v, v = VInt z \/ v = VNpInt z -> json_safe repr dumps v = JScalar (JInt z)) /\
  (forall s v, v = VStr s \/ v = VBytes s \/ v = VDate s \/ v = VDatetime64 (Some s) \/ v = VTimedelta (Some s) \/ v = VOther s ->
     json_safe repr dumps v = JScalar (JStr s)) /\
  (forall l v, v = VList l \/ v = VArray l -> exists es, json_safe repr dumps v = JList es /\ length es = length l /\
     forall i e, nth_error l i = Some e -> nth_error es i = Some (json_safe repr dumps e)) /\
  (forall w v, v = VEnum w \/ v = VArray0 w -> json_safe repr dumps v = json_safe repr dumps w).
Proof.
  intros repr dumps. repeat split.
  - intros b v [->| ->]; reflexivity.
  - intros z v [->| ->]; reflexivity.
  - intros s v H. repeat destruct H as [->|H]; subst; reflexivity.
  - intros l v H. exists (map (json_safe repr dumps) l). split; [destruct H as [->| ->]; reflexivity|]. split; [now rewrite map_length|].
    intros i e N. now apply map_nth_error.
  - intros w v [->| ->]; reflexivity.
Qed.
Print Assumptions C81_plain.
Example C81_plain_ex : forall repr dumps,
  json_safe repr dumps (VList [VEnum (VInt 3); VArray [VNpBool true; VFloat NaN]]) =
    JList [JScalar (JInt 3); JList [JScalar (JBool true); JScalar JNull]].
Proof. intros. reflexivity. Qed.

(** [json.dumps(..., allow_nan=False)] accepts every value in which no finite number
    is too large for a double. *)
Theorem C81_strict_partial : forall repr dumps v, ~ overflows v ->
  strict (json_safe repr dumps v) /\ dumpable (json_safe repr dumps v) = true.
Proof. intros repr dumps v NO. assert (S' := safe_strict repr dumps v NO). split; [exact S'|]. now apply dumpable_strict. Qed.
Print Assumptions C81_strict_partial.
(** A finite Decimal that is too large becomes an infinite float, which [json.dumps]
    refuses: "values of any type" does not hold. *)
Theorem C81_strict_refuted : exists q, forall repr dumps, dumpable (json_safe repr dumps (VDecimal (Fin q))) = false.
Proof. exists (inject_Z (2 ^ 1024)). intros repr dumps. vm_compute. reflexivity. Qed.
Print Assumptions C81_strict_refuted.
Example C81_strict_ex : ~ overflows (VList [VFloat NaN; VDict [(VInt 1, VDecimal (Fin (1#2)))]; VSet [VStr (lit "a"); VFloat PosInf]]).
Proof.
  intros O. inversion O; subst. cbn in H0. destruct H0 as [<-|[<-|[<-|[]]]]; inversion H1; subst.
  - cbn in H0. destruct H0 as [E|[]]. injection E as <- <-. inversion H2.
  - cbn in H0. destruct H0 as [E|[]]. injection E as <- <-. inversion H2; subst. inversion H0; subst. exfalso. apply H3. vm_compute. reflexivity.
  - cbn in H0. destruct H0 as [<-|[<-|[]]]; inversion H2.
Qed.

(** The entries of a dict with str keys, and the fields of a named tuple, are all
    kept, each under its own name, in order. *)
Theorem C81_dict_partial : forall repr dumps (l : list (text * pyval)), NoDup (map fst l) ->
  let entries := JDict (map (fun e => (JStr (fst e), json_safe repr dumps (snd e))) l) in
  json_safe repr dumps (VDict (map (fun e => (VStr (fst e), snd e)) l)) = entries /\ json_safe repr dumps (VNamed l) = entries.
Proof.
  intros repr dumps l ND entries. unfold entries. cbn [json_safe].
  assert (A : apart (map fst (map (fun e => (JStr (fst e), json_safe repr dumps (snd e))) l))).
  { rewrite map_map. cbn [fst]. rewrite <- (map_map fst JStr). now apply apart_str. }
  split; f_equal.
  - rewrite map_map. etransitivity; [|exact (dict_apart _ A)]. reflexivity.
  - etransitivity; [|exact (dict_apart _ A)]. f_equal. apply map_ext. now intros [n v].
Qed.
Print Assumptions C81_dict_partial.
(** Whatever its keys, a dict is written with one entry for each group of keys that are
    written alike, at the place of the first with the value of the last. *)
Theorem C81_keys : forall repr dumps (l : list (pyval * pyval)),
  exists entries es,
    Forall2 (fun e f => written_key (json_safe repr dumps) dumps (fst e) (fst f) /\ snd f = json_safe repr dumps (snd e)) l entries /\
    json_safe repr dumps (VDict l) = JDict es /\ collapses entries es.
Proof.
  intros repr dumps l. cbn [json_safe]. eexists. eexists. split; [|split; [reflexivity|apply dict_collapses]].
  induction l as [|[k w] l IH]; cbn [map]; constructor; [|exact IH]. cbn [fst snd]. split; [|reflexivity].
  destruct k; try (apply key_text); lazymatch goal with |- written_key _ _ ?k _ => destruct (json_safe repr dumps k) eqn:E end;
    (now apply key_scalar) || (now apply key_list) || (now apply key_dict).
Qed.
Print Assumptions C81_keys.
(** True, 1 and 1.0 written under one key; no entry of the others is lost. *)
Example C81_keys_ex : forall repr dumps,
  json_safe repr dumps (VDict [(VBool true, VInt 5); (VStr (lit "1"), VInt 6); (VFloat (Fin 1), VInt 7)]) =
    JDict [(JBool true, JScalar (JInt 7)); (JStr (lit "1"), JScalar (JInt 6))].
Proof. intros. reflexivity. Qed.
(** With other keys entries can be lost: None and NaN are both written as null. *)
Theorem C81_dict_refuted : exists l : list (pyval * pyval), NoDup (map fst l) /\
  forall repr dumps, exists es, json_safe repr dumps (VDict l) = JDict es /\ (length es < length l)%nat.
Proof.
  exists [(VNone, VInt 1); (VFloat NaN, VInt 2)]. split.
  - constructor; [intros [E|[]]; discriminate|]. constructor; [intros []|constructor].
  - intros repr dumps. eexists. split; [reflexivity|]. cbn. lia.
Qed.
Print Assumptions C81_dict_refuted.
Example C81_dict_ex : NoDup (map fst [(lit "a", VNone); (lit "b", VInt 1)]).
Proof. constructor; [intros [E|[]]; discriminate|]. constructor; [intros []|constructor]. Qed.

(** A set is written the same whatever order it is iterated in. *)
Theorem C81_sets : forall repr dumps l l', (forall a b, repr a = repr b -> a = b) ->
  no_mixed_equals (map (json_safe repr dumps) l) -> Permutation l l' ->
  json_safe repr dumps (VSet l) = json_safe repr dumps (VSet l') /\
  (forall es, json_safe repr dumps (VSet l) = JList es -> Permutation (map (json_safe repr dumps) l) es).
Proof.
  intros repr dumps l l' INJ NM P. split.
  - cbn [json_safe]. f_equal. apply members_unique; [exact INJ|exact NM|]. now apply Permutation_map.
  - intros es. cbn [json_safe]. intros H. injection H as <-. unfold sort_members. destruct (all_comparable _); apply sort_perm.
Qed.
Print Assumptions C81_sets.
Example C81_sets_ex : forall repr dumps,
  json_safe repr dumps (VSet [VStr (lit "b"); VStr (lit "a")]) = JList [JScalar (JStr (lit "a")); JScalar (JStr (lit "b"))] /\
  json_safe repr dumps (VSet [VInt 2; VNpInt 1; VFloat (Fin (3#2))]) = JList [JScalar (JInt 1); JScalar (JFloat (Fin (3#2))); JScalar (JInt 2)].
Proof. intros. split; reflexivity. Qed.

(** ** C82: the payload of a result *)
Lemma asked_checked : forall r symbols syms, asked r symbols syms <-> checked_symbols r symbols = Got syms.
Proof. intros r symbols syms. symmetry. apply checked_ok. Qed.
Lemma known_valid : forall s, known_section s <-> In s valid_sections.
Proof. intros s. unfold known_section, valid_sections, table_names. cbn [In]. intuition. Qed.
Lemma valid_inc : forall inc, negb (forallb (fun s => text_mem s valid_sections) inc) = false <-> forall s, In s inc -> known_section s.
Proof.
  intros inc. rewrite negb_false_iff, forallb_forall. split; intros H s I; [apply known_valid, text_mem_in|apply text_mem_in, known_valid]; now apply H.
Qed.
Lemma payload_inv : forall repr dumps r inc m symbols p, to_json repr dumps r (ANames inc) m symbols = Got p ->
  (forall s, In s inc -> known_section s) /\ exists syms, asked r symbols syms /\
  sections inc (all_sections repr dumps r m syms) (start_payload r) = Got p.
Proof.
  intros repr dumps r inc m symbols p. rewrite to_json_sections. destruct (negb _) eqn:V; [discriminate|]. assert (V' := proj1 (valid_inc inc) V).
  destruct (checked_symbols r symbols) as [syms|] eqn:C; [|discriminate]. cbn [jbind]. intros H. split; [exact V'|]. exists syms. split; [now apply asked_checked|exact H].
Qed.
Lemma section_value : forall repr dumps r m syms n v, In (n, Got (Some v)) (all_sections repr dumps r m syms) ->
  (n = lit "metrics" /\ v = json_safe repr dumps (VNamed (r_metrics r))) \/
  (n = lit "metrics_df" /\ table_json repr dumps (r_metrics_df r) m = Got (Some v)) \/
  (n = lit "trades" /\ table_json repr dumps (filter_symbols (r_trades r) syms) m = Got (Some v)) \/
  (n = lit "orders" /\ table_json repr dumps (filter_symbols (r_orders r) syms) m = Got (Some v)) \/
  (n = lit "portfolio" /\ table_json repr dumps (r_portfolio r) m = Got (Some v)) \/
  (n = lit "positions" /\ table_json repr dumps (filter_symbols (r_positions r) syms) m = Got (Some v)) \/
  (n = lit "bootstrap" /\ exists b, r_bootstrap r = Some b /\ bootstrap_json repr dumps b = Got v) \/
  (n = lit "signals" /\ exists l d, r_signals r = Some l /\ signals_json repr dumps l m syms = Got d /\ v = JDict d) \/
  (n = lit "stops" /\ exists t, r_stops r = Some t /\ table_json repr dumps (filter_stops t syms) m = Got (Some v)).
Proof.
  intros repr dumps r m syms n v I. unfold all_sections in I. cbn [In] in I.
  assert (PR : forall (a b : text) (x y : jres (option json)), (a, x) = (b, y) -> b = a /\ y = x) by (intros; split; congruence).
  repeat (destruct I as [I|I]; [apply PR in I; destruct I as [-> I]|]); [..|destruct I].
  - left. split; [reflexivity|congruence].
  - right; left. split; [reflexivity|congruence].
  - do 2 right; left. split; [reflexivity|congruence].
  - do 3 right; left. split; [reflexivity|congruence].
  - do 4 right; left. split; [reflexivity|congruence].
  - do 5 right; left. split; [reflexivity|congruence].
  - do 6 right; left. split; [reflexivity|]. destruct (r_bootstrap r) as [b|]; [|discriminate]. exists b. split; [reflexivity|].
    destruct (bootstrap_json repr dumps b); cbn [jbind] in I; congruence.
  - do 7 right; left. split; [reflexivity|]. destruct (r_signals r) as [l|]; [|discriminate].
    destruct (signals_json repr dumps l m syms) as [d|] eqn:D; cbn [jbind] in I; [|discriminate]. exists l, d. split; [reflexivity|]. split; [exact D|congruence].
  - do 8 right. split; [reflexivity|]. destruct (r_stops r) as [t|]; [|discriminate]. exists t. split; [reflexivity|congruence].
Qed.

(** A call succeeds exactly when [include] is a collection of known names, [symbols]
    is absent or a non-empty collection of symbols of the result, and [max_rows] is not
    negative or no table is written. *)
Theorem C82_accepts : forall repr dumps r include m symbols,
  (exists p, to_json repr dumps r include m symbols = Got p) <->
  exists inc syms, include = ANames inc /\ (forall s, In s inc -> known_section s) /\ asked r symbols syms /\
    (nonnegative m \/ ~ writes_table r inc syms).
Proof.
  intros repr dumps r include m symbols. split.
  - intros [p H]. destruct include as [s|inc]; [discriminate|]. destruct (payload_inv _ _ _ _ _ _ _ H) as (V & syms & A & SE).
    exists inc, syms. split; [reflexivity|]. split; [exact V|]. split; [exact A|].
    assert (DEF : exists p', sections inc (all_sections repr dumps r m syms) (start_payload r) = Got p') by eauto.
    rewrite sections_defined in DEF. destruct (match m with Some z => (z <? 0)%Z | None => false end) eqn:NN.
    2:{ left. destruct m as [z|]; [|exact I]. cbn. apply Z.ltb_ge in NN. exact NN. }
    right. assert (NEG : ~ nonnegative m) by (destruct m as [z|]; [|discriminate]; cbn; apply Z.ltb_lt in NN; lia).
    assert (TJ : forall t, table_json repr dumps t m <> Fails BadMaxRows -> False).
    { intros t E. apply E. unfold table_json. destruct (records_fail repr dumps t m) as [G|[_ ->]]; [|reflexivity]. apply records_defined in G. contradiction. }
    assert (TF : forall t, (exists o, table_json repr dumps t m = Got o) -> False).
    { intros t [o E]. apply (TJ t). congruence. }
    intros [(n & IN & TN)|[[IN NS]|[IN (l & s & t & ES & IS & RQ)]]].
    + unfold table_names in TN. cbn [In] in TN. unfold all_sections in DEF.
      destruct TN as [<-|[<-|[<-|[<-|[<-|[]]]]]]; eapply TF.
      * eapply DEF; [right; left; reflexivity|exact IN].
      * eapply DEF; [do 2 right; left; reflexivity|exact IN].
      * eapply DEF; [do 3 right; left; reflexivity|exact IN].
      * eapply DEF; [do 4 right; left; reflexivity|exact IN].
      * eapply DEF; [do 5 right; left; reflexivity|exact IN].
    + destruct (r_stops r) as [t|] eqn:ST; [|congruence]. eapply (TF (filter_stops t syms)). apply (DEF (lit "stops")); [|exact IN].
      unfold all_sections. rewrite ST. do 8 right; left; reflexivity.
    + assert (G : exists o, jbind (signals_json repr dumps l m syms) (fun d => Got (Some (JDict d))) = Got o).
      { apply (DEF (lit "signals")); [|exact IN]. unfold all_sections. rewrite ES. do 7 right; left; reflexivity. }
      assert (G' : exists d, signals_json repr dumps l m syms = Got d).
      { destruct G as [o G]. destruct (signals_json repr dumps l m syms); [eauto|discriminate]. }
      assert (F := signals_fail repr dumps l m syms NEG G').
      assert (X : In (s, t) (filter (fun e => match syms with None => true | Some s => text_mem (fst e) s end) l)).
      { apply filter_In. split; [exact IS|]. cbn. destruct syms as [q|]; [|reflexivity]. now apply text_mem_in. }
      rewrite F in X. destruct X.
  - intros (inc & syms & -> & V & A & NW). rewrite to_json_sections.
    rewrite (proj2 (valid_inc inc) V). apply asked_checked in A. rewrite A. cbn [jbind]. apply sections_defined.
    assert (TJ : nonnegative m -> forall t, exists o, table_json repr dumps t m = Got o).
    { intros NN t. unfold table_json. destruct (proj1 (records_defined repr dumps t m) NN) as [js ->]. cbn. eauto. }
    intros n v IL IN. unfold all_sections in IL. cbn [In] in IL.
    assert (PR : forall (a b : text) (x y : jres (option json)), (a, x) = (b, y) -> b = a /\ y = x) by (intros; split; congruence).
    repeat (destruct IL as [IL|IL]; [apply PR in IL; destruct IL as [-> ->]|]); [..|destruct IL].
    + eauto.
    + destruct NW as [NN|NW]; [now apply TJ|]. exfalso. apply NW. left. eexists. split; [exact IN|]. unfold table_names. now left.
    + destruct NW as [NN|NW]; [now apply TJ|]. exfalso. apply NW. left. eexists. split; [exact IN|]. unfold table_names. right; now left.
    + destruct NW as [NN|NW]; [now apply TJ|]. exfalso. apply NW. left. eexists. split; [exact IN|]. unfold table_names. do 2 right; now left.
    + destruct NW as [NN|NW]; [now apply TJ|]. exfalso. apply NW. left. eexists. split; [exact IN|]. unfold table_names. do 3 right; now left.
    + destruct NW as [NN|NW]; [now apply TJ|]. exfalso. apply NW. left. eexists. split; [exact IN|]. unfold table_names. do 4 right; now left.
    + destruct (r_bootstrap r) as [b|]; [|eauto]. unfold bootstrap_json.
      destruct (proj1 (records_defined repr dumps (b_conf b) None) I) as [js ->]. destruct (proj1 (records_defined repr dumps (b_drawdown_conf b) None) I) as [js' ->].
      cbn [jbind]. eauto.
    + destruct (r_signals r) as [l|] eqn:ES; [|eauto]. destruct NW as [NN|NW].
      * destruct (signals_defined repr dumps l m syms NN) as [d ->]. cbn [jbind]. eauto.
      * assert (F : forall s t, In (s, t) l -> (match syms with None => true | Some q => text_mem s q end) = false).
        { intros s t I. destruct (match syms with None => true | Some q => text_mem s q end) eqn:E; [|reflexivity]. exfalso. apply NW. right. right.
          split; [exact IN|]. exists l, s, t. split; [exact ES|]. split; [exact I|]. destruct syms; [now apply text_mem_in|exact Logic.I]. }
        assert (G : signals_json repr dumps l m syms = Got []).
        { clear - F. induction l as [|[s t] l IH]; [reflexivity|]. cbn [signals_json]. rewrite (F s t) by now left. apply IH. intros s' t' I. apply (F s' t'). now right. }
        rewrite G. cbn [jbind]. eauto.
    + destruct (r_stops r) as [t|] eqn:ES; [|eauto]. destruct NW as [NN|NW]; [now apply TJ|]. exfalso. apply NW. right. left. split; [exact IN|congruence].
Qed.
Print Assumptions C82_accepts.

(** The payload has the dates and the sections that were asked for and exist, each once. *)
Theorem C82_sections : forall repr dumps r inc m symbols p, to_json repr dumps r (ANames inc) m symbols = Got p ->
  NoDup (map fst p) /\
  (forall name, In name (map fst p) <-> name = lit "start_date" \/ name = lit "end_date" \/ (In name inc /\ present r name)) /\
  In (lit "start_date", JScalar (JStr (r_start r))) p /\ In (lit "end_date", JScalar (JStr (r_end r))) p.
Proof.
  intros repr dumps r inc m symbols p H. destruct (payload_inv _ _ _ _ _ _ _ H) as (V & syms & A & SE).
  destruct (sections_spec repr dumps _ _ _ _ SE) as (added & -> & IN & ND).
  assert (NDA : NoDup (map fst added)).
  { apply ND. unfold all_sections. cbn [map fst]. repeat (constructor; [cbn [In]; intros X; repeat (destruct X as [X|X]; [discriminate|]); exact X|]). constructor. }
  assert (PRES : forall name, In name (map fst added) <-> In name inc /\ present r name).
  { intros name. rewrite in_map_iff. split.
    - intros ([n j] & <- & I). apply IN in I. destruct I as [I1 I2]. split; [exact I1|]. cbn [fst]. apply section_value in I2.
      unfold present, table_names. cbn [In].
      destruct I2 as [[-> _]|[[-> _]|[[-> _]|[[-> _]|[[-> _]|[[-> _]|[(-> & b & E & _)|[(-> & l & d & E & _)|(-> & t & E & _)]]]]]]]]; try tauto.
      + right. right. left. split; [reflexivity|congruence].
      + right. right. right. left. split; [reflexivity|congruence].
      + right. right. right. right. split; [reflexivity|congruence].
    - intros [I1 P]. assert (DEF : exists p', sections inc (all_sections repr dumps r m syms) (start_payload r) = Got p') by eauto.
      rewrite sections_defined in DEF.
      assert (OUT : forall j, In (name, Got (Some j)) (all_sections repr dumps r m syms) -> exists x, fst x = name /\ In x added).
      { intros j I. exists (name, j). split; [reflexivity|]. apply IN. now split. }
      assert (TJ : forall t o, table_json repr dumps t m = Got o -> exists j, table_json repr dumps t m = Got (Some j)).
      { intros t o. unfold table_json. destruct (dataframe_records repr dumps t m); cbn [jbind]; [eauto|discriminate]. }
      assert (TAB : forall t, In (name, table_json repr dumps t m) (all_sections repr dumps r m syms) -> exists x, fst x = name /\ In x added).
      { intros t I. destruct (DEF _ _ I I1) as [o E]. destruct (TJ _ _ E) as [j J]. rewrite J in I. now apply (OUT j). }
      destruct P as [->|[T|[[-> B]|[[-> B]|[-> B]]]]].
      + eapply OUT. left. reflexivity.
      + unfold table_names in T. cbn [In] in T. destruct T as [<-|[<-|[<-|[<-|[<-|[]]]]]]; eapply TAB.
        * right; left; reflexivity.
        * do 2 right; left; reflexivity.
        * do 3 right; left; reflexivity.
        * do 4 right; left; reflexivity.
        * do 5 right; left; reflexivity.
      + destruct (r_bootstrap r) as [b|] eqn:ER; [|congruence].
        assert (I : In (lit "bootstrap", jbind (bootstrap_json repr dumps b) (fun j => Got (Some j))) (all_sections repr dumps r m syms))
          by (unfold all_sections; rewrite ER; do 6 right; left; reflexivity).
        destruct (DEF _ _ I I1) as [o E]. destruct (bootstrap_json repr dumps b) as [j|]; cbn [jbind] in *; [|discriminate]. now apply (OUT j).
      + destruct (r_signals r) as [l|] eqn:ER; [|congruence].
        assert (I : In (lit "signals", jbind (signals_json repr dumps l m syms) (fun d => Got (Some (JDict d)))) (all_sections repr dumps r m syms))
          by (unfold all_sections; rewrite ER; do 7 right; left; reflexivity).
        destruct (DEF _ _ I I1) as [o E]. destruct (signals_json repr dumps l m syms) as [d|]; cbn [jbind] in *; [|discriminate]. now apply (OUT (JDict d)).
      + destruct (r_stops r) as [t|] eqn:ER; [|congruence]. apply (TAB (filter_stops t syms)). unfold all_sections. rewrite ER. do 8 right; left; reflexivity. }
  split; [|split; [|split]].
  - unfold start_payload. cbn [map fst app]. assert (NK : forall n, In n inc -> n <> lit "start_date" /\ n <> lit "end_date").
    { intros n I. specialize (V n I). unfold known_section, table_names in V. cbn [In] in V.
      split; intros ->; repeat (destruct V as [V|V]; [discriminate|]);
        (destruct V as [V|V]; [repeat (destruct V as [V|V]; [discriminate|]); destruct V|]); repeat (destruct V as [V|V]; [discriminate|]); discriminate. }
    constructor; [|constructor; [|exact NDA]].
    + intros [E|I]; [discriminate|]. apply PRES in I. destruct (NK _ (proj1 I)). congruence.
    + intros I. apply PRES in I. destruct (NK _ (proj1 I)). congruence.
  - intros name. rewrite map_app, in_app_iff, PRES. unfold start_payload. cbn [map fst In]. intuition.
  - apply in_or_app. left. now left.
  - apply in_or_app. left. right. now left.
Qed.
Print Assumptions C82_sections.

(** Each section shows its part of the result: the metrics, the tables with the first
    [max_rows] rows (of the requested symbols, for tables by symbol), and one table for
    each requested symbol with signals. The two tables of the bootstrap are whole. *)
Theorem C82_tables : forall repr dumps r inc m symbols p, result_ok r -> to_json repr dumps r (ANames inc) m symbols = Got p ->
  exists syms, asked r symbols syms /\
  (forall j, In (lit "metrics", j) p -> j = json_safe repr dumps (VNamed (r_metrics r))) /\
  (forall j, In (lit "metrics_df", j) p -> table_section repr dumps (r_metrics_df r) None m j) /\
  (forall j, In (lit "portfolio", j) p -> table_section repr dumps (r_portfolio r) None m j) /\
  (forall j, In (lit "trades", j) p -> table_section repr dumps (r_trades r) syms m j) /\
  (forall j, In (lit "orders", j) p -> table_section repr dumps (r_orders r) syms m j) /\
  (forall j, In (lit "positions", j) p -> table_section repr dumps (r_positions r) syms m j) /\
  (forall j, In (lit "stops", j) p -> exists t, r_stops r = Some t /\ table_section repr dumps t syms m j) /\
  (forall j, In (lit "signals", j) p -> exists l chosen d, r_signals r = Some l /\ j = JDict d /\
     (forall e, In e l -> (chosen e = true <-> match syms with None => True | Some q => In (fst e) q end)) /\
     Forall2 (fun e x => fst x = JStr (fst e) /\ table_section repr dumps (snd e) None m (snd x)) (filter chosen l) d) /\
  (forall j, In (lit "bootstrap", j) p -> exists b c d, r_bootstrap r = Some b /\
     table_section repr dumps (b_conf b) None None c /\ table_section repr dumps (b_drawdown_conf b) None None d /\
     j = JDict ([(JStr (lit "conf_intervals"), c); (JStr (lit "drawdown_conf"), d)] ++
                map (fun e => (JStr (fst e), json_safe repr dumps (VNamed (snd e)))) (b_tuples b))).
Proof.
  intros repr dumps r inc m symbols p (OM & OT & OO & OP & OS & OB & OG & OX) H. destruct (payload_inv _ _ _ _ _ _ _ H) as (V & syms & A & SE).
  destruct (sections_spec repr dumps _ _ _ _ SE) as (added & -> & IN & _). exists syms. split; [exact A|].
  assert (AT : forall n j, n <> lit "start_date" -> n <> lit "end_date" -> In (n, j) (start_payload r ++ added) -> In (n, Got (Some j)) (all_sections repr dumps r m syms)).
  { intros n j N1 N2 I. apply in_app_or in I. destruct I as [I|I]; [|now apply IN]. unfold start_payload in I. cbn [In] in I. destruct I as [E|[E|[]]]; congruence. }
  assert (WHOLE : forall t j, table_ok t -> table_json repr dumps t m = Got (Some j) -> table_section repr dumps t None m j).
  { intros t j OK E. destruct (whole_section _ _ _ _ _ OK E) as (j' & E' & T). congruence. }
  assert (FILT : forall t j, table_ok t -> table_json repr dumps (filter_symbols t syms) m = Got (Some j) -> table_section repr dumps t syms m j).
  { intros t j OK E. destruct (filtered_section _ _ _ _ _ _ OK E) as (j' & E' & T). congruence. }
  assert (VAL : forall n j, n <> lit "start_date" -> n <> lit "end_date" -> In (n, j) (start_payload r ++ added) -> _)
    by (intros n j N1 N2 I; exact (section_value _ _ _ _ _ _ _ (AT n j N1 N2 I))).
  clear IN SE AT H.
  repeat split; intros j I; apply VAL in I; try discriminate;
    destruct I as [[E I]|[[E I]|[[E I]|[[E I]|[[E I]|[[E I]|[(E & b & ER & I)|[(E & l & d & ER & I & JD)|(E & t & ER & I)]]]]]]]]; try discriminate E; clear E.
  - exact I.
  - now apply WHOLE.
  - now apply WHOLE.
  - now apply FILT.
  - now apply FILT.
  - now apply FILT.
  - exists t. split; [exact ER|]. destruct (OX t ER) as [OK SC]. destruct (stops_section _ _ _ _ _ _ OK (or_introl SC) I) as (j' & E' & T). congruence.
  - exists l, (fun e => match syms with None => true | Some q => text_mem (fst e) q end), d. split; [exact ER|]. split; [exact JD|]. split.
    + intros e _. destruct syms as [q|]; [apply text_mem_in|tauto].
    + apply signals_ok in I. assert (OL : forall e, In e (filter (fun e => match syms with None => true | Some q => text_mem (fst e) q end) l) -> table_ok (snd e)).
      { intros [s t] X. apply filter_In in X. exact (OG l s t ER (proj1 X)). }
      clear JD. revert OL. induction I as [|e x l' d' [K (js & EJ & D)] F IH]; intros OL; [constructor|]. constructor; [|apply IH; intros e' X; apply OL; now right].
      split; [exact K|]. apply WHOLE; [apply OL; now left|]. unfold table_json. rewrite D. cbn [jbind]. now rewrite EJ.
  - unfold bootstrap_json in I. destruct (dataframe_records repr dumps (b_conf b) None) as [c|] eqn:DC; [|discriminate].
    destruct (dataframe_records repr dumps (b_drawdown_conf b) None) as [d|] eqn:DD; [|discriminate].
    destruct (OB b ER) as [O1 O2]. exists b, (JList c), (JList d). split; [exact ER|].
    assert (T1 : table_json repr dumps (b_conf b) None = Got (Some (JList c))) by (unfold table_json; now rewrite DC).
    assert (T2 : table_json repr dumps (b_drawdown_conf b) None = Got (Some (JList d))) by (unfold table_json; now rewrite DD).
    destruct (whole_section _ _ _ _ _ O1 T1) as (j1 & E1 & S1). destruct (whole_section _ _ _ _ _ O2 T2) as (j2 & E2 & S2).
    assert (J : forall a b : json, Got a = Got b -> a = b) by congruence. apply J in I. subst j.
    split; [congruence|]. split; [congruence|]. f_equal. f_equal. apply map_ext. now intros [n v].
Qed.
Print Assumptions C82_tables.

(** [to_json_str] never fails where [to_json] succeeds, if no value of the result is too
    large for a double. *)
Lemma section_strict : forall repr dumps t syms m j, table_fits t -> table_section repr dumps t syms m j -> strict j.
Proof.
  intros repr dumps t syms m j FIT (chosen & records & -> & _ & F). constructor. intros j I.
  assert (IN : forall r, In r (limit m (filter chosen (t_rows t))) -> In r (t_rows t)).
  { intros r X. apply limit_in in X. apply filter_In in X. apply X. }
  induction F as [|r x l js (es & -> & _ & _ & C2) F IH]; [destruct I|]. destruct I as [<-|I].
  - constructor. intros k e KE. destruct (C2 k e KE) as (n & v & -> & HF & ->). split; [constructor|]. apply safe_strict.
    destruct r as [ix vs]. apply (FIT ix vs v); [apply IN; now left|]. apply in_or_app.
    destruct HF as [(i & _ & E)|(i & _ & E)]; apply nth_error_In in E; auto.
  - apply IH; [exact I|]. intros r' X. apply IN. now right.
Qed.
Lemma fields_strict : forall repr dumps l, fields_fit l -> strict (json_safe repr dumps (VNamed l)).
Proof. intros repr dumps l FIT. apply safe_strict. intros O. inversion O; subst. exact (FIT _ _ H0 H1). Qed.
Theorem C82_text_partial : forall repr dumps r inc m symbols p, result_ok r -> result_fits r ->
  to_json repr dumps r (ANames inc) m symbols = Got p -> forall name j, In (name, j) p -> strict j /\ dumpable j = true.
Proof.
  intros repr dumps r inc m symbols p OK (FM & FD & FT & FO & FP & FS & FB & FG & FX) H name j I.
  assert (G : strict j); [|split; [exact G|now apply dumpable_strict]].
  assert (U := C82_sections _ _ _ _ _ _ _ H). destruct U as (ND & KEYS & S1 & S2).
  assert (ONE : forall v, In (name, v) p -> v = j).
  { intros v X. clear - ND I X. induction p as [|[n x] p IH]; [destruct I|]. cbn [map fst] in ND. apply NoDup_cons_iff in ND. destruct ND as [NI ND].
    destruct I as [I|I], X as [X|X].
    - congruence.
    - exfalso. apply NI. injection I as -> ->. apply in_map_iff. now exists (name, v).
    - exfalso. apply NI. injection X as -> ->. apply in_map_iff. now exists (name, j).
    - now apply IH. }
  destruct (C82_tables _ _ _ _ _ _ _ OK H) as (syms & _ & TM & TD & TP & TT & TO & TS & TX & TG & TB).
  assert (K : In name (map fst p)) by (apply in_map_iff; now exists (name, j)). apply KEYS in K.
  destruct K as [->|[->|[_ P]]].
  - rewrite <- (ONE _ S1). repeat constructor.
  - rewrite <- (ONE _ S2). repeat constructor.
  - unfold present, table_names in P. cbn [In] in P. destruct P as [->|[[<-|[<-|[<-|[<-|[<-|[]]]]]]|[[-> _]|[[-> _]|[-> _]]]]].
    + rewrite (TM _ I). now apply fields_strict.
    + now apply (section_strict _ _ _ _ _ _ FD (TD _ I)).
    + now apply (section_strict _ _ _ _ _ _ FT (TT _ I)).
    + now apply (section_strict _ _ _ _ _ _ FO (TO _ I)).
    + now apply (section_strict _ _ _ _ _ _ FP (TP _ I)).
    + now apply (section_strict _ _ _ _ _ _ FS (TS _ I)).
    + destruct (TB _ I) as (b & c & d & ER & T1 & T2 & ->). destruct (FB b ER) as (F1 & F2 & F3). constructor. intros k e KE.
      apply in_app_or in KE. destruct KE as [[E|[E|[]]]|KE].
      * injection E as <- <-. split; [constructor|]. exact (section_strict _ _ _ _ _ _ F1 T1).
      * injection E as <- <-. split; [constructor|]. exact (section_strict _ _ _ _ _ _ F2 T2).
      * apply in_map_iff in KE. destruct KE as ([n l] & E & X). injection E as <- <-. split; [constructor|]. apply fields_strict. exact (F3 n l X).
    + destruct (TG _ I) as (l & chosen & d & ER & -> & _ & F). constructor. intros k e KE.
      assert (IN : forall x, In x (filter chosen l) -> table_fits (snd x)).
      { intros [s t] X. apply filter_In in X. exact (FG l s t ER (proj1 X)). }
      clear - F KE IN. induction F as [|x y l' d' [K T] F IH]; [destruct KE|]. destruct KE as [E|KE].
      * subst y. cbn [fst snd] in *. split; [rewrite K; constructor|]. apply (section_strict _ _ _ _ _ _ (IN x (or_introl eq_refl)) T).
      * apply IH; [exact KE|]. intros x' X. apply IN. now right.
    + destruct (TX _ I) as (t & ER & T). now apply (section_strict _ _ _ _ _ _ (FX t ER) T).
Qed.
Print Assumptions C82_text_partial.
(** A metric that is a too large Decimal makes [to_json_str] fail where [to_json] does not. *)
Theorem C82_text_refuted : exists r inc m symbols, result_ok r /\ forall repr dumps, exists p, to_json repr dumps r (ANames inc) m symbols = Got p /\
  exists name j, In (name, j) p /\ dumpable j = false.
Proof.
  set (t := mk_table [None] [lit "symbol"] []).
  exists (mk_result (lit "2020-01-01") (lit "2020-12-31") [(lit "fees", VDecimal (Fin (inject_Z (2 ^ 1024))))] t t t t t None None None []), [lit "metrics"], None, None.
  split.
  - assert (OK : table_ok t).
    { split; [right; intros o [<-|[]]; reflexivity|]. split; [cbn; constructor; [intros []|constructor]|]. split; [discriminate|]. intros ix vs []. }
    do 5 (split; [exact OK|]). split; [discriminate|]. split; discriminate.
  - intros repr dumps. eexists. split; [reflexivity|]. eexists (lit "metrics"), _. split; [right; right; left; reflexivity|]. vm_compute. reflexivity.
Qed.
Print Assumptions C82_text_refuted.

Definition json_trades : table := mk_table [Some (lit "id")] [lit "symbol"; lit "pnl"]
  [([VInt 1], [VStr (lit "AAA"); VFloat (Fin (5#1))]); ([VInt 2], [VStr (lit "BBB"); VFloat NaN]); ([VInt 3], [VStr (lit "AAA"); VFloat PosInf])].
Definition json_positions : table := mk_table [Some (lit "symbol"); Some (lit "date")] [lit "shares"]
  [([VStr (lit "AAA"); VDate (lit "d1")], [VDecimal (Fin 3)]); ([VStr (lit "BBB"); VDate (lit "d1")], [VDecimal (Fin 4)])].
Definition json_portfolio : table := mk_table [Some (lit "date")] [lit "cash"] [([VDate (lit "d1")], [VDecimal (Fin 7)]); ([VDate (lit "d2")], [VDecimal (Fin 8)])].
Definition json_metrics_df : table := mk_table [None] [lit "name"; lit "value"] [([VInt 0], [VStr (lit "fees"); VFloat (Fin 0)])].
Definition json_result : result := mk_result (lit "d1") (lit "d2") [(lit "fees", VFloat (Fin 0)); (lit "calmar", VFloat PosInf)] json_metrics_df
  json_trades json_trades json_portfolio json_positions None (Some [(lit "AAA", json_portfolio); (lit "BBB", json_portfolio)]) None [lit "AAA"; lit "BBB"].
Example C82_ex_ok : result_ok json_result /\ result_fits json_result.
Proof.
  assert (ND : forall l : list text, (fix nd l := match l with [] => true | x :: r => negb (text_mem x r) && nd r end) l = true -> NoDup l).
  { induction l as [|x l IH]; intros H; [constructor|]. apply andb_true_iff in H. destruct H as [H1 H2]. constructor; [|now apply IH].
    intros I. apply text_mem_in in I. rewrite I in H1. discriminate. }
  assert (NA : forall t, forallb is_named (t_index t) = true -> named_index t).
  { intros t F o I. rewrite forallb_forall in F. specialize (F o I). destruct o; [eauto|discriminate]. }
  assert (O1 : table_ok json_trades).
  { split; [left; split; [apply NA; reflexivity|discriminate]|]. split; [apply ND; reflexivity|]. split; [discriminate|].
    intros ix vs [E|[E|[E|[]]]]; injection E as <- <-; split; reflexivity. }
  assert (O2 : table_ok json_positions).
  { split; [left; split; [apply NA; reflexivity|discriminate]|]. split; [apply ND; reflexivity|]. split; [discriminate|].
    intros ix vs [E|[E|[]]]; injection E as <- <-; split; reflexivity. }
  assert (O3 : table_ok json_portfolio).
  { split; [left; split; [apply NA; reflexivity|discriminate]|]. split; [apply ND; reflexivity|]. split; [discriminate|].
    intros ix vs [E|[E|[]]]; injection E as <- <-; split; reflexivity. }
  assert (O4 : table_ok json_metrics_df).
  { split; [right; intros o [<-|[]]; reflexivity|]. split; [apply ND; reflexivity|]. split; [discriminate|].
    intros ix vs [E|[]]; injection E as <- <-; split; reflexivity. }
  assert (FL : forall q, (Qabs q < 2 ^ 1024 # 1)%Q -> ~ overflows (VDecimal (Fin q))).
  { intros q L O. inversion O; subst. inversion H0; subst. apply Qle_not_lt in H1. contradiction. }
  assert (F1 : table_fits json_trades).
  { intros ix vs v [E|[E|[E|[]]]]; injection E as <- <-; intros [<-|[<-|[<-|[]]]] O; inversion O. }
  assert (F2 : table_fits json_positions).
  { intros ix vs v [E|[E|[]]]; injection E as <- <-; intros [<-|[<-|[<-|[]]]]; try (intros O; inversion O; fail); apply FL; vm_compute; reflexivity. }
  assert (F3 : table_fits json_portfolio).
  { intros ix vs v [E|[E|[]]]; injection E as <- <-; intros [<-|[<-|[]]]; try (intros O; inversion O; fail); apply FL; vm_compute; reflexivity. }
  assert (F4 : table_fits json_metrics_df).
  { intros ix vs v [E|[]]; injection E as <- <-; intros [<-|[<-|[<-|[]]]] O; inversion O. }
  split.
  - do 5 (split; [assumption|]). split; [discriminate|]. split; [|discriminate]. intros l s t E I. injection E as <-.
    destruct I as [E|[E|[]]]; injection E as <- <-; exact O3.
  - split; [intros n v [E|[E|[]]]; injection E as <- <-; intros O; inversion O|]. do 5 (split; [assumption|]). split; [discriminate|]. split; [|discriminate].
    intros l s t E I. injection E as <-. destruct I as [E|[E|[]]]; injection E as <- <-; exact F3.
Qed.
Example C82_ex : forall repr dumps,
  to_json repr dumps json_result (ANames [lit "signals"; lit "trades"; lit "positions"; lit "stops"]) (Some 1%Z) (Some (ANames [lit "BBB"])) =
  Got [(lit "start_date", JScalar (JStr (lit "d1"))); (lit "end_date", JScalar (JStr (lit "d2")));
       (lit "trades", JList [JDict [(JStr (lit "id"), JScalar (JInt 2)); (JStr (lit "symbol"), JScalar (JStr (lit "BBB"))); (JStr (lit "pnl"), JScalar JNull)]]);
       (lit "positions", JList [JDict [(JStr (lit "symbol"), JScalar (JStr (lit "BBB"))); (JStr (lit "date"), JScalar (JStr (lit "d1"))); (JStr (lit "shares"), JScalar (JFloat (Fin 4)))]]);
       (lit "signals", JDict [(JStr (lit "BBB"), JList [JDict [(JStr (lit "date"), JScalar (JStr (lit "d1"))); (JStr (lit "cash"), JScalar (JFloat (Fin 7)))]])])].
Proof. intros. vm_compute. reflexivity. Qed.
Example C82_ex_error : forall repr dumps,
  to_json repr dumps json_result (ANames [lit "trades"]) (Some (-1)%Z) None = Fails BadMaxRows /\
  to_json repr dumps json_result (ANames [lit "tradez"]) None None = Fails UnknownSection /\
  to_json repr dumps json_result (ANames []) None (Some (ANames [lit "CCC"])) = Fails SymbolNotFound /\
  exists p, to_json repr dumps json_result (ANames [lit "metrics"]) (Some (-1)%Z) None = Got p.
Proof. intros. repeat split. eexists. reflexivity. Qed.
