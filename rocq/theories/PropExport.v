(** C102: the JSON of an optimization. *)
From Verif Require Import ExportSpec JsonProofs JsonTables PropJson ExportProofs.
Open Scope list_scope.

(** Converting a converted value again leaves it as it is, if no number in it was too
    large; and whatever it is, the second conversion is strict JSON. *)
Theorem C102_twice : forall repr dumps,
  (forall v, ~ overflows v -> json_safe repr dumps (reread (json_safe repr dumps v)) = json_safe repr dumps v) /\
  (forall j, strict (json_safe repr dumps (reread j))).
Proof. intros repr dumps. split; [apply safe_twice|]. intros j. apply safe_strict, reread_fits. Qed.
Print Assumptions C102_twice.

(** A study is always summarised, also one none of whose trials completed: the number
    of all its trials, the value and parameters of its best completed trial, or null and
    none, and the attributes if there are any. *)
Theorem C102_study : forall repr dumps st, study_ok st -> exists j, study_summary repr dumps st = Written j /\ summary repr dumps st j.
Proof. intros repr dumps st OK. now apply summary_ok. Qed.
Print Assumptions C102_study.

Lemma window_names : forall a b c d e f g h (extra : list (text * pyval)), extra = [] \/ extra = [(lit "execution_symbols", h)] ->
  NoDup (map fst ([(lit "params", a); (lit "train_score", b); (lit "train_start_date", c); (lit "train_end_date", d);
    (lit "test_start_date", e); (lit "test_end_date", f); (lit "study", g)] ++ extra)).
Proof.
  intros a b c d e f g h extra H. destruct H as [->| ->]; cbn [map fst app]; repeat (constructor; [cbn [In]; intros X; repeat (destruct X as [X|X]; [discriminate|]); exact X|]); constructor.
Qed.
(** A window: its parameters, score, dates and study, and the symbols of each execution
    exactly when a selector chose them. *)
Theorem C102_window : forall repr dumps w, window_ok w -> study_fits (w_study w) ->
  exists j, window_json repr dumps w = Written j /\ window_object repr dumps w j.
Proof.
  intros repr dumps w (OS & NP & OX) F. destruct (summary_ok repr dumps _ OS) as (st & ES & SU). unfold window_json. rewrite ES. cbn [xbind].
  eexists. split; [reflexivity|].
  set (extra := match w_symbols w with None => [] | Some l => _ end).
  assert (X : extra = [] \/ extra = [(lit "execution_symbols", match w_symbols w with None => VNone | Some l => str_dict (map (fun '(i, s) => (decimal i, VSet (map VStr s))) (sort_by (fun a b => Nat.ltb (fst a) (fst b)) l)) end)]).
  { unfold extra. destruct (w_symbols w); [now right|now left]. }
  rewrite str_dict_object; [|exact (window_names _ _ _ _ _ _ _ _ _ X)].
  exists (json_safe repr dumps (VFloat (w_score w))), st. split; [apply float_written|]. split; [exact SU|].
  exists (map (fun e => (fst e, json_safe repr dumps (snd e))) extra). split.
  - rewrite map_app. cbn [map fst snd]. rewrite (summary_twice repr dumps _ _ F ES), !date_written, str_dict_object by exact NP. reflexivity.
  - unfold extra. destruct (w_symbols w) as [l|]; [|reflexivity]. cbn [map fst snd]. eexists. split; [reflexivity|]. now apply executions_written.
Qed.
Print Assumptions C102_window.

Lemma window_twice : forall repr dumps w j, window_fits w -> window_json repr dumps w = Written j -> json_safe repr dumps (reread j) = j.
Proof.
  intros repr dumps w j [FS FP] H. unfold window_json in H. destruct (study_summary repr dumps (w_study w)) as [st| |]; [|discriminate|discriminate].
  cbn [xbind] in H. apply written_inj in H. subst j. apply safe_twice, str_dict_fits. intros n v I.
  apply in_app_iff in I as [I|I].
  - cbn [In] in I. destruct I as [I|[I|[I|[I|[I|[I|[I|[]]]]]]]]; apply (f_equal snd) in I; cbn [snd] in I; subst v.
    + now apply str_dict_fits.
    + intros O; inversion O.
    + destruct (w_train_start w); intros O; inversion O.
    + destruct (w_train_end w); intros O; inversion O.
    + destruct (w_test_start w); intros O; inversion O.
    + destruct (w_test_end w); intros O; inversion O.
    + apply reread_fits.
  - destruct (w_symbols w) as [l|]; [|destruct I]. destruct I as [I|[]]. apply (f_equal snd) in I. cbn [snd] in I. subst v. apply executions_fit.
Qed.
Lemma windows_written : forall repr dumps l, (forall w, In w l -> window_ok w /\ study_fits (w_study w)) ->
  exists js, windows_json repr dumps l = Written js /\ Forall2 (fun w j => window_json repr dumps w = Written j /\ window_object repr dumps w j) l js.
Proof.
  intros repr dumps. induction l as [|w l IH]; intros OK; cbn [windows_json]; [exists []; split; [reflexivity|constructor]|].
  destruct (OK w (or_introl eq_refl)) as [O F]. destruct (C102_window repr dumps w O F) as (j & E & W). rewrite E. cbn [xbind].
  destruct IH as (js & EJ & FJ); [intros x I; apply OK; now right|]. rewrite EJ. cbn [xbind]. exists (j :: js). split; [reflexivity|]. constructor; [now split|exact FJ].
Qed.

Lemma opt_names : forall a b c d e (extra : list (text * pyval)), extra = [] \/ extra = [(lit "windows", e)] ->
  NoDup (map fst ([(lit "best_params", a); (lit "best_score", b); (lit "study", c); (lit "result", d)] ++ extra)).
Proof.
  intros a b c d e extra H. destruct H as [->| ->]; cbn [map fst app]; repeat (constructor; [cbn [In]; intros X; repeat (destruct X as [X|X]; [discriminate|]); exact X|]); constructor.
Qed.
(** The whole: it is refused exactly when the JSON of the result is, with the same
    error, whatever the studies; else it holds the best parameters and score, the
    study, the JSON of the result with the arguments given, and, for a walk forward,
    that of each window in order. Without [include] the result has its metrics,
    trades, orders and bootstrap. *)
Theorem C102_result : forall repr dumps o include m symbols, opt_ok o -> opt_fits o ->
  result_ok (o_result o) -> result_fits (o_result o) -> result_names (o_result o) ->
  match to_json repr dumps (o_result o) (match include with Some i => i | None => ANames [lit "metrics"; lit "trades"; lit "orders"; lit "bootstrap"] end) m symbols with
  | Fails e => optimize_json repr dumps o include m symbols = Refused e
  | Got p => exists score st windows, float_json (o_score o) score /\ summary repr dumps (o_study o) st /\
      match o_windows o with
      | None => windows = []
      | Some l => exists js, windows = [(lit "windows", JList js)] /\ Forall2 (window_object repr dumps) l js
      end /\
      optimize_json repr dumps o include m symbols =
      Written (object ([(lit "best_params", values repr dumps (o_params o)); (lit "best_score", score); (lit "study", st); (lit "result", object p)] ++ windows))
  end.
Proof.
  intros repr dumps o include m symbols (NP & OS & OW) (FS & FW) RO RF RN. unfold optimize_json.
  destruct (summary_ok repr dumps _ OS) as (st & ES & SU). rewrite ES. cbn [xbind].
  change (ANames default_include) with (ANames [lit "metrics"; lit "trades"; lit "orders"; lit "bootstrap"]).
  set (inc := match include with Some i => i | None => _ end).
  replace (match include with None => ANames [lit "metrics"; lit "trades"; lit "orders"; lit "bootstrap"] | Some i => i end) with inc by (unfold inc; now destruct include).
  destruct (to_json repr dumps (o_result o) inc m symbols) as [p|e] eqn:TJ; cbn [xbind]; [|reflexivity].
  assert (WS : exists extra windows, (match o_windows o with None => Written [] | Some l => xbind (windows_json repr dumps l) (fun js => Written [(lit "windows", VList (map reread js))]) end) = Written extra /\
    (extra = [] \/ exists v, extra = [(lit "windows", v)]) /\ map (fun e => (fst e, json_safe repr dumps (snd e))) extra = windows /\
    match o_windows o with None => windows = [] | Some l => exists js, windows = [(lit "windows", JList js)] /\ Forall2 (window_object repr dumps) l js end).
  { destruct (o_windows o) as [l|]; [|exists [], []; repeat split; now left].
    destruct (windows_written repr dumps l) as (js & EJ & FJ).
    { intros w I. split; [now apply OW|]. exact (proj1 (FW w I)). }
    rewrite EJ. cbn [xbind]. eexists. eexists. split; [reflexivity|]. split; [right; now eexists|]. split; [reflexivity|]. cbn [map fst snd]. exists js. split.
    - cbn [json_safe]. rewrite map_map. do 3 f_equal. rewrite <- (map_id js) at 2. apply map_ext_in. clear EJ OW. induction FJ as [|w j ws js [E W] FJ IH]; [intros ? []|].
      intros x [<-|I]; [apply (window_twice repr dumps w); [apply FW; now left|exact E]|]. apply IH; [|exact I]. intros y J. apply FW. now right.
    - clear -FJ. induction FJ as [|w j ws js [E W] FJ IH]; constructor; auto. }
  destruct WS as (extra & windows & -> & EX & EW & WS). cbn [xbind].
  exists (json_safe repr dumps (VFloat (o_score o))), st, windows. split; [apply float_written|]. split; [exact SU|]. split; [exact WS|]. f_equal.
  rewrite str_dict_object; [|destruct EX as [E0|[v E0]]; [exact (opt_names _ _ _ _ VNone _ (or_introl E0))|exact (opt_names _ _ _ _ v _ (or_intror E0))]].
  rewrite map_app, EW. cbn [map fst snd]. rewrite (summary_twice repr dumps _ _ FS ES), str_dict_object by exact NP.
  assert (EP : json_safe repr dumps (reread (JDict (map (fun '(n, j) => (JStr n, j)) p))) = object p).
  { rewrite (map_ext (fun '(n, j) => (JStr n, j)) (fun e : text * json => (JStr (fst e), snd e))) by now intros [n j]. apply twice.
    - constructor. intros k j I. apply in_map_iff in I as ([n x] & E & I). cbn [fst snd] in E. injection E as <- <-. split; [constructor|].
      destruct inc as [s|inc']; [discriminate|]. exact (proj1 (C82_text_partial _ _ _ _ _ _ _ RO RF TJ n x I)).
    - exact (result_distinct repr dumps _ _ _ _ _ RN TJ). }
  rewrite EP. reflexivity.
Qed.
Print Assumptions C102_result.

(** [to_json_str] of an optimization never raises where [to_json] does not, if no
    number among the best parameters is too large for a double: all else is converted
    twice. *)
Theorem C102_text_partial : forall repr dumps o include m symbols j, fields_fit (o_params o) ->
  optimize_json repr dumps o include m symbols = Written j -> strict j /\ text_ok j = true.
Proof.
  intros repr dumps o include m symbols j FP H. assert (G : strict j); [|split; [exact G|now apply dumpable_strict]].
  unfold optimize_json in H. destruct (study_summary repr dumps (o_study o)) as [st| |]; [|discriminate|discriminate]. cbn [xbind] in H.
  destruct (to_json repr dumps (o_result o) _ m symbols) as [p|e]; [|discriminate]. cbn [xbind] in H.
  assert (K : forall extra, fields_fit extra -> strict (json_safe repr dumps (str_dict ([(lit "best_params", str_dict (o_params o)); (lit "best_score", VFloat (o_score o)); (lit "study", reread st);
    (lit "result", reread (JDict (map (fun '(n, j) => (JStr n, j)) p)))] ++ extra)))).
  { intros extra FE. apply safe_strict, str_dict_fits. intros n v I. apply in_app_iff in I as [I|I]; [|exact (FE n v I)].
    cbn [In] in I. destruct I as [I|[I|[I|[I|[]]]]]; apply (f_equal snd) in I; cbn [snd] in I; subst v; [now apply str_dict_fits|intros O; inversion O|apply reread_fits|apply reread_fits]. }
  destruct (o_windows o) as [l|].
  - destruct (windows_json repr dumps l) as [js| |]; [|discriminate|discriminate]. cbn [xbind] in H. apply written_inj in H. subst j. apply K.
    intros n v [I|[]]. apply (f_equal snd) in I. cbn [snd] in I. subst v. exact (reread_fits (JList js)).
  - cbn [xbind] in H. apply written_inj in H. subst j. apply K. intros ? ? [].
Qed.
Print Assumptions C102_text_partial.
(** With such a parameter it does. *)
Theorem C102_text_refuted : exists o, opt_ok o /\ opt_fits o /\ result_ok (o_result o) /\ forall repr dumps, exists j,
  optimize_json repr dumps o (Some (ANames [])) None None = Written j /\ text_ok j = false.
Proof.
  set (t := mk_table [None] [lit "symbol"] []).
  exists (mk_opt_result [(lit "x", VDecimal (Fin (inject_Z (2 ^ 1024))))] (Fin 1) (mk_result (lit "2020-01-01") (lit "2020-12-31") [] t t t t t None None None []) (mk_study true [] []) None).
  split; [split; [repeat constructor; intros []|split; [split; [intros ? []|constructor]|exact I]]|].
  split; [split; [split; [intros ? ? []|intros ? []]|exact I]|]. split.
  - assert (OK : table_ok t).
    { split; [right; intros o [<-|[]]; reflexivity|]. split; [cbn; constructor; [intros []|constructor]|]. split; [discriminate|]. intros ix vs []. }
    do 5 (split; [exact OK|]). split; [discriminate|]. split; discriminate.
  - intros repr dumps. eexists. split; [reflexivity|]. vm_compute. reflexivity.
Qed.
Print Assumptions C102_text_refuted.

(** A walk forward of two windows: the first study has a failed trial and two equally
    good ones, the second no completed trial; executions 10 and 9 chose symbols. *)
Example C102_ex :
  let st1 := mk_study true [mk_trial None []; mk_trial (Some (Fin 2)) [(lit "n", VInt 5)]; mk_trial (Some (Fin 2)) [(lit "n", VInt 6)]; mk_trial (Some NegInf) []] [] in
  let st2 := mk_study false [mk_trial None []] [(lit "note", VStr (lit "hi"))] in
  let w1 := mk_window [(lit "n", VInt 5)] st1 (Fin 2) None None (Some (lit "2020-01-01")) None (Some [(10%nat, [lit "B"; lit "A"]); (9%nat, [lit "AB"])]) in
  window_ok w1 /\ window_fits w1 /\ study_ok st2 /\ study_fits st2 /\ forall repr dumps,
  study_summary repr dumps st2 = Written (object [(lit "n_trials", number_of 1); (lit "best_value", JScalar JNull); (lit "best_params", JDict []);
    (lit "user_attrs", object [(lit "note", JScalar (JStr (lit "hi")))])]) /\
  window_json repr dumps w1 = Written (object [(lit "params", object [(lit "n", number_of 5)]); (lit "train_score", JScalar (JFloat (Fin 2)));
    (lit "train_start_date", JScalar JNull); (lit "train_end_date", JScalar JNull); (lit "test_start_date", JScalar (JStr (lit "2020-01-01")));
    (lit "test_end_date", JScalar JNull);
    (lit "study", object [(lit "n_trials", number_of 4); (lit "best_value", JScalar (JFloat (Fin 2))); (lit "best_params", object [(lit "n", number_of 5)])]);
    (lit "execution_symbols", object [(lit "9", JList [JScalar (JStr (lit "AB"))]); (lit "10", JList [JScalar (JStr (lit "A")); JScalar (JStr (lit "B"))])])]).
Proof.
  intros st1 st2 w1. assert (ND : forall (A B : Type) (x : A * B), NoDup (map fst [x])) by (intros; repeat constructor; intros []).
  assert (S1 : study_ok st1).
  { split; [|constructor]. intros t I. cbn in I. destruct I as [<-|[<-|[<-|[<-|[]]]]]; cbn [t_value t_params]; split; try discriminate; try constructor; try (intros []); constructor. }
  split; [split; [exact S1|split; [apply ND|]]|].
  { cbn. split; [repeat constructor; [intros [E|[]]; discriminate|intros []]|]. intros i s [E|[E|[]]]; injection E as <- <-; repeat (constructor; [cbn [In]; intros X; repeat (destruct X as [X|X]; [discriminate X|]); exact X|]); constructor. }
  split.
  { assert (FI : forall n z, fields_fit [(n, VInt z)]) by (intros n z n' v [E|[]]; injection E as _ <-; intros O; inversion O).
    split; [split; [intros ? ? []|]|apply FI]. intros t I. cbn in I. destruct I as [<-|[<-|[<-|[<-|[]]]]]; cbn [t_params]; try apply FI; intros ? ? []. }
  split; [split; [|apply ND]|].
  { intros t [<-|[]]. cbn. split; [discriminate|constructor]. }
  split; [split|].
  - intros n v [E|[]]. injection E as _ <-. intros O; inversion O.
  - intros t [<-|[]]. intros ? ? [].
  - intros repr dumps. split; reflexivity.
Qed.
