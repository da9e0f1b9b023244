(** C37 and C42: interval names and timeframe strings. *)
From Verif Require Import Tac NameProofs.
Open Scope list_scope.
Open Scope Z_scope.

(** C37. [normalize_interval] accepts exactly the intervals of [TextSpec.normal_form]
    and gives their normal form: an int above 1 and a calendar name are their own;
    a duration loses the whitespace around it, the zeros before it and upper case. *)
Theorem C37_normal_forms : forall i j, normalize_interval i = Some j <-> normal_form i j.
Proof. exact normalize_iff. Qed.
Print Assumptions C37_normal_forms.
Example C37_normal_forms_example :
  normalize_interval (Named (lit " 05M ")) = Some (Named (lit "5m")) /\ normal_form (Named (lit " 05M ")) (Named (lit "5m")) /\
  normalize_interval (Named (lit "2w")) = None /\ normalize_interval (Every 1) = None /\ normalize_interval (Every 20) = Some (Every 20).
Proof. split; [comp|]. split; [apply C37_normal_forms; comp|]. calc. Qed.

Theorem C37_idempotent : forall i j, normalize_interval i = Some j -> normalize_interval j = Some j.
Proof. intros i j H. apply normalize_iff, (normal_form_idem i), normalize_iff, H. Qed.
Print Assumptions C37_idempotent.

(** The name of an indicator on an interval exists exactly for valid intervals, and
    parses back to the indicator's name and the interval's normal form. *)
Theorem C37_name_roundtrip : forall base i,
  (indicator_interval_name base i = None <-> normalize_interval i = None) /\
  forall name, indicator_interval_name base i = Some name ->
    exists j, normalize_interval i = Some j /\ parse_interval_name name = (base, Some j).
Proof.
  intros base i. split.
  - unfold indicator_interval_name, format_interval. destruct (normalize_interval i) as [[n|s]|]; split; congruence.
  - intros name H. destruct (proj1 (name_built base i)) as [j N]; [eauto|]. exists j. split; [now apply normalize_iff|].
    now apply (name_parses base i).
Qed.
Print Assumptions C37_name_roundtrip.
Example C37_name_example :
  indicator_interval_name (lit "rsi") (Named (lit "01H")) = Some (lit "rsi@1h") /\
  parse_interval_name (lit "rsi@1h") = (lit "rsi", Some (Named (lit "1h"))) /\
  parse_interval_name (lit "rsi@12") = (lit "rsi", Some (Every 12)) /\
  parse_interval_name (lit "a@b@weekly") = (lit "a@b", Some (Named (lit "weekly"))).
Proof. calc. Qed.

(** So two bindings have the same name exactly when they are of the same indicator
    on the same interval, and never the name of an indicator itself: registering a
    name with the separator is rejected. *)
Theorem C37_names_distinct : forall base base' i i' name,
  indicator_interval_name base i = Some name ->
  (indicator_interval_name base' i' = Some name <-> base = base' /\ normalize_interval i = normalize_interval i').
Proof.
  intros base base' i i' name H. destruct (C37_name_roundtrip base i) as [_ R]. destruct (R name H) as (j & J & P). split.
  - intro H'. destruct (C37_name_roundtrip base' i') as [_ R']. destruct (R' name H') as (j' & J' & P').
    rewrite P in P'. injection P' as -> ->. split; congruence.
  - intros [-> E]. unfold indicator_interval_name, format_interval in *. now rewrite <- E.
Qed.
Print Assumptions C37_names_distinct.
Theorem C37_plain_names : forall name,
  (validate_source_name name = true <-> ~ In "@"%char name) /\
  (validate_source_name name = true -> parse_interval_name name = (name, None) /\
     forall base i, indicator_interval_name base i <> Some name).
Proof.
  intro name. split; [apply validate_iff|]. intro V. apply validate_iff in V. split; [now apply name_plain|].
  intros base i H. destruct (C37_name_roundtrip base i) as [_ R]. destruct (R name H) as (j & _ & P).
  rewrite (name_plain name V) in P. discriminate P.
Qed.
Print Assumptions C37_plain_names.
Example C37_plain_example : validate_source_name (lit "rsi_20") = true /\ validate_source_name (lit "rsi@weekly") = false.
Proof. calc. Qed.

(** A set of intervals to bind to is rejected when empty, or when a member is
    invalid, or when two members have the same normal form; it then consists of the
    normal forms. *)
Theorem C37_interval_sets : forall declared allow_base res,
  normalize_intervals declared allow_base = Some res <->
  declared <> [] /\ Forall2 (bound_form allow_base) declared res /\ NoDup res.
Proof. exact normalize_intervals_iff. Qed.
Print Assumptions C37_interval_sets.
Example C37_interval_sets_example :
  normalize_intervals [Every 5; Named (lit "base"); Named (lit "1H")] true = Some [Every 5; Named (lit "base"); Named (lit "1h")] /\
  normalize_intervals [Every 5; Named (lit "base")] false = None /\
  normalize_intervals [Named (lit "1H"); Named (lit "01h")] true = None.
Proof. calc. Qed.

(** C42. A well-formed timeframe (TextSpec.timeframe: one or more numbers with a
    unit, separated by whitespace, of different units) is accepted with its parts,
    and its seconds are the sum over the parts. *)
Theorem C42_wellformed_accepted : forall s parts, timeframe s parts ->
  parse_timeframe s = Some parts /\
  exists secs, Forall2 part_seconds parts secs /\ to_seconds (Some s) = Some (fold_right Z.add 0 secs).
Proof.
  intros s parts T. pose proof (timeframe_parses s parts T) as P. split; [easy|].
  destruct (parse_result _ _ P) as (_ & _ & F). destruct (parts_seconds parts) as [ks K].
  { eapply Forall_impl; [|exact F]. intros p [_ H]. exact H. }
  exists ks. split; [easy|]. unfold to_seconds. destruct s as [|c s]; [discriminate P|]. rewrite P. now apply sum_seconds_ok.
Qed.
Print Assumptions C42_wellformed_accepted.
Example C42_example :
  timeframe (lit " 1H  30min") [(1, lit "hour"); (30, lit "min")] /\ to_seconds (Some (lit " 1H  30min")) = Some 5400.
Proof.
  split; [|comp]. apply (parse_guarded [lit "1H"; lit "30min"]); [discriminate| | |comp].
  - apply (sp_more [" "%char] (lit "1H") " "%char (lit " 30min") [lit "30min"]); [repeat constructor|now left|discriminate|].
    apply (sp_one [" "%char; " "%char] (lit "30min") []); [repeat constructor|constructor].
  - intros w [<-|[<-|[]]]; [exists (lit "1"), (lit "H") | exists (lit "30"), (lit "min")];
      (split; [reflexivity|]; split; [discriminate|]; split; [discriminate|]);
      split; repeat constructor; first [apply digit_iff; reflexivity | apply letter_iff; reflexivity].
Qed.

(** What is accepted has at least one part and each unit at most once. *)
Theorem C42_accepted_parts : forall s parts, parse_timeframe s = Some parts ->
  parts <> [] /\ NoDup (map snd parts) /\ Forall (fun p => 0 <= fst p /\ exists short secs, tf_unit short (snd p) secs) parts.
Proof.
  intros s parts P. destruct (parse_result _ _ P) as (A & B & F). split; [easy|]. split; [easy|].
  eapply Forall_impl; [|exact F]. intros p [H U]. split; [easy|]. now apply unit_exists.
Qed.
Print Assumptions C42_accepted_parts.

(** Strings whose words all are digits followed by letters are accepted only if
    well-formed. Missing from the full property: other strings. *)
Theorem C42_only_wellformed_partial : forall ws s parts, ws <> [] -> spaced ws s ->
  (forall w, In w ws -> exists d l, w = d ++ l /\ d <> [] /\ l <> [] /\ Forall digit d /\ Forall letter l) ->
  (parse_timeframe s = Some parts <-> timeframe s parts).
Proof.
  intros ws s parts N S W. split; [now apply (parse_guarded ws)|apply timeframe_parses].
Qed.
Print Assumptions C42_only_wellformed_partial.
(** The full property fails: text around a part and parts without whitespace
    between them are accepted, as long as there are as many words as parts. *)
Theorem C42_only_wellformed_refuted : exists s parts, parse_timeframe s = Some parts /\ ~ timeframe s parts.
Proof.
  exists (lit "x1h"), [(1, lit "hour")]. split; [comp|]. intros (ws & N & S & F & _).
  inversion F as [|t p ? ? P F']. subst. inversion F'. subst. destruct P as (d & l & short & secs & -> & D & _).
  apply numeral_iff in D as (D1 & D2 & _).
  assert (E : forall w d l w' c s, d <> [] -> forallb is_digit d = true -> blank w -> is_space c = false -> is_digit c = false ->
              c :: s = w ++ (d ++ l) ++ w' -> False).
  { clear. intros w d l w' c s N D B C1 C2 E. destruct w as [|x w].
    - destruct d as [|y d]; [easy|]. cbn in *. injection E as -> _. rewrite C2 in D. discriminate.
    - injection E as -> _. inversion B. apply space_iff in H1. congruence. }
  remember (lit "x1h") as s eqn:Hs. change (lit "x1h") with ("x"%char :: lit "1h") in Hs. subst s.
  inversion S as [|w t w' B B' T Q|w t c rest ts B C M]; subst; [|easy].
  symmetry in Q. exact (E w d l w' "x"%char (lit "1h") D1 D2 B eq_refl eq_refl Q).
Qed.
Print Assumptions C42_only_wellformed_refuted.
Example C42_refuted_example : parse_timeframe (lit "1h30m !") = Some [(1, lit "hour"); (30, lit "min")].
Proof. comp. Qed.

(** The formatted timeframe that data sources use in cache keys parses to the same
    parts, so formatting again changes nothing. *)
Theorem C42_format_roundtrip : forall s f, s <> [] -> format_timeframe (Some s) = Some f ->
  parse_timeframe f = parse_timeframe s /\ format_timeframe (Some f) = Some f.
Proof.
  intros s f N. unfold format_timeframe. destruct s as [|c s]; [easy|]. destruct (parse_timeframe (c :: s)) as [p|] eqn:P; [|discriminate].
  intro E. injection E as <-. pose proof (format_roundtrip _ _ P) as R.
  assert (X : map (fun '(n, u) => py_str n ++ u) p = map part_str p) by (apply map_ext; now intros [n u]). rewrite X.
  split; [easy|]. destruct (join_space (map part_str p)) as [|x y] eqn:J; [discriminate R|]. rewrite R, X. now rewrite J.
Qed.
Print Assumptions C42_format_roundtrip.
Example C42_format_example : format_timeframe (Some (lit "30M  01h")) = Some (lit "30min 1hour").
Proof. comp. Qed.
