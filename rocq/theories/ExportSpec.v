(** Specification of C102. *)
From Verif Require Export JsonSpec ExportModel.
Open Scope list_scope.

(** A JSON object with exactly these fields, in this order. *)
Definition object (l : list (text * json)) : json := JDict (map (fun e => (JStr (fst e), snd e)) l).
Definition number_of (n : nat) : json := JScalar (JInt (Z.of_nat n)).
Definition date_of (o : option text) : json := JScalar (match o with Some s => JStr s | None => JNull end).
(** How a float is written. *)
Inductive float_json : num -> json -> Prop :=
| float_nan : float_json NaN (JScalar JNull)
| float_inf : float_json PosInf (JScalar (JStr (lit "Infinity")))
| float_ninf : float_json NegInf (JScalar (JStr (lit "-Infinity")))
| float_fin q : float_json (Fin q) (JScalar (JFloat (Fin q))).

Inductive less : num -> num -> Prop :=
| less_ninf q : less NegInf (Fin q)
| less_inf q : less (Fin q) PosInf
| less_both : less NegInf PosInf
| less_fin p q : (p < q)%Q -> less (Fin p) (Fin q).
(** The trial completed, with a value that no completed trial betters, and is the first
    such. *)
Definition best_one (st : study) (t : trial) (v : num) : Prop :=
  exists before after, s_trials st = before ++ t :: after /\ t_value t = Some v /\
    (forall u x, In u (s_trials st) -> t_value u = Some x -> ~ if s_maximize st then less v x else less x v) /\
    (forall u x, In u before -> t_value u = Some x -> if s_maximize st then less x v else less v x).
(** No completed trial has no number. *)
Definition study_ok (st : study) : Prop :=
  (forall t, In t (s_trials st) -> t_value t <> Some NaN /\ NoDup (map fst (t_params t))) /\ NoDup (map fst (s_attrs st)).

Section Spec.
Variables repr dumps : json -> text.
(** The values under their names. *)
Definition values (l : list (text * pyval)) : json := object (map (fun e => (fst e, json_safe repr dumps (snd e))) l).
(** The summary of a study. *)
Definition summary (st : study) (j : json) : Prop :=
  exists best_value best_params,
    j = object ([(lit "n_trials", number_of (length (s_trials st))); (lit "best_value", best_value); (lit "best_params", best_params)] ++
                match s_attrs st with [] => [] | l => [(lit "user_attrs", values l)] end) /\
    (((forall t, In t (s_trials st) -> t_value t = None) /\ best_value = JScalar JNull /\ best_params = JDict []) \/
     exists t v, best_one st t v /\ float_json v best_value /\ best_params = values (t_params t)).

(** Alphabetical order. *)
Inductive precedes : text -> text -> Prop :=
| precedes_short c b : precedes [] (c :: b)
| precedes_char x y a b : (nat_of_ascii x < nat_of_ascii y)%nat -> precedes (x :: a) (y :: b)
| precedes_next x a b : precedes a b -> precedes (x :: a) (x :: b).
Fixpoint increasing {A} (lt : A -> A -> Prop) (l : list A) : Prop :=
  match l with [] => True | x :: r => (forall y, In y r -> lt x y) /\ increasing lt r end.
(** The symbols of each execution: one entry an execution, by its id, and the symbols
    in alphabetical order. *)
Definition symbols_json (l : list (nat * list text)) (j : json) : Prop :=
  exists entries, Permutation (map fst l) (map fst entries) /\ increasing lt (map fst entries) /\
    (forall i s, In (i, s) entries -> increasing precedes s /\ exists s', In (i, s') l /\ Permutation s' s) /\
    j = object (map (fun e => (decimal (fst e), JList (map (fun s => JScalar (JStr s)) (snd e)))) entries).
(** Executions have an id each and symbols without repeats. *)
Definition symbols_ok (l : list (nat * list text)) : Prop := NoDup (map fst l) /\ forall i s, In (i, s) l -> NoDup s.
Definition window_ok (w : window) : Prop :=
  study_ok (w_study w) /\ NoDup (map fst (w_params w)) /\ match w_symbols w with Some l => symbols_ok l | None => True end.
(** Nothing of a study or window is a Decimal too large for a double. *)
Definition study_fits (st : study) : Prop := fields_fit (s_attrs st) /\ forall t, In t (s_trials st) -> fields_fit (t_params t).
Definition window_fits (w : window) : Prop := study_fits (w_study w) /\ fields_fit (w_params w).
(** What a window is written as. *)
Definition window_object (w : window) (j : json) : Prop :=
  exists score st, float_json (w_score w) score /\ summary (w_study w) st /\
  exists extra, j = object ([(lit "params", values (w_params w)); (lit "train_score", score);
      (lit "train_start_date", date_of (w_train_start w)); (lit "train_end_date", date_of (w_train_end w));
      (lit "test_start_date", date_of (w_test_start w)); (lit "test_end_date", date_of (w_test_end w)); (lit "study", st)] ++ extra) /\
    match w_symbols w with
    | None => extra = []
    | Some l => exists e, extra = [(lit "execution_symbols", e)] /\ symbols_json l e
    end.
(** Names in the dicts of a result are distinct. *)
Definition result_names (r : result) : Prop :=
  (forall l, r_signals r = Some l -> NoDup (map fst l)) /\
  (forall b, r_bootstrap r = Some b -> NoDup ([lit "conf_intervals"; lit "drawdown_conf"] ++ map fst (b_tuples b))).
End Spec.
(** The dicts of an optimization have distinct names, as dicts do. *)
Definition opt_ok (o : opt_result) : Prop :=
  NoDup (map fst (o_params o)) /\ study_ok (o_study o) /\ match o_windows o with Some l => forall w, In w l -> window_ok w | None => True end.
(** Nothing but its best parameters may be too large. *)
Definition opt_fits (o : opt_result) : Prop :=
  study_fits (o_study o) /\ match o_windows o with Some l => forall w, In w l -> window_fits w | None => True end.
