(** Model of the JSON of an optimization: src/pybroker/optimize.py 702-719
    ([_study_summary]), 802-824 ([WindowOptimizeResult.to_json]) and 853-894
    ([OptimizeResult.to_json]). *)
From Verif Require Export JsonModel.
From Coq Require Import DecimalString.
Open Scope list_scope.

(** A converted tree as the Python value it is: null is None, an array a list, an
    object a dict. [_json_safe] is given such values a second time. *)
Definition reread_scalar (s : scalar) : pyval :=
  match s with JNull => VNone | JBool b => VBool b | JInt z => VInt z | JFloat x => VFloat x | JStr t => VStr t end.
Fixpoint reread (j : json) : pyval :=
  match j with
  | JScalar s => reread_scalar s
  | JList l => VList (map reread l)
  | JDict l => VDict (map (fun '(k, v) => (reread_scalar k, reread v)) l)
  end.
(** [str(exec_id)]. *)
Definition decimal (n : nat) : text := lit (NilZero.string_of_uint (Nat.to_uint n)).
(** A dict with str keys. *)
Definition str_dict (l : list (text * pyval)) : pyval := VDict (map (fun '(n, v) => (VStr n, v)) l).

(** A trial: its value, if it completed, and its parameters. *)
Record trial := mk_trial { t_value : option num; t_params : list (text * pyval) }.
Record study := mk_study { s_maximize : bool; s_trials : list trial; s_attrs : list (text * pyval) }.
(** Optuna's [Study.best_trial]: the first of the best completed trials; it raises if
    there is none. No completed trial has the value NaN. *)
Definition num_ltb (a b : num) : bool :=
  match a, b with
  | NegInf, NegInf | PosInf, _ | NaN, _ | _, NaN => false
  | NegInf, _ | _, PosInf => true
  | Fin x, Fin y => negb (Qle_bool y x)
  | Fin _, NegInf => false
  end.
Fixpoint best_trial (maximize : bool) (l : list trial) (best : option (num * list (text * pyval))) : option (num * list (text * pyval)) :=
  match l with
  | [] => best
  | t :: r =>
      best_trial maximize r
        match t_value t, best with
        | None, _ => best
        | Some v, None => Some (v, t_params t)
        | Some v, Some (b, _) => if (if maximize then num_ltb b v else num_ltb v b) then Some (v, t_params t) else best
        end
  end.

(** [NoTrials] is optuna's error, [Refused] one of [TestResult.to_json]. *)
Inductive xres (A : Type) := Written (a : A) | NoTrials | Refused (e : jerr).
Arguments Written {A}. Arguments NoTrials {A}. Arguments Refused {A}.
Definition xbind {A B} (r : xres A) (f : A -> xres B) : xres B :=
  match r with Written a => f a | NoTrials => NoTrials | Refused e => Refused e end.

Section Export.
Variables repr dumps : json -> text.
Notation safe := (json_safe repr dumps).

(** 702-719. *)
Definition study_summary (st : study) : xres json :=
  let count := [(lit "n_trials", VInt (Z.of_nat (length (s_trials st))))] in
  xbind (if existsb (fun t => match t_value t with Some _ => true | None => false end) (s_trials st)
         then match best_trial (s_maximize st) (s_trials st) None with
              | Some (v, p) => Written [(lit "best_value", VFloat v); (lit "best_params", str_dict p)]
              | None => NoTrials
              end
         else Written [(lit "best_value", VNone); (lit "best_params", VDict [])])
    (fun best =>
       let attrs := match s_attrs st with [] => [] | l => [(lit "user_attrs", str_dict l)] end in
       Written (safe (str_dict (count ++ best ++ attrs)))).

(** 760-800: [WindowOptimizeResult]; a date is its ISO text. *)
Record window := mk_window {
  w_params : list (text * pyval); w_study : study; w_score : num;
  w_train_start : option text; w_train_end : option text; w_test_start : option text; w_test_end : option text;
  w_symbols : option (list (nat * list text)) }.
Definition date_value (o : option text) : pyval := match o with Some s => VDate s | None => VNone end.
(** 802-820. The ids are the keys of a dict, so [sorted] compares nothing else. *)
Definition window_json (w : window) : xres json :=
  xbind (study_summary (w_study w)) (fun st =>
  let payload := [(lit "params", str_dict (w_params w)); (lit "train_score", VFloat (w_score w));
    (lit "train_start_date", date_value (w_train_start w)); (lit "train_end_date", date_value (w_train_end w));
    (lit "test_start_date", date_value (w_test_start w)); (lit "test_end_date", date_value (w_test_end w));
    (lit "study", reread st)] in
  let extra := match w_symbols w with
    | None => []
    | Some l => [(lit "execution_symbols",
        str_dict (map (fun '(i, s) => (decimal i, VSet (map VStr s))) (sort_by (fun a b => Nat.ltb (fst a) (fst b)) l)))]
    end in
  Written (safe (str_dict (payload ++ extra)))).

(** 827-851: [OptimizeResult]. *)
Record opt_result := mk_opt_result {
  o_params : list (text * pyval); o_score : num; o_result : result; o_study : study; o_windows : option (list window) }.
(** strategy.py 1731. *)
Definition default_include : list text := [lit "metrics"; lit "trades"; lit "orders"; lit "bootstrap"].
Fixpoint windows_json (l : list window) : xres (list json) :=
  match l with
  | [] => Written []
  | w :: r => xbind (window_json w) (fun j => xbind (windows_json r) (fun js => Written (j :: js)))
  end.
(** 853-877. *)
Definition optimize_json (o : opt_result) (include : option names_arg) (max_rows : option Z) (symbols : option names_arg) : xres json :=
  let include := match include with None => ANames default_include | Some i => i end in
  xbind (study_summary (o_study o)) (fun st =>
  xbind (match to_json repr dumps (o_result o) include max_rows symbols with Got p => Written p | Fails e => Refused e end) (fun p =>
  let payload := [(lit "best_params", str_dict (o_params o)); (lit "best_score", VFloat (o_score o)); (lit "study", reread st);
    (lit "result", reread (JDict (map (fun '(n, j) => (JStr n, j)) p)))] in
  xbind (match o_windows o with
         | None => Written []
         | Some l => xbind (windows_json l) (fun js => Written [(lit "windows", VList (map reread js))])
         end) (fun extra =>
  Written (safe (str_dict (payload ++ extra)))))).
(** 822-824, 879-894: [to_json_str] raises exactly when [json.dumps] does. *)
Definition text_ok (j : json) : bool := dumpable j.
End Export.
