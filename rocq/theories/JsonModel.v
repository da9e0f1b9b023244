(** Model of the JSON export: [_json_safe], [_json_safe_key] and [_dataframe_records]
    of src/pybroker/common.py, [TestResult.to_json] and [_filter_df_symbols] of
    src/pybroker/strategy.py.

    Strings are lists of characters. A finite float is an exact rational. Values
    that are only shown through a fixed text (dates, durations, other objects)
    carry that text. *)
From Coq Require Export List Bool Arith ZArith QArith Qabs Ascii Lia Permutation.
From Coq Require String.
Export Coq.Strings.String.StringSyntax.
Export ListNotations.
Open Scope list_scope.

Definition text := list ascii.
Definition lit (s : String.string) : text := String.list_ascii_of_string s.
Arguments lit _%string_scope.
Definition text_eqb (a b : text) : bool := if list_eq_dec ascii_dec a b then true else false.

(** A float, a Decimal or a numpy float. *)
Inductive num := NaN | PosInf | NegInf | Fin (q : Q).

(** Python values, in the order of the tests in [_json_safe]. Self-referential
    values, which would recurse for ever, have no counterpart. *)
Inductive pyval :=
| VNone
| VBool (b : bool)
| VStr (s : text)
| VEnum (v : pyval)                          (* a member of an Enum, with its value *)
| VBytes (decoded : text)
| VInt (z : Z)
| VFloat (x : num)
| VDecimal (x : num)
| VNaT
| VDate (iso : text)                         (* datetime, date, Timestamp *)
| VDatetime64 (iso : option text)            (* np.datetime64, [None] for NaT *)
| VNpBool (b : bool)
| VTimedelta (shown : option text)           (* its ISO form, or str() if it has none; [None] for NaT *)
| VNpInt (z : Z)
| VNpFloat (x : num)                         (* of any width, np.longdouble too *)
| VArray0 (v : pyval)                        (* an array without dimensions *)
| VArray (l : list pyval)
| VNamed (fields : list (text * pyval))      (* has _asdict *)
| VDict (l : list (pyval * pyval))
| VList (l : list pyval)                     (* list or tuple *)
| VSet (l : list pyval)                      (* in the order of iteration *)
| VNA                                        (* pd.isna holds *)
| VOther (shown : text).                     (* str() without addresses *)

(** What [json.dumps] is given. *)
Inductive scalar := JNull | JBool (b : bool) | JInt (z : Z) | JFloat (x : num) | JStr (s : text).
Inductive json := JScalar (s : scalar) | JList (l : list json) | JDict (l : list (scalar * json)).

(** [float(x)] of a finite Decimal or numpy float: beyond the range of a double it
    is infinite (no exception). Rounding to the nearest double is left out, and so
    are the values that round up to [2 ** 1024]. *)
Definition double_bound : Q := (2 ^ 1024)%Z # 1.
Definition to_float (x : num) : num :=
  match x with
  | Fin q => if Qle_bool double_bound q then PosInf
             else if Qle_bool q (- double_bound) then NegInf else Fin q
  | _ => x
  end.

(** common.py 526-531, 532-541, 578-583: floats, Decimals and numpy floats. *)
Definition safe_num (x : num) : scalar :=
  match x with
  | NaN => JNull
  | PosInf => JStr (lit "Infinity")
  | NegInf => JStr (lit "-Infinity")
  | Fin _ => JFloat (to_float x)
  end.
Definition safe_float (x : num) : scalar :=
  match x with
  | NaN => JNull
  | PosInf => JStr (lit "Infinity")
  | NegInf => JStr (lit "-Infinity")
  | Fin _ => JFloat x
  end.

(** Equality of dict keys in Python: [True == 1 == 1.0]. *)
Definition number (s : scalar) : option Q :=
  match s with
  | JBool b => Some (if b then 1%Q else 0%Q)
  | JInt z => Some (inject_Z z)
  | JFloat (Fin q) => Some q
  | _ => None
  end.
Definition same_num (x y : num) : bool :=
  match x, y with PosInf, PosInf => true | NegInf, NegInf => true | Fin a, Fin b => Qeq_bool a b | _, _ => false end.
Definition key_eqb (a b : scalar) : bool :=
  match number a, number b with
  | Some x, Some y => Qeq_bool x y
  | None, None =>
      match a, b with
      | JNull, JNull => true
      | JStr s, JStr t => text_eqb s t
      | JFloat x, JFloat y => same_num x y
      | _, _ => false
      end
  | _, _ => false
  end.
(** [d[k] = v]: a key that is there keeps its place (and its own form). *)
Fixpoint dput {A} (k : scalar) (v : A) (d : list (scalar * A)) : list (scalar * A) :=
  match d with
  | [] => [(k, v)]
  | (k', v') :: rest => if key_eqb k' k then (k', v) :: rest else (k', v') :: dput k v rest
  end.
Definition dict_of {A} (l : list (scalar * A)) : list (scalar * A) := fold_left (fun d '(k, v) => dput k v d) l [].

(** [sorted] with a key: a stable insertion sort. [lt a b] is [a < b]. *)
Fixpoint insert_by {A} (lt : A -> A -> bool) (x : A) (l : list A) : list A :=
  match l with
  | [] => [x]
  | y :: rest => if lt y x then y :: insert_by lt x rest else x :: y :: rest
  end.
Definition sort_by {A} (lt : A -> A -> bool) (l : list A) : list A := fold_right (insert_by lt) [] l.
Fixpoint text_ltb (a b : text) : bool :=
  match a, b with
  | _, [] => false
  | [], _ :: _ => true
  | x :: a, y :: b => if Ascii.eqb x y then text_ltb a b else Nat.ltb (nat_of_ascii x) (nat_of_ascii y)
  end.
(** [a < b] of two converted members; [None] is a TypeError. Members that are
    lists (from tuples) count as not comparable: a simplification, Python compares
    them item by item. *)
Definition member_lt (a b : json) : option bool :=
  match a, b with
  | JScalar x, JScalar y =>
      match number x, number y with
      | Some p, Some q => Some (negb (Qle_bool q p))
      | None, None => match x, y with JStr s, JStr t => Some (text_ltb s t) | _, _ => None end
      | _, _ => None
      end
  | _, _ => None
  end.
Fixpoint all_comparable (l : list json) : bool :=
  match l with
  | [] => true
  | x :: rest => forallb (fun y => match member_lt x y with Some _ => true | None => false end) rest && all_comparable rest
  end.

Section Json.
(** [repr] of a converted value, and [json.dumps] of one that becomes a key. The
    ValueError of [dumps] on an infinite float inside such a key is left out. *)
Variables repr dumps : json -> text.

(** 589-598: the members of a set. *)
Definition sort_members (l : list json) : list json :=
  if all_comparable l then sort_by (fun a b => match member_lt a b with Some r => r | None => false end) l
  else sort_by (fun a b => text_ltb (repr a) (repr b)) l.

(** 499-610: [_json_safe], and 613-625 [_json_safe_key] for the keys of a dict. *)
Fixpoint json_safe (v : pyval) : json :=
  match v with
  | VNone => JScalar JNull
  | VBool b => JScalar (JBool b)
  | VStr s => JScalar (JStr s)
  | VEnum w => json_safe w
  | VBytes s => JScalar (JStr s)
  | VInt z => JScalar (JInt z)
  | VFloat x => JScalar (safe_float x)
  | VDecimal x => JScalar (safe_num x)
  | VNaT => JScalar JNull
  | VDate s => JScalar (JStr s)
  | VDatetime64 o => JScalar (match o with Some s => JStr s | None => JNull end)
  | VNpBool b => JScalar (JBool b)
  | VTimedelta o => JScalar (match o with Some s => JStr s | None => JNull end)
  | VNpInt z => JScalar (JInt z)
  | VNpFloat x => JScalar (safe_num x)
  | VArray0 w => json_safe w
  | VArray l => JList (map json_safe l)
  | VNamed fields => JDict (dict_of (map (fun '(name, w) => (JStr name, json_safe w)) fields))
  | VDict l =>
      JDict (dict_of (map (fun '(k, w) =>
        (match k with
         | VStr s => JStr s
         | _ => match json_safe k with JScalar s => s | c => JStr (dumps c) end
         end, json_safe w)) l))
  | VList l => JList (map json_safe l)
  | VSet l => JList (sort_members (map json_safe l))
  | VNA => JScalar JNull
  | VOther s => JScalar (JStr s)
  end.

(** ** Tables *)
(** A DataFrame: the names of the index levels ([None] for unnamed), the names of
    the columns, and for each row the values of the index and of the columns. An
    index with both named and unnamed levels is not modelled. *)
Record table := mk_table { t_index : list (option text); t_columns : list text; t_rows : list (list pyval * list pyval) }.
Definition is_named (o : option text) : bool := match o with Some _ => true | None => false end.
Definition level_names (t : table) : list text := flat_map (fun o => match o with Some s => [s] | None => [] end) (t_index t).
(** A record of [to_dict(orient="records")]. *)
Definition record_of (names : list text) (values : list pyval) : pyval := VDict (combine (map VStr names) values).
Definition table_empty (t : table) : bool := Nat.eqb (length (t_rows t)) 0 || Nat.eqb (length (t_columns t)) 0.

Inductive jerr := IncludeIsStr | UnknownSection | SymbolsIsStr | SymbolsEmpty | SymbolNotFound | BadMaxRows.
Inductive jres (A : Type) := Got (a : A) | Fails (e : jerr).
Arguments Got {A}. Arguments Fails {A}.
(** 628-649: [_dataframe_records], with [reset_index=True] (no caller passes it). *)
Definition dataframe_records (t : table) (max_rows : option Z) : jres (list json) :=
  if match max_rows with Some m => Z.ltb m 0 | None => false end then Fails BadMaxRows
  else if table_empty t then Got []
  else
    let drop := forallb (fun o => negb (is_named o)) (t_index t) in
    let names := if drop then t_columns t else level_names t ++ t_columns t in
    let rows := map (fun '(ix, vs) => if drop then vs else ix ++ vs) (t_rows t) in
    let shown := match max_rows with Some m => firstn (Z.to_nat m) rows | None => rows end in
    Got (map (fun r => json_safe (record_of names r)) shown).

(** The value of column or index level [name] in a row. *)
Fixpoint field (names : list text) (values : list pyval) (name : text) : option pyval :=
  match names, values with
  | n :: names, v :: values => if text_eqb n name then Some v else field names values name
  | _, _ => None
  end.
Definition text_mem (s : text) (l : list text) : bool := existsb (text_eqb s) l.
Definition in_symbols (symbols : list text) (o : option pyval) : bool :=
  match o with Some (VStr s) => text_mem s symbols | _ => false end.
(** strategy.py 1755-1765: [_filter_df_symbols]; an index with one level is no
    MultiIndex. *)
Definition filter_symbols (t : table) (symbols : option (list text)) : table :=
  match symbols with
  | None => t
  | Some syms =>
      if table_empty t then t
      else if text_mem (lit "symbol") (t_columns t) then
        mk_table (t_index t) (t_columns t)
          (filter (fun r => in_symbols syms (field (t_columns t) (snd r) (lit "symbol"))) (t_rows t))
      else if Nat.ltb 1 (length (t_index t)) && text_mem (lit "symbol") (level_names t) then
        mk_table (t_index t) (t_columns t)
          (filter (fun r => in_symbols syms (field (level_names t) (fst r) (lit "symbol"))) (t_rows t))
      else t
  end.

(** ** Results *)
(** strategy.py 1785-1806: [TestResult]. [r_start], [r_end] are naive UTC already
    (1747-1752). [r_metrics] are the fields of [EvalMetrics], [r_bootstrap] the
    three tuples of [BootstrapResult] and its two tables. *)
Record bootstrap := mk_bootstrap { b_conf : table; b_drawdown_conf : table; b_tuples : list (text * list (text * pyval)) }.
Record result := mk_result {
  r_start : text; r_end : text; r_metrics : list (text * pyval); r_metrics_df : table;
  r_trades : table; r_orders : table; r_portfolio : table; r_positions : table;
  r_bootstrap : option bootstrap; r_signals : option (list (text * table)); r_stops : option table; r_symbols : list text }.
(** eval.py 1279-1287: [BootstrapResult.to_json]. *)
Definition bootstrap_json (b : bootstrap) : jres json :=
  match dataframe_records (b_conf b) None, dataframe_records (b_drawdown_conf b) None with
  | Got c, Got d =>
      Got (JDict ([(JStr (lit "conf_intervals"), JList c); (JStr (lit "drawdown_conf"), JList d)] ++
                  map (fun '(name, fields) => (JStr name, json_safe (VNamed fields))) (b_tuples b)))
  | Fails e, _ | _, Fails e => Fails e
  end.
(** An argument that should be a set of names: a str, or any iterable. *)
Inductive names_arg := AStr (s : text) | ANames (l : list text).
(** strategy.py 1731-1744. *)
Definition valid_sections : list text :=
  [lit "metrics"; lit "metrics_df"; lit "trades"; lit "orders"; lit "portfolio"; lit "positions"; lit "bootstrap"; lit "signals"; lit "stops"].

Definition jbind {A B} (r : jres A) (f : A -> jres B) : jres B := match r with Got a => f a | Fails e => Fails e end.
(** A section of the payload, if it is asked for. *)
Definition section (include : list text) (name : text) (value : jres (option json)) (payload : list (text * json))
  : jres (list (text * json)) :=
  if text_mem name include then
    jbind value (fun o => match o with Some j => Got (payload ++ [(name, j)]) | None => Got payload end)
  else Got payload.
Definition table_json (t : table) (max_rows : option Z) : jres (option json) :=
  jbind (dataframe_records t max_rows) (fun l => Got (Some (JList l))).
Fixpoint signals_json (l : list (text * table)) (max_rows : option Z) (symbols : option (list text)) : jres (list (scalar * json)) :=
  match l with
  | [] => Got []
  | (s, t) :: rest =>
      if match symbols with None => true | Some syms => text_mem s syms end then
        jbind (dataframe_records t max_rows) (fun j => jbind (signals_json rest max_rows symbols) (fun r => Got ((JStr s, JList j) :: r)))
      else signals_json rest max_rows symbols
  end.
(** strategy.py 1900-1904: only a symbol column counts for [stops]. *)
Definition filter_stops (t : table) (symbols : option (list text)) : table :=
  match symbols with
  | Some syms => if text_mem (lit "symbol") (t_columns t) then
      mk_table (t_index t) (t_columns t)
        (filter (fun r => in_symbols syms (field (t_columns t) (snd r) (lit "symbol"))) (t_rows t)) else t
  | None => t
  end.
(** strategy.py 1808-1908: [TestResult.to_json]. The payload is a dict with str keys. *)
Definition to_json (r : result) (include : names_arg) (max_rows : option Z) (symbols : option names_arg)
  : jres (list (text * json)) :=
  match include with
  | AStr _ => Fails IncludeIsStr
  | ANames inc =>
      if negb (forallb (fun s => text_mem s valid_sections) inc) then Fails UnknownSection
      else
        let checked := match symbols with
          | None => Got None
          | Some (AStr _) => Fails SymbolsIsStr
          | Some (ANames l) =>
              match l with
              | [] => Fails SymbolsEmpty
              | _ => if forallb (fun s => text_mem s (r_symbols r)) l then Got (Some l) else Fails SymbolNotFound
              end
          end in
        jbind checked (fun syms =>
        let p0 := [(lit "start_date", JScalar (JStr (r_start r))); (lit "end_date", JScalar (JStr (r_end r)))] in
        jbind (section inc (lit "metrics") (Got (Some (json_safe (VNamed (r_metrics r))))) p0) (fun p =>
        jbind (section inc (lit "metrics_df") (table_json (r_metrics_df r) max_rows) p) (fun p =>
        jbind (section inc (lit "trades") (table_json (filter_symbols (r_trades r) syms) max_rows) p) (fun p =>
        jbind (section inc (lit "orders") (table_json (filter_symbols (r_orders r) syms) max_rows) p) (fun p =>
        jbind (section inc (lit "portfolio") (table_json (r_portfolio r) max_rows) p) (fun p =>
        jbind (section inc (lit "positions") (table_json (filter_symbols (r_positions r) syms) max_rows) p) (fun p =>
        jbind (section inc (lit "bootstrap")
                 (match r_bootstrap r with None => Got None | Some b => jbind (bootstrap_json b) (fun j => Got (Some j)) end) p) (fun p =>
        jbind (section inc (lit "signals")
                 (match r_signals r with
                  | None => Got None
                  | Some l => jbind (signals_json l max_rows syms) (fun d => Got (Some (JDict d)))
                  end) p) (fun p =>
        section inc (lit "stops")
          (match r_stops r with
           | None => Got None
           | Some t => table_json (filter_stops t syms) max_rows
           end) p)))))))))
  end.
End Json.
Arguments Got {A}. Arguments Fails {A}.

(** [json.dumps(..., allow_nan=False)] (1910-1925) raises exactly when there is a
    float that is not finite. *)
Definition finite_scalar (s : scalar) : bool := match s with JFloat (Fin _) => true | JFloat _ => false | _ => true end.
Fixpoint dumpable (j : json) : bool :=
  match j with
  | JScalar s => finite_scalar s
  | JList l => forallb dumpable l
  | JDict l => forallb (fun '(k, v) => finite_scalar k && dumpable v) l
  end.
