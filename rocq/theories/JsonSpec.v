(** Specification of C81 and C82. *)
From Verif Require Export JsonModel.
Open Scope list_scope.

(** A missing value: None, NaN, NaT, NA, or an Enum member or 0-d array holding one. *)
Inductive missing : pyval -> Prop :=
| miss_none : missing VNone
| miss_float : missing (VFloat NaN)
| miss_decimal : missing (VDecimal NaN)
| miss_np_float : missing (VNpFloat NaN)
| miss_nat : missing VNaT
| miss_datetime : missing (VDatetime64 None)
| miss_timedelta : missing (VTimedelta None)
| miss_na : missing VNA
| miss_enum v : missing v -> missing (VEnum v)
| miss_array v : missing v -> missing (VArray0 v).

(** Somewhere in the value is a finite Decimal, or a finite numpy float wider than a
    double, that is too large for a double. *)
Inductive too_large : num -> Prop := too_large_q q : (2 ^ 1024 # 1 <= Qabs q)%Q -> too_large (Fin q).
Inductive overflows : pyval -> Prop :=
| over_decimal x : too_large x -> overflows (VDecimal x)
| over_np_float x : too_large x -> overflows (VNpFloat x)
| over_enum v : overflows v -> overflows (VEnum v)
| over_array0 v : overflows v -> overflows (VArray0 v)
| over_array l v : In v l -> overflows v -> overflows (VArray l)
| over_named l n v : In (n, v) l -> overflows v -> overflows (VNamed l)
| over_key l k v : In (k, v) l -> overflows k -> overflows (VDict l)
| over_value l k v : In (k, v) l -> overflows v -> overflows (VDict l)
| over_list l v : In v l -> overflows v -> overflows (VList l)
| over_set l v : In v l -> overflows v -> overflows (VSet l).
(** A float object cannot hold what a double cannot: it is never too large. *)

(** A JSON tree without a float that is not finite. *)
Inductive strict_scalar : scalar -> Prop :=
| strict_null : strict_scalar JNull
| strict_bool b : strict_scalar (JBool b)
| strict_int z : strict_scalar (JInt z)
| strict_float q : strict_scalar (JFloat (Fin q))
| strict_str s : strict_scalar (JStr s).
Inductive strict : json -> Prop :=
| strict_leaf s : strict_scalar s -> strict (JScalar s)
| strict_list l : (forall j, In j l -> strict j) -> strict (JList l)
| strict_dict l : (forall k j, In (k, j) l -> strict_scalar k /\ strict j) -> strict (JDict l).

(** ** Keys *)
(** The number a converted key is: True is 1 and False is 0. *)
Inductive worth : scalar -> Q -> Prop :=
| worth_true : worth (JBool true) 1
| worth_false : worth (JBool false) 0
| worth_int z : worth (JInt z) (z # 1)
| worth_float q : worth (JFloat (Fin q)) q.
(** Two converted keys are one key for a dict. *)
Inductive same_key : scalar -> scalar -> Prop :=
| same_number a b x y : worth a x -> worth b y -> (x == y)%Q -> same_key a b
| same_text s : same_key (JStr s) (JStr s)
| same_null : same_key JNull JNull
| same_inf : same_key (JFloat PosInf) (JFloat PosInf)
| same_ninf : same_key (JFloat NegInf) (JFloat NegInf).
(** How a key of a dict is written, given how values are. *)
Inductive written_key (write : pyval -> json) (dumps : json -> text) : pyval -> scalar -> Prop :=
| key_text s : written_key write dumps (VStr s) (JStr s)
| key_scalar k s : write k = JScalar s -> written_key write dumps k s
| key_list k l : write k = JList l -> written_key write dumps k (JStr (dumps (JList l)))
| key_dict k l : write k = JDict l -> written_key write dumps k (JStr (dumps (JDict l))).
(** [others k l l']: [l'] are the entries of [l] under keys other than [k], in order. *)
Inductive others (k : scalar) : list (scalar * json) -> list (scalar * json) -> Prop :=
| others_nil : others k [] []
| others_same k' v l l' : same_key k k' -> others k l l' -> others k ((k', v) :: l) l'
| others_other k' v l l' : ~ same_key k k' -> others k l l' -> others k ((k', v) :: l) ((k', v) :: l').
(** [w] is the value of the last entry under [k] among an entry [k, v] and those of [l] after it. *)
Inductive last_value (k : scalar) (v : json) (l : list (scalar * json)) : json -> Prop :=
| last_first : (forall k' v', In (k', v') l -> ~ same_key k k') -> last_value k v l v
| last_later before k' w after : l = before ++ (k', w) :: after -> same_key k k' ->
    (forall k'' v', In (k'', v') after -> ~ same_key k k'') -> last_value k v l w.
(** Entries as a dict keeps them: one for each key, at the place and in the form of its
    first entry, with the value of its last one. *)
Inductive collapses : list (scalar * json) -> list (scalar * json) -> Prop :=
| collapses_nil : collapses [] []
| collapses_cons k v w l l' r : last_value k v l w -> others k l l' -> collapses l' r -> collapses ((k, v) :: l) ((k, w) :: r).

(** Two converted members of a set that Python takes for equal are the same. *)
Definition no_mixed_equals (l : list json) : Prop :=
  forall x y p q, In (JScalar x) l -> In (JScalar y) l -> worth x p -> worth y q -> (p == q)%Q -> x = y.

(** ** Tables *)
Definition named_index (t : table) : Prop := forall o, In o (t_index t) -> exists s, o = Some s.
Definition unnamed_index (t : table) : Prop := forall o, In o (t_index t) -> o = None.
Definition field_names (t : table) : list text :=
  flat_map (fun o => match o with Some s => [s] | None => [] end) (t_index t) ++ t_columns t.
(** The index is named or not, names are distinct and every row has a value for each. *)
Definition table_ok (t : table) : Prop :=
  ((named_index t /\ t_index t <> []) \/ unnamed_index t) /\ NoDup (field_names t) /\ t_columns t <> [] /\
  forall ix vs, In (ix, vs) (t_rows t) -> length ix = length (t_index t) /\ length vs = length (t_columns t).
(** The value of the field [name] of a row, in a column or in a named index level. *)
Definition has_field (t : table) (r : list pyval * list pyval) (name : text) (v : pyval) : Prop :=
  (exists i, nth_error (t_index t) i = Some (Some name) /\ nth_error (fst r) i = Some v) \/
  (exists i, nth_error (t_columns t) i = Some name /\ nth_error (snd r) i = Some v).
(** The table says which symbol a row belongs to: in a column, or in a level of an
    index that has several. *)
Definition by_symbol (t : table) : Prop :=
  In (lit "symbol") (t_columns t) \/ ((1 < length (t_index t))%nat /\ In (Some (lit "symbol")) (t_index t)).
(** The row is one of the requested symbols', or the table is not by symbol. *)
Definition requested (t : table) (symbols : option (list text)) (r : list pyval * list pyval) : Prop :=
  match symbols with
  | None => True
  | Some l => by_symbol t -> exists s, has_field t r (lit "symbol") (VStr s) /\ In s l
  end.
Definition limit {A} (max_rows : option Z) (l : list A) : list A :=
  match max_rows with Some m => firstn (Z.to_nat m) l | None => l end.
Definition nonnegative (max_rows : option Z) : Prop := match max_rows with Some m => (0 <= m)%Z | None => True end.
(** The JSON record of a row: each field once, under its name. *)
Definition is_record (repr dumps : json -> text) (t : table) (r : list pyval * list pyval) (j : json) : Prop :=
  exists es, j = JDict es /\ NoDup (map fst es) /\
    (forall name v, has_field t r name v -> In (JStr name, json_safe repr dumps v) es) /\
    (forall k e, In (k, e) es -> exists name v, k = JStr name /\ has_field t r name v /\ e = json_safe repr dumps v).
(** The section holds the first [max_rows] requested rows, in order. *)
Definition table_section (repr dumps : json -> text) (t : table) (symbols : option (list text)) (max_rows : option Z) (j : json) : Prop :=
  exists chosen records, j = JList records /\
    (forall r, In r (t_rows t) -> (chosen r = true <-> requested t symbols r)) /\
    Forall2 (is_record repr dumps t) (limit max_rows (filter chosen (t_rows t))) records.

(** ** The payload of a result *)
Definition table_names : list text := [lit "metrics_df"; lit "trades"; lit "orders"; lit "portfolio"; lit "positions"].
(** The result has something to show under the name. *)
Definition present (r : result) (name : text) : Prop :=
  name = lit "metrics" \/ In name table_names \/
  (name = lit "bootstrap" /\ r_bootstrap r <> None) \/
  (name = lit "signals" /\ r_signals r <> None) \/
  (name = lit "stops" /\ r_stops r <> None).
(** The names [include] may hold. *)
Definition known_section (name : text) : Prop :=
  name = lit "metrics" \/ In name table_names \/ name = lit "bootstrap" \/ name = lit "signals" \/ name = lit "stops".
(** What [symbols] asks for: nothing given, or a non-empty collection of symbols of the result. *)
Definition asked (r : result) (symbols : option names_arg) (syms : option (list text)) : Prop :=
  match symbols with
  | None => syms = None
  | Some (AStr _) => False
  | Some (ANames l) => l <> [] /\ (forall s, In s l -> In s (r_symbols r)) /\ syms = Some l
  end.
(** Some table is to be written with at most [max_rows] rows. *)
Definition writes_table (r : result) (inc : list text) (syms : option (list text)) : Prop :=
  (exists name, In name inc /\ In name table_names) \/
  (In (lit "stops") inc /\ r_stops r <> None) \/
  (In (lit "signals") inc /\ exists l s t, r_signals r = Some l /\ In (s, t) l /\ (match syms with None => True | Some q => In s q end)).
Definition result_ok (r : result) : Prop :=
  table_ok (r_metrics_df r) /\ table_ok (r_trades r) /\ table_ok (r_orders r) /\ table_ok (r_portfolio r) /\ table_ok (r_positions r) /\
  (forall b, r_bootstrap r = Some b -> table_ok (b_conf b) /\ table_ok (b_drawdown_conf b)) /\
  (forall l s t, r_signals r = Some l -> In (s, t) l -> table_ok t) /\
  (forall t, r_stops r = Some t -> table_ok t /\ In (lit "symbol") (t_columns t)).

(** No value of the table, or of the result, is too large for a double. *)
Definition table_fits (t : table) : Prop := forall ix vs v, In (ix, vs) (t_rows t) -> In v (ix ++ vs) -> ~ overflows v.
Definition fields_fit (l : list (text * pyval)) : Prop := forall n v, In (n, v) l -> ~ overflows v.
Definition result_fits (r : result) : Prop :=
  fields_fit (r_metrics r) /\ table_fits (r_metrics_df r) /\ table_fits (r_trades r) /\ table_fits (r_orders r) /\ table_fits (r_portfolio r) /\ table_fits (r_positions r) /\
  (forall b, r_bootstrap r = Some b -> table_fits (b_conf b) /\ table_fits (b_drawdown_conf b) /\ forall n l, In (n, l) (b_tuples b) -> fields_fit l) /\
  (forall l s t, r_signals r = Some l -> In (s, t) l -> table_fits t) /\
  (forall t, r_stops r = Some t -> table_fits t).
