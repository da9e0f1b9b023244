(** What the training and test frames of an interval-bound model should be. *)
From Verif Require Export IntervalSpec.
From Verif Require Export LagSpec ITrainModel IPoolModel.
Open Scope nat_scope.

(** The value of a data column on a compressed bar. *)
Inductive data_value (b : cbar) : nat -> value -> Prop :=
| dv_open : data_value b 0 (c_open b)
| dv_high : data_value b 1 (c_high b)
| dv_low : data_value b 2 (c_low b)
| dv_close : data_value b 3 (c_close b)
| dv_volume : data_value b 4 (c_volume b)
| dv_vwap v : c_vwap b = Some v -> data_value b 5 v
| dv_custom k v : nth_error (c_custom b) k = Some v -> data_value b (6 + k) v.
(** The columns of the data: open to volume, vwap if there is one, the custom ones. *)
Definition is_data (y : sym_data) (col : nat) : Prop := col < 5 \/ (col = 5 /\ y_vwap y = true) \/ 6 <= col < 6 + y_customs y.
(** The value of a column on the [i]th bar: that of the data, or that of the
    indicator computed on the bars of the interval. *)
Definition value_at (y : sym_data) (i col : nat) (v : value) : Prop :=
  (is_data y col /\ exists b, nth_error (y_bars y) i = Some b /\ data_value b col v) \/
  (~ is_data y col /\ exists l, y_indicator y col = Some l /\ nth_error l i = Some v).
(** The bars of a symbol: their dates ascend, and each has the columns of the data. *)
Definition bars_ok (y : sym_data) : Prop :=
  increasing (map c_date (y_bars y)) /\
  forall b, In b (y_bars y) -> length (c_custom b) = y_customs y /\ (y_vwap y = true -> c_vwap b <> None).
(** The indicators of the model, no two alike, have other names than the columns of the data. *)
Definition source_ok (y : sym_data) (s : source) : Prop :=
  NoDup (so_indicators s) /\ forall k, In k (so_indicators s) -> ~ is_data y k.
(** A column of the frames: of the data, or one of the model's indicators. *)
Definition is_column (y : sym_data) (s : source) (col : nat) : Prop := is_data y col \/ In col (so_indicators s).

(** The columns of a frame: those of the data, in order, and then the indicators. *)
Definition frame_columns (y : sym_data) (s : source) (l : list nat) : Prop :=
  exists cols, l = cols ++ so_indicators s /\ StronglySorted lt cols /\ forall c, In c cols <-> is_data y c.
(** The lag columns: those that the model names; else those of the data, in order. *)
Definition lag_columns (y : sym_data) (s : source) (cols : list nat) : Prop :=
  (so_lag_cols s <> [] /\ cols = so_lag_cols s /\ forall c, In c cols -> is_column y s c) \/
  (so_lag_cols s = [] /\ StronglySorted lt cols /\ forall c, In c cols <-> is_data y c).
(** The lag features of the [i]th bar: for each lag column, its value on the bar and
    on the bars 1, ..., [lags] earlier, NaN when there is no such bar. *)
Definition features (y : sym_data) (cols : list nat) (lags i : nat) (row : list value) : Prop :=
  length row = length cols * S lags /\
  forall ci col k, nth_error cols ci = Some col -> k <= lags ->
    exists v, nth_error row (ci * S lags + k) = Some v /\ ((k <= i /\ value_at y (i - k) col v) \/ (i < k /\ v = None)).
(** A row of a frame is that of the [i]th bar: its date, the value of each column,
    and the lag features if the model has lags. *)
Definition row_of_bar (y : sym_data) (s : source) (i : nat) (w : whole_row) : Prop :=
  (exists b, nth_error (y_bars y) i = Some b /\ w_date w = c_date b) /\
  frame_columns y s (map fst (w_values w)) /\
  (forall col x, In (col, x) (w_values w) -> exists v, x = Some v /\ value_at y i col v) /\
  match so_lags s with
  | None => w_lags w = None
  | Some lags => exists cols row, lag_columns y s cols /\ w_lags w = Some (Some row) /\ features y cols lags i row
  end.
(** A row of a frame of one symbol, which has no symbol column. *)
Definition is_row (y : sym_data) (s : source) (i : nat) (w : whole_row) : Prop := w_symbol w = None /\ row_of_bar y s i w.
(** A row of a pooled frame: it also names its symbol. *)
Definition is_pooled_row (data : nat -> option sym_data) (s : source) (p : nat * nat) (w : whole_row) : Prop :=
  w_symbol w = Some (Some (fst p)) /\ exists y, data (fst p) = Some y /\ row_of_bar y s (snd p) w.
(** All the lag features of the [i]th bar are known. *)
Definition whole_features (y : sym_data) (s : source) (lags i : nat) : Prop :=
  exists cols, lag_columns y s cols /\ forall col k, In col cols -> k <= lags -> k <= i /\ exists q, value_at y (i - k) col (Some q).

(** The [i]th bar closes on one of the dates. *)
Definition closes_on (y : sym_data) (dates : list Z) (i : nat) : Prop := exists b, nth_error (y_bars y) i = Some b /\ In (c_date b) dates.
(** A bar the model may train on: it closes on a training date and at least
    [lookahead] bars before every bar that closes on a test date. *)
Definition may_train (y : sym_data) (train_dates test_dates : list Z) (lookahead : Z) (i : nat) : Prop :=
  closes_on y train_dates i /\ forall t, closes_on y test_dates t -> (Z.of_nat i + lookahead <= Z.of_nat t)%Z.

(** The caches of lagged columns that preparing any number of models leaves behind,
    for the symbols and intervals [data] of a run. *)
Inductive prepared (data : nat -> nat -> option sym_data) : lcache -> Prop :=
| prepared_none : prepared data []
| prepared_more c c' sym interval train_dates test_dates s lookahead r : prepared data c ->
    prepare_symbol sym interval train_dates test_dates (data sym interval) s c lookahead = (c', r) -> prepared data c'
| prepared_pooled c c' symbols interval train_dates test_dates s lookahead r : prepared data c ->
    prepare_pooled symbols interval train_dates test_dates (fun sym => data sym interval) s c lookahead = (c', r) -> prepared data c'.
(** Pairs of a symbol and a bar, by symbol and then bar. *)
Definition pair_lt (a b : nat * nat) : Prop := fst a < fst b \/ (fst a = fst b /\ snd a < snd b).

(** The symbols of a pooled model: each has its bars, and all have the same columns. *)
Definition fit (D : nat -> option sym_data) (s : source) (symbols : list nat) (vwap : bool) (customs : nat) : Prop :=
  forall sym, In sym symbols -> exists y, D sym = Some y /\ bars_ok y /\ source_ok y s /\ y_vwap y = vwap /\ y_customs y = customs.

(** An indicator that computes each value from the bars so far. *)
Definition causal (f : list cbar -> list value) : Prop :=
  forall bars bars' n, firstn n bars = firstn n bars' -> firstn n (f bars) = firstn n (f bars').
(** A symbol's data on an interval: [bars] and the indicators computed from them. *)
Definition computed (bars : list cbar) (has_vwap : bool) (customs : nat) (ind : nat -> option (list cbar -> list value)) : sym_data :=
  mk_sym bars has_vwap customs (fun k => match ind k with Some f => Some (f bars) | None => None end).
(** Positions without gaps. *)
Definition unbroken (Q : nat -> Prop) : Prop := forall i j k, i <= j <= k -> Q i -> Q k -> Q j.
(** Two courses of a symbol's data on an interval that may differ in the base bars
    after the training dates, but not in their dates. *)
Definition same_past (has_vwap : bool) (customs : nat) (ind : nat -> option (list cbar -> list value)) (i : interval) (train_dates : list Z) (y y' : sym_data) : Prop :=
  exists p f f' bars bars' completed completed',
    compress has_vwap (p ++ f) i = Some (bars, completed) /\ compress has_vwap (p ++ f') i = Some (bars', completed') /\
    map r_date f = map r_date f' /\ increasing (map r_date (p ++ f)) /\
    (forall r, In r (p ++ f ++ f') -> length (r_custom r) = customs) /\
    (forall d r, In d train_dates -> In r f -> (d < r_date r)%Z) /\
    y = computed bars has_vwap customs ind /\ y' = computed bars' has_vwap customs ind.
