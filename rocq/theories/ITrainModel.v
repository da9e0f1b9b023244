(** Model of the frames that a model bound to an interval is trained and tested on:
    [_prepare_interval_symbol_data] and [_prepare_pooled_interval_data] of
    src/pybroker/model.py, with [build_compressed_symbol_arrays] and
    [slice_arrays_by_dates] of src/pybroker/interval.py.

    The compressed bars, the hold-out and the lag features are those of IntervalModel
    and LagModel. Columns are numbers: 0-4 are open, high, low, close and volume, 5 is
    vwap, 6 and up are the custom columns and then the indicators. Arrays of columns
    are kept as rows. *)
From Verif Require Import IntervalModel.
From Verif Require Export LagModel.
Open Scope list_scope.
Open Scope nat_scope.

(** The exceptions: the interval was not compressed for the symbol (2571-2574); an
    indicator was not computed on it (interval.py 577-583); an indicator is not as
    long as the bars (the boolean index of interval.py 604); a lag column is not a
    column (1840-1846); and those of the lag features. *)
Inductive fail := NoInterval | NoIndicator | BadMask | NoLagColumn | LagFails (e : err).
Inductive outcome (A : Type) := Done (a : A) | Failed (f : fail).
Arguments Done {A}. Arguments Failed {A}.
Definition obind {A B} (r : outcome A) (f : A -> outcome B) : outcome B := match r with Done a => f a | Failed e => Failed e end.
Definition of_lag {A} (r : result A) : outcome A := match r with Ok a => Done a | Raise e => Failed (LagFails e) end.

(** What the run knows of a symbol on the interval: its bars, and its indicators.
    [y_customs] is the number of custom columns, [y_vwap] whether there is a vwap. *)
Record sym_data := mk_sym { y_bars : list cbar; y_vwap : bool; y_customs : nat; y_indicator : nat -> option (list value) }.
(** [ModelSource]: its indicators, lags and lag columns. *)
Record source := mk_source { so_indicators : list nat; so_lags : option nat; so_lag_cols : list nat }.

(** model.py 384-399, interval.py 562-576: the data columns of the bars. *)
Definition bar_value (b : cbar) (col : nat) : value :=
  match col with
  | 0 => c_open b | 1 => c_high b | 2 => c_low b | 3 => c_close b | 4 => c_volume b
  | 5 => match c_vwap b with Some v => v | None => None end
  | S (S (S (S (S (S k))))) => nth k (c_custom b) None
  end.
Definition data_columns (y : sym_data) : list nat :=
  [0; 1; 2; 3; 4] ++ (if y_vwap y then [5] else []) ++ map (Nat.add 6) (seq 0 (y_customs y)).
(** interval.py 543-589: [build_compressed_symbol_arrays]. *)
Definition all_columns (y : sym_data) (s : source) : list nat := data_columns y ++ so_indicators s.
Definition array_of (y : sym_data) (s : source) (col : nat) : option (list value) :=
  if mem col (data_columns y) then Some (map (fun b => bar_value b col) (y_bars y))
  else if mem col (so_indicators s) then y_indicator y col else None.
(** A row of the arrays: the symbol, the date and the values of the columns. *)
Record irow := mk_irow { w_sym : nat; w_when : Z; w_vals : list value }.
Definition row_at (sym : nat) (y : sym_data) (s : source) (ib : nat * cbar) : irow :=
  mk_irow sym (c_date (snd ib))
    (map (fun col => match array_of y s col with Some l => nth (fst ib) l None | None => None end) (all_columns y s)).
Definition build_arrays (sym : nat) (y : sym_data) (s : source) : outcome (list irow) :=
  if existsb (fun k => match y_indicator y k with None => true | _ => false end) (so_indicators s) then Failed NoIndicator
  else if existsb (fun k => match y_indicator y k with Some l => negb (length (y_bars y) =? 0) && negb (length l =? length (y_bars y)) | None => false end) (so_indicators s)
       then Failed BadMask
  else Done (map (row_at sym y s) (combine (seq 0 (length (y_bars y))) (y_bars y))).
(** interval.py 592-607: [slice_arrays_by_dates]. *)
Definition slice_dates (rows : list irow) (selected : list Z) : list irow := filter (fun r => zmem (w_when r) selected) rows.
Definition bar_dates (y : sym_data) : list Z := map c_date (y_bars y).

(** model.py 1821-1853: [_lag_feature_cols] of a frame with the columns [columns]. *)
Definition lag_feature_cols (columns data : list nat) (s : source) : outcome (list nat) :=
  match so_lag_cols s with
  | [] => Done (filter (fun c => mem c data && negb (mem c (so_indicators s))) columns)
  | l => if forallb (fun c => mem c columns) l then Done l else Failed NoLagColumn
  end.
(** A [ModelInput] of rows. *)
Definition columns_of (columns : list nat) (rows : list irow) : list (nat * list value) :=
  map (fun ic => (snd ic, map (fun r => nth (fst ic) (w_vals r) None) rows)) (combine (seq 0 (length columns)) columns).
Definition input_of (pooled : bool) (columns : list nat) (rows : list irow) (lags : option (list (list value))) : input :=
  mk_input (if pooled then Some (map w_sym rows) else None) (map w_when rows) (columns_of columns rows) lags.

(** model.py 2557-2660: [_prepare_interval_symbol_data]; [y] is [None] when the
    interval was not compressed for the symbol. The warning is left out. *)
Definition prepare_symbol (sym interval : nat) (train_dates test_dates : list Z) (y : option sym_data) (s : source) (c : lcache) (lookahead : Z)
  : lcache * outcome (input * input) :=
  match y with
  | None => (c, Failed NoInterval)
  | Some y =>
      match build_arrays sym y s with
      | Failed e => (c, Failed e)
      | Done rows =>
          let effective := fst (lookahead_train_dates (bar_dates y) train_dates test_dates lookahead) in
          let train := slice_dates rows effective in
          let test := slice_dates rows test_dates in
          match so_lags s with
          | None => (c, Done (input_of false (all_columns y s) train None, input_of false (all_columns y s) test None))
          | Some lags =>
              match lag_feature_cols (all_columns y s) (data_columns y) s with
              | Failed e => (c, Failed e)
              | Done cols =>
                  let (c, r) := merge_arrays c sym (Some interval) cols lags (array_of y s) in
                  (c, obind (of_lag r) (fun _ =>
                      obind (of_lag (build_matrix sym (Some interval) cols lags (map w_when train) (bar_dates y) c)) (fun a =>
                      obind (of_lag (build_matrix sym (Some interval) cols lags (map w_when test) (bar_dates y) c)) (fun b =>
                      obind (of_lag (drop_lag_warmup (input_of false (all_columns y s) train (Some a)))) (fun t =>
                      Done (t, input_of false (all_columns y s) test (Some b)))))))
              end
          end
      end
  end.
