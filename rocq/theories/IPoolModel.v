(** Model of the pooled frames of a model bound to an interval:
    [_prepare_pooled_interval_data] of src/pybroker/model.py (2415-2555).

    The symbols are numbers in the order of their names. Every symbol has the same
    columns, as its bars come from one frame. *)
From Verif Require Import IntervalModel.
From Verif Require Export ITrainModel.
Open Scope list_scope.
Open Scope nat_scope.

(** 2445-2495: the loop over the symbols: the rows to train on, those to test on, and
    the dates of the symbols' bars. *)
Fixpoint pool_parts (symbols : list nat) (train_dates test_dates : list Z) (data : nat -> option sym_data) (s : source) (lookahead : Z)
  : outcome (list irow * list irow * dates_cache) :=
  match symbols with
  | [] => Done ([], [], [])
  | sym :: r =>
      match data sym with
      | None => Failed NoInterval
      | Some y =>
          obind (build_arrays sym y s) (fun rows =>
          let effective := fst (lookahead_train_dates (bar_dates y) train_dates test_dates lookahead) in
          obind (pool_parts r train_dates test_dates data s lookahead) (fun '(train, test, dates) =>
          Done (slice_dates rows effective ++ train, slice_dates rows test_dates ++ test, (sym, bar_dates y) :: dates)))
      end
  end.
(** 2459: the columns are those of the last symbol. *)
Fixpoint last_data (symbols : list nat) (data : nat -> option sym_data) : option sym_data :=
  match symbols with [] => None | [sym] => data sym | _ :: r => last_data r data end.

(** 2507: [numpy.lexsort] by symbol and then date, a stable sort. *)
Definition row_before (a b : irow) : bool := (w_sym a <? w_sym b) || ((w_sym a =? w_sym b) && (w_when a <? w_when b)%Z).
Fixpoint insert_row (x : irow) (l : list irow) : list irow :=
  match l with [] => [x] | y :: r => if row_before y x then y :: insert_row x r else x :: l end.
Definition sort_rows (l : list irow) : list irow := fold_right insert_row [] l.
(** 2497-2510: [_concat_pooled]; without rows, the input has no columns. *)
Definition concat_pooled (columns : list nat) (rows : list irow) : input :=
  match rows with [] => mk_input None [] [] None | _ => input_of true columns (sort_rows rows) None end.

(** 569-610, 2526-2540: [merge_interval_lag_series_cache] for the symbols; the arrays
    hold all the columns of the bars. *)
Fixpoint merge_symbols (c : lcache) (symbols : list nat) (interval : nat) (cols : list nat) (lags : nat) (data : nat -> option sym_data) (s : source)
  : lcache * result unit :=
  match symbols with
  | [] => (c, Ok tt)
  | sym :: r =>
      match data sym with
      | None => merge_symbols c r interval cols lags data s
      | Some y =>
          match merge_arrays c sym (Some interval) cols lags (array_of y s) with
          | (c, Ok _) => merge_symbols c r interval cols lags data s
          | (c, Raise e) => (c, Raise e)
          end
      end
  end.
(** 809-839: [apply_lags_to_model_input_pooled]. A row that is never written fails
    here (the code would leave it undefined); C84 shows that there is none. *)
Definition with_lags (m : input) (rows : list (list value)) : input := mk_input (i_symbols m) (i_dates m) (i_columns m) (Some rows).
Definition apply_lags_pooled (m : input) (cols : list nat) (lags : nat) (c : lcache) (dates : dates_cache) (symbols : list nat) (interval : nat) : result input :=
  match i_dates m, i_symbols m with
  | [], _ => Ok (with_lags m [])
  | _, None => Raise ColumnNotFound
  | _, Some sym_col =>
      bind (build_matrix_pooled sym_col cols lags (i_dates m) dates c symbols (Some interval)) (fun matrix =>
      bind (map_r (fun o => match o with Some row => Ok row | None => Raise Undefined end) matrix) (fun rows => Ok (with_lags m rows)))
  end.

(** 2415-2555; [symbols] is the set of symbols in the order in which it is gone
    through. The warning is left out. *)
Definition prepare_pooled (symbols : list nat) (interval : nat) (train_dates test_dates : list Z) (data : nat -> option sym_data)
  (s : source) (c : lcache) (lookahead : Z) : lcache * outcome (input * input) :=
  match pool_parts symbols train_dates test_dates data s lookahead with
  | Failed e => (c, Failed e)
  | Done (train_rows, test_rows, dates) =>
      let columns := match last_data symbols data with Some y => all_columns y s | None => [] end in
      let data_cols := match last_data symbols data with Some y => data_columns y | None => [] end in
      let train := concat_pooled columns train_rows in
      let test := concat_pooled columns test_rows in
      match so_lags s with
      | None => (c, Done (train, test))
      | Some lags =>
          match lag_feature_cols (map fst (i_columns train)) data_cols s with
          | Failed e => (c, Failed e)
          | Done cols =>
              let (c, r) := merge_symbols c symbols interval cols lags data s in
              (c, obind (of_lag r) (fun _ =>
                  obind (of_lag (apply_lags_pooled train cols lags c dates symbols interval)) (fun train =>
                  obind (of_lag (apply_lags_pooled test cols lags c dates symbols interval)) (fun test =>
                  obind (of_lag (drop_lag_warmup train)) (fun train => Done (train, test))))))
          end
      end
  end.
