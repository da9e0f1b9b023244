(** Model of the lag features of src/pybroker/model.py and of their use in
    [ModelInputScope] of src/pybroker/scope.py, and of the frames models are
    trained on.

    Symbols, columns and intervals are numbers, dates are integers. A value is an
    exact rational or NaN. *)
From Coq Require Export List ZArith QArith Bool PeanoNat Lia.
Export ListNotations.
Open Scope list_scope.
Open Scope nat_scope.

(** NaN is [None]. *)
Definition value := option Q.
Definition is_nan (x : value) : bool := match x with None => true | _ => false end.

(** The exceptions of the modelled functions. [Undefined] stands for a read
    outside of an array by a compiled function, which does not check. *)
Inductive err :=
  | ColumnNotFound | RowsExceedHistory | RowsNotContiguous | LagHistoryMissing | LagHistoryShallow | LagHistoryShort
  | NoSuchSymbol | NothingToTrain | HistoryRequired | HistoryDatesNotFound | OutOfRange | Undefined.
Inductive result (A : Type) := Ok (a : A) | Raise (e : err).
Arguments Ok {A} a.
Arguments Raise {A} e.
Definition bind {A B} (r : result A) (f : A -> result B) : result B :=
  match r with Ok a => f a | Raise e => Raise e end.
Fixpoint map_r {A B} (f : A -> result B) (l : list A) : result (list B) :=
  match l with
  | [] => Ok []
  | x :: r => bind (f x) (fun y => bind (map_r f r) (fun ys => Ok (y :: ys)))
  end.

(** model.py 277-282, 300-303: the values [k] bars later; for [k] = 0, row 0 of
    [_build_stacked_lags_njit], the values themselves. *)
Definition shifted (values : list value) (k : nat) : list value :=
  repeat None (min k (length values)) ++ firstn (length values - k) values.
(** model.py 293-304: [_build_stacked_lags_njit]. *)
Definition build_stacked (values : list value) (lags : nat) : list (list value) :=
  map (shifted values) (seq 0 (S lags)).

(** [LagSeriesKey]. Simplification: only the entries with [lag] = 0, which hold all
    rows; nothing reads the others. *)
Record lkey := mk_lkey { l_symbol : nat; l_column : nat; l_interval : option nat }.
Definition opt_eqb (a b : option nat) : bool :=
  match a, b with Some x, Some y => x =? y | None, None => true | _, _ => false end.
Definition lkey_eqb (a b : lkey) : bool :=
  (l_symbol a =? l_symbol b) && (l_column a =? l_column b) && opt_eqb (l_interval a) (l_interval b).
Definition lcache := list (lkey * list (list value)).
Fixpoint lget (k : lkey) (c : lcache) : option (list (list value)) :=
  match c with [] => None | (k', v) :: r => if lkey_eqb k k' then Some v else lget k r end.
(** model.py 338-363: [_store_stacked_lags_in_cache]. *)
Definition store_stacked (c : lcache) (key : lkey) (stacked : list (list value)) : lcache :=
  match lget key c with
  | Some existing => if length stacked <=? length existing then c else (key, stacked) :: c
  | None => (key, stacked) :: c
  end.
(** model.py 535-559: [merge_lag_series_cache_from_arrays], and the loop over the
    columns of [merge_interval_lag_series_cache] (588-609). The cache is changed in
    place, also when a later column is missing. *)
Fixpoint merge_arrays (c : lcache) (sym : nat) (interval : option nat) (columns : list nat) (lags : nat)
  (arrays : nat -> option (list value)) : lcache * result unit :=
  match columns with
  | [] => (c, Ok tt)
  | col :: r =>
      match arrays col with
      | None => (c, Raise ColumnNotFound)
      | Some values =>
          merge_arrays (store_stacked c (mk_lkey sym col interval) (build_stacked values lags)) sym interval r lags arrays
      end
  end.
(** What is known of the symbols' full history: their dates, and their columns and
    indicators aligned to those dates. A symbol without dates is not in it. *)
Record history := mk_history { h_dates : nat -> option (list Z); h_column : nat -> nat -> option (list value) }.
Definition dates_cache := list (nat * list Z).
Fixpoint dget (s : nat) (d : dates_cache) : option (list Z) :=
  match d with [] => None | (s', v) :: r => if s =? s' then Some v else dget s r end.
(** model.py 461-513: [merge_lag_series_cache_from_store]. *)
Fixpoint merge_store (c : lcache) (d : dates_cache) (h : history) (symbols columns : list nat) (lags : nat)
  : (lcache * dates_cache) * result unit :=
  match symbols with
  | [] => ((c, d), Ok tt)
  | sym :: r =>
      match h_dates h sym with
      | None | Some [] => merge_store c d h r columns lags
      | Some dates =>
          let d := (sym, dates) :: d in
          match merge_arrays c sym None columns lags (h_column h sym) with
          | (c, Ok _) => merge_store c d h r columns lags
          | (c, Raise e) => ((c, d), Raise e)
          end
      end
  end.

(** [numpy.searchsorted] on sorted dates. *)
Fixpoint searchsorted (l : list Z) (x : Z) : nat :=
  match l with [] => 0 | y :: r => if (y <? x)%Z then S (searchsorted r x) else 0 end.
Fixpoint dates_eqb (a b : list Z) : bool :=
  match a, b with
  | [], [] => true
  | x :: a, y :: b => (x =? y)%Z && dates_eqb a b
  | _, _ => false
  end.
(** model.py 613-625: [history_date_offset]. *)
Definition history_date_offset (history_dates row_dates : list Z) : result nat :=
  match row_dates with
  | [] => Ok 0
  | first :: _ =>
      let offset := searchsorted history_dates first in
      let stop := offset + length row_dates in
      if length history_dates <? stop then Raise RowsExceedHistory
      else if dates_eqb (firstn (length row_dates) (skipn offset history_dates)) row_dates then Ok offset
      else Raise RowsNotContiguous
  end.
(** model.py 662-697: [_checked_stacked_lags]. *)
Definition checked_stacked (c : lcache) (key : lkey) (lags offset n_rows : nat) : result (list (list value)) :=
  match lget key c with
  | None => Raise LagHistoryMissing
  | Some stacked =>
      if length stacked <? lags + 1 then Raise LagHistoryShallow
      else if length (nth 0 stacked []) <? offset + n_rows then Raise LagHistoryShort
      else Ok stacked
  end.
(** model.py 306-325: [_fill_lag_feature_block_njit], one row of the block. *)
Definition fill_row (lags : nat) (stacked : list (list value)) (j : nat) : result (list value) :=
  map_r (fun c => match nth_error stacked c with
                  | Some l => match nth_error l j with Some x => Ok x | None => Raise Undefined end
                  | None => Raise Undefined
                  end) (seq 0 (S lags)).
(** model.py 700-735: [build_lag_feature_matrix]; a list of rows. *)
Definition build_matrix (sym : nat) (interval : option nat) (columns : list nat) (lags : nat)
  (row_dates history_dates : list Z) (c : lcache) : result (list (list value)) :=
  match row_dates with
  | [] => Ok []
  | _ =>
      bind (history_date_offset history_dates row_dates) (fun offset =>
      bind (map_r (fun col => checked_stacked c (mk_lkey sym col interval) lags offset (length row_dates)) columns) (fun blocks =>
      map_r (fun r => bind (map_r (fun stacked => fill_row lags stacked (offset + r)) blocks) (fun b => Ok (concat b)))
            (seq 0 (length row_dates))))
  end.

Definition mem (x : nat) (l : list nat) : bool := existsb (Nat.eqb x) l.
Fixpoint set_nth {A} (i : nat) (x : A) (l : list A) : list A :=
  match l, i with
  | [], _ => []
  | _ :: r, O => x :: r
  | y :: r, S i => y :: set_nth i x r
  end.
(** model.py 328-335: [_scatter_matrix_rows_njit]. *)
Fixpoint scatter {A} (matrix : list (option A)) (idx : list nat) (rows : list A) : list (option A) :=
  match idx, rows with
  | i :: idx, x :: rows => scatter (set_nth i (Some x) matrix) idx rows
  | _, _ => matrix
  end.
(** [numpy.argsort(sym_col, kind="stable")] gives the rows of each symbol in their
    order: the positions of [sym] in [sym_col]. *)
Definition positions (sym : nat) (sym_col : list nat) : list nat :=
  map fst (filter (fun p => snd p =? sym) (combine (seq 0 (length sym_col)) sym_col)).
Fixpoint insert_u (x : nat) (l : list nat) : list nat :=
  match l with
  | [] => [x]
  | y :: r => if x <? y then x :: l else if x =? y then l else y :: insert_u x r
  end.
(** [numpy.unique] *)
Definition unique (l : list nat) : list nat := fold_right insert_u [] l.
(** [a[idx]] *)
Definition gather {A} (l : list A) (idx : list nat) : result (list A) :=
  map_r (fun i => match nth_error l i with Some x => Ok x | None => Raise OutOfRange end) idx.
(** model.py 738-775: [build_lag_feature_matrix_pooled]; a row that is never
    written is [None] ([numpy.empty]). *)
Fixpoint pooled_loop (syms : list nat) (sym_col : list nat) (columns : list nat) (lags : nat) (row_dates : list Z)
  (dates : dates_cache) (c : lcache) (symbols : list nat) (interval : option nat) (matrix : list (option (list value)))
  : result (list (option (list value))) :=
  match syms with
  | [] => Ok matrix
  | sym :: r =>
      if mem sym symbols then
        let idx := positions sym sym_col in
        bind (gather row_dates idx) (fun sym_dates =>
        match dget sym dates with
        | None => Raise NoSuchSymbol
        | Some hist =>
            bind (build_matrix sym interval columns lags sym_dates hist c) (fun rows =>
            pooled_loop r sym_col columns lags row_dates dates c symbols interval (scatter matrix idx rows))
        end)
      else pooled_loop r sym_col columns lags row_dates dates c symbols interval matrix
  end.
Definition build_matrix_pooled (sym_col : list nat) (columns : list nat) (lags : nat) (row_dates : list Z)
  (dates : dates_cache) (c : lcache) (symbols : list nat) (interval : option nat) : result (list (option (list value))) :=
  pooled_loop (unique sym_col) sym_col columns lags row_dates dates c symbols interval (repeat None (length sym_col)).

(** model.py 82-97: [ModelInput]: its symbol column when it is pooled, its dates,
    its other columns and the lag features. *)
Record input := mk_input {
  i_symbols : option (list nat);
  i_dates : list Z;
  i_columns : list (nat * list value);
  i_lags : option (list (list value)) }.
Definition valid_row (row : list value) : bool := negb (existsb is_nan row).
(** [numpy.argmax] of an array of bools that has a true one. *)
Fixpoint argmax (l : list bool) : nat := match l with [] => 0 | b :: r => if b then 0 else S (argmax r) end.
Definition any (l : list bool) : bool := existsb (fun b => b) l.
Definition all (l : list bool) : bool := forallb (fun b => b) l.
(** model.py 243-256: [_symbol_blocks]. *)
Fixpoint changes (i : nat) (l : list nat) : list nat :=
  match l with
  | x :: ((y :: _) as r) => if x =? y then changes (S i) r else S i :: changes (S i) r
  | _ => []
  end.
Fixpoint pairs (l : list nat) : list (nat * nat) :=
  match l with x :: ((y :: _) as r) => (x, y) :: pairs r | _ => [] end.
Definition symbol_blocks (m : input) : list (nat * nat) :=
  let n := length (i_dates m) in
  match i_symbols m with
  | None => [(0, n)]
  | Some symbols => if n =? 0 then [(0, n)] else pairs (0 :: changes 0 symbols ++ [n])
  end.
(** model.py 227-241: [_lag_warmup_keep_mask]. The blocks follow one another, so
    the mask is the masks of the blocks one after the other. *)
Definition block_mask (valid : list bool) (b : nat * nat) : list bool :=
  let block := firstn (snd b - fst b) (skipn (fst b) valid) in
  if any block then repeat false (argmax block) ++ repeat true (length block - argmax block)
  else repeat false (length block).
Definition keep_mask (m : input) (valid : list bool) : list bool := flat_map (block_mask valid) (symbol_blocks m).
(** [values[mask]] *)
Fixpoint masked {A} (keep : list bool) (l : list A) : list A :=
  match keep, l with
  | b :: keep, x :: l => if b then x :: masked keep l else masked keep l
  | _, _ => []
  end.
Definition option_map' {A B} (f : A -> B) (o : option A) : option B := match o with Some a => Some (f a) | None => None end.
(** model.py 181-225: [drop_lag_warmup]. *)
Definition drop_lag_warmup (m : input) : result input :=
  match i_lags m, i_dates m with
  | None, _ | _, [] => Ok m
  | Some rows, _ =>
      let valid := map valid_row rows in
      if all valid then Ok m
      else
        let keep := keep_mask m valid in
        if negb (any keep) then Raise NothingToTrain
        else if all keep then Ok m
        else Ok (mk_input (option_map' (masked keep) (i_symbols m)) (masked keep (i_dates m))
                          (map (fun c => (fst c, masked keep (snd c))) (i_columns m)) (Some (masked keep rows)))
  end.
(** scope.py 1819-1838: what [ModelInputScope] keeps for lag features. *)
Record lag_scope := mk_lag_scope { s_cache : lcache; s_dates : dates_cache; s_depth : list ((nat * nat) * nat) }.
Definition new_scope : lag_scope := mk_lag_scope [] [] [].
Fixpoint depth_get (sym col : nat) (d : list ((nat * nat) * nat)) : option nat :=
  match d with
  | [] => None
  | ((s, c), n) :: r => if (sym =? s) && (col =? c) then Some n else depth_get sym col r
  end.
(** [depth.get(key, -1) < lags] *)
Definition shallower (d : list ((nat * nat) * nat)) (sym lags col : nat) : bool :=
  match depth_get sym col d with None => true | Some n => n <? lags end.
(** scope.py 1869-1903: [_merge_lag_cache]. Every column is fetched before the
    cache is changed. *)
Definition merge_lag_cache (h : history) (sym : nat) (columns : list nat) (lags : nat) (s : lag_scope) : lag_scope * result unit :=
  if existsb (fun col => match h_column h sym col with None => true | _ => false end) columns
  then (s, Raise ColumnNotFound)
  else
    let (c, r) := merge_arrays (s_cache s) sym None columns lags (h_column h sym) in
    match r with
    | Raise e => (mk_lag_scope c (s_dates s) (s_depth s), Raise e)
    | Ok _ =>
        (mk_lag_scope c (s_dates s)
           (fold_left (fun d col => ((sym, col), match depth_get sym col d with None => lags | Some n => max n lags end) :: d)
                      columns (s_depth s)), Ok tt)
    end.
(** scope.py 1840-1867: [_ensure_lag_cache]; [h] is [None] without history data. *)
Definition ensure_lag_cache (h : option history) (sym : nat) (lag_cols : list nat) (lags : nat) (s : lag_scope)
  : lag_scope * result unit :=
  match filter (shallower (s_depth s) sym lags) lag_cols with
  | [] => (s, Ok tt)
  | missing =>
      match h with
      | None => (s, Raise HistoryRequired)
      | Some h =>
          match dget sym (s_dates s) with
          | Some _ => merge_lag_cache h sym missing lags s
          | None =>
              match h_dates h sym with
              | None => (s, Raise HistoryDatesNotFound)
              | Some dates => merge_lag_cache h sym missing lags (mk_lag_scope (s_cache s) ((sym, dates) :: s_dates s) (s_depth s))
              end
          end
      end
  end.
(** scope.py 2026-2042 with model.py 778-806 ([apply_lags_to_model_input]): the lag
    features of the rows [row_dates] of [sym] for a model. *)
Definition lag_features (h : option history) (sym : nat) (lag_cols : list nat) (lags : nat) (row_dates : list Z) (s : lag_scope)
  : lag_scope * result (list (list value)) :=
  match ensure_lag_cache h sym lag_cols lags s with
  | (s, Raise e) => (s, Raise e)
  | (s, Ok _) =>
      match dget sym (s_dates s) with
      | None => (s, Raise NoSuchSymbol)
      | Some dates => (s, build_matrix sym None lag_cols lags row_dates dates (s_cache s))
      end
  end.
(** model.py 2131-2180: the lag features of the train and the test rows of one
    symbol while models are trained. *)
Definition train_lag_features (h : history) (sym : nat) (lag_cols : list nat) (lags : nat) (train_dates test_dates : list Z)
  (c : lcache) (d : dates_cache) : (lcache * dates_cache) * result (list (list value) * list (list value)) :=
  match merge_store c d h [sym] lag_cols lags with
  | (cd, Raise e) => (cd, Raise e)
  | ((c, d), Ok _) =>
      ((c, d), match dget sym d with
               | None => Raise NoSuchSymbol
               | Some dates =>
                   bind (build_matrix sym None lag_cols lags train_dates dates c) (fun a =>
                   bind (build_matrix sym None lag_cols lags test_dates dates c) (fun b => Ok (a, b)))
               end)
  end.
