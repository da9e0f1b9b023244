(** What lag features should be. *)
From Verif Require Export LagModel.
From Coq Require Export Sorted.

(** [x] is the value [k] bars before the bar dated [d], NaN when there is no such bar. *)
Definition k_before (dates : list Z) (values : list value) (d : Z) (k : nat) (x : value) : Prop :=
  exists i, nth_error dates i = Some d /\ (k <= i -> nth_error values (i - k) = Some x) /\ (i < k -> x = None).

(** [row] holds, for each column, its value on the bar dated [d] followed by the
    values 1, ..., [lags] bars earlier. *)
Definition lag_row (dates : list Z) (series : nat -> option (list value)) (columns : list nat) (lags : nat) (d : Z) (row : list value) : Prop :=
  length row = length columns * S lags /\
  forall ci col k, nth_error columns ci = Some col -> k <= lags ->
    exists values x, series col = Some values /\ nth_error row (ci * S lags + k) = Some x /\ k_before dates values d k x.
(** One such row for each date. *)
Definition lag_rows dates series columns lags (row_dates : list Z) (rows : list (list value)) : Prop :=
  Forall2 (lag_row dates series columns lags) row_dates rows.

(** The caches that any number of models, with their own columns and lags, leave
    behind, when the column of a symbol on an interval is [hist]. *)
Inductive built (hist : lkey -> option (list value)) : lcache -> Prop :=
| built_new : built hist []
| built_more c c' sym interval columns lags r : built hist c ->
    merge_arrays c sym interval columns lags (fun col => hist (mk_lkey sym col interval)) = (c', r) -> built hist c'.

(** The scopes that any number of predictions leave behind. *)
Inductive scope_of (h : history) : lag_scope -> Prop :=
| scope_new : scope_of h new_scope
| scope_more s s' sym lag_cols lags row_dates r : scope_of h s ->
    lag_features (Some h) sym lag_cols lags row_dates s = (s', r) -> scope_of h s'.

(** Every column of a symbol is as long as its dates, which ascend. *)
Definition history_ok (h : history) : Prop := forall sym dates, h_dates h sym = Some dates ->
  StronglySorted Z.lt dates /\ forall col values, h_column h sym col = Some values -> length values = length dates.

(** Two histories with the same bars whose columns agree up to the date [d]. *)
Definition agree_until (d : Z) (h1 h2 : history) : Prop := forall sym,
  h_dates h1 sym = h_dates h2 sym /\ forall col,
    match h_column h1 sym col, h_column h2 sym col with
    | Some v1, Some v2 => forall dates i t, h_dates h1 sym = Some dates -> nth_error dates i = Some t -> (t <= d)%Z ->
                          nth_error v1 i = nth_error v2 i
    | None, None => True
    | _, _ => False
    end.

(** The rows of a model input, each with everything it holds: whether it has a
    symbol and which, its date, its values by column and its lag features. *)
Record whole_row := mk_whole { w_symbol : option (option nat); w_date : Z; w_values : list (nat * option value); w_lags : option (option (list value)) }.
Definition whole (m : input) (i : nat) (d : Z) : whole_row :=
  mk_whole (option_map' (fun l => nth_error l i) (i_symbols m)) d
           (map (fun c => (fst c, nth_error (snd c) i)) (i_columns m)) (option_map' (fun l => nth_error l i) (i_lags m)).
Definition rows_of (m : input) : list whole_row := map (fun p => whole m (fst p) (snd p)) (combine (seq 0 (length (i_dates m))) (i_dates m)).
(** Every part of an input has one entry for each of its dates. *)
Definition input_ok (m : input) : Prop :=
  (forall l, i_symbols m = Some l -> length l = length (i_dates m)) /\
  (forall c, In c (i_columns m) -> length (snd c) = length (i_dates m)) /\
  (forall l, i_lags m = Some l -> length l = length (i_dates m)).
(** Positions [i] <= [j] of the same run of equal symbols; one run when there is no
    symbol column. *)
Definition same_run (m : input) (i j : nat) : Prop :=
  i <= j < length (i_dates m) /\
  forall l, i_symbols m = Some l -> forall k, i <= k <= j -> nth_error l k = nth_error l i.
(** Row [j] comes after the warm-up of its symbol: it or an earlier row of its run
    has all its lag features. *)
Definition warm (m : input) (rows : list (list value)) (j : nat) : Prop :=
  exists i row, same_run m i j /\ nth_error rows i = Some row /\ ~ In None row.
(** The elements of a list that are marked. *)
Definition marked {A} (keep : list bool) (l : list A) : list A := map snd (filter fst (combine keep l)).
(** The caches that training any number of models leaves behind. *)
Inductive trained_of (h : history) : lcache -> dates_cache -> Prop :=
| trained_new : trained_of h [] []
| trained_more c d c' d' symbols columns lags r : trained_of h c d ->
    merge_store c d h symbols columns lags = ((c', d'), r) -> trained_of h c' d'.
