(** Model of the inputs and predictions of a model on a compressed interval, inside
    one walkforward window: src/pybroker/scope.py (IntervalScope) and the parts of
    src/pybroker/model.py it uses.

    One symbol, one interval and one model are modelled: every cache of
    IntervalScope is keyed by them. [rows] are the compressed bars of the WHOLE run,
    each with the values of the model's indicators; [d] holds [completed], the last
    completed compressed bar at each base bar of the window (IntervalModel.v). *)
From Verif Require Export IntervalModel.
Open Scope list_scope.
Open Scope Z_scope.

Section IPred.
Context {R P L A : Type}.

(** What [predict] is given: the lag feature matrix, or a frame. A row of lag
    features with a NaN in it is [None]. *)
Inductive features := FLags (l : list (option L)) | FRows (l : list P).

(** The model source and the trained model.
    - [u_found]: the model was trained for the symbol and the interval.
    - [u_per_bar]: [per_bar] of the trained model.
    - [u_prepare]: narrowing to [input_cols] and [prepare_input_data]: [None] when
      it raises, else whether the frame has columns, and its rows.
    - [u_lags]: the lag features of the last of the given bars, if the model has
      lags (the lag series are computed on the whole run, LagModel.v; a lag looks
      back only).
    - [u_predict]: [_run_predict] (2155-2190), [None] when it raises. For a per-bar
      model the flattened array, otherwise one entry per first axis. *)
Record setup := mk_setup {
  u_found : bool; u_per_bar : bool; u_prepare : list R -> option (bool * list P);
  u_lags : option (list R -> option L); u_predict : features -> option (list A) }.

Inductive ierr := ENoModel | EPrepare | ERowCount | ENoInput | EPredict | ECount.
Inductive ires (T : Type) := IOk (x : T) | IErr (e : ierr).
Arguments IOk {T}. Arguments IErr {T}.

(** model.py 70-100: [ModelInput]: the number of dates, whether there are columns,
    the rows (none without columns) and the lag features. *)
Record minput := mk_minput { in_n : nat; in_cols : bool; in_rows : list P; in_lags : option (list (option L)) }.

(** model.py 110-130: [ModelInput.slice] with an end index that is not negative. *)
Definition mslice (e : nat) (m : minput) : minput :=
  mk_minput (Nat.min e (in_n m)) (in_cols m) (firstn e (in_rows m)) (option_map (firstn e) (in_lags m)).
(** model.py 131-150: [ModelInput.slice_range]; [None] is "to the end". *)
Definition mrange (start : nat) (e : option nat) (m : minput) : minput :=
  let cut {T} (l : list T) := skipn start (match e with None => l | Some e => firstn e l end) in
  mk_minput ((match e with None => in_n m | Some e => Nat.min e (in_n m) end) - start) (in_cols m)
    (cut (in_rows m)) (option_map cut (in_lags m)).
(** model.py 152-167: [ModelInput.lag_warmup_len]. *)
Definition row_valid (x : option L) : bool := match x with Some _ => true | None => false end.
Fixpoint first_valid (l : list (option L)) : nat :=
  match l with
  | [] => O
  | x :: rest => if row_valid x then O else S (first_valid rest)
  end.
Definition lag_warmup_len (m : minput) : nat :=
  match in_lags m with
  | None => O
  | Some l =>
      if Nat.eqb (in_n m) 0 then O
      else if forallb row_valid l then O
      else if negb (existsb row_valid l) then length l
      else first_valid l
  end.

(** 1749-1789: [_build_compressed_model_input], with 1711-1735 for the lag features
    ([apply_lags_to_model_input] on the dates of the window), 1737-1748 and model.py
    842-862 [apply_prepare_input_data]. The missing-column errors of 1712-1717 and
    1737-1742 are left out. *)
Definition build_input (u : setup) (d : csdata) (rows : list R) : ires minput :=
  let cap := Z.to_nat (window_len d) in
  let raw := firstn cap rows in
  let n := length raw in
  let lags := match u_lags u with
              | None => None
              | Some lag => Some (map (fun i => lag (firstn (S i) rows)) (seq 0 n))
              end in
  if negb (u_found u) then IErr ENoModel
  else match u_prepare u raw with
       | None => IErr EPrepare
       | Some (cols, prepared) =>
           if cols && negb (Nat.eqb (length prepared) n) then IErr ERowCount
           else IOk (mk_minput n cols (if cols then prepared else []) lags)
       end.

(** The caches of IntervalScope for the model: [_sym_inputs] (with
    [_sym_lag_warmup], set together with it), [_sym_preds] and [_per_bar_preds]
    (the growing buffer is a list, ScopeModel.v). *)
Record cache := mk_cache { c_input : option minput; c_preds : option (list A); c_bars : list A }.
Definition no_cache : cache := mk_cache None None [].

(** 1685-1748: [_prepare_full_input]. *)
Definition full_input (u : setup) (d : csdata) (rows : list R) (s : cache) : ires minput * cache :=
  match c_input s with
  | Some m => (IOk m, s)
  | None =>
      match build_input u d rows with
      | IErr e => (IErr e, s)
      | IOk m => (IOk m, mk_cache (Some m) (c_preds s) (c_bars s))
      end
  end.

(** 1537-1552: [fetch_input]; the frame is shown as its rows. *)
Definition fetch_input (u : setup) (d : csdata) (rows : list R) (s : cache) (end_index : Z) : ires (list P) * cache :=
  let idx := completed_index d end_index in
  match full_input u d rows s with
  | (IErr e, s) => (IErr e, s)
  | (IOk m, s) => (IOk (in_rows (if Z.ltb idx 0 then mslice 0 m else mslice (Z.to_nat (idx + 1)) m)), s)
  end.

(** 2155-2167: the features [_run_predict] hands to the model. *)
Definition features_of (m : minput) : features :=
  match in_lags m with Some l => FLags l | None => FRows (in_rows m) end.
Definition run_predict (u : setup) (m : minput) : option (list A) := u_predict u (features_of m).
(** 2192-2216: [_run_predict_scalar]. *)
Definition run_predict_scalar (u : setup) (m : minput) : ires A :=
  match run_predict u m with
  | None => IErr EPredict
  | Some flat =>
      match rev flat with
      | [] => IErr ECount
      | last :: _ =>
          if negb (Nat.eqb (length flat) 1) && negb (Nat.eqb (length flat) (in_n m)) then IErr ECount else IOk last
      end
  end.

(** 1655-1667: the loop of [_fetch_preds_per_bar], [todo] iterations left. *)
Fixpoint fill (nan : A) (u : setup) (m : minput) (todo : nat) (filled : list A) : option ierr * list A :=
  match todo with
  | O => (None, filled)
  | S todo =>
      let warmup := lag_warmup_len m in
      if Nat.ltb (length filled) warmup then fill nan u m todo (filled ++ [nan])
      else match run_predict_scalar u (mrange warmup (Some (S (length filled))) m) with
           | IErr e => (Some e, filled)
           | IOk v => fill nan u m todo (filled ++ [v])
           end
  end.
(** 1632-1668: [_fetch_preds_per_bar]. *)
Definition fetch_preds_per_bar (nan : A) (u : setup) (d : csdata) (rows : list R) (s : cache) (end_index : Z)
  : ires (list A) * cache :=
  let target := completed_index d end_index + 1 in
  if Z.leb target 0 then (IOk [], s)
  else
    let n := Z.to_nat target in
    if Nat.leb n (length (c_bars s)) then (IOk (firstn n (c_bars s)), s)
    else match full_input u d rows s with
         | (IErr e, s) => (IErr e, s)
         | (IOk m, s) =>
             match fill nan u m (n - length (c_bars s)) (c_bars s) with
             | (Some e, l) => (IErr e, mk_cache (c_input s) (c_preds s) l)
             | (None, l) => (IOk (firstn n l), mk_cache (c_input s) (c_preds s) l)
             end
         end.
(** 1592-1627: the predictions of the whole window. *)
Definition predict_window (nan : A) (u : setup) (m : minput) : ires (list A) :=
  if Nat.eqb (in_n m) 0 || negb (in_cols m) then IErr ENoInput
  else
    let warmup := lag_warmup_len m in
    if Nat.leb (in_n m) warmup then IOk (repeat nan (in_n m))
    else if negb (Nat.eqb warmup 0) then
      match run_predict u (mrange warmup None m) with
      | None => IErr EPredict
      | Some tail => if negb (Nat.eqb (length tail) (in_n m - warmup)) then IErr ECount
                     else IOk (repeat nan warmup ++ tail)
      end
    else
      match run_predict u m with
      | None => IErr EPredict
      | Some pred => if negb (Nat.eqb (length pred) (in_n m)) then IErr ECount else IOk pred
      end.
(** 1554-1630: [fetch_preds]. *)
Definition fetch_preds (nan : A) (u : setup) (d : csdata) (rows : list R) (s : cache) (end_index : Z)
  : ires (list A) * cache :=
  if negb (u_found u) then (IErr ENoModel, s)
  else if u_per_bar u then fetch_preds_per_bar nan u d rows s end_index
  else
    let idx := completed_index d end_index in
    if Z.ltb idx 0 then (IOk [], s)
    else match c_preds s with
         | Some pred => (IOk (firstn (Z.to_nat (idx + 1)) pred), s)
         | None =>
             match full_input u d rows s with
             | (IErr e, s) => (IErr e, s)
             | (IOk m, s) =>
                 match predict_window nan u m with
                 | IErr e => (IErr e, s)
                 | IOk pred => (IOk (firstn (Z.to_nat (idx + 1)) pred), mk_cache (c_input s) (Some pred) (c_bars s))
                 end
             end
         end.

(** A history of reads in a window, in the order they are made; a read that raises
    leaves the caches it has filled so far (the exception may be caught). *)
Inductive iread := RInput (end_index : Z) | RPreds (end_index : Z).
Definition do_read (nan : A) (u : setup) (d : csdata) (rows : list R) (s : cache) (r : iread) : cache :=
  match r with
  | RInput e => snd (fetch_input u d rows s e)
  | RPreds e => snd (fetch_preds nan u d rows s e)
  end.
Definition after (nan : A) (u : setup) (d : csdata) (rows : list R) (history : list iread) : cache :=
  fold_left (do_read nan u d rows) history no_cache.
End IPred.
Arguments setup : clear implicits. Arguments features : clear implicits. Arguments minput : clear implicits.
Arguments cache : clear implicits. Arguments IOk {T}. Arguments IErr {T}.

(** scope.py 1944-2057: [ModelInputScope._fetch_model_input] on the base timeframe,
    for a model without lags: [prepare_input_data] is applied to the bars of the
    whole window, and the result is cached and sliced. [None] when it raises. *)
Definition base_input {R P} (prepare : list R -> option (bool * list P)) (rows : list R) : option (list P) :=
  match prepare rows with
  | None => None
  | Some (cols, prepared) =>
      if cols && negb (Nat.eqb (length prepared) (length rows)) then None else Some (if cols then prepared else [])
  end.
