(** Model of the adapters between pybroker and the vendors of bars: the timeframes
    of src/pybroker/data.py ([Alpaca]) and src/pybroker/ext/data.py ([AKShare],
    [YQuery]), and how AKShare's answers become a frame.

    The vendors themselves are outside the model: what they answer is an argument.
    A moment is a number of seconds, of which 86400 make a day. *)
From Verif Require Export TextModel.
Import ListNotations.
Open Scope list_scope.
Open Scope Z_scope.

(** ** Timeframes *)
(** alpaca's [TimeFrameUnit], as far as data.py uses it. *)
Inductive unit_of_time := Minute | Hour | Day | Week.
(** data.py 332-351: [_parse_alpaca_timeframe]; [None] is a ValueError. *)
Definition parse_alpaca (timeframe : option str) : option (Z * unit_of_time) :=
  match timeframe with
  | None => None
  | Some s =>
      match parse_timeframe s with
      | Some [(n, u)] =>
          if str_eqb u (lit "min") then Some (n, Minute)
          else if str_eqb u (lit "hour") then Some (n, Hour)
          else if str_eqb u (lit "day") then Some (n, Day)
          else if str_eqb u (lit "week") then Some (n, Week)
          else None
      | _ => None
      end
  end.
(** data.py 386-419 with 216 and 480-505 with 216: [Alpaca.query] and
    [AlpacaCrypto.query] check the timeframe, [DataSource.query] formats it and
    [_fetch_data] parses it again for the request: the amount and the unit of
    [TimeFrame]. Simplification: the checks of alpaca-py itself are not modelled. *)
Definition alpaca_asks (timeframe : option str) : option (Z * unit_of_time) :=
  match parse_alpaca timeframe with
  | None => None
  | Some _ => match format_timeframe timeframe with Some f => parse_alpaca (Some f) | None => None end
  end.

(** ext/data.py 89-93 and 161-167: [_tf_to_period] of [AKShare] and of [YQuery]. *)
Definition ak_periods : list (str * str) :=
  [(lit "", lit "daily"); (lit "1day", lit "daily"); (lit "1week", lit "weekly")].
Definition yq_periods : list (str * str) :=
  [(lit "", lit "1d"); (lit "1hour", lit "1h"); (lit "1day", lit "1d"); (lit "5day", lit "5d"); (lit "1week", lit "1wk")].
(** data.py 216 and ext/data.py 108-117, 201-210: [DataSource.query] formats the
    timeframe, [_fetch_data] formats it again and looks it up; [None] is a
    ValueError. *)
Definition period_of (periods : list (str * str)) (timeframe : option str) : option str :=
  match format_timeframe timeframe with
  | None => None
  | Some f => match format_timeframe (Some f) with None => None | Some g => sget g periods end
  end.
Definition ak_period := period_of ak_periods.
Definition yq_period := period_of yq_periods.

(** ** AKShare's answers *)
(** Names of columns: ASCII ones, the Chinese ones of [_AKSHARE_COLUMN_MAP]
    (riqi date, kaipan open, shoupan close, zuigao high, zuidi low, chengjiaoliang
    volume) and other Chinese ones. *)
Inductive column := Latin (s : str) | Riqi | Kaipan | Shoupan | Zuigao | Zuidi | Chengjiaoliang | Hanzi (n : nat).
Definition column_eqb (a b : column) : bool :=
  match a, b with
  | Latin s, Latin t => str_eqb s t
  | Riqi, Riqi | Kaipan, Kaipan | Shoupan, Shoupan | Zuigao, Zuigao | Zuidi, Zuidi | Chengjiaoliang, Chengjiaoliang => true
  | Hanzi n, Hanzi m => Nat.eqb n m
  | _, _ => false
  end.
(** common.py 136-146: [DataCol]. *)
Definition DATE := Latin (lit "date").
Definition SYMBOL := Latin (lit "symbol").
Definition OPEN := Latin (lit "open").
Definition HIGH := Latin (lit "high").
Definition LOW := Latin (lit "low").
Definition CLOSE := Latin (lit "close").
Definition VOLUME := Latin (lit "volume").
Definition AMOUNT := Latin (lit "amount").
(** ext/data.py 19-27: [_CANONICAL_COLUMNS]. *)
Definition canonical : list column := [DATE; SYMBOL; OPEN; HIGH; LOW; CLOSE; VOLUME].
(** ext/data.py 29-41: [_AKSHARE_COLUMN_MAP]. *)
Definition ak_columns : list (column * column) :=
  [(Riqi, DATE); (Kaipan, OPEN); (Shoupan, CLOSE); (Zuigao, HIGH); (Zuidi, LOW); (Chengjiaoliang, VOLUME);
   (Latin (lit "date"), DATE); (Latin (lit "open"), OPEN); (Latin (lit "close"), CLOSE); (Latin (lit "high"), HIGH);
   (Latin (lit "low"), LOW)].

(** A value; NaN and a missing value are [None]. A frame is its columns and its
    rows; a row is only looked at in the columns of its frame. *)
Inductive cell := Number (q : Q) | Word (s : str) | Moment (z : Z).
Definition row := column -> option cell.
Record table := mk_table { t_cols : list column; t_rows : list row }.
Definition has (c : column) (l : list column) : bool := existsb (column_eqb c) l.

Fixpoint cget (c : column) (l : list (column * column)) : option column :=
  match l with [] => None | (k, v) :: r => if column_eqb c k then Some v else cget c r end.
(** ext/data.py 138-147: the name a column is given. *)
Definition new_name (t : table) (c : column) : column :=
  let m := if has VOLUME (t_cols t) then ak_columns else ak_columns ++ [(AMOUNT, VOLUME)] in
  match cget c m with Some d => d | None => c end.
(** [temp_df.rename(columns=...)] *)
Definition rename (f : column -> column) (t : table) : table :=
  mk_table (map f (t_cols t))
    (map (fun (r : row) c => match find (fun k => column_eqb (f k) c) (t_cols t) with Some k => r k | None => None end) (t_rows t)).
(** ext/data.py 148: [temp_df[SYMBOL] = s] *)
Definition with_symbol (s : str) (t : table) : table :=
  mk_table (if has SYMBOL (t_cols t) then t_cols t else t_cols t ++ [SYMBOL])
    (map (fun (r : row) c => if column_eqb c SYMBOL then Some (Word s) else r c) (t_rows t)).
(** [pd.concat(frames, ignore_index=True)] *)
Definition union (a b : list column) : list column := a ++ filter (fun c => negb (has c a)) b.
Definition columns_of (l : list table) : list column := fold_left (fun a t => union a (t_cols t)) l [].
Definition masked (t : table) : list row := map (fun (r : row) c => if has c (t_cols t) then r c else None) (t_rows t).
Definition concat_tables (l : list table) : table := mk_table (columns_of l) (flat_map masked l).
Fixpoint no_duplicates (l : list column) : bool :=
  match l with [] => true | c :: r => negb (has c r) && no_duplicates r end.
Fixpoint traverse {A B} (f : A -> option B) (l : list A) : option (list B) :=
  match l with
  | [] => Some []
  | x :: r => match f x, traverse f r with Some y, Some t => Some (y :: t) | _, _ => None end
  end.

(** What AKShare is asked: [stock_zh_a_hist] and [stock_zh_a_hist_tx], with the
    first and last day. *)
Inductive call :=
| Hist (symbol : str) (first last : Z) (period adjust : str)
| Hist_tx (symbol : str) (first last : Z) (adjust : str).
(** What it answers: a frame, one of the errors that [_fetch_akshare_symbol]
    catches (ConnectionError, KeyError, RequestException), or another error. *)
Inductive answer := Table (t : table) | Unavailable | Broken.
Inductive error := Unsupported | Vendor_unavailable | Vendor_broken | Duplicate_columns | Missing_column | Bad_date.
Inductive result (A : Type) := Ok (a : A) | Raises (e : error).
Arguments Ok {A}.
Arguments Raises {A}.

(** [symbol.partition(".")], the first and last of the three, and
    [symbol.split(".")[0]]. *)
Fixpoint bare (s : str) : str :=
  match s with [] => [] | c :: r => if Ascii.eqb c "."%char then [] else c :: bare r end.
Fixpoint exchange (s : str) : str :=
  match s with [] => [] | c :: r => if Ascii.eqb c "."%char then r else exchange r end.
(** ext/data.py 44-48: [_to_tx_symbol] *)
Definition starts_with_6 (s : str) : bool := match s with c :: _ => Ascii.eqb c "6"%char | [] => false end.
Definition to_tx_symbol (s : str) : str :=
  if str_eqb (exchange s) (lit "SH") || starts_with_6 (bare s) then lit "sh" ++ bare s else lit "sz" ++ bare s.

Section AKShare.
(** The vendor, and [pd.to_datetime] of one value ([None] when it raises). *)
Variable vendor : call -> answer.
Variable to_datetime : cell -> option cell.

(** ext/data.py 51-83: [_fetch_akshare_symbol]: the calls it makes and what comes
    of them. *)
Definition fetch_symbol (s : str) (first last : Z) (period adjust : str) : list call * result table :=
  let c := Hist (bare s) first last period adjust in
  match vendor c with
  | Table t => ([c], Ok t)
  | Broken => ([c], Raises Vendor_broken)
  | Unavailable =>
      if negb (str_eqb period (lit "daily")) then ([c], Raises Vendor_unavailable)
      else
        let c' := Hist_tx (to_tx_symbol s) first last adjust in
        ([c; c'], match vendor c' with
                  | Table t => Ok t
                  | Unavailable => Raises Vendor_unavailable
                  | Broken => Raises Vendor_broken
                  end)
  end.
(** ext/data.py 118-149: the loop over the symbols. *)
Fixpoint fetch_all (syms : list str) (first last : Z) (period adjust : str) : list call * result (list table) :=
  match syms with
  | [] => ([], Ok [])
  | s :: r =>
      let '(calls, a) := fetch_symbol s first last period adjust in
      match a with
      | Raises e => (calls, Raises e)
      | Ok t =>
          let '(calls', b) := fetch_all r first last period adjust in
          (calls ++ calls',
           match b with
           | Raises e => Raises e
           | Ok ts => Ok (match t_cols t with [] => ts | _ => with_symbol s (rename (new_name t) t) :: ts end)
           end)
      end
  end.
(** ext/data.py 153: the dates of the rows of a frame. *)
Definition parse_date (r : row) : option row :=
  match r DATE with
  | None => Some r
  | Some v => match to_datetime v with
              | Some d => Some (fun c => if column_eqb c DATE then Some d else r c)
              | None => None
              end
  end.
(** ext/data.py 150-154. Simplification: a frame that has two columns of the same
    name is an error at once. In pandas it is one in [pd.concat] with other frames,
    in [pd.to_datetime] if the columns are dates, and in [DataSource.query] later. *)
Definition assemble (frames : list table) : result table :=
  match frames with
  | [] => Ok (mk_table canonical [])
  | _ =>
      if negb (forallb (fun t => no_duplicates (t_cols t)) frames) then Raises Duplicate_columns
      else
        let t := concat_tables frames in
        if negb (has DATE (t_cols t)) then Raises Missing_column
        else match traverse parse_date (t_rows t) with
             | None => Raises Bad_date
             | Some rows => if forallb (fun c => has c (t_cols t)) canonical then Ok (mk_table canonical rows) else Raises Missing_column
             end
  end.
(** ext/data.py 95-154: [AKShare._fetch_data], called by [DataSource.query]. The
    symbols are in the order in which Python iterates over the set. [adjust] is
    [None] when it is not given. Dates are cut down to days by [strftime]. *)
Definition ak_fetch (syms : list str) (start end_ : Z) (timeframe : option str) (adjust : option str) : list call * result table :=
  match ak_period timeframe with
  | None => ([], Raises Unsupported)
  | Some period =>
      let '(calls, a) := fetch_all syms (start / 86400) (end_ / 86400) period (match adjust with Some s => s | None => [] end) in
      (calls, match a with Ok frames => assemble frames | Raises e => Raises e end)
  end.
End AKShare.
