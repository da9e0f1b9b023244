(** Model of the result tables and metrics of a backtest: [Strategy._to_test_result]
    (strategy.py 3486-3616), [quantize] (common.py 432-449) and the part of
    [EvaluateMixin.evaluate] and [_calc_eval_metrics] (eval.py 1447-1670) that reads
    the tables.

    A table is the list of its rows. A cell that a column assignment fills is an
    [option Q]: [None] is NaN. Decimals and floats are exact rationals, so the
    conversion of a Decimal to [float] is the identity. Not modelled: the bootstrap,
    the ratio metrics (Sharpe, Sortino, Calmar, Ulcer, R2), [metrics_df], [signals]. *)
From Verif Require Export ScopeModel Prelude RecordModel EvalModel PortfolioModel.
Open Scope list_scope.
Open Scope Q_scope.

(** ** Columns *)
Section Column.
  Context {L : Type} (leb : forall a b : L, {a = b} + {a <> b}).

  (** [val.quantize(_CENTS, ROUND_HALF_UP)]: the nearest cent, ties away from zero. *)
  Definition to_cents (x : Q) : Q :=
    if Qle_bool 0 x then inject_Z (Qfloor (x * 100 + (1#2))) / 100
    else inject_Z (- Qfloor (- x * 100 + (1#2))) / 100.
  (** common.py 432-449 [quantize]: the values that are not missing, under their labels. *)
  Definition dropna (column : list (L * option Q)) : list (L * Q) :=
    flat_map (fun lv => match snd lv with Some v => [(fst lv, v)] | None => [] end) column.
  Definition quantize (round : bool) (column : list (L * option Q)) : list (L * Q) :=
    let values := dropna column in
    if negb round then values else map (fun lv => (fst lv, to_cents (snd lv))) values.
  Fixpoint label_eqb (a b : list L) : bool :=
    match a, b with
    | [], [] => true
    | x :: a, y :: b => if leb x y then label_eqb a b else false
    | _, _ => false
    end.
  Fixpoint find_label (l : L) (s : list (L * Q)) : option Q :=
    match s with [] => None | (k, v) :: r => if leb k l then Some v else find_label l r end.
  Fixpoint unique (s : list L) : bool :=
    match s with [] => true | x :: r => if in_dec leb x r then false else unique r end.
  (** [df[col] = series] (pandas [DataFrame._sanitize_column]): the values as they
      are when the labels are those of the table, else looked up by label, with NaN
      for a label that is not there; [None]: the labels of the series repeat. *)
  Definition assign (labels : list L) (s : list (L * Q)) : option (list (option Q)) :=
    if label_eqb labels (map fst s) then Some (map (fun lv => Some (snd lv)) s)
    else if unique (map fst s) then Some (map (fun l => find_label l s) labels)
    else None.

  Context {R : Type}.
  (** One column of a table: how its cells are read and written. *)
  Record column := mkCol { get : R -> option Q; put : option Q -> R -> R }.
  Definition zip_put (f : option Q -> R -> R) (values : list (option Q)) (rows : list R) : list R :=
    map (fun vr => f (fst vr) (snd vr)) (combine values rows).
  (** [df[col] = quantize(df, col, round)]. *)
  Definition set_column (round : bool) (key : R -> L) (rows : option (list R)) (col : column) : option (list R) :=
    match rows with
    | None => None
    | Some rows =>
        match assign (map key rows) (quantize round (map (fun r => (key r, get col r)) rows)) with
        | None => None
        | Some values => Some (zip_put (put col) values rows)
        end
    end.
  Definition set_columns (round : bool) (key : R -> L) (cols : list column) (rows : list R) : option (list R) :=
    fold_left (set_column round key) cols (Some rows).
End Column.
Arguments column : clear implicits.

(** ** Rows *)
(** [PositionBar], portfolio.py 418-448; [PortfolioBar], 382-415; [Order], 331-379;
    [Trade], 289-328, as table rows. *)
Record pos_row := mkPosRow {
  pr_sym : sym; pr_date : Z; pr_long : Q; pr_short : Q;
  pr_close : option Q; pr_equity : option Q; pr_mv : option Q; pr_margin : option Q; pr_upnl : option Q }.
Record bar_row := mkBarRow {
  br_date : Z; br_cash : option Q; br_equity : option Q; br_notional : option Q; br_margin : option Q; br_loan : option Q;
  br_net_cash : option Q; br_mv : option Q; br_pnl : option Q; br_upnl : option Q; br_fees : option Q }.
Record order_row := mkOrderRow {
  or_id : nat; or_side : oside; or_sym : sym; or_date : Z; or_created : option Z; or_type : order_type; or_intent : intent;
  or_shares : Q; or_limit : option Q; or_market : option Q; or_fill : option Q; or_fees : option Q }.
Record trade_line := mkTradeLine {
  tl_id : nat; tl_type : side; tl_sym : sym; tl_entry_date : Z; tl_exit_date : Z; tl_entry : option Q; tl_exit : option Q;
  tl_shares : Q; tl_pnl : option Q; tl_return : option Q; tl_agg : option Q; tl_bars : nat; tl_ppb : option Q;
  tl_stop : option stop_type; tl_mae : option Q; tl_mfe : option Q }.
(** [DataFrame.from_records(records, columns=Record._fields)]. *)
Definition pos_record (w : prow) : pos_row :=
  mkPosRow (w_sym w) (w_date w) (w_long w) (w_short w) (Some (w_close w)) (Some (w_equity w)) (Some (w_mv w)) (Some (w_margin w)) (Some (w_upnl w)).
Definition bar_record (b : pbar) : bar_row :=
  mkBarRow (b_date b) (Some (b_cash b)) (Some (b_equity b)) (Some (b_notional b)) (Some (b_margin b)) (Some (b_loan b))
    (Some (b_net_cash b)) (Some (b_mv b)) (Some (b_pnl b)) (Some (b_upnl b)) (Some (b_fees b)).
Definition order_record (o : order) : order_row :=
  mkOrderRow (o_id o) (o_side o) (o_sym o) (o_date o) (o_created o) (o_type o) (o_intent o) (o_shares o)
    (o_limit o) (Some (o_market o)) (Some (o_fill o)) (Some (o_fees o)).
Definition trade_record (t : trade) : trade_line :=
  mkTradeLine (t_id t) (t_type t) (t_sym t) (t_entry_date t) (t_exit_date t) (Some (t_entry t)) (Some (t_exit t)) (t_shares t)
    (Some (t_pnl t)) (Some (t_return t)) (Some (t_agg t)) (t_bars t) (Some (t_ppb t)) (t_stop t) (Some (t_mae t)) (Some (t_mfe t)).

(** ** Tables *)
(** strategy.py 3522-3530: close, equity, market_value, margin, unrealized_pnl. *)
Definition pos_columns : list (column (Z * pos_row)) :=
  [mkCol (fun r => pr_close (snd r)) (fun v r => (fst r, let r := snd r in mkPosRow (pr_sym r) (pr_date r) (pr_long r) (pr_short r) v (pr_equity r) (pr_mv r) (pr_margin r) (pr_upnl r)));
   mkCol (fun r => pr_equity (snd r)) (fun v r => (fst r, let r := snd r in mkPosRow (pr_sym r) (pr_date r) (pr_long r) (pr_short r) (pr_close r) v (pr_mv r) (pr_margin r) (pr_upnl r)));
   mkCol (fun r => pr_mv (snd r)) (fun v r => (fst r, let r := snd r in mkPosRow (pr_sym r) (pr_date r) (pr_long r) (pr_short r) (pr_close r) (pr_equity r) v (pr_margin r) (pr_upnl r)));
   mkCol (fun r => pr_margin (snd r)) (fun v r => (fst r, let r := snd r in mkPosRow (pr_sym r) (pr_date r) (pr_long r) (pr_short r) (pr_close r) (pr_equity r) (pr_mv r) v (pr_upnl r)));
   mkCol (fun r => pr_upnl (snd r)) (fun v r => (fst r, let r := snd r in mkPosRow (pr_sym r) (pr_date r) (pr_long r) (pr_short r) (pr_close r) (pr_equity r) (pr_mv r) (pr_margin r) v))].
(** The default row labels. *)
Definition numbered {A} (l : list A) : list (Z * A) := combine (map Z.of_nat (seq 0 (length l))) l.
(** [Series.astype(float)] or [astype(int)], which cuts the fraction of a Decimal off:
    3582-3586. *)
Definition cast_shares (fractional : bool) (x : Q) : Q := if fractional then x else inject_Z (py_trunc x).
(** 3514-3530, 3583-3584. *)
Definition positions_table (round fractional : bool) (records : list prow) : option (list pos_row) :=
  match set_columns Z.eq_dec round fst pos_columns (numbered (map pos_record records)) with
  | None => None
  | Some rows => Some (map (fun r => let r := snd r in mkPosRow (pr_sym r) (pr_date r) (cast_shares fractional (pr_long r)) (cast_shares fractional (pr_short r))
                             (pr_close r) (pr_equity r) (pr_mv r) (pr_margin r) (pr_upnl r)) rows)
  end.
(** 3537-3551: cash ... fees, labelled by date. *)
Definition bar_columns : list (column bar_row) :=
  [mkCol br_cash (fun v r => mkBarRow (br_date r) v (br_equity r) (br_notional r) (br_margin r) (br_loan r) (br_net_cash r) (br_mv r) (br_pnl r) (br_upnl r) (br_fees r));
   mkCol br_equity (fun v r => mkBarRow (br_date r) (br_cash r) v (br_notional r) (br_margin r) (br_loan r) (br_net_cash r) (br_mv r) (br_pnl r) (br_upnl r) (br_fees r));
   mkCol br_notional (fun v r => mkBarRow (br_date r) (br_cash r) (br_equity r) v (br_margin r) (br_loan r) (br_net_cash r) (br_mv r) (br_pnl r) (br_upnl r) (br_fees r));
   mkCol br_margin (fun v r => mkBarRow (br_date r) (br_cash r) (br_equity r) (br_notional r) v (br_loan r) (br_net_cash r) (br_mv r) (br_pnl r) (br_upnl r) (br_fees r));
   mkCol br_loan (fun v r => mkBarRow (br_date r) (br_cash r) (br_equity r) (br_notional r) (br_margin r) v (br_net_cash r) (br_mv r) (br_pnl r) (br_upnl r) (br_fees r));
   mkCol br_net_cash (fun v r => mkBarRow (br_date r) (br_cash r) (br_equity r) (br_notional r) (br_margin r) (br_loan r) v (br_mv r) (br_pnl r) (br_upnl r) (br_fees r));
   mkCol br_mv (fun v r => mkBarRow (br_date r) (br_cash r) (br_equity r) (br_notional r) (br_margin r) (br_loan r) (br_net_cash r) v (br_pnl r) (br_upnl r) (br_fees r));
   mkCol br_pnl (fun v r => mkBarRow (br_date r) (br_cash r) (br_equity r) (br_notional r) (br_margin r) (br_loan r) (br_net_cash r) (br_mv r) v (br_upnl r) (br_fees r));
   mkCol br_upnl (fun v r => mkBarRow (br_date r) (br_cash r) (br_equity r) (br_notional r) (br_margin r) (br_loan r) (br_net_cash r) (br_mv r) (br_pnl r) v (br_fees r));
   mkCol br_fees (fun v r => mkBarRow (br_date r) (br_cash r) (br_equity r) (br_notional r) (br_margin r) (br_loan r) (br_net_cash r) (br_mv r) (br_pnl r) (br_upnl r) v)].
Definition portfolio_table (round : bool) (records : list pbar) : option (list bar_row) :=
  set_columns Z.eq_dec round br_date bar_columns (map bar_record records).
(** 3552-3558, 3585: limit_price, market_price, fill_price, fees, labelled by id. *)
Definition order_columns : list (column order_row) :=
  [mkCol or_limit (fun v r => mkOrderRow (or_id r) (or_side r) (or_sym r) (or_date r) (or_created r) (or_type r) (or_intent r) (or_shares r) v (or_market r) (or_fill r) (or_fees r));
   mkCol or_market (fun v r => mkOrderRow (or_id r) (or_side r) (or_sym r) (or_date r) (or_created r) (or_type r) (or_intent r) (or_shares r) (or_limit r) v (or_fill r) (or_fees r));
   mkCol or_fill (fun v r => mkOrderRow (or_id r) (or_side r) (or_sym r) (or_date r) (or_created r) (or_type r) (or_intent r) (or_shares r) (or_limit r) (or_market r) v (or_fees r));
   mkCol or_fees (fun v r => mkOrderRow (or_id r) (or_side r) (or_sym r) (or_date r) (or_created r) (or_type r) (or_intent r) (or_shares r) (or_limit r) (or_market r) (or_fill r) v)].
Definition orders_table (round fractional : bool) (records : list order) : option (list order_row) :=
  match set_columns Nat.eq_dec round or_id order_columns (map order_record records) with
  | None => None
  | Some rows => Some (map (fun r => mkOrderRow (or_id r) (or_side r) (or_sym r) (or_date r) (or_created r) (or_type r) (or_intent r)
                             (cast_shares fractional (or_shares r)) (or_limit r) (or_market r) (or_fill r) (or_fees r)) rows)
  end.
(** 3559-3578, 3586: entry, exit, pnl, return_pct, agg_pnl, pnl_per_bar, mae, mfe,
    labelled by id; [bars] is a whole number already. *)
Definition trade_columns : list (column trade_line) :=
  [mkCol tl_entry (fun v r => mkTradeLine (tl_id r) (tl_type r) (tl_sym r) (tl_entry_date r) (tl_exit_date r) v (tl_exit r) (tl_shares r) (tl_pnl r) (tl_return r) (tl_agg r) (tl_bars r) (tl_ppb r) (tl_stop r) (tl_mae r) (tl_mfe r));
   mkCol tl_exit (fun v r => mkTradeLine (tl_id r) (tl_type r) (tl_sym r) (tl_entry_date r) (tl_exit_date r) (tl_entry r) v (tl_shares r) (tl_pnl r) (tl_return r) (tl_agg r) (tl_bars r) (tl_ppb r) (tl_stop r) (tl_mae r) (tl_mfe r));
   mkCol tl_pnl (fun v r => mkTradeLine (tl_id r) (tl_type r) (tl_sym r) (tl_entry_date r) (tl_exit_date r) (tl_entry r) (tl_exit r) (tl_shares r) v (tl_return r) (tl_agg r) (tl_bars r) (tl_ppb r) (tl_stop r) (tl_mae r) (tl_mfe r));
   mkCol tl_return (fun v r => mkTradeLine (tl_id r) (tl_type r) (tl_sym r) (tl_entry_date r) (tl_exit_date r) (tl_entry r) (tl_exit r) (tl_shares r) (tl_pnl r) v (tl_agg r) (tl_bars r) (tl_ppb r) (tl_stop r) (tl_mae r) (tl_mfe r));
   mkCol tl_agg (fun v r => mkTradeLine (tl_id r) (tl_type r) (tl_sym r) (tl_entry_date r) (tl_exit_date r) (tl_entry r) (tl_exit r) (tl_shares r) (tl_pnl r) (tl_return r) v (tl_bars r) (tl_ppb r) (tl_stop r) (tl_mae r) (tl_mfe r));
   mkCol tl_ppb (fun v r => mkTradeLine (tl_id r) (tl_type r) (tl_sym r) (tl_entry_date r) (tl_exit_date r) (tl_entry r) (tl_exit r) (tl_shares r) (tl_pnl r) (tl_return r) (tl_agg r) (tl_bars r) v (tl_stop r) (tl_mae r) (tl_mfe r));
   mkCol tl_mae (fun v r => mkTradeLine (tl_id r) (tl_type r) (tl_sym r) (tl_entry_date r) (tl_exit_date r) (tl_entry r) (tl_exit r) (tl_shares r) (tl_pnl r) (tl_return r) (tl_agg r) (tl_bars r) (tl_ppb r) (tl_stop r) v (tl_mfe r));
   mkCol tl_mfe (fun v r => mkTradeLine (tl_id r) (tl_type r) (tl_sym r) (tl_entry_date r) (tl_exit_date r) (tl_entry r) (tl_exit r) (tl_shares r) (tl_pnl r) (tl_return r) (tl_agg r) (tl_bars r) (tl_ppb r) (tl_stop r) (tl_mae r) v)].
Definition trades_table (round fractional : bool) (records : list trade) : option (list trade_line) :=
  match set_columns Nat.eq_dec round tl_id trade_columns (map trade_record records) with
  | None => None
  | Some rows => Some (map (fun r => mkTradeLine (tl_id r) (tl_type r) (tl_sym r) (tl_entry_date r) (tl_exit_date r) (tl_entry r) (tl_exit r)
                             (cast_shares fractional (tl_shares r)) (tl_pnl r) (tl_return r) (tl_agg r) (tl_bars r) (tl_ppb r) (tl_stop r) (tl_mae r) (tl_mfe r)) rows)
  end.

(** ** Metrics *)
Fixpoint all_some {A} (l : list (option A)) : option (list A) :=
  match l with
  | [] => Some []
  | Some x :: r => match all_some r with Some r => Some (x :: r) | None => None end
  | None :: _ => None
  end.
(** The metrics of [EvalMetrics] that are sums, counts or extremes. *)
Record metrics := mkMetrics {
  me_initial : Q; me_end : Q; me_drawdown : Q; me_drawdown_pct : Q; me_trades : tstats; me_unrealized : Q; me_return_pct : Q; me_fees : Q; me_pf : Q }.
(** eval.py 1573-1613 [_calc_eval_metrics]. *)
Definition calc_metrics (mv fees : list Q) (trades : list trade_row) : option metrics :=
  match mv, fees with
  | v0 :: _, f0 :: _ =>
      let ts := trade_stats trades in
      let changes := bar_changes mv in
      Some (mkMetrics v0 (last mv v0) (max_drawdown changes) (fst (max_drawdown_percent (bar_returns mv))) ts
              (last mv v0 - v0 - ts_total_pnl ts + (last fees f0 - f0))
              (total_return_percent v0 (ts_total_pnl ts)) (last fees f0) (profit_factor changes))
  | _, _ => None
  end.
(** What [evaluate] returns: the default metrics with fewer than two bars (1477-1483). *)
Inductive evaluated := EvDefault | EvMetrics (m : metrics) | EvMissing.
Definition evaluate (portfolio : list bar_row) (trades : list trade_line) : evaluated :=
  match all_some (map br_mv portfolio), all_some (map br_fees portfolio), all_some (map tl_pnl trades), all_some (map tl_return trades) with
  | Some mv, Some fees, Some pnls, Some pcts =>
      match bar_changes mv with
      | [] => EvDefault
      | _ =>
          let rows := map (fun x => mk_tr (fst (fst x)) (snd (fst x)) (Z.of_nat (snd x))) (combine (combine pnls pcts) (map tl_bars trades)) in
          match calc_metrics mv fees rows with Some m => EvMetrics m | None => EvMissing end
      end
  | _, _, _, _ => EvMissing
  end.

(** ** The result *)
Record test_result := mkResult {
  re_portfolio : list bar_row; re_positions : list pos_row; re_orders : list order_row; re_trades : list trade_line;
  re_stops : option (list srec); re_metrics : evaluated }.
(** strategy.py 3486-3616; [None]: an exception. *)
Definition to_test_result (round fractional train_only return_stops : bool) (b : books) : option test_result :=
  if train_only then Some (mkResult [] [] [] [] None EvDefault)
  else
    match positions_table round fractional (k_rows b),
          portfolio_table round (match k_bars b with [] => p_bars (k_port b) | l => l end),
          orders_table round fractional (p_orders (k_port b)),
          trades_table round fractional (p_trades (k_port b)) with
    | Some pos, Some bars, Some orders, Some trades =>
        Some (mkResult bars pos orders trades (if return_stops then Some (k_stops b) else None) (evaluate bars trades))
    | _, _, _, _ => None
    end.
