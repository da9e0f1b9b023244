(** Model of [src/pybroker/portfolio.py]: class [Portfolio] and its records.

    Conventions (see DESIGN.md): [Decimal]/[float] are exact rationals [Q];
    symbols are natural numbers (the code only uses equality and sorting of
    symbols); dates are [Z]; dictionaries are association lists in insertion
    order; an [Entry] object referenced from a stop is represented by its id.
    Logging calls and the per-bar logs [_stop_records] and [position_bars]
    (write-only, never read back by the portfolio) are not modelled. *)
From Verif Require Export Prelude.

Notation sym := nat.

(** common.py 124-141 [StopType]. *)
Inductive stop_type := SBar | SLoss | SProfit | STrailing.
(** [Literal["long","short"]] of positions, portfolio.py 99, 184, 224. *)
Inductive side := Long | Short.
(** [Literal["buy","sell"]] of orders, portfolio.py 357. *)
Inductive oside := OBuy | OSell.
(** common.py [OrderType]. *)
Inductive order_type := OMarket | OLimit | OStopBar | OStopLoss | OStopProfit | OStopTrailing.
(** common.py [PositionIntent]. *)
Inductive intent := BuyToOpen | BuyToClose | SellToOpen | SellToClose.
(** common.py [PositionMode]. *)
Inductive pos_mode := PMDefault | PMLongOnly | PMShortOnly.
(** common.py [PriceType]. *)
Inductive price_type := PTOpen | PTLow | PTHigh | PTClose | PTMiddle | PTAverage.
(** Fill price argument of a BAR stop, portfolio.py 103-112: a number, a
    [PriceType] or a callable (identified by a number). *)
Inductive fill_spec := FNum (q : Q) | FType (t : price_type) | FCall (n : nat).

Definition stop_type_eqb (a b : stop_type) : bool :=
  match a, b with
  | SBar, SBar | SLoss, SLoss | SProfit, SProfit | STrailing, STrailing => true
  | _, _ => false
  end.
Definition side_eqb (a b : side) : bool :=
  match a, b with Long, Long | Short, Short => true | _, _ => false end.

(** portfolio.py 78-114 [Stop]. *)
Record stop : Type := mkStop {
  st_id : nat; st_sym : sym; st_type : stop_type; st_pos : side;
  st_percent : option Q; st_points : option Q; st_bars : option nat;
  st_fill : option fill_spec; st_limit : option Q; st_exit : option price_type
}.

(** portfolio.py 153-189 [Entry]. *)
Record entry : Type := mkEntry {
  e_id : nat;
  e_date : Z;
  e_sym : sym;
  e_shares : Q;
  e_price : Q;
  e_type : side;
  e_bars : nat;
  e_symbars : nat;
  e_stops : list stop;
  e_mae : Q;
  e_mfe : Q
}.
Definition set_e_id (v : nat) (r : entry) : entry :=
  mkEntry v (e_date r) (e_sym r) (e_shares r) (e_price r) (e_type r) (e_bars r) (e_symbars r) (e_stops r) (e_mae r) (e_mfe r).
Definition set_e_date (v : Z) (r : entry) : entry :=
  mkEntry (e_id r) v (e_sym r) (e_shares r) (e_price r) (e_type r) (e_bars r) (e_symbars r) (e_stops r) (e_mae r) (e_mfe r).
Definition set_e_sym (v : sym) (r : entry) : entry :=
  mkEntry (e_id r) (e_date r) v (e_shares r) (e_price r) (e_type r) (e_bars r) (e_symbars r) (e_stops r) (e_mae r) (e_mfe r).
Definition set_e_shares (v : Q) (r : entry) : entry :=
  mkEntry (e_id r) (e_date r) (e_sym r) v (e_price r) (e_type r) (e_bars r) (e_symbars r) (e_stops r) (e_mae r) (e_mfe r).
Definition set_e_price (v : Q) (r : entry) : entry :=
  mkEntry (e_id r) (e_date r) (e_sym r) (e_shares r) v (e_type r) (e_bars r) (e_symbars r) (e_stops r) (e_mae r) (e_mfe r).
Definition set_e_type (v : side) (r : entry) : entry :=
  mkEntry (e_id r) (e_date r) (e_sym r) (e_shares r) (e_price r) v (e_bars r) (e_symbars r) (e_stops r) (e_mae r) (e_mfe r).
Definition set_e_bars (v : nat) (r : entry) : entry :=
  mkEntry (e_id r) (e_date r) (e_sym r) (e_shares r) (e_price r) (e_type r) v (e_symbars r) (e_stops r) (e_mae r) (e_mfe r).
Definition set_e_symbars (v : nat) (r : entry) : entry :=
  mkEntry (e_id r) (e_date r) (e_sym r) (e_shares r) (e_price r) (e_type r) (e_bars r) v (e_stops r) (e_mae r) (e_mfe r).
Definition set_e_stops (v : list stop) (r : entry) : entry :=
  mkEntry (e_id r) (e_date r) (e_sym r) (e_shares r) (e_price r) (e_type r) (e_bars r) (e_symbars r) v (e_mae r) (e_mfe r).
Definition set_e_mae (v : Q) (r : entry) : entry :=
  mkEntry (e_id r) (e_date r) (e_sym r) (e_shares r) (e_price r) (e_type r) (e_bars r) (e_symbars r) (e_stops r) v (e_mfe r).
Definition set_e_mfe (v : Q) (r : entry) : entry :=
  mkEntry (e_id r) (e_date r) (e_sym r) (e_shares r) (e_price r) (e_type r) (e_bars r) (e_symbars r) (e_stops r) (e_mae r) v.

(** portfolio.py 192-196 [_StopData]; the entry object is given by its id. *)
Record stop_data : Type := mkStopData { sd_value : Q; sd_stop : stop; sd_entry : nat }.

(** portfolio.py 199-234 [Position]. [close] is only ever assigned finite
    values (capture_bar 1519-1540), so [is_finite] is always true. *)
Record position : Type := mkPos {
  ps_sym : sym;
  ps_shares : Q;
  ps_type : side;
  ps_close : Q;
  ps_equity : Q;
  ps_mv : Q;
  ps_margin : Q;
  ps_pnl : Q;
  ps_entries : list entry;
  ps_bars : nat;
  ps_notional : Q;
  ps_un_shares : Q;
  ps_un_notional : Q
}.
Definition set_ps_sym (v : sym) (r : position) : position :=
  mkPos v (ps_shares r) (ps_type r) (ps_close r) (ps_equity r) (ps_mv r) (ps_margin r) (ps_pnl r) (ps_entries r) (ps_bars r) (ps_notional r) (ps_un_shares r) (ps_un_notional r).
Definition set_ps_shares (v : Q) (r : position) : position :=
  mkPos (ps_sym r) v (ps_type r) (ps_close r) (ps_equity r) (ps_mv r) (ps_margin r) (ps_pnl r) (ps_entries r) (ps_bars r) (ps_notional r) (ps_un_shares r) (ps_un_notional r).
Definition set_ps_type (v : side) (r : position) : position :=
  mkPos (ps_sym r) (ps_shares r) v (ps_close r) (ps_equity r) (ps_mv r) (ps_margin r) (ps_pnl r) (ps_entries r) (ps_bars r) (ps_notional r) (ps_un_shares r) (ps_un_notional r).
Definition set_ps_close (v : Q) (r : position) : position :=
  mkPos (ps_sym r) (ps_shares r) (ps_type r) v (ps_equity r) (ps_mv r) (ps_margin r) (ps_pnl r) (ps_entries r) (ps_bars r) (ps_notional r) (ps_un_shares r) (ps_un_notional r).
Definition set_ps_equity (v : Q) (r : position) : position :=
  mkPos (ps_sym r) (ps_shares r) (ps_type r) (ps_close r) v (ps_mv r) (ps_margin r) (ps_pnl r) (ps_entries r) (ps_bars r) (ps_notional r) (ps_un_shares r) (ps_un_notional r).
Definition set_ps_mv (v : Q) (r : position) : position :=
  mkPos (ps_sym r) (ps_shares r) (ps_type r) (ps_close r) (ps_equity r) v (ps_margin r) (ps_pnl r) (ps_entries r) (ps_bars r) (ps_notional r) (ps_un_shares r) (ps_un_notional r).
Definition set_ps_margin (v : Q) (r : position) : position :=
  mkPos (ps_sym r) (ps_shares r) (ps_type r) (ps_close r) (ps_equity r) (ps_mv r) v (ps_pnl r) (ps_entries r) (ps_bars r) (ps_notional r) (ps_un_shares r) (ps_un_notional r).
Definition set_ps_pnl (v : Q) (r : position) : position :=
  mkPos (ps_sym r) (ps_shares r) (ps_type r) (ps_close r) (ps_equity r) (ps_mv r) (ps_margin r) v (ps_entries r) (ps_bars r) (ps_notional r) (ps_un_shares r) (ps_un_notional r).
Definition set_ps_entries (v : list entry) (r : position) : position :=
  mkPos (ps_sym r) (ps_shares r) (ps_type r) (ps_close r) (ps_equity r) (ps_mv r) (ps_margin r) (ps_pnl r) v (ps_bars r) (ps_notional r) (ps_un_shares r) (ps_un_notional r).
Definition set_ps_bars (v : nat) (r : position) : position :=
  mkPos (ps_sym r) (ps_shares r) (ps_type r) (ps_close r) (ps_equity r) (ps_mv r) (ps_margin r) (ps_pnl r) (ps_entries r) v (ps_notional r) (ps_un_shares r) (ps_un_notional r).
Definition set_ps_notional (v : Q) (r : position) : position :=
  mkPos (ps_sym r) (ps_shares r) (ps_type r) (ps_close r) (ps_equity r) (ps_mv r) (ps_margin r) (ps_pnl r) (ps_entries r) (ps_bars r) v (ps_un_shares r) (ps_un_notional r).
Definition set_ps_un_shares (v : Q) (r : position) : position :=
  mkPos (ps_sym r) (ps_shares r) (ps_type r) (ps_close r) (ps_equity r) (ps_mv r) (ps_margin r) (ps_pnl r) (ps_entries r) (ps_bars r) (ps_notional r) v (ps_un_notional r).
Definition set_ps_un_notional (v : Q) (r : position) : position :=
  mkPos (ps_sym r) (ps_shares r) (ps_type r) (ps_close r) (ps_equity r) (ps_mv r) (ps_margin r) (ps_pnl r) (ps_entries r) (ps_bars r) (ps_notional r) (ps_un_shares r) v.

(** portfolio.py 290-328 [Trade]. *)
Record trade : Type := mkTrade {
  t_id : nat; t_type : side; t_sym : sym; t_entry_date : Z; t_exit_date : Z;
  t_entry : Q; t_exit : Q; t_shares : Q; t_pnl : Q; t_return : Q; t_agg : Q;
  t_bars : nat; t_ppb : Q; t_stop : option stop_type; t_mae : Q; t_mfe : Q
}.

(** portfolio.py 331-379 [Order]. *)
Record order : Type := mkOrder {
  o_id : nat; o_side : oside; o_sym : sym; o_date : Z; o_created : option Z;
  o_type : order_type; o_intent : intent; o_shares : Q; o_limit : option Q;
  o_market : Q; o_fill : Q; o_fees : Q
}.

(** portfolio.py 382-415 [PortfolioBar]. *)
Record pbar : Type := mkBar {
  b_date : Z; b_cash : Q; b_equity : Q; b_notional : Q; b_margin : Q;
  b_loan : Q; b_net_cash : Q; b_mv : Q; b_pnl : Q; b_upnl : Q; b_fees : Q
}.

(** common.py [FeeMode] or a callable on [FeeInfo]. *)
Inductive fee_mode :=
| FeeFn (f : sym -> Q -> Q -> oside -> Q)   (* symbol, shares, fill price, side *)
| FeeOrderPercent | FeePerOrder | FeePerShare.

(** Constructor arguments of [Portfolio], portfolio.py 531-567. All but the two
    caps are immutable; the caps are copied into the state because
    optimize.py 2297-2300 reassigns them between walkforward windows. *)
Record cfg : Type := mkCfg {
  c_cash : Q; c_fee_mode : option fee_mode; c_fee_amount : option Q;
  c_fractional : bool; c_mode : pos_mode;
  c_max_long : option nat; c_max_short : option nat;   (* initial caps *)
  c_leverage : Q; c_rate : Q; c_bpy : option Q
}.

(** strategy.py 1984-2032 [_verify_config]: leverage at least 1 and a
    non-negative interest rate. [bars_per_year] is only checked to be given when
    the rate is positive; that it is positive is an assumption of the theorems. *)
Record cfg_ok (c : cfg) : Prop := mkCfgOk {
  ck_lev : 1 <= c_leverage c;
  ck_rate : 0 <= c_rate c;
  ck_bpy : forall b, c_bpy c = Some b -> 0 < b
}.

(** Mutable state of [Portfolio], portfolio.py 549-594. [p_bars] is
    [_metrics_bars]; [p_active] maps a symbol to the ids of its active price
    stops (the code stores the [_StopData] objects themselves). *)
Record port : Type := mkPort {
  p_cash : Q;
  p_equity : Q;
  p_mv : Q;
  p_fees : Q;
  p_orders : list order;
  p_trades : list trade;
  p_margin : Q;
  p_accrued : Q;
  p_pnl : Q;
  p_longs : list (sym * position);
  p_shorts : list (sym * position);
  p_symbols : list sym;
  p_bars : list pbar;
  p_wins : Q;
  p_clong : option Q;
  p_cshort : option Q;
  p_stop_data : list (nat * stop_data);
  p_active : list (sym * list nat);
  p_order_id : nat;
  p_entry_id : nat;
  p_trade_id : nat;
  p_long_en : Q;
  p_short_en : Q;
  p_max_long : option nat;
  p_max_short : option nat
}.
Definition set_p_cash (v : Q) (r : port) : port :=
  mkPort v (p_equity r) (p_mv r) (p_fees r) (p_orders r) (p_trades r) (p_margin r) (p_accrued r) (p_pnl r) (p_longs r) (p_shorts r) (p_symbols r) (p_bars r) (p_wins r) (p_clong r) (p_cshort r) (p_stop_data r) (p_active r) (p_order_id r) (p_entry_id r) (p_trade_id r) (p_long_en r) (p_short_en r) (p_max_long r) (p_max_short r).
Definition set_p_equity (v : Q) (r : port) : port :=
  mkPort (p_cash r) v (p_mv r) (p_fees r) (p_orders r) (p_trades r) (p_margin r) (p_accrued r) (p_pnl r) (p_longs r) (p_shorts r) (p_symbols r) (p_bars r) (p_wins r) (p_clong r) (p_cshort r) (p_stop_data r) (p_active r) (p_order_id r) (p_entry_id r) (p_trade_id r) (p_long_en r) (p_short_en r) (p_max_long r) (p_max_short r).
Definition set_p_mv (v : Q) (r : port) : port :=
  mkPort (p_cash r) (p_equity r) v (p_fees r) (p_orders r) (p_trades r) (p_margin r) (p_accrued r) (p_pnl r) (p_longs r) (p_shorts r) (p_symbols r) (p_bars r) (p_wins r) (p_clong r) (p_cshort r) (p_stop_data r) (p_active r) (p_order_id r) (p_entry_id r) (p_trade_id r) (p_long_en r) (p_short_en r) (p_max_long r) (p_max_short r).
Definition set_p_fees (v : Q) (r : port) : port :=
  mkPort (p_cash r) (p_equity r) (p_mv r) v (p_orders r) (p_trades r) (p_margin r) (p_accrued r) (p_pnl r) (p_longs r) (p_shorts r) (p_symbols r) (p_bars r) (p_wins r) (p_clong r) (p_cshort r) (p_stop_data r) (p_active r) (p_order_id r) (p_entry_id r) (p_trade_id r) (p_long_en r) (p_short_en r) (p_max_long r) (p_max_short r).
Definition set_p_orders (v : list order) (r : port) : port :=
  mkPort (p_cash r) (p_equity r) (p_mv r) (p_fees r) v (p_trades r) (p_margin r) (p_accrued r) (p_pnl r) (p_longs r) (p_shorts r) (p_symbols r) (p_bars r) (p_wins r) (p_clong r) (p_cshort r) (p_stop_data r) (p_active r) (p_order_id r) (p_entry_id r) (p_trade_id r) (p_long_en r) (p_short_en r) (p_max_long r) (p_max_short r).
Definition set_p_trades (v : list trade) (r : port) : port :=
  mkPort (p_cash r) (p_equity r) (p_mv r) (p_fees r) (p_orders r) v (p_margin r) (p_accrued r) (p_pnl r) (p_longs r) (p_shorts r) (p_symbols r) (p_bars r) (p_wins r) (p_clong r) (p_cshort r) (p_stop_data r) (p_active r) (p_order_id r) (p_entry_id r) (p_trade_id r) (p_long_en r) (p_short_en r) (p_max_long r) (p_max_short r).
Definition set_p_margin (v : Q) (r : port) : port :=
  mkPort (p_cash r) (p_equity r) (p_mv r) (p_fees r) (p_orders r) (p_trades r) v (p_accrued r) (p_pnl r) (p_longs r) (p_shorts r) (p_symbols r) (p_bars r) (p_wins r) (p_clong r) (p_cshort r) (p_stop_data r) (p_active r) (p_order_id r) (p_entry_id r) (p_trade_id r) (p_long_en r) (p_short_en r) (p_max_long r) (p_max_short r).
Definition set_p_accrued (v : Q) (r : port) : port :=
  mkPort (p_cash r) (p_equity r) (p_mv r) (p_fees r) (p_orders r) (p_trades r) (p_margin r) v (p_pnl r) (p_longs r) (p_shorts r) (p_symbols r) (p_bars r) (p_wins r) (p_clong r) (p_cshort r) (p_stop_data r) (p_active r) (p_order_id r) (p_entry_id r) (p_trade_id r) (p_long_en r) (p_short_en r) (p_max_long r) (p_max_short r).
Definition set_p_pnl (v : Q) (r : port) : port :=
  mkPort (p_cash r) (p_equity r) (p_mv r) (p_fees r) (p_orders r) (p_trades r) (p_margin r) (p_accrued r) v (p_longs r) (p_shorts r) (p_symbols r) (p_bars r) (p_wins r) (p_clong r) (p_cshort r) (p_stop_data r) (p_active r) (p_order_id r) (p_entry_id r) (p_trade_id r) (p_long_en r) (p_short_en r) (p_max_long r) (p_max_short r).
Definition set_p_longs (v : list (sym * position)) (r : port) : port :=
  mkPort (p_cash r) (p_equity r) (p_mv r) (p_fees r) (p_orders r) (p_trades r) (p_margin r) (p_accrued r) (p_pnl r) v (p_shorts r) (p_symbols r) (p_bars r) (p_wins r) (p_clong r) (p_cshort r) (p_stop_data r) (p_active r) (p_order_id r) (p_entry_id r) (p_trade_id r) (p_long_en r) (p_short_en r) (p_max_long r) (p_max_short r).
Definition set_p_shorts (v : list (sym * position)) (r : port) : port :=
  mkPort (p_cash r) (p_equity r) (p_mv r) (p_fees r) (p_orders r) (p_trades r) (p_margin r) (p_accrued r) (p_pnl r) (p_longs r) v (p_symbols r) (p_bars r) (p_wins r) (p_clong r) (p_cshort r) (p_stop_data r) (p_active r) (p_order_id r) (p_entry_id r) (p_trade_id r) (p_long_en r) (p_short_en r) (p_max_long r) (p_max_short r).
Definition set_p_symbols (v : list sym) (r : port) : port :=
  mkPort (p_cash r) (p_equity r) (p_mv r) (p_fees r) (p_orders r) (p_trades r) (p_margin r) (p_accrued r) (p_pnl r) (p_longs r) (p_shorts r) v (p_bars r) (p_wins r) (p_clong r) (p_cshort r) (p_stop_data r) (p_active r) (p_order_id r) (p_entry_id r) (p_trade_id r) (p_long_en r) (p_short_en r) (p_max_long r) (p_max_short r).
Definition set_p_bars (v : list pbar) (r : port) : port :=
  mkPort (p_cash r) (p_equity r) (p_mv r) (p_fees r) (p_orders r) (p_trades r) (p_margin r) (p_accrued r) (p_pnl r) (p_longs r) (p_shorts r) (p_symbols r) v (p_wins r) (p_clong r) (p_cshort r) (p_stop_data r) (p_active r) (p_order_id r) (p_entry_id r) (p_trade_id r) (p_long_en r) (p_short_en r) (p_max_long r) (p_max_short r).
Definition set_p_wins (v : Q) (r : port) : port :=
  mkPort (p_cash r) (p_equity r) (p_mv r) (p_fees r) (p_orders r) (p_trades r) (p_margin r) (p_accrued r) (p_pnl r) (p_longs r) (p_shorts r) (p_symbols r) (p_bars r) v (p_clong r) (p_cshort r) (p_stop_data r) (p_active r) (p_order_id r) (p_entry_id r) (p_trade_id r) (p_long_en r) (p_short_en r) (p_max_long r) (p_max_short r).
Definition set_p_clong (v : option Q) (r : port) : port :=
  mkPort (p_cash r) (p_equity r) (p_mv r) (p_fees r) (p_orders r) (p_trades r) (p_margin r) (p_accrued r) (p_pnl r) (p_longs r) (p_shorts r) (p_symbols r) (p_bars r) (p_wins r) v (p_cshort r) (p_stop_data r) (p_active r) (p_order_id r) (p_entry_id r) (p_trade_id r) (p_long_en r) (p_short_en r) (p_max_long r) (p_max_short r).
Definition set_p_cshort (v : option Q) (r : port) : port :=
  mkPort (p_cash r) (p_equity r) (p_mv r) (p_fees r) (p_orders r) (p_trades r) (p_margin r) (p_accrued r) (p_pnl r) (p_longs r) (p_shorts r) (p_symbols r) (p_bars r) (p_wins r) (p_clong r) v (p_stop_data r) (p_active r) (p_order_id r) (p_entry_id r) (p_trade_id r) (p_long_en r) (p_short_en r) (p_max_long r) (p_max_short r).
Definition set_p_stop_data (v : list (nat * stop_data)) (r : port) : port :=
  mkPort (p_cash r) (p_equity r) (p_mv r) (p_fees r) (p_orders r) (p_trades r) (p_margin r) (p_accrued r) (p_pnl r) (p_longs r) (p_shorts r) (p_symbols r) (p_bars r) (p_wins r) (p_clong r) (p_cshort r) v (p_active r) (p_order_id r) (p_entry_id r) (p_trade_id r) (p_long_en r) (p_short_en r) (p_max_long r) (p_max_short r).
Definition set_p_active (v : list (sym * list nat)) (r : port) : port :=
  mkPort (p_cash r) (p_equity r) (p_mv r) (p_fees r) (p_orders r) (p_trades r) (p_margin r) (p_accrued r) (p_pnl r) (p_longs r) (p_shorts r) (p_symbols r) (p_bars r) (p_wins r) (p_clong r) (p_cshort r) (p_stop_data r) v (p_order_id r) (p_entry_id r) (p_trade_id r) (p_long_en r) (p_short_en r) (p_max_long r) (p_max_short r).
Definition set_p_order_id (v : nat) (r : port) : port :=
  mkPort (p_cash r) (p_equity r) (p_mv r) (p_fees r) (p_orders r) (p_trades r) (p_margin r) (p_accrued r) (p_pnl r) (p_longs r) (p_shorts r) (p_symbols r) (p_bars r) (p_wins r) (p_clong r) (p_cshort r) (p_stop_data r) (p_active r) v (p_entry_id r) (p_trade_id r) (p_long_en r) (p_short_en r) (p_max_long r) (p_max_short r).
Definition set_p_entry_id (v : nat) (r : port) : port :=
  mkPort (p_cash r) (p_equity r) (p_mv r) (p_fees r) (p_orders r) (p_trades r) (p_margin r) (p_accrued r) (p_pnl r) (p_longs r) (p_shorts r) (p_symbols r) (p_bars r) (p_wins r) (p_clong r) (p_cshort r) (p_stop_data r) (p_active r) (p_order_id r) v (p_trade_id r) (p_long_en r) (p_short_en r) (p_max_long r) (p_max_short r).
Definition set_p_trade_id (v : nat) (r : port) : port :=
  mkPort (p_cash r) (p_equity r) (p_mv r) (p_fees r) (p_orders r) (p_trades r) (p_margin r) (p_accrued r) (p_pnl r) (p_longs r) (p_shorts r) (p_symbols r) (p_bars r) (p_wins r) (p_clong r) (p_cshort r) (p_stop_data r) (p_active r) (p_order_id r) (p_entry_id r) v (p_long_en r) (p_short_en r) (p_max_long r) (p_max_short r).
Definition set_p_long_en (v : Q) (r : port) : port :=
  mkPort (p_cash r) (p_equity r) (p_mv r) (p_fees r) (p_orders r) (p_trades r) (p_margin r) (p_accrued r) (p_pnl r) (p_longs r) (p_shorts r) (p_symbols r) (p_bars r) (p_wins r) (p_clong r) (p_cshort r) (p_stop_data r) (p_active r) (p_order_id r) (p_entry_id r) (p_trade_id r) v (p_short_en r) (p_max_long r) (p_max_short r).
Definition set_p_short_en (v : Q) (r : port) : port :=
  mkPort (p_cash r) (p_equity r) (p_mv r) (p_fees r) (p_orders r) (p_trades r) (p_margin r) (p_accrued r) (p_pnl r) (p_longs r) (p_shorts r) (p_symbols r) (p_bars r) (p_wins r) (p_clong r) (p_cshort r) (p_stop_data r) (p_active r) (p_order_id r) (p_entry_id r) (p_trade_id r) (p_long_en r) v (p_max_long r) (p_max_short r).
Definition set_p_max_long (v : option nat) (r : port) : port :=
  mkPort (p_cash r) (p_equity r) (p_mv r) (p_fees r) (p_orders r) (p_trades r) (p_margin r) (p_accrued r) (p_pnl r) (p_longs r) (p_shorts r) (p_symbols r) (p_bars r) (p_wins r) (p_clong r) (p_cshort r) (p_stop_data r) (p_active r) (p_order_id r) (p_entry_id r) (p_trade_id r) (p_long_en r) (p_short_en r) v (p_max_short r).
Definition set_p_max_short (v : option nat) (r : port) : port :=
  mkPort (p_cash r) (p_equity r) (p_mv r) (p_fees r) (p_orders r) (p_trades r) (p_margin r) (p_accrued r) (p_pnl r) (p_longs r) (p_shorts r) (p_symbols r) (p_bars r) (p_wins r) (p_clong r) (p_cshort r) (p_stop_data r) (p_active r) (p_order_id r) (p_entry_id r) (p_trade_id r) (p_long_en r) (p_short_en r) (p_max_long r) v.

(** Position dictionaries by side. *)
Definition poss (sd : side) (p : port) : list (sym * position) :=
  match sd with Long => p_longs p | Short => p_shorts p end.
Definition set_poss (sd : side) (d : list (sym * position)) (p : port) : port :=
  match sd with Long => set_p_longs d p | Short => set_p_shorts d p end.
Definition en (sd : side) (p : port) : Q :=
  match sd with Long => p_long_en p | Short => p_short_en p end.
Definition set_en (sd : side) (v : Q) (p : port) : port :=
  match sd with Long => set_p_long_en v p | Short => set_p_short_en v p end.

(** portfolio.py 531-594 [__init__]. *)
Definition init (c : cfg) : port :=
  mkPort (c_cash c) (c_cash c) (c_cash c) 0 [] [] 0 0 0 [] [] [] [] 0 None None
         [] [] 0 0 0 0 0 (c_max_long c) (c_max_short c).

Section WithCfg.
Variable c : cfg.

(** portfolio.py 596-607 [margin_loan]. *)
Definition margin_loan (p : port) : Q :=
  if Qle_bool (c_leverage c) 1 then p_accrued p
  else let notional := p_long_en p + p_short_en p in
       notional - notional / c_leverage c + p_accrued p.

(** portfolio.py 609-613 [win_rate]. *)
Definition win_rate (p : port) : Q :=
  match p_trades p with
  | [] => 0
  | _ => p_wins p / inject_Z (Z.of_nat (length (p_trades p)))
  end.

(** portfolio.py 615-619 [loss_rate]. *)
Definition loss_rate (p : port) : Q :=
  match p_trades p with [] => 0 | _ => 1 - win_rate p end.

(** portfolio.py 621-650 [_calculate_fees]. *)
Definition calculate_fees (s : sym) (fill shares : Q) (o : oside) : Q :=
  match c_fee_mode c, c_fee_amount c with
  | Some m, Some amt =>
      match m with
      | FeeFn f => f s shares fill o
      | FeeOrderPercent => amt / 100 * fill * shares
      | FeePerOrder => amt
      | FeePerShare => amt * shares
      end
  | _, _ => 0
  end.

(** portfolio.py 652-663 [_verify_input]; [true] means it raises. *)
Definition verify_input_raises (shares fill : Q) (limit : option Q) : bool :=
  Qltb shares 0 || Qle_bool fill 0 ||
  match limit with Some l => Qle_bool l 0 | None => false end.

(** portfolio.py 236-252 [Position._marked_value]. *)
Definition marked_value (pos : position) : Q :=
  if Qle_bool (ps_close pos) 0 then ps_notional pos
  else let marked := ps_shares pos - ps_un_shares pos in
       if Qle_bool marked 0 then ps_un_notional pos
       else marked * ps_close pos + ps_un_notional pos.

(** portfolio.py 254-256 [Position._add_unmarked]. *)
Definition add_unmarked (shares fill : Q) (pos : position) : position :=
  set_ps_un_notional (ps_un_notional pos + shares * fill)
    (set_ps_un_shares (ps_un_shares pos + shares) pos).

(** portfolio.py 275-283, the loop of [_clamp_unmarked] over the entries,
    newest first. *)
Fixpoint clamp_loop (rev_entries : list entry) (remaining notional : Q) : Q :=
  match rev_entries with
  | [] => notional
  | e :: r =>
      if Qle_bool remaining 0 then notional
      else let taken := Qmin remaining (e_shares e) in
           clamp_loop r (remaining - taken) (notional + taken * e_price e)
  end.

(** portfolio.py 258-283 [Position._clamp_unmarked]. *)
Definition clamp_unmarked (pos : position) : position :=
  if Qle_bool (ps_un_shares pos) 0 then pos
  else if Qle_bool (ps_shares pos) 0 then
    set_ps_un_notional 0 (set_ps_un_shares 0 pos)
  else if Qltb (ps_shares pos) (ps_un_shares pos) then
    set_ps_un_notional (clamp_loop (rev (ps_entries pos)) (ps_shares pos) 0)
      (set_ps_un_shares (ps_shares pos) pos)
  else pos.

(** portfolio.py 285-287 [Position._clear_unmarked]. *)
Definition clear_unmarked (pos : position) : position :=
  set_ps_un_notional 0 (set_ps_un_shares 0 pos).

(** portfolio.py 686-721 [_add_order]. *)
Definition add_order (date : Z) (s : sym) (o : oside) (created : option Z)
    (ot : order_type) (it : intent) (shares : Q) (limit market : option Q)
    (fill : Q) (p : port) : port * order :=
  let oid := S (p_order_id p) in
  let fees := calculate_fees s fill shares o in
  let ord := mkOrder oid o s date created ot it shares limit
               (match market with Some m => m | None => fill end) fill fees in
  let p := set_p_order_id oid p in
  let p := set_p_orders (p_orders p ++ [ord]) p in
  let p := set_p_fees (p_fees p + fees) p in
  let p := match c_fee_mode c with
           | Some _ => set_p_cash (p_cash p - fees) p
           | None => p
           end in
  (p, ord).

(** portfolio.py 723-762 [_add_trade]. *)
Definition add_trade (t : nat -> trade) (p : port) : port :=
  let tid := S (p_trade_id p) in
  let tr := t tid in
  let p := set_p_trade_id tid p in
  let p := set_p_trades (p_trades p ++ [tr]) p in
  if Qltb 0 (t_pnl tr) then set_p_wins (p_wins p + 1) p else p.

(** portfolio.py 764-766 [_invalidate_mv_cache]. *)
Definition invalidate (p : port) : port := set_p_cshort None (set_p_clong None p).

(** portfolio.py 768-773 [_get_stop_amount_f]; [None] is the ValueError. *)
Definition stop_amount (st : stop) (price : Q) : option Q :=
  match st_percent st with
  | Some pc => Some (price * pc / 100)
  | None => st_points st
  end.

(** portfolio.py 785 [sorted(stops, key=id)]: stable insertion sort. *)
Fixpoint insert_stop (st : stop) (l : list stop) : list stop :=
  match l with
  | [] => [st]
  | x :: r => if Nat.leb (st_id st) (st_id x) then st :: x :: r else x :: insert_stop st r
  end.
Definition sort_stops (l : list stop) : list stop := fold_right insert_stop [] l.

(** portfolio.py 793-804, the initial level of a price stop. *)
Definition initial_stop_value (st : stop) (entry_price amount : Q) : Q :=
  match st_pos st, st_type st with
  | Long, SProfit | Short, SLoss | Short, STrailing => entry_price + amount
  | _, _ => entry_price - amount
  end.

(** portfolio.py 778-807 [_add_stops] (loop over the sorted stops). Returns the
    entry with the stops appended, the portfolio, and whether it raised. *)
Fixpoint add_stops_loop (ss : list stop) (e : entry) (p : port) : entry * port * bool :=
  match ss with
  | [] => (e, p, false)
  | st :: r =>
      if ahas (st_id st) (p_stop_data p) then (e, p, true)
      else
        let e := set_e_stops (e_stops e ++ [st]) e in
        match st_type st with
        | SBar => add_stops_loop r e p
        | _ =>
            match stop_amount st (e_price e) with
            | None => (e, p, true)
            | Some amount =>
                let v := initial_stop_value st (e_price e) amount in
                let p := set_p_stop_data
                           (aset (st_id st) (mkStopData v st (e_id e)) (p_stop_data p)) p in
                let cur := match aget (st_sym st) (p_active p) with
                           | Some l => l | None => [] end in
                let p := set_p_active (aset (st_sym st) (cur ++ [st_id st]) (p_active p)) p in
                add_stops_loop r e p
            end
        end
  end.

Fixpoint remove_first (x : nat) (l : list nat) : list nat :=
  match l with
  | [] => []
  | y :: r => if Nat.eqb x y then r else y :: remove_first x r
  end.

(** portfolio.py 813-821 and 1662-1670: pops a stop id from both registries. *)
Definition pop_stop (id : nat) (s : sym) (p : port) : port :=
  let p := set_p_stop_data (adel id (p_stop_data p)) p in
  match aget s (p_active p) with
  | None => p
  | Some l =>
      let l' := remove_first id l in
      match l' with
      | [] => set_p_active (adel s (p_active p)) p
      | _ => set_p_active (aset s l' (p_active p)) p
      end
  end.

(** portfolio.py 809-821 [_remove_stop_data]. *)
Fixpoint remove_stop_data (stops : list stop) (p : port) : port :=
  match stops with
  | [] => p
  | st :: r =>
      if ahas (st_id st) (p_stop_data p)
      then remove_stop_data r (pop_stop (st_id st) (st_sym st) p)
      else remove_stop_data r p
  end.

(** portfolio.py 823-839 [_long_market_value]/[_short_market_value]: computes
    and caches the total marked value of one side. *)
Definition total_marked (d : list (sym * position)) : Q :=
  Qsum (map (fun kv => marked_value (snd kv)) d).
Definition long_mv (p : port) : Q * port :=
  match p_clong p with
  | Some v => (v, p)
  | None => let t := total_marked (p_longs p) in (t, set_p_clong (Some t) p)
  end.
Definition short_mv (p : port) : Q * port :=
  match p_cshort p with
  | Some v => (v, p)
  | None => let t := total_marked (p_shorts p) in (t, set_p_cshort (Some t) p)
  end.

(** portfolio.py 841-851 [_post_collateral]. *)
Definition post_collateral (notional : Q) (p : port) : port :=
  invalidate
    (set_p_cash (if Qltb 1 (c_leverage c) then p_cash p - notional / c_leverage c
                 else p_cash p - notional) p).

(** portfolio.py 853-863 [_release_collateral]. *)
Definition release_collateral (notional pnl : Q) (p : port) : port :=
  set_p_cash (if Qltb 1 (c_leverage c)
              then p_cash p + (notional / c_leverage c + pnl)
              else p_cash p + (notional + pnl)) p.

(** portfolio.py 865-866 [_net_cash_balance]. *)
Definition net_cash (p : port) : Q := p_cash p - margin_loan p.

(** portfolio.py 868-890 [_live_market_value]. *)
Definition live_mv (p : port) : Q * port :=
  let '(l, p) := long_mv p in
  let '(s, p) := short_mv p in
  (p_cash p - margin_loan p + l + 2 * p_short_en p - s, p).

(** portfolio.py 892-903 [_available_buying_power]. *)
Definition buying_power (p : port) : Q * port :=
  if Qle_bool (c_leverage c) 1 then (Qmax (p_cash p) 0, p)
  else
    let '(l, p) := long_mv p in
    let '(s, p) := short_mv p in
    let committed := l + s in
    let '(live, p) := live_mv p in
    (Qmax (live * c_leverage c - committed) 0, p).

(** portfolio.py 905-915 [_sweep_accrued_interest]. *)
Definition sweep (p : port) : port :=
  if Qle_bool (p_accrued p) 0 || Qle_bool (p_cash p) 0 then p
  else let payment := Qmin (p_cash p) (p_accrued p) in
       set_p_accrued (p_accrued p - payment) (set_p_cash (p_cash p - payment) p).

(** portfolio.py 917-933 [_apply_interest]. *)
Definition apply_interest (p : port) : port :=
  match c_bpy c with
  | None => p
  | Some bpy =>
      if Qle_bool (c_rate c) 0 then p
      else
        let p := sweep p in
        let nc := net_cash p in
        if Qeq_bool nc 0 then p
        else
          let per_bar := c_rate c / 100 / bpy in
          let interest := Qabs nc * per_bar in
          if Qltb nc 0 then set_p_accrued (p_accrued p + interest) p
          else set_p_cash (p_cash p + interest) p
  end.

(** portfolio.py 66, 971-973: [quantize(1E-9, ROUND_DOWN)] of a non-negative
    quotient. *)
Definition quantize_down (x : Q) : Q :=
  inject_Z (Qfloor (x * inject_Z 1000000000)) / inject_Z 1000000000.

(** portfolio.py 935-977 [_clamp_shares]. [buying_power // fill_price] is the
    floor because both operands are non-negative. *)
Definition clamp_shares (s : sym) (fill shares : Q) (o : oside) (p : port) : Q * port :=
  let '(bp, p) := buying_power p in
  if Qle_bool (c_leverage c) 1 && Qltb (p_cash p) 0 then (0, p)
  else
    let max_shares (bp : Q) :=
      if c_fractional c then quantize_down (bp / fill)
      else inject_Z (Qfloor (bp / fill)) in
    if Qltb 1 (c_leverage c) then
      let affordable := Qmin shares (bp / fill) in
      let fees := calculate_fees s fill affordable o in
      if Qltb 0 fees then
        let bp := bp - fees * c_leverage c in
        if Qle_bool bp 0 then (0, p)
        else (Qmin shares (max_shares bp), p)
      else (Qmin shares (max_shares bp), p)
    else (Qmin shares (max_shares bp), p).

Definition upd_entry (eid : nat) (f : entry -> entry) (es : list entry) : list entry :=
  map (fun e => if Nat.eqb (e_id e) eid then f e else e) es.

(** portfolio.py 1285-1326 [_exit_long] and 1077-1118 [_exit_short]; the two
    differ only in the sign of the pnl and in [return_pct]. Returns the updated
    position (also stored back under its symbol). *)
Definition exit_entry (sd : side) (date : Z) (pos : position) (e : entry)
    (shares fill : Q) (stp : option stop_type) (p : port) : position * port :=
  let order_amount := shares * fill in
  let entry_amount := shares * e_price e in
  let entry_pnl := match sd with
                   | Long => order_amount - entry_amount
                   | Short => entry_amount - order_amount
                   end in
  let p := set_p_pnl (p_pnl p + entry_pnl) p in
  let p := release_collateral entry_amount entry_pnl p in
  let pos := set_ps_shares (ps_shares pos - shares) pos in
  let pos := set_ps_entries
               (upd_entry (e_id e) (fun x => set_e_shares (e_shares x - shares) x)
                  (ps_entries pos)) pos in
  let pos := set_ps_notional (ps_notional pos - entry_amount) pos in
  let p := set_en sd (en sd p - entry_amount) p in
  let pos := clamp_unmarked pos in
  let p := set_poss sd (aset (ps_sym pos) pos (poss sd p)) p in
  let ppb := match e_bars e with
             | O => entry_pnl
             | n => entry_pnl / inject_Z (Z.of_nat n)
             end in
  let return_pct := match sd with
                    | Long => (fill / e_price e - 1) * 100
                    | Short => (e_price e / fill - 1) * 100
                    end in
  let pnl := match sd with Long => fill - e_price e | Short => e_price e - fill end in
  let mae := if Qltb pnl 0 && Qltb pnl (e_mae e) then pnl else e_mae e in
  let mfe := if Qltb 0 pnl && Qltb (e_mfe e) pnl then pnl else e_mfe e in
  let p := add_trade (fun tid =>
             mkTrade tid (e_type e) (e_sym e) (e_date e) date (e_price e) fill shares
               entry_pnl return_pct (p_pnl p) (e_bars e) ppb stp mae mfe) p in
  (pos, invalidate p).

(** portfolio.py 1328-1342 [_update_position]. *)
Definition update_position (sd : side) (pos : position) (p : port) : port :=
  match ps_entries pos with
  | _ :: _ => p
  | [] =>
      let p := set_poss sd (adel (ps_sym pos) (poss sd p)) p in
      if nmem (ps_sym pos) (p_symbols p)
         && negb (ahas (ps_sym pos) (p_longs p))
         && negb (ahas (ps_sym pos) (p_shorts p))
      then set_p_symbols (remove_first (ps_sym pos) (p_symbols p)) p
      else p
  end.

(** portfolio.py 1059-1073 / 1267-1281: the [while] loop of [_cover] and
    [_sell_existing]. [es] is [pos.entries]; each iteration that does not break
    pops its head, so the loop is structural in it. *)
Fixpoint fifo_loop (sd : side) (date : Z) (fill : Q) (es : list entry) (rem : Q)
    (pos : position) (p : port) : Q * position * port :=
  match es with
  | [] => (rem, pos, p)
  | e :: es' =>
      if Qltb 0 rem then
        if Qle_bool (e_shares e) rem then
          let rem' := rem - e_shares e in
          let '(pos, p) := exit_entry sd date pos e (e_shares e) fill None p in
          let p := remove_stop_data (e_stops e) p in
          let pos := set_ps_entries (tl (ps_entries pos)) pos in
          let p := set_poss sd (aset (ps_sym pos) pos (poss sd p)) p in
          fifo_loop sd date fill es' rem' pos p
        else
          let '(pos, p) := exit_entry sd date pos e rem fill None p in
          (0, pos, p)
      else (rem, pos, p)
  end.

(** portfolio.py 1253-1283 [_sell_existing] ([sd = Long]) and 1045-1075
    [_cover] ([sd = Short]); the early return of [_cover] for [rem_shares <= 0]
    is a no-op because the loop then does not run. Returns filled and remaining
    shares. *)
Definition close_existing (sd : side) (date : Z) (s : sym) (shares fill : Q) (p : port)
  : Q * Q * port :=
  match aget s (poss sd p) with
  | None => (0, shares, p)
  | Some pos =>
      if match sd with Short => Qle_bool shares 0 | Long => false end then (0, shares, p)
      else
      let '(rem, pos, p) := fifo_loop sd date fill (ps_entries pos) shares pos p in
      let p := update_position sd pos p in
      (shares - rem, rem, p)
  end.

(** Exceptions. [EInput]: [_verify_input]; [EStop]: [_add_stops] or
    [_verify_stop_fill_price]; [EModel]: the call is outside the model (a stop
    whose symbol or side does not match the entry it is attached to); [EDiv]:
    the DivisionByZero of [entry.price / fill_price] (1096) when a short's price
    stop fills at exactly zero (the state carried by this [Raise] is the one
    before the exit, a simplification). *)
Inductive exn := EInput | EStop | EModel | EDiv.
Inductive res (A : Type) : Type :=
| Ret (p : port) (a : A)
| Raise (p : port) (e : exn).
#[global] Arguments Ret {A}.
#[global] Arguments Raise {A}.

Definition new_pos (s : sym) (shares : Q) (sd : side) : position :=
  mkPos s shares sd 0 0 0 0 0 [] 0 0 0 0.

(** portfolio.py 1162-1185 (tail of [_long]) and 1384-1407 (tail of [_short]),
    with [_add_entry] 665-684 inlined. *)
Definition open_fill (sd : side) (date : Z) (s : sym) (shares fill : Q)
    (stops : option (list stop)) (p : port) : res Q :=
  let p := post_collateral (shares * fill) p in
  let '(pos, p) :=
    match aget s (poss sd p) with
    | None =>
        (new_pos s shares sd,
         set_p_symbols (if nmem s (p_symbols p) then p_symbols p else p_symbols p ++ [s]) p)
    | Some pos => (set_ps_shares (ps_shares pos + shares) pos, p)
    end in
  let pos := add_unmarked shares fill pos in
  let eid := S (p_entry_id p) in
  let p := set_p_entry_id eid p in
  let e := mkEntry eid date s shares fill sd 0 0 [] 0 0 in
  let '(e, p, raised) :=
    match stops with
    | None => (e, p, false)
    | Some ss => add_stops_loop (sort_stops ss) e p
    end in
  let pos := set_ps_entries (ps_entries pos ++ [e]) pos in
  if raised then Raise (set_poss sd (aset s pos (poss sd p)) p) EStop
  else
    let pos := set_ps_notional (ps_notional pos + shares * fill) pos in
    let p := set_poss sd (aset s pos (poss sd p)) p in
    let p := set_en sd (en sd p + shares * fill) p in
    Ret (invalidate p) shares.

Definition at_cap (cap : option nat) (s : sym) (d : list (sym * position)) : bool :=
  match cap with
  | Some m => negb (ahas s d) && Nat.leb m (length d)
  | None => false
  end.

(** portfolio.py 1120-1185 [_long]. *)
Definition long_ (date : Z) (s : sym) (shares fill : Q) (stops : option (list stop))
    (p : port) : res Q :=
  match c_mode c with
  | PMShortOnly => Ret p 0
  | _ =>
      let '(clamped, p) := clamp_shares s fill shares OBuy p in
      let shares := if Qltb clamped shares then clamped else shares in
      if Qle_bool shares 0 then Ret p 0
      else if at_cap (p_max_long p) s (p_longs p) then Ret p 0
      else open_fill Long date s shares fill stops p
  end.

(** portfolio.py 1344-1407 [_short]. *)
Definition short_ (date : Z) (s : sym) (shares fill : Q) (stops : option (list stop))
    (p : port) : res Q :=
  if Qle_bool shares 0 then Ret p 0
  else if at_cap (p_max_short p) s (p_shorts p) then Ret p 0
  else match c_mode c with
  | PMLongOnly => Ret p 0
  | _ =>
      let '(clamped, p) := clamp_shares s fill shares OSell p in
      let shares := if Qltb clamped shares then clamped else shares in
      if Qle_bool shares 0 then Ret p 0
      else open_fill Short date s shares fill stops p
  end.

(** Arguments of [buy] and [sell], portfolio.py 979-990, 1187-1198. *)
Record oargs : Type := mkOArgs {
  a_date : Z; a_sym : sym; a_shares : Q; a_fill : Q; a_limit : option Q;
  a_stops : option (list stop); a_created : option Z; a_otype : order_type;
  a_market : option Q
}.

(** portfolio.py 979-1043 [buy]. *)
Definition buy (a : oargs) (p : port) : res (option order) :=
  if verify_input_raises (a_shares a) (a_fill a) (a_limit a) then Raise p EInput
  else if match a_limit a with Some l => Qltb l (a_fill a) | None => false end then Ret p None
  else if Qeq_bool (a_shares a) 0 then Ret p None
  else
    let '(filled, rem, p) := close_existing Short (a_date a) (a_sym a) (a_shares a) (a_fill a) p in
    match long_ (a_date a) (a_sym a) rem (a_fill a) (a_stops a) p with
    | Raise p e => Raise p e
    | Ret p bought =>
        if Qis0 filled && Qis0 bought then Ret p None
        else
          let it := if Qis0 bought then BuyToClose else BuyToOpen in
          let '(p, o) := add_order (a_date a) (a_sym a) OBuy (a_created a) (a_otype a) it
                           (filled + bought) (a_limit a) (a_market a) (a_fill a) p in
          Ret p (Some o)
    end.

(** portfolio.py 1187-1251 [sell]. *)
Definition sell (a : oargs) (p : port) : res (option order) :=
  if verify_input_raises (a_shares a) (a_fill a) (a_limit a) then Raise p EInput
  else if match a_limit a with Some l => Qltb (a_fill a) l | None => false end then Ret p None
  else if Qeq_bool (a_shares a) 0 then Ret p None
  else
    let '(filled, rem, p) := close_existing Long (a_date a) (a_sym a) (a_shares a) (a_fill a) p in
    match short_ (a_date a) (a_sym a) rem (a_fill a) (a_stops a) p with
    | Raise p e => Raise p e
    | Ret p shorted =>
        if Qis0 filled && Qis0 shorted then Ret p None
        else
          let it := if Qis0 shorted then SellToClose else SellToOpen in
          let '(p, o) := add_order (a_date a) (a_sym a) OSell (a_created a) (a_otype a) it
                           (filled + shorted) (a_limit a) (a_market a) (a_fill a) p in
          Ret p (Some o)
    end.

(** The price returned by a slippage model for (side, symbol, shares, price);
    [None] when no model is set. Share adjustments are discarded by all callers
    in this file. *)
Definition slip_model := option (oside -> sym -> Q -> Q -> option Q).

Definition slip_price (sm : slip_model) (o : oside) (s : sym) (shares price : Q) : option Q :=
  match sm with None => Some price | Some f => f o s shares price end.

(** portfolio.py 1409-1469 [exit_position]. A slippage model returning no price
    ([None]) makes [sell]/[buy] raise, modelled as [EInput]. *)
Definition exit_position (date : Z) (s : sym) (buy_fill sell_fill : Q) (sm : slip_model)
    (p : port) : res unit :=
  let r1 : res unit :=
    match aget s (p_longs p) with
    | None => Ret p tt
    | Some pos =>
        match slip_price sm OSell s (ps_shares pos) sell_fill with
        | None => Raise p EInput
        | Some fill =>
            match sell (mkOArgs date s (ps_shares pos) fill None None None OMarket (Some sell_fill)) p with
            | Ret p _ => Ret p tt
            | Raise p e => Raise p e
            end
        end
    end in
  match r1 with
  | Raise p e => Raise p e
  | Ret p _ =>
      match aget s (p_shorts p) with
      | None => Ret p tt
      | Some pos =>
          match slip_price sm OBuy s (ps_shares pos) buy_fill with
          | None => Raise p EInput
          | Some fill =>
              match buy (mkOArgs date s (ps_shares pos) fill None None None OMarket (Some buy_fill)) p with
              | Ret p _ => Ret p tt
              | Raise p e => Raise p e
              end
          end
      end
  end.

(** portfolio.py 449-480 [_calculate_pnl_mae_mfe], per entry. A NaN low/high is
    [None]: every comparison with NaN is false. *)
Definition entry_mark (sd : side) (low high : option Q) (e : entry) : entry :=
  let loss := match sd with
              | Long => option_map (fun l => l - e_price e) low
              | Short => option_map (fun h => e_price e - h) high
              end in
  let profit := match sd with
                | Long => option_map (fun h => h - e_price e) high
                | Short => option_map (fun l => e_price e - l) low
                end in
  let e := match loss with
           | Some d => if Qltb d 0 && Qltb d (e_mae e) then set_e_mae d e else e
           | None => e
           end in
  match profit with
  | Some d => if Qltb 0 d && Qltb (e_mfe e) d then set_e_mfe d e else e
  | None => e
  end.
Definition entry_upnl (sd : side) (close : Q) (e : entry) : Q :=
  match sd with
  | Long => (close - e_price e) * e_shares e
  | Short => (e_price e - close) * e_shares e
  end.
Definition calculate_pnl_mae_mfe (pos : position) (close : Q) (low high : option Q) : position :=
  set_ps_pnl (Qsum (map (entry_upnl (ps_type pos) close) (ps_entries pos)))
    (set_ps_entries (map (entry_mark (ps_type pos) low high) (ps_entries pos)) pos).

(** Bar of a symbol on the captured date: [None] when it has no bar, or its
    close is missing or not finite (capture_bar 1497-1524); otherwise close and
    optional low/high. *)
Definition bar_fn := sym -> option (Q * option Q * option Q).

Fixpoint insert_nat (x : nat) (l : list nat) : list nat :=
  match l with
  | [] => [x]
  | y :: r => if Nat.leb x y then x :: y :: r else y :: insert_nat x r
  end.
Definition sort_nat (l : list nat) : list nat := fold_right insert_nat [] l.

(** Accumulators of [capture_bar]: equity, market value, margin, long value
    ([math.fsum] of the collected parts). *)
Record acc : Type := mkAcc { ac_eq : Q; ac_mv : Q; ac_margin : Q; ac_long : Q }.

(** portfolio.py 1532-1559: the long position of a symbol. *)
Definition capture_long (s : sym) (bar : option (Q * option Q * option Q))
    (st : acc * port) : acc * port :=
  let '(a, p) := st in
  match aget s (p_longs p) with
  | None => (a, p)
  | Some pos =>
      match bar with
      | Some (close, low, high) =>
          let pos := calculate_pnl_mae_mfe pos close low high in
          let pos := set_ps_equity (ps_shares pos * close) pos in
          let pos := set_ps_mv (ps_equity pos) pos in
          let pos := set_ps_close close pos in
          let pos := clear_unmarked pos in
          let v := ps_equity pos in
          (mkAcc (ac_eq a + v) (ac_mv a + v) (ac_margin a) (ac_long a + v),
           set_p_longs (aset s pos (p_longs p)) p)
      | None =>
          let held := marked_value pos in
          (mkAcc (ac_eq a + held) (ac_mv a + held) (ac_margin a) (ac_long a + held), p)
      end
  end.

(** portfolio.py 1560-1590: the short position of a symbol. *)
Definition capture_short (s : sym) (bar : option (Q * option Q * option Q))
    (st : acc * port) : acc * port :=
  let '(a, p) := st in
  match aget s (p_shorts p) with
  | None => (a, p)
  | Some pos =>
      let n := ps_notional pos in
      match bar with
      | Some (close, low, high) =>
          let pos := calculate_pnl_mae_mfe pos close low high in
          let pos := set_ps_close close pos in
          let pos := set_ps_margin (close * ps_shares pos) pos in
          let pos := set_ps_mv (ps_margin pos + ps_pnl pos) pos in
          let pos := clear_unmarked pos in
          (mkAcc (ac_eq a + n) (ac_mv a + (n + ps_pnl pos)) (ac_margin a + ps_margin pos) (ac_long a),
           set_p_shorts (aset s pos (p_shorts p)) p)
      | None =>
          let marked := marked_value pos in
          (mkAcc (ac_eq a + n) (ac_mv a + (2 * n - marked)) (ac_margin a + ps_margin pos) (ac_long a), p)
      end
  end.

(** portfolio.py 1471-1629 [capture_bar]. *)
Definition capture_bar (date : Z) (bar : bar_fn) (p : port) : port :=
  let p := apply_interest p in
  let nc := p_cash p - margin_loan p in
  let '(a, p) :=
    fold_left (fun st s => capture_short s (bar s) (capture_long s (bar s) st))
      (sort_nat (p_symbols p)) (mkAcc nc nc 0 0, p) in
  let p := set_p_equity (ac_eq a) p in
  let p := set_p_mv (ac_mv a) p in
  let p := set_p_margin (ac_margin a) p in
  let notional := ac_long a + p_margin p in
  let p := invalidate p in
  let b := mkBar date (p_cash p) (p_equity p) notional (p_margin p) (margin_loan p)
             (net_cash p) (p_mv p) (p_equity p - c_cash c) (p_mv p - p_equity p) (p_fees p) in
  set_p_bars (p_bars p ++ [b]) p.

(** portfolio.py 1631-1657 [incr_bars]; [has_bar] is [price_scope.has_bar_on]
    for the date (constantly true when no scope is given). *)
Definition incr_entry (hb : bool) (e : entry) : entry :=
  let e := set_e_bars (S (e_bars e)) e in
  if hb then set_e_symbars (S (e_symbars e)) e else e.
Definition incr_pos (has_bar : sym -> bool) (pos : position) : position :=
  set_ps_entries (map (incr_entry (has_bar (ps_sym pos))) (ps_entries pos))
    (set_ps_bars (S (ps_bars pos)) pos).
Definition incr_bars (has_bar : sym -> bool) (p : port) : port :=
  let f := map (fun kv => (fst kv, incr_pos has_bar (snd kv))) in
  set_p_shorts (f (p_shorts p)) (set_p_longs (f (p_longs p)) p).

Fixpoint remove_stop_id (id : nat) (l : list stop) : list stop :=
  match l with
  | [] => []
  | st :: r => if Nat.eqb (st_id st) id then r else st :: remove_stop_id id r
  end.
Definition has_stop_id (id : nat) (l : list stop) : bool :=
  existsb (fun st => Nat.eqb (st_id st) id) l.

Definition map_entries (f : entry -> entry) (p : port) : port :=
  let g := map (fun kv : sym * position =>
                  (fst kv, set_ps_entries (map f (ps_entries (snd kv))) (snd kv))) in
  set_p_shorts (g (p_shorts p)) (set_p_longs (g (p_longs p)) p).

(** The entries in the order in which [itertools.chain] visits them. *)
Definition all_entries (p : port) : list entry :=
  concat (map (fun kv : sym * position => ps_entries (snd kv)) (p_longs p ++ p_shorts p)).

(** portfolio.py 1659-1682 [remove_stop]. *)
Definition remove_stop (id : nat) (p : port) : port * bool :=
  match aget id (p_stop_data p) with
  | Some d =>
      let p := pop_stop id (st_sym (sd_stop d)) p in
      (map_entries (fun e => if Nat.eqb (e_id e) (sd_entry d)
                             then set_e_stops (remove_stop_id id (e_stops e)) e else e) p, true)
  | None =>
      match find (fun e => has_stop_id id (e_stops e)) (all_entries p) with
      | Some e0 =>
          (map_entries (fun e => if Nat.eqb (e_id e) (e_id e0)
                                 then set_e_stops (remove_stop_id id (e_stops e)) e else e) p, true)
      | None => (p, false)
      end
  end.

(** portfolio.py 1716-1727 [_remove_entry_stops]. *)
Definition remove_entry_stops (e : entry) (t : option stop_type) (p : port) : port :=
  match t with
  | None =>
      let p := remove_stop_data (e_stops e) p in
      map_entries (fun x => if Nat.eqb (e_id x) (e_id e) then set_e_stops [] x else x) p
  | Some t =>
      match find (fun st => stop_type_eqb (st_type st) t) (e_stops e) with
      | Some st => fst (remove_stop (st_id st) p)
      | None => p
      end
  end.

(** portfolio.py 1710-1714 [_remove_position_stops]. *)
Definition remove_position_stops (pos : position) (t : option stop_type) (p : port) : port :=
  fold_left (fun p e => remove_entry_stops e t p) (ps_entries pos) p.

(** portfolio.py 1684-1708 [remove_stops]. *)
Inductive rm_target := RSym (s : sym) | RPos (sd : side) (s : sym) | REntry (eid : nat).
Definition remove_stops (v : rm_target) (t : option stop_type) (p : port) : port :=
  let on_pos sd s p :=
    match aget s (poss sd p) with
    | Some pos => remove_position_stops pos t p
    | None => p
    end in
  match v with
  | RSym s => on_pos Short s (on_pos Long s p)
  | RPos sd s => on_pos sd s p
  | REntry eid =>
      match find (fun e => Nat.eqb (e_id e) eid) (all_entries p) with
      | Some e => remove_entry_stops e t p
      | None => p
      end
  end.

(** What [check_stops] reads of the price scope on one date: whether a symbol
    can price stops ([_can_price_stops] 1855-1874), its prices
    ([PriceScope.fetch_float]; finite, see DESIGN.md) and the resolution of a
    BAR stop's fill price ([PriceScope.fetch]). *)
Record scope : Type := mkScope {
  sc_can_price : sym -> bool;
  sc_price : sym -> price_type -> Q;
  sc_fetch : sym -> fill_spec -> Q
}.

(** portfolio.py 2033-2050 [_trigger_bar_stop] with [_verify_stop_fill_price]
    2096-2112. *)
Inductive trig := TNone | TFill (q : Q) | TRaise.
Definition trigger_bar_stop (st : stop) (sc : scope) (e : entry) : trig :=
  match st_bars st with
  | None => TRaise
  | Some n =>
      if Nat.leb n (e_symbars e) then
        let spec := match st_fill st with None => FType PTMiddle | Some f => f end in
        let q := sc_fetch sc (st_sym st) spec in
        if Qle_bool q 0 then TRaise else TFill q
      else TNone
  end.

(** portfolio.py 2052-2094 [_trigger_profit_or_loss_stop], given the current
    stop level. *)
Definition trigger_price_stop (st : stop) (v : Q) (sc : scope) : option Q :=
  let low := sc_price sc (st_sym st) PTLow in
  let high := sc_price sc (st_sym st) PTHigh in
  match st_pos st, st_type st with
  | Long, SLoss | Long, STrailing | Short, SProfit =>
      match st_exit st with
      | Some t => let x := sc_price sc (st_sym st) t in
                  if Qle_bool x v then Some x else None
      | None => if Qle_bool low v then Some (Qmin v high) else None
      end
  | Long, SProfit | Short, SLoss | Short, STrailing =>
      match st_exit st with
      | Some t => let x := sc_price sc (st_sym st) t in
                  if Qle_bool v x then Some x else None
      | None => if Qle_bool v high then Some (Qmax v low) else None
      end
  | _, SBar => None
  end.

(** portfolio.py 2120-2128: the ratchet of [_trigger_trailing_stop]; [None] is
    the ValueError of [_get_stop_amount_f]. *)
Definition ratchet (st : stop) (v : Q) (sc : scope) : option Q :=
  match st_pos st with
  | Long =>
      let high := sc_price sc (st_sym st) PTHigh in
      option_map (fun a => Qmax (high - a) v) (stop_amount st high)
  | Short =>
      let low := sc_price sc (st_sym st) PTLow in
      option_map (fun a => Qmin (low + a) v) (stop_amount st low)
  end.

(** portfolio.py 1906-1938 [_slip_stop_fill_price]. *)
Definition slip_stop_fill (sm : slip_model) (st : stop) (e : entry) (fill : Q) : Q :=
  match sm with
  | None => fill
  | Some f =>
      match f (match st_pos st with Long => OSell | Short => OBuy end)
              (st_sym st) (e_shares e) fill with
      | None => fill
      | Some q => if Qle_bool q 0 then fill else q
      end
  end.

Definition stop_order_type (t : stop_type) : order_type :=
  match t with
  | SBar => OStopBar | SLoss => OStopLoss | SProfit => OStopProfit | STrailing => OStopTrailing
  end.

(** portfolio.py 1940-2031 [_trigger_stop]. Returns the (possibly updated)
    portfolio and whether the stop was executed. *)
Definition trigger_stop (date : Z) (sc : scope) (sm : slip_model) (pos : position)
    (e : entry) (st : stop) (p : port) : res bool :=
  if negb (ahas (st_sym st) (poss (st_pos st) p)) then Ret p false
  else
    let decide : res (option Q) :=
      match st_type st with
      | SBar =>
          match trigger_bar_stop st sc e with
          | TNone => Ret p None
          | TFill q => Ret p (Some q)
          | TRaise => Raise p EStop
          end
      | SLoss | SProfit =>
          match aget (st_id st) (p_stop_data p) with
          | None => Raise p EStop            (* KeyError *)
          | Some d => Ret p (trigger_price_stop st (sd_value d) sc)
          end
      | STrailing =>
          match aget (st_id st) (p_stop_data p) with
          | None => Raise p EStop            (* KeyError *)
          | Some d =>
              match trigger_price_stop st (sd_value d) sc with
              | Some q => Ret p (Some q)
              | None =>
                  match ratchet st (sd_value d) sc with
                  | None => Raise p EStop
                  | Some v =>
                      Ret (set_p_stop_data
                             (aset (st_id st) (mkStopData v (sd_stop d) (sd_entry d)) (p_stop_data p)) p)
                          None
                  end
              end
          end
      end in
    match decide with
    | Raise p x => Raise p x
    | Ret p None => Ret p false
    | Ret p (Some market) =>
        let fill := slip_stop_fill sm st e market in
        let rejected := match st_limit st, st_pos st with
                        | Some l, Long => Qltb fill l
                        | Some l, Short => Qltb l fill
                        | None, _ => false
                        end in
        if rejected then Ret p false
        else if side_eqb (st_pos st) Short && Qis0 fill then Raise p EDiv
        else
          let '(pos, p) := exit_entry (st_pos st) date pos e (e_shares e) fill (Some (st_type st)) p in
          let '(p, _) := add_order date (ps_sym pos)
              (match st_pos st with Long => OSell | Short => OBuy end)
              None (stop_order_type (st_type st))
              (match st_pos st with Long => SellToClose | Short => BuyToClose end)
              (e_shares e) (st_limit st) (Some market) fill p in
          Ret p true
    end.

Definition find_entry (eid : nat) (es : list entry) : option entry :=
  find (fun e => Nat.eqb (e_id e) eid) es.

(** State threaded through the loops of [check_stops]: the executed
    (side, symbol, entry id) triples in order (their ids are
    [triggered_entry_ids]). *)
Definition executed := list (side * sym * nat).
Definition is_triggered (eid : nat) (ex : executed) : bool :=
  existsb (fun x => Nat.eqb (snd x) eid) ex.

(** portfolio.py 1779-1805: one price stop of the first loop. *)
Definition check_price_stop (date : Z) (sc : scope) (sm : slip_model) (s : sym) (id : nat)
    (st : res executed) : res executed :=
  match st with
  | Raise p x => Raise p x
  | Ret p ex =>
      match aget id (p_stop_data p) with
      | None => Raise p EModel
      | Some d =>
          if is_triggered (sd_entry d) ex then Ret p ex
          else
            match aget s (poss (st_pos (sd_stop d)) p) with
            | None => Ret p ex
            | Some pos =>
                match find_entry (sd_entry d) (ps_entries pos) with
                | None => Raise p EModel
                | Some e =>
                    if negb (Nat.eqb (st_sym (sd_stop d)) s) then Raise p EModel else
                    match trigger_stop date sc sm pos e (sd_stop d) p with
                    | Raise p x => Raise p x
                    | Ret p true => Ret p (ex ++ [(st_pos (sd_stop d), s, sd_entry d)])
                    | Ret p false => Ret p ex
                    end
                end
            end
      end
  end.

(** portfolio.py 1763-1805: first loop, over the price stops of every symbol.
    The loop iterates over the registry as it is at the start; nothing is added
    or removed while it runs. *)
Definition price_loop (date : Z) (sc : scope) (sm : slip_model)
    (active : list (sym * list nat)) (st : res executed) : res executed :=
  fold_left (fun st kv =>
               if sc_can_price sc (fst kv)
               then fold_left (fun st id => check_price_stop date sc sm (fst kv) id st) (snd kv) st
               else st) active st.

(** portfolio.py 1825-1844: the BAR stops of one entry; stops at the first that
    executes. *)
Fixpoint bar_stops_loop (date : Z) (sc : scope) (sm : slip_model) (sd : side) (s : sym)
    (eid : nat) (stops : list stop) (st : res executed) : res executed :=
  match stops, st with
  | [], _ => st
  | _, Raise p x => Raise p x
  | t :: r, Ret p ex =>
      match st_type t with
      | SBar =>
          match aget s (poss sd p) with
          | None => Raise p EModel
          | Some pos =>
              match find_entry eid (ps_entries pos) with
              | None => Raise p EModel
              | Some e =>
                  if negb (Nat.eqb (st_sym t) s && side_eqb (st_pos t) sd) then Raise p EModel else
                  match trigger_stop date sc sm pos e t p with
                  | Raise p x => Raise p x
                  | Ret p true => Ret p (ex ++ [(sd, s, eid)])
                  | Ret p false => bar_stops_loop date sc sm sd s eid r (Ret p ex)
                  end
              end
          end
      | _ => bar_stops_loop date sc sm sd s eid r (Ret p ex)
      end
  end.

(** portfolio.py 1818-1844: the entries of one position. *)
Definition bar_entries_loop (date : Z) (sc : scope) (sm : slip_model) (sd : side) (s : sym)
    (es : list entry) (st : res executed) : res executed :=
  fold_left (fun st e =>
    match st with
    | Raise p x => Raise p x
    | Ret p ex => if is_triggered (e_id e) ex then Ret p ex
                  else bar_stops_loop date sc sm sd s (e_id e) (e_stops e) (Ret p ex)
    end) es st.

(** portfolio.py 1807-1844: second loop, over the BAR stops of every position. *)
Definition bar_loop (date : Z) (sc : scope) (sm : slip_model) (sd : side)
    (d : list (sym * position)) (st : res executed) : res executed :=
  fold_left (fun st kv =>
    if sc_can_price sc (ps_sym (snd kv))
    then bar_entries_loop date sc sm sd (fst kv) (ps_entries (snd kv)) st
    else st) d st.

Fixpoint remove_entry (eid : nat) (es : list entry) : list entry :=
  match es with
  | [] => []
  | e :: r => if Nat.eqb (e_id e) eid then r else e :: remove_entry eid r
  end.

(** portfolio.py 1846-1852: removal of the executed entries. *)
Definition finish_exit (p : port) (x : side * sym * nat) : port :=
  let '(sd, s, eid) := x in
  match aget s (poss sd p) with
  | None => p
  | Some pos =>
      match find_entry eid (ps_entries pos) with
      | None => p
      | Some e =>
          let pos := set_ps_entries (remove_entry eid (ps_entries pos)) pos in
          let p := set_poss sd (aset s pos (poss sd p)) p in
          let p := remove_stop_data (e_stops e) p in
          update_position sd pos p
      end
  end.

(** portfolio.py 1729-1852 [check_stops]. The second loop iterates over the
    positions that exist at its start; exits inside the loops change shares but
    remove no position before the final loop. *)
Definition check_stops (date : Z) (sc : scope) (sm : slip_model) (p : port) : res unit :=
  let r1 := price_loop date sc sm (p_active p) (Ret p []) in
  let r2 := match r1 with
            | Raise _ _ => r1
            | Ret p1 _ => bar_loop date sc sm Long (p_longs p1) r1
            end in
  let r3 := match r2 with
            | Raise _ _ => r2
            | Ret p2 _ => bar_loop date sc sm Short (p_shorts p2) r2
            end in
  match r3 with
  | Raise p x => Raise p x
  | Ret p ex => Ret (fold_left finish_exit ex p) tt
  end.

(** Public operations and histories. *)
Inductive op : Type :=
| OpBuy (a : oargs)
| OpSell (a : oargs)
| OpExit (date : Z) (s : sym) (buy_fill sell_fill : Q) (sm : slip_model)
| OpCheckStops (date : Z) (sc : scope) (sm : slip_model)
| OpCapture (date : Z) (bar : bar_fn)
| OpIncr (has_bar : sym -> bool)
| OpRemoveStop (id : nat)
| OpRemoveStops (v : rm_target) (t : option stop_type)
| OpSetCaps (max_long max_short : option nat).   (* optimize.py 2297-2300 *)

Definition drop {A} (r : res A) : res unit :=
  match r with Ret p _ => Ret p tt | Raise p e => Raise p e end.

Definition step (o : op) (p : port) : res unit :=
  match o with
  | OpBuy a => drop (buy a p)
  | OpSell a => drop (sell a p)
  | OpExit d s b sl sm => exit_position d s b sl sm p
  | OpCheckStops d sc sm => check_stops d sc sm p
  | OpCapture d bar => Ret (capture_bar d bar p) tt
  | OpIncr hb => Ret (incr_bars hb p) tt
  | OpRemoveStop id => Ret (fst (remove_stop id p)) tt
  | OpRemoveStops v t => Ret (remove_stops v t p) tt
  | OpSetCaps ml ms => Ret (set_p_max_short ms (set_p_max_long ml p)) tt
  end.

(** A history: rejected arguments ([EInput]) leave the account usable, any
    other exception ends the history ([None]). *)
Definition exec (r : option port) (o : op) : option port :=
  match r with
  | None => None
  | Some p =>
      match step o p with
      | Ret p' _ => Some p'
      | Raise p' EInput => Some p'
      | Raise _ _ => None
      end
  end.
Definition run (ops : list op) : option port := fold_left exec ops (Some (init c)).

End WithCfg.
