(** Result tables and metrics: what C77 says. *)
From Coq Require Import Qabs.
From Verif Require Export ScopeModel EvalSpec WholeSpec RecordSpec ResultModel PortfolioSpec.
From Verif Require Export PortfolioModel.
Open Scope list_scope.
Open Scope Q_scope.

(** [y] is [x] to the nearest cent, a tie away from zero. *)
Record nearest_cent (x y : Q) : Prop := mkNearest {
  nc_cents : exists n : Z, y == inject_Z n / 100;
  nc_near : Qabs (y - x) <= 1#200;
  nc_tie : Qabs (y - x) == 1#200 -> Qabs x <= Qabs y
}.
(** A cell shows a recorded value, rounded or not; a missing value stays missing. *)
Definition shows (round : bool) (recorded : option Q) (cell : option Q) : Prop :=
  match recorded, cell with
  | None, None => True
  | Some x, Some y => if round then nearest_cent x y else y == x
  | _, _ => False
  end.
Definition shows' (round : bool) (recorded : Q) (cell : option Q) : Prop := shows round (Some recorded) cell.
(** A share count is shown as it is, or as a whole number with only the fraction cut
    off. *)
Definition shows_shares (fractional : bool) (recorded cell : Q) : Prop :=
  if fractional then cell == recorded
  else whole cell /\ Qabs cell <= Qabs recorded /\ Qabs recorded < Qabs cell + 1 /\ 0 <= cell * recorded.

Record order_shown (round fractional : bool) (o : order) (r : order_row) : Prop := mkOrderShown {
  os_id : or_id r = o_id o; os_side : or_side r = o_side o; os_sym : or_sym r = o_sym o; os_date : or_date r = o_date o;
  os_created : or_created r = o_created o; os_type : or_type r = o_type o; os_intent : or_intent r = o_intent o;
  os_shares : shows_shares fractional (o_shares o) (or_shares r);
  os_limit : shows round (o_limit o) (or_limit r); os_market : shows' round (o_market o) (or_market r);
  os_fill : shows' round (o_fill o) (or_fill r); os_fees : shows' round (o_fees o) (or_fees r)
}.
Record trade_shown (round fractional : bool) (t : trade) (r : trade_line) : Prop := mkTradeShown {
  th_id : tl_id r = t_id t; th_type : tl_type r = t_type t; th_sym : tl_sym r = t_sym t;
  th_entry_date : tl_entry_date r = t_entry_date t; th_exit_date : tl_exit_date r = t_exit_date t;
  th_bars : tl_bars r = t_bars t; th_stop : tl_stop r = t_stop t;
  th_shares : shows_shares fractional (t_shares t) (tl_shares r);
  th_entry : shows' round (t_entry t) (tl_entry r); th_exit : shows' round (t_exit t) (tl_exit r);
  th_pnl : shows' round (t_pnl t) (tl_pnl r); th_return : shows' round (t_return t) (tl_return r);
  th_agg : shows' round (t_agg t) (tl_agg r); th_ppb : shows' round (t_ppb t) (tl_ppb r);
  th_mae : shows' round (t_mae t) (tl_mae r); th_mfe : shows' round (t_mfe t) (tl_mfe r)
}.
Record bar_shown (round : bool) (b : pbar) (r : bar_row) : Prop := mkBarShown {
  bs_date : br_date r = b_date b; bs_cash : shows' round (b_cash b) (br_cash r); bs_equity : shows' round (b_equity b) (br_equity r);
  bs_notional : shows' round (b_notional b) (br_notional r); bs_margin : shows' round (b_margin b) (br_margin r);
  bs_loan : shows' round (b_loan b) (br_loan r); bs_net_cash : shows' round (b_net_cash b) (br_net_cash r);
  bs_mv : shows' round (b_mv b) (br_mv r); bs_pnl : shows' round (b_pnl b) (br_pnl r);
  bs_upnl : shows' round (b_upnl b) (br_upnl r); bs_fees : shows' round (b_fees b) (br_fees r)
}.
Record position_shown (round fractional : bool) (w : prow) (r : pos_row) : Prop := mkPositionShown {
  pn_sym : pr_sym r = w_sym w; pn_date : pr_date r = w_date w;
  pn_long : shows_shares fractional (w_long w) (pr_long r); pn_short : shows_shares fractional (w_short w) (pr_short r);
  pn_close : shows' round (w_close w) (pr_close r); pn_equity : shows' round (w_equity w) (pr_equity r);
  pn_mv : shows' round (w_mv w) (pr_mv r); pn_margin : shows' round (w_margin w) (pr_margin r); pn_upnl : shows' round (w_upnl w) (pr_upnl r)
}.

(** [a] is within [e] of [b]. *)
Definition within (e a b : Q) : Prop := Qabs (a - b) <= e.
(** How far a shown value may be from the recorded one. *)
Definition slack (round : bool) : Q := if round then 1#200 else 0.
(** A trade whose profit survives rounding to the cent; one whose loss does. *)
Definition surely_won (round : bool) (t : trade) : Prop := if round then 1#200 <= t_pnl t else 0 < t_pnl t.
Definition surely_lost (round : bool) (t : trade) : Prop := if round then t_pnl t <= -(1#200) else t_pnl t < 0.
(** The reported metrics beside the exact bars and trades of the account: values to
    half a cent each, sums to half a cent per summand, counts of winners and losers
    exact but for trades that gained or lost less than half a cent. *)
Record metrics_close (round : bool) (p : port) (m : metrics) : Prop := mkMetricsClose {
  mc_initial : forall b, nth_error (p_bars p) 0 = Some b -> within (slack round) (me_initial m) (b_mv b);
  mc_end : forall b, nth_error (p_bars p) (length (p_bars p) - 1) = Some b -> within (slack round) (me_end m) (b_mv b);
  mc_fees : forall b, nth_error (p_bars p) (length (p_bars p) - 1) = Some b -> within (slack round) (me_fees m) (b_fees b);
  mc_drawdown : forall d, worst_fall (fun k => nth k (map b_mv (p_bars p)) 0) (length (p_bars p) - 1) d -> within (2 * slack round) (- me_drawdown m) d;
  mc_count : ts_count (me_trades m) = length (p_trades p);
  mc_pnl : within (inject_Z (Z.of_nat (length (p_trades p))) * slack round) (ts_total_pnl (me_trades m)) (Qsum (map t_pnl (p_trades p)));
  mc_avg : p_trades p <> [] -> within (slack round) (ts_avg_pnl (me_trades m)) (Qsum (map t_pnl (p_trades p)) / inject_Z (Z.of_nat (length (p_trades p))));
  mc_wins : forall w s, those (fun t => 0 < t_pnl t) (p_trades p) w -> those (surely_won round) (p_trades p) s ->
    (length s <= ts_wins (me_trades m) <= length w)%nat;
  mc_losses : forall w s, those (fun t => t_pnl t < 0) (p_trades p) w -> those (surely_lost round) (p_trades p) s ->
    (length s <= ts_losses (me_trades m) <= length w)%nat;
  mc_unrealized : forall b0 b, nth_error (p_bars p) 0 = Some b0 -> nth_error (p_bars p) (length (p_bars p) - 1) = Some b ->
    within ((inject_Z (Z.of_nat (length (p_trades p))) + 4) * slack round) (me_unrealized m)
      (b_mv b - b_mv b0 - Qsum (map t_pnl (p_trades p)) + (b_fees b - b_fees b0))
}.
(** The metrics of shown market values, cumulative fees and trades. *)
Record metrics_of (mv fees : list Q) (trades : list trade_row) (m : metrics) : Prop := mkMetricsOf {
  mo_initial : nth_error mv 0 = Some (me_initial m);
  mo_end : nth_error mv (length mv - 1) = Some (me_end m);
  mo_fees : nth_error fees (length fees - 1) = Some (me_fees m);
  mo_drawdown : worst_fall (fun k => nth k mv 0) (length mv - 1) (- me_drawdown m);
  mo_drawdown_pct : Forall (fun v => 0 < v) mv -> exists k, worst_pct_fall (fun k => nth k mv 0) (length mv - 1) (me_drawdown_pct m) k;
  mo_trades : me_trades m = trade_stats trades;
  mo_unrealized : forall f0, nth_error fees 0 = Some f0 ->
    me_unrealized m == me_end m - me_initial m - sum_of tr_pnl trades + (me_fees m - f0);
  mo_return : ~ me_initial m == 0 -> me_return_pct m * me_initial m == 100 * sum_of tr_pnl trades;
  mo_return_zero : me_initial m == 0 -> me_return_pct m = 0;
  mo_pf : forall up down, let steps := map (fun k => nth (S k) mv 0 - nth k mv 0) (seq 0 (length mv - 1)) in
    those (fun x => 0 < x) steps up -> those (fun x => x < 0) steps down -> ~ (up = [] /\ down = []) ->
    me_pf m == ((1 # 10000000000) + fold_right Qplus 0 up) / ((1 # 10000000000) - fold_right Qplus 0 down)
}.
