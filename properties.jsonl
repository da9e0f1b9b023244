{"id": "C01", "title": "Account conservation", "statement": "After any history, cash minus margin_loan plus the entry notional of every open position equals the starting cash plus the sum of the pnl of all recorded trades minus the sum of the fees of all recorded orders plus the interest charged or credited by the captured bars. No operation creates or destroys money.", "quantifier": "every finite history of Portfolio calls (buy, sell, exit_position, check_stops, capture_bar, incr_bars, remove_stop, remove_stops) with arbitrary arguments, prices, fee functions and slippage models, for every account configuration", "why_tests_cant": "The number of histories is infinite and the identity couples cash, collateral, margin loan, partial fills, stops and fees; tests check a handful of end balances.", "anchors": ["src/pybroker/portfolio.py:Portfolio.buy", "src/pybroker/portfolio.py:Portfolio.sell", "src/pybroker/portfolio.py:Portfolio.check_stops", "src/pybroker/portfolio.py:Portfolio.capture_bar", "src/pybroker/portfolio.py:Portfolio.margin_loan"]}
{"id": "C02", "title": "Position bookkeeping matches its entries", "statement": "Every open position holds at least one entry, every entry has a strictly positive share count and price, the position's share count equals the sum of its entries' share counts, and its entry notional equals the sum of shares times price over its entries.", "quantifier": "every finite history of Portfolio calls (buy, sell, exit_position, check_stops, capture_bar, incr_bars, remove_stop, remove_stops) with arbitrary arguments, prices, fee functions and slippage models, for every account configuration", "why_tests_cant": "Partial FIFO fills and stop exits in any order update three redundant counters; only an invariant over all histories rules out drift or dust positions.", "anchors": ["src/pybroker/portfolio.py:Position", "src/pybroker/portfolio.py:Portfolio._exit_long", "src/pybroker/portfolio.py:Portfolio._exit_short", "src/pybroker/portfolio.py:Portfolio._long", "src/pybroker/portfolio.py:Portfolio._short"]}
{"id": "C03", "title": "Order log explains the holdings", "statement": "For every symbol, total shares of its buy orders minus total shares of its sell orders equals the shares currently held long minus the shares currently held short.", "quantifier": "every finite history of Portfolio calls (buy, sell, exit_position, check_stops, capture_bar, incr_bars, remove_stop, remove_stops) with arbitrary arguments, prices, fee functions and slippage models, for every account configuration", "why_tests_cant": "A dropped or double-counted fill can hide behind any particular test's arithmetic; the statement is a sum over an unbounded log.", "anchors": ["src/pybroker/portfolio.py:Portfolio.orders", "src/pybroker/portfolio.py:Portfolio.long_positions", "src/pybroker/portfolio.py:Portfolio.short_positions", "src/pybroker/portfolio.py:Portfolio._add_order"]}
{"id": "C04", "title": "A symbol is never long and short at once", "statement": "No symbol ever has an open long and an open short position at the same time, no symbol has two positions on one side, and Portfolio.symbols is exactly the set of symbols with an open position.", "quantifier": "every finite history of Portfolio calls (buy, sell, exit_position, check_stops, capture_bar, incr_bars, remove_stop, remove_stops) with arbitrary arguments, prices, fee functions and slippage models, for every account configuration", "why_tests_cant": "Requires excluding every ordering of partial covers, flips and stop exits.", "anchors": ["src/pybroker/portfolio.py:Portfolio.symbols", "src/pybroker/portfolio.py:Portfolio._cover", "src/pybroker/portfolio.py:Portfolio._sell_existing", "src/pybroker/portfolio.py:Portfolio._update_position"]}
{"id": "C05", "title": "Position mode and position caps", "statement": "With LONG_ONLY no short position ever exists, with SHORT_ONLY no long position ever exists, and the number of open long (short) positions never exceeds max_long_positions (max_short_positions).", "quantifier": "every finite history of Portfolio calls (buy, sell, exit_position, check_stops, capture_bar, incr_bars, remove_stop, remove_stops) with arbitrary arguments, prices, fee functions and slippage models, for every account configuration", "why_tests_cant": "Caps interact with flips and re-entries of held symbols in unboundedly many ways.", "anchors": ["src/pybroker/portfolio.py:Portfolio._long", "src/pybroker/portfolio.py:Portfolio._short"]}
{"id": "C06", "title": "Fills respect the limit price and the requested size", "statement": "When buy (sell) returns an order, its fill price is the given fill price, does not violate the limit price, and its share count is positive and at most the requested shares. When it returns None or rejects its arguments, positions, cash, orders and trades are unchanged.", "quantifier": "every portfolio state and every argument of buy and sell", "why_tests_cant": "The claim ranges over all states, prices and clamping outcomes.", "anchors": ["src/pybroker/portfolio.py:Portfolio.buy", "src/pybroker/portfolio.py:Portfolio.sell", "src/pybroker/portfolio.py:Portfolio._verify_input", "src/pybroker/portfolio.py:Portfolio._clamp_shares"]}
{"id": "C07", "title": "Exits are first-in first-out", "statement": "A sell (cover) order closes the oldest open entries first: the trades it records consume a prefix of the entry queue in order, the last one possibly partially, and the remaining queue is the untouched suffix; the closed shares equal min(requested, held).", "quantifier": "every entry queue, every requested share count and fill price", "why_tests_cant": "FIFO depletion must hold for any number of entries and any split point.", "anchors": ["src/pybroker/portfolio.py:Portfolio._sell_existing", "src/pybroker/portfolio.py:Portfolio._cover"]}
{"id": "C08", "title": "Logs and running totals agree", "statement": "Order ids and trade ids are 1,2,3,... without gaps; Portfolio.pnl is the sum of the trades' pnl; every trade's agg_pnl is the running sum up to it; Portfolio.fees is the sum of the orders' fees; win_rate is the fraction of trades with positive pnl and win_rate + loss_rate = 1 as soon as there is a trade (both are 0 before that).", "quantifier": "every finite history of Portfolio calls (buy, sell, exit_position, check_stops, capture_bar, incr_bars, remove_stop, remove_stops) with arbitrary arguments, prices, fee functions and slippage models, for every account configuration", "why_tests_cant": "Running totals and logs are updated in different places; agreement is an invariant over all histories.", "anchors": ["src/pybroker/portfolio.py:Portfolio._add_order", "src/pybroker/portfolio.py:Portfolio._add_trade", "src/pybroker/portfolio.py:Portfolio.win_rate", "src/pybroker/portfolio.py:Portfolio.loss_rate"]}
{"id": "C09", "title": "A cash account never borrows", "statement": "With leverage 1 the account's cash never becomes negative.", "quantifier": "every finite history of Portfolio calls (buy, sell, exit_position, check_stops, capture_bar, incr_bars, remove_stop, remove_stops) with arbitrary arguments, prices, fee functions and slippage models, for every account configuration", "why_tests_cant": "Needs a bound that survives any sequence of clamped fills, fees and losses; a test shows only that one sequence stays solvent.", "anchors": ["src/pybroker/portfolio.py:Portfolio._available_buying_power", "src/pybroker/portfolio.py:Portfolio._clamp_shares", "src/pybroker/portfolio.py:Portfolio._add_order"]}
{"id": "C10", "title": "Opening orders stay within the leverage limit", "statement": "With leverage above 1, a filled opening order leaves the account's total exposure at most leverage times the account value after the order's fees.", "quantifier": "every state, order size, price and fee schedule that is non-decreasing in shares", "why_tests_cant": "Combines clamping, fee reservation and rounding for all real-valued inputs.", "anchors": ["src/pybroker/portfolio.py:Portfolio._clamp_shares", "src/pybroker/portfolio.py:Portfolio._available_buying_power", "src/pybroker/portfolio.py:Portfolio._live_market_value"]}
{"id": "C11", "title": "The margin loan is never negative", "statement": "margin_loan is non-negative in every reachable state, and it is zero when nothing is open and no interest has accrued.", "quantifier": "every finite history of Portfolio calls (buy, sell, exit_position, check_stops, capture_bar, incr_bars, remove_stop, remove_stops) with arbitrary arguments, prices, fee functions and slippage models, for every account configuration", "why_tests_cant": "A sign claim over all reachable states.", "anchors": ["src/pybroker/portfolio.py:Portfolio.margin_loan", "src/pybroker/portfolio.py:Portfolio._sweep_accrued_interest"]}
{"id": "C12", "title": "Interest accrual is proportional and the sweep is neutral", "statement": "Capturing a bar changes the net cash balance by exactly the per-bar rate times the net cash balance before it, charged when negative and credited when positive; paying accrued interest out of cash leaves the net cash balance unchanged.", "quantifier": "every state, rate and bars_per_year", "why_tests_cant": "Real-valued inputs with several sign cases.", "anchors": ["src/pybroker/portfolio.py:Portfolio._apply_interest", "src/pybroker/portfolio.py:Portfolio._sweep_accrued_interest"]}
{"id": "C13", "title": "Captured market value is the liquidation identity", "statement": "After a bar on which every held symbol has a finite close, the captured market value equals starting cash + realized pnl - fees + interest + the unrealized pnl of all open entries at that close; captured equity is the market value without the shorts' unrealized pnl; and the live account value used for sizing the next order equals the captured market value.", "quantifier": "every finite history of Portfolio calls (buy, sell, exit_position, check_stops, capture_bar, incr_bars, remove_stop, remove_stops) with arbitrary arguments, prices, fee functions and slippage models, for every account configuration", "why_tests_cant": "An identity between per-bar snapshots and the complete history of the account.", "anchors": ["src/pybroker/portfolio.py:Portfolio.capture_bar", "src/pybroker/portfolio.py:Portfolio._live_market_value", "src/pybroker/portfolio.py:Position._marked_value"]}
{"id": "C14", "title": "Buying power values fills since the last mark at cost", "statement": "Between marks, the value that buying power assigns to a position is the number of shares held since the last mark times the last close, plus the cost of the shares bought since then, after any sequence of fills and exits; the shares it counts as unmarked, and their cost, are those of its open entries made since the last mark.", "quantifier": "every sequence of adds and exits of a position between two marks", "why_tests_cant": "The unmarked counters must track a queue that shrinks from either end.", "anchors": ["src/pybroker/portfolio.py:Position._marked_value", "src/pybroker/portfolio.py:Position._clamp_unmarked", "src/pybroker/portfolio.py:Position._add_unmarked"]}
{"id": "C15", "title": "Stop fills are prices the bar traded at", "statement": "A profit, loss or trailing stop without an explicit exit price triggers exactly when the bar's range reaches the stop level, and fills (before slippage) at a price between the bar's low and high; with an exit price it triggers exactly when that price is at or through the level and fills at it. A long exit's fill never violates the stop's limit price.", "quantifier": "every bar with low <= high, every stop level, side and type", "why_tests_cant": "All real-valued bar/level combinations including gaps.", "anchors": ["src/pybroker/portfolio.py:Portfolio._trigger_profit_or_loss_stop", "src/pybroker/portfolio.py:Portfolio._trigger_trailing_stop", "src/pybroker/portfolio.py:Portfolio._trigger_stop"]}
{"id": "C16", "title": "Trailing stops only tighten", "statement": "While a trailing stop is active its level never moves away from the market, and it equals the best of the initial level and the trail distance from the most favourable extreme of every bar seen so far (bars on which it did not trigger).", "quantifier": "every sequence of bars", "why_tests_cant": "A fold over an unbounded price path.", "anchors": ["src/pybroker/portfolio.py:Portfolio._trigger_trailing_stop", "src/pybroker/portfolio.py:Portfolio._add_stops"]}
{"id": "C17", "title": "Stops exit each entry at most once and in full", "statement": "In one check_stops call each open entry is exited at most once; an exited entry is closed in full, removed from its position together with all of its stops, and the entries that did not trigger keep their shares; afterwards every registered stop belongs to an open entry.", "quantifier": "every state and every bar", "why_tests_cant": "Several stops on several entries may trigger on the same bar in any combination.", "anchors": ["src/pybroker/portfolio.py:Portfolio.check_stops", "src/pybroker/portfolio.py:Portfolio._trigger_stop", "src/pybroker/portfolio.py:Portfolio._remove_stop_data"]}
{"id": "C18", "title": "Bar stops expire on the symbol's own clock", "statement": "A hold_bars stop does not trigger before the entry has seen that many of the symbol's own bars and triggers on the first priceable bar at which it has, unless a price stop exits the entry on that bar or its limit price rejects the fill.", "quantifier": "every interleaving of symbol calendars and every hold_bars", "why_tests_cant": "Ragged calendars make the number of elapsed bars differ per symbol.", "anchors": ["src/pybroker/portfolio.py:Portfolio._trigger_bar_stop", "src/pybroker/portfolio.py:Portfolio.incr_bars", "src/pybroker/portfolio.py:Portfolio.check_stops"]}
{"id": "C19", "title": "Removing stops by type removes them", "statement": "After remove_stops(x, stop_type) no stop of that type remains on any entry of x, stops of other types are untouched, and after remove_stops(x) none remain.", "quantifier": "every state, every symbol, position or entry and every stop type", "why_tests_cant": "Entries can carry any list of stops.", "anchors": ["src/pybroker/portfolio.py:Portfolio.remove_stops", "src/pybroker/portfolio.py:Portfolio._remove_entry_stops", "src/pybroker/portfolio.py:Portfolio.remove_stop"]}
{"id": "C20", "title": "exit_position flattens the symbol", "statement": "After exit_position the symbol has neither a long nor a short position, no other symbol's position changed, and each side that was open produced exactly one order for all its shares.", "quantifier": "every state, both fill prices and every slippage model", "why_tests_cant": "Must hold for every open book.", "anchors": ["src/pybroker/portfolio.py:Portfolio.exit_position"]}
{"id": "C21", "title": "A rejected order has no effect", "statement": "When buy or sell raises, the account is left as it was before the call.", "quantifier": "every state and every argument of buy and sell", "why_tests_cant": "Exception safety over all states; tests only assert that the exception is raised.", "anchors": ["src/pybroker/portfolio.py:Portfolio.buy", "src/pybroker/portfolio.py:Portfolio.sell", "src/pybroker/portfolio.py:Portfolio._add_stops"]}
{"id": "C22", "title": "Excursions bracket the result", "statement": "Every recorded trade has mae <= 0 <= mfe and mae <= per-share pnl <= mfe; while an entry is open its mae never increases and its mfe never decreases and each equals the worst/best excursion over the bars seen.", "quantifier": "every price path and every exit", "why_tests_cant": "A running extreme over an unbounded path.", "anchors": ["src/pybroker/portfolio.py:_calculate_pnl_mae_mfe", "src/pybroker/portfolio.py:Portfolio._exit_long", "src/pybroker/portfolio.py:Portfolio._exit_short"]}
{"id": "C23", "title": "Pending order registry", "statement": "Every pending order gets a fresh id greater than all previous ones; orders(symbol) returns exactly the pending orders of the symbol in submission order; a removed order is never returned again and leaves no residue in any index; the retry count of an order is the number of retry bars recorded since it was added.", "quantifier": "every sequence of add, remove, remove_all, advance_retry_bars and mark_attempted calls", "why_tests_cant": "Four redundant indexes; agreement must hold after any call sequence.", "anchors": ["src/pybroker/scope.py:PendingOrderScope"]}
{"id": "C24", "title": "Orders execute after the configured delay and never on the signal bar", "statement": "An order signalled on a bar is scheduled on the date that is exactly buy_delay (sell_delay) of the symbol's own bars later, strictly after the signal date, and is not scheduled at all when the symbol has no such bar.", "quantifier": "every calendar, every delay >= 1 and every signal bar", "why_tests_cant": "Look-ahead/same-bar fills depend on the calendar and the delay.", "anchors": ["src/pybroker/strategy.py:BacktestMixin._schedule_order", "src/pybroker/strategy.py:BacktestMixin._next_master_date"]}
{"id": "C25", "title": "Persistent orders expire", "statement": "A limit order with timeout n >= 0 is attempted on consecutive bars of its symbol, on at most n+1 of them, and is then cancelled; one with a negative timeout stays until filled or cancelled by the strategy; every other order is attempted once; a filled order is removed and never filled again; no order is attempted twice on one bar; no order disappears for any other reason.", "quantifier": "every sequence of bars and every outcome of the attempts", "why_tests_cant": "Depends on unbounded sequences of failed attempts.", "anchors": ["src/pybroker/strategy.py:BacktestMixin._process_persistent_orders", "src/pybroker/strategy.py:BacktestMixin._attempt_pending_order"]}
{"id": "C26", "title": "Exit orders never flip a position", "statement": "An order created to close a position fills at most the shares then held on that side and never opens a position on the other side, and is cancelled when nothing is held.", "quantifier": "every state between signal and fill", "why_tests_cant": "Positions can shrink between the signal and the fill (stops, other orders).", "anchors": ["src/pybroker/strategy.py:BacktestMixin._attempt_pending_order", "src/pybroker/strategy.py:BacktestMixin._place_buy_orders", "src/pybroker/strategy.py:BacktestMixin._place_sell_orders"]}
{"id": "C27", "title": "Score ranking", "statement": "When a position limit is configured, the orders due on a bar are processed in non-increasing score order, where an execution without a score counts as 0 and a NaN score as minus infinity; ties keep insertion order, and no execution is lost or duplicated. Covers come before sells before buys, and orders still pending from earlier bars after those, covers, sells, buys, oldest first. Ranks number the scored symbols from 1, best first, ties by symbol, unscored and NaN ones left out.", "quantifier": "every list of executions and scores including NaN", "why_tests_cant": "Sorting correctness and stability for all lists.", "anchors": ["src/pybroker/strategy.py:_sort_by_buy_score", "src/pybroker/strategy.py:_sort_by_sell_score", "src/pybroker/strategy.py:_rank_by_score"]}
{"id": "C28", "title": "Rotation respects its limits", "statement": "Rotation buys at most the number of free slots, never buys a symbol already held or pending, picks the best-scored candidates, and exits exactly the held symbols whose rank is worse than the allowed rank. Its orders are market orders at the fill price and with the stops the execution function set (bars to hold on entries only); orders the function set itself are discarded, and fill prices and stops of a symbol that is not traded are dropped rather than rejected.", "quantifier": "every universe, score assignment and set of held positions", "why_tests_cant": "Set-valued decision over arbitrary universes.", "anchors": ["src/pybroker/strategy.py:_rotation_candidates", "src/pybroker/strategy.py:_rotation_exits", "src/pybroker/strategy.py:_apply_worst_rank_held", "src/pybroker/strategy.py:_resolve_rotation_overlap"]}
{"id": "C29", "title": "Target sizing", "statement": "calc_target_shares returns a non-negative share count whose cost at the given price is at most target_size of the sizing base (and, without fractional shares, is the largest such integer); set_target_shares emits at most one order and filling it in full leaves exactly the target position.", "quantifier": "every price, base, target and current position", "why_tests_cant": "Real arithmetic with rounding and sign cases.", "anchors": ["src/pybroker/context.py:ExecContext.calc_target_shares", "src/pybroker/context.py:ExecContext.set_target_shares"]}
{"id": "C30", "title": "Walkforward windows do not leak", "statement": "For every window produced by walkforward_split, train dates all precede test dates by at least the lookahead, train and test are disjoint, all indices are inside the data, test sets of different windows do not overlap and advance in time.", "quantifier": "every number of rows, windows, train_size, lookahead and shuffle setting", "why_tests_cant": "Integer arithmetic over four parameters with several branches.", "anchors": ["src/pybroker/strategy.py:WalkforwardMixin.walkforward_split"]}
{"id": "C31", "title": "Execution results are one-sided", "statement": "A per-bar execution result never carries both buy and sell shares; a result with no shares is dropped; stops, limits, hold bars and fill prices without an order are rejected; stop ids in results are globally unique and increasing.", "quantifier": "every combination of context attributes set by the user function", "why_tests_cant": "The attribute space is a large product of options.", "anchors": ["src/pybroker/context.py:ExecContext.to_result", "src/pybroker/context.py:ExecContext._get_stops"]}
{"id": "C32", "title": "Signals do not survive the bar", "statement": "Attributes set on the execution context on one bar have no effect on the next bar.", "quantifier": "every pair of consecutive bars and every attribute assignment", "why_tests_cant": "Requires that each of some thirty fields is reset.", "anchors": ["src/pybroker/context.py:set_exec_ctx_data"]}
{"id": "C33", "title": "Column views never reveal the future", "statement": "Data returned by the column scope for a symbol at bar t contains exactly the first t values, does not depend on any later value, and a later view extends an earlier one.", "quantifier": "every column, every end index, every pair of data sets agreeing on a prefix", "why_tests_cant": "Non-interference between future data and current views.", "anchors": ["src/pybroker/scope.py:ColumnScope.fetch", "src/pybroker/scope.py:ColumnScope.fetch_value", "src/pybroker/scope.py:IndicatorScope.fetch"]}
{"id": "C34", "title": "Per-bar prediction buffer", "statement": "The growing prediction buffer always returns the first n predictions in order for any n, whatever the sequence of appends and reallocations, and views handed out earlier keep their values.", "quantifier": "every sequence of appends and reads", "why_tests_cant": "Amortised reallocation at unbounded sizes.", "anchors": ["src/pybroker/scope.py:_PerBarPredictions"]}
{"id": "C35", "title": "Date slicing selects exactly the requested dates", "statement": "Slicing a symbol's arrays by a set of sorted dates returns exactly the rows whose date is requested, in order; the contiguous fast path and the gather path return the same rows.", "quantifier": "every store whose symbols have distinct dates, every list of requested dates, sorted or not", "why_tests_cant": "Merge correctness for all arrays.", "anchors": ["src/pybroker/scope.py:_sorted_dates_indices_njit", "src/pybroker/scope.py:_build_sliced_sym_arrays"]}
{"id": "C36", "title": "Fill prices are bar prices rounded to the cent", "statement": "MIDDLE and AVERAGE fill prices lie between the bar's low and high before rounding, and rounding moves a price by at most half a cent, is monotone and idempotent.", "quantifier": "every bar and every price", "why_tests_cant": "All real-valued inputs.", "anchors": ["src/pybroker/scope.py:PriceScope._fetch_price_type", "src/pybroker/scope.py:PriceScope._round_float"]}
{"id": "C37", "title": "Interval names round-trip", "statement": "Normalizing an interval is idempotent, equal durations normalise equally up to leading zeros and case, and parsing the indicator name built from a base name and an interval returns that base name and interval.", "quantifier": "every string and every interval", "why_tests_cant": "Codec round-trip over unbounded strings.", "anchors": ["src/pybroker/interval.py:normalize_interval", "src/pybroker/interval.py:indicator_interval_name", "src/pybroker/interval.py:parse_indicator_interval_name"]}
{"id": "C38", "title": "Compressed bars summarise exactly their base bars", "statement": "Interval compression partitions the base bars into consecutive groups; each compressed bar has the first open, last close, highest high, lowest low and total volume of its group; total volume is conserved.", "quantifier": "every series length, bin assignment and price path", "why_tests_cant": "Aggregation over arbitrary segmentations.", "anchors": ["src/pybroker/interval.py:_find_bin_starts_ends", "src/pybroker/interval.py:_aggregate_bins", "src/pybroker/interval.py:_compress_every_n_bars"]}
{"id": "C39", "title": "Completed interval bars use no future data", "statement": "The compressed bars visible at base bar t are aggregated only from base bars up to t; the visible count never decreases; for every-n-bars intervals exactly floor((t+1)/n) bars are visible, as given by the general computation.", "quantifier": "every series, bin assignment and bar t", "why_tests_cant": "Look-ahead freedom is a non-interference property over all futures.", "anchors": ["src/pybroker/interval.py:_compute_completed", "src/pybroker/interval.py:_compress_every_n_bars", "src/pybroker/scope.py:IntervalScope.completed_index"]}
{"id": "C40", "title": "Interval lookahead hold-out", "statement": "The train dates kept for an interval-bound model end at least lookahead compressed bars before the first test bar.", "quantifier": "every calendar, lookahead and window", "why_tests_cant": "Index arithmetic across two calendars.", "anchors": ["src/pybroker/interval.py:lookahead_train_dates"]}
{"id": "C41", "title": "Slippage only worsens fills", "statement": "Every built-in slippage model fills buys at or above and sells at or below the unslipped price, always at a positive price, and never increases the share count; the volume model's share count never exceeds volume_limit times volume.", "quantifier": "every price, share count, volume, volatility and model parameter accepted by the constructors", "why_tests_cant": "Real-valued inputs; floors and caps must hold in every branch.", "anchors": ["src/pybroker/slippage.py:FixedSlippageModel", "src/pybroker/slippage.py:VolatilitySlippageModel", "src/pybroker/slippage.py:VolumeSlippageModel", "src/pybroker/slippage.py:_adverse_price"]}
{"id": "C42", "title": "Timeframe strings", "statement": "parse_timeframe accepts exactly space separated number+unit parts with distinct known units, and to_seconds is the sum of the parts.", "quantifier": "every string", "why_tests_cant": "A grammar over unbounded strings.", "anchors": ["src/pybroker/common.py:parse_timeframe", "src/pybroker/common.py:to_seconds"]}
{"id": "C43", "title": "Rolling minimum and maximum", "statement": "lowv(a,n)[i] (highv) is the minimum (maximum) of the last n values when none is NaN, NaN otherwise or before the window is full.", "quantifier": "every array and window length", "why_tests_cant": "The monotonic deque algorithm must be right for every input order.", "anchors": ["src/pybroker/vect.py:_rolling_min_njit", "src/pybroker/vect.py:_rolling_max_njit", "src/pybroker/vect.py:lowv", "src/pybroker/vect.py:highv"]}
{"id": "C44", "title": "Rolling sum, returns and crossings", "statement": "sumv is the sum of the last n values; returnv is the relative change over n bars, NaN when undefined; cross is true exactly on the bars where a is above b and was not on the previous bar.", "quantifier": "every array and window length", "why_tests_cant": "Sliding updates over unbounded arrays.", "anchors": ["src/pybroker/vect.py:_rolling_sum_njit", "src/pybroker/vect.py:returnv", "src/pybroker/vect.py:cross"]}
{"id": "C45", "title": "Indicators are causal and bounded", "statement": "The value of a built-in indicator at bar i does not depend on data after bar i, and bounded indicators stay in their documented range.", "quantifier": "every pair of series agreeing up to bar i", "why_tests_cant": "Non-interference plus range over all real inputs.", "anchors": ["src/pybroker/vect.py:_aroon", "src/pybroker/vect.py:stochastic", "src/pybroker/vect.py:_flow", "src/pybroker/vect.py:adx", "src/pybroker/vect.py:_on_balance_volume"]}
{"id": "C46", "title": "Maximum drawdown", "statement": "max_drawdown is minus the largest drop of the cumulative curve from an earlier peak (counting the start); max_drawdown_percent is the largest percentage drop, lies in [-100,0] for returns >= -100% and its index is the bar where it is reached.", "quantifier": "every array of changes or returns", "why_tests_cant": "Single-pass algorithm against a quadratic specification.", "anchors": ["src/pybroker/eval.py:max_drawdown", "src/pybroker/eval.py:max_drawdown_percent"]}
{"id": "C47", "title": "Single-pass trade statistics agree with the definitions", "statement": "The single-pass trade statistics equal the separately defined win/loss rate, totals, averages, largest win/loss and longest streaks; win_rate + loss_rate = 100 whenever some trade is not flat.", "quantifier": "every list of trades", "why_tests_cant": "Two implementations of the same metrics must agree on every input.", "anchors": ["src/pybroker/eval.py:_trade_stats", "src/pybroker/eval.py:win_loss_rate", "src/pybroker/eval.py:max_wins_losses", "src/pybroker/eval.py:largest_win_loss", "src/pybroker/eval.py:total_profit_loss", "src/pybroker/eval.py:avg_profit_loss"]}
{"id": "C48", "title": "Bootstrap confidence bounds are well-formed", "statement": "The drawdown confidence bounds index inside the bootstrap sample and are ordered (99.9% is the most severe); every bound is an element of the sample.", "quantifier": "every sample of any size", "why_tests_cant": "Index arithmetic for all sample sizes.", "anchors": ["src/pybroker/eval.py:_dd_conf", "src/pybroker/eval.py:_dd_confs", "src/pybroker/eval.py:_bca_clamp"]}
{"id": "C49", "title": "Reported unrealized pnl is the open positions' pnl", "statement": "The unrealized_pnl metric equals the sum over open entries of their unrealized pnl at the last bar (for a run that starts flat).", "quantifier": "every history of an account", "why_tests_cant": "Relates the metric to the whole account history.", "anchors": ["src/pybroker/eval.py:EvaluateMixin._calc_eval_metrics", "src/pybroker/portfolio.py:Portfolio.capture_bar"]}
{"id": "C50", "title": "In-memory cache is transparent", "statement": "A get through the two-level cache returns what the disk cache alone would return, after any sequence of get, set, delete, pop and clear, and the in-memory level never exceeds its capacity.", "quantifier": "every sequence of cache operations, including failed writes", "why_tests_cant": "All interleavings of hits, evictions and legacy-key lookups.", "anchors": ["src/pybroker/cache.py:_L1Cache"]}
{"id": "C51", "title": "A completed cache write is visible to every later read", "statement": "Once set(key, v) has returned in one thread, a get(key) that starts later in any thread returns v or a newer value.", "quantifier": "every interleaving of threads", "why_tests_cant": "Race conditions depend on the schedule.", "anchors": ["src/pybroker/cache.py:_L1Cache.get", "src/pybroker/cache.py:_L1Cache.set"]}
{"id": "C52", "title": "Cached queries equal uncached queries", "statement": "Querying a data source with caching returns, for every requested symbol, the same rows as without the cache, calls the vendor only for symbols that are not cached, and terminates after at most one cache reset.", "quantifier": "every cache state and every set of symbols", "why_tests_cant": "Depends on arbitrary prior cache contents.", "anchors": ["src/pybroker/data.py:DataSource.query", "src/pybroker/data.py:DataSourceCacheMixin.get_cached", "src/pybroker/data.py:DataSourceCacheMixin.set_cached"]}
{"id": "C53", "title": "A backtest's account is a well-formed call history", "statement": "Whatever the data and the execution functions, the account a backtest or walkforward leaves is the result of a sequence of portfolio calls in which stop ids are never reused, every stop belongs to the order carrying it, an order carries at most one stop of each type with a size, and position limits are never changed.", "quantifier": "every data set, execution function and number of windows", "why_tests_cant": "Connects the per-call guarantees to every run of the bar loop.", "anchors": ["src/pybroker/strategy.py:BacktestMixin.backtest_executions", "src/pybroker/context.py:ExecContext.to_result"]}
{"id": "C54", "title": "Calendar and duration intervals align to the calendar", "statement": "Bars are grouped by the period their date lies in: days, weeks from Monday, months, quarters and years of the proleptic Gregorian calendar, or multiples of the duration from 1970-01-01 on. Every date lies in exactly one period, and later dates are never in earlier periods.", "quantifier": "every date, before and after 1970, and every interval", "why_tests_cant": "Leap years and century rules make the calendar an infinite table.", "anchors": ["src/pybroker/interval.py:_calendar_bin_ids", "src/pybroker/interval.py:_duration_bin_ids"]}
{"id": "C55", "title": "Interquartile range", "statement": "The interquartile range of any array of numbers is defined, not negative and at most the distance between its smallest and largest value.", "quantifier": "every non-empty array of up to 2^53 numbers", "why_tests_cant": "Index arithmetic in floats for all sizes.", "anchors": ["src/pybroker/eval.py:_percentile_midpoint", "src/pybroker/eval.py:_iqr"]}
{"id": "C56", "title": "Profit factor", "statement": "The profit factor is the sum of gains over the sum of losses (each plus 1e-10), 0 when every value is 0, above 1 exactly when gains exceed losses; the leave-one-out values used by the bootstrap are the profit factors of the remaining values.", "quantifier": "every array of numbers", "why_tests_cant": "All sign patterns and sizes.", "anchors": ["src/pybroker/eval.py:profit_factor", "src/pybroker/eval.py:_jackknife_profit_factor"]}
{"id": "C57", "title": "Predictions served at a bar use no later bar", "statement": "The prediction served for bar i of a per-bar model is the model's answer on the first i+1 input rows: it depends neither on later rows nor on which reads were made before, failed ones included. A model that predicts every bar at once must return one prediction per row, and the view at bar t is the first t of them.", "quantifier": "every model function, every input, every history of reads", "why_tests_cant": "Non-interference between future rows and the predictions of now, for every history of reads.", "anchors": ["src/pybroker/scope.py:PredictionScope.fetch", "src/pybroker/scope.py:PredictionScope._fetch_per_bar"]}
{"id": "C58", "title": "A run's data holds every bar of every symbol in date order", "statement": "Building the arrays of a run from a data frame keeps, for each requested symbol, exactly its rows in date order, rows of the same date as they came, whatever the row order of the frame; symbols not requested are absent. Merging two stores concatenates each column.", "quantifier": "every frame, every set of symbols", "why_tests_cant": "Sorting and bin slicing must lose or mix no row for any input order.", "anchors": ["src/pybroker/scope.py:symbol_array_store_from_flat_frame", "src/pybroker/scope.py:_StoreBacking.views", "src/pybroker/scope.py:merge_symbol_array_stores"]}
{"id": "C59", "title": "Lag features are the symbol's own past values", "statement": "For a model registered with lags=n, every feature row handed to it for training, testing or prediction holds, for each lag column, the symbol's value on that bar followed by its values 1..n bars earlier (NaN where there are not that many bars), no matter which other models with other columns and other lags were trained or asked before and share the cache; pooled rows take the lags of their own symbol; and building them never fails for consecutive bars of a symbol that has the columns.", "quantifier": "every history, symbol, set of lag columns, number of lags, window of bars and sequence of earlier training and prediction requests", "why_tests_cant": "the lag arrays are shared between models of different depths; whether a later, deeper or shallower request still reads the right offsets depends on the whole request history", "anchors": ["src/pybroker/model.py:build_lag_feature_matrix", "src/pybroker/model.py:build_lag_feature_matrix_pooled", "src/pybroker/model.py:merge_lag_series_cache_from_store", "src/pybroker/scope.py:ModelInputScope"]}
{"id": "C60", "title": "Lag features never look ahead", "statement": "Two price histories with the same bars that agree up to a date give identical lag feature rows on all bars up to that date, for training, testing, pooled and prediction inputs.", "quantifier": "every pair of histories agreeing up to a date, all lags, columns and request sequences", "why_tests_cant": "a look-ahead shows only for particular pairs of histories; a test compares a single one", "anchors": ["src/pybroker/model.py:build_lag_feature_matrix", "src/pybroker/model.py:history_date_offset", "src/pybroker/scope.py:ModelInputScope._ensure_lag_cache"]}
{"id": "C61", "title": "Training drops exactly the lag warm-up", "statement": "Before a model with lags is trained, exactly the rows that precede the first complete row of their symbol are dropped; every kept row keeps its own date, symbol, values and lag features, in order; training fails only if no row is complete; without NaN in the data the dropped rows are exactly those with fewer than n earlier bars.", "quantifier": "every model input of any number of symbols and rows, with NaN anywhere", "why_tests_cant": "alignment of dates, columns and features after filtering must hold for every pattern of NaN and symbol blocks", "anchors": ["src/pybroker/model.py:ModelInput.drop_lag_warmup", "src/pybroker/model.py:ModelInput._lag_warmup_keep_mask", "src/pybroker/model.py:ModelInput._symbol_blocks"]}
{"id": "C62", "title": "Pooled training frames line up", "statement": "The frame a pooled model is trained on is sorted by symbol and date, contains every bar of every symbol exactly once, and each column holds on each row that symbol's value of that bar; its columns come in the order asked for, stored data columns before the other indicators; it does not depend on the iteration order of the set of symbols; a symbol lacking a column raises instead of shifting values to other rows.", "quantifier": "every store of symbols, every order of the symbol set, every set of indicators and columns", "why_tests_cant": "set iteration order varies between processes and misalignment would be silent", "anchors": ["src/pybroker/model.py:_pooled_model_input_from_store", "src/pybroker/model.py:_model_input_columns"]}
{"id": "C63", "title": "Indicators are lined up with bars by date", "statement": "When an indicator's series is turned into a model input column, every bar receives the indicator's value of exactly its own date, NaN when the indicator has none, whether or not the series is sorted.", "quantifier": "every indicator series and every sequence of dates", "why_tests_cant": "an off-by-one in the sorted search shows only for particular gaps", "anchors": ["src/pybroker/model.py:_indicator_values_for_dates", "src/pybroker/model.py:_symbol_model_input_from_store"]}
{"id": "C64", "title": "A hyperparameter's candidates are exactly low, low+step, ..., high", "statement": "A hyperparameter declaration is accepted exactly when its numbers are all ints or all floats, its step is positive, its low is at most its high and its high is low plus a whole number of steps (TypeError for mixed types, ValueError otherwise). Iterating an accepted one with low < high ends and yields low + i*step, exactly, for every i with that value at most high, and nothing else; len() counts them; the last is high. With low = high both raise TypeError. Guard: the decimal expansions of the bounds have at most 28 digits together; outside it the constructor accepts declarations whose iteration never ends.", "quantifier": "all declarations of every type and value, at every decimal scale", "why_tests_cant": "The claim is about every low, high and step; a decimal lattice fails only on particular values, and termination cannot be tested", "anchors": ["src/pybroker/optimize.py: Hyperparam, _lattice_count, _lattice_values"]}
{"id": "C65", "title": "A run uses the given value of each hyperparameter and the default of every other", "statement": "The values of a run name exactly the declared hyperparameters, in the order declared, with the given value where one is given and else the default; giving an undeclared name raises ValueError. An indicator is called with its own keyword arguments in order, each hyperparameter argument replaced by the run's value of that name and every other untouched; a missing value raises KeyError.", "quantifier": "all declarations, overrides and keyword arguments", "why_tests_cant": "Every set of names and overrides matters, including empty, partial, unknown and repeated use of one hyperparameter under several arguments", "anchors": ["src/pybroker/optimize.py: merge_hyperparam_overrides, build_run_hyperparams, resolve_hyperparams"]}
{"id": "C66", "title": "Parallel hyperparameter search makes the same study as sequential search", "statement": "For grid and random samplers, for every number of workers and every order in which they finish, the study holds the same trials in the same order with the same scores as the sequential search (and the random generator ends in the same state); one raises exactly when the other does. Each trial records the point tried and its score; a score that is None, NaN or not a number is recorded as failed and the search continues.", "quantifier": "all trial budgets, worker counts, schedules, earlier studies and backtest functions", "why_tests_cant": "The schedules of a worker pool cannot be enumerated by tests", "anchors": ["src/pybroker/optimize.py: _grid_trials_parallel, _random_trials_parallel, _run_trials"]}
{"id": "C67", "title": "Grid search returns the best combination of candidates", "statement": "optimize() with the grid sampler and the default number of trials tries every combination of candidates exactly once, and returns the run values and score of one whose score is at least as good as that of every other combination whose score is defined, in the direction asked for; it raises ValueError when none is. The number of workers and their schedule change nothing.", "quantifier": "all declarations, directions, grid orders, worker counts, schedules and backtests that do not raise", "why_tests_cant": "Optimality is a statement about every combination and every score function", "anchors": ["src/pybroker/optimize.py: Strategy.optimize grid path, _search_space, _grid_size, _study_best"]}
{"id": "C68", "title": "Indicators of a run are what they are alone, whatever is cached and whoever computes them", "statement": "In every history of backtests and optimisations, computing the indicators of a run returns exactly the (indicator, symbol) pairs asked for, and each series is the one the indicator gives when called by itself on that symbol's bars (compressed bars for an interval) with the run's hyperparameter values. This holds whether a value is read from the disk cache, from the optimisation memo, or computed by any number of workers in any order; it raises only when something asked for raises alone. The memo never holds more than its maximum and is empty and off after every optimisation. The cache key does not name the data or the indicator's definition: the property is refuted when the bars, or the indicator registered under a name, change under the same dates, timeframe, times and days.", "quantifier": "all histories of runs and optimisations, all data, indicator functions, memo sizes, worker schedules and disk cache settings", "why_tests_cant": "Cache hits depend on the whole earlier history, and worker schedules cannot be enumerated", "anchors": ["src/pybroker/indicator.py: IndicatorsMixin.compute_indicators, _get_memoized_indicator, _set_memoized_indicator, _run_indicators, indicator_memo_scope", "src/pybroker/cache.py: IndicatorCacheKey, CacheDateFields"]}
{"id": "C69", "title": "IndicatorSet returns each symbol's indicators, row for row", "statement": "Calling an IndicatorSet on a frame returns one row for every input row, ordered by symbol and then date (rows with equal symbol and date keep their order), with one column for every indicator that was added and not removed or cleared since, in name order. In every column, the rows of a symbol hold exactly what that indicator gives alone on that symbol's bars in date order, whatever the row order of the input, the number of symbols, and the schedule of parallel workers. It raises ValueError without indicators, and otherwise raises only when some indicator raises alone.", "quantifier": "all histories of add/remove/clear, all frames in any row order, all indicator functions and worker schedules", "why_tests_cant": "Alignment must hold for every interleaving of symbols in the frame, every number of rows per symbol and every worker schedule", "anchors": ["src/pybroker/indicator.py: IndicatorSet.add, remove, clear, __call__", "src/pybroker/scope.py: symbol_array_store_from_frame"]}
{"id": "C70", "title": "Each training window gets exactly the models asked for, as they would be trained or loaded now", "statement": "The models of a window are those of every execution's model on every symbol it trades that has training data, no others and none twice. A model by symbol is trained on that symbol's frames, a pooled model once on the frames of all trained symbols of its execution in sorted order and given to each of them, an interval model on interval frames, and a loaded model comes from load_fn with the window's first and last training date; each carries its input columns, lag columns and prediction settings. This holds whether a model comes from the model cache, from this process or from worker processes in any order; a model whose indicators have hyperparameters never comes from the cache. The window raises only when some model asked for cannot be trained or loaded. A window of an optimization gets the models of a walkforward window over the same data and settings.", "quantifier": "all histories of windows and runs, sources, executions, groups, cache contents, worker schedules and training functions", "why_tests_cant": "The cache mixes models of earlier windows, partly cached pooled groups and workers in any order; no finite set of histories covers the interleavings", "anchors": ["src/pybroker/model.py: ModelsMixin.train_models, _get_cached_models, _load_pooled_group_cache, _set_cached_model, _uses_hyperparams, _run_trainer_task, _run_model_trainers, _has_uncached_pooled_groups", "src/pybroker/cache.py: ModelCacheKey", "src/pybroker/strategy.py: Strategy._run_walkforward (model symbols and pooled groups)"]}
{"id": "C71", "title": "What a backtest did up to a date does not depend on later data", "statement": "Take any strategy, any walkforward windows and any date T. Two data sets with the same rows up to T give the same orders, the same closed trades and the same account bars up to T, and the same account, pending orders and contexts at T, whatever their later rows are; and if one run has raised by T, so has the other.", "quantifier": "every strategy (user functions, sizers, slippage models, indicators and predictions as arbitrary functions of the rows known on the bar), every pair of data sets, every list of windows, every T", "why_tests_cant": "a test compares two finite data sets; look-ahead is a dependence that only shows on the one pair of histories that differ in the right later row", "anchors": ["src/pybroker/strategy.py:BacktestMixin.backtest_executions", "src/pybroker/strategy.py:BacktestMixin._schedule_order", "src/pybroker/strategy.py:Strategy._run_walkforward", "src/pybroker/strategy.py:Strategy._build_exit_dates"]}
{"id": "C72", "title": "Dynamic symbol selection: what each window trades and leaves", "statement": "When executions name their symbols by a selector, every walkforward window trades exactly the symbols the selectors choose from that window's training rows: a selector must return some symbols, all different, all with training rows, and no symbol may belong to two executions, otherwise the run raises; the order in which executions are visited changes nothing. At the start of the window pending orders of symbols that are not selected are cancelled and all others are kept; positions in selected symbols are untouched; a position in any other symbol is closed by exactly one order, on its first bar of the window or else on its last bar before it, at that bar's prices. Up to any date, selections, orders, account and results do not depend on rows after that date.", "quantifier": "all markets, selectors, strategies, user functions, lists of train/test windows, cut-off dates, later data, and iteration orders of sets", "why_tests_cant": "Tests use a few symbols and one split; the claim ranges over every selector, calendar and continuation of the data, and over set iteration orders Python does not fix.", "anchors": ["src/pybroker/strategy.py:_run_walkforward", "src/pybroker/strategy.py:_liquidate_dropped_symbols", "src/pybroker/strategy.py:_exit_dropped_at_bar", "src/pybroker/common.py:_resolve_executions", "src/pybroker/common.py:_resolve_execution_symbols", "src/pybroker/portfolio.py:exit_position"]}
{"id": "C73", "title": "Walkforward optimization tunes on the past and replays each window with its own values", "statement": "When optimize runs over several windows, each window's hyperparameters are chosen from its own training rows only; every window is then replayed on its test rows, in order and on one account, with the symbols, values and position limits its own study chose; the returned best values and score are the last window's; with the default grid search no combination of candidates scores better on the window's training rows than the chosen one; worker count and order change nothing; and neither the studies of windows trained by a date nor the stitched result's orders, trades and account bars up to that date depend on later rows.", "quantifier": "every strategy family indexed by hyperparameter values, score function, list of train/test windows, schedule of the worker pool, set iteration order, market, later data and date", "why_tests_cant": "the claim compares runs over all possible futures and all combinations of values and worker schedules; tests fix one data set, one grid and one pool", "anchors": ["src/pybroker/optimize.py: OptimizeMixin._optimize_walkforward", "src/pybroker/optimize.py: OptimizeMixin._run_optimize_trial", "src/pybroker/optimize.py: OptimizeMixin.optimize", "src/pybroker/optimize.py: make_objective", "src/pybroker/strategy.py: Strategy._effective_config"]}
{"id": "C74", "title": "With fractional shares off, everything is a whole number of shares", "statement": "When enable_fractional_shares is off, every order and trade in the result, every open entry and every position size is a whole number of shares, whatever share counts the execution functions, position sizers or slippage model ask for; and, as long as the slippage model does not change counts, the count sent for an order that is not an exit is the one asked for with only the fraction cut off.", "quantifier": "all data, execution functions, stops, slippage models, windows and account settings", "why_tests_cant": "Whole counts must survive every combination of partial FIFO closes, reversals, buying-power clamps, stop exits and slippage; a test sees a few counts.", "anchors": ["src/pybroker/strategy.py: BacktestMixin._get_shares, _attempt_pending_order", "src/pybroker/portfolio.py: Portfolio.buy, sell, _clamp_shares, exit_position, check_stops"]}
{"id": "C75", "title": "Position rows and portfolio rows describe the account and recording changes nothing", "statement": "Turning the recording of position bars, portfolio bars or stops on or off never changes cash, positions, orders or trades. With recording on, each captured bar appends exactly one portfolio row and, for every symbol held at that moment that has a close, exactly one position row, in symbol order; the row gives the shares long and short, the close, the margin of the short shares at the close and the unrealized gain of the open entries at the close. The position rows of a bar add up to its portfolio row: net cash plus the positions' market values is the account's market value, net cash plus their equities its equity, their margins its margin. The recorded PnL is the realized profit.", "quantifier": "every account configuration, every history of orders, stops, captures and exits, every combination of recording settings, every bar with or without closes for the held symbols", "why_tests_cant": "The rows are accumulated from running sums over positions that were just re-marked; whether they agree with the account depends on the whole history of partial fills and stop exits.", "anchors": ["src/pybroker/portfolio.py: Portfolio.capture_bar, PositionBar, PortfolioBar"]}
{"id": "C76", "title": "Every stop evaluated on a bar is recorded once, with its level and outcome", "statement": "With stop recording on, checking the stops on a bar appends at most one record per stop, all with that bar's date. Each record names a stop attached to an open entry, with its type, side, limit and exit price, and for a bar stop the bars held. Its level is the level in force before the bar, except that a trailing stop that did not trigger may have moved in the position's favour; it is the level the account carries on with. Every stop of an open entry of a symbol that can be priced is recorded, unless a stop of the same entry executed on that bar. The orders the check creates are exactly those of the records that executed, in order, each at the recorded fill price; a record with a fill price is that of a stop that executed.", "quantifier": "every configuration, every history with distinct stop ids, every mix of loss, profit, trailing and bar stops on long and short entries, every bar and slippage model", "why_tests_cant": "The records come from three nested loops that change the stop levels and the positions while they run, and skip entries already closed on the bar.", "anchors": ["src/pybroker/portfolio.py: Portfolio.check_stops, Portfolio._capture_stop, Portfolio._trigger_stop, StopRecord"]}
{"id": "C77", "title": "Result tables show what the account recorded", "statement": "The result of a backtest has one row per recorded bar, position row, order and trade, in the order they were recorded. Every price, amount and percentage in it is the recorded value, or that value to the nearest cent (ties away from zero) when round_test_result is on; a missing limit price stays missing and shifts no other cell; share counts are exact, also when they are shown as integers because fractional shares are off. The metrics agree with the account's own bars and trades: exactly without rounding, and with it to half a cent per value that enters them, with winners and losers miscounted only among trades that made less than half a cent.", "quantifier": "every history of calls, rounding on or off, fractional shares on or off, recording settings", "why_tests_cant": "Rounding errors accumulate with the number of trades and missing values are aligned by label; examples with round prices show neither.", "anchors": ["src/pybroker/strategy.py:Strategy._to_test_result", "src/pybroker/common.py:quantize", "src/pybroker/eval.py:EvaluateMixin.evaluate", "src/pybroker/eval.py:EvaluateMixin._calc_eval_metrics"]}
{"id": "C78", "title": "A run uses exactly the bars that were asked for", "statement": "Strategy.backtest and Strategy.walkforward run on exactly the rows of the data that belong to the symbols of the executions (all symbols with a symbol selector), lie between start_date and end_date, both included, fall on the given days and between the given times of day, each once and in the order of the data. They raise exactly when there is no execution, a date is outside the strategy's range or the dates are reversed, a day name is unknown, between_time is not a pair, no row is covered, or a symbol has two covered rows on one date. They leave the user's DataFrame as it was.", "quantifier": "every DataFrame or data source, every range of dates, every set of days and every pair of times of day", "why_tests_cant": "Filters compose over arbitrary rows, ranges and clocks; a missed row or a leaked one changes every later result.", "anchors": ["src/pybroker/strategy.py:Strategy.walkforward", "src/pybroker/strategy.py:Strategy._filter_dates", "src/pybroker/strategy.py:Strategy._fetch_data", "src/pybroker/strategy.py:Strategy._reject_duplicate_bars", "src/pybroker/strategy.py:Strategy._to_day_ids", "src/pybroker/strategy.py:_between"]}
{"id": "C79", "title": "Each walkforward window is given its own data and nothing later", "statement": "In every window, models are trained on exactly the training rows and the backtest runs on exactly the test rows; the history behind lagged inputs is every row from the first training date to the last test date, including the bars lookahead skips and nothing after the last test bar. With exit_on_last_bar a symbol is exited on its last bar in the whole data.", "quantifier": "every data set, number of windows, train_size, lookahead and shuffle setting, and every window", "why_tests_cant": "Composes the split, the sorting of the data and the slicing by dates over all inputs.", "anchors": ["src/pybroker/strategy.py:Strategy._build_window_stores", "src/pybroker/strategy.py:Strategy._run_walkforward", "src/pybroker/strategy.py:Strategy._build_exit_dates", "src/pybroker/strategy.py:_unique_dates_from_rows"]}
{"id": "C80", "title": "Predictions on a higher timeframe line up with completed bars", "statement": "ctx.interval(...).preds(name) and .input(name) at a base bar return exactly one entry for each higher-timeframe bar completed by that bar: NaN while lag features are undefined, otherwise the model's prediction for that bar, made only from bars of the current walkforward window or earlier. A per-bar model's prediction for a bar is the last value it answers on the bars up to that one, and does not depend on later bars. What was read before, or raised before, changes nothing.", "quantifier": "every model (any predict function, input_data_fn, lags), every compressed series and completion map, every window, every history of input and prediction reads including reads that raise, every pair of runs that agree up to the window or up to the current bar", "why_tests_cant": "A test compares the predictions of one model on one series; alignment after arbitrary interleaved and failing reads, and independence from bars not yet complete, range over all models, series and read histories.", "anchors": ["src/pybroker/scope.py:IntervalScope.fetch_preds", "src/pybroker/scope.py:IntervalScope._fetch_preds_per_bar", "src/pybroker/scope.py:IntervalScope.fetch_input", "src/pybroker/scope.py:IntervalScope._prepare_full_input", "src/pybroker/scope.py:IntervalScope.window_len", "src/pybroker/model.py:ModelInput.slice_range", "src/pybroker/model.py:ModelInput.lag_warmup_len", "src/pybroker/model.py:apply_prepare_input_data"]}
{"id": "C81", "title": "JSON values are strict and lossless where documented", "statement": "Converting any value for the JSON export gives null exactly for missing values (None, NaN, NaT, NA, also inside an Enum member or a 0-d array), the strings \"Infinity\"/\"-Infinity\" for infinities, and otherwise keeps finite numbers; the result contains no non-finite float, so strict json.dumps accepts it; entries of a dict with str keys and fields of named tuples are all kept in order; and a set is written the same way whatever its iteration order.", "quantifier": "every Python value built from scalars, numpy and pandas scalars, Decimals, Enums, arrays, dicts, sequences, sets and named tuples, nested to any depth; every set iteration order", "why_tests_cant": "Nesting is unbounded, set iteration order depends on the hash seed, and the overflow of a Decimal into an infinite float needs values a test would not pick.", "anchors": ["src/pybroker/common.py: _json_safe, _json_safe_key"]}
{"id": "C82", "title": "The JSON payload of a result shows what was asked for", "statement": "TestResult.to_json succeeds exactly when include is a collection of known section names, symbols is absent or a non-empty subset of the result's symbols, and max_rows is not negative (or no table is written). The payload then has start_date, end_date and exactly the asked sections that exist, once each. A table section holds one record per row, each field under its name, for the first max_rows rows in order - of the requested symbols only, for tables by symbol. to_json_str accepts the payload.", "quantifier": "every result (any tables, index shape, optional sections), every include, max_rows and symbols argument", "why_tests_cant": "The filter depends on whether the symbol is a column or an index level, and on the interplay of limit and filter; tests use a few fixed tables.", "anchors": ["src/pybroker/strategy.py: TestResult.to_json, TestResult.to_json_str, _filter_df_symbols", "src/pybroker/common.py: _dataframe_records", "src/pybroker/eval.py: BootstrapResult.to_json"]}
{"id": "C83", "title": "The frames of an interval-bound model are those of its own bars", "statement": "A model bound to an interval (weekly, every five bars, ...) trains on one row for each compressed bar that closes on a training date and at least `lookahead` compressed bars before every bar that closes on a test date, and is tested on one row for each bar that closes on a test date. A row carries its bar's date, the bar's open, high, low, close, volume, vwap and custom values, the values of the model's indicators computed on the interval, and (with lags) each lag column on the bar and on the 1..lags bars of the interval before it; rows before the first with all its lag features are left out of the training frame. Training fails if the interval was not compressed, an indicator was not computed on it, a named lag column does not exist, or no row has all its lag features. With indicators that look only at past bars, no value of a base bar after the training dates can change the training frame.", "quantifier": "all base bars, intervals, training and test dates, lookaheads, indicators, lags and lag columns, and every sequence of models prepared before", "why_tests_cant": "A test checks a few frames with one interval; a leak or an off-by-one shows only for some alignment of the window's edge with the interval, some lookahead, or some earlier model's cached lags.", "anchors": ["src/pybroker/model.py:ModelsMixin._prepare_interval_symbol_data", "src/pybroker/interval.py:build_compressed_symbol_arrays", "src/pybroker/interval.py:slice_arrays_by_dates", "src/pybroker/interval.py:lookahead_train_dates", "src/pybroker/model.py:merge_interval_lag_series_cache"]}
{"id": "C84", "title": "Pooled frames of a model bound to an interval", "statement": "A model that is bound to an interval and trained on several symbols together gets one training and one test frame, ordered by symbol and then date. The training frame has a row for each bar of each symbol that closes on a training date, ends early enough to leave the hold-out of lookahead bars of that symbol, and is not part of that symbol's lag warm-up; the test frame has a row for each bar that closes on a test date. Each row names its symbol and holds the values and lag features of its own bar, never those of another symbol. The frames do not depend on the order in which the symbols are gone through or on models prepared earlier, and the training frame does not depend on what the bars after the training dates hold.", "quantifier": "every set of symbols and their compressed bars, indicators, lags and lag columns, training and test dates, lookahead, state of the lag cache left by any earlier preparations, and order of the symbols", "why_tests_cant": "The rows of the symbols are sorted together, their lag features are scattered back through positions in the sorted frame, and the warm-up is dropped per run of a symbol; an error shows only for particular interleavings of dates, gaps and caches.", "anchors": ["src/pybroker/model.py: _prepare_pooled_interval_data, merge_interval_lag_series_cache, apply_lags_to_model_input_pooled, ModelInput.drop_lag_warmup"]}
{"id": "C85", "title": "What an execution declares is prepared for it, and nothing else is", "statement": "For every history of registering indicators, models and hyperparameters and of calls of add_execution: a call that raises leaves the strategy's executions as they were, and the ones that returned each have one execution with exactly the model and indicator variants, intervals and hyperparameters they list; a binding to intervals stands for exactly those listed, the base timeframe only when 'base' is. No symbol ever runs in two executions, also after selectors are resolved; a window's selectors are resolved exactly when each returns loaded symbols, at least one and none twice, and no symbol falls to two executions. In a run, a (symbol, interval) pair is compressed exactly when an execution declares it, and ctx.interval(i) works exactly for the intervals the symbol's own execution declared, in any spelling, else ValueError; the indicators computed for a symbol are exactly those its execution lists and those of its models, on the timeframe of the model's variant, and their compressed bars exist; the models trained are exactly the listed variants. A run has a value for exactly the reachable hyperparameters, so ctx.hyperparam and the indicators never miss one.", "quantifier": "every sequence of registrations (re-registrations included) and add_execution calls with any arguments, every frame, selector outcome, override dict and interval spelling", "why_tests_cant": "The sets interact across executions and across name building and parsing; a dropped or surplus pair shows only for particular combinations of bindings, selectors and re-registrations, of which tests try a few.", "anchors": ["src/pybroker/strategy.py: Strategy.add_execution, _symbol_intervals, _build_interval_data, _indicator_syms, _run_walkforward", "src/pybroker/interval.py: compress_intervals_from_frame, normalize_intervals", "src/pybroker/optimize.py: collect_hyperparams, build_run_hyperparams", "src/pybroker/context.py: ExecContext.interval, ExecContext.hyperparam", "src/pybroker/common.py: _resolve_executions"]}
{"id": "C86", "title": "Every column of the signals means one thing", "statement": "With return_signals, the frame of a symbol has each column once: the data columns, the indicators computed for it, and each model's predictions as '<model>_pred', or '<model>_pred_0', '<model>_pred_1', ... when it predicts several values; each holds the values of what its name says, one per bar, and over several windows the rows follow one another, missing where a window lacks the column. A run whose names would make two of them share a column is refused with ValueError.", "quantifier": "all histories of registrations and add_execution calls, all sets of data columns, all indicator and model names, all values and numbers of outputs, all numbers of windows", "why_tests_cant": "A collision depends on names chosen in different places (a data source's columns, an indicator, a model's name with a suffix, a model's number of outputs); tests try a few names, not all of them.", "anchors": ["src/pybroker/scope.py:StaticScope.validate_registered_names", "src/pybroker/scope.py:get_signals", "src/pybroker/strategy.py:Strategy.walkforward", "src/pybroker/strategy.py:WalkforwardMixin.run_walkforward"]}
{"id": "C87", "title": "Sharpe, Sortino and Calmar rank runs as documented", "statement": "For any returns: each ratio is NaN exactly when some return is NaN. Sharpe is the mean over the population standard deviation, annualized, and 0 for returns that are all alike; Sortino is infinite exactly when no return is negative and one is positive, 0 when all are 0, and otherwise the mean over the downside deviation over all bars; Calmar is infinite exactly for a compounded gain without any fall below a peak, a total loss for a wiped-out account, and otherwise the annualized growth over the largest fall. Neither Sharpe nor Sortino changes with leverage, and Sortino is not below Sharpe for a run that does not lose on average.", "quantifier": "all arrays of returns of any length, with or without NaN, all numbers of bars per year", "why_tests_cant": "The degenerate branches (no loss, no deviation, wiped out, NaN) are conditions over whole arrays; the order of the two ratios is an inequality over all arrays.", "anchors": ["src/pybroker/eval.py:sharpe_ratio", "src/pybroker/eval.py:sortino_ratio", "src/pybroker/eval.py:downside_deviation", "src/pybroker/eval.py:calmar_ratio"]}
{"id": "C88", "title": "The ulcer index and UPI agree with the drawdown", "statement": "The ulcer index of the market values is the root mean square of the percentages by which they are below their peak so far; for values above 0 it is 0 exactly when they never fall and never exceeds the reported maximum drawdown percentage. UPI is never NaN for values that are numbers, is infinite exactly for values that never fall and end higher, and otherwise is the annualized growth, or the mean return per bar, over the ulcer index. Sortino, Calmar and UPI are infinite for the same runs.", "quantifier": "all series of market values of any length, all numbers of bars per year", "why_tests_cant": "Agreement between metrics computed by separate loops over separate arrays must hold for every series, including those at the boundary (flat, rising, wiped out).", "anchors": ["src/pybroker/eval.py:ulcer_index", "src/pybroker/eval.py:upi", "src/pybroker/eval.py:EvaluateMixin._calc_eval_metrics"]}
{"id": "C89", "title": "R-squared and the annual return", "statement": "R-squared of the equity curve is between 0 and 1: the share of the spread of the values that the best straight line explains, and 0 for a flat curve. The annual return, compounded over the years of the run, gives the total return, and is a gain exactly when the run gained. It is -100 percent when nothing is left and 0 for a run of at most one bar. For an account that ends below 0 it is refuted: the annual return is then NaN, or even a gain.", "quantifier": "all series of values of any length; all initial values, profits, numbers of bars and bars per year", "why_tests_cant": "The bounds are a least-squares inequality over all series and all lines; a power of a non-positive ratio is a corner that few tests reach.", "anchors": ["src/pybroker/eval.py:r_squared", "src/pybroker/eval.py:annual_total_return_percent", "src/pybroker/eval.py:total_return_percent"]}
{"id": "C90", "title": "A run uses the last accepted settings, and only settings that are usable together", "statement": "For every sequence of Strategy.set_max_long_positions, set_max_short_positions and enable_rotation calls, refused ones included, a run uses for each setting the value of the last accepted call, with a hyperparameter read from the run's values and a number cut to its whole part; a limit that was never set, or was set to None, is the one of StrategyConfig. The run is refused exactly when a hyperparameter has no numeric value in the run, a limit is not positive, or rotation is on with no limit set or with worst_rank_held below a limit. A warning is given exactly for a configured limit that a call overrides. With rotation on, equal weights exist and add up to the whole account; a sizer is never left behind without rotation; values of other hyperparameters do not matter. A strategy is built exactly with sound configurations, and the configuration of a run differs from it in the limits only.", "quantifier": "every configuration, every sequence of setter calls (accepted or refused), every run's hyperparameter values", "why_tests_cant": "the settings depend on the whole history of calls and on the run's values; tests try single calls", "anchors": ["src/pybroker/strategy.py: Strategy.set_max_long_positions, Strategy.set_max_short_positions, Strategy.enable_rotation, Strategy._resolve_backtest_settings, _resolve_strategy_setting, _validate_worst_rank_held, _rotation_target_size, Strategy._verify_config, Strategy._effective_config"]}
{"id": "C91", "title": "What an execution sees of the account agrees with the orders it sees", "statement": "After any sequence of calls on the account, ctx.pos(symbol, type) and ctx.long_pos / ctx.short_pos (with the context's own symbol as default) return a long position with exactly the shares that ctx.orders() bought more than sold of the symbol, a short position with exactly the shares sold more than bought, and nothing when they cancel. ctx.positions, ctx.long_positions and ctx.short_positions list exactly the positions asked for by symbol and type, each symbol at most once; an unknown type raises ValueError. ctx.has_long_positions and ctx.has_short_positions say whether there are any. ctx.net_cash_balance plus the cost of the listed positions is the initial cash plus the results of ctx.trades() plus interest less the fees of ctx.orders(), and ctx.win_rate is the share of winning trades among ctx.trades().", "quantifier": "every configuration, every history of account calls, every symbol and filter", "why_tests_cant": "the views must agree after every history of partial fills, flips and exits; tests compare a few accounts", "anchors": ["src/pybroker/context.py: ExecContext.pos, ExecContext.positions, ExecContext.long_positions, ExecContext.short_positions, ExecContext.has_long_positions, ExecContext.has_short_positions, ExecContext.orders, ExecContext.trades, ExecContext.long_pos, ExecContext.short_pos, ExecContext.net_cash_balance, ExecContext.win_rate"]}
{"id": "C92", "title": "Bootstrap bounds are statistics of resamples of the run, whichever function computes them", "statement": "Every confidence bound that an evaluation reports for the profit factor, the Sharpe ratio and the maximum drawdown (cash and percent) is the value of that statistic on a resample of the bars of the run, as long as the run and drawn from its bars only; the drawdown bounds cut the falls of the same set of resamples at 0.1%, 1%, 5% and 10%. The shared pass reports exactly what conf_profit_factor, conf_sharpe_ratio and drawdown_conf return when each is called with the random generator as it was before the pass. The shortcuts that bca_boot_conf takes for log_profit_factor, sharpe_ratio and profit_factor return what it returns for a user's function that computes the same statistic. It raises only when no resamples are asked for or the lengths differ.", "quantifier": "every array of changes and returns, number of resamples, random generator and seed, number of bars per year", "why_tests_cant": "the shortcuts replace the definition of the statistic by running sums and must agree on every array, including flat ones; seeded tests compare a few arrays", "anchors": ["src/pybroker/eval.py: bootstrap_eval_all, bca_boot_conf, conf_profit_factor, conf_sharpe_ratio, drawdown_conf, profit_factor, log_profit_factor, sharpe_ratio, max_drawdown, max_drawdown_percent, EvaluateMixin.evaluate"]}
{"id": "C93", "title": "Caches can be switched on, off and moved without losing or mixing what they hold", "statement": "For every history of enable_*_cache, disable_*_cache, clear_*_cache, enable_caches, disable_caches and clear_caches calls, interleaved with any gets, sets, deletes and evictions by the clients of the three caches, every answer and the content of every cache directory are those of plain on-disk stores: the in-memory level, its capacity and the switching are not observable. A value stored under a namespace is found again when that namespace is enabled later in the same cache directory, whatever was called in between, unless the key was written or cleared while that very directory was in use. A call changes no directory other than those in use for the kinds it concerns. Directories of the three kinds never coincide, and two namespaces in one cache directory never share one. A namespace is kept in the folder of its kind, below the namespace, below the given cache directory or .pybrokercache of the working directory, and the namespace that the scope records is always the one in use (empty when the cache is off). An empty namespace and clearing a disabled cache raise ValueError and change nothing; a disabled cache is neither read nor written. clear_caches empties the data source, indicator and model caches in that order and raises ValueError at the first that is off, having emptied those before it.", "quantifier": "every history of calls of the ten functions with every argument, every interleaved operation of cache clients, every outcome of the disk operations, every initial content of the directories", "why_tests_cant": "The in-memory level is replaced, kept or dropped depending on the order of calls, and a stale entry shows only for particular histories of switching, storing and re-enabling; a test runs a handful of them.", "anchors": ["src/pybroker/cache.py: enable_data_source_cache, disable_data_source_cache, clear_data_source_cache, enable_indicator_cache, disable_indicator_cache, clear_indicator_cache, enable_model_cache, disable_model_cache, clear_model_cache, enable_caches, disable_caches, clear_caches, _get_cache_dir"]}
{"id": "C94", "title": "Steps of a bar, and nothing happens to a symbol on a date without a bar of it", "statement": "On every bar of a backtest the account is acted on in one order: stops are checked, due orders are tried, the portfolio is valued, stops cancelled by the functions are dropped, positions of symbols that reach their exit date (past the warm-up) are closed - longs at the sell price, shorts at the buy price - and holding times grow; nothing else touches the account. Checking stops, valuing and holding times concern exactly the symbols with a bar on that date. Hence every order, every entry and exit of a trade and every open entry is dated on a bar of its own symbol, and nothing is held of a symbol after the bar of its exit date.", "quantifier": "all data with any gaps per symbol, all execution functions, all configurations, all exit dates and warm-ups, every bar of every window", "why_tests_cant": "tests use data in which all symbols trade on the same dates and look at final results; the order of steps and the treatment of missing bars must hold on every bar", "anchors": ["src/pybroker/strategy.py: BacktestMixin.backtest_executions", "src/pybroker/scope.py: PriceScope/ColumnScope has_bar_on", "src/pybroker/portfolio.py: check_stops, capture_bar, incr_bars, exit_position"]}
{"id": "C95", "title": "Cover orders are placed before sell orders", "statement": "On every bar, an order set through cover_shares, cover_fill_price, cover_limit_price or cover_all_shares is placed before any sell order of that bar. Setting shares or limits through the buy or sell attributes does not mark an order as a cover. Whatever a function sets, in whatever order, each attribute holds what was set last under its buy or its cover name.", "quantifier": "every run of the bar loop, every order set through a cover attribute and every bar on which it is tried", "why_tests_cant": "Needs all schedules of orders over bars, retries of limit orders and window boundaries; a test sees one schedule.", "anchors": ["src/pybroker/context.py:ExecContext.cover_shares", "src/pybroker/context.py:ExecContext.cover_all_shares", "src/pybroker/strategy.py:BacktestMixin._schedule_order", "src/pybroker/strategy.py:_pending_order_priority", "src/pybroker/strategy.py:BacktestMixin._process_persistent_orders"]}
{"id": "C96", "title": "Relative entropy is a normalised entropy of the indicator's values", "statement": "relative_entropy lies between 0 and 1 for every array. NaN and infinite values are ignored and the order of the others does not matter; without finite values it is 0. In exact arithmetic it is Shannon's entropy of the shares of the values in 3, 5, 10 or 20 bins of equal width over their range, divided by its largest possible value: 1 exactly when all bins hold equally many values, 0 for a constant series, positive when two values differ by at least 1e-60, and unchanged when a constant is added to the series.", "quantifier": "every array of any length, with NaN and infinities, and (for the range) every rounding of the bin computation", "why_tests_cant": "Tests try a few arrays; the range and the equality cases are inequalities over all arrays, and the bin index must stay inside the histogram whatever the rounding.", "anchors": ["src/pybroker/eval.py:relative_entropy", "src/pybroker/indicator.py:Indicator.relative_entropy"]}
{"id": "C97", "title": "The normal distribution functions are those of the normal law", "statement": "normal_cdf is within 0.00001 of the standard normal distribution function at every z; it lies strictly between 0 and 1, increases strictly, and normal_cdf(-z) = 1 - normal_cdf(z) for z other than 0. inverse_normal_cdf(1 - p) = -inverse_normal_cdf(p) for p between 0 and 1 other than 1/2, and inverse_normal_cdf increases with p.", "quantifier": "every real z and every probability p (and pair of them)", "why_tests_cant": "A table of values checks a few points of a continuum; the distance to the law, the range and monotonicity are claims about every real number.", "anchors": ["src/pybroker/vect.py:normal_cdf", "src/pybroker/vect.py:inverse_normal_cdf"]}
{"id": "C98", "title": "Bootstrap confidence intervals contain one another", "statement": "For every data series, statistic, number of resamples and sequence of draws, the BCa intervals of bca_boot_conf, conf_profit_factor, conf_sharpe_ratio and evaluate are ordered: low_2p5 <= low_5 <= low_10 <= high_10 <= high_5 <= high_2p5, and the drawdown bounds are the deeper the rarer (q_001 <= q_01 <= q_05 <= q_10).", "quantifier": "every series, statistic, generator and number of resamples", "why_tests_cant": "The intervals depend on the random draws, on the bias and on the acceleration of the data through a quotient that can change sign; tests fix one seed and one series.", "anchors": ["src/pybroker/eval.py:bca_boot_conf", "src/pybroker/eval.py:_bca_intervals_from_boot", "src/pybroker/eval.py:conf_profit_factor", "src/pybroker/eval.py:conf_sharpe_ratio", "src/pybroker/eval.py:bootstrap_eval_all", "src/pybroker/eval.py:drawdown_conf"]}
{"id": "C99", "title": "Every accepted worker configuration gives the results of working alone", "statement": "After any history of set_parallel calls, the pool, number of jobs and backend in force are those the accepted calls last gave (a pool resets the other two), and a call that raises changes nothing; calls are accepted exactly when the pool keeps the order of its tasks and comes alone, or the backend is registered and is not multiprocessing. In every accepted configuration, with any workers in any order and whatever scope they start with, indicators, model training, grid search, random search and the studies of walkforward windows give each input its own result, exactly as computed one after the other in the caller's scope, and raise only when a task raises. Work dispatched from inside a worker stays in that worker.", "quantifier": "every history of set_parallel calls, pool, number of workers, order of completion, worker scopes, and list of tasks", "why_tests_cant": "tests run a few pools on one machine; which worker finishes first and what its process holds is not under their control, and configurations are combined with every call site only by reasoning", "anchors": ["src/pybroker/parallel.py: set_parallel, parallel, _effective_n_jobs", "src/pybroker/indicator.py: IndicatorsMixin._run_indicators", "src/pybroker/model.py: ModelsMixin._run_model_trainers", "src/pybroker/optimize.py: _run_study, OptimizeMixin.optimize", "src/pybroker/scope.py: run_with_scope"]}
{"id": "C100", "title": "An optimization starts the search that was asked for, or none", "statement": "Once the data is prepared, Strategy.optimize starts its trials exactly when train_size is strictly between 0 and 1, warmup and windows are positive, a study is not combined with several windows, there is an execution and no execution uses a model that would have to be trained, the sampler is known, its grid (if it has one) names exactly the declared hyperparameters, a sampler without a grid has a number of trials, and the direction is valid: one of the two words, or, for a supplied study, any spelling of the direction of that study. It then starts one study, or one for each window, each in that direction, for the given number of trials or else one for each combination, with the supplied study's own sampler or one of the kind asked for. It warns exactly of more than 1000 combinations over all windows that no number of trials limits. The caller's sampler is left as it was unless it cannot be copied.", "quantifier": "all strategies, samplers (by name or nested instances), grids, supplied studies, directions, seeds, window counts and trial counts", "why_tests_cant": "the checks are spread over the call, the builder of the samplers and the run of each window's study; tests try single wrong arguments", "anchors": ["src/pybroker/optimize.py: OptimizeMixin.optimize, _validate_optimize_models, _build_sampler, _validate_grid_sampler, _validate_study_direction, _resolve_n_trials, _run_study, _optimize_walkforward"]}
{"id": "C101", "title": "A seed decides what every window of a search draws", "statement": "With a seed, the generators of the sampler of window i are made from the seed plus i (a sampler given by name) or from the seed, i and the place of the generator in the sampler (an instance with samplers inside); no two generators of different windows, and none nested in one another, are made alike. So the search does not depend on the state the caller's sampler was in, on fresh entropy or on the trials of earlier windows. A grid by name is in the same order even without a seed. Generators that cannot be replaced are left as they were.", "quantifier": "all samplers nested to any depth with any generators in any state, copyable or not, all seeds, up to 1000003 windows", "why_tests_cant": "needs all nestings of samplers and all earlier states of their generators; a test sees a few optuna classes", "anchors": ["src/pybroker/optimize.py: _reseed_sampler, _build_sampler, _optimize_walkforward"]}
{"id": "C102", "title": "JSON of an optimization", "statement": "OptimizeResult.to_json and WindowOptimizeResult.to_json write, for every optimization: the best parameters and score, a summary of the study (the number of all its trials, value and parameters of the first of its best completed trials, or null and no parameters when none completed, never an error), exactly the JSON that the result itself writes for the same arguments (and the same error when it refuses them), and for a walk forward each window in order with its dates, score and parameters. The symbols a selector chose are written exactly when one did, one entry an execution by ascending id and in alphabetical order, whatever the order of the dict and sets. Converting what is already converted changes nothing, and to_json_str never raises, unless a best parameter is a finite number too large for a double.", "quantifier": "every study, window, result and arguments of the export", "why_tests_cant": "the export nests conversions of conversions over arbitrary user values; tests see a few payloads", "anchors": ["src/pybroker/optimize.py: _study_summary, WindowOptimizeResult.to_json, OptimizeResult.to_json", "src/pybroker/common.py: _json_safe"]}
{"id": "C103", "title": "Silenced logging silences its own thread, and nothing longer than its block", "statement": "Whatever the threads of a process do with the logger at once, a message is printed exactly when it is written outside every silenced block of its own thread, logging was last enabled in its process, and its level is on. A silenced block ends with the block, also when an exception leaves it, and changes neither the order of messages nor the exception. enable and disable hold for the whole process; a worker process starts as the process that sent the work, with no silenced block and no progress bar. Logging raises nothing by itself while at most one thread shows a progress bar that is not silenced and each timer is ended by at most one thread. Without that, two trials that are not silenced, or two windows that train, on two threads can make the logger raise.", "quantifier": "all programs of messages, progress bars, timers, switches, exceptions, silenced blocks and worker processes, any number of threads and every interleaving of their steps", "why_tests_cant": "The outcome depends on how the steps of threads interleave around a shared logger; tests run few schedules.", "anchors": ["src/pybroker/log.py:Logger._suppress", "src/pybroker/log.py:Logger._is_disabled", "src/pybroker/log.py:Logger._update_progress_bar", "src/pybroker/log.py:Logger.__getstate__", "src/pybroker/optimize.py:_quiet_logging"]}
{"id": "C104", "title": "Vendors are asked for bars of the requested length", "statement": "Alpaca is asked for a timeframe exactly when it is one amount of minutes, hours, days or weeks, and then for that amount and unit. AKShare is asked for daily or weekly bars and YQuery for bars of one hour, one day, five days or one week, when and only when the timeframe is that long in that unit; no timeframe means one day. What is asked for lasts as long as the timeframe, every other timeframe raises before the vendor is asked, and timeframes of the same length are answered alike.", "quantifier": "every timeframe string", "why_tests_cant": "A grammar over unbounded strings, composed with formatting and parsing again.", "anchors": ["src/pybroker/data.py:_parse_alpaca_timeframe", "src/pybroker/data.py:Alpaca.query", "src/pybroker/data.py:DataSource._format_timeframe", "src/pybroker/ext/data.py:AKShare._fetch_data", "src/pybroker/ext/data.py:YQuery._fetch_data"]}
{"id": "C105", "title": "AKShare's answers become the bars of each symbol", "statement": "A query of AKShare returns, for each symbol, the rows of the frame the vendor answered for it, in order and labelled with it, with date, open, high, low, close and volume from the column that holds the field under its Chinese or English name (volume from 'amount' if there is no volume), whichever schema each answer has, and exactly the canonical columns. The vendor is asked for the days and adjustment requested, once per symbol, and the second service only for daily bars when the first is unavailable. It raises only if a symbol is not answered or answers lack a field, have it twice or have an unreadable date. Each symbol gets the bars of its own exchange.", "quantifier": "every vendor behaviour, every list of symbols, every schema of the answers", "why_tests_cant": "Any mix of schemas and failures across symbols.", "anchors": ["src/pybroker/ext/data.py:_to_tx_symbol", "src/pybroker/ext/data.py:_fetch_akshare_symbol", "src/pybroker/ext/data.py:AKShare._fetch_data"]}
{"id": "C106", "title": "Yahoo's table becomes one bar per symbol and date", "statement": "From yfinance's table, with a column per field and symbol, a query returns for each symbol one row per date of the table with that symbol's own values at that date, whether the columns are keyed by field or by field and symbol, and raises if a symbol has no columns.", "quantifier": "every table, any number of symbols and dates", "why_tests_cant": "Tiled, repeated and concatenated columns must stay aligned for all sizes.", "anchors": ["src/pybroker/data.py:YFinance._fetch_data"]}
{"id": "C107", "title": "The data columns of a run stay as they were when it started", "statement": "Whenever data columns are read they are date, open, high, low, close, volume and vwap followed, in ascending order and without repetition, by the other names whose last accepted request was register_columns rather than unregister_columns. A request is refused only while a backtest, walkforward or optimize call is going on, and after one has returned or raised requests are carried out again. During a run every request is refused and every reading shows the same columns.", "quantifier": "every program that registers and removes columns, reads them, starts runs (inside runs as well), fails and catches failures, deciding its next step from the columns it has read", "why_tests_cant": "runs end by returning or by any exception of user code or of the library, requests may be made at any point before, in and after runs; tests fix a few sequences", "anchors": ["src/pybroker/scope.py: StaticScope.register_custom_cols, unregister_custom_cols, all_data_cols, ordered_data_cols, freeze_data_cols, unfreeze_data_cols, register_columns, unregister_columns", "src/pybroker/strategy.py: Strategy.walkforward", "src/pybroker/optimize.py: OptimizeMixin.optimize"]}
{"id": "C108", "title": "What a function reads on a bar is the data of the bars up to it", "statement": "On each test date, in order and each once, the functions called are those of the symbols that have a bar of that date and are past the warm-up. Whatever such a function reads of the bars - a column of its own symbol, the value of the current bar, the dates, the number of bars, dt, or another symbol through foreign(), as a whole or by column - is exactly what that symbol's bars dated up to the current date hold: nothing later, nothing missing, and nothing remembered from an earlier bar or an earlier reading. A symbol that has had no bar yet may be refused. The same holds of the prices the account reads for stops and records: those of the current date, or none if the symbol has no bar on it.", "quantifier": "every window with ascending dates, calendars that agree or not, every warm-up, every set of columns, and every sequence of readings on every bar, through any contexts", "why_tests_cant": "Look-ahead or a stale cache shows only for particular ragged calendars and orders of readings; tests use aligned data and read each thing once.", "anchors": ["src/pybroker/strategy.py: BacktestMixin.backtest_executions, _date_to_active_syms", "src/pybroker/context.py: ExecContext.foreign, ExecContext.dt, ExecContext.bars, set_exec_ctx_data", "src/pybroker/scope.py: ColumnScope.fetch, ColumnScope.fetch_value, ColumnScope.bar_data_from_data_columns, PriceScope.has_bar_on, PriceScope.fetch_bar_ohlc"]}
{"id": "C109", "title": "The Aroon, stochastic and average true range indicators show what they are named for", "statement": "aroon_up, aroon_down and aroon_diff show 50 (the difference 0) on the first bar and, on every later bar, 100 * (lookback - age) / lookback where age is how many bars ago the latest highest high (lowest low) of that bar and the lookback bars before it was, or the difference of the two. stochastic shows 0 until lookback bars are there and then where the close lies between the lowest low and the highest high of the last lookback bars, as a percentage less 50, raw or smoothed once or twice with weight one third on the new value, the second smoothing beginning one bar after the first. atr shows NaN on the first lookback bars and then the mean, over the last lookback bars, of the greatest of high - low, abs(high - previous close) and abs(low - previous close).", "quantifier": "all price series of any length whose lows are not above their highs, every lookback of at least 1, and 0, 1 or 2 smoothings", "why_tests_cant": "Ties, extremes exactly lookback bars old and the first bars of each smoothing are boundary cases that a few sample series do not reach; the claim is about all series.", "anchors": ["src/pybroker/vect.py: aroon_up, aroon_down, aroon_diff, stochastic, atr"]}
{"id": "C110", "title": "A model predicts from the columns it was trained on", "statement": "The frame a model predicts from, on the base timeframe or on a compressed interval, (or that its input_data_fn is given) has the columns of the frame its train function was given, in the same order and holding the same series, without the symbol column of a pooled model; if the train or load function names columns it has exactly those in that order, and a name that is neither a column of the data nor an indicator of the model raises. Lag features are built from the same columns in both. A pretrained model that names no columns is given its indicators, and lags the columns a trained model with the same settings lags.", "quantifier": "every set of registered columns, every set of data frame columns (registered or not), every model source (indicators, lags, lag_cols, pooled, input_data_fn), every answer of the train or load function", "why_tests_cant": "A test compares the two frames for one set of columns; agreement of two separately written column selections ranges over all registered and unregistered columns, indicators and declarations.", "anchors": ["src/pybroker/model.py:_model_input_columns", "src/pybroker/model.py:_infer_input_cols", "src/pybroker/model.py:_lag_feature_cols", "src/pybroker/model.py:_parse_model_result", "src/pybroker/model.py:ModelSource.prepare_input_data", "src/pybroker/scope.py:ModelInputScope._fetch_model_input", "src/pybroker/scope.py:_resolve_lag_cols", "src/pybroker/scope.py:StaticScope.validate_registered_names"]}
{"id": "C111", "title": "What an open position reports", "statement": "At any time the close, equity, market value, margin and unrealized PnL of an open position are those of the last captured bar, since the position was opened, on which its symbol had a close: the gain of the entries it had on that bar, for a long its shares at that close, for a short its shares at that close as margin and margin plus gain as market value; before there is such a bar they are zero. Nothing but such a bar changes them: not a fill, a partial exit, a stop or a bar without a close. Its bar count is the number of bars counted since it was opened.", "quantifier": "every account configuration and every history of buys, sells, exits, stop checks, captured bars, bar counts, stop removals and changes of the position caps; every open position", "why_tests_cant": "A test reads a position after one sequence of fills and bars; that nothing else ever writes these figures, and that a re-opened position starts from zero, ranges over all histories.", "anchors": ["src/pybroker/portfolio.py:Position", "src/pybroker/portfolio.py:Portfolio.capture_bar", "src/pybroker/portfolio.py:_calculate_pnl_mae_mfe", "src/pybroker/portfolio.py:Portfolio.incr_bars"]}
{"id": "C112", "title": "An account never fails on calls that leave nothing to fail", "statement": "Every history of orders, exits, stop checks, bar captures and stop removals runs to its end without an exception other than the rejection of an order's or exit's own arguments, provided that stops have new ids, a distance or a number of bars and positive fill prices, and that stops are checked at positive prices. In particular check_stops then always returns, whatever the slippage model answers. A whole backtest runs to its last bar when prices are positive, slippage models answer with positive prices and no more shares than asked, and the signals of every bar are consistent, with non-negative shares and positive limit prices; under rotation scores, fill prices, holding periods and stops that are each usable are enough, together with a sizer, if there is one, that turns usable orders into usable orders.", "quantifier": "every history of account calls, every data set, slippage model and execution function of a backtest", "why_tests_cant": "Absence of failures over all histories: a test only sees that its own history does not raise.", "anchors": ["src/pybroker/portfolio.py:Portfolio.check_stops", "src/pybroker/portfolio.py:Portfolio._trigger_stop", "src/pybroker/portfolio.py:Portfolio.exit_position", "src/pybroker/strategy.py:BacktestMixin.backtest_executions"]}
