{"claims": [
  {"property": "C01", "status": "proved", "theorems": ["C01_account_conservation", "C01_no_money_created"], "note": "Exact rationals stand for Decimal; bars_per_year is assumed positive when given."},
  {"property": "C02", "status": "proved", "theorems": ["C02_position_bookkeeping"]},
  {"property": "C03", "status": "proved", "theorems": ["C03_order_log"]},
  {"property": "C04", "status": "proved", "theorems": ["C04_one_side"]},
  {"property": "C05", "status": "proved", "theorems": ["C05_position_mode", "C05_position_caps", "C05_caps_each_call"], "note": "Caps for histories that do not reassign them, plus the per-call bound when they are reassigned (optimize.py)."},
  {"property": "C06", "status": "proved", "theorems": ["C06_fill_respects_order", "C06_unfilled_unchanged"]},
  {"property": "C07", "status": "proved", "theorems": ["C07_fifo"]},
  {"property": "C08", "status": "proved", "theorems": ["C08_logs", "C08_win_rate", "C08_no_trades"]},
  {"property": "C09", "status": "partial", "theorems": ["C09_cash_account_partial", "C09_opening_within_cash", "C09_cash_never_negative_refuted", "C09_overdraft"], "note": "The general claim is false in the code (refuted by a fee and by a short covered at a loss); proved for accounts without fees and shorting, and per opening order before its fees. For every account without leverage the cash is at least minus the fees paid and the excess losses of closed entries (C09_overdraft, shown to be attained)."},
  {"property": "C10", "status": "partial", "theorems": ["C10_leverage_limit_partial", "C10_exposure_of_an_opening_order", "C10_builtin_fees_grow", "C10_buying_power", "C10_leverage_limit_refuted", "C10_leverage_slack"], "note": "False when the order first closes an opposite position (refuted: fees of the closing part are not reserved); proved otherwise, for fee functions that do not shrink as orders grow (the built-in ones are shown to). For the refuted case C10_leverage_slack bounds the excess by leverage times the fees of the closing part."},
  {"property": "C11", "status": "proved", "theorems": ["C11_loan_nonneg", "C11_loan_is_borrowed_plus_accrued", "C11_nothing_open", "C11_nothing_accrued"]},
  {"property": "C12", "status": "proved", "theorems": ["C12_interest", "C12_sweep_neutral", "C12_interest_placed"]},
  {"property": "C13", "status": "partial", "theorems": ["C13_captured_value", "C13_live_value_partial", "C13_live_value_refuted"], "note": "The captured-value identity is proved in full; the live-value part needs positive closes and is refuted for a non-positive close."},
  {"property": "C14", "status": "partial", "theorems": ["C14_unmarked_partial", "C14_bar_loop_partial", "C14_backtest_partial", "C14_value_between_marks_partial", "C14_value_between_marks_refuted"], "note": "Proved for every history whose stops are checked before a marked position is added to; for every prefix of the bar loop (stops checked, then orders of symbols with a close filled, then the bar captured), ending anywhere in a bar (C14_bar_loop_partial); and so for every moment of every backtest of the loop model whose bars have closes (C14_backtest_partial). Missing: other call orders of the account, for which it is refuted, and closes that are not positive."},
  {"property": "C15", "status": "proved", "theorems": ["C15_price_stops"]},
  {"property": "C16", "status": "proved", "theorems": ["C16_trailing_level", "C16_levels_tighten"]},
  {"property": "C17", "status": "proved", "theorems": ["C17_check_stops"]},
  {"property": "C18", "status": "proved", "theorems": ["C18_bar_stops", "C18_symbol_clock"]},
  {"property": "C19", "status": "partial", "theorems": ["C19_remove_stops_partial", "C19_removed_partial", "C19_remove_stops_refuted", "C19_backtest"], "note": "Proved when no order carries two stops of one type, and so, since contexts attach at most one of each, at every moment of every backtest (C19_backtest); refuted for other uses of the account."},
  {"property": "C20", "status": "proved", "theorems": ["C20_exit_position_flattens", "C20_exit_position_returns"]},
  {"property": "C21", "status": "partial", "theorems": ["C21_rejected_no_effect", "C21_rejected_iff", "C21_only_bad_arguments_raise_partial", "C21_raise_leaves_account_refuted"], "note": "Argument rejections leave the account unchanged and, with fresh stop ids that state a distance, nothing else raises; a reused stop id raises after the account changed (refuted)."},
  {"property": "C22", "status": "proved", "theorems": ["C22_trade_excursions", "C22_entry_excursions", "C22_excursions_widen"]},
  {"property": "C23", "status": "partial", "theorems": ["C23_fresh_ids", "C23_queries", "C23_removed_for_good", "C23_retry_bars", "C23_attempted", "C23_no_residue", "C23_residue_refuted"], "note": "Everything holds except that marking an already removed order leaves residue (C23_residue_refuted); the bar loop only marks pending orders, and C23_no_residue proves there is none then."},
  {"property": "C24", "status": "proved", "theorems": ["C24_order_delay", "C24_calls_follow_orders", "C24_placed_iff"], "note": "Windows, data, delays and execution functions arbitrary; run-level theorems plus exactness of the scheduling step. A symbol's master dates are assumed to contain the window's dates contiguously."},
  {"property": "C25", "status": "proved", "theorems": ["C25_attempts", "C25_gone_for_a_reason"], "note": "Proved for whole runs over any number of windows, including why an order can be gone."},
  {"property": "C26", "status": "partial", "theorems": ["C26_exit_never_flips", "C26_exits_marked", "C26_nothing_held_partial", "C26_cancelled_when_flat_refuted"], "note": "Never flips and never over-closes: proved for every call of every run. That it is cancelled when nothing is held is proved except for limit orders with a timeout, where it is refuted: the order survives and can close a position opened later."},
  {"property": "C27", "status": "proved", "theorems": ["C27_orders_taken_by_score", "C27_rank", "C27_ranks_count_up"], "note": "Every bar of every run; ranks as rotation hands them to a sizer function."},
  {"property": "C28", "status": "proved", "theorems": ["C28_rotation", "C28_target_size", "C28_order_terms"], "note": "Every bar of every run without a sizer function (a sizer may overwrite every order). A pending order counts as an entry by its side only, so a stale cover order also blocks its symbol (stated in may_enter/awaited)."},
  {"property": "C29", "status": "partial", "theorems": ["C29_calc_target_shares", "C29_target_order_partial", "C29_target_rejected", "C29_target_reached_partial", "C29_target_order_refuted"], "note": "Sizing proved in full. set_target_shares reaches the target unless the symbol is held on the other side, where it is refuted: the order ignores that position."},
  {"property": "C30", "status": "proved", "theorems": ["C30_no_leak", "C30_test_sets_advance", "C30_layout", "C30_raises", "C30_tiny_train_size_index_error"], "note": "Floats are an arbitrary rounding that is monotone, exact on integers up to 2^53 and within 2^-53 relative plus 2^-1074 absolute error; the shuffle is an arbitrary permutation. Domain: train_size in [0,1], fewer than 2^50 bars and windows. C30_raises excludes 0 < train_size < 2^-40: C30_tiny_train_size_index_error shows such a split can end in an IndexError."},
  {"property": "C31", "status": "proved", "theorems": ["C31_raises", "C31_no_order", "C31_result", "C31_stop_ids_unique", "C31_orders_placed"], "note": "Exact characterisation of when a context raises, gives nothing or gives a result, and that exactly these orders are placed. A timeout without an order is ignored, and a zero-share order is dropped with its limit and stops unchecked (stated in ContextSpec.contradictory/unusable)."},
  {"property": "C32", "status": "proved", "theorems": ["C32_no_carry_over", "C32_functions_start_clean", "C32_all_cleared"], "note": "Every attribute is cleared at the start of a bar (C32_all_cleared), the functions of every bar of every run see such contexts, and what contexts carry has no effect on later bars."},
  {"property": "C33", "status": "proved", "theorems": ["C33_view_is_prefix", "C33_no_future", "C33_later_view_extends", "C33_indicator_view", "C33_indicator_no_future", "C33_interval_indicator_rejected"], "note": "Columns: views, scalar reads, fetch_dict and bar data at bar t are the first t values and agree on stores that agree on t bars. Indicators: the same for any history of reads through the cache; interval-bound indicators cannot be read with a base index."},
  {"property": "C34", "status": "proved", "theorems": ["C34_buffer_is_a_list"], "note": "Refinement of the growing buffer, with aliasing views into an explicit heap of buffers and arbitrary contents of fresh memory, to a list."},
  {"property": "C35", "status": "proved", "theorems": ["C35_slice_selects_dates", "C35_both_paths_agree"], "note": "Whole-store slicing for distinct dates, sorted or not; numbers in the store must be representable in float64 (the gather path converts to float64, the contiguous path does not)."},
  {"property": "C36", "status": "proved", "theorems": ["C36_price_of_bar", "C36_between_low_and_high", "C36_rounding", "C36_no_future", "C36_has_bar"], "note": "Per-bar price cache for any history of reads, price types, rounding; over exact rationals."},
  {"property": "C37", "status": "proved", "theorems": ["C37_normal_forms", "C37_idempotent", "C37_name_roundtrip", "C37_names_distinct", "C37_plain_names", "C37_interval_sets"], "note": "ASCII strings; exact characterisation of accepted intervals, name round trip, injectivity of names and interval sets."},
  {"property": "C38", "status": "proved", "theorems": ["C38_accepts", "C38_groups", "C38_volume", "C38_every_bar_used"], "note": "Exact values, NaN as a value; grouping by number of bars, calendar period or duration; vwap included."},
  {"property": "C39", "status": "proved", "theorems": ["C39_visible", "C39_grows", "C39_no_future", "C39_every_n", "C39_every_n_general", "C39_clamped", "C39_test_window"], "note": "Exact characterisation of what is visible at each base bar. For calendar and duration intervals the date of the next bar decides whether the current group counts as finished (C39_next_date shows this dependence); prices never leak."},
  {"property": "C40", "status": "proved", "theorems": ["C40_holdout"]},
  {"property": "C41", "status": "partial", "theorems": ["C41_no_better_partial", "C41_orders_partial", "C41_accepted", "C41_same_fill", "C41_never_rejected", "C41_fixed_price", "C41_volume_cap", "C41_volatility_price", "C41_no_future", "C41_refuted"], "note": "Proved for the base, fixed, volatility and volume models through apply_slippage, adjust_fill and the order path. Partial: the volatility model needs high >= low on every bar; C41_refuted shows a buy filled below market when it fails, as neither the constructor nor the model checks it. Exact prices and share caps are given by C41_fixed_price, C41_volume_cap, C41_volatility_price."},
  {"property": "C42", "status": "partial", "theorems": ["C42_wellformed_accepted", "C42_accepted_parts", "C42_only_wellformed_partial", "C42_only_wellformed_refuted", "C42_format_roundtrip"], "note": "Well-formed strings are accepted with exactly their parts and seconds; the converse is proved for strings whose words are digits then letters. It fails in general: \"x1h\" and \"1h30m !\" are accepted (C42_only_wellformed_refuted)."},
  {"property": "C43", "status": "proved", "theorems": ["C43_lowv", "C43_highv", "C43_returns"], "note": "For every arithmetic whose order is total apart from NaN."},
  {"property": "C44", "status": "proved", "theorems": ["C44_sumv", "C44_returnv", "C44_cross"], "note": "Over exact rationals with NaN and infinities (no rounding). returnv is stated for finite prices."},
  {"property": "C45", "status": "partial", "theorems": ["C45_causal_windows", "C45_causal_strength", "C45_causal_macd", "C45_causal_trend", "C45_causal_price", "C45_causal_volume", "C45_causal_first_volume_partial", "C45_causal_adx_partial", "C45_causal_adx_refuted", "C45_range_documented", "C45_range_difference_partial", "C45_range_oscillators", "C45_range_refuted"], "note": "Causality holds for every arithmetic, except: adx gives 0 everywhere when there are fewer than 2*lookback bars in total (C45_causal_adx_refuted), so it is proved for data sets on the same side of that limit; price_volume_fit, volume_weighted_ma_ratio and the flow indicators with lookback 1 are proved once some bar has volume. Ranges are over exact arithmetic with exp, sqrt and log left open up to a few stated facts: the documented range holds except for delta_on_balance_volume and for macd with smoothing > 1, which leave it (C45_range_refuted) and stay within twice the range."},
  {"property": "C46", "status": "proved", "theorems": ["C46_cash", "C46_percent", "C46_range", "C46_market_value", "C46_bar_returns"], "note": "Exact rationals, no NaN. Also stated for the market values evaluate receives."},
  {"property": "C47", "status": "proved", "theorems": ["C47_agree", "C47_totals", "C47_rates", "C47_largest", "C47_streaks"], "note": "Exact rationals. Both the single pass and the separate functions are modelled; besides agreement every field is proved against its own definition."},
  {"property": "C48", "status": "proved", "theorems": ["C48_drawdown_bounds", "C48_quantile", "C48_bca_bounds", "C48_bca_ordered"], "note": "The index arithmetic is proved for every rounding of floats; the BCa levels are arbitrary numbers, the ordering of BCa bounds is for exact arithmetic."},
  {"property": "C49", "status": "partial", "theorems": ["C49_exact", "C49_unrealized_partial", "C49_unrealized_refuted"], "note": "C49_exact says what the metric is for every history. It equals the open positions' pnl when no interest is configured; otherwise interest is counted as unrealized pnl (refuted by a concrete run)."},
  {"property": "C50", "status": "partial", "theorems": ["C50_transparent_partial", "C50_get_partial", "C50_capacity", "C50_legacy_write_refuted", "C50_none_refuted", "C50_pop_refuted"], "note": "Proved for every history of get, set, delete, pop, del and clear with any failing disk write: same results and disk as the disk cache alone, and the capacity bound (also for interleavings). Partial: keys that are the repr of another key, and stored None values, are excluded; the refutations show why, and that pop of an entry in its earlier form loses it. Not modelled: diskcache's expiry and culling, and its methods that _L1Cache does not override (add, incr, touch, evict)."},
  {"property": "C51", "status": "partial", "theorems": ["C51_one_value_partial", "C51_alone_partial", "C51_refuted", "C51_delete_refuted"], "note": "Refuted in general: a reader racing a store or a delete leaves the old value in memory (C51_refuted, C51_delete_refuted). Proved: for write-once keys under every interleaving; and for any key when nobody else is on it during the store, whatever happens to other keys."},
  {"property": "C52", "status": "partial", "theorems": ["C52_rows_partial", "C52_same_as_uncached_partial", "C52_calls", "C52_no_second_fetch_partial", "C52_after_reset", "C52_failure_stores_nothing", "C52_only_requested_partial", "C52_columns", "C52_iterator_refuted", "C52_yfinance_refuted", "C52_auto_adjust_refuted"], "note": "Guarded by a vendor whose rows for a symbol are fixed and independent of the other symbols requested. Refuted without the guard: an iterator argument is empty when the query retries after clearing the cache; YFinance adds NaN rows that depend on the other symbols; auto_adjust is not in the cache key. Termination, calls, reset and failure theorems hold for every vendor."},
  {"property": "C53", "status": "proved", "theorems": ["C53_backtest_history"], "note": "The bridge from the portfolio theorems C01-C22 to every backtest."},
  {"property": "C54", "status": "proved", "theorems": ["C54_periods", "C54_calendar", "C54_months", "C54_ordered"], "note": "The day, month and year casts of numpy are modelled by the proleptic Gregorian calendar and proved against month lengths and the leap year rule."},
  {"property": "C55", "status": "proved", "theorems": ["C55_iqr", "C55_iqr_empty"]},
  {"property": "C56", "status": "partial", "theorems": ["C56_profit_factor", "C56_jackknife_partial", "C56_jackknife_refuted"], "note": "The leave-one-out values ignore the flat case: when the rest is all zero they give 1 where profit_factor gives 0 (refuted)."},
  {"property": "C57", "status": "proved", "theorems": ["C57_per_bar_predictions", "C57_per_bar_no_future", "C57_series_predictions"], "note": "predict is an arbitrary function of its input rows; a stateful predict is out of scope."},
  {"property": "C58", "status": "proved", "theorems": ["C58_store_from_frame", "C58_merge"], "note": "Rows move as a whole; the conversion of numeric columns to float64 is not modelled. lexsort is modelled as a stable sort."},
  {"property": "C59", "status": "proved", "theorems": ["C59_prediction_rows", "C59_prediction_defined", "C59_training_rows", "C59_training_defined", "C59_pooled_rows", "C59_pooled_defined"], "note": "Values are exact rationals or NaN; the compiled loops' out-of-range reads are a distinguished outcome shown not to occur. Intervals' lag caches follow the same functions with another key."},
  {"property": "C60", "status": "proved", "theorems": ["C60_prediction_causal", "C60_training_causal", "C60_pooled_causal"], "note": "Stated as equality of rows for histories that agree up to a date."},
  {"property": "C61", "status": "proved", "theorems": ["C61_kept", "C61_raises", "C61_warmup_bars"], "note": "The keep mask is modelled block by block; filtering of all parts by one mask is proved as equality of whole rows."},
  {"property": "C62", "status": "proved", "theorems": ["C62_rows", "C62_columns", "C62_column_order", "C62_any_order", "C62_missing_column", "C62_defined"], "note": "Requires each stored column to be as long as the symbol's ascending dates (C58)."},
  {"property": "C63", "status": "proved", "theorems": ["C63_by_date", "C63_defined", "C63_other_dates", "C63_symbol_frame", "C63_no_bars"], "note": "pandas' is_monotonic_increasing, get_indexer and numpy's searchsorted are modelled by their documented meaning."},
  {"property": "C64", "status": "proved", "theorems": ["C64_declared", "C64_candidates", "C64_fixed", "C64_long_decimals_never_end"], "note": "Decimals of a common scale are integers of that scale; decimal context rounding to 28 digits is modelled, and the theorems are guarded by `short`. C64_long_decimals_never_end shows why the guard is needed: it is a finding about the code."},
  {"property": "C65", "status": "proved", "theorems": ["C65_run_values", "C65_arguments"], "note": "Indicator arguments and run values."},
  {"property": "C66", "status": "proved", "theorems": ["C66_grid_workers", "C66_random_workers", "C66_recorded"], "note": "The worker pool is any order of evaluation covering the points; Optuna's study is the list of its trials."},
  {"property": "C67", "status": "proved", "theorems": ["C67_optimum", "C67_workers"], "note": "One window, fresh study, backtest that does not raise; the order Optuna gives the grid is any permutation."},
  {"property": "C68", "status": "partial", "theorems": ["C68_as_alone_partial", "C68_workers", "C68_memo_bounded", "C68_other_data_refuted", "C68_new_indicator_refuted"], "note": "Proved for every history in which runs that use the disk cache with the same dates, timeframe, times and days see the same indicators and bars (`steady`). Without that guard it is refuted by two executions of the model: IndicatorCacheKey has no data source, adjust flag, or indicator definition, so a later run on other bars, or with an indicator registered anew under the same name, is given the old series. Worker independence and the memo bound need no guard. Missing for the full statement: a code change (the key would have to name the data and the indicator)."},
  {"property": "C69", "status": "proved", "theorems": ["C69_members", "C69_frame"], "note": "For indicator names that are not interval-bound names (what IndicatorSet._names accepts)."},
  {"property": "C70", "status": "partial", "theorems": ["C70_as_trained_partial", "C70_uncached", "C70_workers", "C70_optimize", "C70_other_test_data_refuted", "C70_new_model_refuted"], "note": "Proved for every history in which windows with the same training dates, timeframe, times and days train a model on the same frames with the same source (C70_as_trained_partial), without guard when the model cache is off (C70_uncached), and for every worker schedule (C70_workers). Without the guard it is refuted: the cache key names neither test data, data before the window, nor the model's definition (C70_other_test_data_refuted, C70_new_model_refuted)."},
  {"property": "C71", "status": "partial", "theorems": ["C71_reported_partial", "C71_state_partial", "C71_prefix", "C71_memory", "C71_sessions", "C71_calendar_refuted"], "note": "Partial: proved when each symbol's next bar dates after T, as many as the longest delay, are the same in both data sets. Without that the code looks at the calendar: an order is entered only if its symbol has a later bar, and pending orders are visible to user functions (C71_calendar_refuted). Readers (indicators, predictions, fill prices, slippage) are arbitrary functions of the rows up to the bar; that the code's readers are such is C33, C36, C39, C41, C57, C60. User functions read and write a memory (sessions); the position size handler reads it but does not write it."},
  {"property": "C72", "status": "partial", "theorems": ["C72_resolve", "C72_resolve_order", "C72_boundary", "C72_boundary_returns", "C72_state_partial", "C72_reported_partial", "C72_lookahead_refuted", "C72_backdated_refuted"], "note": "Proved in full: resolution (iff), independence of the executions' order, the window boundary for every reachable state and any set order. Independence of later data is partial: proved when the next bar dates agree (see C71) and every symbol trading in a test window trades on its first date (state up to T), and for completed results when moreover every symbol trades in every test window. Both guards are needed: C72_lookahead_refuted (a dropped symbol whose first bar in the window is late is sold before the window's first bar at that later price) and C72_backdated_refuted (a dropped symbol that no longer trades is sold on a date before bars that were already recorded)."},
  {"property": "C73", "status": "partial", "theorems": ["C73_result", "C73_workers", "C73_limits", "C73_study_partial", "C73_once_partial", "C73_reported_partial", "C73_best", "C73_grid_extensional", "C73_calendar_refuted"], "note": "C73_result and C73_limits prove what is replayed, with which values and limits, and what is reported; C73_best the optimality of the values on the training window for the default sampler when no trial raises; C73_workers independence of the pool's schedule. Independence of later data is partial: the dates of the next bars must agree (C73_calendar_refuted: a bar after the training window changes the chosen value, because a trial's orders depend on whether their symbol trades again) and, for the stitched result, the markets must be aligned at the window boundaries as in C72."},
  {"property": "C74", "status": "proved", "theorems": ["C74_backtest", "C74_account", "C74_sent"]},
  {"property": "C75", "status": "partial", "theorems": ["C75_passive", "C75_rows_partial", "C75_only_captures", "C75_bars", "C75_pnl", "C75_market_value_refuted", "C75_pnl_realized_refuted"], "note": "Proved: recording is passive; one row per held symbol with a close; every column of a row; sums. The columns add up crosswise: net cash plus the positions' market values is the account's equity and net cash plus their equities its market value. Refuted: the sums under their own names once a short position is open (C75_market_value_refuted), and PortfolioBar.pnl as realized profit (C75_pnl_realized_refuted; C75_pnl says what it is)."},
  {"property": "C76", "status": "partial", "theorems": ["C76_log_partial", "C76_only_checks", "C76_fill_means_executed_refuted"], "note": "Proved for every check that returns. Refuted: a record may carry a fill price although the stop did not execute, when its limit rejected the fill (C76_fill_means_executed_refuted)."},
  {"property": "C77", "status": "partial", "theorems": ["C77_tables", "C77_shares", "C77_cents", "C77_metrics_partial", "C77_of_tables", "C77_train_only", "C77_win_rate_refuted", "C77_unrealized_refuted"], "note": "Tables: proved for every history of an account (label alignment of quantize included). Metrics: proved up to the rounding of the tables they are computed from (C77_metrics_partial gives the bounds: half a cent per value, n/2 cents for the total pnl of n trades, one cent for the drawdown; exact when round_test_result is off). The stronger reading, that the metrics are those of the account, is refuted with rounding on: C77_win_rate_refuted (every trade won, win rate 0) and C77_unrealized_refuted (unrealized pnl of one cent with nothing open). Ratio metrics (Sharpe, Sortino, ...) and the bootstrap are not in this model."},
  {"property": "C78", "status": "partial", "theorems": ["C78_bars", "C78_raises", "C78_distinct", "C78_source_partial", "C78_source_refuted", "C78_local_time_refuted", "C78_frame_kept_partial", "C78_frame_kept_refuted"], "note": "Proved for DataFrames (C78_bars, C78_raises, C78_distinct). For data sources the claim holds of those that answer with what they were asked for (C78_source_partial); a custom source that answers with other dates or symbols gets them into the run (C78_source_refuted). Two further findings: with time zone aware dates days and between_time are read in UTC and not on the clock the frame shows (C78_local_time_refuted), and with a symbol selector the time zone is taken off the user's own frame (C78_frame_kept_refuted; otherwise it is left alone, C78_frame_kept_partial). Parsing of time strings and start and end dates with a time zone are not modelled."},
  {"property": "C79", "status": "proved", "theorems": ["C79_window_data", "C79_no_lookahead", "C79_exit_dates"], "note": "The columns of a row are kept together as one column; their conversion to float64 is C35. Uses C30 for the split, C35 and C58 for slicing and building stores."},
  {"property": "C80", "status": "partial", "theorems": ["C80_per_bar", "C80_window", "C80_input", "C80_history", "C80_answers", "C80_beyond_window", "C80_no_lookahead_partial", "C80_no_lookahead_refuted", "C80_base_lookahead_refuted"], "note": "Partial because the last claim fails: input_data_fn is applied to all bars of the test window at once, so when it looks across rows a per-bar prediction depends on bars that are not complete yet, on an interval and on the base timeframe (C80_no_lookahead_refuted, C80_base_lookahead_refuted); it holds when input_data_fn does not look ahead (C80_no_lookahead_partial). The other clauses are proved in full: C80_per_bar, C80_window, C80_input, C80_history, C80_answers, C80_beyond_window."},
  {"property": "C81", "status": "partial", "theorems": ["C81_null", "C81_numbers", "C81_plain", "C81_strict_partial", "C81_strict_refuted", "C81_dict_partial", "C81_keys", "C81_dict_refuted", "C81_sets"], "note": "Refuted in two corners: a finite Decimal or np.longdouble of 2**1024 or more becomes an infinite float that strict json.dumps refuses (C81_strict_refuted), and dict keys that convert to equal keys, such as None and NaN, lose entries (C81_dict_refuted). The _partial theorems exclude these; C81_keys says for any keys exactly which entries are kept: one for each group of equal keys, at the place of the first with the value of the last. Rounding of finite numbers to doubles is left out; repr of converted values is an argument assumed injective for C81_sets."},
  {"property": "C82", "status": "partial", "theorems": ["C82_accepts", "C82_sections", "C82_tables", "C82_text_partial", "C82_text_refuted"], "note": "C82_text_partial excludes results holding a number too large for a double (C82_text_refuted). Mixed named/unnamed index levels are not modelled; the stops table is assumed to have a symbol column."},
  {"property": "C83", "status": "proved", "theorems": ["C83_rows", "C83_bars", "C83_accepts", "C83_refuses", "C83_no_leak"], "note": "Frames of a model bound to an interval for one symbol (the pooled variant is C84). Values are rationals with NaN; dates distinct and ascending; warnings not modelled."},
  {"property": "C84", "status": "proved", "theorems": ["C84_rows", "C84_accepts", "C84_refuses", "C84_order", "C84_no_leak"], "note": "Symbols are numbers in the order of their names; all symbols have the same columns, as in the code, where the bars come from one frame. With nothing to train on, the pooled input has no columns: C84_accepts states what the code does then (named lag columns are refused, otherwise the test rows get no lag features); C84_rows and C84_order exclude that case for the test frame."},
  {"property": "C85", "status": "proved", "theorems": ["C85_accepts", "C85_executions", "C85_window_accepts", "C85_intervals", "C85_interval_check", "C85_indicators", "C85_models", "C85_hyperparams"], "note": "Proved over every history. Errors of the compression itself, of model() other than the name check, and of unhashable symbols are left out. The guard plain_indicators (a model's indicators have names indicator() accepts) is used for the hyperparameter and interval-consistency parts: an Indicator object built directly with '@' in its name escapes validate_source_name."},
  {"property": "C86", "status": "partial", "theorems": ["C86_names", "C86_signals_partial", "C86_signals_refuted", "C86_windows"], "note": "The check at the start of a run covers the names the executions list, not the indicators of their models: C86_signals_partial assumes these, too, are named apart. C86_signals_refuted: a model's indicator named 'close' passes the check and its values replace the data in the 'close' column of the signals."},
  {"property": "C87", "status": "proved", "theorems": ["C87_computable", "C87_sharpe", "C87_sortino", "C87_order", "C87_scale", "C87_calmar", "C87_reported"], "note": "Over real numbers with NaN; rests on the standard library's axioms of the reals (DESIGN.md)."},
  {"property": "C88", "status": "proved", "theorems": ["C88_ulcer", "C88_upi", "C88_flawless"], "note": "Over real numbers with NaN; the rolling ulcer index (period given), which evaluate does not use, is not modelled."},
  {"property": "C89", "status": "partial", "theorems": ["C89_r_squared", "C89_annual_return_partial", "C89_annual_return_refuted", "C89_annual_return_edges", "C89_annual_gain_refuted"], "note": "The annual return is proved for a run that ends at 0 or above. C89_annual_return_refuted: for an account that ends below 0 it is NaN, unlike Calmar and UPI, which guard the same power; C89_annual_gain_refuted: when the exponent is an even number, it is a gain."},
  {"property": "C90", "status": "proved", "theorems": ["C90_config", "C90_settings", "C90_refuses", "C90_warns", "C90_refused_call", "C90_sizer", "C90_rotation_size", "C90_other_values", "C90_effective"], "note": "Setters as a history of calls with refused ones; int() reads finite numbers only (digit strings left out)."},
  {"property": "C91", "status": "proved", "theorems": ["C91_pos", "C91_positions", "C91_shorthands", "C91_account"], "note": "Iterators are read to their end before the account changes."},
  {"property": "C92", "status": "partial", "theorems": ["C92_statistics", "C92_shortcuts", "C92_profit_factor_partial", "C92_profit_factor_refuted", "C92_one_pass", "C92_refuses", "C92_bounds", "C92_bca", "C92_rescaled", "C92_drawdowns"], "note": "Proved over the reals, for every generator and every pair of functions in place of normal_cdf and inverse_normal_cdf. The shortcut for profit_factor is proved when, whichever bar is left out, another bar changes the equity (C92_profit_factor_partial); with a single loss its acceleration has the opposite sign of the general one (C92_profit_factor_refuted: the shortcut takes the profit factor of a flat rest as 1, profit_factor returns 0). The evaluation itself uses the logarithm, which has no exception. Where in the sorted values the BCa bounds lie is C48. Rounding of floats and NaN are not modelled."},
  {"property": "C93", "status": "partial", "theorems": ["C93_transparent", "C93_kept", "C93_elsewhere", "C93_kinds_apart", "C93_namespaces_apart_partial", "C93_namespaces_apart_refuted", "C93_off", "C93_clear_all", "C93_where", "C93_recorded_partial", "C93_recorded_refuted"], "note": "Proved for every history. Separation of namespaces is proved when neither contains a slash and refuted otherwise (C93_namespaces_apart_refuted): 'a' and 'a/' name one directory, and a namespace starting with a slash ignores the cache directory. Directories are compared as path strings; symbolic links and '..' are not resolved, so two strings may name one directory on disk. Clearing all is not atomic: caches before the first disabled one have been emptied when ValueError is raised (C93_clear_all). The recorded namespace is the one in use as long as every directory can be opened (C93_recorded_partial); when opening fails the new namespace is recorded while the old directory stays in use (C93_recorded_refuted)."},
  {"property": "C94", "status": "proved", "theorems": ["C94_steps", "C94_nothing_else", "C94_only_on_bars", "C94_flat_at_exit"], "note": "C94_steps pins the calls of each bar (StepSpec.bar_calls), C94_nothing_else says a run is only such bars, C94_only_on_bars and C94_flat_at_exit are the consequences for the account. Found by automatic mutation of the loop: swapping exit prices or dropping the has-a-bar guards was not caught before."},
  {"property": "C95", "status": "partial", "theorems": ["C95_attributes", "C95_absent", "C95_covers_before_sells_partial", "C95_covers_before_sells_refuted"], "note": "Proved for the bar an order is for (in the window it was placed in): it is not tried after a sell order. Refuted in general: a limit order set through cover_shares that is retried is taken with the plain buys, after the retried sells, because _pending_order_priority looks at exit_pos_type, which only cover_all_shares sets; the docs say such orders are placed before any sell orders."},
  {"property": "C96", "status": "proved", "theorems": ["C96_range", "C96_order", "C96_value", "C96_one_bin", "C96_shares_exist", "C96_one", "C96_zero", "C96_positive", "C96_shift"]},
  {"property": "C97", "status": "partial", "theorems": ["C97_law", "C97_cdf", "C97_inverse_symmetric", "C97_inverse_increasing_partial", "C97_inverse_increasing_refuted", "C97_inverse_bound"], "note": "The distance from the normal law, the range, monotonicity and symmetry of normal_cdf are proved for every real. inverse_normal_cdf is not increasing at 1/2: the approximation jumps from about +1e-7 at 1/2 to about -1e-7 just above it (refuted); it is proved increasing on each half and across a gap of 0.49 to 0.51. Real arithmetic, no rounding; the distance of inverse_normal_cdf from the exact quantile is not proved."},
  {"property": "C98", "status": "partial", "theorems": ["C98_nested_partial", "C98_ratios_partial", "C98_evaluate_partial", "C98_nested_refuted"], "note": "Proved for up to 30000 resamples (the default is 10000) with the code's own normal functions, for every data, statistic and generator: the acceleration is below 1/6 in absolute value and the bias quantile below 4, so the adjusted levels stay in order. Without the guard it is false: a million resamples of 64 bars, one of them bad, give a lower bound above the upper bound (C98_nested_refuted), because 1 - a * (z0 + z) becomes negative. Real arithmetic, no rounding."},
  {"property": "C99", "status": "partial", "theorems": ["C99_config", "C99_indicators", "C99_trainers", "C99_grid", "C99_random_partial", "C99_windows_partial", "C99_windows_refuted", "C99_random_refuted", "C99_nested"], "note": "Proved for indicators, model training and grid search in every accepted configuration. For random search and walkforward optimization only while results come as lists (or one batch is enough): set_parallel accepts a joblib pool with return_as=generator, but the walkforward optimization subscripts its results and raises TypeError (C99_windows_refuted), and random search calls the pool again before the end of the generator, which joblib documents as a RuntimeError (C99_random_refuted)."},
  {"property": "C100", "status": "proved", "theorems": ["C100_accepts", "C100_plan", "C100_warns"], "note": "The preparation of the data between the checks (dates, rows, hyperparameters, slippage, indicators, loaded models) is one flag. Spellings of the direction are classes. One sampler in two places is not modelled."},
  {"property": "C101", "status": "partial", "theorems": ["C101_seeds", "C101_named", "C101_apart", "C101_reproducible_partial", "C101_reproducible_refuted"], "note": "C101_reproducible_partial is for samplers whose generators are all exposed (optuna's LazyRandomState) and at most four samplers deep. C101_reproducible_refuted: the reseeding stops at the fourth level, so a sampler that is wrapped four times keeps its state and the same seed does not reproduce the search. Windows that run in parallel with a sampler that cannot be copied fail when pickled and are not modelled."},
  {"property": "C102", "status": "partial", "theorems": ["C102_twice", "C102_study", "C102_window", "C102_result", "C102_text_partial", "C102_text_refuted"], "note": "Holds. Refuted part (C102_text_refuted): a best parameter that is a finite Decimal of 2**1024 or more is converted only once and makes to_json_str raise."},
  {"property": "C103", "status": "partial", "theorems": ["C103_printed", "C103_order", "C103_never_lost_partial", "C103_never_beyond", "C103_two_bars_refuted", "C103_two_timers_refuted"], "note": "Interleavings of single accesses to the logger; the check before a print and the print are one step. Partial: without the guard the logger raises on some schedules (C103_two_bars_refuted, C103_two_timers_refuted: self._progress_bar and the start times are checked and then read again)."},
  {"property": "C104", "status": "partial", "theorems": ["C104_alpaca", "C104_alpaca_seconds", "C104_alpaca_none", "C104_periods", "C104_period_seconds", "C104_period_none", "C104_unsupported", "C104_same_length_refuted"], "note": "Partial: that timeframes of the same length are answered alike is refuted (C104_same_length_refuted: one week is supported by AKShare and YQuery, seven days are not, while the cache key has only the seconds, so 7d is answered or raises depending on what is cached). The rest is proved for every string; C104_alpaca and C104_periods are stated for well-formed timeframes (what else parse_timeframe accepts is C42), C104_alpaca_seconds and C104_period_seconds for every string. Checks inside alpaca-py are not modelled."},
  {"property": "C105", "status": "partial", "theorems": ["C105_rows", "C105_failure", "C105_answered", "C105_exchange_partial", "C105_exchange_refuted", "C105_own_bars_refuted"], "note": "Partial: the last sentence fails. C105_exchange_refuted: a symbol of the Beijing exchange is asked for in Shenzhen; C105_own_bars_refuted: symbols that differ only in the exchange are answered with the same rows by the first service. C105_exchange_partial is what holds of the second service. The rest is proved: C105_rows, C105_failure, C105_answered."},
  {"property": "C106", "status": "proved", "theorems": ["C106_rows", "C106_missing", "C106_as_in_C52"], "note": "Proved for every table. C106_as_in_C52 shows that the simpler model of YFinance used for C52 agrees with it. yfinance itself is outside the model."},
  {"property": "C107", "status": "partial", "theorems": ["C107_columns", "C107_refused_only_in_runs", "C107_unlocked", "C107_locked_partial", "C107_locked_refuted"], "note": "C107_locked_partial assumes that no run is started inside another run (by an execution, indicator or training function). Refuted otherwise: the end of the inner run unlocks the columns (the lock is a flag, not a count), so that a later register_columns changes the columns of the outer run while it is going on. Programs of one thread are modelled."},
  {"property": "C108", "status": "partial", "theorems": ["C108_called", "C108_present_partial", "C108_kept_refuted"], "note": "C108_called: which functions are called on which bar. C108_present_partial: every reading, through the contexts of the bar and by the account. What is missing is contexts a function keeps from an earlier bar: when their symbol has no bar now, foreign(symbol) still answers from the bar on which it was last asked, while foreign(symbol, col) is current: C108_kept_refuted. foreign() raises for a symbol that has had no bar in the window, or shows empty columns once the account has looked it up. Indicators, predictions and interval views are covered by C29, C35, C38-C40 and C91."},
  {"property": "C109", "status": "proved", "theorems": ["C109_aroon", "C109_stochastic", "C109_atr"], "note": "Over exact rationals (no rounding). The stochastic adds 1e-60 to the range, as the code does, so a close at the high shows a hair less than 50."},
  {"property": "C110", "status": "partial", "theorems": ["C110_training_frame", "C110_same_columns_partial", "C110_lag_columns", "C110_named_columns", "C110_lags_kept", "C110_pretrained", "C110_clash_refuted", "C110_pretrained_lags_refuted", "C110_interval_frame", "C110_interval", "C110_interval_named"], "note": "Refuted in part. validate_registered_names rejects an indicator named like a registered column, but a data frame may have columns that are not registered: with an indicator of the same name the model is trained on the column and predicts from the indicator (C110_clash_refuted). And a pretrained model's default lag columns depend on whether its load function names columns (C110_pretrained_lags_refuted). Proved when no indicator is named like a column of the data frame; on a compressed interval proved for trained models, for all registered names (C110_interval_frame, C110_interval, C110_interval_named)."},
  {"property": "C111", "status": "proved", "theorems": ["C111_figures", "C111_kept", "C111_bars"], "note": "The figures are those of the last priced bar: after a fill or a partial exit the equity, margin and PnL of a position describe the shares it had on that bar, not those it has."},
  {"property": "C112", "status": "proved", "theorems": ["C112_history", "C112_stops_checked", "C112_needs_prices", "C112_backtest", "C112_needs_slots"], "note": "Account level: any history with well-formed, usable stops and positive prices at stop checks ends in an account; check_stops always returns there (and raises when a due bar stop is priced at zero, C112_needs_prices). Backtest level: every loop-model run in a tame environment (positive prices, slippage within the order, clean signals for every reachable account) processes all bars, with or without rotation and with any sizer that keeps orders usable. C112_needs_slots: a rotation without any slot divides by zero, which the settings rule out (C90)."}
]}
