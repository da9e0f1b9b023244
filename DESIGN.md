# Formal model of edtechre/pybroker in Rocq

## 1. Layout

* `rocq/theories/Prelude.v` - numeric and association-list helpers.
* `*Model.v` - Gallina models of the code, one function per Python function, each citing
  file and lines of `/repo`. No proofs in these files.
* `*Spec.v` - small, independent specifications used in theorem statements.
* `*Proofs.v` - lemmas.
* `Prop*.v` - property theorems only, each closed by `exact lemma.` with
  `Print Assumptions` beneath, and an `Example` showing the hypotheses are satisfiable.

## 2. Modelling conventions

* `Decimal` and `float` values are exact rationals (`Q`); equality statements use `==`.
  The real code rounds `Decimal` to 28 digits and floats to 53 bits; conservation
  identities are therefore exact in the model and hold up to rounding in the code.
* NaN and missing values are `None` where the code distinguishes them.
* Python dictionaries are association lists in insertion order.
* Python objects that are shared by reference (an `Entry` referenced from a position and
  from a stop) are represented by the entry id, and looked up in the owning position.
* Exceptions are values. A function that can raise returns the state at the time of the
  raise, so exception safety can be stated (and refuted).
* User callbacks (fee function, slippage model, execution functions, fill price functions,
  models) are function arguments: theorems hold for all of them.
* Logging has no effect on the state and is not modelled.

## 3. Plan per property

| Id | Model | Proof |
|----|-------|-------|
| C01 | portfolio state machine, all public operations | invariant by induction over the history; interest in closed form from the captured bars |
| C02 | same | same invariant |
| C03 | same, order log | invariant |
| C04 | same | invariant |
| C05 | same | invariant |
| C06 | `buy`, `sell` | case analysis, for all states |
| C07 | `_sell_existing`, `_cover` | induction over the entry queue against a list specification |
| C08 | order and trade logs | invariant |
| C09 | portfolio | invariant for fee-free long-only accounts; counterexamples otherwise; exact bound on the overdraft of any unleveraged account (CashSpec.v, PortfolioCash.v) |
| C10 | `_clamp_shares` | inequality for monotone fee schedules; counterexample for flips, with a bound on how far they exceed the limit |
| C11 | portfolio | invariant |
| C12 | `_apply_interest` | algebra |
| C13 | `capture_bar` | identity from the C01/C02 invariant |
| C14 | `Position` marking, unmarked shares | invariant for FIFO histories; every prefix of a loop of bars (stops checked, orders filled, bar captured) meets its guard; so does every moment of a backtest of the loop model whose bars have closes (`FigureRun.v`); counterexample for stop exits outside the loop |
| C15 | `_trigger_*` | case analysis |
| C16 | `_trigger_trailing_stop` | fold over bars |
| C17 | `check_stops` | loop invariant |
| C18 | `_trigger_bar_stop`, `incr_bars` | loop invariant |
| C19 | `remove_stops` | induction; counterexample for two stops of one type; the guard is met at every moment of a backtest (`PropRemove.v`) |
| C20 | `exit_position` | from C07 |
| C21 | `buy`, `sell` raising | case analysis; counterexample for duplicate stop ids |
| C22 | `_calculate_pnl_mae_mfe`, exits | invariant |
| C23 | `PendingOrderScope` | invariant and refinement to a list of orders |
| C24 | `_schedule_order` | list/calendar reasoning |
| C25 | `_process_persistent_orders` | invariant over bars |
| C26 | `_attempt_pending_order` on top of the portfolio model | case analysis with C07 |
| C27 | score sorting | sorting specification (permutation, sorted, stable) |
| C28 | rotation functions; what becomes of the context a function left is specified in `TermSpec.v` | set reasoning over lists; a context is changed at most once (`TermProofs.v`) |
| C29 | sizing functions | arithmetic |
| C30 | `walkforward_split` | integer arithmetic over windows |
| C31 | `to_result`, `_get_stops` | case analysis |
| C32 | `set_exec_ctx_data` | record of all signal fields |
| C33 | `ColumnScope`, `IndicatorScope` | list prefixes |
| C34 | `_PerBarPredictions` | refinement to a list |
| C35 | `_sorted_dates_indices_njit`, slicing | induction on the merge |
| C36 | `_fetch_price_type`, `_round_float` | arithmetic |
| C37 | interval names | string lemmas |
| C38 | interval compression | list segmentation |
| C39 | completed index | list segmentation |
| C40 | `lookahead_train_dates` | index arithmetic |
| C41 | slippage models | arithmetic |
| C42 | `parse_timeframe` | grammar over ASCII strings |
| C43 | rolling min/max deque | loop invariant against window specification |
| C44 | rolling sum, returnv, cross | loop invariant |
| C45 | aroon, stochastic, flow, ... | causality as prefix independence |
| C46 | drawdown | fold invariant against specification over all pairs |
| C47 | trade statistics | fold invariant |
| C48 | drawdown confidence bounds | index arithmetic, sorted lists |
| C49 | evaluation metric on top of the portfolio model | from C13 |
| C50 | two-level cache, sequential | refinement to the disk map |
| C51 | two-level cache, interleavings | counterexample schedule |
| C52 | `DataSource.query` | refinement to the vendor function |
| C53 | the bar loop's account calls | run induction: the loop only issues calls the portfolio theorems cover |
| C54 | calendar and duration intervals | integer arithmetic on the civil calendar |
| C55 | interquartile range | order statistics over sorted lists |
| C56 | profit factor | fold against sums of gains and losses |
| C57 | `PredictionScope` | prefix independence |
| C58 | `store_from_flat` and the run's dates | permutation and sortedness |
| C59-C61 | `lag` features, warm-up | list positions per symbol |
| C62, C63 | pooled training frames, indicator merge | alignment by row, lookup by date, order of columns |
| C64 | `Hyperparam`, `_lattice_*` | integer lattice at a decimal scale, decimal context rounding modelled |
| C65 | `build_run_hyperparams`, `resolve_hyperparams` | association lists |
| C66 | grid and random trials, worker pool | schedule independence by induction on the schedule |
| C67 | `optimize` with the grid sampler | product enumeration, fold maximum |
| C68 | `compute_indicators` with disk cache, memo, workers, `optimize` scope; histories of runs | invariant on both caches over histories; both failing histories executed |
| C69 | `IndicatorSet` on a frame, with the array store and `compute_indicators` | offsets telescope over sorted symbols; C68's invariant |
| C70 | the models of a window: pooled groups, model cache, tasks, workers, loaders | invariant on the cache (every entry is a fit of an earlier window with that key) over histories; every model is found, missing, or in a group with a missing member |
| C71 | the bar loop fed from market data (rows per symbol), with user functions that remember | two runs in lock step, bar by bar: equal up to the logs of active symbols' ends; every read is of rows up to the bar's date, the next-bar dates excepted (refuted without them) |
| C72 | resolving executions with selectors; cancelling and exiting at a window's start; the run over train/test splits with a plan per window | resolution by induction on the executions; the boundary by refinement of the account's histories (C20 at each exit), for any iteration order; lock-step runs as in C71; look-ahead of late first bars and back-dated exits refuted |
| C73 | a trial as a backtest on the training window, the study of a window, the pool of windows, the stitched replay with a plan per window | the replay is a C72 run whose plans are the studies; trials are C71 runs stopped at the window's end; optimality from C67; limits by an invariant of the bar loop; the pool by induction on its schedule; dependence on the calendar refuted |
| C74 | the account of C01–C22 and the bar loop of C24–C26, as they are | whole share counts as an invariant of every account operation; the calls the bar loop makes ask for whole counts (invariant of the loop, with the account's invariant for exits); the count sent by the same induction as C24 |
| C75 | `capture_bar` again with the rows it appends (`position_bars`, `bars`) | erasure to the model of C13; rows as a function of the marked positions, sums through the capture lemma of C13 |
| C76 | `check_stops` and `_trigger_stop` again with `_capture_stop` | erasure to the model of C17–C19; invariant of the three loops over the ids still to visit |
| C77 | `quantize` with pandas' label alignment, the tables of `_to_test_result`, the sum, count and extreme metrics of `evaluate`, on the books of C75/C76 | columns are edited cell by cell (ids unique by C08); cells are nearest cents; share casts exact by C74; metric bounds by summing cell errors |
| C78 | `requested_bars`: the checks of `walkforward`, `_fetch_data`, `_reject_duplicate_bars`, `_filter_dates`, `_to_day_ids`, pandas' weekday and `between_time`, and what becomes of the user's frame | The rows are the filter by a predicate written with a reference Monday and a clock; arithmetic on days and microseconds; filters compose; the frame is followed through the copies. Refutations: a source that answers too much, time zones, the user's frame with a selector |
| C79 | `window_stores`, `run_stores`: `_build_window_stores` on the windows of `walkforward_split`; `exit_dates` | Dates of whole bars identify their rows; C30, C35 and C58 composed; the span between first training and last test date |
| C80 | `fetch_preds`, `fetch_input`, `_fetch_preds_per_bar`, `_prepare_full_input` of IntervalScope, `ModelInput` slices and warm-up; the caches as state | Invariant of the caches over all read histories (failing reads included), then the fresh answer bar by bar; two-run argument for bars outside the window and for bars not complete yet; refutation for `input_data_fn` that looks across rows |
| C81 | Python values as a tree of the types `_json_safe` tests for, in its order; converted JSON trees; dict keys with Python's equality; sets in iteration order; `repr` and `json.dumps` of keys are arguments | structural induction over values; the sort of comparable members is unique on a strict total order; two refutations (too large Decimal, colliding keys) |
| C82 | `TestResult.to_json` section by section over DataFrames as index names, column names and rows; `_filter_df_symbols`, `_dataframe_records`, `BootstrapResult.to_json` | exact success condition, the key set of the payload, and for each section the records of the first rows requested; strictness by composition with C81 |
| C83 | `_prepare_interval_symbol_data`, `build_compressed_symbol_arrays`, `slice_arrays_by_dates` (ITrainModel) on top of the compressed bars (IntervalModel) and lag features (LagModel) | the frames' rows are characterised by positions of compressed bars (composition of C40, C60, C61); two-run theorem for later base bars; acceptance by construction |
| C84 | `_prepare_pooled_interval_data`, `merge_interval_lag_series_cache`, `apply_lags_to_model_input_pooled` (IPoolModel) on top of C83's model | the sorted rows are the image of a list sorted by symbol and position, so rows, lag features (C60) and warm-up (C61) are characterised per symbol; order independence and the two-run theorem follow from uniqueness of sorted lists |
| C85 | `DeclareModel`: registrations, `add_execution` with its checks in order, the union and per-symbol intervals, `compress_intervals_from_frame`'s pairs, selector resolution, `_indicator_syms`, the models to train, `collect_hyperparams`, `build_run_hyperparams`, `ctx.interval`, `ctx.hyperparam`; names are real strings (TextModel) | invariant over histories (registered names have no '@', executions disjoint, each accepted call matched to its execution), then each prepared set characterised by membership in terms of the accepted calls' arguments; selectors resolve exactly on loaded, repeat-free, disjoint picks |
| C86 | `validate_registered_names` as a run calls it, `get_signals`, the concatenation of the windows' frames; names are strings, on top of the declarations of C85 | the check is characterised through C85; the frame is a sequence of dict assignments, functional because names are apart and `<m>_pred`, `<m>_pred_<i>` determine `m` and `i`. Not so of the indicators of models, which the check misses: refuted |
| C87 | Sharpe, downside deviation, Sortino, Calmar with the percentage drawdown, over the reals with NaN | sums over lists; a sum of squares that is 0; Sortino and Sharpe by the power-mean inequality; the drawdown loop against peaks by induction over the returns |
| C88 | the running ulcer index, UPI, what `_calc_eval_metrics` passes to them | the loop against peaks; compounded returns of positive market values are the values over the first |
| C89 | R-squared with `np.polyfit` as the least-squares line, total and annual return with `np.power` of negative bases | residuals of any line expanded around the means; powers of positive ratios; a NaN witness for the refutation |
| C90 | `_verify_config`, the three setters as a history of calls (refused calls leave the state), `_resolve_backtest_settings`, `_effective_config`, ending in the settings the rotation model uses | the value in effect is that of the last accepted call, by induction on the history from its end; acceptance as an equivalence |
| C91 | the account's part of the execution context: `pos`, `positions` and their shorthands, orders, trades, balances | from the invariants of every reachable account (C01-C04, C08); the net of the orders seen is defined separately |
| C92 | The bootstrap of eval.py over the reals: draws from an arbitrary generator, the BCa and drawdown bounds, the leave-one-out values, the three versions of `bca_boot_conf`, the shared pass and what `evaluate` reports (`BootModel.v`) | leave-one-out sums by algebra on the split list; the loops as maps over one list of drawn rows; sorted counts for the quantiles; the plain profit factor guarded (`_partial`) and refuted |
| C93 | The functions that switch, move and clear the three global caches, path joining, the scope's cache slots and the clients' operations on them (`SwitchModel.v`, on top of `CacheModel.v`) | simulation of the two-level caches by plain directories (`SwitchSpec.v`), by induction over the history; directories told apart by their last component; slashes refuted |
| C94 | The bar loop of C24-C28 (`LoopModel.v`); the calls of a bar and which symbols they concern are specified in `StepSpec.v` | each step of a bar extends the log of calls in the stated way (`LoopSteps.v`), by induction over bars and windows (`StepRun.v`); what the account records is dated by the calls (`StepDates.v`, induction over the calls) |
| C95 | The cover flag of contexts and results, the three schedules and the retry order over whole windows (LoopModel); `AttrModel.v`: the setters of the order attributes | Induction over the bars between creation and execution: every scheduled result belongs to an entered order of its schedule's side, stays scheduled until its date, and what is not pending after the cover phase is not tried later on the bar; partial, with a refutation on a concrete run for retried orders |
| C96 | `relative_entropy` over the reals, with any rounding of the operations that choose a bin (`EntropyModel.v`) | the histogram by induction over the values; Gibbs' inequality against equal shares; the bin of a value by the bounds of the integer part |
| C97 | `normal_cdf` and `inverse_normal_cdf` over the reals (`NormalModel.v`) | the slope of the distance to the law is the bell curve times a polynomial in t, bounded cell by cell by a verified check (`NormalPoly.v`, `NormalExact.v`); the mean value theorem carries the bound over four segments; monotonicity through derivatives and quotients; the jump at 1/2 by bounds of the exponential series |
| C98 | the bootstrap of C92 with the functions of C97 (`BootModel.v`, `NormalModel.v`) | the acceleration is below 1/6 because cubes are bounded by squares; quantiles of 1/30000 are below 4, so the levels are increasing (`BcaProofs.v`); positions in sorted values are monotone; `BcaMany.v` computes the counterexample beyond |
| C99 | `set_parallel` histories, the pool handed out, workers with scopes of their own and completion orders, and the five places that dispatch work (`PoolModel.v`); joblib as its documentation describes a pool | fields of the configuration follow the last accepted call by induction on the history; results in submission order are the tasks in the caller's scope for every schedule (`PoolProofs.v`); generators refute two places |
| C100 | `LaunchModel.v`: the checks of `optimize`, `_build_sampler`, the grid, direction and trial-count checks, the studies started for one or several windows. `LaunchSpec.v` says when a search may start. | Case analysis; induction over the windows with the invariant that the caller's sampler keeps its shape. |
| C101 | Samplers as trees with a generator each; `_reseed_sampler`, window seeds. | Induction over samplers (place by place), induction over windows for two runs side by side; deeper than four levels refuted. |
| C102 | `ExportModel.v`: `_study_summary`, `WindowOptimizeResult.to_json`, `OptimizeResult.to_json` on top of C81 and C82; studies as lists of trials, optuna's best trial as the first of the best completed ones | A converted tree is a fixed point of the conversion (strict, keys apart in every dict) by induction over trees; the best trial by induction over the trials; sorted entries by uniqueness of the sort. A too large best parameter: refuted. |
| C103 | `LogModel.v`: the state of `Logger`, `_suppress`, `_quiet_logging`, `_start_progress_bar`, `_update_progress_bar`, the timers and `__getstate__`, as a small-step semantics of threads and worker processes with a schedule | Invariants over all schedules: what is left to do fits the text of the programs at the count of its block; messages said and still to say are those of the program run alone; a bar or timer that was seen is still there. Refuted: two threads with bars or timers |
| C104 | `VendorModel.v`: `_parse_alpaca_timeframe` and the way a timeframe takes through `query` into the request; `_tf_to_period` of AKShare and YQuery. Strings and parsing are those of `TextModel.v` | The parts of a timeframe survive formatting and parsing again (C42); case analysis on the part. Refuted: timeframes of the same length answered alike |
| C105 | `VendorModel.v`: `_to_tx_symbol`, `_fetch_akshare_symbol`, the loop of `AKShare._fetch_data`, renaming, concatenation and selection of columns; the vendor and `to_datetime` are arguments | Induction over the symbols and over the rows; renaming is injective on a frame without duplicate columns, so a field comes from the one column that holds it. Refuted: bars of the symbol's own exchange |
| C106 | `YfinModel.v`: `YFinance._fetch_data` on a table that is not empty: `tile`, `repeat`, `concatenate` and the frame of the columns, for tables keyed by field or by field and symbol | Alignment by induction over the symbols with an offset into the concatenated columns; agreement with the model of C52 |
| C107 | `ColsModel.v`: the registry of data columns (register, unregister, the three views, freeze and unfreeze) and programs that use it, with a run as `before`, lock, `body`, unlock whatever happens | Invariant of the registry against the accepted requests, by induction over programs; runs that start no runs are blocks of events in which nothing changes. Refuted for runs inside runs |
| C108 | `ReadModel.v`: `_date_to_active_syms` (both paths), the beginning of a bar (end indexes, warm-up, `set_exec_ctx_data`, `reset_bar`), the readings of `ExecContext` with its `foreign` memo, and the price scope's `has_bar_on` and `fetch_bar_ohlc` with theirs. By induction over the bars: a symbol's end index is the number of its dates seen, which on a sorted calendar is the number of those up to the current date; within a bar, the memos of the contexts handed out hold only what would be computed now. Kept contexts are refuted. |
| C109 | `aroon`, `stochastic` and `atr` of `VectModel.v`, over the exact arithmetic of `VectExact.v` | `LevelSpec.v` states the indicators over rational prices. Aroon: invariant of the scan for the extreme. Stochastic: the rolling extremes are those of C43; invariant of the loop over the bars for the two smoothed values |
| C110 | `_model_input_columns`, the training frames, `_infer_input_cols`, `_lag_feature_cols`, `_parse_model_result`, pretrained models, `_resolve_lag_cols`, `ModelInputScope._fetch_model_input`, `prepare_input_data` and their compressed-interval counterparts (`build_compressed_symbol_arrays`, `_build_compressed_model_input`), on column names and column contents; rows abstracted (FeatModel) | lookup in the fetched dict is characterised, then the two column lists are shown equal as lists; refutations for an unregistered column named like an indicator and for the default lag columns of a pretrained model |
| C111 | The figures of an open position (`close`, `equity`, `market_value`, `margin`, `pnl`, `bars`) over histories of portfolio calls (PortfolioModel) | history invariant: the figures are those set at the last priced capture since the position was opened, zero before; every other call is shown to keep them |
| C112 | All account calls (PortfolioModel) and whole backtests (LoopModel): which executions end without an exception | invariant of the stop loops (registered stops exist, have a distance or bars; positive prices give positive fills), induction over histories, then totality of every part of the bar loop carried along C53's history invariant; rotation never fails and its contexts are clean, also after a sizer that keeps orders usable |

## 4. Trusted base

* Coq 8.16.1's kernel (`coqc`; `coqchk` re-checks the compiled files) and its standard
  library. The one other library used is Coquelicot, in `C97_example` alone, for the integral of
  the bell curve; it declares no axioms.
* `Print Assumptions` beneath every property theorem except those of C87-C89, C92 and C96-C98 says "Closed
  under the global context": it depends on no axiom. The theorems of C87-C89
  (`PropRatio.v`), C92 (`PropBoot.v`), C96 (`PropEntropy.v`), C97 (`PropNormal.v`) and C98 (`PropBca.v`) are about square roots, real powers, exponentials and logarithms and use the standard library's
  real numbers. For them `Print Assumptions` lists
  `ClassicalDedekindReals.sig_not_dec`, `ClassicalDedekindReals.sig_forall_dec`,
  `FunctionalExtensionality.functional_extensionality_dep`, and, where powers or logarithms occur
  (`C87_computable`, `C87_calmar`, `C88_upi`, `C88_flawless`, `C89_annual_return_*`, all of C92, all of C96 but `C96_one_bin` and `C96_shares_exist`, all of C97 and C98), `Classical_Prop.classic`.
  Nothing else is listed. Loading `Lqa` and ssreflect also pulls axioms of
  `Coq.Reals.Rdefinitions` and `Coq.ssr.ssrunder` into the *environment*; no theorem of
  ours uses those.
* No axiom, `Parameter`, `Admitted`, functor, module type or kernel switch is ours.
  `Variable`/`Context` occur only inside sections.
* That the model is the code: the models were written by reading `/repo`; nothing
  generates them from the source and they are not run against it.

### Modelled (the functions cited in the `*Model.v` files)

| File in `/repo/src/pybroker` | Modelled | Not modelled |
|---|---|---|
| `portfolio.py` | orders, positions, entries, stops, capture, margin, fees, interest, recorded rows and stop records | logging |
| `context.py` | sizing, `to_result`, signal fields, limits, the views of the account | string formatting, DataFrame views |
| `strategy.py` | `add_execution` and what a run prepares from it, the configuration check and the settings of a run, bar loop, its inputs from market data, pending orders, ranking and rotation, selection of the bars of a run, walk-forward windows and their data, symbol selection and exits at window boundaries, sessions (user memory), result tables, JSON export | model training calls (as callbacks) |
| `log.py` | switches, silenced blocks, progress bar and timers of the logger, per thread and process | wording of messages, times, drawing |
| `scope.py` | column, indicator and prediction scopes, predictions on intervals, price scope, pending order scope, stores, registered data columns and their lock, registration of indicators, models and hyperparameters | logging, progress bars |
| `interval.py`, `common.py` | interval names, compression, completed indices, timeframe parsing, dates, resolving executions, JSON values | time zones, locale |
| `slippage.py` | both slippage models | |
| `cache.py`, `data.py` | two-level cache, enabling, disabling and clearing, cached queries; timeframes of Alpaca and the reshaping of Yahoo's table | diskcache expiry and culling, the vendors' libraries, time zones |
| `ext/data.py` | AKShare's calls and frames, YQuery's timeframes | YQuery's selection of columns, the vendors' libraries |
| `eval.py` | drawdown, trade statistics, bounds, quartiles, profit factor, sums and counts of `evaluate`; over the reals, Sharpe, Sortino, Calmar, ulcer index, UPI, R-squared, annual return, relative entropy, the bootstrap with any generator | rolling ulcer index, the random generator itself (the normal distribution functions are arbitrary in C92 and the code's own in C98) |
| `vect.py` | rolling extrema, sums, returns, crosses and the listed indicators; over the reals, the normal distribution functions | |
| `model.py` | lag features, training frames, also on an interval; indicator merge; training, loading and caching of a window's models | what a fitted model computes |
| `optimize.py` | hyperparameters, the JSON of an optimization, grids, grid/random studies, best trial, checks of the arguments, building and reseeding of samplers, `optimize` on one window and on many (trials, studies per window, stitched replay) | Optuna's adaptive samplers, stored studies, pruners |
| `indicator.py` | see the rows above C64, and C68, C69 (lines 99–201, 232–746) | numba compilation, pickling of indicator functions |
| `parallel.py` | C99 | joblib itself, the filter on Ray's log messages |

Simplifications common to all: floats and decimals are exact rationals (except the decimal
context of C64, the explicit rounding of C36, and the real numbers of C87-C89, C92 and C96-C98); pandas and numpy primitives (`sort_values`,
`merge`, `concat`, `searchsorted`, ...) have their documented meaning; threads and processes
are interleavings of whole calls; memory exhaustion and interpreter errors do not occur.

### Where the code falls short of the property

A property the code violates keeps its statement in `properties.jsonl`; its theorems are
a guarded one (suffix `_partial`) and one named `_refuted`, which proves that a concrete
reachable state violates the unguarded statement. `MANIFEST.json` says what is missing.
