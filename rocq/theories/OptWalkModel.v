(** Optimizing hyperparameters window by window: optimize.py 1122-1178
    ([make_objective]), 1340-1456 ([_run_optimize_trial]), 1765-1995 ([optimize]
    with one window, [_run_optimize_test]) and 1996-2360 ([_optimize_walkforward]).

    Indicators are part of the rows or of the functions of a view (see
    MarketModel.v), so the invariant and the tuned ones (1458-1486) are not told
    apart here. Optuna's storage, pruners, a study given by the caller, logging
    and the bootstrap are left out. *)
From Verif Require Export SelectModel.
From Verif Require HyperModel.

(** The values of the hyperparameters of a run, and what may raise. *)
Definition values := HyperModel.params.
Notation ok := HyperModel.Ok.
Notation raised := HyperModel.Raise.

(** strategy.py 2084-2093 [_effective_config], and the caps given to [Portfolio] in
    optimize.py 1382-1389, 1915-1922 and 2188-2195. *)
Definition capped (c : cfg) (z : settings) : cfg :=
  mkCfg (c_cash c) (c_fee_mode c) (c_fee_amount c) (c_fractional c) (c_mode c) (z_max_long z) (z_max_short z) (c_leverage c) (c_rate c) (c_bpy c).

Section Optimize.
Variables U R : Type.
(** The symbols of the data, the order in which a set is iterated, the executions
    and the configuration. *)
Variable all : list sym.
Variable order : list sym -> list sym.
Variable execs : list (symbols R).
Variable base : cfg.
(** What the user's functions remember at the beginning of a run. *)
Variable nothing : U.
(** The strategy with given values, once the symbols are resolved and the models
    loaded from the training window (2104-2116, 2255-2267); [None] when
    [_resolve_backtest_settings] raises. Models are loaded by symbol and dates, not from the tuned
    indicators. *)
Variable build : trows R -> list (list sym) -> values -> option (strategy U R).
(** [score_fn] of the result of a trial: the account, the values and the rows of
    the training window. *)
Variable score_fn : values -> trows R -> port -> HyperModel.res HyperModel.score.
(** The study of a window given its objective: the trials, the best values over
    the defaults and their score (2134-2151). The seed depends on the window
    (2045-2046). *)
Variable search : window -> (values -> HyperModel.res HyperModel.score) -> HyperModel.res (list HyperModel.trial * (values * HyperModel.score)).

(** A run of a strategy from given caps and with a given last bar. *)
Definition as_run (c : cfg) (last : exit_rule) (y : strategy U R) : strategy U R :=
  mkStrategy U R c (y_all y) (y_syms y) (y_buy_delay y) (y_sell_delay y) (y_sort_long y) (y_sort_short y) (y_warmup y)
    (match y_exit_last y with NoExit => NoExit | _ => last end) (y_settings y) (y_scope y) (y_bar y) (y_fetch y) (y_close y) (y_exit_fill y) (y_slip y) (y_sm y)
    nothing (y_user y) (y_next y) (y_sizer y).
(** 1340-1456: a fresh account and fresh sessions, the caps of the values, the bars
    of the window. *)
Definition alone (m : market R) (w : window) (y : strategy U R) : option (bstate * U) :=
  market_run (as_run (capped base (y_settings y)) LastOfWindow y) m [w].
Definition objective (m : market R) (train : window) (ls : list (list sym)) (p : values) : HyperModel.res HyperModel.score :=
  let f := frame_of all train m in
  match build f ls p with
  | None => raised HyperModel.ValueErr
  | Some y => match alone m train y with None => raised HyperModel.UserErr | Some st => score_fn p f (b_port (fst st)) end
  end.

(** 2048-2170 [run_window_study]. *)
Record wresult := mkWresult { ws_syms : list (list sym); ws_study : list HyperModel.trial; ws_params : values; ws_score : HyperModel.score }.
Definition window_study (m : market R) (train : window) : HyperModel.res wresult :=
  match resolve (frame_of all train m) execs with
  | None => raised HyperModel.ValueErr
  | Some ls => HyperModel.bind (search train (objective m train ls)) (fun x => ok (mkWresult ls (fst x) (fst (snd x)) (snd (snd x))))
  end.
(** 2172-2180: the windows are studied by a pool of workers in the order [sched]. *)
Fixpoint pool_windows (m : market R) (splits : list wsplit) (sched : list nat) (slots : list (option wresult)) : HyperModel.res (list (option wresult)) :=
  match sched with
  | [] => ok slots
  | i :: r => match nth_error splits i with
              | None => pool_windows m splits r slots
              | Some (train, _) => HyperModel.bind (window_study m train) (fun x => pool_windows m splits r (HyperModel.write_slot slots i (Some x)))
              end
  end.
Definition studies (m : market R) (sched : list nat) (splits : list wsplit) : HyperModel.res (list wresult) :=
  HyperModel.bind (pool_windows m splits sched (map (fun _ => None) splits)) (fun slots =>
    match HyperModel.all_slots slots with Some l => ok l | None => raised HyperModel.UserErr end).

(** 1765-1875: one window: the winner is run on the test rows from a fresh account. *)
Definition optimize_once (m : market R) (train test : window) : HyperModel.res (wresult * (bstate * U)) :=
  HyperModel.bind (window_study m train) (fun r =>
    match build (frame_of all train m) (ws_syms r) (ws_params r) with
    | None => raised HyperModel.ValueErr
    | Some y => match alone m test y with None => raised HyperModel.UserErr | Some st => ok (r, st) end
    end).

(** 2229-2345: the strategy a window is replayed with: the selection and the values
    of its study; only the last bar of the data is an exit. *)
Definition replay (c : cfg) (m : market R) (train : window) (r : wresult) : option (strategy U R) :=
  option_map (as_run c LastOfData) (build (frame_of all train m) (ws_syms r) (ws_params r)).
(** 2182-2199: the account has the caps of the first window's values. *)
Definition replay_cfg (m : market R) (train : window) (r : wresult) : option cfg :=
  option_map (fun y => capped base (y_settings y)) (build (frame_of all train m) (ws_syms r) (ws_params r)).
Fixpoint replay_windows (c : cfg) (m : market R) (splits : list wsplit) (rs : list wresult) (st : bstate * U) : option (bstate * U) :=
  match splits, rs with
  | (train, w) :: splits, r :: rs =>
      match replay c m train r with
      | None => None
      | Some y => match one_window order true m None y w st with None => None | Some st' => replay_windows c m splits rs st' end
      end
  | _, _ => Some st
  end.
(** 1996-2360: the result: the windows' results, the values and the score of the
    last one, and the stitched account. *)
Record oresult := mkOresult { q_windows : list wresult; q_params : values; q_score : HyperModel.score; q_run : bstate * U }.
Definition optimize_windows (m : market R) (sched : list nat) (splits : list wsplit) : HyperModel.res oresult :=
  HyperModel.bind (studies m sched splits) (fun rs =>
    match splits, rs with
    | (train, _) :: _, r0 :: rest =>
        match replay_cfg m train r0 with
        | None => raised HyperModel.ValueErr
        | Some c =>
            match replay_windows c m splits rs (fresh c 0, nothing) with
            | None => raised HyperModel.UserErr
            | Some st => let r := last rs r0 in ok (mkOresult rs (ws_params r) (ws_score r) st)
            end
        end
    | _, _ => raised HyperModel.ValueErr
    end).
End Optimize.
Arguments as_run {U R}. Arguments alone {U R}. Arguments objective {U R}. Arguments window_study {U R}. Arguments pool_windows {U R}. Arguments studies {U R}. Arguments optimize_once {U R}.
Arguments replay {U R}. Arguments replay_cfg {U R}. Arguments replay_windows {U R}. Arguments optimize_windows {U R}. Arguments q_windows {U}. Arguments q_params {U}. Arguments q_score {U}. Arguments q_run {U}. Arguments mkOresult {U}.

(** The default sampler (HyperModel.v [optimize_grid]); [shuffle] depends on the
    window's seed. Out of fuel: the iteration over the candidates has not ended. *)
Definition grid_search (scale fuel : nat) (maximize : bool) (specs : list (nat * HyperModel.hyper)) (n_trials : option nat) (shuffle : window -> list values -> list values)
    (workers : nat) (sched : nat -> list nat) (train : window) (f : values -> HyperModel.res HyperModel.score) : HyperModel.res (list HyperModel.trial * (values * HyperModel.score)) :=
  match HyperModel.optimize_grid scale fuel maximize specs n_trials (shuffle train) workers sched f with
  | ok (Some x) => ok x
  | ok None => raised HyperModel.UserErr
  | raised e => raised e
  end.
