(** A backtest as a function of the market's data: how strategy.py 3050-3230
    ([_run_walkforward]) and 740-850 ([backtest_executions]) turn rows of data
    into the inputs of the bar loop. *)
From Verif Require Export LoopModel.

Section Market.
(** What the user's functions remember from bar to bar (sessions, closures). *)
Variable U : Type.
(** What is recorded of a symbol on one date: prices, volume, custom columns and
    the values of its indicators and predictions. *)
Variable R : Type.
(** The rows of every symbol, oldest first: [master_store] (strategy.py 3063-3073). *)
Definition market := sym -> list (Z * R).
Definition cal (m : market) (s : sym) : list Z := map fst (m s).
(** A test window: its first and last date (strategy.py 3086-3097). *)
Definition window := (Z * Z)%type.
Definition inside (w : window) (d : Z) : bool := Z.leb (fst w) d && Z.leb d (snd w).
(** The rows that are known at the close of date [d]. *)
Definition rows_until (syms : list sym) (d : Z) (m : market) : list (sym * list (Z * R)) :=
  map (fun s => (s, filter (fun r => Z.leb (fst r) d) (m s))) syms.

(** What the code and the user's functions look at on a bar: the window, the
    date and the rows up to it. That the readers of prices, columns, indicators,
    intervals and predictions look at nothing else is the subject of C33, C36,
    C39, C41, C57 and C60; here they are arbitrary functions of this view. *)
Record view : Type := mkView { w_window : window; w_date : Z; w_rows : list (sym * list (Z * R)) }.
Inductive slippage :=
| NoSlip
| FixedSlip (f : oside -> Q -> Q)
| AnySlip (f : view -> oside -> sym -> Q -> Q -> Q * Q).
(** Which bar is the last one that [exit_on_last_bar] exits on: [_build_exit_dates]
    is called with the whole data by walkforward (strategy.py 3074) and by the
    stitched replay of an optimization (optimize.py 2223), and with the window's
    rows by trials and by the test run of a single window (2069, 1824, 1855). *)
Inductive exit_rule := NoExit | LastOfData | LastOfWindow.
(** A configured strategy. *)
Record strategy : Type := mkStrategy {
  y_cfg : cfg;
  y_all : list sym;                           (* the symbols of the data *)
  y_syms : list sym;                          (* the executions' symbols *)
  y_buy_delay : nat; y_sell_delay : nat;
  y_sort_long : bool; y_sort_short : bool;
  y_warmup : nat;
  y_exit_last : exit_rule;                    (* exit_on_last_bar *)
  y_settings : settings;
  y_scope : view -> scope; y_bar : view -> bar_fn;
  y_fetch : view -> sym -> fill_spec -> fnum; y_close : view -> sym -> fnum;
  y_exit_fill : view -> sym -> Q * Q;
  y_slip : slippage; y_sm : view -> slip_model;
  y_init : U;
  y_user : U -> view -> port -> pscope -> ctxs -> uout;
  y_next : U -> view -> port -> pscope -> ctxs -> U;      (* what they remember after the bar *)
  y_sizer : option (U -> view -> port -> ctxs -> list (sym * nat) -> list (sym * nat) -> sym -> sig)
}.

(** [get_unique_sorted_dates] (common.py) and [unique_dates] (scope.py): insertion
    into an ascending list without repetition. *)
Fixpoint zinsert (x : Z) (l : list Z) : list Z :=
  match l with
  | [] => [x]
  | y :: r => if Z.ltb x y then x :: y :: r else if Z.eqb x y then y :: r else y :: zinsert x r
  end.
Definition unique_sorted (l : list Z) : list Z := fold_right zinsert [] l.

Section Env.
Variable y : strategy.
Variable m : market.
(** The dates of a symbol in a window and all the dates of the window, strategy.py 757-768. *)
Definition window_dates (w : window) (s : sym) : list Z := filter (inside w) (cal m s).
Definition all_dates (w : window) : list Z := unique_sorted (flat_map (window_dates w) (y_all y)).
(** strategy.py 3332-3358 [_build_exit_dates]. *)
Definition exit_date (w : window) (s : sym) : option Z :=
  match y_exit_last y with
  | NoExit => None
  | LastOfData => match rev (cal m s) with [] => None | d :: _ => Some d end
  | LastOfWindow => match rev (window_dates w s) with [] => None | d :: _ => Some d end
  end.
(** The view of bar [i] of a window; the loop's bar numbers are in range. *)
Definition view_of (w : window) (i : nat) : view :=
  let d := nth i (all_dates w) 0%Z in mkView w d (rows_until (y_all y) d m).
(** The inputs of one call of [backtest_executions] when the user's functions
    remember [f i] on bar [i]. Symbols without a row in the window are kept in
    [v_syms]; they have no date and are never active. *)
Definition env_of (w : window) (f : nat -> U) : env :=
  let at_ {A} (g : view -> A) (i : nat) : A := g (view_of w i) in
  mkEnv (y_cfg y) (all_dates w) (y_syms y) (window_dates w) (Some (cal m))
    (y_buy_delay y) (y_sell_delay y) (y_sort_long y) (y_sort_short y) (y_warmup y) (exit_date w) (y_settings y)
    (at_ (y_scope y)) (at_ (y_bar y)) (at_ (y_fetch y)) (at_ (y_close y)) (at_ (y_exit_fill y))
    (match y_slip y with NoSlip => SlipNone | FixedSlip g => SlipFixed g | AnySlip g => SlipAny (at_ g) end)
    (at_ (y_sm y)) (fun i _ => y_user y (f i) (view_of w i))
    (option_map (fun g i => g (f i) (view_of w i)) (y_sizer y)).
(** One bar, strategy.py 857-1047 ([bar] of LoopModel.v), and what is remembered
    of it. *)
Definition mbar (w : window) (i : nat) (d : Z) (st : bstate * U) : option (bstate * U) :=
  let '(b, u) := st in
  let v := env_of w (fun _ => u) in
  let '(ends, act, exits) := activate v d b in
  let b := set_ends ends b in
  let b := set_ctx (fold_left (fun l s => aset s (set_exec_ctx_data (match aget s l with Some g => g | None => no_signals end)) l) act (b_ctx b)) (b_stop b) b in
  match settle v i d b with
  | None => None
  | Some b2 =>
      let x := map (fun s => (s, match aget s (b_ctx b2) with Some g => g | None => no_signals end)) act in
      match decide v i d act exits b2 with
      | None => None
      | Some b3 => Some (b3, y_next y u (view_of w i) (b_port b2) (b_pend b2) x)
      end
  end.
Fixpoint mbars (w : window) (i : nat) (dates : list Z) (st : bstate * U) : option (bstate * U) :=
  match dates with
  | [] => Some st
  | d :: r => match mbar w i d st with None => None | Some st' => mbars w (S i) r st' end
  end.
Definition mstart (w : window) (st : bstate * U) : bstate * U := (start (env_of w (fun _ => snd st)) (fst st), snd st).
(** A run over the windows, strategy.py 3086-3230; the sessions are shared by all
    windows (3071). *)
Fixpoint mwindows (ws : list window) (st : bstate * U) : option (bstate * U) :=
  match ws with
  | [] => Some st
  | w :: r => match mbars w 0 (all_dates w) (mstart w st) with None => None | Some st' => mwindows r st' end
  end.
Definition market_run (ws : list window) : option (bstate * U) := mwindows ws (fresh (y_cfg y) 0, y_init y).
(** The same run stopped after the last bar not later than [T]. *)
Fixpoint muntil (T : Z) (ws : list window) (st : bstate * U) : option (bstate * U) :=
  match ws with
  | [] => Some st
  | w :: r => match mbars w 0 (filter (fun d => Z.leb d T) (all_dates w)) (mstart w st) with None => None | Some st' => muntil T r st' end
  end.
Definition market_run_until (T : Z) (ws : list window) : option (bstate * U) := muntil T ws (fresh (y_cfg y) 0, y_init y).
End Env.
End Market.
Arguments rows_until {R}. Arguments cal {R}. Arguments window_dates {R}. Arguments w_window {R}. Arguments w_date {R}. Arguments w_rows {R}.
Arguments NoSlip {R}. Arguments FixedSlip {R}. Arguments AnySlip {R}.
Arguments view_of {U R}. Arguments env_of {U R}. Arguments market_run {U R}. Arguments market_run_until {U R}. Arguments all_dates {U R}. Arguments exit_date {U R}. Arguments mbar {U R}. Arguments mbars {U R}. Arguments mstart {U R}. Arguments mwindows {U R}. Arguments muntil {U R}. Arguments y_cfg {U R}. Arguments y_syms {U R}. Arguments y_all {U R}. Arguments y_buy_delay {U R}. Arguments y_sell_delay {U R}. Arguments y_exit_last {U R}. Arguments y_scope {U R}. Arguments y_bar {U R}. Arguments y_fetch {U R}. Arguments y_close {U R}. Arguments y_exit_fill {U R}. Arguments y_slip {U R}. Arguments y_sm {U R}. Arguments y_user {U R}. Arguments y_sizer {U R}. Arguments y_sort_long {U R}. Arguments y_sort_short {U R}. Arguments y_warmup {U R}. Arguments y_settings {U R}. Arguments y_init {U R}. Arguments y_next {U R}.
