(** Model of the bar loop, [BacktestMixin.backtest_executions] and its helpers,
    strategy.py 686-1530. One call backtests one window: the portfolio, the
    pending orders and the stop counter come in and go out. *)
From Verif Require Export RotationModel.

(** Schedules: dicts from dates to lists, strategy.py 843-845. *)
Definition sched := list (Z * list result).
Fixpoint zget (d : Z) (l : sched) : list result :=
  match l with [] => [] | (d', v) :: r => if Z.eqb d d' then v else zget d r end.
Fixpoint zset (d : Z) (v : list result) (l : sched) : sched :=
  match l with [] => [(d, v)] | (d', v') :: r => if Z.eqb d d' then (d, v) :: r else (d', v') :: zset d v r end.
Fixpoint zdel (d : Z) (l : sched) : sched :=
  match l with [] => [] | (d', v) :: r => if Z.eqb d d' then r else (d', v) :: zdel d r end.
Fixpoint zhas (d : Z) (l : sched) : bool :=
  match l with [] => false | (d', _) :: r => Z.eqb d d' || zhas d r end.

(** Slippage of a scheduled order, strategy.py 1463-1490: none, the fixed model's
    price adjustment, or any model's shares and price (by bar number). *)
Inductive slip :=
| SlipNone
| SlipFixed (f : oside -> Q -> Q)
| SlipAny (f : nat -> oside -> sym -> Q -> Q -> Q * Q).

(** What an execution function may do besides setting attributes: cancel pending
    orders (context.py 1275-1283) and stops (1285-1302). *)
Inductive cancel := CanOrder (i : nat) | CanOrders (s : option sym) | CanStop (i : nat) | CanStops (v : rm_target) (t : option stop_type).
Record uout : Type := mkUout { u_cancel : list cancel; u_sigs : sym -> sig }.

(** The inputs of [backtest_executions]. Functions indexed by a bar number stand
    for the data of that bar: [v_scope] and [v_bar] are what [check_stops] and
    [capture_bar] read, [v_fetch] is [PriceScope.fetch] of an order's fill price
    ([None]: not finite), [v_close] the current close and [v_exit_fill] the
    (buy, sell) prices of an exit date. [v_user] is everything the user's
    before/exec/after functions do on a bar, given the account, the pending
    orders and the reset contexts; [v_sizer] is the rotation sizer. All of them
    are arbitrary. *)
Record env : Type := mkEnv {
  v_cfg : cfg;
  v_dates : list Z;                       (* test_dates, 767-772 *)
  v_syms : list sym;                      (* keys of exec_ctxs, 801-831 *)
  v_sdates : sym -> list Z;               (* the window's own dates of a symbol *)
  v_master : option (sym -> list Z);      (* master_col_scope *)
  v_buy_delay : nat; v_sell_delay : nat;
  v_sort_long : bool; v_sort_short : bool;   (* max positions configured, 880-890 *)
  v_warmup : nat;                         (* 0: no warmup *)
  v_exit_dates : sym -> option Z;
  v_settings : settings;
  v_scope : nat -> scope; v_bar : nat -> bar_fn;
  v_fetch : nat -> sym -> fill_spec -> fnum; v_close : nat -> sym -> fnum;
  v_exit_fill : nat -> sym -> Q * Q;
  v_slip : slip; v_sm : nat -> slip_model;
  v_user : nat -> Z -> port -> pscope -> ctxs -> uout;
  v_sizer : option (nat -> port -> ctxs -> list (sym * nat) -> list (sym * nat) -> sym -> sig)
}.

(** The state of the loop. [b_ops], [b_kops] and [b_att] are ghost logs that
    nothing reads: the portfolio and registry calls made so far and the
    attempts (order id, date, filled). An attempt that fills nothing does not
    touch the order's stops; it is logged without them ([unstopped]), so that
    the stops of the log are those handed to the account. *)
Definition unstopped (a : oargs) : oargs :=
  mkOArgs (a_date a) (a_sym a) (a_shares a) (a_fill a) (a_limit a) None (a_created a) (a_otype a) (a_market a).
Record bstate : Type := mkB {
  b_port : port; b_pend : pscope; b_cover : sched; b_buy : sched; b_sell : sched;
  b_ends : list (sym * nat); b_ctx : ctxs; b_stop : nat;
  b_ops : list op; b_kops : list kop; b_att : list (nat * Z * bool)
}.
Definition set_port (p : port) (o : op) (b : bstate) : bstate :=
  mkB p (b_pend b) (b_cover b) (b_buy b) (b_sell b) (b_ends b) (b_ctx b) (b_stop b) (b_ops b ++ [o]) (b_kops b) (b_att b).
Definition set_pend (k : kop) (b : bstate) : bstate :=
  mkB (b_port b) (kstep (b_pend b) k) (b_cover b) (b_buy b) (b_sell b) (b_ends b) (b_ctx b) (b_stop b) (b_ops b) (b_kops b ++ [k]) (b_att b).
Definition log_att (i : nat) (d : Z) (f : bool) (b : bstate) : bstate :=
  mkB (b_port b) (b_pend b) (b_cover b) (b_buy b) (b_sell b) (b_ends b) (b_ctx b) (b_stop b) (b_ops b) (b_kops b) (b_att b ++ [(i, d, f)]).
Definition set_ctx (x : ctxs) (n : nat) (b : bstate) : bstate :=
  mkB (b_port b) (b_pend b) (b_cover b) (b_buy b) (b_sell b) (b_ends b) x n (b_ops b) (b_kops b) (b_att b).
Definition set_ends (e : list (sym * nat)) (b : bstate) : bstate :=
  mkB (b_port b) (b_pend b) (b_cover b) (b_buy b) (b_sell b) e (b_ctx b) (b_stop b) (b_ops b) (b_kops b) (b_att b).
(** The three schedules. *)
Inductive which := WCover | WBuy | WSell.
Definition get_sched (w : which) (b : bstate) : sched :=
  match w with WCover => b_cover b | WBuy => b_buy b | WSell => b_sell b end.
Definition set_sched (w : which) (x : sched) (b : bstate) : bstate :=
  mkB (b_port b) (b_pend b)
    (match w with WCover => x | _ => b_cover b end)
    (match w with WBuy => x | _ => b_buy b end)
    (match w with WSell => x | _ => b_sell b end)
    (b_ends b) (b_ctx b) (b_stop b) (b_ops b) (b_kops b) (b_att b).

Section Loop.
Variable v : env.

(** Any exception of the portfolio ends the backtest ([None]). *)
Definition do_op (o : op) (b : bstate) : option bstate :=
  match step (v_cfg v) o (b_port b) with
  | Ret p _ => Some (set_port p o b)
  | Raise _ _ => None
  end.
Definition end_of (b : bstate) (s : sym) : nat := match aget s (b_ends b) with Some n => n | None => 0 end.

(** scope.py 2276-2285 [_has_bar_on]. *)
Definition has_bar_on (b : bstate) (s : sym) (d : Z) : bool :=
  let e := end_of b s in
  let arr := v_sdates v s in
  if Nat.eqb e 0 then false
  else match arr with
       | [] => false
       | _ => match nth_error arr (Nat.min e (length arr) - 1) with Some x => Z.eqb x d | None => false end
       end.
(** What [check_stops] and [capture_bar] read on this bar: symbols without a bar
    on the date have no price ([_can_price_stops], scope.py 2386-2411). *)
Definition scope_on (b : bstate) (i : nat) (d : Z) : scope :=
  mkScope (fun s => has_bar_on b s d && sc_can_price (v_scope v i) s) (sc_price (v_scope v i)) (sc_fetch (v_scope v i)).
Definition bar_on (b : bstate) (i : nat) (d : Z) : bar_fn :=
  fun s => if has_bar_on b s d then v_bar v i s else None.

(** strategy.py 1520-1530 [_get_shares]. *)
Definition get_shares (q : Q) : Q := if c_fractional (v_cfg v) then q else inject_Z (Qtrunc q).

(** strategy.py 1425-1450: clamping an exit order to what is held; [None] when
    nothing is. *)
Definition clamp_exit (p : port) (n : pending) (shares : Q) : option Q :=
  match n_exit n with
  | None => Some shares
  | Some sd =>
      let held := match aget (n_sym n) (poss sd p) with Some pos => ps_shares pos | None => 0 end in
      let shares := if Qltb held shares then held else shares in
      if Qle_bool shares 0 then None else Some shares
  end.
(** strategy.py 1455-1490; [None] is the ValueError of a model that returns more
    shares than ordered or fewer than none. *)
Definition apply_slip (i : nat) (n : pending) (shares price : Q) : option (Q * Q) :=
  match v_slip v with
  | SlipNone => Some (shares, price)
  | SlipFixed f => Some (shares, f (n_type n) price)
  | SlipAny f =>
      let '(sh, pr) := f i (n_type n) (n_sym n) shares price in
      if Qltb sh 0 || Qltb shares sh then None else Some (get_shares sh, pr)
  end.
(** strategy.py 1404-1518 [_attempt_pending_order]; the flag says whether an order
    was filled. *)
Definition attempt (i : nat) (d : Z) (n : pending) (b : bstate) : option (bstate * bool) :=
  let shares := get_shares (n_shares n) in
  match v_fetch v i (n_sym n) (n_fill n) with
  | None => Some (log_att (n_id n) d false b, false)
  | Some price =>
      match clamp_exit (b_port b) n shares with
      | None => Some (log_att (n_id n) d false b, false)
      | Some shares =>
          match apply_slip i n shares price with
          | None => None
          | Some (shares, fill) =>
              let a := mkOArgs d (n_sym n) shares fill (n_limit n) (n_stops n) (Some (n_created n))
                         (match n_limit n with Some _ => OLimit | None => OMarket end) (Some price) in
              let o a := match n_type n with OBuy => OpBuy a | OSell => OpSell a end in
              let r := match n_type n with OBuy => buy (v_cfg v) a (b_port b) | OSell => sell (v_cfg v) a (b_port b) end in
              match r with
              | Raise _ _ => None
              | Ret p x => let f := given x in
                           Some (log_att (n_id n) d f (set_port p (o (if f then a else unstopped a)) b), f)
              end
          end
      end
  end.
(** strategy.py 211-213 [_is_persistent_limit]. *)
Definition is_persistent_limit (n : pending) : bool := given (n_limit n) && given (n_timeout n).

(** strategy.py 1226-1236, 1284-1294, 1398-1402: attempt, then remove unless it
    is an unfilled persistent limit order. *)
Definition attempt_and_settle (i : nat) (d : Z) (n : pending) (b : bstate) : option bstate :=
  match attempt i d n (set_pend (KMark (n_id n)) b) with
  | None => None
  | Some (b', f) => Some (if f || negb (is_persistent_limit n) then set_pend (KRemove (n_id n)) b' else b')
  end.

(** strategy.py 1182-1238 [_place_buy_orders] and 1240-1296 [_place_sell_orders]
    for one scheduled result. *)
Definition place1 (i : nat) (d : Z) (w : which) (st : option bstate) (r : result) : option bstate :=
  match st with
  | None => None
  | Some b =>
      if negb (given (match w with WSell => r_sell r | _ => r_buy r end)) then Some b
      else match r_pid r with
           | None => Some b
           | Some id =>
               if negb (contains id (b_pend b)) then Some b
               else match get id (b_pend b) with
                    | None => Some b
                    | Some n => attempt_and_settle i d n b
                    end
           end
  end.
Definition place_orders (i : nat) (d : Z) (w : which) (b : bstate) : option bstate :=
  match fold_left (place1 i d w) (zget d (get_sched w b)) (Some b) with
  | None => None
  | Some b' => Some (set_sched w (zdel d (get_sched w b')) b')
  end.

(** strategy.py 391-405 [_pending_order_priority]. *)
Definition priority (n : pending) : nat :=
  match n_type n with
  | OBuy => match n_exit n with Some Short => 0 | _ => 2 end
  | OSell => 1
  end.
Definition priority_leb (a b : pending) : bool :=
  Nat.ltb (priority a) (priority b) || (Nat.eqb (priority a) (priority b) && Nat.leb (n_id a) (n_id b)).
(** strategy.py 1313-1402: one order of [_process_persistent_orders]. *)
Definition persist1 (i : nat) (d : Z) (st : option bstate) (n : pending) : option bstate :=
  match st with
  | None => None
  | Some b =>
      let first := negb (was_attempted (n_id n) (b_pend b)) in
      if Z.ltb d (n_exec n) then Some b
      else if Z.eqb (n_exec n) d && negb first then Some b
      else if negb (has_bar_on b (n_sym n) d) then Some b
      else if first then attempt_and_settle i d n b
      else match n_timeout n with
           | None => Some b
           | Some t =>
               let b := set_pend (KAdvance (n_id n)) b in
               if Z.leb 0 t && Z.ltb t (Z.of_nat (retry_bars (n_id n) (b_pend b)))
               then Some (set_pend (KRemove (n_id n)) b)
               else attempt_and_settle i d n b
           end
  end.
(** strategy.py 1298-1402 [_process_persistent_orders]. *)
Definition process_persistent (i : nat) (d : Z) (b : bstate) : option bstate :=
  if has_orders (b_pend b)
  then fold_left (persist1 i d) (isort priority_leb (orders None None (b_pend b))) (Some b)
  else Some b.

(** [np.searchsorted(l, x)] on an ascending array. *)
Fixpoint searchsorted (l : list Z) (x : Z) : nat :=
  match l with [] => 0 | y :: r => if Z.ltb y x then S (searchsorted r x) else 0 end.
(** strategy.py 1161-1180 [_next_master_date]. *)
Definition next_master_date (dates : list Z) (cur : Z) (delay : nat) : option Z :=
  let loc := searchsorted dates cur in
  match nth_error dates loc with
  | None => None
  | Some x => if Z.eqb x cur then nth_error dates (loc + delay) else None
  end.
(** strategy.py 1099-1118: the execution date and whether it is in the window. *)
Definition exec_date (s : sym) (e delay : nat) : option (Z * bool) :=
  let dates := v_sdates v s in
  match nth_error dates (e - 1 + delay) with
  | Some x => Some (x, true)
  | None =>
      match v_master v with
      | None => None
      | Some m => match nth_error dates (e - 1) with
                  | None => None           (* not reached: e is the symbol's current bar *)
                  | Some cur => option_map (fun x => (x, false)) (next_master_date (m s) cur delay)
                  end
      end
  end.
(** strategy.py 1084-1158 [_schedule_order]. *)
Definition to_add (r : result) (created date : Z) (bar : nat) : option padd :=
  let stops l := match l with Some [] => None | _ => l end in
  match r_buy r, r_sell r with
  | Some q, _ => Some (mkPadd OBuy (r_sym r) created date q (r_blimit r) (r_bfill r) bar (r_btimeout r) (stops (r_lstops r)) (r_exit r))
  | None, Some q => Some (mkPadd OSell (r_sym r) created date q (r_slimit r) (r_sfill r) bar (r_stimeout r) (stops (r_sstops r)) (r_exit r))
  | None, None => None
  end.
Definition schedule_order (created : Z) (delay : nat) (w : which) (st : option bstate) (r : result) : option bstate :=
  match st with
  | None => None
  | Some b =>
      match exec_date (r_sym r) (end_of b (r_sym r)) delay with
      | None => Some b
      | Some (date, in_window) =>
          match to_add r created date (end_of b (r_sym r) + delay) with
          | None => None
          | Some a =>
              let id := snd (add a (b_pend b)) in
              let b := set_pend (KAdd a) b in
              Some (if in_window then set_sched w (zset date (zget date (get_sched w b) ++ [set_pid id r]) (get_sched w b)) b else b)
          end
      end
  end.

(** strategy.py 140-158, 862-880: the symbols with a bar on the date advance;
    past the warmup they become active, their context is reset, and those whose
    exit date it is are remembered. The state is (ends, active, exits). *)
Definition activate1 (d : Z) (st : list (sym * nat) * list sym * list sym) (s : sym) : list (sym * nat) * list sym * list sym :=
  let '(ends, act, exits) := st in
  let e := S (match aget s ends with Some n => n | None => 0 end) in
  let ends := aset s e ends in
  if negb (Nat.eqb (v_warmup v) 0) && Nat.leb e (v_warmup v) then (ends, act, exits)
  else (ends, act ++ [s],
        if match v_exit_dates v s with Some x => Z.eqb d x | None => false end then exits ++ [s] else exits).
Definition trades_on (d : Z) (s : sym) : bool := existsb (Z.eqb d) (v_sdates v s).
Definition activate (d : Z) (b : bstate) : list (sym * nat) * list sym * list sym :=
  fold_left (activate1 d) (filter (trades_on d) (v_syms v)) (b_ends b, [], []).

(** strategy.py 881-896: the schedules of the date are sorted by score when the
    corresponding position limit is configured. *)
Definition sort_sched (w : which) (f : result -> key) (d : Z) (b : bstate) : bstate :=
  if zhas d (get_sched w b) then set_sched w (zset d (sort_desc f (zget d (get_sched w b))) (get_sched w b)) b else b.
Definition sort_scheds (d : Z) (b : bstate) : bstate :=
  let b := if v_sort_long v then sort_sched WBuy buy_key d (sort_sched WCover buy_key d b) else b in
  if v_sort_short v then sort_sched WSell sell_key d b else b.

Definition place_if (w : which) (now : bool) (i : nat) (d : Z) (st : option bstate) : option bstate :=
  match st with
  | None => None
  | Some b => if now then place_orders i d w b else Some b
  end.
Definition bind (st : option bstate) (f : bstate -> option bstate) : option bstate :=
  match st with None => None | Some b => f b end.

(** The user's cancellations. *)
Definition do_cancel (st : option bstate) (x : cancel) : option bstate :=
  bind st (fun b =>
    match x with
    | CanOrder i => Some (set_pend (KRemove i) b)
    | CanOrders s => Some (set_pend (KRemoveAll s) b)
    | CanStop i => do_op (OpRemoveStop i) b
    | CanStops t ty => do_op (OpRemoveStops t ty) b
    end).
(** strategy.py 968-990: rotation. *)
Definition rotate (i : nat) (b : bstate) (x : ctxs) : option ctxs :=
  match z_worst (v_settings v) with
  | None => Some x
  | Some w =>
      match apply_worst_rank_held (v_cfg v) (b_port b) (b_pend b) (v_close v i) (v_settings v) w (reset_rotation_orders x) with
      | None => None
      | Some (x, lr, sr) =>
          let x := match v_sizer v, x with
                   | Some f, _ :: _ => map (fun kv => (fst kv, f i (b_port b) x lr sr (fst kv))) x
                   | _, _ => x
                   end in
          Some (clear_unused_rotation_signals x)
      end
  end.
(** strategy.py 991-1001: the results of the active contexts, split into covers,
    buys and sells; [None] when one raises. *)
Definition collect1 (d : Z) (st : option (list result * list result * list result * nat)) (kv : sym * sig)
    : option (list result * list result * list result * nat) :=
  match st with
  | None => None
  | Some (cs, bs, ss, n) =>
      match to_result (fst kv) d (given (z_worst (v_settings v))) (snd kv) n with
      | ORaise => None
      | ONone => Some (cs, bs, ss, n)
      | OResult r n' =>
          let '(cs, bs) := if given (r_buy r) then (if r_cover r then (cs ++ [r], bs) else (cs, bs ++ [r])) else (cs, bs) in
          Some (cs, bs, (if given (r_sell r) then ss ++ [r] else ss), n')
      end
  end.
Definition collect (d : Z) (x : ctxs) (n : nat) := fold_left (collect1 d) x (Some ([], [], [], n)).
Definition do_exit (i : nat) (d : Z) (st : option bstate) (s : sym) : option bstate :=
  bind st (do_op (OpExit d s (fst (v_exit_fill v i s)) (snd (v_exit_fill v i s)) (v_sm v i))).

(** strategy.py 857-967: the first half of a bar, up to [capture_bar]. *)
Definition settle (i : nat) (d : Z) (b : bstate) : option bstate :=
  let isc := zhas d (b_cover b) in
  let isb := zhas d (b_buy b) in
  let iss := zhas d (b_sell b) in
  let b := sort_scheds d b in
  let st := do_op (OpCheckStops d (scope_on b i d) (v_sm v i)) b in
  let st := place_if WCover isc i d st in
  let st := place_if WSell iss i d st in
  let st := place_if WBuy isb i d st in
  let st := bind st (process_persistent i d) in
  bind st (fun b => do_op (OpCapture d (bar_on b i d)) b).
(** strategy.py 968-1040: the second half, from the execution functions on. *)
Definition decide (i : nat) (d : Z) (act exits : list sym) (b : bstate) : option bstate :=
  let x := map (fun s => (s, match aget s (b_ctx b) with Some g => g | None => no_signals end)) act in
  let u := v_user v i d (b_port b) (b_pend b) x in
  let x := map (fun kv => (fst kv, u_sigs u (fst kv))) x in
  bind (fold_left do_cancel (u_cancel u) (Some b)) (fun b =>
  match rotate i b x with
  | None => None
  | Some x =>
      match collect d x (b_stop b) with
      | None => None
      | Some (cs, bs, ss, n) =>
          let b := set_ctx (fold_left (fun l kv => aset (fst kv) (snd kv) l) x (b_ctx b)) n b in
          let st := fold_left (schedule_order d (v_buy_delay v) WCover) cs (Some b) in
          let st := fold_left (schedule_order d (v_buy_delay v) WBuy) bs st in
          let st := fold_left (schedule_order d (v_sell_delay v) WSell) ss st in
          let st := fold_left (do_exit i d) exits st in
          bind st (fun b => do_op (OpIncr (fun s => has_bar_on b s d)) b)
      end
  end).
(** strategy.py 857-1047: one bar. *)
Definition bar (i : nat) (d : Z) (b : bstate) : option bstate :=
  let '(ends, act, exits) := activate d b in
  let b := set_ends ends b in
  let b := set_ctx (fold_left (fun l s => aset s (set_exec_ctx_data (match aget s l with Some g => g | None => no_signals end)) l) act (b_ctx b)) (b_stop b) b in
  bind (settle i d b) (decide i d act exits).

Fixpoint bars_from (i : nat) (dates : list Z) (b : bstate) : option bstate :=
  match dates with
  | [] => Some b
  | d :: r => match bar i d b with None => None | Some b' => bars_from (S i) r b' end
  end.
(** strategy.py 796-859: a window starts with empty schedules, no bars seen and
    fresh contexts. *)
Definition start (b : bstate) : bstate :=
  mkB (b_port b) (b_pend b) [] [] [] [] (map (fun s => (s, no_signals)) (v_syms v)) (b_stop b) (b_ops b) (b_kops b) (b_att b).
Definition backtest (b : bstate) : option bstate := bars_from 0 (v_dates v) (start b).

End Loop.

(** A run over walkforward windows: each window's loop on the state the previous
    one left (strategy.py 3117-3160; the portfolio and the pending orders are
    shared by all windows). *)
Definition fresh (c : cfg) (n : nat) : bstate := mkB (init c) pscope0 [] [] [] [] [] n [] [] [].
Fixpoint backtests (l : list env) (b : bstate) : option bstate :=
  match l with
  | [] => Some b
  | v :: r => match backtest v b with None => None | Some b' => backtests r b' end
  end.
