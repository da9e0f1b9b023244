(** Vocabulary for stating the portfolio properties. Only projections of the
    account state and of the logs are used; nothing here is part of the model. *)
From Verif Require Export PortfolioModel.

(** ** What a history may contain *)
(** The stops handed to an opening order carry the order's symbol and the side
    it opens (context.py 1308-1352 creates them so). *)
Definition op_stops (o : op) : list stop :=
  match o with
  | OpBuy a | OpSell a => match a_stops a with Some l => l | None => [] end
  | _ => []
  end.
Definition stops_match (o : op) : Prop :=
  match o with
  | OpBuy a => forall st, In st (op_stops o) -> st_sym st = a_sym a /\ st_pos st = Long
  | OpSell a => forall st, In st (op_stops o) -> st_sym st = a_sym a /\ st_pos st = Short
  | _ => True
  end.
(** Stop ids are never reused (context.py 1319-1320: a global counter). *)
Definition stops_wf (ops : list op) : Prop :=
  NoDup (map st_id (flat_map op_stops ops)) /\ Forall stops_match ops.

(** A state some history leads to; [reachable_stops] additionally asks the stops
    of the history to be well formed. *)
Definition reachable (c : cfg) (p : port) : Prop := exists ops, run c ops = Some p.
Definition reachable_stops (c : cfg) (p : port) : Prop :=
  exists ops, stops_wf ops /\ run c ops = Some p.

(** ** Positions and entries *)
Definition position_of (p : port) (sd : side) (s : sym) : option position := aget s (poss sd p).
Definition queue (p : port) (sd : side) (s : sym) : list entry :=
  match position_of p sd s with Some pos => ps_entries pos | None => [] end.
Definition shares_held (p : port) (sd : side) (s : sym) : Q :=
  match position_of p sd s with Some pos => ps_shares pos | None => 0 end.
Definition n_positions (p : port) (sd : side) : nat := length (poss sd p).
(** Cost of everything open. *)
Definition open_cost (p : port) : Q :=
  Qsum (map (fun kv => ps_notional (snd kv)) (p_longs p)) +
  Qsum (map (fun kv => ps_notional (snd kv)) (p_shorts p)).

(** ** Orders and trades *)
Definition dir (o : oside) : Q := match o with OBuy => 1 | OSell => -1 end.
(** Signed volume of the orders of a symbol. *)
Definition signed_volume (s : sym) (l : list order) : Q :=
  Qsum (map (fun o => if Nat.eqb (o_sym o) s then dir (o_side o) * o_shares o else 0) l).
(** Result per share of closing at [x] what was opened at [e]. *)
Definition gain (sd : side) (e x : Q) : Q := match sd with Long => x - e | Short => e - x end.

(** Trade [t] closes [q] shares of entry [e] at price [fill] on [date]. *)
Record closes_entry (sd : side) (date : Z) (fill : Q) (stp : option stop_type) (e : entry) (q : Q) (t : trade) : Prop := mkCE {
  ce_type : t_type t = sd; ce_sym : t_sym t = e_sym e; ce_in : t_entry_date t = e_date e;
  ce_out : t_exit_date t = date; ce_entry : t_entry t = e_price e; ce_exit : t_exit t = fill;
  ce_shares : t_shares t = q; ce_pnl : t_pnl t == q * gain sd (e_price e) fill;
  ce_bars : t_bars t = e_bars e; ce_stop : t_stop t = stp
}.

(** Closing [n] shares of the queue [es], oldest first: a prefix is closed in
    full, then at most one entry in part, and the rest is untouched. *)
Definition fifo_close (sd : side) (date : Z) (fill n : Q) (es es' : list entry) (ts : list trade) : Prop :=
  exists full rest,
    (es = full ++ rest /\ es' = rest /\
     Forall2 (fun e t => closes_entry sd date fill None e (e_shares e) t) full ts /\
     Qsum (map e_shares full) <= n /\ (rest = [] \/ Qsum (map e_shares full) == n))
    \/
    (exists e q ts0 t,
       es = full ++ e :: rest /\ es' = set_e_shares (e_shares e - q) e :: rest /\
       0 < q /\ q < e_shares e /\ ts = ts0 ++ [t] /\
       Forall2 (fun e t => closes_entry sd date fill None e (e_shares e) t) full ts0 /\
       closes_entry sd date fill None e q t /\
       Qsum (map e_shares full) + q == n).

(** ** Histories step by step *)
(** The executed steps of a history: state before, call, state after. *)
Fixpoint trace (c : cfg) (p : port) (ops : list op) : list (port * op * port) :=
  match ops with
  | [] => []
  | o :: r => match exec c (Some p) o with
              | Some p' => (p, o, p') :: trace c p' r
              | None => []
              end
  end.
Definition history (c : cfg) (ops : list op) : list (port * op * port) := trace c (init c) ops.

(** ** Money *)
(** Cash net of the margin loan. *)
Definition net_balance (c : cfg) (p : port) : Q := p_cash p - margin_loan c p.
(** Interest: what the captured bars of a history did to the net balance. *)
Definition interest_paid (c : cfg) (ops : list op) : Q :=
  Qsum (map (fun x => match x with
                      | (p, OpCapture _ _, p') => net_balance c p' - net_balance c p
                      | _ => 0
                      end) (history c ops)).
Definition realized (p : port) : Q := Qsum (map t_pnl (p_trades p)).
Definition fees_paid (p : port) : Q := Qsum (map o_fees (p_orders p)).
(** The rate a captured bar applies: [interest_rate] percent per year over
    [bars_per_year] bars, nothing unless both are given. *)
Definition rate_per_bar (c : cfg) : Q :=
  match c_bpy c with
  | Some b => if Qle_bool (c_rate c) 0 then 0 else c_rate c / 100 / b
  | None => 0
  end.

(** Two states that differ at most in the two memoised valuation totals. *)
Definition same_account (p p' : port) : Prop :=
  p' = set_p_cshort (p_cshort p') (set_p_clong (p_clong p') p).

(** ** Sides *)
Definition side_allowed (c : cfg) (sd : side) : Prop :=
  match sd with Long => c_mode c <> PMShortOnly | Short => c_mode c <> PMLongOnly end.
Definition max_positions (p : port) (sd : side) : option nat :=
  match sd with Long => p_max_long p | Short => p_max_short p end.
(** The side an order closes and the side it opens. *)
Definition closing (o : oside) : side := match o with OBuy => Short | OSell => Long end.
Definition opening_side (o : oside) : side := match o with OBuy => Long | OSell => Short end.
(** [fill] is worse than [limit] for this order. *)
Definition beyond_limit (o : oside) (fill : Q) (limit : option Q) : Prop :=
  match limit with
  | Some l => match o with OBuy => l < fill | OSell => fill < l end
  | None => False
  end.
Definition send (c : cfg) (o : oside) (a : oargs) (p : port) : res (option order) :=
  match o with OBuy => buy c a p | OSell => sell c a p end.
(** Arguments [buy] and [sell] reject. *)
Definition bad_arguments (a : oargs) : Prop :=
  a_shares a < 0 \/ a_fill a <= 0 \/ exists l, a_limit a = Some l /\ l <= 0.

(** The same order as an operation of a history. *)
Definition send_op (o : oside) (a : oargs) : op := match o with OBuy => OpBuy a | OSell => OpSell a end.
(** A stop that states its distance (context.py only creates such stops). *)
Definition stop_sized (st : stop) : Prop :=
  st_type st = SBar \/ (exists q, st_percent st = Some q) \/ (exists q, st_points st = Some q).

(** The entry an order opens. *)
Record opened_entry (o : oside) (a : oargs) (q : Q) (e : entry) : Prop := mkOpenedEntry {
  oe_date : e_date e = a_date a; oe_sym : e_sym e = a_sym a; oe_shares : e_shares e == q; oe_price : e_price e = a_fill a;
  oe_type : e_type e = opening_side o; oe_bars : e_bars e = 0%nat; oe_sbars : e_symbars e = 0%nat;
  oe_mae : e_mae e = 0; oe_mfe : e_mfe e = 0
}.

(** The call does not reassign the position caps. *)
Definition keeps_caps (o : op) : Prop := match o with OpSetCaps _ _ => False | _ => True end.

(** A cash account: no leverage, no shorting, no fees. *)
Definition cash_cfg (c : cfg) : Prop :=
  c_leverage c == 1 /\ c_mode c = PMLongOnly /\ c_fee_mode c = None /\ 0 <= c_cash c.

(** ** Valuation *)
(** Closing prices of a captured bar. *)
Definition close_of (bar : bar_fn) (s : sym) : option Q :=
  match bar s with Some (c, _, _) => Some c | None => None end.
(** Result of closing a position at [x]. *)
Definition position_gain (sd : side) (x : Q) (pos : position) : Q :=
  Qsum (map (fun e => e_shares e * gain sd (e_price e) x) (ps_entries pos)).
(** Unrealized result of one side at the closes of [bar] (symbols without a
    close do not count; the theorems ask for all closes). *)
Definition unrealized (bar : bar_fn) (p : port) (sd : side) : Q :=
  Qsum (map (fun kv => match close_of bar (fst kv) with
                       | Some x => position_gain sd x (snd kv)
                       | None => 0
                       end) (poss sd p)).
Definition all_closes (bar : bar_fn) (p : port) : Prop :=
  forall sd s, position_of p sd s <> None -> close_of bar s <> None.
(** Market value of the open positions as the account carries it between
    captures: long and short together. *)
Definition committed (p : port) : Q :=
  Qsum (map (fun kv => marked_value (snd kv)) (p_longs p)) +
  Qsum (map (fun kv => marked_value (snd kv)) (p_shorts p)).
(** Account value between captures: the net balance, the longs at their value
    and the shorts at cost plus (cost minus value). *)
Definition account_value (c : cfg) (p : port) : Q :=
  net_balance c p + Qsum (map (fun kv => marked_value (snd kv)) (p_longs p)) +
  Qsum (map (fun kv => 2 * ps_notional (snd kv) - marked_value (snd kv)) (p_shorts p)).
(** Fees that do not shrink when an order grows; holds for the built-in modes
    with a non-negative amount. *)
Definition fees_grow (c : cfg) : Prop :=
  forall s fill a b o, 0 < fill -> 0 < a -> a <= b -> calculate_fees c s fill a o <= calculate_fees c s fill b o.

(** ** Stops *)
(** One stop exit: side and symbol, the entry as it was before the call, the
    stop, the unslipped price and the fill price. *)
Record ev : Type := mkEv { v_sd : side; v_sym : sym; v_entry : entry; v_stop : stop; v_market : Q; v_fill : Q }.
Definition v_id (v : ev) : nat := e_id (v_entry v).
Definition ids (l : list ev) : list nat := map v_id l.

Definition exit_oside (sd : side) : oside := match sd with Long => OSell | Short => OBuy end.
(** A long position is sold at the sell price, a short one bought at the buy price. *)
Definition exit_price (sd : side) (buy_price sell_price : Q) : Q := match sd with Long => sell_price | Short => buy_price end.

(** The order and the trade that record a stop exit. *)
Record order_of (c : cfg) (date : Z) (v : ev) (o : order) : Prop := mkOrdOf {
  oo_side : o_side o = exit_oside (v_sd v); oo_sym : o_sym o = v_sym v; oo_date : o_date o = date;
  oo_type : o_type o = stop_order_type (st_type (v_stop v));
  oo_shares : o_shares o = e_shares (v_entry v); oo_limit : o_limit o = st_limit (v_stop v);
  oo_market : o_market o = v_market v; oo_fill : o_fill o = v_fill v;
  oo_fees : o_fees o = calculate_fees c (v_sym v) (v_fill v) (e_shares (v_entry v)) (exit_oside (v_sd v))
}.
Record trade_of (date : Z) (v : ev) (t : trade) : Prop := mkTrdOf {
  tt_type : t_type t = v_sd v; tt_sym : t_sym t = v_sym v; tt_date : t_exit_date t = date;
  tt_edate : t_entry_date t = e_date (v_entry v);
  tt_entry : t_entry t = e_price (v_entry v); tt_exit : t_exit t = v_fill v;
  tt_shares : t_shares t = e_shares (v_entry v); tt_stop : t_stop t = Some (st_type (v_stop v));
  tt_bars : t_bars t = e_bars (v_entry v)
}.

(** The stop's limit price rejects the fill. *)
Definition rejected (st : stop) (fill : Q) : bool :=
  match st_limit st, st_pos st with
  | Some l, Long => Qltb fill l
  | Some l, Short => Qltb l fill
  | None, _ => false
  end.
(** Current level of a registered profit, loss or trailing stop. *)
Definition level (p : port) (id : nat) : option Q := option_map sd_value (aget id (p_stop_data p)).
(** Stops that sell a long into a falling price or take profit on a short; the
    others wait for a rising price. *)
Definition falling (st : stop) : bool :=
  match st_pos st, st_type st with
  | Long, SLoss | Long, STrailing | Short, SProfit => true
  | _, _ => false
  end.
(** The bar reaches level [v]: its range does, or, when an exit price is named,
    that price is at or through the level. *)
Definition reached (sc : scope) (st : stop) (v : Q) : Prop :=
  match st_exit st with
  | Some t => if falling st then sc_price sc (st_sym st) t <= v else v <= sc_price sc (st_sym st) t
  | None => if falling st then sc_price sc (st_sym st) PTLow <= v else v <= sc_price sc (st_sym st) PTHigh
  end.
(** The price at which a stop whose level [v] is reached fills before slippage:
    the named exit price, otherwise the level, kept inside the bar. *)
Definition price_at (sc : scope) (st : stop) (v : Q) : Q :=
  match st_exit st with
  | Some t => sc_price sc (st_sym st) t
  | None => if falling st then Qmin v (sc_price sc (st_sym st) PTHigh) else Qmax v (sc_price sc (st_sym st) PTLow)
  end.
(** The stop [st] of entry [e] is due on this bar. *)
Definition due (p : port) (sc : scope) (e : entry) (st : stop) : Prop :=
  match st_type st with
  | SBar => exists n, st_bars st = Some n /\ (n <= e_symbars e)%nat
  | _ => exists v, level p (st_id st) = Some v /\ reached sc st v
  end.
(** Its fill before slippage. *)
Definition stop_fills_at (p : port) (sc : scope) (st : stop) (m : Q) : Prop :=
  match st_type st with
  | SBar => m = sc_fetch sc (st_sym st) (match st_fill st with Some f => f | None => FType PTMiddle end) /\ 0 < m
  | _ => exists v, level p (st_id st) = Some v /\ m = price_at sc st v
  end.
(** The order side and the slipped price of a stop exit of [n] shares: a
    slippage model may replace the price by a positive one. *)
Definition slipped (sm : slip_model) (sd : side) (s : sym) (n m : Q) : Q :=
  match sm with
  | None => m
  | Some f => match f (exit_oside sd) s n m with
              | Some q => if Qle_bool q 0 then m else q
              | None => m
              end
  end.
(** Stop exit [v] is justified by the account [p] before the call and the bar. *)
Record exit_ok (p : port) (sc : scope) (sm : slip_model) (v : ev) : Prop := mkXok {
  xk_open : In (v_entry v) (queue p (v_sd v) (v_sym v));
  xk_price : sc_can_price sc (v_sym v) = true;
  xk_stop : In (v_stop v) (e_stops (v_entry v));
  xk_sym : st_sym (v_stop v) = v_sym v; xk_pos : st_pos (v_stop v) = v_sd v;
  xk_due : due p sc (v_entry v) (v_stop v);
  xk_market : stop_fills_at p sc (v_stop v) (v_market v);
  xk_fill : v_fill v = slipped sm (v_sd v) (v_sym v) (e_shares (v_entry v)) (v_market v);
  xk_limit : rejected (v_stop v) (v_fill v) = false
}.
(** What one [check_stops] call does: exactly the exits in [exits], each entry at
    most once and in full, every due stop of a surviving entry was rejected by
    its limit price, and only the surviving entries' stops stay registered. *)
Record check_did (c : cfg) (date : Z) (sc : scope) (sm : slip_model) (p : port) (exits : list ev) (p' : port) : Prop := mkDid {
  cd_ok : Forall (exit_ok p sc sm) exits;
  cd_once : NoDup (ids exits);
  cd_orders : exists new, p_orders p' = p_orders p ++ new /\ Forall2 (order_of c date) exits new;
  cd_trades : exists new, p_trades p' = p_trades p ++ new /\ Forall2 (trade_of date) exits new;
  cd_queue : forall sd s, queue p' sd s = filter (fun e => negb (nmem (e_id e) (ids exits))) (queue p sd s);
  cd_all : forall sd s e st, In e (queue p sd s) -> ~ In (e_id e) (ids exits) -> sc_can_price sc s = true ->
     In st (e_stops e) -> due p sc e st ->
     exists m, stop_fills_at p sc st m /\ rejected st (slipped sm sd s (e_shares e) m) = true;
  cd_gone : forall v st, In v exits -> In st (e_stops (v_entry v)) -> level p' (st_id st) = None;
  cd_reg : forall id x, level p' id = Some x -> exists sd s e st, In e (queue p' sd s) /\ In st (e_stops e) /\ st_id st = id
}.
(** How far a stop is from the price [x] it is measured from. *)
Definition stop_distance (st : stop) (x : Q) : Q :=
  match st_percent st with
  | Some pc => x * pc / 100
  | None => match st_points st with Some k => k | None => 0 end
  end.
(** The level of a stop measured from [x]. *)
Definition level_from (st : stop) (x : Q) : Q :=
  if falling st then x - stop_distance st x else x + stop_distance st x.
(** The most favourable extreme of the bar, seen from the stop's side. *)
Definition extreme (sc : scope) (st : stop) : Q :=
  match st_pos st with Long => sc_price sc (st_sym st) PTHigh | Short => sc_price sc (st_sym st) PTLow end.
(** The tighter of two levels. *)
Definition tighter (st : stop) (x y : Q) : Q := match st_pos st with Long => Qmax x y | Short => Qmin x y end.
Definition reachedb (sc : scope) (st : stop) (v : Q) : bool :=
  match st_exit st with
  | Some t => if falling st then Qle_bool (sc_price sc (st_sym st) t) v else Qle_bool v (sc_price sc (st_sym st) t)
  | None => if falling st then Qle_bool (sc_price sc (st_sym st) PTLow) v else Qle_bool v (sc_price sc (st_sym st) PTHigh)
  end.
(** The bars a trailing stop has seen: the checked bars of a history on which
    stop [st] was registered, its symbol priced and its level not reached. *)
Definition trail_bars (c : cfg) (ops : list op) (st : stop) : list scope :=
  flat_map (fun x => match x with
    | (q, OpCheckStops _ sc _, _) =>
        match level q (st_id st) with
        | Some v => if sc_can_price sc (st_sym st) && negb (reachedb sc st v) then [sc] else []
        | None => []
        end
    | _ => []
    end) (history c ops).
(** The level of a stop set at the entry price and then, for a trailing stop,
    moved towards the extreme of each of the [bars]. *)
Definition trailed (st : stop) (price : Q) (bars : list scope) : Q :=
  match st_type st with
  | STrailing => fold_left (fun l sc => tighter st (level_from st (extreme sc st)) l) bars (level_from st price)
  | _ => level_from st price
  end.
(** Bars of its own symbol that entry [id] has seen. *)
Definition holds (p : port) (sd : side) (s : sym) (id : nat) : bool :=
  existsb (fun e => Nat.eqb (e_id e) id) (queue p sd s).
Definition bars_seen (c : cfg) (ops : list op) (sd : side) (s : sym) (id : nat) : nat :=
  length (filter (fun x => match x with
    | (q, OpIncr hb, _) => hb s && holds q sd s id
    | _ => false
    end) (history c ops)).
(** The captured (low, high) pairs that entry [id] has seen. *)
Definition ranges_seen (c : cfg) (ops : list op) (sd : side) (s : sym) (id : nat) : list (option Q * option Q) :=
  flat_map (fun x => match x with
    | (q, OpCapture _ bar, _) =>
        match bar s with
        | Some (_, lo, hi) => if holds q sd s id then [(lo, hi)] else []
        | None => []
        end
    | _ => []
    end) (history c ops).
(** Results per share at the bar's adverse and favourable extremes ([None] when
    the bar has no such price). *)
Definition adverse (sd : side) (price : Q) (r : option Q * option Q) : option Q :=
  match sd with Long => option_map (gain Long price) (fst r) | Short => option_map (gain Short price) (snd r) end.
Definition favourable (sd : side) (price : Q) (r : option Q * option Q) : option Q :=
  match sd with Long => option_map (gain Long price) (snd r) | Short => option_map (gain Short price) (fst r) end.
Definition known (l : list (option Q)) : list Q := flat_map (fun x => match x with Some q => [q] | None => [] end) l.
Definition lowest (l : list Q) : Q := fold_right Qmin 0 l.
Definition highest (l : list Q) : Q := fold_right Qmax 0 l.

(** ** Removing stops *)
(** No two stops of the list have the same type (context.py 1354-1542 attaches at
    most one of each). *)
Definition one_per_type (l : list stop) : Prop :=
  forall a b, In a l -> In b l -> st_type a = st_type b -> a = b.
(** The entry is one [remove_stops] was asked about. *)
Definition targeted (v : rm_target) (sd : side) (s : sym) (e : entry) : bool :=
  match v with
  | RSym s' => Nat.eqb s s'
  | RPos sd' s' => side_eqb sd sd' && Nat.eqb s s'
  | REntry id => Nat.eqb (e_id e) id
  end.
(** The stop has the type to remove; every stop has when no type is named. *)
Definition of_type (t : option stop_type) (st : stop) : bool :=
  match t with None => true | Some t => stop_type_eqb (st_type st) t end.

(** ** Value between marks *)
(** The last close at which the position on side [sd] of [s] was marked, with
    the newest entry id at that time; [None] while the position has not been
    marked since it was opened. *)
Definition last_mark (c : cfg) (ops : list op) (sd : side) (s : sym) : option (Q * nat) :=
  fold_left (fun m x =>
    match x with
    | (q, o, q') =>
        match position_of q' sd s with
        | None => None
        | Some _ =>
            match o with
            | OpCapture _ bar => match close_of bar s with Some x => Some (x, p_entry_id q) | None => m end
            | _ => m
            end
        end
    end) (history c ops) None.
(** Shares held since the mark at the marked close, the others at cost. *)
Definition value_since (m : option (Q * nat)) (es : list entry) : Q :=
  Qsum (map (fun e => match m with
                      | Some (x, n) => if Nat.leb (e_id e) n then e_shares e * x else e_shares e * e_price e
                      | None => e_shares e * e_price e
                      end) es).
(** Stops are only checked when no position that has been marked was added to
    since. The bar loop does this: it marks every priced position on the bar on
    which it was filled, before the next check. *)
Definition checks_marked (c : cfg) (ops : list op) : Prop :=
  forall l1 d sc sm l2 q, ops = l1 ++ OpCheckStops d sc sm :: l2 -> run c l1 = Some q ->
  forall sd s e x n, last_mark c l1 sd s = Some (x, n) -> In e (queue q sd s) -> (e_id e <= n)%nat.
