(** What an account records beside its orders and trades: position rows,
    portfolio rows and stop records. The account itself is PortfolioModel.v; here
    the calls that record something are modelled again with what they append. *)
From Verif Require Export PortfolioModel.

Section Record.
Variable c : cfg.

(** portfolio.py 417-440 [PositionBar]. *)
Record prow : Type := mkRow {
  w_sym : sym; w_date : Z; w_long : Q; w_short : Q; w_close : Q; w_equity : Q; w_mv : Q; w_margin : Q; w_upnl : Q
}.

(** portfolio.py 1526-1531, 1543-1546, 1575-1579, 1593-1606: the row of a symbol
    on the captured date, from its positions [l] (long) and [sh] (short) as they
    are after they were marked; no row without a close. *)
Definition row_of (date : Z) (s : sym) (bar : option (Q * option Q * option Q)) (l sh : option position) : list prow :=
  match bar with
  | None => []
  | Some (close, _, _) =>
      let '(long_shares, eq1, mv1, pnl1) :=
        match l with
        | Some pos => (0 + ps_shares pos, 0 + ps_equity pos, 0 + ps_mv pos, 0 + ps_pnl pos)
        | None => (0, 0, 0, 0)
        end in
      let '(short_shares, margin, eq2, mv2, pnl2) :=
        match sh with
        | Some pos => (0 + ps_shares pos, 0 + ps_margin pos, eq1 + (ps_notional pos + ps_pnl pos), mv1 + ps_mv pos, pnl1 + ps_pnl pos)
        | None => (0, 0, eq1, mv1, pnl1)
        end in
      [mkRow s date long_shares short_shares close eq2 mv2 margin pnl2]
  end.

(** portfolio.py 1496-1606: one symbol of the loop of [capture_bar]; [rec] is
    [_record_position_bars]. *)
Definition capture_sym (rec : bool) (date : Z) (bar : bar_fn) (st : acc * port * list prow) (s : sym) : acc * port * list prow :=
  let '(ap, rows) := st in
  let ap := capture_short s (bar s) (capture_long s (bar s) ap) in
  let p := snd ap in
  (ap, if rec then rows ++ row_of date s (bar s) (aget s (p_longs p)) (aget s (p_shorts p)) else rows).

(** portfolio.py 1471-1629 [capture_bar] with the rows it records; [recb] is
    [_record_portfolio_bars] and [bars] the attribute of that name. *)
Definition capture_bar_rec (rec recb : bool) (date : Z) (bar : bar_fn) (p : port) (rows : list prow) (bars : list pbar) : port * list prow * list pbar :=
  let p := apply_interest c p in
  let nc := p_cash p - margin_loan c p in
  let '(a, p, rows) := fold_left (capture_sym rec date bar) (sort_nat (p_symbols p)) (mkAcc nc nc 0 0, p, rows) in
  let p := set_p_equity (ac_eq a) p in
  let p := set_p_mv (ac_mv a) p in
  let p := set_p_margin (ac_margin a) p in
  let notional := ac_long a + p_margin p in
  let p := invalidate p in
  let b := mkBar date (p_cash p) (p_equity p) notional (p_margin p) (margin_loan c p)
             (net_cash c p) (p_mv p) (p_equity p - c_cash c) (p_mv p - p_equity p) (p_fees p) in
  (set_p_bars (p_bars p ++ [b]) p, rows, if recb then bars ++ [b] else bars).

(** portfolio.py 117-150 [StopRecord]; the distances of the stop are left out. *)
Record srec : Type := mkSRec {
  sr_date : Z; sr_id : nat; sr_sym : sym; sr_type : stop_type; sr_pos : side; sr_value : option Q; sr_bars : option nat;
  sr_limit : option Q; sr_exit : option price_type; sr_fill : option Q
}.
(** portfolio.py 1876-1904 [_capture_stop]. *)
Definition record_stop (date : Z) (p : port) (e : entry) (st : stop) (fill : option Q) : srec :=
  mkSRec date (st_id st) (st_sym st) (st_type st) (st_pos st)
    (match aget (st_id st) (p_stop_data p) with Some d => Some (sd_value d) | None => None end)
    (match st_type st with SBar => Some (e_symbars e) | _ => None end)
    (st_limit st) (st_exit st) fill.

(** portfolio.py 1940-2031 [_trigger_stop] with both of its results. *)
Definition trigger_stop_rec (date : Z) (sc : scope) (sm : slip_model) (pos : position)
    (e : entry) (st : stop) (p : port) : res (bool * option Q) :=
  if negb (ahas (st_sym st) (poss (st_pos st) p)) then Ret p (false, None)
  else
    let decide : res (option Q) :=
      match st_type st with
      | SBar =>
          match trigger_bar_stop st sc e with
          | TNone => Ret p None
          | TFill q => Ret p (Some q)
          | TRaise => Raise p EStop
          end
      | SLoss | SProfit =>
          match aget (st_id st) (p_stop_data p) with
          | None => Raise p EStop
          | Some d => Ret p (trigger_price_stop st (sd_value d) sc)
          end
      | STrailing =>
          match aget (st_id st) (p_stop_data p) with
          | None => Raise p EStop
          | Some d =>
              match trigger_price_stop st (sd_value d) sc with
              | Some q => Ret p (Some q)
              | None =>
                  match ratchet st (sd_value d) sc with
                  | None => Raise p EStop
                  | Some v =>
                      Ret (set_p_stop_data
                             (aset (st_id st) (mkStopData v (sd_stop d) (sd_entry d)) (p_stop_data p)) p)
                          None
                  end
              end
          end
      end in
    match decide with
    | Raise p x => Raise p x
    | Ret p None => Ret p (false, None)
    | Ret p (Some market) =>
        let fill := slip_stop_fill sm st e market in
        let rejected := match st_limit st, st_pos st with
                        | Some l, Long => Qltb fill l
                        | Some l, Short => Qltb l fill
                        | None, _ => false
                        end in
        if rejected then Ret p (false, Some fill)
        else if side_eqb (st_pos st) Short && Qis0 fill then Raise p EDiv
        else
          let '(pos, p) := exit_entry c (st_pos st) date pos e (e_shares e) fill (Some (st_type st)) p in
          let '(p, _) := add_order c date (ps_sym pos)
              (match st_pos st with Long => OSell | Short => OBuy end)
              None (stop_order_type (st_type st))
              (match st_pos st with Long => SellToClose | Short => BuyToClose end)
              (e_shares e) (st_limit st) (Some market) fill p in
          Ret p (true, Some fill)
    end.

(** portfolio.py 1779-1805 with [_capture_stop]; [rec] is [_record_stops]. *)
Definition check_price_stop_rec (rec : bool) (date : Z) (sc : scope) (sm : slip_model) (s : sym) (id : nat)
    (st : res (executed * list srec)) : res (executed * list srec) :=
  match st with
  | Raise p x => Raise p x
  | Ret p (ex, log) =>
      match aget id (p_stop_data p) with
      | None => Raise p EModel
      | Some d =>
          if is_triggered (sd_entry d) ex then Ret p (ex, log)
          else
            match aget s (poss (st_pos (sd_stop d)) p) with
            | None => Ret p (ex, log)
            | Some pos =>
                match find_entry (sd_entry d) (ps_entries pos) with
                | None => Raise p EModel
                | Some e =>
                    if negb (Nat.eqb (st_sym (sd_stop d)) s) then Raise p EModel else
                    match trigger_stop_rec date sc sm pos e (sd_stop d) p with
                    | Raise p x => Raise p x
                    | Ret p (t, fill) =>
                        let log := if rec then log ++ [record_stop date p e (sd_stop d) fill] else log in
                        Ret p (if t then ex ++ [(st_pos (sd_stop d), s, sd_entry d)] else ex, log)
                    end
                end
            end
      end
  end.
(** portfolio.py 1763-1805. *)
Definition price_loop_rec (rec : bool) (date : Z) (sc : scope) (sm : slip_model)
    (active : list (sym * list nat)) (st : res (executed * list srec)) : res (executed * list srec) :=
  fold_left (fun st kv =>
               if sc_can_price sc (fst kv)
               then fold_left (fun st id => check_price_stop_rec rec date sc sm (fst kv) id st) (snd kv) st
               else st) active st.
(** portfolio.py 1825-1844. *)
Fixpoint bar_stops_loop_rec (rec : bool) (date : Z) (sc : scope) (sm : slip_model) (sd : side) (s : sym)
    (eid : nat) (stops : list stop) (st : res (executed * list srec)) : res (executed * list srec) :=
  match stops, st with
  | [], _ => st
  | _, Raise p x => Raise p x
  | t :: r, Ret p (ex, log) =>
      match st_type t with
      | SBar =>
          match aget s (poss sd p) with
          | None => Raise p EModel
          | Some pos =>
              match find_entry eid (ps_entries pos) with
              | None => Raise p EModel
              | Some e =>
                  if negb (Nat.eqb (st_sym t) s && side_eqb (st_pos t) sd) then Raise p EModel else
                  match trigger_stop_rec date sc sm pos e t p with
                  | Raise p x => Raise p x
                  | Ret p (f, fill) =>
                      let log := if rec then log ++ [record_stop date p e t fill] else log in
                      if f then Ret p (ex ++ [(sd, s, eid)], log)
                      else bar_stops_loop_rec rec date sc sm sd s eid r (Ret p (ex, log))
                  end
              end
          end
      | _ => bar_stops_loop_rec rec date sc sm sd s eid r (Ret p (ex, log))
      end
  end.
(** portfolio.py 1818-1844. *)
Definition bar_entries_loop_rec (rec : bool) (date : Z) (sc : scope) (sm : slip_model) (sd : side) (s : sym)
    (es : list entry) (st : res (executed * list srec)) : res (executed * list srec) :=
  fold_left (fun st e =>
    match st with
    | Raise p x => Raise p x
    | Ret p (ex, log) => if is_triggered (e_id e) ex then Ret p (ex, log)
                  else bar_stops_loop_rec rec date sc sm sd s (e_id e) (e_stops e) (Ret p (ex, log))
    end) es st.
(** portfolio.py 1807-1844. *)
Definition bar_loop_rec (rec : bool) (date : Z) (sc : scope) (sm : slip_model) (sd : side)
    (d : list (sym * position)) (st : res (executed * list srec)) : res (executed * list srec) :=
  fold_left (fun st kv =>
    if sc_can_price sc (ps_sym (snd kv))
    then bar_entries_loop_rec rec date sc sm sd (fst kv) (ps_entries (snd kv)) st
    else st) d st.
(** portfolio.py 1729-1852 [check_stops] with the records it appends to
    [_stop_records]. *)
Definition check_stops_rec (rec : bool) (date : Z) (sc : scope) (sm : slip_model) (p : port) (log : list srec) : res (list srec) :=
  let r1 := price_loop_rec rec date sc sm (p_active p) (Ret p ([], log)) in
  let r2 := match r1 with
            | Raise _ _ => r1
            | Ret p1 _ => bar_loop_rec rec date sc sm Long (p_longs p1) r1
            end in
  let r3 := match r2 with
            | Raise _ _ => r2
            | Ret p2 _ => bar_loop_rec rec date sc sm Short (p_shorts p2) r2
            end in
  match r3 with
  | Raise p x => Raise p x
  | Ret p (ex, log) => Ret (fold_left finish_exit ex p) log
  end.

(** portfolio.py 549-594: the attributes [position_bars], [bars] and
    [_stop_records] beside the account, and the three settings. *)
Record books : Type := mkBooks { k_port : port; k_rows : list prow; k_bars : list pbar; k_stops : list srec }.
Record flags : Type := mkFlags { f_rows : bool; f_bars : bool; f_stops : bool }.
Definition books0 : books := mkBooks (init c) [] [] [].
(** A public call and what it records; an exception other than rejected
    arguments ends the history, as in [exec]. *)
Definition exec_rec (f : flags) (r : option books) (o : op) : option books :=
  match r with
  | None => None
  | Some b =>
      match o with
      | OpCapture date bar =>
          let '(p, rows, bars) := capture_bar_rec (f_rows f) (f_bars f) date bar (k_port b) (k_rows b) (k_bars b) in
          Some (mkBooks p rows bars (k_stops b))
      | OpCheckStops date sc sm =>
          match check_stops_rec (f_stops f) date sc sm (k_port b) (k_stops b) with
          | Ret p log => Some (mkBooks p (k_rows b) (k_bars b) log)
          | Raise p EInput => Some (mkBooks p (k_rows b) (k_bars b) (k_stops b))
          | Raise _ _ => None
          end
      | _ =>
          match step c o (k_port b) with
          | Ret p' _ => Some (mkBooks p' (k_rows b) (k_bars b) (k_stops b))
          | Raise p' EInput => Some (mkBooks p' (k_rows b) (k_bars b) (k_stops b))
          | Raise _ _ => None
          end
      end
  end.
Definition run_rec (f : flags) (ops : list op) : option books := fold_left (exec_rec f) ops (Some books0).
End Record.
