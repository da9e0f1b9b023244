(** Model of the order side of [ExecContext], context.py 62-154 and 440-1800. *)
From Verif Require Export PortfolioModel.

(** A float score: NaN, an infinity or a number. *)
Inductive score := ScNaN | ScNegInf | ScNum (q : Q) | ScPosInf.
(** A price that may be NaN or infinite ([None]). *)
Notation fnum := (option Q).

(** The attributes a strategy sets on an [ExecContext], context.py 461-502: the
    orders, fill prices, limits, timeouts, hold bars, scores and stops, the
    cover flag and the side [sell_all_shares] / [cover_all_shares] ask to exit
    ([_exit_stop_pos]; only its type is read). A stop's exit price may be
    something that is not a [PriceType] ([Some None]). Share counts and stop
    distances are numbers (a NaN there is outside the model). *)
Record sig : Type := mkSig {
  g_cover : bool; g_exiting : bool; g_exit : option side;
  g_bfill : option fill_spec; g_bshares : option Q; g_blimit : option fnum; g_btimeout : option Z;
  g_sfill : option fill_spec; g_sshares : option Q; g_slimit : option fnum; g_stimeout : option Z;
  g_hold : option Z;
  g_score : option score; g_lscore : option score; g_sscore : option score;
  g_loss : option Q; g_loss_pct : option Q; g_loss_limit : option Q; g_loss_exit : option (option price_type);
  g_profit : option Q; g_profit_pct : option Q; g_profit_limit : option Q; g_profit_exit : option (option price_type);
  g_trail : option Q; g_trail_pct : option Q; g_trail_limit : option Q; g_trail_exit : option (option price_type)
}.
(** context.py 1758-1798 [set_exec_ctx_data] clears every attribute. *)
Definition no_signals : sig :=
  mkSig false false None None None None None None None None None None None None None
        None None None None None None None None None None None None.
Definition set_exec_ctx_data (g : sig) : sig := no_signals.

Definition set_buy (q : option Q) (g : sig) : sig :=
  mkSig (g_cover g) (g_exiting g) (g_exit g) (g_bfill g) q (g_blimit g) (g_btimeout g)
    (g_sfill g) (g_sshares g) (g_slimit g) (g_stimeout g) (g_hold g) (g_score g) (g_lscore g) (g_sscore g)
    (g_loss g) (g_loss_pct g) (g_loss_limit g) (g_loss_exit g) (g_profit g) (g_profit_pct g) (g_profit_limit g) (g_profit_exit g)
    (g_trail g) (g_trail_pct g) (g_trail_limit g) (g_trail_exit g).
Definition set_sell (q : option Q) (g : sig) : sig :=
  mkSig (g_cover g) (g_exiting g) (g_exit g) (g_bfill g) (g_bshares g) (g_blimit g) (g_btimeout g)
    (g_sfill g) q (g_slimit g) (g_stimeout g) (g_hold g) (g_score g) (g_lscore g) (g_sscore g)
    (g_loss g) (g_loss_pct g) (g_loss_limit g) (g_loss_exit g) (g_profit g) (g_profit_pct g) (g_profit_limit g) (g_profit_exit g)
    (g_trail g) (g_trail_pct g) (g_trail_limit g) (g_trail_exit g).
Definition set_flags (cover exiting : bool) (ex : option side) (g : sig) : sig :=
  mkSig cover exiting ex (g_bfill g) (g_bshares g) (g_blimit g) (g_btimeout g)
    (g_sfill g) (g_sshares g) (g_slimit g) (g_stimeout g) (g_hold g) (g_score g) (g_lscore g) (g_sscore g)
    (g_loss g) (g_loss_pct g) (g_loss_limit g) (g_loss_exit g) (g_profit g) (g_profit_pct g) (g_profit_limit g) (g_profit_exit g)
    (g_trail g) (g_trail_pct g) (g_trail_limit g) (g_trail_exit g).
(** context.py 871-879 [cover_shares] setter. *)
Definition set_cover (q : option Q) (g : sig) : sig := set_flags true (g_exiting g) (g_exit g) (set_buy q g).

(** context.py 62-154 [ExecResult]; [r_pid] is [pending_order_id]. The two
    frozensets of stops are lists in the order of creation; the portfolio
    theorems hold for every order in which a set may be iterated. *)
Record result : Type := mkResult {
  r_sym : sym; r_date : Z; r_bfill : fill_spec; r_sfill : fill_spec;
  r_score : option score; r_lscore : option score; r_sscore : option score; r_hold : option Z;
  r_buy : option Q; r_blimit : option Q; r_btimeout : option Z;
  r_sell : option Q; r_slimit : option Q; r_stimeout : option Z;
  r_lstops : option (list stop); r_sstops : option (list stop);
  r_cover : bool; r_pid : option nat; r_exit : option side
}.
Definition set_pid (i : nat) (r : result) : result :=
  mkResult (r_sym r) (r_date r) (r_bfill r) (r_sfill r) (r_score r) (r_lscore r) (r_sscore r) (r_hold r)
    (r_buy r) (r_blimit r) (r_btimeout r) (r_sell r) (r_slimit r) (r_stimeout r) (r_lstops r) (r_sstops r)
    (r_cover r) (Some i) (r_exit r).

(** context.py 1308-1352 [_create_stop]; the global counter is [n], [None] is the
    ValueError of an exit price that is not a [PriceType]. *)
Definition create_stop (s : sym) (ty : stop_type) (sd : side) (points percent : option Q) (bars : option nat)
    (fill : option fill_spec) (limit : option Q) (ex : option (option price_type)) (n : nat) : option (stop * nat) :=
  let dist := match ty with
              | SBar => Some (None, None)
              | _ => match percent, points with
                     | None, None => None
                     | Some p, _ => Some (Some p, None)
                     | None, Some k => Some (None, Some k)
                     end
              end in
  match dist, ex with
  | None, _ => None
  | _, Some None => None
  | Some (pc, pt), _ =>
      Some (mkStop (S n) s ty sd pc pt bars fill limit (match ex with Some (Some t) => Some t | _ => None end), S n)
  end.

(** context.py 1394-1480: the LOSS, PROFIT and TRAILING branches of [_get_stops]
    share this shape: at most one of points and percent, no stop without either
    (whose limit or exit price is then rejected, 1481-1538). *)
Definition price_stop (s : sym) (ty : stop_type) (sd : side) (points percent limit : option Q)
    (ex : option (option price_type)) (n : nat) : option (list stop * nat) :=
  match points, percent with
  | Some _, Some _ => None
  | None, None =>
      match limit, ex with
      | None, None => Some ([], n)
      | _, _ => None
      end
  | _, _ =>
      match create_stop s ty sd points percent None None limit ex n with
      | Some (st, n') => Some ([st], n')
      | None => None
      end
  end.

(** context.py 1354-1542 [_get_stops]: the stops of an order, [None] for a
    ValueError. *)
Definition get_stops (s : sym) (g : sig) (n : nat) : option (option (list stop) * option (list stop) * nat) :=
  let pos := match g_bshares g, g_sshares g with
             | Some _, _ => Some Long
             | None, Some _ => Some Short
             | None, None => None
             end in
  match pos with
  | None => Some (None, None, n)
  | Some sd =>
      let hold :=
        match g_hold g with
        | None => Some ([], n)
        | Some h =>
            if Z.leb h 0 then None
            else
              let fill := match sd with Long => g_sfill g | Short => g_bfill g end in
              let fill := match fill with Some f => f | None => FType PTMiddle end in
              match create_stop s SBar sd None None (Some (Z.to_nat h)) (Some fill) None None n with
              | Some (st, n') => Some ([st], n')
              | None => None
              end
        end in
      match hold with
      | None => None
      | Some (l0, n0) =>
          match price_stop s SLoss sd (g_loss g) (g_loss_pct g) (g_loss_limit g) (g_loss_exit g) n0 with
          | None => None
          | Some (l1, n1) =>
              match price_stop s SProfit sd (g_profit g) (g_profit_pct g) (g_profit_limit g) (g_profit_exit g) n1 with
              | None => None
              | Some (l2, n2) =>
                  match price_stop s STrailing sd (g_trail g) (g_trail_pct g) (g_trail_limit g) (g_trail_exit g) n2 with
                  | None => None
                  | Some (l3, n3) =>
                      let l := l0 ++ l1 ++ l2 ++ l3 in
                      Some (match sd with Long => (Some l, None, n3) | Short => (None, Some l, n3) end)
                  end
              end
          end
      end
  end.

Definition given {A} (x : option A) : bool := match x with Some _ => true | None => false end.
(** Some stop attribute is set, context.py 1605-1620. *)
Definition stop_given (g : sig) : bool :=
  given (g_loss g) || given (g_loss_pct g) || given (g_loss_limit g) ||
  given (g_profit g) || given (g_profit_pct g) || given (g_profit_limit g) ||
  given (g_loss_exit g) || given (g_profit_exit g) ||
  given (g_trail g) || given (g_trail_pct g) || given (g_trail_limit g) || given (g_trail_exit g).
(** context.py 1544-1570 [_is_noop_bar]. *)
Definition is_noop_bar (g : sig) : bool :=
  negb (given (g_bshares g) || given (g_sshares g)) &&
  negb (given (g_hold g) || given (g_bfill g) || given (g_sfill g) || given (g_blimit g) || given (g_slimit g) ||
        given (g_btimeout g) || given (g_stimeout g) || given (g_score g) || given (g_lscore g) || given (g_sscore g) ||
        stop_given g).
(** Python truthiness of an optional share count. *)
Definition truthy (q : option Q) : bool := match q with Some q => negb (Qis0 q) | None => false end.
(** context.py 1673-1687: a limit price that is not finite is rejected ([None]). *)
Definition finite_limit (l : option fnum) : option (option Q) :=
  match l with
  | None => Some None
  | Some None => None
  | Some (Some q) => Some (Some q)
  end.

(** The outcome of [to_result]: a ValueError, no order, or an order together with
    the new value of the stop counter. *)
Inductive outcome := ORaise | ONone | OResult (r : result) (n : nat).

(** context.py 1572-1723 [to_result]; [rot] is [rotation_enabled]. *)
Definition to_result (s : sym) (date : Z) (rot : bool) (g : sig) (n : nat) : outcome :=
  if is_noop_bar g then ONone
  else if negb (given (g_bshares g)) && (given (g_blimit g) || (given (g_bfill g) && negb (given (g_hold g)))) then ORaise
  else if negb (given (g_sshares g)) && (given (g_slimit g) || (given (g_sfill g) && negb (given (g_hold g)))) then ORaise
  else if negb (given (g_bshares g)) && negb (given (g_sshares g)) && (stop_given g || given (g_hold g)) then ORaise
  else if given (g_bshares g) && given (g_sshares g) then ORaise
  else if given (g_score g) && (given (g_lscore g) || given (g_sscore g)) then ORaise
  else if rot && given (g_score g) then ORaise
  else if negb (truthy (g_bshares g)) && negb (truthy (g_sshares g)) then ONone
  else
    match finite_limit (g_blimit g), finite_limit (g_slimit g), get_stops s g n with
    | Some bl, Some sl, Some (ls, ss, n') =>
        OResult (mkResult s date
          (match g_bfill g with Some f => f | None => FType PTMiddle end)
          (match g_sfill g with Some f => f | None => FType PTMiddle end)
          (g_score g) (g_lscore g) (g_sscore g) (g_hold g)
          (g_bshares g) bl (g_btimeout g) (g_sshares g) sl (g_stimeout g) ls ss (g_cover g) None
          (g_exit g)) n'
    | _, _, _ => ORaise
    end.

(** Python's [int(q)]: truncation towards zero. *)
Definition Qtrunc (q : Q) : Z := if Qle_bool 0 q then Qfloor q else Qceiling q.

(** context.py 1155-1202 [calc_target_shares]; [equity] is the portfolio's equity
    and [cash] overrides the sizing base; [None] is the ValueError of a price
    that is not a positive number. *)
Definition calc_target_shares (c : cfg) (equity target : Q) (price : fnum) (cash : option Q) : option Q :=
  match price with
  | None => None
  | Some x =>
      if Qle_bool x 0 then None
      else
        let base := match cash with Some b => b | None => equity * c_leverage c end in
        let shares := base * target / x in
        Some (if c_fractional c then Qmax shares 0 else inject_Z (Z.max (Qtrunc shares) 0))
  end.

(** context.py 889-909 [sell_all_shares] and [cover_all_shares]; [None] is the
    ValueError of an absent position. *)
Definition sell_all_shares (p : port) (s : sym) (g : sig) : option sig :=
  match aget s (p_longs p) with
  | None => None
  | Some pos => Some (set_flags (g_cover g) true (Some Long) (set_sell (Some (ps_shares pos)) g))
  end.
Definition cover_all_shares (p : port) (s : sym) (g : sig) : option sig :=
  match aget s (p_shorts p) with
  | None => None
  | Some pos => let g := set_cover (Some (ps_shares pos)) g in Some (set_flags (g_cover g) true (Some Short) g)
  end.

(** context.py 1259-1273 [_exit_target_pos]. *)
Definition exit_target_pos (sd : side) (target : Q) (g : sig) : sig :=
  if Qltb 0 target then g else set_flags (g_cover g) true (Some sd) g.

(** context.py 1204-1257 [set_target_shares]; [price] is the close. [None] is a
    ValueError. *)
Definition set_target_shares (c : cfg) (p : port) (s : sym) (price : fnum) (target : Q) (sd : side) (g : sig) : option sig :=
  if Qltb target 0 then None
  else
    match price with
    | None => Some g
    | Some x =>
        if Qle_bool x 0 then Some g
        else
          match calc_target_shares c (p_equity p) target price None with
          | None => None
          | Some t =>
              Some (match sd with
                    | Long =>
                        match aget s (p_longs p) with
                        | None => set_buy (Some t) g
                        | Some pos =>
                            if Qltb (ps_shares pos) t then set_buy (Some (t - ps_shares pos)) g
                            else if Qltb t (ps_shares pos)
                            then exit_target_pos Long t (set_sell (Some (ps_shares pos - t)) g)
                            else g
                        end
                    | Short =>
                        match aget s (p_shorts p) with
                        | None => set_sell (Some t) g
                        | Some pos =>
                            if Qltb (ps_shares pos) t then set_sell (Some (t - ps_shares pos)) g
                            else if Qltb t (ps_shares pos)
                            then exit_target_pos Short t (set_cover (Some (ps_shares pos - t)) g)
                            else g
                        end
                    end)
          end
    end.
