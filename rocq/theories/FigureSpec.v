(** What an open position reports: what C111 says. *)
From Verif Require Export RecordSpec.

(** The last bar since the position on side [sd] of [s] was opened on which the symbol
    had a close: the account before that bar was captured, and the close. *)
Definition last_priced (c : cfg) (ops : list op) (sd : side) (s : sym) : option (port * Q) :=
  fold_left (fun m x =>
    match x with
    | (q, o, q') =>
        match position_of q' sd s with
        | None => None
        | Some _ =>
            match o with
            | OpCapture _ bar => match close_of bar s with Some x => Some (q, x) | None => m end
            | _ => m
            end
        end
    end) (history c ops) None.

(** Bars counted since the position was opened. *)
Definition bars_held (c : cfg) (ops : list op) (sd : side) (s : sym) : nat :=
  fold_left (fun n x =>
    match x with
    | (_, o, q') =>
        match position_of q' sd s with
        | None => 0%nat
        | Some _ => match o with OpIncr _ => S n | _ => n end
        end
    end) (history c ops) 0%nat.

(** The figures of the position [pos] are those of side [sd] of [s] in the account [q] at
    the close [x]: the gain of its entries; for a long, its shares at the close; for a
    short, its shares at the close as margin, and a market value that is margin and gain
    together. *)
Definition figures_at (q : port) (sd : side) (s : sym) (x : Q) (pos : position) : Prop :=
  ps_close pos = x /\ ps_pnl pos == gain_of q sd s x /\
  match sd with
  | Long => ps_equity pos == shares_held q Long s * x /\ ps_mv pos == shares_held q Long s * x /\ ps_margin pos == 0
  | Short => ps_equity pos == 0 /\ ps_margin pos == shares_held q Short s * x
             /\ ps_mv pos == shares_held q Short s * x + gain_of q Short s x
  end.
Definition no_figures (pos : position) : Prop :=
  ps_close pos == 0 /\ ps_equity pos == 0 /\ ps_mv pos == 0 /\ ps_margin pos == 0 /\ ps_pnl pos == 0.

(** The entries of a position made since the mark [m] (see [last_mark]); all of them when
    it has not been marked. *)
Definition made_since (m : option (Q * nat)) (es : list entry) : list entry :=
  filter (fun e => match m with Some (_, n) => Nat.ltb n (e_id e) | None => true end) es.

(** A bar of the backtest loop (strategy.py 857-1045): stops are checked, then orders are
    filled, all of symbols that have a close on the bar, then the bar is captured; after
    it positions may be exited, stops removed and bars counted. *)
Definition places (o : op) : option sym := match o with OpBuy a | OpSell a => Some (a_sym a) | _ => None end.
Definition captures (o : op) : Prop := match o with OpCapture _ _ => True | _ => False end.
Definition checks (o : op) : Prop := match o with OpCheckStops _ _ _ => True | _ => False end.
Definition loop_bar (ops : list op) : Prop := exists before fills d bar after,
  ops = before ++ fills ++ OpCapture d bar :: after
  /\ (forall o, In o before -> places o = None /\ ~ captures o)
  /\ (forall o, In o fills -> ~ checks o /\ ~ captures o /\ forall s, places o = Some s -> close_of bar s <> None)
  /\ (forall o, In o after -> places o = None /\ ~ captures o /\ ~ checks o).
