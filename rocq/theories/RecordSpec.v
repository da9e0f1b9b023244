(** What is recorded per bar: what C75 and C76 say. *)
From Coq Require Import Sorting.Sorted.
From Verif Require Export RecordModel PortfolioSpec.

(** ** Position rows *)
Definition is_held (p : port) (s : sym) : Prop := exists sd, position_of p sd s <> None.
(** What the open entries of one side of a symbol cost, and gain at price [x]. *)
Definition cost_of (p : port) (sd : side) (s : sym) : Q := Qsum (map (fun e => e_shares e * e_price e) (queue p sd s)).
Definition gain_of (p : port) (sd : side) (s : sym) (x : Q) : Q := Qsum (map (fun e => e_shares e * gain sd (e_price e) x) (queue p sd s)).
(** The row [w] of the date [d] says what the account [p] holds of a symbol at
    its close in [bar]. *)
Record describes (p : port) (d : Z) (bar : bar_fn) (w : prow) : Prop := mkDescribes {
  ds_date : w_date w = d;
  ds_close : close_of bar (w_sym w) = Some (w_close w);
  ds_long : w_long w == shares_held p Long (w_sym w);
  ds_short : w_short w == shares_held p Short (w_sym w);
  ds_upnl : w_upnl w == gain_of p Long (w_sym w) (w_close w) + gain_of p Short (w_sym w) (w_close w);
  ds_margin : w_margin w == shares_held p Short (w_sym w) * w_close w;
  ds_equity : w_equity w == shares_held p Long (w_sym w) * w_close w + (cost_of p Short (w_sym w) + gain_of p Short (w_sym w) (w_close w));
  ds_mv : w_mv w == shares_held p Long (w_sym w) * w_close w + cost_of p Short (w_sym w)
}.
(** One row for each symbol that is held and has a close, in symbol order. *)
Definition one_row_each (p : port) (bar : bar_fn) (rows : list prow) : Prop :=
  StronglySorted lt (map w_sym rows) /\ forall s, In s (map w_sym rows) <-> is_held p s /\ close_of bar s <> None.

(** ** Stop records *)
(** The record [r] beside the order [o] that executed the stop, if any. *)
Definition accounted (r : srec) (o : option order) : Prop :=
  match o with
  | Some o => o_side o = exit_oside (sr_pos r) /\ o_sym o = sr_sym r /\ o_date o = sr_date r /\
      o_type o = stop_order_type (sr_type r) /\ o_limit o = sr_limit r /\ sr_fill r = Some (o_fill o)
  | None => sr_fill r = None \/ exists x, sr_fill r = Some x /\ beyond_limit (exit_oside (sr_pos r)) x (sr_limit r)
  end.
Definition orders_in (l : list (srec * option order)) : list order :=
  flat_map (fun x => match snd x with Some o => [o] | None => [] end) l.

(** [st] is a stop of the open entry [e] of the account [p]. *)
Definition on_entry (p : port) (e : entry) (st : stop) : Prop :=
  In e (queue p (st_pos st) (st_sym st)) /\ In st (e_stops e).
(** The record names a stop of an open entry of [p] and its settings; for a bar
    stop, the bars the entry has been held. *)
Definition names_stop (p : port) (r : srec) (e : entry) (st : stop) : Prop :=
  on_entry p e st /\ sr_id r = st_id st /\ sr_sym r = st_sym st /\ sr_pos r = st_pos st /\ sr_type r = st_type st /\
  sr_limit r = st_limit st /\ sr_exit r = st_exit st /\ sr_bars r = match st_type st with SBar => Some (e_symbars e) | _ => None end.
(** A new level protects at least as much as the old one. *)
Definition not_looser (sd : side) (v v' : Q) : Prop := match sd with Long => v <= v' | Short => v' <= v end.
(** The level shown: that of [p] before the bar, except that a trailing stop
    that did not trigger may have moved in the position's favour. *)
Definition shows_level (p : port) (r : srec) : Prop :=
  match sr_type r with
  | SBar => sr_value r = None
  | _ => exists v v', level p (sr_id r) = Some v /\ sr_value r = Some v' /\ not_looser (sr_pos r) v v' /\
           (sr_type r <> STrailing \/ sr_fill r <> None -> v' = v)
  end.
(** The records a check of the stops of [p] on the date [d] adds, each with the
    order that executed the stop, if one did; [p'] is the account after it. *)
Record stop_log (d : Z) (sc : scope) (p p' : port) (l : list (srec * option order)) : Prop := mkStopLog {
  sg_orders : p_orders p' = p_orders p ++ orders_in l;
  sg_date : Forall (fun x => sr_date (fst x) = d) l;
  sg_accounted : Forall (fun x => accounted (fst x) (snd x)) l;
  sg_names : Forall (fun x => sc_can_price sc (sr_sym (fst x)) = true /\ exists e st, names_stop p (fst x) e st) l;
  sg_levels : Forall (fun x => shows_level p (fst x)) l;
  sg_kept : Forall (fun x => forall v, level p' (sr_id (fst x)) = Some v -> sr_value (fst x) = Some v) l;
  sg_once : NoDup (map (fun x => sr_id (fst x)) l);
  sg_all : forall e st, on_entry p e st -> sc_can_price sc (st_sym st) = true ->
     In (st_id st) (map (fun x => sr_id (fst x)) l) \/
     exists r o st', In (r, Some o) l /\ on_entry p e st' /\ sr_id r = st_id st'
}.

(** ** Position rows and the portfolio row of the same bar *)
(** The rows [ws] of a bar add up to its portfolio row [b]. The market values of
    the positions add up to the account's equity and their equities to its market
    value: the two columns are named the other way round. *)
Record adds_up (ws : list prow) (b : pbar) : Prop := mkAddsUp {
  au_equity : b_equity b == b_net_cash b + Qsum (map w_mv ws);
  au_mv : b_mv b == b_net_cash b + Qsum (map w_equity ws);
  au_margin : b_margin b == Qsum (map w_margin ws);
  au_notional : b_notional b == Qsum (map (fun w => (w_long w + w_short w) * w_close w) ws);
  au_upnl : b_upnl b == Qsum (map (fun w => w_equity w - w_mv w) ws)
}.
Definition cost_both (p : port) (s : sym) : Q := cost_of p Long s + cost_of p Short s.
