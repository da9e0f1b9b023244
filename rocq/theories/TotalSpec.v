(** Vocabulary for C112: calls that leave nothing to fail. *)
From Verif Require Export PortfolioSpec.

(** A fill price given as a number is positive. *)
Definition sane_fill (f : fill_spec) : Prop := match f with FNum q => 0 < q | _ => True end.
(** The symbols that can be priced have positive prices, also as fill prices. *)
Definition priced (sc : scope) : Prop :=
  forall s, sc_can_price sc s = true ->
    (forall t, 0 < sc_price sc s t) /\ (forall f, sane_fill f -> 0 < sc_fetch sc s f).
(** A price stop has a distance, a bar stop a number of bars and no fill price of zero or less. *)
Definition usable_stop (st : stop) : Prop :=
  stop_sized st /\
  (st_type st = SBar -> (exists n, st_bars st = Some n) /\ forall f, st_fill st = Some f -> sane_fill f).
(** A call with usable stops and, when stops are checked, positive prices. Nothing is asked
    of the shares, fill and limit prices of orders, of the prices and slippage of exits, of
    the slippage of stops or of the bars that are marked. *)
Definition fair_call (o : op) : Prop :=
  (forall st, In st (op_stops o) -> usable_stop st) /\
  match o with OpCheckStops _ sc _ => priced sc | _ => True end.
