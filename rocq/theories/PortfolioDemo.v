(** Concrete histories that meet the hypotheses of the portfolio theorems. *)
From Verif Require Export PortfolioSpec.

(** A margin account: leverage 2, 0.1 per share in fees, 5% interest over 252
    bars per year, at most three long and two short positions. *)
Definition demo_cfg : cfg :=
  mkCfg 10000 (Some FeePerShare) (Some (1#10)) false PMDefault (Some 3%nat) (Some 2%nat) 2 5 (Some 252).
(** The same account without leverage, fees or shorting. *)
Definition cash_demo_cfg : cfg := mkCfg 10000 None None true PMLongOnly None None 1 5 (Some 252).

Definition ord_ (d : Z) (s : sym) (n x : Q) (l : option Q) (ss : option (list stop)) : oargs :=
  mkOArgs d s n x l ss None OMarket (Some x).
Definition trail_stop : stop := mkStop 1 0%nat STrailing Long (Some 5) None None None None None.
Definition profit_stop : stop := mkStop 2 0%nat SProfit Long None (Some 30) None None None None.
Definition short_loss : stop := mkStop 3 1%nat SLoss Short (Some 10) None None None None None.
Definition short_bars : stop := mkStop 4 1%nat SBar Short None None (Some 3%nat) None None None.
Definition bar_ (a b : Q * Q * Q) : bar_fn :=
  fun s => match s with
           | 0%nat => let '(l, h, c) := a in Some (c, Some l, Some h)
           | 1%nat => let '(l, h, c) := b in Some (c, Some l, Some h)
           | _ => None
           end.
Definition scope_ (a b : Q * Q * Q) : scope :=
  let f (s : sym) (t : price_type) : Q :=
    let '(l, h, c) := match s with 0%nat => a | _ => b end in
    match t with PTLow => l | PTHigh => h | PTClose => c | _ => (l + h) / 2 end in
  mkScope (fun s => Nat.ltb s 2) f (fun s fs => match fs with FNum q => q | FType t => f s t | FCall _ => f s PTMiddle end).
Definition everyone (s : sym) : bool := true.

(** Three bars; the trailing stop of symbol 0 fires on the third. *)
Definition bar1 := ((98, 104, 103), (48, 52, 50)).
Definition bar2 := ((102, 112, 110), (47, 51, 48)).
Definition bar3 := ((104, 111, 105), (46, 49, 47)).
Definition demo1 : list op :=
  [ OpBuy (ord_ 1 0%nat 10 100 None (Some [profit_stop; trail_stop]));
    OpCapture 1 (bar_ (fst bar1) (snd bar1)); OpIncr everyone;
    OpCheckStops 2 (scope_ (fst bar2) (snd bar2)) None;
    OpSell (ord_ 2 0%nat 4 110 (Some 109) None);
    OpSell (ord_ 2 1%nat 20 50 None (Some [short_bars; short_loss]));
    OpCapture 2 (bar_ (fst bar2) (snd bar2)); OpIncr everyone ].
Definition demo2 : list op := demo1 ++ [ OpBuy (ord_ 2 0%nat 5 111 None None) ].
Definition demo : list op :=
  demo2 ++ [ OpCheckStops 3 (scope_ (fst bar3) (snd bar3)) None;
    OpCapture 3 (bar_ (fst bar3) (snd bar3)); OpIncr everyone ].
Definition state (c : cfg) (ops : list op) : port := match run c ops with Some p => p | None => init c end.
