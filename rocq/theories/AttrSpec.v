(** What the attributes of an order should be after a function has set them. *)
From Verif Require Export PortfolioSpec AttrModel.
From Coq Require Import List QArith.
Import ListNotations.

(** Attributes that ask to cover. *)
Definition covering (a : attr) : Prop :=
  match a with CoverShares _ | CoverFill _ | CoverLimit _ | CoverAll => True | _ => False end.
(** What an assignment says about the shares, fill price, limit and timeout of each side, where "cover" is
    another name of "buy"; all of a position is its shares. *)
Definition buys (p : port) (s : sym) (a : attr) : option (option Q) :=
  match a with BuyShares q | CoverShares q => Some q | CoverAll => Some (option_map ps_shares (position_of p Short s)) | _ => None end.
Definition sells (p : port) (s : sym) (a : attr) : option (option Q) :=
  match a with SellShares q => Some q | SellAll => Some (option_map ps_shares (position_of p Long s)) | _ => None end.
Definition buys_at (a : attr) : option (option fill_spec) := match a with BuyFill f | CoverFill f => Some f | _ => None end.
Definition sells_at (a : attr) : option (option fill_spec) := match a with SellFill f => Some f | _ => None end.
Definition buy_limited (a : attr) : option (option fnum) := match a with BuyLimit l | CoverLimit l => Some l | _ => None end.
Definition sell_limited (a : attr) : option (option fnum) := match a with SellLimit l => Some l | _ => None end.
Definition buy_timed (a : attr) : option (option Z) := match a with BuyTimeout n => Some n | _ => None end.
Definition sell_timed (a : attr) : option (option Z) := match a with SellTimeout n => Some n | _ => None end.
Definition held_for (a : attr) : option (option Z) := match a with HoldBars n => Some n | _ => None end.
(** The exit of a position that was asked for. *)
Definition exits (a : attr) : option (option side) := match a with SellAll => Some (Some Long) | CoverAll => Some (Some Short) | _ => None end.
(** The last thing the assignments say; [None] when they say nothing. *)
Definition latest {V} (says : attr -> option (option V)) (l : list attr) (x : option V) : Prop :=
  (exists l1 a l2, l = l1 ++ a :: l2 /\ says a = Some x /\ forall b, In b l2 -> says b = None) \/
  ((forall b, In b l -> says b = None) /\ x = None).
(** A call that cannot be met: all shares of a position that is not there. *)
Definition absent (p : port) (s : sym) (a : attr) : Prop :=
  (a = SellAll /\ position_of p Long s = None) \/ (a = CoverAll /\ position_of p Short s = None).
