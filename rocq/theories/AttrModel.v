(** The attributes of the context through which a function asks for orders (context.py 445-480 and
    828-909): a function sets them one after the other, in any order and any number of times. Stops and
    scores are in ContextModel.v. *)
From Verif Require Export ContextModel.

(** Plain attributes: [buy_fill_price], [buy_limit_price], [buy_timeout_bars], [sell_fill_price],
    [sell_limit_price], [sell_timeout_bars] and [hold_bars] (context.py 450-476). *)
Definition set_bfill (x : option fill_spec) (g : sig) : sig :=
  mkSig (g_cover g) (g_exiting g) (g_exit g) x (g_bshares g) (g_blimit g) (g_btimeout g) (g_sfill g) (g_sshares g) (g_slimit g) (g_stimeout g) (g_hold g) (g_score g) (g_lscore g) (g_sscore g) (g_loss g) (g_loss_pct g) (g_loss_limit g) (g_loss_exit g) (g_profit g) (g_profit_pct g) (g_profit_limit g) (g_profit_exit g) (g_trail g) (g_trail_pct g) (g_trail_limit g) (g_trail_exit g).
Definition set_blimit (x : option fnum) (g : sig) : sig :=
  mkSig (g_cover g) (g_exiting g) (g_exit g) (g_bfill g) (g_bshares g) x (g_btimeout g) (g_sfill g) (g_sshares g) (g_slimit g) (g_stimeout g) (g_hold g) (g_score g) (g_lscore g) (g_sscore g) (g_loss g) (g_loss_pct g) (g_loss_limit g) (g_loss_exit g) (g_profit g) (g_profit_pct g) (g_profit_limit g) (g_profit_exit g) (g_trail g) (g_trail_pct g) (g_trail_limit g) (g_trail_exit g).
Definition set_btimeout (x : option Z) (g : sig) : sig :=
  mkSig (g_cover g) (g_exiting g) (g_exit g) (g_bfill g) (g_bshares g) (g_blimit g) x (g_sfill g) (g_sshares g) (g_slimit g) (g_stimeout g) (g_hold g) (g_score g) (g_lscore g) (g_sscore g) (g_loss g) (g_loss_pct g) (g_loss_limit g) (g_loss_exit g) (g_profit g) (g_profit_pct g) (g_profit_limit g) (g_profit_exit g) (g_trail g) (g_trail_pct g) (g_trail_limit g) (g_trail_exit g).
Definition set_sfill (x : option fill_spec) (g : sig) : sig :=
  mkSig (g_cover g) (g_exiting g) (g_exit g) (g_bfill g) (g_bshares g) (g_blimit g) (g_btimeout g) x (g_sshares g) (g_slimit g) (g_stimeout g) (g_hold g) (g_score g) (g_lscore g) (g_sscore g) (g_loss g) (g_loss_pct g) (g_loss_limit g) (g_loss_exit g) (g_profit g) (g_profit_pct g) (g_profit_limit g) (g_profit_exit g) (g_trail g) (g_trail_pct g) (g_trail_limit g) (g_trail_exit g).
Definition set_slimit (x : option fnum) (g : sig) : sig :=
  mkSig (g_cover g) (g_exiting g) (g_exit g) (g_bfill g) (g_bshares g) (g_blimit g) (g_btimeout g) (g_sfill g) (g_sshares g) x (g_stimeout g) (g_hold g) (g_score g) (g_lscore g) (g_sscore g) (g_loss g) (g_loss_pct g) (g_loss_limit g) (g_loss_exit g) (g_profit g) (g_profit_pct g) (g_profit_limit g) (g_profit_exit g) (g_trail g) (g_trail_pct g) (g_trail_limit g) (g_trail_exit g).
Definition set_stimeout (x : option Z) (g : sig) : sig :=
  mkSig (g_cover g) (g_exiting g) (g_exit g) (g_bfill g) (g_bshares g) (g_blimit g) (g_btimeout g) (g_sfill g) (g_sshares g) (g_slimit g) x (g_hold g) (g_score g) (g_lscore g) (g_sscore g) (g_loss g) (g_loss_pct g) (g_loss_limit g) (g_loss_exit g) (g_profit g) (g_profit_pct g) (g_profit_limit g) (g_profit_exit g) (g_trail g) (g_trail_pct g) (g_trail_limit g) (g_trail_exit g).
Definition set_hold (x : option Z) (g : sig) : sig :=
  mkSig (g_cover g) (g_exiting g) (g_exit g) (g_bfill g) (g_bshares g) (g_blimit g) (g_btimeout g) (g_sfill g) (g_sshares g) (g_slimit g) (g_stimeout g) x (g_score g) (g_lscore g) (g_sscore g) (g_loss g) (g_loss_pct g) (g_loss_limit g) (g_loss_exit g) (g_profit g) (g_profit_pct g) (g_profit_limit g) (g_profit_exit g) (g_trail g) (g_trail_pct g) (g_trail_limit g) (g_trail_exit g).
(** context.py 847-861 and 883-887: the setters of [cover_fill_price] and [cover_limit_price]. *)
Definition set_cover_fill (x : option fill_spec) (g : sig) : sig := set_flags true (g_exiting g) (g_exit g) (set_bfill x g).
Definition set_cover_limit (x : option fnum) (g : sig) : sig := set_flags true (g_exiting g) (g_exit g) (set_blimit x g).

Inductive attr : Type :=
| BuyShares (q : option Q) | BuyFill (f : option fill_spec) | BuyLimit (l : option fnum) | BuyTimeout (n : option Z)
| SellShares (q : option Q) | SellFill (f : option fill_spec) | SellLimit (l : option fnum) | SellTimeout (n : option Z)
| HoldBars (n : option Z)
| CoverShares (q : option Q) | CoverFill (f : option fill_spec) | CoverLimit (l : option fnum)
| SellAll | CoverAll.
(** One assignment or call; [None] is a ValueError. *)
Definition set_attr (p : port) (s : sym) (a : attr) (g : sig) : option sig :=
  match a with
  | BuyShares q => Some (set_buy q g) | BuyFill f => Some (set_bfill f g) | BuyLimit l => Some (set_blimit l g) | BuyTimeout n => Some (set_btimeout n g)
  | SellShares q => Some (set_sell q g) | SellFill f => Some (set_sfill f g) | SellLimit l => Some (set_slimit l g) | SellTimeout n => Some (set_stimeout n g)
  | HoldBars n => Some (set_hold n g)
  | CoverShares q => Some (set_cover q g) | CoverFill f => Some (set_cover_fill f g) | CoverLimit l => Some (set_cover_limit l g)
  | SellAll => sell_all_shares p s g | CoverAll => cover_all_shares p s g
  end.
(** The assignments of a function, from the cleared attributes it starts with. *)
Definition set_attrs (p : port) (s : sym) (l : list attr) (g : sig) : option sig :=
  fold_left (fun o a => match o with Some g => set_attr p s a g | None => None end) l (Some g).
