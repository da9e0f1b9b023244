(** Vocabulary of C28: the terms of the orders rotation places. *)
From Verif Require Export TurnSpec.

(** Stop-loss, stop-profit and trailing stop as set by the user. *)
Definition stops_set (g : sig) :=
  ((g_loss g, g_loss_pct g, g_loss_limit g, g_loss_exit g), (g_profit g, g_profit_pct g, g_profit_limit g, g_profit_exit g),
   (g_trail g, g_trail_pct g, g_trail_limit g, g_trail_exit g)).
(** What rotation makes of the context [u] an execution function left: the user's own
    order is discarded; an order of rotation is a market order with the user's fill
    price for that side and the user's stops; a bar stop goes with an entry only; a
    symbol without an order keeps neither fill prices nor stops, so that nothing is
    rejected. *)
Record terms (u g : sig) : Prop := mkTerms {
  te_limits : g_blimit g = None /\ g_btimeout g = None /\ g_slimit g = None /\ g_stimeout g = None;
  te_scores : g_score g = g_score u /\ g_lscore g = g_lscore u /\ g_sscore g = g_sscore u;
  te_bfill : g_bfill g = match g_bshares g with Some _ => g_bfill u | None => None end;
  te_sfill : g_sfill g = match g_sshares g with Some _ => g_sfill u | None => None end;
  te_traded : g_bshares g <> None \/ g_sshares g <> None -> stops_set g = stops_set u;
  te_idle : g_bshares g = None -> g_sshares g = None -> stops_set g = stops_set no_signals /\ g_hold g = None /\ g_exit g = None;
  te_entry : g_bshares g <> None \/ g_sshares g <> None -> g_exit g = None -> g_hold g = g_hold u;
  te_exit : g_exit g <> None -> g_hold g = None;
  te_long : g_exit g = Some Long -> g_sshares g <> None;
  te_cover : g_cover g = true <-> g_exit g = Some Short;
  te_short : g_exit g = Some Short -> g_bshares g <> None;
  te_exiting : g_exiting g = true <-> g_exit g <> None
}.
