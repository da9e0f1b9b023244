(** A context on which nothing is set. *)
From Verif Require Export ContextModel.

Record blank (g : sig) : Prop := mkBlank {
  bl_flags : g_cover g = false /\ g_exiting g = false /\ g_exit g = None;
  bl_buy : g_bfill g = None /\ g_bshares g = None /\ g_blimit g = None /\ g_btimeout g = None;
  bl_sell : g_sfill g = None /\ g_sshares g = None /\ g_slimit g = None /\ g_stimeout g = None;
  bl_hold : g_hold g = None; bl_score : g_score g = None /\ g_lscore g = None /\ g_sscore g = None;
  bl_loss : g_loss g = None /\ g_loss_pct g = None /\ g_loss_limit g = None /\ g_loss_exit g = None;
  bl_profit : g_profit g = None /\ g_profit_pct g = None /\ g_profit_limit g = None /\ g_profit_exit g = None;
  bl_trail : g_trail g = None /\ g_trail_pct g = None /\ g_trail_limit g = None /\ g_trail_exit g = None
}.
