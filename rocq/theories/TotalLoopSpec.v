(** Vocabulary for C112 on backtests: data, slippage models and execution functions that leave
    nothing to fail. *)
From Verif Require Export TotalSpec LoopSpec ContextSpec.

(** The signals of a context contradict nothing, and give non-negative shares and positive
    limit and fill prices. *)
Record clean_signals (rotation : bool) (g : sig) : Prop := mkClean {
  cl_consistent : ~ contradictory rotation g;
  cl_usable : wants g -> ~ unusable g;
  cl_buy : forall q, g_bshares g = Some q -> 0 <= q;
  cl_sell : forall q, g_sshares g = Some q -> 0 <= q;
  cl_blimit : forall l, g_blimit g = Some (Some l) -> 0 < l;
  cl_slimit : forall l, g_slimit g = Some (Some l) -> 0 < l;
  cl_bfill : forall f, g_bfill g = Some f -> sane_fill f;
  cl_sfill : forall f, g_sfill g = Some f -> sane_fill f
}.
(** Under rotation the orders are not the user's: a context may give scores for the long and
    the short side, fill prices, a holding period and stops. *)
Record clean_scores (g : sig) : Prop := mkCleanScores {
  cs_score : g_score g = None;
  cs_hold : forall h, g_hold g = Some h -> (0 < h)%Z;
  cs_loss : ~ bad_stop (g_loss g) (g_loss_pct g) (g_loss_limit g) (g_loss_exit g);
  cs_profit : ~ bad_stop (g_profit g) (g_profit_pct g) (g_profit_limit g) (g_profit_exit g);
  cs_trail : ~ bad_stop (g_trail g) (g_trail_pct g) (g_trail_limit g) (g_trail_exit g);
  cs_bfill : forall f, g_bfill g = Some f -> sane_fill f;
  cs_sfill : forall f, g_sfill g = Some f -> sane_fill f
}.
(** What a rotation sizer may be given and may answer: one order at most, of a non-negative number
    of shares, limit prices with an order only, and the rest as above. *)
Record clean_sized (g : sig) : Prop := mkCleanSized {
  sz_scores : clean_scores g;
  sz_one : g_bshares g = None \/ g_sshares g = None;
  sz_buy : forall q, g_bshares g = Some q -> 0 <= q;
  sz_sell : forall q, g_sshares g = Some q -> 0 <= q;
  sz_blimit : forall l, g_blimit g = Some l -> g_bshares g <> None /\ exists y, l = Some y /\ 0 < y;
  sz_slimit : forall l, g_slimit g = Some l -> g_sshares g <> None /\ exists y, l = Some y /\ 0 < y
}.
(** One window: either no rotation, or rotation with at least one slot, distinct symbols and a
    sizer, if there is one, that does well what it is given well; positive prices wherever there
    is one, a slippage model that answers with a positive price and between none and all of the
    shares, and clean signals on every bar, for every account that calls can lead to and
    whatever is pending. *)
Record tame (v : env) : Prop := mkTame {
  tm_rotation : z_worst (v_settings v) <> None -> NoDup (v_syms v) /\
    exists n, z_max_long (v_settings v) = Some (S n) \/ z_max_short (v_settings v) = Some (S n);
  tm_sizer : forall f ops p i x lr sr, v_sizer v = Some f -> run (v_cfg v) ops = Some p ->
    (forall s g, In (s, g) x -> clean_sized g) -> forall s g, In (s, g) x -> clean_sized (f i p x lr sr s);
  tm_scope : forall i, priced (v_scope v i);
  tm_fetch : forall i s f x, sane_fill f -> v_fetch v i s f = Some x -> 0 < x;
  tm_exit : forall i s, 0 < fst (v_exit_fill v i s) /\ 0 < snd (v_exit_fill v i s);
  tm_slip : match v_slip v with
            | SlipNone => True
            | SlipFixed f => forall o x, 0 < x -> 0 < f o x
            | SlipAny f => forall i o s n x, 0 <= n -> 0 < x ->
                0 <= fst (f i o s n x) /\ fst (f i o s n x) <= n /\ 0 < snd (f i o s n x)
            end;
  tm_exit_slip : forall i, match v_sm v i with
            | None => True
            | Some f => forall o s n x, 0 < x -> exists y, f o s n x = Some y /\ 0 < y
            end;
  tm_user : forall ops p i d k x s, run (v_cfg v) ops = Some p ->
    match z_worst (v_settings v) with
    | None => clean_signals false (u_sigs (v_user v i d p k x) s)
    | Some _ => clean_scores (u_sigs (v_user v i d p k x) s)
    end
}.
