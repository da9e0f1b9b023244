(** Vocabulary: studies that look at nothing but their objective, and the score of
    given values on a training window. *)
From Verif Require Export OptWalkModel SelectSpec.

(** The study depends on what the objective returns, not on how. *)
Definition extensional (search : window -> (values -> HyperModel.res HyperModel.score) -> HyperModel.res (list HyperModel.trial * (values * HyperModel.score))) : Prop :=
  forall w f g, (forall p, f p = g p) -> search w f = search w g.
(** Every window of the list is studied by someone. *)
Definition everyone_studied (n : nat) (sched : list nat) : Prop := forall i, (i < n)%nat -> In i sched.
(** The rows of the training window. *)
Definition training_rows {R} (all : list sym) (w : window) (m : market R) : trows R :=
  map (fun s => (s, filter (fun r => Z.leb (fst w) (fst r) && Z.leb (fst r) (snd w)) (m s))) all.
(** The configuration with the position limits of [z], and nothing else changed. *)
Definition limits_of (z : settings) (base c : cfg) : Prop :=
  c_max_long c = z_max_long z /\ c_max_short c = z_max_short z /\
  c_cash c = c_cash base /\ c_fee_mode c = c_fee_mode base /\ c_fee_amount c = c_fee_amount base /\ c_fractional c = c_fractional base /\
  c_mode c = c_mode base /\ c_leverage c = c_leverage base /\ c_rate c = c_rate base /\ c_bpy c = c_bpy base.
(** [z] trades as [y] does, from the account [c] and the memory [u], exiting on the
    last bar of [last] if [y] exits on last bars. *)
Definition trades_as {U R} (y : strategy U R) (c : cfg) (u : U) (last : exit_rule) (z : strategy U R) : Prop :=
  y_cfg z = c /\ y_init z = u /\ y_exit_last z = match y_exit_last y with NoExit => NoExit | _ => last end /\
  y_all z = y_all y /\ y_syms z = y_syms y /\ y_buy_delay z = y_buy_delay y /\ y_sell_delay z = y_sell_delay y /\
  y_sort_long z = y_sort_long y /\ y_sort_short z = y_sort_short y /\ y_warmup z = y_warmup y /\ y_settings z = y_settings y /\
  y_scope z = y_scope y /\ y_bar z = y_bar y /\ y_fetch z = y_fetch y /\ y_close z = y_close y /\ y_exit_fill z = y_exit_fill y /\
  y_slip z = y_slip y /\ y_sm z = y_sm y /\ y_user z = y_user y /\ y_next z = y_next y /\ y_sizer z = y_sizer y.
(** [st] ends a backtest of [y] on window [w] alone, from a fresh account with the
    limits of [y]. *)
Definition backtest_alone {U R} (base : cfg) (u : U) (m : market R) (w : window) (y : strategy U R) (st : bstate * U) : Prop :=
  exists c z, limits_of (y_settings y) base c /\ trades_as y c u LastOfWindow z /\ market_run z m [w] = Some st.
(** [s] is the score of the values [p] on the training window: [score_fn] of a
    backtest of the strategy they make, on that window alone. *)
Definition scores {U R} (all : list sym) (base : cfg) (u : U) (build : trows R -> list (list sym) -> values -> option (strategy U R))
    (score_fn : values -> trows R -> port -> HyperModel.res HyperModel.score) (m : market R) (train : window) (ls : list (list sym)) (p : values) (s : HyperModel.score) : Prop :=
  exists y st, build (training_rows all train m) ls p = Some y /\ backtest_alone base u m train y st /\
    score_fn p (training_rows all train m) (b_port (fst st)) = ok s.

(** The study of one window: the executions resolve to [ls] on the training rows,
    and the study of the scores found [ts], the values [p] and the score [s]. *)
Definition studied {U R} (all : list sym) (execs : list (symbols R)) (base : cfg) (u : U) (build : trows R -> list (list sym) -> values -> option (strategy U R))
    (score_fn : values -> trows R -> port -> HyperModel.res HyperModel.score)
    (search : window -> (values -> HyperModel.res HyperModel.score) -> HyperModel.res (list HyperModel.trial * (values * HyperModel.score)))
    (m : market R) (train : window) (r : wresult) : Prop :=
  resolve (training_rows all train m) execs = Some (ws_syms r) /\
  exists f, (forall p s, f p = ok s <-> scores all base u build score_fn m train (ws_syms r) p s) /\ search train f = ok (ws_study r, (ws_params r, ws_score r)).
(** The windows replayed one after the other, each with the symbols and the values
    of its own study, from where the one before ended. *)
Inductive replayed {U R} (all : list sym) (order : list sym -> list sym) (c : cfg) (u : U) (build : trows R -> list (list sym) -> values -> option (strategy U R)) (m : market R)
    : list wsplit -> list wresult -> bstate * U -> bstate * U -> Prop :=
| replayed_none st : replayed all order c u build m [] [] st st
| replayed_one train w splits r rs y z st st1 st' :
    build (training_rows all train m) (ws_syms r) (ws_params r) = Some y -> trades_as y c u LastOfData z ->
    one_window order true m None z w st = Some st1 -> replayed all order c u build m splits rs st1 st' ->
    replayed all order c u build m ((train, w) :: splits) (r :: rs) st st'.
Definition limit (z : settings) (sd : side) : option nat := match sd with Long => z_max_long z | Short => z_max_short z end.
