(** Vocabulary for execution contexts. *)
From Verif Require Export PortfolioSpec ContextModel.

(** ** What a context may ask for *)
Definition some_stop (g : sig) : Prop :=
  g_loss g <> None \/ g_loss_pct g <> None \/ g_loss_limit g <> None \/ g_loss_exit g <> None \/
  g_profit g <> None \/ g_profit_pct g <> None \/ g_profit_limit g <> None \/ g_profit_exit g <> None \/
  g_trail g <> None \/ g_trail_pct g <> None \/ g_trail_limit g <> None \/ g_trail_exit g <> None.
(** Attributes that contradict each other whatever the order. *)
Definition contradictory (rotation : bool) (g : sig) : Prop :=
  (g_bshares g = None /\ (g_blimit g <> None \/ (g_bfill g <> None /\ g_hold g = None))) \/
  (g_sshares g = None /\ (g_slimit g <> None \/ (g_sfill g <> None /\ g_hold g = None))) \/
  (g_bshares g = None /\ g_sshares g = None /\ (some_stop g \/ g_hold g <> None)) \/
  (g_bshares g <> None /\ g_sshares g <> None) \/
  (g_score g <> None /\ (g_lscore g <> None \/ g_sscore g <> None \/ rotation = true)).
(** One kind of stop is described inconsistently: two distances, or a limit or
    exit price without a distance, or an exit price that is no price type. *)
Definition bad_stop (points percent limit : option Q) (ex : option (option price_type)) : Prop :=
  (points <> None /\ percent <> None) \/
  (points = None /\ percent = None /\ (limit <> None \/ ex <> None)) \/
  ex = Some None.
(** Attributes that make an order unusable. *)
Definition unusable (g : sig) : Prop :=
  g_blimit g = Some None \/ g_slimit g = Some None \/
  (exists h, g_hold g = Some h /\ (h <= 0)%Z) \/
  bad_stop (g_loss g) (g_loss_pct g) (g_loss_limit g) (g_loss_exit g) \/
  bad_stop (g_profit g) (g_profit_pct g) (g_profit_limit g) (g_profit_exit g) \/
  bad_stop (g_trail g) (g_trail_pct g) (g_trail_limit g) (g_trail_exit g).
(** The context asks for a non-zero number of shares. *)
Definition wants (g : sig) : Prop :=
  (exists q, g_bshares g = Some q /\ ~ q == 0) \/ (exists q, g_sshares g = Some q /\ ~ q == 0).
(** The stops a context describes, in order of creation: kind, bars, points,
    percent, limit and exit price. *)
Definition stop_shape := (stop_type * option Z * option Q * option Q * option Q * option price_type)%type.
Definition shape_of (st : stop) : stop_shape :=
  (st_type st, option_map Z.of_nat (st_bars st), st_points st, st_percent st, st_limit st, st_exit st).
Definition one_kind (ty : stop_type) (points percent limit : option Q) (ex : option (option price_type)) : list stop_shape :=
  match points, percent with
  | None, None => []
  | _, _ => [(ty, None, points, percent, limit, match ex with Some t => t | None => None end)]
  end.
Definition described (g : sig) : list stop_shape :=
  match g_hold g with Some h => [(SBar, Some h, None, None, None, None)] | None => [] end ++
  one_kind SLoss (g_loss g) (g_loss_pct g) (g_loss_limit g) (g_loss_exit g) ++
  one_kind SProfit (g_profit g) (g_profit_pct g) (g_profit_limit g) (g_profit_exit g) ++
  one_kind STrailing (g_trail g) (g_trail_pct g) (g_trail_limit g) (g_trail_exit g).
(** The stops of a result's order. *)
Definition result_stops (r : result) : list stop :=
  match (match r_buy r with Some _ => r_lstops r | None => r_sstops r end) with Some l => l | None => [] end.
