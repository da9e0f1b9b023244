(** Model of the settings of a run: src/pybroker/strategy.py 236-306 (the settings
    and their checks), 1951-1980 (a new strategy), 1984-2032 [_verify_config],
    2034-2089 (what a run resolves) and 2091-2153 (the setters).

    Hyperparameter names are numbers. A run value is a finite number, or something
    [int()] rejects; strings of digits, which [int()] reads, are left out, and so
    are the texts of errors and the deprecation warnings. *)
From Verif Require Export RotationModel.

(** ** The configuration *)
(** config.py 82-109, the fields that [_verify_config] looks at. *)
Record config : Type := mkConfig {
  f_initial_cash : Q; f_fee_amount : option Q;
  f_max_long : option Z; f_max_short : option Z;
  f_buy_delay : Z; f_sell_delay : Z; f_bootstrap_samples : Z;
  f_bars_per_year : option Z; f_leverage : Q; f_interest_rate : Q
}.
Definition not_positive (o : option Z) : bool := match o with Some m => (m <=? 0)%Z | None => false end.
Definition qltb (a b : Q) : bool := negb (Qle_bool b a).
(** 1984-2032 [_verify_config]; [false] is the ValueError. *)
Definition verify_config (f : config) : bool :=
  if Qle_bool (f_initial_cash f) 0 then false
  else if not_positive (f_max_long f) then false
  else if not_positive (f_max_short f) then false
  else if match f_fee_amount f with Some a => qltb a 0 | None => false end then false
  else if (f_buy_delay f <=? 0)%Z then false
  else if (f_sell_delay f <=? 0)%Z then false
  else if (f_bootstrap_samples f <=? 0)%Z then false
  else if qltb (f_leverage f) 1 then false
  else if qltb (f_interest_rate f) 0 then false
  else if qltb 0 (f_interest_rate f) && match f_bars_per_year f with None => true | Some _ => false end then false
  else true.

(** ** The setters *)
(** 248 [StrategySetting]: an int, some other number (not in the annotation, but
    accepted), or a hyperparameter. *)
Inductive setting : Type := SInt (z : Z) | SNum (q : Q) | SHyper (name : nat).
(** 1974-1979: the state of a strategy; [t_sizer]: a rotation sizer is set. *)
Record strat : Type := mkStrat {
  t_long : option setting; t_short : option setting; t_worst : option setting; t_sizer : bool
}.
Definition new_strat : strat := mkStrat None None None false.
Inductive call : Type :=
| SetLong (v : option setting)
| SetShort (v : option setting)
| EnableRotation (v : option setting) (sizer : bool).
(** 2099-2100, 2111-2112. *)
Definition bad_limit (v : option setting) : bool :=
  match v with Some (SInt z) => (z <=? 0)%Z | _ => false end.
(** 2091-2153; [None] is the ValueError. *)
Definition apply (c : call) (t : strat) : option strat :=
  match c with
  | SetLong v => if bad_limit v then None else Some (mkStrat v (t_short t) (t_worst t) (t_sizer t))
  | SetShort v => if bad_limit v then None else Some (mkStrat (t_long t) v (t_worst t) (t_sizer t))
  | EnableRotation None _ => Some (mkStrat (t_long t) (t_short t) None false)
  | EnableRotation (Some v) sizer => Some (mkStrat (t_long t) (t_short t) (Some v) sizer)
  end.
(** A strategy after a sequence of calls; the caller may catch the errors. *)
Definition calls (cs : list call) : strat :=
  fold_left (fun t c => match apply c t with Some t' => t' | None => t end) cs new_strat.

(** ** What a run uses *)
(** The values of a run, [None] for no values at all; [Some None]: a value that
    [int()] rejects. *)
Notation values := (option (nat -> option (option Q))).
Inductive failure : Type := NoValues | Unresolved | NotANumber | BadLong | BadShort | SizerAlone | BadWorst.
Inductive outcome (A : Type) : Type := Fine (a : A) | Fail (e : failure).
Arguments Fine {A}. Arguments Fail {A}.
(** [int(q)]: towards zero. *)
Definition int_of (q : Q) : Z := Z.quot (Qnum q) (QDen q).
(** 258-272 [_resolve_strategy_setting]. *)
Definition resolve_setting (v : option setting) (h : values) : outcome (option Z) :=
  match v with
  | None => Fine None
  | Some (SHyper name) =>
      match h with
      | None => Fail NoValues
      | Some values =>
          match values name with
          | None => Fail Unresolved
          | Some None => Fail NotANumber
          | Some (Some q) => Fine (Some (int_of q))
          end
      end
  | Some (SInt z) => Fine (Some z)
  | Some (SNum q) => Fine (Some (int_of q))
  end.
Definition then_ {A B} (x : outcome A) (f : A -> outcome B) : outcome B :=
  match x with Fine a => f a | Fail e => Fail e end.
(** 2048-2067: the configured value, unless the strategy has one. *)
Definition or_configured (o conf : option Z) : option Z := match o with Some z => Some z | None => conf end.
(** 2048-2067: both are given: a warning. *)
Definition warns (o conf : option Z) : bool := match o, conf with Some _, Some _ => true | _, _ => false end.
Definition to_nat (o : option Z) : option nat := option_map Z.to_nat o.
(** 2034-2082 [_resolve_backtest_settings]: the settings, and whether it warned
    about the long and about the short limit. [validate_worst_raises] is asked
    once the limits are positive; a negative rank is below both limits, as is 0. *)
Definition resolve_settings (f : config) (t : strat) (h : values) : outcome (settings * (bool * bool)) :=
  then_ (resolve_setting (t_long t) h) (fun long =>
  then_ (resolve_setting (t_short t) h) (fun short =>
  then_ (resolve_setting (t_worst t) h) (fun worst =>
  let warned := (warns long (f_max_long f), warns short (f_max_short f)) in
  let long := or_configured long (f_max_long f) in
  let short := or_configured short (f_max_short f) in
  if not_positive long then Fail BadLong
  else if not_positive short then Fail BadShort
  else if t_sizer t && match worst with None => true | Some _ => false end then Fail SizerAlone
  else if match worst with
          | Some w => validate_worst_raises (Z.to_nat w) (to_nat long) (to_nat short)
          | None => false
          end then Fail BadWorst
  else Fine (mkSettings (to_nat long) (to_nat short) (to_nat worst), warned)))).

(** 2084-2089 [_effective_config]. *)
Definition effective_config (f : config) (z : settings) : config :=
  mkConfig (f_initial_cash f) (f_fee_amount f) (option_map Z.of_nat (z_max_long z)) (option_map Z.of_nat (z_max_short z))
    (f_buy_delay f) (f_sell_delay f) (f_bootstrap_samples f) (f_bars_per_year f) (f_leverage f) (f_interest_rate f).
