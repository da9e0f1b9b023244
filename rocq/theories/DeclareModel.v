(** Model of what the executions of a strategy declare and what a run prepares for
    them: [Strategy.add_execution], [_all_intervals], [_symbol_intervals],
    [_build_interval_data], [_indicator_syms] and the requested models of
    src/pybroker/strategy.py, [compress_intervals_from_frame] of interval.py,
    [_resolve_executions] of common.py, [collect_hyperparams] and
    [build_run_hyperparams] of optimize.py, and [interval], [hyperparam] of
    [ExecContext] in context.py.

    Names are strings and the names of variants are built and parsed as in
    TextModel. Symbols are numbers; values of hyperparameters are integers. A set
    is a list, read only by membership. An object's identity ([is]) is a number. *)
From Verif Require Export TextModel.
Open Scope list_scope.
Open Scope nat_scope.

Inductive exc := ValueError | TypeError | KeyError.
Inductive res (A : Type) := Ok (a : A) | Raise (e : exc).
Arguments Ok {A}. Arguments Raise {A}.
Definition bind {A B} (x : res A) (f : A -> res B) : res B := match x with Ok a => f a | Raise e => Raise e end.
Definition check (b : bool) (e : exc) : res unit := if b then Ok tt else Raise e.
Fixpoint each {A B} (f : A -> res B) (l : list A) : res (list B) :=
  match l with [] => Ok [] | x :: r => bind (f x) (fun y => bind (each f r) (fun t => Ok (y :: t))) end.

Fixpoint nmem (x : nat) (l : list nat) : bool := match l with [] => false | y :: r => Nat.eqb x y || nmem x r end.
(** A dict keyed by names; the newest entry is first. *)
Definition sset {V} (k : str) (v : V) (l : list (str * V)) : list (str * V) := (k, v) :: l.
Definition shas {V} (k : str) (l : list (str * V)) : bool := match sget k l with Some _ => true | None => false end.

(** ** Registered objects (scope.py 180-215, 357-376) *)
(** optimize.py 52-81; only the name and the default. *)
Record hyper := mk_hyper { h_id : nat; h_name : str; h_default : Z }.
(** indicator.py 95-114: an [Indicator]; [i_hypers] are [hyperparam_names]. *)
Record indicator := mk_ind { i_id : nat; i_name : str; i_hypers : list str }.
(** model.py: a [ModelSource]: [s_trainer] for a [ModelTrainer], its indicators, and
    the hyperparameters in its kwargs. *)
Record source := mk_source { s_id : nat; s_name : str; s_trainer : bool; s_indicators : list str; s_hypers : list str }.
Record scope := mk_scope { g_inds : list (str * indicator); g_sources : list (str * source); g_hypers : list (str * hyper) }.
Definition new_scope : scope := mk_scope [] [] [].

(** indicator.py 349-368: [indicator]. *)
Definition register_ind (i : indicator) (g : scope) : res scope :=
  if validate_source_name (i_name i) then Ok (mk_scope (sset (i_name i) i (g_inds g)) (g_sources g) (g_hypers g)) else Raise ValueError.
(** model.py 1699-1760: [model]; the other checks of its arguments are left out. *)
Definition register_source (s : source) (g : scope) : res scope :=
  if validate_source_name (s_name s) then Ok (mk_scope (g_inds g) (sset (s_name s) s (g_sources g)) (g_hypers g)) else Raise ValueError.
(** optimize.py 194-218: [hyperparam]. *)
Definition register_hyper (h : hyper) (g : scope) : res scope :=
  Ok (mk_scope (g_inds g) (g_sources g) (sset (h_name h) h (g_hypers g))).

(** ** [add_execution] *)
(** An entry of [models] or [indicators]: an object, an object bound to intervals,
    or something of another type. *)
Inductive entry (A : Type) := Plain (a : A) | Bound (a : A) (l : list interval) | Wrong.
Arguments Plain {A}. Arguments Bound {A}. Arguments Wrong {A}.
(** The arguments. [a_symbols] is [None] for a selector. [a_hyperparams] has [None]
    for an object of another type. [a_hashable]: [args] and [kwargs] are hashable.
    [fn] is left out. *)
Record request := mk_request {
  a_symbols : option (list nat);
  a_models : list (entry source);
  a_inds : list (entry indicator);
  a_hyperparams : list (option hyper);
  a_intervals : option (list interval);
  a_hashable : bool }.
(** strategy.py 608-641: [Execution]. *)
Record execution := mk_exec {
  x_id : nat;
  x_symbols : option (list nat);
  x_models : list str;
  x_inds : list str;
  x_intervals : list interval;
  x_hypers : list str }.
(** common.py 659-667: [_static_symbols]. *)
Definition static_symbols (x : execution) : list nat := match x_symbols x with Some l => l | None => [] end.

(** strategy.py 2368-2400, 2430-2456: the checks of an entry, in their order. For an
    interval binding, [bindable] is whether the object may have one. *)
Definition entry_intervals {A} (bindable : A -> bool) (e : entry A) : res (list interval) :=
  match e with
  | Plain _ => Ok []
  | Bound a l => if bindable a then match normalize_intervals l true with Some r => Ok r | None => Raise ValueError end else Raise ValueError
  | Wrong => Raise TypeError
  end.
Definition is_base (i : interval) : bool := interval_eqb i (Named base_interval).
(** 2401-2411, 2457-2467: the variants' names and the intervals of a binding. *)
Definition variant_names {A} (name : str) (e : entry A) (l : list interval) : res (list str * list interval) :=
  let tfs := filter (fun i => negb (is_base i)) l in
  let base := match e with Bound _ _ => existsb is_base l | _ => true end in
  bind (each (fun tf => match indicator_interval_name name tf with Some n => Ok n | None => Raise ValueError end) tfs) (fun ns =>
    Ok ((if base then [name] else []) ++ ns, tfs)).
(** One entry of [models] (2355-2411). *)
Definition entry_source (e : entry source) : option source := match e with Plain s | Bound s _ => Some s | Wrong => None end.
Definition add_model (g : scope) (e : entry source) : res (list str * list interval) :=
  match entry_source e with
  | None => Raise TypeError
  | Some s =>
      bind (entry_intervals s_trainer e) (fun l =>
        match sget (s_name s) (g_sources g) with
        | None => Raise ValueError
        | Some r => bind (check (Nat.eqb (s_id s) (s_id r)) ValueError) (fun _ => variant_names (s_name s) e l)
        end)
  end.
(** One entry of [indicators] (2417-2467). *)
Definition entry_indicator (e : entry indicator) : option indicator := match e with Plain i | Bound i _ => Some i | Wrong => None end.
Definition add_indicator (g : scope) (e : entry indicator) : res (list str * list interval) :=
  match entry_indicator e with
  | None => Raise TypeError
  | Some i =>
      bind (entry_intervals (fun _ => true) e) (fun l =>
        match sget (i_name i) (g_inds g) with
        | None => Raise ValueError
        | Some r => bind (check (Nat.eqb (i_id i) (i_id r)) ValueError) (fun _ => variant_names (i_name i) e l)
        end)
  end.
(** 2471-2485: an entry of [hyperparams]. *)
Definition add_hyper (g : scope) (h : option hyper) : res str :=
  match h with
  | None => Raise TypeError
  | Some h =>
      match sget (h_name h) (g_hypers g) with
      | None => Raise ValueError
      | Some r => if Nat.eqb (h_id h) (h_id r) then Ok (h_name h) else Raise ValueError
      end
  end.
(** 2334-2351: the symbols. *)
Definition check_symbols (syms : option (list nat)) (execs : list execution) : res unit :=
  match syms with
  | None => Ok tt
  | Some [] => Raise ValueError
  | Some l => check (forallb (fun s => negb (existsb (fun x => nmem s (static_symbols x)) execs)) l) ValueError
  end.
(** A strategy: [_execution_id] and [_executions]. *)
Record strategy := mk_strategy { t_id : nat; t_execs : list execution }.
Definition new_strategy : strategy := mk_strategy 0 [].
(** 2334-2493: the execution that would be added. *)
Definition make_execution (g : scope) (a : request) (t : strategy) : res execution :=
  bind (check_symbols (a_symbols a) (t_execs t)) (fun _ =>
  bind (each (add_model g) (a_models a)) (fun ms =>
  bind (each (add_indicator g) (a_inds a)) (fun is =>
  bind (each (add_hyper g) (a_hyperparams a)) (fun hs =>
  bind (match a_intervals a with
        | None => Ok []
        | Some l => match normalize_intervals l false with Some r => Ok r | None => Raise ValueError end
        end) (fun tfs =>
  Ok (mk_exec (S (t_id t)) (a_symbols a) (concat (map fst ms)) (concat (map fst is))
        (tfs ++ concat (map snd ms) ++ concat (map snd is)) hs)))))).
(** 2494-2507: the id is taken before the execution is hashed into the set. *)
Definition add_execution (g : scope) (a : request) (t : strategy) : strategy * res unit :=
  match make_execution g a t with
  | Raise e => (t, Raise e)
  | Ok x =>
      let t := mk_strategy (S (t_id t)) (t_execs t) in
      if a_hashable a then (mk_strategy (t_id t) (t_execs t ++ [x]), Ok tt) else (t, Raise TypeError)
  end.

(** ** A run *)
(** 644-651: [_all_intervals]. *)
Definition all_intervals (execs : list execution) : list interval := concat (map x_intervals execs).
(** 654-680: [_symbol_intervals]; [frame]: the symbols of the frame. *)
Definition selector_intervals (execs : list execution) : list interval :=
  concat (map (fun x => match x_symbols x with None => x_intervals x | Some _ => [] end) execs).
Definition symbol_intervals (execs : list execution) (frame : list nat) (sym : nat) : list interval :=
  concat (map (fun x => if nmem sym (static_symbols x) then x_intervals x else []) execs) ++
  (if nmem sym frame then selector_intervals execs else []).
(** interval.py 1344-1377: the (symbol, interval) pairs that are compressed. *)
Definition compressed_pairs (execs : list execution) (frame : list nat) : list (nat * interval) :=
  concat (map (fun s => map (pair s) (symbol_intervals execs frame s)) frame).
(** strategy.py 2179-2211: [_build_interval_data]. [blank]: the timeframe is blank;
    [valid]: [validate_interval] accepts the interval for the bar spacing. The
    errors of the compression itself are left out. *)
Definition build_interval_data (blank : bool) (valid : interval -> bool) (execs : list execution) (frame : list nat) : res (list (nat * interval)) :=
  match all_intervals execs with
  | [] => Ok []
  | l => if blank then Raise ValueError
         else if forallb valid l then Ok (compressed_pairs execs frame) else Raise ValueError
  end.

(** common.py 699-748: [_resolve_executions]; [select] is what the selector of the
    execution with an id returns, [None] when it raises; [loaded]: the symbols of
    the selection frame. *)
Fixpoint repeats (l : list nat) : bool := match l with [] => false | s :: r => nmem s r || repeats r end.
Definition resolve_symbols (select : nat -> option (list nat)) (loaded : list nat) (x : execution) : res (list nat) :=
  match x_symbols x with
  | Some l => Ok l
  | None =>
      match select (x_id x) with
      | None => Raise TypeError
      | Some [] => Raise ValueError
      | Some l => if repeats l || negb (forallb (fun s => nmem s loaded) l) then Raise ValueError else Ok l
      end
  end.
Definition with_symbols (x : execution) (l : list nat) : execution :=
  mk_exec (x_id x) (Some l) (x_models x) (x_inds x) (x_intervals x) (x_hypers x).
Fixpoint resolve_executions (select : nat -> option (list nat)) (loaded : list nat) (execs : list execution) (seen : list nat) : res (list execution) :=
  match execs with
  | [] => Ok []
  | x :: r =>
      bind (resolve_symbols select loaded x) (fun l =>
        if existsb (fun s => nmem s seen) l then Raise ValueError
        else bind (resolve_executions select loaded r (seen ++ l)) (fun t => Ok (with_symbols x l :: t)))
  end.
(** strategy.py 3099-3120: without a selector the executions are those of the
    strategy. *)
Definition is_selector (x : execution) : bool := match x_symbols x with None => true | Some _ => false end.
Definition window_executions (select : nat -> option (list nat)) (loaded : list nat) (execs : list execution) : res (list execution) :=
  if existsb is_selector execs then resolve_executions select loaded execs [] else Ok execs.

(** 3360-3390: [_indicator_syms]. A model name that is not registered is a KeyError
    (scope.py 202). *)
Definition variant_of (token : option interval) (ind : str) : res str :=
  match token with
  | None => Ok ind
  | Some i => match indicator_interval_name ind i with Some n => Ok n | None => Raise ValueError end
  end.
Definition model_indicators (g : scope) (name : str) : res (list str) :=
  let (base, token) := parse_interval_name name in
  match sget base (g_sources g) with
  | None => Raise KeyError
  | Some s => each (variant_of token) (s_indicators s)
  end.
Definition execution_indicators (g : scope) (x : execution) : res (list (str * nat)) :=
  match static_symbols x with
  | [] => Ok []
  | syms =>
      bind (each (model_indicators g) (x_models x)) (fun ms =>
        Ok (concat (map (fun s => map (fun n => (n, s)) (concat ms ++ x_inds x)) syms)))
  end.
Definition indicator_syms (g : scope) (execs : list execution) : res (list (str * nat)) :=
  bind (each (execution_indicators g) execs) (fun l => Ok (concat l)).
(** 3139-3147: the models to train; [train]: the symbols of the training rows. *)
Definition model_syms (execs : list execution) (train : list nat) : list (str * nat) :=
  concat (map (fun s => concat (map (fun x => if nmem s (static_symbols x) then map (fun m => (m, s)) (x_models x) else []) execs)) train).

(** optimize.py 398-473: [collect_hyperparams]; [settings]: the hyperparameters set
    as position limits and worst rank. The executions in order of their ids, their
    names in order: only which error is raised first depends on it. *)
Definition get_spec (g : scope) (name : str) : res (str * hyper) :=
  match sget name (g_hypers g) with None => Raise ValueError | Some h => Ok (name, h) end.
Definition indicator_specs (g : scope) (name : str) : res (list (str * hyper)) :=
  match sget (fst (parse_interval_name name)) (g_inds g) with
  | None => Raise ValueError
  | Some i => each (get_spec g) (i_hypers i)
  end.
Definition model_specs (g : scope) (name : str) : res (list (str * hyper)) :=
  match sget (fst (parse_interval_name name)) (g_sources g) with
  | None => Raise KeyError
  | Some s => bind (each (indicator_specs g) (s_indicators s)) (fun l => Ok (concat l))
  end.
Definition no_model_hypers (g : scope) (name : str) : res unit :=
  match sget (fst (parse_interval_name name)) (g_sources g) with
  | None => Raise ValueError
  | Some s => match s_hypers s with [] => Ok tt | _ => Raise ValueError end
  end.
Definition execution_specs (g : scope) (x : execution) : res (list (str * hyper)) :=
  bind (each (indicator_specs g) (x_inds x)) (fun a =>
  bind (each (model_specs g) (x_models x)) (fun b =>
  bind (each (get_spec g) (x_hypers x)) (fun c =>
  bind (each (no_model_hypers g) (x_models x)) (fun _ =>
  Ok (concat a ++ concat b ++ c))))).
Definition collect_hyperparams (g : scope) (settings : list hyper) (execs : list execution) : res (list (str * hyper)) :=
  bind (each (fun h => get_spec g (h_name h)) settings) (fun s =>
  bind (each (execution_specs g) execs) (fun l => Ok (s ++ concat l))).
(** 291-313: [build_run_hyperparams]. *)
Definition build_run (specs : list (str * hyper)) (overrides : list (str * Z)) : res (list (str * Z)) :=
  if forallb (fun o => shas (fst o) specs) overrides
  then Ok (fold_left (fun d o => sset (fst o) (snd o) d) overrides (map (fun s => (fst s, h_default (snd s))) specs))
  else Raise ValueError.

(** context.py 988-1009: [ExecContext.interval], up to the context it returns. *)
Definition ctx_interval (x : execution) (i : interval) : res interval :=
  match normalize_interval i with
  | None => Raise ValueError
  | Some j => if existsb (interval_eqb j) (x_intervals x) then Ok j else Raise ValueError
  end.
(** 1037-1051: [ExecContext.hyperparam]. *)
Definition ctx_hyperparam (x : execution) (values : list (str * Z)) (name : str) : res Z :=
  if str_in name (x_hypers x) then match sget name values with Some v => Ok v | None => Raise KeyError end
  else Raise ValueError.

(** ** A history: registrations and calls of [add_execution], in any order *)
Inductive event := RegInd (i : indicator) | RegSource (s : source) | RegHyper (h : hyper) | Add (a : request).
Record state := mk_state { st_scope : scope; st_strategy : strategy }.
Definition start : state := mk_state new_scope new_strategy.
Definition keep (st : state) (r : res scope) : state := match r with Ok g => mk_state g (st_strategy st) | Raise _ => st end.
Definition event_step (st : state) (e : event) : state :=
  match e with
  | RegInd i => keep st (register_ind i (st_scope st))
  | RegSource s => keep st (register_source s (st_scope st))
  | RegHyper h => keep st (register_hyper h (st_scope st))
  | Add a => mk_state (st_scope st) (fst (add_execution (st_scope st) a (st_strategy st)))
  end.
Definition after (evs : list event) : state := fold_left event_step evs start.
