(** Model of what [Strategy.optimize] does before the first trial (src/pybroker/
    optimize.py 1629-1647, 1709-1720, 1829-1843, 2028-2047, 2136-2141 and 991-1004) and
    of the samplers it searches with (489-505, 533-629, 632-649, 656-675).

    Not modelled: the preparation of the data between the checks (dates, rows,
    hyperparameters, slippage, indicators and loaded models); [ready] says whether it
    succeeds. Names are numbers. *)
From Coq Require Export List Bool Arith ZArith QArith Lia.
Export ListNotations.
Open Scope list_scope.

(** ** Samplers *)
(** The state of a random generator: made from a seed, or any other. *)
Inductive state := Seeded (z : Z) | Held (x : nat).
(** The [_rng] of a sampler: [Exposed] is optuna's [LazyRandomState], whose [rng] cannot
    be assigned but which has an [_rng]. [Hidden] is any other generator: assigning [rng]
    to it fails, or is without effect on what it draws. *)
Inductive gen := NoGen | Exposed (s : state) | Hidden (s : state).
(** The classes of samplers that are told apart; a grid sampler has the names of its
    grid. *)
Inductive kind := KGrid (names : list nat) | KTpe | KRandom | KOther (class : nat).
(** A sampler with the samplers in its attributes [_random_sampler],
    [_independent_sampler] and [_base_sampler]. A sampler that is in two places is not
    modelled. *)
Inductive sampler := NoSampler | Sampler (k : kind) (g : gen) (random independent base : sampler).
Definition set_gen (g : gen) (seed : Z) : gen :=
  match g with NoGen => NoGen | Exposed _ => Exposed (Seeded seed) | Hidden s => Hidden s end.
(** 533-564: [_reseed_sampler]. *)
Fixpoint reseed (seed : Z) (depth : nat) (s : sampler) : sampler :=
  match s with
  | NoSampler => NoSampler
  | Sampler k g a b c =>
      if 3 <? depth then s
      else Sampler k (set_gen g seed)
             (reseed (seed + 1000003 * 1) (S depth) a) (reseed (seed + 1000003 * 2) (S depth) b) (reseed (seed + 1000003 * 3) (S depth) c)
  end.

(** What [sampler=] is: a name, or an instance and whether it can be copied. *)
Inductive sampler_name := NGrid | NTpe | NRandom | NUnknown.
Inductive sampler_arg := ByName (n : sampler_name) | Instance (copyable : bool) (s : sampler).
Inductive exn := ValueErr | RuntimeErr.
Inductive res (A : Type) := Ok (a : A) | Raise (e : exn).
Arguments Ok {A} a.
Arguments Raise {A} e.
Definition bind {A B} (r : res A) (f : A -> res B) : res B := match r with Ok a => f a | Raise e => Raise e end.

Section Launch.
(** The state of a generator made without a seed; optuna's [reseed_rng]; what the trials
    of a study do to its sampler. *)
Variable entropy : state.
Variable reseed_rng : sampler -> sampler.
Variable trials : sampler -> sampler.
(** The hyperparameters to search and the number of their combinations. *)
Variable declared : list nat.
Variable grid_size : Z.

Definition fresh (seed : option Z) : gen := Exposed (match seed with Some z => Seeded z | None => entropy end).
(** [GridSampler] uses 0 for no seed. *)
Definition grid_gen (seed : option Z) : gen := Exposed (Seeded (match seed with Some z => z | None => 0%Z end)).
(** 567-612: [_build_sampler]: the argument after the call, and the sampler. A
    [TPESampler] has a [RandomSampler] inside. *)
Definition build_sampler (a : sampler_arg) (seed : option Z) : sampler_arg * res sampler :=
  match a with
  | Instance copyable s =>
      let s' := match seed with Some z => reseed z 0 s | None => reseed_rng s end in
      (if copyable then a else Instance copyable s', Ok s')
  | ByName NGrid => (a, Ok (Sampler (KGrid declared) (grid_gen seed) NoSampler NoSampler NoSampler))
  | ByName NTpe => (a, Ok (Sampler KTpe (fresh seed) (Sampler KRandom (fresh seed) NoSampler NoSampler NoSampler) NoSampler NoSampler))
  | ByName NRandom => (a, Ok (Sampler KRandom (fresh seed) NoSampler NoSampler NoSampler))
  | ByName NUnknown => (a, Raise ValueErr)
  end.
Definition member (n : nat) (l : list nat) : bool := existsb (Nat.eqb n) l.
(** 615-629: [_validate_grid_sampler]. *)
Definition validate_grid_sampler (s : sampler) : res unit :=
  match s with
  | Sampler (KGrid names) _ _ _ _ => if forallb (fun n => member n declared) names then Ok tt else Raise ValueErr
  | _ => Ok tt
  end.
(** 991-1004: the check at the start of [_run_study]. *)
Definition covers_declared (s : sampler) : res unit :=
  match s with
  | Sampler (KGrid names) _ _ _ _ => if forallb (fun n => member n names) declared then Ok tt else Raise ValueErr
  | _ => Ok tt
  end.
(** 664-675: [_resolve_n_trials]. *)
Definition resolve_n_trials (n : option Z) (s : sampler) : res Z :=
  match n, s with
  | Some n, _ => Ok n
  | None, Sampler (KGrid _) _ _ _ _ => Ok grid_size
  | None, _ => Raise ValueErr
  end.

(** ** Studies *)
Inductive direction := Minimize | Maximize.
Definition dir_eqb (a b : direction) : bool := match a, b with Minimize, Minimize | Maximize, Maximize => true | _, _ => false end.
(** [direction=]: one of the two words, a spelling of it in other letters or between
    blanks, or anything else. *)
Inductive dir_arg := Word (d : direction) | Spelled (d : direction) | OtherText.
(** [optuna.create_study(direction=...)] takes the two words only. *)
Definition created_direction (a : dir_arg) : res direction := match a with Word d => Ok d | _ => Raise ValueErr end.
(** A study the caller supplies: its directions (one, or several for several
    objectives) and its sampler. *)
Record study := mk_study { st_directions : list direction; st_sampler : sampler }.
(** 632-649: [_validate_study_direction]. [study.direction] raises for several
    objectives. *)
Definition validate_study_direction (s : study) (a : dir_arg) : res direction :=
  match a with
  | OtherText => Raise ValueErr
  | Word d | Spelled d =>
      match st_directions s with
      | [e] => if dir_eqb e d then Ok e else Raise ValueErr
      | _ => Raise RuntimeErr
      end
  end.

(** The arguments of [optimize]; the strategy: for each execution, its models by the
    name of their source, and whether a source is one to train. *)
Record args := mk_args {
  a_sampler : sampler_arg; a_n_trials : option Z; a_direction : dir_arg; a_seed : option Z;
  a_windows : option Z; a_study : option study; a_train_size : Q; a_warmup : option Z }.
Record strategy := mk_strategy { s_executions : list (list nat); s_trainable : nat -> bool }.
(** One study as it is started. *)
Record start := mk_start { p_sampler : sampler; p_trials : Z; p_direction : direction }.
Record plan := mk_plan { p_starts : list start; p_warned : bool }.

(** 489-505: [_validate_optimize_models]. *)
Definition validate_optimize_models (g : strategy) : res unit :=
  if existsb (fun models => existsb (s_trainable g) models) (s_executions g) then Raise ValueErr else Ok tt.
(** 1629-1647. *)
Definition check_args (g : strategy) (a : args) : res unit :=
  if negb (negb (Qle_bool (a_train_size a) 0) && negb (Qle_bool 1 (a_train_size a))) then Raise ValueErr
  else if match a_warmup a with Some w => (w <? 1)%Z | None => false end then Raise ValueErr
  else if match a_windows a with Some w => (w <? 1)%Z | None => false end then Raise ValueErr
  else if match a_study a, a_windows a with Some _, Some w => (1 <? w)%Z | _, _ => false end then Raise ValueErr
  else bind (validate_optimize_models g) (fun _ =>
    if match s_executions g with [] => true | _ => false end then Raise ValueErr else Ok tt).
(** 1709-1722: whether it warns of a large grid. *)
Definition is_grid (a : sampler_arg) : bool :=
  match a with ByName NGrid => true | Instance _ (Sampler (KGrid _) _ _ _ _) => true | _ => false end.
Definition warns (a : args) : bool :=
  is_grid (a_sampler a) && (1000 <? grid_size * match a_windows a with Some w => w | None => 1 end)%Z &&
  match a_n_trials a with None => true | Some _ => false end.
(** 1829-1846 with 991-1004: one window. *)
Definition start_single (a : args) : sampler_arg * res start :=
  match a_study a with
  | None =>
      let (arg, built) := build_sampler (a_sampler a) (a_seed a) in
      (arg, bind built (fun s => bind (validate_grid_sampler s) (fun _ => bind (created_direction (a_direction a)) (fun d =>
        bind (resolve_n_trials (a_n_trials a) s) (fun n => bind (covers_declared s) (fun _ => Ok (mk_start s n d)))))))
  | Some st =>
      (a_sampler a, bind (validate_study_direction st (a_direction a)) (fun d => let s := st_sampler st in
        bind (validate_grid_sampler s) (fun _ => bind (resolve_n_trials (a_n_trials a) s) (fun n =>
          bind (covers_declared s) (fun _ => Ok (mk_start s n d))))))
  end.
(** 2046-2047: [window_seed]. *)
Definition window_seed (seed : option Z) (index : nat) : option Z :=
  match seed with None => None | Some z => Some (z + Z.of_nat index)%Z end.
(** 2136-2146: the studies of the windows from [index] on, one after the other. A
    sampler that cannot be copied is the caller's own, which the trials use. *)
Fixpoint start_windows (arg : sampler_arg) (a : args) (n : Z) (index count : nat) : sampler_arg * res (list start) :=
  match count with
  | O => (arg, Ok [])
  | S count =>
      let (arg1, built) := build_sampler arg (window_seed (a_seed a) index) in
      match bind built (fun s => bind (created_direction (a_direction a)) (fun d => bind (covers_declared s) (fun _ => Ok (mk_start s n d)))) with
      | Raise e => (arg1, Raise e)
      | Ok st =>
          let arg2 := match arg1 with Instance false s => Instance false (trials s) | _ => arg1 end in
          let (arg3, rest) := start_windows arg2 a n (S index) count in
          (arg3, bind rest (fun l => Ok (st :: l)))
      end
  end.
(** 2034-2040: the budget comes from a sampler that is not used. *)
Definition start_walkforward (a : args) (count : nat) : sampler_arg * res (list start) :=
  let (arg, built) := build_sampler (a_sampler a) (a_seed a) in
  match bind built (fun s => bind (validate_grid_sampler s) (fun _ => resolve_n_trials (a_n_trials a) s)) with
  | Raise e => (arg, Raise e)
  | Ok n => start_windows arg a n 0 count
  end.
(** 1502-1846 and 1996-2146: the sampler argument afterwards and the studies that are
    started, each as it is before its trials. There are as many splits as
    windows (C30). *)
Definition launch (g : strategy) (a : args) (ready : bool) : sampler_arg * res plan :=
  match check_args g a with
  | Raise e => (a_sampler a, Raise e)
  | Ok _ =>
      if ready then
        match a_windows a with
        | Some w =>
            if (1 <? w)%Z then
              let (arg, r) := start_walkforward a (Z.to_nat w) in (arg, bind r (fun l => Ok (mk_plan l (warns a))))
            else let (arg, r) := start_single a in (arg, bind r (fun s => Ok (mk_plan [s] (warns a))))
        | None => let (arg, r) := start_single a in (arg, bind r (fun s => Ok (mk_plan [s] (warns a))))
        end
      else (a_sampler a, Raise ValueErr)
  end.
End Launch.
