(** Model of src/pybroker/optimize.py 52-313, 476-481, 520-530, 567-612, 652-675
    and 722-1089: hyperparameter declarations, their candidate values, the values
    of a run, the search grid and the trial loop.

    Numbers: a Python int, or a finite float. [Decimal(str(x))] of a float is a
    decimal with finitely many digits; the floats of one declaration are given as
    integers at a common scale: [PFloat z] is z / 10^scale. Decimal arithmetic is
    that of the default context, 28 significant digits, round half even.
    Simplifications: infinities and NaN as bounds are left out; [float(val)] of a
    decimal is that decimal; names are numbers, in the order of the strings. *)
From Coq Require Import List Bool Arith ZArith QArith Permutation.
Import ListNotations.
Open Scope Z_scope.

Inductive pynum := PInt (z : Z) | PFloat (z : Z) | PBool (b : bool) | POther.
Inductive exc := TypeErr | ValueErr | KeyErr | Invalid | UserErr.
Inductive res (A : Type) := Ok (a : A) | Raise (e : exc).
Arguments Ok {A}. Arguments Raise {A}.
Definition bind {A B} (x : res A) (f : A -> res B) : res B := match x with Ok a => f a | Raise e => Raise e end.

(** ** Decimal arithmetic (Python's decimal module, default context) *)
Definition coefficients : Z := 10 ^ 28.
(** The power of ten that brings [m] under 10^28. *)
Fixpoint excess (fuel : nat) (p m : Z) : Z :=
  match fuel with O => p | S f => if m <? coefficients * p then p else excess f (10 * p) m end.
(** Nearest value with 28 significant digits, half to even. *)
Definition round28 (z : Z) : Z :=
  let m := Z.abs z in
  let p := excess (S (Z.to_nat (Z.log2 m))) 1 m in
  let q := m / p in
  let r := m mod p in
  let q := if (p <? 2 * r) || ((2 * r =? p) && Z.odd q) then q + 1 else q in
  Z.sgn z * (q * p).
Definition dec_add (a b : Z) : Z := round28 (a + b).
Definition dec_sub (a b : Z) : Z := round28 (a - b).
(** [a // b], [a % b] for b > 0 (operands at one scale): truncated; the quotient
    must have at most 28 digits. *)
Definition dec_floordiv (a b : Z) : res Z :=
  if Z.abs (Z.quot a b) <? coefficients then Ok (Z.quot a b) else Raise Invalid.
Definition dec_mod (a b : Z) : res Z :=
  if Z.abs (Z.quot a b) <? coefficients then Ok (round28 (Z.rem a b)) else Raise Invalid.

(** ** Declarations *)
(** 52-81: the fields. *)
Record hyper := mk_hyper { h_name : nat; h_default : pynum; h_low : pynum; h_high : pynum; h_step : pynum }.

Section Scale.
Context (scale : nat).
(** [Decimal(str(x))], at the common scale. *)
Definition units (x : pynum) : Z :=
  match x with PInt z => z * 10 ^ Z.of_nat scale | PFloat z => z | _ => 0 end.
Definition is_number (x : pynum) : bool := match x with PInt _ | PFloat _ => true | _ => false end.
Definition is_int (x : pynum) : bool := match x with PInt _ => true | _ => false end.
Definition is_float (x : pynum) : bool := match x with PFloat _ => true | _ => false end.
Definition fields (h : hyper) : list pynum := [h_default h; h_low h; h_high h; h_step h].

(** 83-122: [__post_init__]. Comparisons of numbers of one type compare the
    units. *)
Definition post_init (h : hyper) : res unit :=
  if negb (forallb is_number (fields h)) then Raise TypeErr
  else if negb (forallb is_int (fields h)) && negb (forallb is_float (fields h)) then Raise TypeErr
  else if units (h_step h) <=? 0 then Raise ValueErr
  else if units (h_high h) <? units (h_low h) then Raise ValueErr
  else if negb (units (h_low h) =? units (h_high h)) then
    bind (dec_mod (dec_sub (units (h_high h)) (units (h_low h))) (units (h_step h)))
      (fun r => if negb (r =? 0) then Raise ValueErr else Ok tt)
  else Ok tt.

Definition int_of (x : pynum) : Z := match x with PInt z => z | _ => 0 end.

(** 149-160: [_lattice_count], and 190-191: [__len__]. *)
Definition lattice_count (h : hyper) : res Z :=
  if units (h_low h) =? units (h_high h) then Raise TypeErr
  else if is_float (h_default h)
  then bind (dec_floordiv (dec_sub (units (h_high h)) (units (h_low h))) (units (h_step h))) (fun q => Ok (q + 1))
  else Ok ((int_of (h_high h) - int_of (h_low h)) / int_of (h_step h) + 1).

(** 173-185: the two loops, for as many steps as [fuel] allows; [None] when the
    loop is still running then. *)
Fixpoint lattice_loop (add : Z -> Z -> Z) (fuel : nat) (val high step : Z) : option (list Z) :=
  match fuel with
  | O => None
  | S f => if val <=? high then option_map (cons val) (lattice_loop add f (add val step) high step) else Some []
  end.

(** 162-188: [list(hp)]. *)
Definition lattice_values (fuel : nat) (h : hyper) : res (option (list pynum)) :=
  if units (h_low h) =? units (h_high h) then Raise TypeErr
  else bind (lattice_count h) (fun n =>
    if n =? 0 then Raise ValueErr
    else if is_float (h_default h)
    then Ok (option_map (map PFloat) (lattice_loop dec_add fuel (units (h_low h)) (units (h_high h)) (units (h_step h))))
    else Ok (option_map (map PInt) (lattice_loop Z.add fuel (int_of (h_low h)) (int_of (h_high h)) (int_of (h_step h))))).
End Scale.

(** ** The values of a run *)
(** A dict, in insertion order. *)
Section Dict.
Context {V : Type}.
Fixpoint dict_get (d : list (nat * V)) (k : nat) : option V :=
  match d with [] => None | (k', v) :: r => if Nat.eqb k k' then Some v else dict_get r k end.
Fixpoint dict_set (d : list (nat * V)) (k : nat) (v : V) : list (nat * V) :=
  match d with [] => [(k, v)] | (k', v') :: r => if Nat.eqb k k' then (k, v) :: r else (k', v') :: dict_set r k v end.
Definition dict_has (d : list (nat * V)) (k : nat) : bool := match dict_get d k with Some _ => true | None => false end.
End Dict.

(** 291-313: [build_run_hyperparams]. [V] is the type of run values; [default]
    reads the declaration's default. *)
Section Run.
Context {S V : Type} (default : S -> V).
Fixpoint merge_overrides (specs : list (nat * S)) (result overrides : list (nat * V)) : res (list (nat * V)) :=
  match overrides with
  | [] => Ok result
  | (name, v) :: r => if dict_has specs name then merge_overrides specs (dict_set result name v) r else Raise ValueErr
  end.
Definition build_run (specs : list (nat * S)) (overrides : list (nat * V)) : res (list (nat * V)) :=
  merge_overrides specs (map (fun '(name, s) => (name, default s)) specs) overrides.
End Run.

(** A keyword argument of an indicator: a declared hyperparameter, or a value. *)
Inductive kwarg (V : Type) := KHyper (h : hyper) | KVal (v : V).
Arguments KHyper {V}. Arguments KVal {V}.

(** 231-255: [_resolve_hyperparams]. *)
Fixpoint resolve_hyperparams {V} (mapping : list (nat * kwarg V)) (params : list (nat * V)) : res (list (nat * V)) :=
  match mapping with
  | [] => Ok []
  | (key, KHyper h) :: r =>
      match dict_get params (h_name h) with
      | None => Raise KeyErr
      | Some v => bind (resolve_hyperparams r params) (fun d => Ok ((key, v) :: d))
      end
  | (key, KVal v) :: r => bind (resolve_hyperparams r params) (fun d => Ok ((key, v) :: d))
  end.

(** 225-228: [_find_hyperparam_names] (a set: kept in order of first use). *)
Fixpoint hyperparam_names {V} (mapping : list (nat * kwarg V)) : list nat :=
  match mapping with
  | [] => []
  | (_, KHyper h) :: r => h_name h :: filter (fun n => negb (Nat.eqb n (h_name h))) (hyperparam_names r)
  | (_, KVal _) :: r => hyperparam_names r
  end.
(** 258-265: [_hyperparam_specs_from_kwargs] (a later argument of the same name
    wins, at the place of the first). *)
Definition hyperparam_specs {V} (mapping : list (nat * kwarg V)) : list (nat * hyper) :=
  fold_left (fun d '(_, k) => match k with KHyper h => dict_set d (h_name h) h | KVal _ => d end) mapping [].

(** ** The search *)
(** 476-481: [_search_space_from_specs]. *)
Definition search_space (scale : nat) (specs : list (nat * hyper)) : list (nat * hyper) :=
  filter (fun '(_, h) => units scale (h_low h) <? units scale (h_high h)) specs.

(** 283-288: [SearchSpace.grid_size]. *)
Fixpoint grid_size (scale : nat) (space : list (nat * hyper)) : res Z :=
  match space with
  | [] => Ok 1
  | (_, h) :: r => bind (lattice_count scale h) (fun n => bind (grid_size scale r) (fun m => Ok (n * m)))
  end.

Fixpoint insert_name {V} (x : nat * V) (l : list (nat * V)) : list (nat * V) :=
  match l with [] => [x] | y :: r => if Nat.leb (fst x) (fst y) then x :: l else y :: insert_name x r end.
(** [sorted(...)] of the names. *)
Fixpoint sort_names {V} (l : list (nat * V)) : list (nat * V) :=
  match l with [] => [] | x :: r => insert_name x (sort_names r) end.

(** 597-601: [_build_sampler], the grid handed to [GridSampler]. *)
Fixpoint candidates (scale fuel : nat) (space : list (nat * hyper)) : res (option (list (nat * list pynum))) :=
  match space with
  | [] => Ok (Some [])
  | (name, h) :: r =>
      bind (lattice_values scale fuel h) (fun l => bind (candidates scale fuel r) (fun g =>
        Ok (match l, g with Some l, Some g => Some ((name, l) :: g) | _, _ => None end)))
  end.
Definition sampler_grid (scale fuel : nat) (space : list (nat * hyper)) : res (option (list (nat * list pynum))) :=
  candidates scale fuel (sort_names space).

(** A dict of hyperparameter values. *)
Definition params := list (nat * pynum).
(** Optuna's [GridSampler] enumerates [itertools.product] of the lists. *)
Fixpoint product (grid : list (nat * list pynum)) : list params :=
  match grid with
  | [] => [[]]
  | (name, l) :: r => flat_map (fun v => map (fun p => (name, v) :: p) (product r)) l
  end.

(** 652-675: [_resolve_n_trials]. *)
Definition resolve_n_trials (scale : nat) (n_trials : option nat) (is_grid : bool) (space : list (nat * hyper)) : res nat :=
  match n_trials with
  | Some n => Ok n
  | None => if is_grid then bind (grid_size scale space) (fun n => Ok (Z.to_nat n)) else Raise ValueErr
  end.

(** What [score_fn] returns. *)
Inductive score := SNum (q : Q) | SPosInf | SNegInf | SNan | SNone | SOther.
(** 1076-1089: [_is_failed_score]. *)
Definition failed_score (s : score) : bool := match s with SNan | SNone | SOther => true | _ => false end.
(** A finished trial: its values, and its score, or [None] when it failed. *)
Record trial := mk_trial { t_params : params; t_score : option score }.
(** 999-1016, 1038-1049: how a score is recorded. *)
Definition finish (p : params) (s : score) : trial := mk_trial p (if failed_score s then None else Some s).

Section Study.
(** [score_overrides]: 1147-1169; [Raise] when the backtest or [score_fn] raises. *)
Context (evaluate : params -> res score).

(** [parallel()] evaluates the points in any order; the results come back in the
    order of the points, or the call raises. [order]: which point each next free
    worker takes. *)
Fixpoint write_slot {A} (l : list A) (i : nat) (x : A) : list A :=
  match l, i with [], _ => [] | _ :: r, O => x :: r | y :: r, S j => y :: write_slot r j x end.
Fixpoint pool_run (points : list params) (order : list nat) (slots : list (option score)) : res (list (option score)) :=
  match order with
  | [] => Ok slots
  | i :: r => match nth_error points i with
              | None => pool_run points r slots
              | Some p => bind (evaluate p) (fun s => pool_run points r (write_slot slots i (Some s)))
              end
  end.
Fixpoint all_slots {A} (l : list (option A)) : option (list A) :=
  match l with [] => Some [] | Some x :: r => option_map (cons x) (all_slots r) | None :: _ => None end.
Definition pool (order : list nat) (points : list params) : res (list score) :=
  bind (pool_run points order (map (fun _ => None) points)) (fun slots =>
    match all_slots slots with Some l => Ok l | None => Raise UserErr end).

Fixpoint record_all (points : list params) (scores : list score) : list trial :=
  match points, scores with p :: r, s :: t => finish p s :: record_all r t | _, _ => [] end.

(** 979-1017: grid search with workers: the sampler's points from the number of
    trials already in the study on. *)
Definition grid_parallel (order : list nat) (grids : list params) (n_trials : nat) (study : list trial) : res (list trial) :=
  let points := firstn n_trials (skipn (length study) grids) in
  bind (pool order points) (fun scores => Ok (study ++ record_all points scores)).

(** 975-977 with a [GridSampler]: [Study.optimize] of Optuna: trial number k takes
    grid point k, until [n_trials] trials are done or the grid is exhausted. *)
Fixpoint grid_sequential (n_trials : nat) (grids : list params) (study : list trial) : res (list trial) :=
  match n_trials with
  | O => Ok study
  | S n => match nth_error grids (length study) with
           | None => Ok study
           | Some p => bind (evaluate p) (fun s => grid_sequential n grids (study ++ [finish p s]))
           end
  end.

(** 975-977 with a [RandomSampler]: each trial's values are drawn from the
    sampler's generator, which sees no result. *)
Context {rng : Type} (draw : rng -> params * rng).
Fixpoint random_sequential (n_trials : nat) (g : rng) (study : list trial) : res (rng * list trial) :=
  match n_trials with
  | O => Ok (g, study)
  | S n => let '(p, g) := draw g in bind (evaluate p) (fun s => random_sequential n g (study ++ [finish p s]))
  end.

(** 1022-1025: the values of the next [n] trials. *)
Fixpoint draws (n : nat) (g : rng) : list params * rng :=
  match n with O => ([], g) | S m => let '(p, g) := draw g in let '(l, g) := draws m g in (p :: l, g) end.
(** 1018-1051: worker-sized batches. [orders]: the order of evaluation in each
    batch. [fuel] bounds the number of batches; [remaining] decreases. *)
Fixpoint random_parallel (fuel workers remaining : nat) (orders : nat -> list nat) (g : rng) (study : list trial)
  : res (rng * list trial) :=
  match fuel with
  | O => Ok (g, study)
  | S f =>
      if Nat.eqb remaining 0 then Ok (g, study)
      else
        let size := Nat.min workers remaining in
        let '(points, g) := draws size g in
        bind (pool (orders remaining) points) (fun scores =>
          random_parallel f workers (remaining - size) orders g (study ++ record_all points scores))
  end.
End Study.

(** Optuna's [Study.best_trial]: the first of the best completed trials. *)
Definition score_ltb (a b : score) : bool :=
  match a, b with
  | SNegInf, SNegInf | SPosInf, _ => false
  | SNegInf, _ | _, SPosInf => true
  | SNum x, SNum y => negb (Qle_bool y x)
  | _, _ => false
  end.
Definition better (maximize : bool) (a b : score) : bool := if maximize then score_ltb b a else score_ltb a b.
Fixpoint best_trial (maximize : bool) (study : list trial) (best : option (params * score)) : option (params * score) :=
  match study with
  | [] => best
  | t :: r =>
      best_trial maximize r
        match t_score t, best with
        | None, _ => best
        | Some s, None => Some (t_params t, s)
        | Some s, Some (p, b) => if better maximize s b then Some (t_params t, s) else best
        end
  end.

(** 722-736, 1846-1847 and 1867-1872: [optimize] after the trials: the winning
    values over the defaults, and their score. *)
Definition winner (maximize : bool) (specs : list (nat * hyper)) (study : list trial) : res (params * score) :=
  match best_trial maximize study None with
  | None => Raise ValueErr
  | Some (p, s) => bind (build_run h_default specs p) (fun values => Ok (values, s))
  end.

(** 1147-1154: a trial's backtest runs with the trial's values over the defaults. *)
Definition score_overrides (specs : list (nat * hyper)) (backtest : params -> res score) (overrides : params) : res score :=
  bind (build_run h_default specs overrides) backtest.

(** 1651-1652 and 1830-1872: [optimize] with the default sampler and one window,
    on a fresh study: [shuffle] is the order Optuna gives the grid; [workers] and
    [order] are the configured workers and the schedule of the pool for that many points. *)
Definition optimize_grid (scale fuel : nat) (maximize : bool) (specs : list (nat * hyper)) (n_trials : option nat)
    (shuffle : list params -> list params) (workers : nat) (order : nat -> list nat) (backtest : params -> res score)
  : res (option (list trial * (params * score))) :=
  let space := search_space scale specs in
  bind (sampler_grid scale fuel space) (fun grid =>
    match grid with
    | None => Ok None
    | Some grid =>
        bind (resolve_n_trials scale n_trials true space) (fun n =>
          let grids := shuffle (product grid) in
          let evaluate := score_overrides specs backtest in
          bind (if Nat.leb workers 1 then grid_sequential evaluate n grids [] else grid_parallel evaluate (order (length grids)) grids n [])
            (fun study => bind (winner maximize specs study) (fun w => Ok (Some (study, w)))))
    end).
