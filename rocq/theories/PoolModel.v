(** Model of src/pybroker/parallel.py and of the places that dispatch work to its pool:
    indicator.py 610-629, model.py 2325-2344 with 2218-2221, optimize.py 969-1053 and
    2170-2224 with 2354-2360, scope.py 408-421.

    joblib is not modelled but for what its documentation says of a pool: every task
    runs once, in some worker; the results come back in the order of the tasks as a
    list or as a generator, or ([generator_unordered]) in the order they are done; an
    exception of a task is raised when its result is asked for; a pool with a
    generator that is not exhausted refuses another call. *)
From Coq Require Import List Bool Arith ZArith Lia String.
Import ListNotations.
Open Scope list_scope.

Inductive exn := ValueErr | TypeErr | IndexErr | RuntimeErr | TaskErr (n : nat).
Inductive res (A : Type) := Ok (a : A) | Raise (e : exn).
Arguments Ok {A} a.
Arguments Raise {A} e.
Definition bind {A B} (r : res A) (f : A -> res B) : res B := match r with Ok a => f a | Raise e => Raise e end.
Fixpoint all_ok {A} (l : list (res A)) : res (list A) :=
  match l with [] => Ok [] | x :: r => bind x (fun a => bind (all_ok r) (fun l => Ok (a :: l))) end.

(** [joblib.Parallel]: its [return_as] and [n_jobs]. Old versions have no
    [return_as]. *)
Inductive shape := AsList | AsGenerator | AsUnordered.
Record pool := mk_pool { pl_return : option shape; pl_jobs : Z }.
(** parallel.py 20-48: [ParallelConfig]. *)
Record config := mk_config { cf_jobs : Z; cf_backend : string; cf_pool : option pool }.
Definition default_config : config := mk_config (-1) "loky" None.
(** The arguments of [set_parallel]. *)
Record request := mk_request { rq_jobs : option Z; rq_backend : option string; rq_pool : option pool }.
(** 51-124: [set_parallel]. [registered]: the names joblib knows at the call. *)
Definition set_parallel (registered : string -> bool) (c : config) (q : request) : res config :=
  match rq_pool q with
  | Some p =>
      match rq_jobs q, rq_backend q with
      | None, None =>
          match pl_return p with
          | None | Some AsList | Some AsGenerator => Ok (mk_config (-1) "loky" (Some p))
          | Some AsUnordered => Raise ValueErr
          end
      | _, _ => Raise ValueErr
      end
  | None =>
      bind (match rq_backend q with
            | Some b => if String.eqb b "multiprocessing" then Raise ValueErr
                        else if registered b then Ok tt else Raise ValueErr
            | None => Ok tt
            end) (fun _ =>
      Ok (mk_config (match rq_jobs q with Some n => n | None => cf_jobs c end)
                    (match rq_backend q with Some b => b | None => cf_backend c end) None))
  end.
(** A history of calls; one that raises changes nothing. *)
Definition after_call (c : config) (x : (string -> bool) * request) : config :=
  match set_parallel (fst x) c (snd x) with Ok c' => c' | Raise _ => c end.
Definition configured (calls : list ((string -> bool) * request)) : config := fold_left after_call calls default_config.

(** 156-173: [parallel]; [nested]: whether a worker calls it (176-183). *)
Definition open_pool (nested : bool) (c : config) : pool :=
  if nested then mk_pool None 1
  else match cf_pool c with Some p => p | None => mk_pool None (cf_jobs c) end.
(** 186-199: [_effective_n_jobs]; [jobs]: [joblib.effective_n_jobs]. *)
Definition effective_n_jobs (jobs : Z -> res Z) (nested : bool) (c : config) : res Z :=
  if nested then Ok 1%Z
  else bind (jobs (match cf_pool c with Some p => pl_jobs p | None => cf_jobs c end)) (fun n => Ok (Z.max 1 n)).

(** A function applied to its arguments: what it returns depends on the scope that is
    installed in the process that runs it. *)
Notation task S A := (S -> res A).
Section Dispatch.
Context {S A : Type}.
(** scope.py 408-421 [run_with_scope], optimize.py 1111-1119 [_run_scoped_task], in a
    process with [installed]: what is installed afterwards, and the result. *)
Definition run_with_scope (scope : S) (fn : task S A) (installed : S) : S * res A :=
  let installed := scope in (installed, fn installed).
(** The workers: which of them runs which task next, and the scope each of them has. *)
Definition schedule := list (nat * nat).
Definition workers := nat -> S.
Fixpoint work (sched : schedule) (ws : workers) (tasks : list (S -> S * res A)) : list (nat * res A) :=
  match sched with
  | [] => []
  | (w, i) :: r =>
      match nth_error tasks i with
      | None => work r ws tasks
      | Some t => let '(s, x) := t (ws w) in (i, x) :: work r (fun v => if Nat.eqb v w then s else ws v) tasks
      end
  end.
Fixpoint result_of (i : nat) (done : list (nat * res A)) : res A :=
  match done with [] => Raise RuntimeErr | (j, x) :: r => if Nat.eqb i j then x else result_of i r end.
(** What a pool returns. *)
Inductive returned := RList (l : list A) | RGen (l : list (res A)).
Definition call_pool (p : pool) (sched : schedule) (ws : workers) (tasks : list (S -> S * res A)) : res returned :=
  let done := work sched ws tasks in
  let ordered := map (fun i => result_of i done) (seq 0 (List.length tasks)) in
  match pl_return p with
  | None | Some AsList => bind (all_ok ordered) (fun l => Ok (RList l))
  | Some AsGenerator => Ok (RGen ordered)
  | Some AsUnordered => Ok (RGen (map snd done))
  end.
(** [for x in results], [tuple(results)]. *)
Definition iterate (r : returned) : res (list A) := match r with RList l => Ok l | RGen l => all_ok l end.
(** [results[i]] *)
Definition subscript (r : returned) (i : nat) : res A :=
  match r with
  | RList l => match nth_error l i with Some x => Ok x | None => Raise IndexErr end
  | RGen _ => Raise TypeErr
  end.
(** [results[-1]] *)
Definition last_of (r : returned) : res A :=
  match r with RList l => match rev l with x :: _ => Ok x | [] => Raise IndexErr end | RGen _ => Raise TypeErr end.
(** [zip(items, results)], to the end. *)
Definition zipped {B} (items : list B) (r : returned) : res (list (B * A)) :=
  bind (iterate r) (fun l => Ok (combine items l)).

(** The process that dispatches: is it a worker itself, its configuration and scope,
    and the workers it would use. *)
Record site := mk_site { s_nested : bool; s_config : config; s_scope : S; s_sched : schedule; s_workers : workers }.
Definition dispatch (x : site) (fns : list (task S A)) : res returned :=
  call_pool (open_pool (s_nested x) (s_config x)) (s_sched x) (s_workers x) (map (run_with_scope (s_scope x)) fns).

(** model.py 2325-2344 and 2221: [_run_model_trainers], and the pairs its caller makes
    of the tasks and the results. *)
Definition run_trainers {B} (jobs : Z -> res Z) (parallel_models : bool) (x : site) (items : list (B * task S A)) : res (list (B * A)) :=
  let fns := map snd items in
  bind (if parallel_models && (1 <? List.length fns)
        then bind (effective_n_jobs jobs (s_nested x) (s_config x)) (fun n => Ok (1 <? n)%Z)
        else Ok false) (fun pooled =>
  bind (if pooled then dispatch x fns else bind (all_ok (map (fun t => t (s_scope x)) fns)) (fun l => Ok (RList l))) (fun r =>
  zipped (map fst items) r)).
(** optimize.py 969-1021: [_run_study] with a grid: each point with its score. The
    scores are computed one by one when there is one worker. *)
Definition run_grid {B} (jobs : Z -> res Z) (x : site) (points : list (B * task S A)) : res (list (B * A)) :=
  let fns := map snd points in
  bind (effective_n_jobs jobs (s_nested x) (s_config x)) (fun n =>
  if (n <=? 1)%Z then bind (all_ok (map (fun t => t (s_scope x)) fns)) (fun l => Ok (combine (map fst points) l))
  else bind (dispatch x fns) (zipped (map fst points))).
(** optimize.py 1022-1052: [_run_study] with a random sampler: the points in batches of
    [workers], here drawn beforehand. [busy]: [scores] still holds the generator of the
    batch before, of which [zip(trials, scores)] has not asked for the end. [scheds]:
    what the workers do in each batch. *)
Fixpoint batches {B} (fuel size : nat) (busy : bool) (x : site) (scheds : nat -> schedule) (points : list (B * task S A)) : res (list (B * A)) :=
  match points, fuel with
  | [], _ | _, O => Ok []
  | _, Datatypes.S k =>
      let now := firstn size points in
      bind (if busy then Raise RuntimeErr
            else dispatch (mk_site (s_nested x) (s_config x) (s_scope x) (scheds (List.length points)) (s_workers x)) (map snd now)) (fun r =>
      bind (zipped (map fst now) r) (fun told =>
      bind (batches k size (match r with RGen _ => true | RList _ => false end) x scheds (skipn size points)) (fun rest =>
      Ok (told ++ rest))))
  end.
Definition run_random {B} (jobs : Z -> res Z) (x : site) (scheds : nat -> schedule) (points : list (B * task S A)) : res (list (B * A)) :=
  bind (effective_n_jobs jobs (s_nested x) (s_config x)) (fun n =>
  if (n <=? 1)%Z then bind (all_ok (map (fun t => t (s_scope x)) (map snd points))) (fun l => Ok (combine (map fst points) l))
  else batches (List.length points) (Z.to_nat n) false x scheds points).
(** optimize.py 2170-2186, 2224, 2354-2360: the studies of the windows; what is read of
    them: the first, each in turn, the last, and all. *)
Definition run_windows (x : site) (fns : list (task S A)) : res (A * list A * A * list A) :=
  bind (dispatch x fns) (fun r =>
  bind (subscript r 0) (fun first =>
  bind (all_ok (map (subscript r) (seq 0 (List.length fns)))) (fun each =>
  bind (last_of r) (fun last =>
  bind (iterate r) (fun all =>
  Ok (first, each, last, all)))))).
End Dispatch.
Arguments returned A : clear implicits.
Arguments site S : clear implicits.
(** indicator.py 610-629: [_run_indicators]: the results of the symbols one after
    another. *)
Definition run_indicators {S A} (parallel_indicators : bool) (x : site S) (fns : list (task S (list A))) : res (list A) :=
  if negb parallel_indicators || (List.length fns =? 1) then bind (all_ok (map (fun t => t (s_scope x)) fns)) (fun l => Ok (List.concat l))
  else bind (dispatch x fns) (fun r => bind (iterate r) (fun l => Ok (List.concat l))).
