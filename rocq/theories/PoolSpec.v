(** What the properties of worker pools talk about, independently of the model's
    helpers. *)
From Coq Require Export List Bool Arith ZArith Lia String Permutation.
Import ListNotations.
Open Scope list_scope.
From Verif Require Export PoolModel.

(** A call of [set_parallel] that must be accepted: a pool alone, that keeps the order
    of the tasks; or a backend that joblib knows and that is not multiprocessing. *)
Definition acceptable (registered : string -> bool) (q : request) : Prop :=
  match rq_pool q with
  | Some p => rq_jobs q = None /\ rq_backend q = None /\ pl_return p <> Some AsUnordered
  | None => forall b, rq_backend q = Some b -> b <> "multiprocessing"%string /\ registered b = true
  end.
(** What an accepted call says of the pool, of the number of jobs and of the backend;
    a pool resets the other two. *)
Definition says_pool (q : request) : option (option pool) := Some (rq_pool q).
Definition says_jobs (q : request) : option Z := match rq_pool q with Some _ => Some (-1)%Z | None => rq_jobs q end.
Definition says_backend (q : request) : option string := match rq_pool q with Some _ => Some "loky"%string | None => rq_backend q end.
(** [v] is what the last accepted call said that said something, or else [v0]. *)
Definition in_force {V} (says : request -> option V) (v0 : V) (calls : list ((string -> bool) * request)) (v : V) : Prop :=
  (exists before registered q later, calls = before ++ (registered, q) :: later /\ acceptable registered q /\ says q = Some v /\
     forall r q', In (r, q') later -> acceptable r q' -> says q' = None) \/
  (v = v0 /\ forall r q', In (r, q') calls -> acceptable r q' -> says q' = None).

(** What the tasks give one after the other in the process that dispatches them. *)
Definition alone {S A} (scope : S) (fns : list (S -> res A)) (xs : list A) : Prop :=
  Forall2 (fun t x => t scope = Ok x) fns xs.
(** Every task is run once. *)
Definition complete (n : nat) (sched : list (nat * nat)) : Prop := Permutation (map snd sched) (seq 0 n).
(** Results do not come as a generator. *)
Definition no_generator (nested : bool) (c : config) : Prop :=
  nested = true \/ forall p, cf_pool c = Some p -> pl_return p <> Some AsGenerator.
