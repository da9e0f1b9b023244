(** C99: every accepted worker configuration gives the results of working alone. *)
From Verif Require Import PoolProofs.
Import ListNotations.
Open Scope list_scope.

(** A call of [set_parallel] is accepted exactly when it should be, and a call that
    raises changes nothing; in force are the pool of the last accepted call and the
    number of jobs and the backend that were last given, or the defaults; a pool
    resets these two. *)
Theorem C99_config : forall calls,
  (forall registered c q, (exists c', set_parallel registered c q = Ok c') <-> acceptable registered q) /\
  in_force says_pool None calls (cf_pool (configured calls)) /\
  in_force says_jobs (-1)%Z calls (cf_jobs (configured calls)) /\
  in_force says_backend "loky"%string calls (cf_backend (configured calls)) /\
  cf_backend (configured calls) <> "multiprocessing"%string.
Proof.
  intros calls. split; [apply set_parallel_spec|].
  assert (in_force says_backend "loky"%string calls (cf_backend (configured calls))) as H.
  { apply (field_in_force says_backend cf_backend). intros c r q Ac. destruct (after_call_spec c r q) as [(_ & _ & _ & E)|(N & _)]; [exact E|contradiction]. }
  split; [|split; [|split; [exact H|]]].
  - apply (field_in_force says_pool cf_pool). intros c r q Ac. destruct (after_call_spec c r q) as [(_ & E & _)|(N & _)]; [exact E|contradiction].
  - apply (field_in_force says_jobs cf_jobs). intros c r q Ac. destruct (after_call_spec c r q) as [(_ & _ & E & _)|(N & _)]; [exact E|contradiction].
  - destruct H as [(before & r & q & later & _ & Ac & E & _)|(-> & _)]; [|discriminate].
    unfold says_backend in E. unfold acceptable in Ac. destruct (rq_pool q); [inversion E; discriminate|]. exact (proj1 (Ac _ E)).
Qed.
Print Assumptions C99_config.

(** Indicators: in every accepted configuration, with any workers, whatever scope they
    have, in any order: the results are those of the symbols computed one after the
    other; and it raises when one of them does. *)
Theorem C99_indicators : forall S A calls (x : site S) (fns : list (S -> res (list A))) enabled,
  s_config x = configured calls -> complete (List.length fns) (s_sched x) ->
  forall out, run_indicators enabled x fns = Ok out <-> exists xs, alone (s_scope x) fns xs /\ out = List.concat xs.
Proof.
  intros S A calls x fns enabled E C out.
  assert (run_indicators enabled x fns = bind (all_ok (map (fun t => t (s_scope x)) fns)) (fun l => Ok (List.concat l))) as ->.
  { unfold run_indicators. destruct (negb enabled || (List.length fns =? 1)); [reflexivity|].
    rewrite <- (iterate_spec calls x fns E C), bind_bind. reflexivity. }
  split.
  - destruct (all_ok _) as [l|] eqn:Q; cbn [bind]; [|discriminate]. intros [= <-]. exists l. split; [now apply (alone_spec (s_scope x) fns)|reflexivity].
  - intros (xs & H & ->). apply (alone_spec (s_scope x) fns) in H. rewrite H. reflexivity.
Qed.
Print Assumptions C99_indicators.

(** Models: every task is paired with what its own training returned. *)
Theorem C99_trainers : forall S A B calls (x : site S) (items : list (B * (S -> res A))) jobs enabled,
  s_config x = configured calls -> complete (List.length items) (s_sched x) -> (forall n, exists k, jobs n = Ok k) ->
  forall out, run_trainers jobs enabled x items = Ok out <-> exists xs, alone (s_scope x) (map snd items) xs /\ out = combine (map fst items) xs.
Proof.
  intros S A B calls x items jobs enabled E C J out.
  rewrite <- (pairs_ok (s_scope x) (map fst items) (map snd items) out). unfold run_trainers.
  assert (exists b, (if enabled && (1 <? List.length (map snd items)) then bind (effective_n_jobs jobs (s_nested x) (s_config x)) (fun n => Ok (1 <? n)%Z) else Ok false) = Ok b) as (b & ->).
  { destruct (enabled && _); [|eauto]. unfold effective_n_jobs. destruct (s_nested x); [cbn; eauto|].
    destruct (J match cf_pool (s_config x) with Some p => pl_jobs p | None => cf_jobs (s_config x) end) as (k & ->). cbn. eauto. }
  cbn [bind]. destruct b.
  - change (fun r => zipped (map fst items) r) with (@zipped A B (map fst items)). rewrite (zipped_spec calls x (map fst items) (map snd items) E); [reflexivity|]. rewrite map_length. exact C.
  - rewrite bind_bind. cbn [bind zipped iterate]. reflexivity.
Qed.
Print Assumptions C99_trainers.

(** Grid search: every point is recorded with its own score. *)
Theorem C99_grid : forall S A B calls (x : site S) (points : list (B * (S -> res A))) jobs,
  s_config x = configured calls -> complete (List.length points) (s_sched x) -> (forall n, exists k, jobs n = Ok k) ->
  forall out, run_grid jobs x points = Ok out <-> exists xs, alone (s_scope x) (map snd points) xs /\ out = combine (map fst points) xs.
Proof.
  intros S A B calls x points jobs E C J out.
  rewrite <- (pairs_ok (s_scope x) (map fst points) (map snd points) out). unfold run_grid.
  assert (exists n, effective_n_jobs jobs (s_nested x) (s_config x) = Ok n) as (n & ->).
  { unfold effective_n_jobs. destruct (s_nested x); [eauto|].
    destruct (J match cf_pool (s_config x) with Some p => pl_jobs p | None => cf_jobs (s_config x) end) as (k & ->). cbn. eauto. }
  cbn [bind]. destruct (n <=? 1)%Z; [reflexivity|].
  rewrite (zipped_spec calls x (map fst points) (map snd points) E); [reflexivity|]. rewrite map_length. exact C.
Qed.
Print Assumptions C99_grid.

(** Random search, batch by batch, when results come as lists or one batch is enough. *)
Theorem C99_random_partial : forall S A B calls (x : site S) scheds (points : list (B * (S -> res A))) jobs,
  s_config x = configured calls -> (forall size n, complete (Nat.min size n) (scheds size n)) -> (forall n, exists k, jobs n = Ok k) ->
  no_generator (s_nested x) (s_config x) \/
    (forall p k, cf_pool (s_config x) = Some p -> jobs (pl_jobs p) = Ok k -> (1 < k -> Z.of_nat (List.length points) <= k)%Z) ->
  forall n, jobs (match cf_pool (s_config x) with Some p => pl_jobs p | None => cf_jobs (s_config x) end) = Ok n ->
  forall out, run_random jobs x (scheds (Z.to_nat n)) points = Ok out <-> exists xs, alone (s_scope x) (map snd points) xs /\ out = combine (map fst points) xs.
Proof.
  intros S A B calls x scheds points jobs E C J G n En out.
  rewrite <- (pairs_ok (s_scope x) (map fst points) (map snd points) out). unfold run_random.
  assert (effective_n_jobs jobs (s_nested x) (s_config x) = Ok (if s_nested x then 1 else Z.max 1 n)%Z) as ->.
  { unfold effective_n_jobs. destruct (s_nested x); [reflexivity|]. rewrite En. reflexivity. }
  cbn [bind]. destruct (s_nested x) eqn:N; [reflexivity|].
  destruct (Z.leb_spec (Z.max 1 n) 1) as [L|L]; [reflexivity|].
  rewrite (Z.max_r 1 n) by lia. rewrite <- N in G.
  assert (no_generator (s_nested x) (s_config x) \/ List.length points <= Z.to_nat n) as [NG|L'].
  { destruct G as [G|G]; [left; exact G|]. destruct (cf_pool (s_config x)) as [p|] eqn:P.
    - right. specialize (G p n eq_refl En ltac:(lia)). lia.
    - left. right. intros p. rewrite P. discriminate. }
  - rewrite (batches_spec calls x (Z.to_nat n) (scheds (Z.to_nat n)) E); [reflexivity|lia|intros; apply C|exact NG|apply le_n].
  - rewrite (one_batch calls x (Z.to_nat n) (scheds (Z.to_nat n)) points _ E); [reflexivity|intros; apply C|exact L'|apply le_n].
Qed.
Print Assumptions C99_random_partial.

(** The studies of the windows, when results come as lists: the first, each, the last
    and all of them. *)
Theorem C99_windows_partial : forall S A calls (x : site S) (fns : list (S -> res A)),
  s_config x = configured calls -> complete (List.length fns) (s_sched x) -> no_generator (s_nested x) (s_config x) ->
  forall first each last all, run_windows x fns = Ok (first, each, last, all) <->
    alone (s_scope x) fns all /\ each = all /\ hd_error all = Some first /\ hd_error (rev all) = Some last.
Proof.
  intros S A calls x fns E C NG first each last all. unfold run_windows.
  destruct (dispatch_spec calls x fns E C) as [->|(_ & H)]; [|exfalso; exact (H NG)].
  rewrite <- (alone_spec (s_scope x) fns all). destruct (all_ok (map (fun t => t (s_scope x)) fns)) as [l|e] eqn:Q; cbn [bind]; [|split; [discriminate|intros (H & _); discriminate]].
  pose proof (all_ok_length _ _ Q) as Ln. rewrite map_length in Ln.
  assert (Ea : all_ok (map (subscript (RList l)) (seq 0 (List.length fns))) = Ok l).
  { rewrite <- Ln. clear. apply all_ok_spec. cbn [subscript].
    assert (forall k pre, k = List.length pre -> Forall2 (fun r x => r = Ok x) (map (fun i => match nth_error (pre ++ l) i with Some y => Ok y | None => Raise IndexErr end) (seq k (List.length l))) l) as G.
    { induction l as [|y l IH]; intros k pre Ek; cbn [List.length seq map]; [constructor|]. constructor.
      - rewrite nth_error_app2 by lia. rewrite Ek, Nat.sub_diag. reflexivity.
      - replace (pre ++ y :: l) with ((pre ++ [y]) ++ l) by (rewrite <- app_assoc; reflexivity). apply IH. rewrite app_length. cbn. lia. }
    exact (G 0 [] eq_refl). }
  destruct l as [|y l].
  - cbn. split; [discriminate|]. intros (H & _ & H' & _). inversion H; subst. discriminate.
  - change (subscript (RList (y :: l)) 0) with (Ok y). cbn [bind].
    rewrite Ea. cbn [bind last_of]. destruct (rev (y :: l)) as [|z zs] eqn:R; cbn [bind iterate].
    + apply (f_equal (@rev A)) in R. rewrite rev_involutive in R. discriminate.
    + split.
      * intros [= <- <- <- <-]. rewrite R. repeat split; reflexivity.
      * intros (H & -> & Hf & Hl). inversion H; subst all. rewrite R in Hl. inversion Hf; inversion Hl; subst. reflexivity.
Qed.
Print Assumptions C99_windows_partial.

(** Without that guard: a pool that returns a generator is accepted, but a walkforward
    optimization with it always raises a TypeError, ... *)
Theorem C99_windows_refuted : exists q, acceptable (fun _ => true) q /\
  forall S A (x : site S) (fns : list (S -> res A)), s_nested x = false -> s_config x = configured [(fun _ => true, q)] ->
  run_windows x fns = Raise TypeErr.
Proof.
  exists (mk_request None None (Some (mk_pool (Some AsGenerator) 2))). split.
  - repeat split. discriminate.
  - intros S A x fns N E. unfold run_windows, dispatch. rewrite N, E. reflexivity.
Qed.
Print Assumptions C99_windows_refuted.

(** ... and a random search with more points than workers a RuntimeError. *)
Theorem C99_random_refuted : exists q jobs (x : site unit) scheds (points : list (nat * (unit -> res nat))),
  acceptable (fun _ => true) q /\ s_config x = configured [(fun _ => true, q)] /\ (forall n, exists k, jobs n = Ok k) /\
  (forall n, complete (Nat.min 2 n) (scheds n)) /\ alone (s_scope x) (map snd points) [5; 6; 7] /\
  run_random jobs x scheds points = Raise RuntimeErr.
Proof.
  exists (mk_request None None (Some (mk_pool (Some AsGenerator) 2))), (fun n => Ok n).
  exists (mk_site false (mk_config (-1) "loky" (Some (mk_pool (Some AsGenerator) 2))) tt [] (fun _ => tt)).
  exists (fun n => map (fun i => (i, i)) (seq 0 (Nat.min 2 n))), [(1, fun _ => Ok 5); (2, fun _ => Ok 6); (3, fun _ => Ok 7)].
  split; [repeat split; discriminate|]. split; [reflexivity|]. split; [eauto|]. split.
  - intros n. unfold complete. rewrite map_map. cbn. rewrite map_id. apply Permutation_refl.
  - split; [repeat constructor|reflexivity].
Qed.
Print Assumptions C99_random_refuted.

(** Inside a worker nothing is dispatched to other processes, whatever is configured. *)
Theorem C99_nested : forall c jobs, pl_jobs (open_pool true c) = 1%Z /\ effective_n_jobs jobs true c = Ok 1%Z /\ no_generator true c.
Proof. intros c jobs. split; [reflexivity|]. split; [reflexivity|]. left. reflexivity. Qed.
Print Assumptions C99_nested.

(** A concrete case: two workers with scopes of their own, one of them runs the third
    task and then the first; the tasks read the caller's scope, 10. A rejected call, a
    backend given and a number of jobs kept. *)
Definition ex_calls : list ((string -> bool) * request) :=
  [(fun b => String.eqb b "ray", mk_request (Some 4%Z) None None);
   (fun b => String.eqb b "ray", mk_request (Some 8%Z) (Some "dask"%string) None);
   (fun b => String.eqb b "ray", mk_request None (Some "ray"%string) None)].
Definition ex_site : site nat := mk_site false (configured ex_calls) 10 [(0, 2); (1, 1); (0, 0)] (fun w => w).
Example C99_example :
  configured ex_calls = mk_config 4 "ray" None /\ complete 3 (s_sched ex_site) /\
  run_trainers (fun n => Ok n) true ex_site [(7, fun s => Ok (s + 1)); (8, fun s => Ok (s + 2)); (9, fun s => Ok (s * s))] = Ok [(7, 11); (8, 12); (9, 100)] /\
  run_random (fun n => Ok n) ex_site (fun n => map (fun i => (0, i)) (rev (seq 0 (Nat.min 4 n)))) (map (fun k => (k, fun s : nat => Ok (s + k))) [1; 2; 3; 4; 5; 6]) =
    Ok [(1, 11); (2, 12); (3, 13); (4, 14); (5, 15); (6, 16)] /\
  run_windows ex_site [fun s => Ok s; fun s => Ok (s + s); fun _ => Ok 3] = Ok (10, [10; 20; 3], 3, [10; 20; 3]).
Proof.
  split; [reflexivity|]. split; [|repeat split; reflexivity].
  unfold complete. cbn. apply perm_trans with [2; 0; 1]; [apply perm_skip, perm_swap|]. apply perm_trans with [0; 2; 1]; [apply perm_swap|apply perm_skip, perm_swap].
Qed.
