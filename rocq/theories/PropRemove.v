(** * C19 in backtests *)
From Verif Require Import PortfolioStopProps LoopExit LoopDemo.

(** At every moment of every backtest, removing stops removes exactly those asked for and
    forgets their levels: the guard of C19 is met whatever the data and the execution
    functions do. *)
Theorem C19_backtest c l k b ops rest p w t : cfg_ok c -> windows_ok c l -> backtests l (fresh c k) = Some b ->
  b_ops b = ops ++ rest -> run c ops = Some p ->
  let p' := remove_stops w t p in
  (forall sd s, queue p' sd s = map (fun e => if targeted w sd s e
      then set_e_stops (filter (fun st => negb (of_type t st)) (e_stops e)) e else e) (queue p sd s)) /\
  (forall sd s e st, In e (queue p sd s) -> In st (e_stops e) ->
      level p' (st_id st) = if targeted w sd s e && of_type t st then None else level p (st_id st)).
Proof.
  intros K W E O R. destruct (backtest_history c l k b W E) as [_ [[N M] [_ [F _]]]]. rewrite O in N, M, F.
  rewrite flat_map_app, map_app in N. apply nodup_front in N. apply Forall_app in M, F. destruct M as [M _], F as [F _].
  apply (remove_run c ops p w t K R); [split; assumption|]. eapply Forall_impl; [|exact F]. cbn. intros o X. apply X.
Qed.
Print Assumptions C19_backtest.

(** Ten shares bought with a stop loss and a holding period of nine bars; after two more
    bars the stop loss is removed and the bar stop stays. *)
Definition guarded_buy : sig :=
  mkSig false false None None (Some 10) None None None None None None (Some 9%Z) None None None
        (Some 90) None None None None None None None None None None None.
Definition stop_env : env :=
  mkEnv run_cfg [1; 2; 3; 4]%Z [0]%nat (fun _ => [1; 2; 3; 4]%Z)
    None 1 1 false false 0 (fun _ => None) (mkSettings None None None)
    (fun i => mkScope (fun _ => true) (fun s _ => price_of i s) (fun s _ => price_of i s))
    (fun i s => Some (price_of i s, Some (price_of i s), Some (price_of i s)))
    (fun i s _ => Some (price_of i s)) (fun i s => Some (price_of i s)) (fun i s => (price_of i s, price_of i s))
    SlipNone (fun _ => None)
    (fun i _ p _ _ => mkUout [] (fun _ => match i with 0%nat => guarded_buy | _ => no_signals end)) None.
Example C19_backtest_example : cfg_ok run_cfg /\ windows_ok run_cfg [stop_env] /\
  exists b p, backtests [stop_env] (fresh run_cfg 0) = Some b /\ run run_cfg (b_ops b) = Some p /\
  map (fun e => map st_id (e_stops e)) (queue p Long 0) = [[1; 2]%nat] /\
  map (fun e => map st_type (e_stops e)) (queue (remove_stops (RSym 0) (Some SLoss) p) Long 0) = [[SBar]].
Proof.
  split; [constructor; cbn; try discriminate; lra|]. split.
  - split; [|split; [reflexivity|split; [constructor|exact I]]]. constructor.
    + cbn. repeat (split; [repeat apply Forall_cons; try apply Forall_nil; lia|]). exact I.
    + cbn. repeat constructor; cbn; intuition lia.
    + intros s _. split; [cbn; repeat (split; [repeat apply Forall_cons; try apply Forall_nil; lia|]); exact I|]. intros x; cbn; intuition lia.
    + discriminate.
    + cbn. lia.
  - do 2 eexists. split; [vm_compute; reflexivity|]. split; [vm_compute; reflexivity|]. split; vm_compute; reflexivity.
Qed.
