(** * C94: the steps of a bar *)
From Verif Require Import StepRun StepDemo.

(** Every bar of a run makes its calls on the account in one order: stops are
    checked, orders are tried, the account is valued, stops cancelled by the
    functions go, positions at their exit date are closed (longs at the sell price,
    shorts at the buy price), holding times grow. Stops, valuation and holding times
    concern exactly the symbols with a bar of that date. *)
Theorem C94_steps c k l v i d b b' : windows_ok c l -> bar_of c k l v i d b b' ->
  exists calls, b_ops b' = b_ops b ++ calls /\ bar_calls v i d calls.
Proof. exact (bar_steps c k l v i d b b'). Qed.
Print Assumptions C94_steps.
(** A run is such bars one after the other, those of each window in turn: the account
    makes no other call. *)
Theorem C94_nothing_else c k l b : windows_ok c l -> backtests l (LoopModel.fresh c k) = Some b ->
  exists calls, b_ops b = concat calls /\ Forall2 (fun x cs => let '(v, i, d) := x in bar_calls v i d cs) (all_bars l) calls.
Proof. intros W E. exact (run_steps c l W _ _ E). Qed.
Print Assumptions C94_nothing_else.
(** Every order, the entry and the exit of every trade and every open entry is dated
    on a bar of its symbol. *)
Theorem C94_only_on_bars c k l b : cfg_ok c -> windows_ok c l -> backtests l (LoopModel.fresh c k) = Some b ->
  (forall o, In o (p_orders (b_port b)) -> In (o_date o) (own_bars l (o_sym o))) /\
  (forall t, In t (p_trades (b_port b)) -> In (t_entry_date t) (own_bars l (t_sym t)) /\ In (t_exit_date t) (own_bars l (t_sym t))) /\
  (forall sd s e, In e (queue (b_port b) sd s) -> In (e_date e) (own_bars l s)).
Proof. intros K W E. destruct (all_dated c l k b K W E) as [A B C]. auto. Qed.
Print Assumptions C94_only_on_bars.
(** Nothing is held of a symbol after the bar of its exit date. *)
Theorem C94_flat_at_exit c k l v i d b b' s sd : cfg_ok c -> windows_ok c l -> bar_of c k l v i d b b' ->
  exits_on v s d -> position_of (b_port b') sd s = None.
Proof. exact (bar_flat c k l v i d b b' s sd). Qed.
Print Assumptions C94_flat_at_exit.
(** Both positions leave on date 5: the long is sold at 90, the short bought back at
    70. Symbol 1 has no bar on date 2. *)
Example C94_example : cfg_ok leave_cfg /\ windows_ok leave_cfg [leave_env] /\
  bar_of leave_cfg 0 [leave_env] leave_env 4 5 leave_before leave_after /\
  exits_on leave_env 0 5 /\ exits_on leave_env 1 5 /\ ~ has_bar leave_env 1 2 /\
  shares_held (b_port leave_before) Long 0 == 10 /\ shares_held (b_port leave_before) Short 1 == 5 /\
  map (fun o => (o_sym o, o_date o, o_side o, o_fill o)) (p_orders (b_port leave_after)) =
    [(0%nat, 3%Z, OBuy, 50); (1%nat, 4%Z, OSell, 50); (0%nat, 5%Z, OSell, 90); (1%nat, 5%Z, OBuy, 70)].
Proof.
  split; [constructor; cbn; try discriminate; lra|]. split; [exact leave_ok|]. split; [exact leave_bar|].
  assert (X : forall s, In s [0; 1]%nat -> exits_on leave_env s 5).
  { intros s I. split; [split; [exact I|destruct I as [<-|[<-|[]]]; cbn; intuition lia]|]. split; [destruct I as [<-|[<-|[]]]; cbn; lia|reflexivity]. }
  split; [apply X; cbn; auto|]. split; [apply X; cbn; auto|]. clear X.
  split; [intros [_ X]; cbn in X; lia|]. split; [vm_compute; reflexivity|]. split; [vm_compute; reflexivity|vm_compute; reflexivity].
Qed.
