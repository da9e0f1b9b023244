(** Theorems for C111: what an open position reports; with the unmarked shares of C14. *)
From Verif Require Import PortfolioSpec PortfolioDemo PortfolioMark FigureSpec FigureProofs FigureLoop FigureRun StepRun StepDemo.

(** The figures of an open position are those of the last bar since it was opened on
    which its symbol had a close, for the entries it had on that bar; before there is such
    a bar they are zero. *)
Theorem C111_figures : forall c ops p sd s pos, cfg_ok c -> run c ops = Some p -> position_of p sd s = Some pos ->
  match last_priced c ops sd s with
  | None => no_figures pos
  | Some (q, x) => figures_at q sd s x pos
  end.
Proof. exact figures_of. Qed.
Print Assumptions C111_figures.

(** No call changes the figures of a position that stays open except the capture of a bar
    on which its symbol has a close. *)
Theorem C111_kept : forall c ops p o p' sd s a b, cfg_ok c -> run c ops = Some p -> exec c (Some p) o = Some p' ->
  (forall d bar, o = OpCapture d bar -> close_of bar s = None) ->
  position_of p sd s = Some a -> position_of p' sd s = Some b ->
  ps_close b = ps_close a /\ ps_equity b = ps_equity a /\ ps_mv b = ps_mv a /\ ps_margin b = ps_margin a /\ ps_pnl b = ps_pnl a.
Proof. exact figures_kept. Qed.
Print Assumptions C111_kept.

(** Its bar count is the number of bars counted since it was opened. *)
Theorem C111_bars : forall c ops p sd s pos, cfg_ok c -> run c ops = Some p -> position_of p sd s = Some pos ->
  ps_bars pos = bars_held c ops sd s.
Proof. exact bars_of. Qed.
Print Assumptions C111_bars.

(** The shares it reports as unmarked, and their cost, are those of the open entries made
    since the last bar on which its symbol had a close; all of them before there is one.
    Guard: stops are only checked when every marked position is marked in full, as the bar
    loop does. *)
Theorem C14_unmarked_partial : forall c ops p sd s pos, cfg_ok c -> run c ops = Some p -> checks_marked c ops ->
  position_of p sd s = Some pos ->
  let es := made_since (last_mark c ops sd s) (ps_entries pos) in
  ps_un_shares pos == Qsum (map e_shares es) /\ ps_un_notional pos == Qsum (map (fun e => e_shares e * e_price e) es).
Proof. exact unmarked_of. Qed.
Print Assumptions C14_unmarked_partial.

(** Both hold at every moment of the bar loop: whatever orders are placed, on symbols that
    have a close on the bar, and whatever stops trigger. [ops] is any part of the loop from
    its start, so it may end in the middle of a bar. *)
Theorem C14_bar_loop_partial : forall c bars ops rest p sd s pos, cfg_ok c -> Forall loop_bar bars ->
  concat bars = ops ++ rest -> run c ops = Some p -> position_of p sd s = Some pos ->
  let m := last_mark c ops sd s in let es := made_since m (ps_entries pos) in
  ps_un_shares pos == Qsum (map e_shares es)
  /\ ps_un_notional pos == Qsum (map (fun e => e_shares e * e_price e) es)
  /\ ((forall x n, m = Some (x, n) -> 0 < x) -> marked_value pos == value_since m (ps_entries pos)).
Proof.
  intros c bars ops rest p sd s pos K B E R P. pose proof (loop_marked c bars ops rest K B E) as M.
  destruct (unmarked_of c ops p sd s pos K R M P) as [U N]. split; [exact U|]. split; [exact N|].
  exact (value_between_marks c ops p sd s pos K R M P).
Qed.
Print Assumptions C14_bar_loop_partial.
(** Three bars; the third is cut off after its order. A profit stop is checked on each
    and six of the ten shares first bought remain when five are added: they are unmarked,
    at their cost of 111. *)
Definition loop_day (d : Z) (b : (Q * Q * Q) * (Q * Q * Q)) (fills : list op) : list op :=
  OpCheckStops d (scope_ (fst b) (snd b)) None :: fills ++ [OpCapture d (bar_ (fst b) (snd b)); OpIncr everyone].
Definition loop_days : list (list op) :=
  [ loop_day 1 bar1 [OpBuy (ord_ 1 0%nat 10 100 None (Some [profit_stop]))];
    loop_day 2 bar2 [OpSell (ord_ 2 0%nat 4 108 None None)];
    loop_day 3 bar3 [OpBuy (ord_ 3 0%nat 5 111 None None)] ].
Example C14_bar_loop_example : Forall loop_bar loop_days /\
  exists ops rest p pos, concat loop_days = ops ++ rest /\ run demo_cfg ops = Some p /\
  position_of p Long 0%nat = Some pos /\ last_mark demo_cfg ops Long 0 = Some (110, 1%nat) /\
  ps_shares pos == 11 /\ ps_un_shares pos == 5 /\ ps_un_notional pos == 555 /\ marked_value pos == 6 * 110 + 555.
Proof.
  split.
  - repeat constructor;
      (eexists [_], [_], _, _, [_]; split; [reflexivity|]; split; [intros o [<-|[]]; split; [reflexivity|intro X; exact X]|];
       split; [intros o [<-|[]]; split; [intro X; exact X|]; split; [intro X; exact X|]; intros s [= <-]; discriminate|];
       intros o [<-|[]]; split; [reflexivity|]; split; intro X; exact X).
  - exists (firstn 10 (concat loop_days)), (skipn 10 (concat loop_days)). do 2 eexists.
    split; [symmetry; apply firstn_skipn|]. split; [vm_compute; reflexivity|]. split; [vm_compute; reflexivity|].
    repeat match goal with |- _ /\ _ => split end; vm_compute; reflexivity.
Qed.

(** So they hold at every moment of every backtest whose bars all have a close, over any
    number of windows and whatever the functions of the strategy do. *)
Theorem C14_backtest_partial : forall c l k b ops rest p sd s pos, cfg_ok c -> windows_ok c l -> bars_close l ->
  backtests l (LoopModel.fresh c k) = Some b -> b_ops b = ops ++ rest -> run c ops = Some p -> position_of p sd s = Some pos ->
  let m := last_mark c ops sd s in let es := made_since m (ps_entries pos) in
  ps_un_shares pos == Qsum (map e_shares es)
  /\ ps_un_notional pos == Qsum (map (fun e => e_shares e * e_price e) es)
  /\ ((forall x n, m = Some (x, n) -> 0 < x) -> marked_value pos == value_since m (ps_entries pos)).
Proof.
  intros c l k b ops rest p sd s pos K W BC E O R P. destruct (run_bars c l k b W BC E) as [bars [X F]].
  apply (C14_bar_loop_partial c bars ops rest p sd s pos); auto. congruence.
Qed.
Print Assumptions C14_backtest_partial.
(** The run of C94: just after the order of date 3 its ten shares are unmarked. *)
Example C14_backtest_example : windows_ok leave_cfg [leave_env] /\ bars_close [leave_env] /\
  exists b ops rest p pos, backtests [leave_env] (LoopModel.fresh leave_cfg 0) = Some b /\ b_ops b = ops ++ rest /\
  run leave_cfg ops = Some p /\ position_of p Long 0%nat = Some pos /\ length rest = 14%nat /\
  ps_un_shares pos == 10 /\ ps_un_notional pos == 500.
Proof.
  split; [exact leave_ok|]. split; [intros v i d s [<-|[]] _ _; discriminate|].
  set (b := reached (backtests [leave_env] (LoopModel.fresh leave_cfg 0))). exists b, (firstn 8 (b_ops b)), (skipn 8 (b_ops b)). do 2 eexists.
  split; [vm_compute; reflexivity|]. split; [symmetry; apply firstn_skipn|]. split; [vm_compute; reflexivity|]. split; [vm_compute; reflexivity|].
  repeat match goal with |- _ /\ _ => split end; vm_compute; reflexivity.
Qed.

(** After the second bar five shares are bought: the position has 11 shares and still
    reports the six it had at the close of 110. The short reports its margin and gain; a
    symbol bought since the bar reports nothing yet. *)
Definition fig_ops : list op := demo2 ++ [OpBuy (ord_ 2 1%nat 30 48 None None)].
Example C111_example : cfg_ok demo_cfg /\
  (exists p pos, run demo_cfg demo2 = Some p /\ position_of p Long 0%nat = Some pos /\
     ps_shares pos == 11 /\ ps_bars pos = 2%nat /\ ps_close pos == 110 /\ ps_equity pos == 660 /\ ps_pnl pos == 60) /\
  (exists p pos, run demo_cfg demo2 = Some p /\ position_of p Short 1%nat = Some pos /\
     ps_margin pos == 960 /\ ps_pnl pos == 40 /\ ps_mv pos == 1000) /\
  (exists p pos, run demo_cfg fig_ops = Some p /\ position_of p Long 1%nat = Some pos /\
     ps_shares pos == 10 /\ last_priced demo_cfg fig_ops Long 1%nat = None /\ no_figures pos).
Proof.
  split; [constructor; [vm_compute; discriminate|vm_compute; discriminate|intros b [= <-]; vm_compute; reflexivity]|]. repeat split; do 2 eexists; (split; [vm_compute; reflexivity|]); (split; [vm_compute; reflexivity|]);
    unfold no_figures; repeat match goal with |- _ /\ _ => split end; vm_compute; reflexivity.
Qed.
