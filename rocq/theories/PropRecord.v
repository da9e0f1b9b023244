(** Properties of what an account records: C75 (position and portfolio rows) and
    C76 (stop records). The vocabulary is in RecordSpec.v. *)
From Verif Require Import PortfolioSpec PortfolioDemo PortfolioRun PortfolioFinish PortfolioValue RecordTotals.

Ltac conj := repeat match goal with |- let _ := _ in _ => intro | |- _ /\ _ => split end.
Ltac comp := vm_compute; try reflexivity; try discriminate.
Definition all_on : flags := mkFlags true true true.
Definition books_of (c : cfg) (ops : list op) : books := match run_rec c all_on ops with Some b => b | None => books0 c end.
Lemma demo_ok : cfg_ok demo_cfg.
Proof. constructor; [comp|comp|]. intros b [= <-]. comp. Qed.

(** ** C75 *)
(** Recording never changes the account, whatever is recorded. *)
Theorem C75_passive c f ops : option_map k_port (run_rec c f ops) = run c ops.
Proof. exact (run_erase c f ops). Qed.
Print Assumptions C75_passive.
(** A captured bar appends one portfolio row and one position row per held symbol
    with a close, in symbol order; each row says what is held, its cost and its
    gain at the close; and the rows add up to the portfolio row. *)
Theorem C75_rows_partial c f ops b d bar b' : cfg_ok c -> run_rec c f ops = Some b -> exec_rec c f (Some b) (OpCapture d bar) = Some b' ->
  exists ws pb, p_bars (k_port b') = p_bars (k_port b) ++ [pb] /\ k_bars b' = k_bars b ++ (if f_bars f then [pb] else []) /\
    k_rows b' = k_rows b ++ (if f_rows f then ws else []) /\
    one_row_each (k_port b) bar ws /\ Forall (describes (k_port b) d bar) ws /\ (all_closes bar (k_port b) -> adds_up ws pb).
Proof. exact (capture_step c f ops b d bar b'). Qed.
Print Assumptions C75_rows_partial.
(** Nothing else adds or removes a row, and the portfolio rows are those of the account. *)
Theorem C75_only_captures c f ops b o b' : run_rec c f ops = Some b -> exec_rec c f (Some b) o = Some b' ->
  match o with OpCapture _ _ => False | _ => True end -> k_rows b' = k_rows b /\ k_bars b' = k_bars b.
Proof. intros _ E. exact (proj1 (other_calls c f b o b' E)). Qed.
Print Assumptions C75_only_captures.
Theorem C75_bars c f ops b : cfg_ok c -> run_rec c f ops = Some b -> k_bars b = if f_bars f then p_bars (k_port b) else [].
Proof. exact (bars_recorded c f ops b). Qed.
Print Assumptions C75_bars.
(** The recorded profit of the account is its equity less the initial cash: what was
    realized, less fees, plus interest, plus the unrealized gain of long positions. *)
Theorem C75_pnl c ops p d bar : cfg_ok c -> run c ops = Some p -> all_closes bar p ->
  exists b, p_bars (capture_bar c d bar p) = p_bars p ++ [b] /\
    b_pnl b == realized p - fees_paid p + interest_paid c (ops ++ [OpCapture d bar]) + unrealized bar p Long.
Proof.
  intros K R A. pose proof (run_good c ops p K R) as G. destruct (captured_value c ops p d bar K R A) as [V1 [V2 _]].
  destruct (PortfolioCapture.ca_bars _ _ _ _ _ (PortfolioCapture.capture_ok c d bar p K G)) as [b [E [_ [_ [_ [_ [_ [_ [_ [_ [_ [P _]]]]]]]]]]]].
  exists b. split; [exact E|]. rewrite P. cbn zeta in V1, V2. rewrite V2, V1. ring.
Qed.
Print Assumptions C75_pnl.
(** A long and a short position, after two bars. *)
Definition rec_ops : list op := demo2.
Example C75_example : let b := books_of demo_cfg rec_ops in
  run_rec demo_cfg all_on rec_ops = Some b /\ length (k_rows b) = 3%nat /\ length (k_bars b) = 2%nat /\
  all_closes (bar_ (fst bar3) (snd bar3)) (k_port b) /\
  match exec_rec demo_cfg all_on (Some b) (OpCapture 3 (bar_ (fst bar3) (snd bar3))) with
  | Some b' => map (fun w => (w_sym w, Qred (w_long w), Qred (w_short w), Qred (w_mv w), Qred (w_equity w), Qred (w_upnl w))) (skipn 3 (k_rows b')) =
      [(0%nat, 11, 0, 1155, 1155, 0); (1%nat, 0, 20, 1000, 1060, 60)]
  | None => False end.
Proof.
  conj; try (vm_compute; reflexivity). intros sd s H. unfold close_of. destruct s as [|[|s]]; [discriminate|discriminate|]. exfalso. apply H. destruct sd; vm_compute; reflexivity.
Qed.
(** The columns do not carry the account's names: the market values of the
    positions and the net cash do not make the account's market value, nor the
    equities its equity, once a short position is open. *)
Theorem C75_market_value_refuted : exists c f ops b d bar b' ws pb, cfg_ok c /\ run_rec c f ops = Some b /\ all_closes bar (k_port b) /\
  exec_rec c f (Some b) (OpCapture d bar) = Some b' /\ k_rows b' = k_rows b ++ ws /\ k_bars b' = k_bars b ++ [pb] /\
  ~ b_mv pb == b_net_cash pb + Qsum (map w_mv ws) /\ ~ b_equity pb == b_net_cash pb + Qsum (map w_equity ws).
Proof.
  exists (mkCfg 1000 None None true PMDefault None None 1 0 None), all_on, [OpSell (ord_ 1 0%nat 2 100 None None)].
  eexists. exists 1%Z, (bar_ (80, 100, 90) (80, 100, 90)). eexists. eexists. eexists.
  split; [constructor; [comp|comp|discriminate]|]. split; [vm_compute; reflexivity|].
  split; [intros sd s H; unfold close_of; destruct s as [|[|s]]; [discriminate|discriminate|]; exfalso; apply H; destruct sd; vm_compute; reflexivity|].
  split; [vm_compute; reflexivity|]. split; [cbn [k_rows app]; reflexivity|]. split; [cbn [k_bars app]; reflexivity|]. split; vm_compute; discriminate.
Qed.
Print Assumptions C75_market_value_refuted.
(** The profit documented as realized is not: nothing was sold here. *)
Theorem C75_pnl_realized_refuted : exists c ops p d bar b, cfg_ok c /\ run c ops = Some p /\ all_closes bar p /\
  p_bars (capture_bar c d bar p) = p_bars p ++ [b] /\ p_trades p = [] /\ ~ b_pnl b == realized p.
Proof.
  exists (mkCfg 1000 None None true PMDefault None None 1 0 None), [OpBuy (ord_ 1 0%nat 2 100 None None)].
  eexists. exists 1%Z, (bar_ (80, 100, 90) (80, 100, 90)). eexists.
  split; [constructor; [comp|comp|discriminate]|]. split; [vm_compute; reflexivity|].
  split; [intros sd s H; unfold close_of; destruct s as [|[|s]]; [discriminate|discriminate|]; exfalso; apply H; destruct sd; vm_compute; reflexivity|].
  split; [vm_compute; reflexivity|]. split; [reflexivity|]. vm_compute; discriminate.
Qed.
Print Assumptions C75_pnl_realized_refuted.

(** ** C76 *)
(** A check of the stops appends the records of the stops it evaluated, at most one
    each; see [stop_log]. *)
Theorem C76_log_partial c f ops b d sc sm b' : cfg_ok c -> stops_wf ops -> f_stops f = true -> run_rec c f ops = Some b ->
  exec_rec c f (Some b) (OpCheckStops d sc sm) = Some b' ->
  exists l, k_stops b' = k_stops b ++ map fst l /\ stop_log d sc (k_port b) (k_port b') l.
Proof.
  intros K W F R E. pose proof (rec_port _ _ _ _ R) as RP. pose proof (run_good _ _ _ K RP) as G. pose proof (run_stop _ _ _ K W RP) as SI.
  unfold exec_rec in E. rewrite F in E.
  destruct (check_stops_rec c true d sc sm (k_port b) (k_stops b)) as [q l|q x] eqn:CE.
  - injection E as <-. exact (check_log c (k_port b) d sc sm (k_stops b) (gd_core _ _ G) SI q l CE).
  - exfalso. pose proof (check_erase c true d sc sm (k_port b) (k_stops b)) as X. rewrite CE in X. pose proof (check_stops_ok c d sc sm (k_port b) K G) as Y. rewrite <- X in Y.
    destruct Y as [Y _]. destruct x; try discriminate. now apply Y.
Qed.
Print Assumptions C76_log_partial.
Theorem C76_only_checks c f ops b o b' : run_rec c f ops = Some b -> exec_rec c f (Some b) o = Some b' ->
  match o with OpCheckStops _ _ _ => f_stops f = false | _ => True end -> k_stops b' = k_stops b.
Proof. intros _ E. exact (proj2 (other_calls c f b o b' E)). Qed.
Print Assumptions C76_only_checks.
(** The check on the third bar of the demo: the trailing stop executes, the profit stop of
    the same entry is not looked at, and the stops of the short position stay. *)
Example C76_example : let b := books_of demo_cfg demo2 in run_rec demo_cfg all_on demo2 = Some b /\ length (k_stops b) = 2%nat /\
  match exec_rec demo_cfg all_on (Some b) (OpCheckStops 3 (scope_ (fst bar3) (snd bar3)) None) with
  | Some b' => map (fun r => (sr_id r, option_map Qred (sr_value r), sr_bars r, option_map Qred (sr_fill r))) (skipn 2 (k_stops b')) =
      [(1%nat, Some (532 # 5), None, Some (532 # 5)); (3%nat, Some 55, None, None); (4%nat, None, Some 1%nat, None)] /\
      length (p_orders (k_port b')) = S (length (p_orders (k_port b)))
  | None => False end.
Proof. conj; vm_compute; conj; reflexivity. Qed.
(** A fill price in a record does not mean that the stop executed: a stop whose
    limit the fill price misses is recorded with that price and nothing is sold. *)
Theorem C76_fill_means_executed_refuted : exists c f ops b d sc b' r x, cfg_ok c /\ stops_wf ops /\ run_rec c f ops = Some b /\
  exec_rec c f (Some b) (OpCheckStops d sc None) = Some b' /\ k_stops b' = k_stops b ++ [r] /\ sr_fill r = Some x /\ k_port b' = k_port b.
Proof.
  exists (mkCfg 1000 None None true PMDefault None None 1 0 None), all_on,
    [OpBuy (ord_ 1 0%nat 2 100 None (Some [mkStop 1 0%nat SLoss Long (Some 5) None None None (Some 97) None]))].
  eexists. exists 2%Z, (scope_ (80, 96, 90) (80, 100, 90)). eexists. eexists. eexists.
  split; [constructor; [comp|comp|discriminate]|].
  split; [split; [cbn; repeat constructor; cbn; intuition discriminate|apply Forall_cons; [|constructor]; cbn; intros st [<-|[]]; split; reflexivity]|].
  split; [vm_compute; reflexivity|]. split; [vm_compute; reflexivity|]. split; [cbn [k_stops app]; reflexivity|]. split; [reflexivity|]. reflexivity.
Qed.
Print Assumptions C76_fill_means_executed_refuted.
