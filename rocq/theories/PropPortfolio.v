(** Properties C01-C22 of the portfolio. A history [ops] is any sequence of calls
    on a fresh [Portfolio]; [run c ops = Some p] says it ends in account [p]. The
    vocabulary is in PortfolioSpec.v, the concrete histories in PortfolioDemo.v. *)
From Verif Require Import PortfolioSpec PortfolioDemo PortfolioFacts PortfolioSend PortfolioValue PortfolioPower
  PortfolioLevels PortfolioSeen PortfolioMark PortfolioRaise PortfolioStopProps
  CashSpec PortfolioCash.

Ltac conj := repeat match goal with |- let _ := _ in _ => intro | |- _ /\ _ => split end.
Ltac comp := vm_compute; try reflexivity; try discriminate.

Ltac calc := vm_compute; conj; try reflexivity; try discriminate.
Ltac match_stops :=
  cbv [demo demo1 demo2 app]; repeat apply Forall_cons; try apply Forall_nil; cbn; try exact I;
  let st := fresh in let H := fresh in intros st H; repeat (destruct H as [<-|H]); try (destruct H); split; reflexivity.

Example demo_cfg_ok : cfg_ok demo_cfg.
Proof. constructor; [comp|comp|]. intros b [= <-]. comp. Qed.
Example cash_demo_cfg_ok : cfg_ok cash_demo_cfg.
Proof. constructor; [comp|comp|]. intros b [= <-]. comp. Qed.
Example demo_runs : run demo_cfg demo = Some (state demo_cfg demo) /\ run demo_cfg demo1 = Some (state demo_cfg demo1)
  /\ run demo_cfg demo2 = Some (state demo_cfg demo2).
Proof. conj; comp. Qed.
(** Its trades, orders, interest and open positions are not trivial. *)
Example demo_nontrivial : let p := state demo_cfg demo in
  length (p_trades p) = 2%nat /\ length (p_orders p) = 5%nat /\ ~ interest_paid demo_cfg demo == 0 /\
  shares_held p Long 0 == 5 /\ shares_held p Short 1 == 20 /\ ~ fees_paid p == 0 /\ ~ realized p == 0.
Proof. conj; comp. Qed.
Example demo_stops_wf : stops_wf demo.
Proof.
  split.
  - cbn. repeat constructor; cbn; intuition discriminate.
  - match_stops.
Qed.
Example demo_one_per_type : Forall (fun o => one_per_type (op_stops o)) demo.
Proof.
  repeat constructor; intros x y; cbn; intros Ix Iy; repeat destruct Ix as [<-|Ix]; repeat destruct Iy as [<-|Iy];
  try destruct Ix; try destruct Iy; cbn; intro X; try reflexivity; discriminate.
Qed.

(** ** C01 *)
Theorem C01_account_conservation c ops p : cfg_ok c -> run c ops = Some p ->
  net_balance c p + open_cost p == c_cash c + realized p - fees_paid p + interest_paid c ops.
Proof. exact (conservation c ops p). Qed.
Print Assumptions C01_account_conservation.
(** Call by call: only a captured bar changes the total, by the interest. *)
Theorem C01_no_money_created c ops p o p' : cfg_ok c -> run c ops = Some p -> exec c (Some p) o = Some p' ->
  (net_balance c p' + open_cost p' - realized p' + fees_paid p') - (net_balance c p + open_cost p - realized p + fees_paid p)
  == match o with OpCapture _ _ => net_balance c p * rate_per_bar c | _ => 0 end.
Proof. exact (step_conservation c ops p o p'). Qed.
Print Assumptions C01_no_money_created.
Example C01_example : let p := state demo_cfg demo in
  net_balance demo_cfg p + open_cost p == 10000 + realized p - fees_paid p + interest_paid demo_cfg demo /\
  ~ net_balance demo_cfg p == 0 /\ ~ open_cost p == 0.
Proof. conj; comp. Qed.

(** ** C02 *)
Theorem C02_position_bookkeeping c ops p sd s pos : cfg_ok c -> run c ops = Some p -> position_of p sd s = Some pos ->
  ps_sym pos = s /\ ps_type pos = sd /\ ps_entries pos <> [] /\
  Forall (fun e => 0 < e_shares e /\ 0 < e_price e /\ e_sym e = s /\ e_type e = sd) (ps_entries pos) /\
  ps_shares pos == Qsum (map e_shares (ps_entries pos)) /\
  ps_notional pos == Qsum (map (fun e => e_shares e * e_price e) (ps_entries pos)).
Proof. exact (position_facts c ops p sd s pos). Qed.
Print Assumptions C02_position_bookkeeping.
Example C02_example : match position_of (state demo_cfg demo2) Long 0 with
  | Some pos => map (fun e => Qred (e_shares e)) (ps_entries pos) = [6; 5] /\ ps_shares pos == 11
  | None => False end.
Proof. calc. Qed.

(** ** C03 *)
Theorem C03_order_log c ops p s : cfg_ok c -> run c ops = Some p ->
  signed_volume s (p_orders p) == shares_held p Long s - shares_held p Short s.
Proof. exact (order_log c ops p s). Qed.
Print Assumptions C03_order_log.
Example C03_example : signed_volume 0 (p_orders (state demo_cfg demo)) == 5 /\ signed_volume 1 (p_orders (state demo_cfg demo)) == -20.
Proof. split; comp. Qed.

(** ** C04 *)
Theorem C04_one_side c ops p s : cfg_ok c -> run c ops = Some p ->
  (position_of p Long s = None \/ position_of p Short s = None) /\
  NoDup (map fst (p_longs p)) /\ NoDup (map fst (p_shorts p)) /\ NoDup (p_symbols p) /\
  (In s (p_symbols p) <-> position_of p Long s <> None \/ position_of p Short s <> None).
Proof. exact (one_side c ops p s). Qed.
Print Assumptions C04_one_side.
Example C04_example : p_symbols (state demo_cfg demo) <> [] /\ map fst (p_longs (state demo_cfg demo)) = [0%nat] /\
  map fst (p_shorts (state demo_cfg demo)) = [1%nat].
Proof. conj; comp. Qed.

(** ** C05 *)
Theorem C05_position_mode c ops p sd : cfg_ok c -> run c ops = Some p -> ~ side_allowed c sd -> poss sd p = [].
Proof. exact (mode_respected c ops p sd). Qed.
Print Assumptions C05_position_mode.
Theorem C05_position_caps c ops p sd m : cfg_ok c -> run c ops = Some p -> Forall keeps_caps ops ->
  max_positions (init c) sd = Some m -> max_positions p sd = Some m /\ (n_positions p sd <= m)%nat.
Proof. exact (caps_respected c ops p sd m). Qed.
Print Assumptions C05_position_caps.
(** With caps reassigned between windows: no call goes above the larger of the
    cap and the number already open. *)
Theorem C05_caps_each_call c ops p o p' sd m : cfg_ok c -> run c ops = Some p -> exec c (Some p) o = Some p' ->
  max_positions p' sd = Some m -> (n_positions p' sd <= Nat.max (n_positions p sd) m)%nat.
Proof. exact (cap_one_step c ops p o p' sd m). Qed.
Print Assumptions C05_caps_each_call.
Example C05_example : Forall keeps_caps demo /\ max_positions (init demo_cfg) Long = Some 3%nat /\
  n_positions (state demo_cfg demo) Long = 1%nat /\ ~ side_allowed cash_demo_cfg Short /\
  p_orders (state cash_demo_cfg demo) <> [].
Proof. split; [repeat constructor|]. conj; comp. intro X. apply X. reflexivity. Qed.

(** ** C06 *)
Theorem C06_fill_respects_order c ops p o a p' ord : cfg_ok c -> run c ops = Some p -> send c o a p = Ret p' (Some ord) ->
  o_side ord = o /\ o_sym ord = a_sym a /\ o_date ord = a_date a /\ o_fill ord = a_fill a /\ o_limit ord = a_limit a /\
  ~ beyond_limit o (a_fill a) (a_limit a) /\ 0 < o_shares ord /\ o_shares ord <= a_shares a /\
  p_orders p' = p_orders p ++ [ord] /\ o_fees ord = calculate_fees c (a_sym a) (a_fill a) (o_shares ord) o.
Proof. exact (order_fill c ops p o a p' ord). Qed.
Print Assumptions C06_fill_respects_order.
Theorem C06_unfilled_unchanged c ops p o a p' : cfg_ok c -> run c ops = Some p -> send c o a p = Ret p' None -> same_account p p'.
Proof. exact (order_unfilled c ops p o a p'). Qed.
Print Assumptions C06_unfilled_unchanged.
Example C06_example : let p := state demo_cfg demo1 in
  (exists p' ord, send demo_cfg OBuy (ord_ 2 0%nat 1000 111 (Some 112) None) p = Ret p' (Some ord) /\ o_shares ord < 1000 /\ 100 < o_shares ord) /\
  send demo_cfg OBuy (ord_ 2 0%nat 1000 111 (Some 110) None) p = Ret p None /\
  send demo_cfg OSell (ord_ 2 1%nat 0 48 None None) p = Ret p None.
Proof.
  split; [|split; comp].
  destruct (send demo_cfg OBuy (ord_ 2 0%nat 1000 111 (Some 112) None) (state demo_cfg demo1)) as [p' [ord|]|] eqn:E; revert E; vm_compute; try discriminate.
  intros [= <- <-]. eexists. eexists. split; [reflexivity|]. split; comp.
Qed.

(** ** C07 *)
Theorem C07_fifo c ops p o a p' ord : cfg_ok c -> run c ops = Some p -> send c o a p = Ret p' (Some ord) ->
  exists ts closed, p_trades p' = p_trades p ++ ts /\
    fifo_close (closing o) (a_date a) (a_fill a) (a_shares a) (queue p (closing o) (a_sym a)) (queue p' (closing o) (a_sym a)) ts /\
    closed == Qsum (map t_shares ts) /\ closed == Qmin (a_shares a) (shares_held p (closing o) (a_sym a)) /\
    (queue p' (opening_side o) (a_sym a) = queue p (opening_side o) (a_sym a) /\ o_shares ord == closed \/
     exists e, queue p' (opening_side o) (a_sym a) = queue p (opening_side o) (a_sym a) ++ [e] /\
       opened_entry o a (o_shares ord - closed) e /\ closed < o_shares ord) /\
    (forall sd s, s <> a_sym a -> position_of p' sd s = position_of p sd s).
Proof. exact (order_fifo c ops p o a p' ord). Qed.
Print Assumptions C07_fifo.
(** Selling 8 of the queue [6; 5] closes the first entry and 2 of the second. *)
Example C07_example : match send demo_cfg OSell (ord_ 3 0%nat 8 112 None None) (state demo_cfg demo2) with
  | Ret p' (Some ord) => map (fun t => Qred (t_shares t)) (p_trades p') = [4; 6; 2] /\
      map (fun e => Qred (e_shares e)) (queue p' Long 0) = [3]
  | _ => False end.
Proof. calc. Qed.

(** ** C08 *)
Theorem C08_logs c ops p : cfg_ok c -> run c ops = Some p ->
  map o_id (p_orders p) = seq 1 (length (p_orders p)) /\
  map t_id (p_trades p) = seq 1 (length (p_trades p)) /\
  p_pnl p == realized p /\ p_fees p == fees_paid p /\
  (forall l1 t l2, p_trades p = l1 ++ t :: l2 -> t_agg t == Qsum (map t_pnl (l1 ++ [t]))) /\
  p_wins p == inject_Z (Z.of_nat (length (filter (fun t => Qltb 0 (t_pnl t)) (p_trades p)))).
Proof. exact (logs c ops p). Qed.
Print Assumptions C08_logs.
Theorem C08_win_rate c ops p : cfg_ok c -> run c ops = Some p -> p_trades p <> [] ->
  win_rate p == inject_Z (Z.of_nat (length (filter (fun t => Qltb 0 (t_pnl t)) (p_trades p)))) / inject_Z (Z.of_nat (length (p_trades p))) /\
  win_rate p + loss_rate p == 1.
Proof. exact (win_rate_ok c ops p). Qed.
Print Assumptions C08_win_rate.
Theorem C08_no_trades c ops p : run c ops = Some p -> p_trades p = [] -> win_rate p == 0 /\ loss_rate p == 0.
Proof. intros _ E. unfold win_rate, loss_rate. rewrite E. split; reflexivity. Qed.
Print Assumptions C08_no_trades.
Example C08_example : let p := state demo_cfg demo in
  map o_id (p_orders p) = [1; 2; 3; 4; 5]%nat /\ map t_id (p_trades p) = [1; 2]%nat /\ p_trades p <> [] /\ win_rate p == 1.
Proof. conj; comp. Qed.

(** ** C09 *)
(** Guards: no fees, no shorting. *)
Theorem C09_cash_account_partial c ops p : cfg_ok c -> cash_cfg c -> run c ops = Some p ->
  Forall (fun t => 0 <= t_exit t) (p_trades p) -> 0 <= p_cash p /\ margin_loan c p == 0.
Proof. exact (cash_account c ops p). Qed.
Print Assumptions C09_cash_account_partial.
(** In general: an opening order never spends more cash than there is, before its fees. *)
Theorem C09_opening_within_cash c ops p o a p' ord : cfg_ok c -> run c ops = Some p -> c_leverage c == 1 ->
  send c o a p = Ret p' (Some ord) -> position_of p (closing o) (a_sym a) = None ->
  0 <= p_cash p /\ 0 <= p_cash p' + o_fees ord.
Proof. exact (cash_open c ops p o a p' ord). Qed.
Print Assumptions C09_opening_within_cash.
Example C09_example : cash_cfg cash_demo_cfg /\ run cash_demo_cfg demo = Some (state cash_demo_cfg demo) /\
  Forall (fun t => 0 <= t_exit t) (p_trades (state cash_demo_cfg demo)) /\ p_orders (state cash_demo_cfg demo) <> [].
Proof. split; [calc|]. split; [comp|]. split; [vm_compute; repeat apply Forall_cons; try apply Forall_nil; comp|comp]. Qed.
(** The unguarded claim is false: a fee, or a short covered at a loss, takes
    the cash of an unleveraged account below zero. *)
Theorem C09_cash_never_negative_refuted :
  (exists c ops p, cfg_ok c /\ c_leverage c == 1 /\ c_mode c = PMLongOnly /\ run c ops = Some p /\ p_cash p < 0) /\
  (exists c ops p, cfg_ok c /\ c_leverage c == 1 /\ c_fee_mode c = None /\ run c ops = Some p /\ p_cash p < 0).
Proof.
  split.
  - exists (mkCfg 1000 (Some FeePerOrder) (Some 1) true PMLongOnly None None 1 0 None), [OpBuy (ord_ 1 0%nat 10 100 None None)].
    eexists. split; [constructor; [comp|comp|discriminate]|]. split; [comp|]. split; [reflexivity|]. split; [vm_compute; reflexivity|comp].
  - exists (mkCfg 1000 None None true PMDefault None None 1 0 None),
      [OpSell (ord_ 1 0%nat 10 100 None None); OpBuy (ord_ 2 0%nat 10 250 None None)].
    eexists. split; [constructor; [comp|comp|discriminate]|]. split; [comp|]. split; [reflexivity|]. split; [vm_compute; reflexivity|comp].
Qed.
Print Assumptions C09_cash_never_negative_refuted.
(** How far below zero it can get, whatever is traded: by the fees of the orders and
    by what closing entries cost beyond the money set aside for them. *)
Theorem C09_overdraft c ops p : cfg_ok c -> c_leverage c == 1 -> 0 <= c_cash c -> run c ops = Some p ->
  - overdraft p <= p_cash p.
Proof. exact (cash_overdraft c ops p). Qed.
Print Assumptions C09_overdraft.
(** The bound is attained, by a fee as well as by a short. *)
Example C09_overdraft_attained :
  let fee := mkCfg 1000 (Some FeePerOrder) (Some 1) true PMLongOnly None None 1 0 None in
  let free := mkCfg 1000 None None true PMDefault None None 1 0 None in
  let buy := [OpBuy (ord_ 1 0%nat 10 100 None None)] in
  let short := [OpSell (ord_ 1 0%nat 10 100 None None); OpBuy (ord_ 2 0%nat 10 250 None None)] in
  run fee buy = Some (state fee buy) /\ p_cash (state fee buy) == -1 /\ overdraft (state fee buy) == 1 /\
  run free short = Some (state free short) /\ p_cash (state free short) == -500 /\ overdraft (state free short) == 500.
Proof. calc. Qed.

(** ** C10 *)
(** Guard: the order does not also close an opposite position. *)
Theorem C10_leverage_limit_partial c ops p o a p' ord : cfg_ok c -> run c ops = Some p -> 1 < c_leverage c -> fees_grow c ->
  send c o a p = Ret p' (Some ord) -> position_of p (closing o) (a_sym a) = None ->
  committed p' <= c_leverage c * account_value c p'.
Proof. exact (leverage_limit c ops p o a p' ord). Qed.
Print Assumptions C10_leverage_limit_partial.
Theorem C10_exposure_of_an_opening_order c ops p o a p' ord : cfg_ok c -> run c ops = Some p -> 1 < c_leverage c -> fees_grow c ->
  send c o a p = Ret p' (Some ord) -> position_of p (closing o) (a_sym a) = None ->
  committed p' == committed p + o_shares ord * a_fill a /\ account_value c p' == account_value c p - o_fees ord.
Proof. exact (leverage_new c ops p o a p' ord). Qed.
Print Assumptions C10_exposure_of_an_opening_order.
(** The built-in fee modes satisfy [fees_grow]. *)
Theorem C10_builtin_fees_grow c : (forall f, c_fee_mode c <> Some (FeeFn f)) -> (forall x, c_fee_amount c = Some x -> 0 <= x) -> fees_grow c.
Proof. exact (grow_builtin c). Qed.
Print Assumptions C10_builtin_fees_grow.
(** The buying power that sizes an order. *)
Theorem C10_buying_power c ops p : cfg_ok c -> run c ops = Some p ->
  fst (live_mv c p) == account_value c p /\
  fst (buying_power c p) == if Qle_bool (c_leverage c) 1 then Qmax (p_cash p) 0
                            else Qmax (account_value c p * c_leverage c - committed p) 0.
Proof. exact (live_mv_account c ops p). Qed.
Print Assumptions C10_buying_power.
Example C10_example : 1 < c_leverage demo_cfg /\ fees_grow demo_cfg /\
  position_of (state demo_cfg demo1) (closing OBuy) 0 = None /\
  match send demo_cfg OBuy (ord_ 2 0%nat 1000 111 None None) (state demo_cfg demo1) with
  | Ret p' (Some ord) => 100 < o_shares ord /\ 2 * account_value demo_cfg p' - committed p' < 300
  | _ => False end.
Proof.
  split; [comp|]. split; [apply grow_builtin; [discriminate|intros x [= <-]; comp]|]. split; [comp|]. calc.
Qed.
(** A buy that first covers a short ends above the limit: the fees of the
    covering part are not reserved. *)
Theorem C10_leverage_limit_refuted : exists c ops p a p' ord, cfg_ok c /\ 1 < c_leverage c /\ fees_grow c /\
  run c ops = Some p /\ send c OBuy a p = Ret p' (Some ord) /\ c_leverage c * account_value c p' < committed p'.
Proof.
  exists (mkCfg 10000 (Some FeePerShare) (Some 1) true PMDefault None None 2 0 None), [OpSell (ord_ 1 0%nat 100 100 None None)].
  eexists. exists (ord_ 2 0%nat 1000 100 None None). eexists. eexists.
  split; [constructor; [comp|comp|discriminate]|]. split; [comp|].
  split; [apply grow_builtin; [discriminate|intros x [= <-]; comp]|].
  split; [vm_compute; reflexivity|]. split; [vm_compute; reflexivity|comp].
Qed.
Print Assumptions C10_leverage_limit_refuted.
(** How far beyond the limit an order can go that closes an opposite position first and
    opens [b] shares with the rest: by the fees on the closing part only. *)
Theorem C10_leverage_slack c ops p o a p' ord : cfg_ok c -> run c ops = Some p -> 1 < c_leverage c -> fees_grow c ->
  send c o a p = Ret p' (Some ord) ->
  let b := o_shares ord - Qmin (a_shares a) (shares_held p (closing o) (a_sym a)) in
  0 < b ->
  committed p' <= c_leverage c * (account_value c p' + o_fees ord - calculate_fees c (a_sym a) (a_fill a) b o).
Proof. exact (leverage_slack c ops p o a p' ord). Qed.
Print Assumptions C10_leverage_slack.
Example C10_slack_example :
  let c := mkCfg 10000 (Some FeePerShare) (Some 1) true PMDefault None None 2 0 None in
  let p := state c [OpSell (ord_ 1 0%nat 100 100 None None)] in
  let a := ord_ 2 0%nat 1000 100 None None in
  run c [OpSell (ord_ 1 0%nat 100 100 None None)] = Some p /\
  match send c OBuy a p with
  | Ret p' (Some ord) => let b := o_shares ord - Qmin (a_shares a) (shares_held p Short 0%nat) in
      0 < b /\ b < o_shares ord /\ 2 * account_value c p' < committed p' /\
      committed p' <= 2 * (account_value c p' + o_fees ord - calculate_fees c 0%nat 100 b OBuy)
  | _ => False
  end.
Proof. calc. Qed.

(** ** C11 *)
Theorem C11_loan_nonneg c ops p : cfg_ok c -> run c ops = Some p -> 0 <= margin_loan c p.
Proof. exact (loan_nonneg c ops p). Qed.
Print Assumptions C11_loan_nonneg.
Theorem C11_loan_is_borrowed_plus_accrued c ops p : cfg_ok c -> run c ops = Some p ->
  margin_loan c p == p_accrued p + (1 - 1 / c_leverage c) * open_cost p.
Proof. exact (loan_eq c ops p). Qed.
Print Assumptions C11_loan_is_borrowed_plus_accrued.
Theorem C11_nothing_open c ops p : cfg_ok c -> run c ops = Some p -> p_symbols p = [] -> open_cost p == 0.
Proof. exact (no_open_cost c ops p). Qed.
Print Assumptions C11_nothing_open.
Theorem C11_nothing_accrued c ops p : cfg_ok c -> rate_per_bar c == 0 -> run c ops = Some p -> p_accrued p == 0.
Proof. exact (no_interest_accrued c ops p). Qed.
Print Assumptions C11_nothing_accrued.
Example C11_example : 0 < margin_loan demo_cfg (state demo_cfg demo) /\ p_symbols (init demo_cfg) = [] /\
  p_symbols (state demo_cfg (demo ++ [OpExit 4 0%nat 100 100 None; OpExit 4 1%nat 48 48 None])) = [] /\
  p_orders (state demo_cfg (demo ++ [OpExit 4 0%nat 100 100 None; OpExit 4 1%nat 48 48 None])) <> [].
Proof. conj; comp. Qed.

(** ** C12 *)
Theorem C12_interest c ops p d bar : cfg_ok c -> run c ops = Some p ->
  net_balance c (capture_bar c d bar p) - net_balance c p == rate_per_bar c * net_balance c p.
Proof. exact (capture_interest c ops p d bar). Qed.
Print Assumptions C12_interest.
Theorem C12_sweep_neutral c ops p : cfg_ok c -> run c ops = Some p ->
  net_balance c (sweep p) == net_balance c p /\ p_cash (sweep p) <= p_cash p /\ 0 <= p_accrued (sweep p) <= p_accrued p.
Proof. exact (sweep_neutral c ops p). Qed.
Print Assumptions C12_sweep_neutral.
(** Where it goes: what is owed is first paid out of cash as far as cash reaches;
    then a positive balance earns interest in cash, and a negative one adds to what
    is owed. *)
Theorem C12_interest_placed c ops p d bar : cfg_ok c -> run c ops = Some p ->
  let p' := capture_bar c d bar p in
  let i := rate_per_bar c * net_balance c p in
  let pay := Qmax 0 (Qmin (p_cash p) (p_accrued p)) in
  (rate_per_bar c == 0 -> p_cash p' == p_cash p /\ p_accrued p' == p_accrued p) /\
  (0 < rate_per_bar c -> p_cash p' == p_cash p - pay + Qmax 0 i /\ p_accrued p' == p_accrued p - pay + Qmax 0 (- i)).
Proof. exact (interest_placed c ops p d bar). Qed.
Print Assumptions C12_interest_placed.
(** A borrower: 150 shares at 100 bought with 10000 of cash pay interest. *)
Definition borrower : list op := [OpBuy (ord_ 1 0%nat 150 100 None None); OpBuy (ord_ 1 1%nat 90 50 None None)].
Example C12_example : net_balance demo_cfg (state demo_cfg borrower) < 0 /\ rate_per_bar demo_cfg == 5 # 25200 /\
  0 < p_accrued (state demo_cfg (borrower ++ [OpCapture 1 (bar_ (fst bar1) (snd bar1))])).
Proof. conj; comp. Qed.

(** ** C13 *)
Theorem C13_captured_value c ops p d bar : cfg_ok c -> run c ops = Some p -> all_closes bar p ->
  let p' := capture_bar c d bar p in
  p_mv p' == c_cash c + realized p - fees_paid p + interest_paid c (ops ++ [OpCapture d bar])
             + unrealized bar p Long + unrealized bar p Short /\
  p_equity p' == p_mv p' - unrealized bar p Short /\
  exists b, p_bars p' = p_bars p ++ [b] /\ b_date b = d /\ b_mv b = p_mv p' /\ b_equity b = p_equity p' /\
    b_cash b = p_cash p' /\ b_fees b = p_fees p' /\ b_loan b = margin_loan c p' /\ b_upnl b == unrealized bar p Short.
Proof. exact (captured_value c ops p d bar). Qed.
Print Assumptions C13_captured_value.
(** Guard: positive closes. *)
Theorem C13_live_value_partial c ops p d bar : cfg_ok c -> run c ops = Some p ->
  (forall sd s x, position_of p sd s <> None -> close_of bar s = Some x -> 0 < x) ->
  account_value c (capture_bar c d bar p) == p_mv (capture_bar c d bar p).
Proof. exact (live_captured c ops p d bar). Qed.
Print Assumptions C13_live_value_partial.
Example C13_example : let p := state demo_cfg demo2 in let bar := bar_ (fst bar3) (snd bar3) in
  all_closes bar p /\ (forall sd s x, position_of p sd s <> None -> close_of bar s = Some x -> 0 < x) /\
  unrealized bar p Long == 0 /\ unrealized bar p Short == 60 /\ unrealized (bar_ (fst bar2) (snd bar2)) p Long == 55.
Proof.
  split; [|split].
  - intros sd [|[|s]]; [comp|comp|]. destruct sd; vm_compute; intro X; exfalso; apply X; reflexivity.
  - intros sd [|[|s]] x; [vm_compute; intros _ [= <-]; reflexivity|vm_compute; intros _ [= <-]; reflexivity|].
    vm_compute. discriminate.
  - conj; comp.
Qed.
(** At a close that is not positive the live value ignores the mark. *)
Theorem C13_live_value_refuted : exists c ops p d bar, cfg_ok c /\ run c ops = Some p /\ all_closes bar p /\
  ~ account_value c (capture_bar c d bar p) == p_mv (capture_bar c d bar p).
Proof.
  exists (mkCfg 1000 None None true PMDefault None None 1 0 None), [OpBuy (ord_ 1 0%nat 10 100 None None)].
  eexists. exists 1%Z, (bar_ (-2, 1, -1) (1, 1, 1)).
  split; [constructor; [comp|comp|discriminate]|]. split; [vm_compute; reflexivity|]. split; [|comp].
  intros sd [|[|s]]; [comp|comp|]. destruct sd; vm_compute; intro X; exfalso; apply X; reflexivity.
Qed.
Print Assumptions C13_live_value_refuted.

(** ** C14 *)
(** Guard: stops are checked before anything is added to a marked position. *)
Theorem C14_value_between_marks_partial c ops p sd s pos : cfg_ok c -> run c ops = Some p -> checks_marked c ops ->
  position_of p sd s = Some pos ->
  (forall x n, last_mark c ops sd s = Some (x, n) -> 0 < x) ->
  marked_value pos == value_since (last_mark c ops sd s) (ps_entries pos).
Proof. exact (value_between_marks c ops p sd s pos). Qed.
Print Assumptions C14_value_between_marks_partial.
Example C14_example : checks_marked demo_cfg demo2 /\ last_mark demo_cfg demo2 Long 0 = Some (110, 2%nat) /\
  match position_of (state demo_cfg demo2) Long 0 with
  | Some pos => marked_value pos == 6 * 110 + 5 * 111
  | None => False end.
Proof.
  split; [|split; comp].
  intros l1 d sc sm l2 q E R sd s e x n.
  assert (N : nth_error demo2 (length l1) = Some (OpCheckStops d sc sm)).
  { rewrite E, nth_error_app2, Nat.sub_diag; [reflexivity|constructor]. }
  assert (F : l1 = firstn (length l1) demo2).
  { rewrite E, firstn_app, Nat.sub_diag, firstn_all. cbn [firstn]. now rewrite app_nil_r. }
  destruct (length l1) as [|[|[|[|k]]]]; [discriminate N|discriminate N|discriminate N| |].
  - rewrite F in R |- *. clear E N F.
    assert (Q : q = state demo_cfg (firstn 3 demo2)).
    { assert (R0 : run demo_cfg (firstn 3 demo2) = Some (state demo_cfg (firstn 3 demo2))) by (vm_compute; reflexivity).
      congruence. }
    clear R. subst q. destruct sd; destruct s as [|[|s]]; vm_compute; try discriminate; try tauto.
    intros X [<-|[]]. injection X as _ <-. vm_compute. constructor.
  - do 5 (destruct k as [|k]; [discriminate N|]). destruct k; discriminate N.
Qed.
(** Without the guard: a stop that exits the newest entry leaves the marked
    shares valued at its cost. *)
Theorem C14_value_between_marks_refuted : exists c ops p pos, cfg_ok c /\ run c ops = Some p /\ stops_wf ops /\
  position_of p Long 0 = Some pos /\ last_mark c ops Long 0 = Some (110, 1%nat) /\
  ~ marked_value pos == value_since (last_mark c ops Long 0) (ps_entries pos).
Proof.
  exists (mkCfg 1000 None None true PMDefault None None 1 0 None),
    [ OpBuy (ord_ 1 0%nat 1 100 None None); OpCapture 1 (bar_ (100, 120, 110) (1, 1, 1));
      OpBuy (ord_ 1 0%nat 1 120 None (Some [mkStop 1 0%nat SLoss Long (Some 5) None None None None None]));
      OpCheckStops 2 (scope_ (110, 112, 111) (1, 1, 1)) None ].
  eexists. eexists. split; [constructor; [comp|comp|discriminate]|]. split; [vm_compute; reflexivity|]. split.
  { split; [cbn; repeat constructor; cbn; tauto|].
    match_stops. }
  split; [vm_compute; reflexivity|]. split; comp.
Qed.
Print Assumptions C14_value_between_marks_refuted.

(** ** C15 *)
Theorem C15_price_stops c ops p p' date sc sm u : cfg_ok c -> run c ops = Some p -> stops_wf ops ->
  check_stops c date sc sm p = Ret p' u ->
  exists exits, check_did c date sc sm p exits p' /\
  (forall v, In v exits -> st_type (v_stop v) <> SBar ->
     exists x, level p (st_id (v_stop v)) = Some x /\ reached sc (v_stop v) x /\ v_market v = price_at sc (v_stop v) x /\
       (st_exit (v_stop v) = None -> sc_price sc (v_sym v) PTLow <= sc_price sc (v_sym v) PTHigh ->
        sc_price sc (v_sym v) PTLow <= v_market v <= sc_price sc (v_sym v) PTHigh)) /\
  (forall sd s e st x, In e (queue p sd s) -> sc_can_price sc s = true -> In st (e_stops e) -> st_type st <> SBar ->
     level p (st_id st) = Some x -> reached sc st x ->
     In (e_id e) (ids exits) \/ rejected st (slipped sm sd s (e_shares e) (price_at sc st x)) = true) /\
  (forall v l, In v exits -> st_limit (v_stop v) = Some l ->
     match v_sd v with Long => l <= v_fill v | Short => v_fill v <= l end).
Proof. exact (price_stops c ops p p' date sc sm u). Qed.
Print Assumptions C15_price_stops.
Definition check3 := check_stops demo_cfg 3 (scope_ (fst bar3) (snd bar3)) None (state demo_cfg demo2).
Example C15_example : match check3 with Ret p' _ =>
    length (p_orders p') = S (length (p_orders (state demo_cfg demo2))) /\ length (queue (state demo_cfg demo2) Long 0) = 2%nat /\ length (queue p' Long 0) = 1%nat
  | _ => False end /\ level (state demo_cfg demo2) 1 = Some (112 - 112 * 5 / 100).
Proof. calc. Qed.

(** ** C16 *)
Theorem C16_trailing_level c ops p sd s e st : cfg_ok c -> run c ops = Some p -> stops_wf ops ->
  In e (queue p sd s) -> In st (e_stops e) -> st_type st = STrailing ->
  level p (st_id st) = Some (trailed st (e_price e) (trail_bars c ops st)).
Proof. exact (trail_level c ops p sd s e st). Qed.
Print Assumptions C16_trailing_level.
Theorem C16_levels_tighten c ops o p p' id v v' : cfg_ok c -> run c ops = Some p -> stops_wf (ops ++ [o]) ->
  exec c (Some p) o = Some p' -> level p id = Some v -> level p' id = Some v' ->
  exists sd s e st, In e (queue p' sd s) /\ In st (e_stops e) /\ st_id st = id /\
    match sd with Long => v <= v' | Short => v' <= v end /\ (st_type st <> STrailing -> v' = v).
Proof. exact (level_tightens c ops o p p' id v v'). Qed.
Print Assumptions C16_levels_tighten.
Example C16_example : length (trail_bars demo_cfg demo2 trail_stop) = 1%nat /\
  level (state demo_cfg (firstn 3 demo)) 1 = Some (100 - 100 * 5 / 100) /\ level (state demo_cfg demo1) 1 = Some (112 - 112 * 5 / 100).
Proof. conj; comp. Qed.

(** ** C17 *)
Theorem C17_check_stops c ops p p' date sc sm u : cfg_ok c -> run c ops = Some p -> stops_wf ops ->
  check_stops c date sc sm p = Ret p' u -> exists exits, check_did c date sc sm p exits p'.
Proof. exact (check_run c ops p p' date sc sm u). Qed.
Print Assumptions C17_check_stops.
Example C17_example : stops_wf demo /\ match check3 with Ret p' _ => level p' 1 = None /\ level p' 2 = None /\ level p' 3 <> None | _ => False end.
Proof. split; [exact demo_stops_wf|]. calc. Qed.

(** ** C18 *)
Theorem C18_bar_stops c ops p p' date sc sm u : cfg_ok c -> run c ops = Some p -> stops_wf ops ->
  check_stops c date sc sm p = Ret p' u ->
  exists exits, check_did c date sc sm p exits p' /\
  (forall v, In v exits -> st_type (v_stop v) = SBar ->
     exists n, st_bars (v_stop v) = Some n /\ (n <= bars_seen c ops (v_sd v) (v_sym v) (v_id v))%nat) /\
  (forall sd s e st n, In e (queue p sd s) -> sc_can_price sc s = true -> In st (e_stops e) -> st_type st = SBar ->
     st_bars st = Some n -> (n <= bars_seen c ops sd s (e_id e))%nat ->
     In (e_id e) (ids exits) \/
     rejected st (slipped sm sd s (e_shares e)
       (sc_fetch sc s (match st_fill st with Some f => f | None => FType PTMiddle end))) = true).
Proof. exact (bar_stops c ops p p' date sc sm u). Qed.
Print Assumptions C18_bar_stops.
Theorem C18_symbol_clock c ops p sd s e : cfg_ok c -> run c ops = Some p -> In e (queue p sd s) ->
  e_symbars e = bars_seen c ops sd s (e_id e).
Proof. exact (symbol_bars c ops p sd s e). Qed.
Print Assumptions C18_symbol_clock.
(** The three-bar stop of the short survives the second check and, one bar
    later, exits it. *)
Example C18_example : shares_held (state demo_cfg demo) Short 1 == 20 /\ bars_seen demo_cfg demo Short 1 2 = 2%nat /\
  shares_held (state demo_cfg (demo ++ [OpIncr everyone; OpCheckStops 4 (scope_ (fst bar3) (snd bar3)) None])) Short 1 == 0 /\
  shares_held (state demo_cfg (demo ++ [OpCheckStops 4 (scope_ (fst bar3) (snd bar3)) None])) Short 1 == 20.
Proof. conj; comp. Qed.

(** ** C19 *)
(** Guard: at most one stop of a type per order (what the context attaches). *)
Theorem C19_remove_stops_partial c ops p v t : cfg_ok c -> run c ops = Some p -> stops_wf ops ->
  Forall (fun o => one_per_type (op_stops o)) ops ->
  let p' := remove_stops v t p in
  (forall sd s, queue p' sd s = map (fun e => if targeted v sd s e
      then set_e_stops (filter (fun st => negb (of_type t st)) (e_stops e)) e else e) (queue p sd s)) /\
  (forall sd s e st, In e (queue p sd s) -> In st (e_stops e) ->
      level p' (st_id st) = if targeted v sd s e && of_type t st then None else level p (st_id st)).
Proof. exact (remove_run c ops p v t). Qed.
Print Assumptions C19_remove_stops_partial.
Theorem C19_removed_partial c ops p v t sd s e st : cfg_ok c -> run c ops = Some p -> stops_wf ops ->
  Forall (fun o => one_per_type (op_stops o)) ops ->
  In e (queue (remove_stops v t p) sd s) -> targeted v sd s e = true -> In st (e_stops e) -> of_type t st = false.
Proof. exact (remove_gone c ops p v t sd s e st). Qed.
Print Assumptions C19_removed_partial.
Example C19_example : Forall (fun o => one_per_type (op_stops o)) demo /\
  map (fun e => map st_id (e_stops e)) (queue (state demo_cfg demo1) Long 0) = [[1; 2]%nat] /\
  map (fun e => map st_id (e_stops e)) (queue (remove_stops (RSym 0) (Some STrailing) (state demo_cfg demo1)) Long 0) = [[2%nat]] /\
  map (fun e => map st_id (e_stops e)) (queue (remove_stops (RSym 0) None (state demo_cfg demo1)) Long 0) = [[]].
Proof. split; [exact demo_one_per_type|]. conj; comp. Qed.
(** With two stops of one type on an entry, one is left behind. *)
Theorem C19_remove_stops_refuted : exists c ops p e st, cfg_ok c /\ run c ops = Some p /\ stops_wf ops /\
  In e (queue (remove_stops (RSym 0) (Some SLoss) p) Long 0) /\ In st (e_stops e) /\ st_type st = SLoss.
Proof.
  exists (mkCfg 1000 None None true PMDefault None None 1 0 None),
    [OpBuy (ord_ 1 0%nat 1 100 None (Some [mkStop 1 0%nat SLoss Long (Some 5) None None None None None;
                                            mkStop 2 0%nat SLoss Long (Some 10) None None None None None]))].
  eexists. eexists. eexists. split; [constructor; [comp|comp|discriminate]|]. split; [vm_compute; reflexivity|]. split.
  { split; [cbn; repeat constructor; cbn; intuition discriminate|].
    match_stops. }
  split; [vm_compute; left; reflexivity|]. split; [cbn; left; reflexivity|reflexivity].
Qed.
Print Assumptions C19_remove_stops_refuted.

(** ** C20 *)
Theorem C20_exit_position_flattens c ops p date s bf sf sm : cfg_ok c -> run c ops = Some p ->
  match exit_position c date s bf sf sm p with
  | Ret p' _ =>
      (forall sd, position_of p' sd s = None) /\
      (forall sd s', s' <> s -> position_of p' sd s' = position_of p sd s') /\
      (forall sd pos, position_of p sd s = Some pos ->
         exists ord, p_orders p' = p_orders p ++ [ord] /\ o_sym ord = s /\ o_side ord = exit_oside sd /\
           o_shares ord == ps_shares pos /\ o_date ord = date /\ o_market ord = exit_price sd bf sf /\
           slip_price sm (exit_oside sd) s (ps_shares pos) (exit_price sd bf sf) = Some (o_fill ord)) /\
      ((forall sd, position_of p sd s = None) -> p' = p)
  | Raise p' e => e = EInput /\ p' = p
  end.
Proof. exact (exit_flat_total c ops p date s bf sf sm). Qed.
Print Assumptions C20_exit_position_flattens.
Theorem C20_exit_position_returns c ops p date s bf sf : cfg_ok c -> run c ops = Some p -> 0 < bf -> 0 < sf ->
  exists p', exit_position c date s bf sf None p = Ret p' tt.
Proof. exact (exit_returns c ops p date s bf sf). Qed.
Print Assumptions C20_exit_position_returns.
Example C20_example : match exit_position demo_cfg 4 0 100 100 None (state demo_cfg demo2) with
  | Ret p' _ => position_of p' Long 0 = None /\ shares_held p' Short 1 == 20 /\ length (p_trades p') = 3%nat
  | _ => False end /\ position_of (state demo_cfg demo2) Long 0 <> None.
Proof. calc. Qed.

(** ** C21 *)
Theorem C21_rejected_no_effect c ops p o a p' : cfg_ok c -> run c ops = Some p -> send c o a p = Raise p' EInput -> p' = p.
Proof. exact (order_rejected c ops p o a p'). Qed.
Print Assumptions C21_rejected_no_effect.
Theorem C21_rejected_iff c p o a : (exists p', send c o a p = Raise p' EInput) <-> bad_arguments a.
Proof. exact (order_raises_iff c p o a). Qed.
Print Assumptions C21_rejected_iff.
(** Guard: the stops have new ids and a distance. Then nothing else raises. *)
Theorem C21_only_bad_arguments_raise_partial c ops p o a : cfg_ok c -> run c ops = Some p -> stops_wf (ops ++ [send_op o a]) ->
  (forall st, In st (op_stops (send_op o a)) -> stop_sized st) -> ~ bad_arguments a ->
  exists p' r, send c o a p = Ret p' r.
Proof. exact (order_total c ops p o a). Qed.
Print Assumptions C21_only_bad_arguments_raise_partial.
Example C21_example : bad_arguments (ord_ 2 0%nat 5 0 None None) /\
  ~ bad_arguments (ord_ 2 0%nat 5 111 (Some 112) (Some [mkStop 9 0%nat SLoss Long (Some 5) None None None None None])) /\
  stops_wf (demo ++ [send_op OBuy (ord_ 2 0%nat 5 111 (Some 112) (Some [mkStop 9 0%nat SLoss Long (Some 5) None None None None None]))]).
Proof.
  split; [right; left; comp|]. split.
  - intros [X|[X|[l [E X]]]]; [vm_compute in X; discriminate X|exact (X eq_refl)|]. injection E as <-. exact (X eq_refl).
  - split.
    + cbn. repeat constructor; cbn; intuition discriminate.
    + match_stops.
Qed.
(** A reused stop id raises after the shares were bought and the cash spent,
    with no order recorded. *)
Theorem C21_raise_leaves_account_refuted : exists c ops p a p' e, cfg_ok c /\ run c ops = Some p /\
  send c OBuy a p = Raise p' e /\ p_cash p' < p_cash p /\ shares_held p Long 0 < shares_held p' Long 0 /\ p_orders p' = p_orders p.
Proof.
  exists (mkCfg 1000 None None true PMDefault None None 1 0 None),
    [OpBuy (ord_ 1 0%nat 1 100 None (Some [mkStop 1 0%nat SLoss Long (Some 5) None None None None None]))].
  eexists. exists (ord_ 1 0%nat 1 100 None (Some [mkStop 1 0%nat SLoss Long (Some 5) None None None None None])). eexists. eexists.
  split; [constructor; [comp|comp|discriminate]|]. split; [vm_compute; reflexivity|]. split; [vm_compute; reflexivity|].
  split; [comp|]. split; comp.
Qed.
Print Assumptions C21_raise_leaves_account_refuted.

(** ** C22 *)
Theorem C22_trade_excursions c ops p t : cfg_ok c -> run c ops = Some p -> In t (p_trades p) ->
  t_mae t <= 0 /\ 0 <= t_mfe t /\
  t_mae t <= gain (t_type t) (t_entry t) (t_exit t) /\ gain (t_type t) (t_entry t) (t_exit t) <= t_mfe t.
Proof. exact (trade_excursions c ops p t). Qed.
Print Assumptions C22_trade_excursions.
Theorem C22_entry_excursions c ops p sd s e : cfg_ok c -> run c ops = Some p -> In e (queue p sd s) ->
  e_mae e == lowest (known (map (adverse sd (e_price e)) (ranges_seen c ops sd s (e_id e)))) /\
  e_mfe e == highest (known (map (favourable sd (e_price e)) (ranges_seen c ops sd s (e_id e)))).
Proof. exact (excursions c ops p sd s e). Qed.
Print Assumptions C22_entry_excursions.
Theorem C22_excursions_widen c o ops p p' sd s e e' : cfg_ok c -> run c ops = Some p -> exec c (Some p) o = Some p' ->
  In e (queue p sd s) -> In e' (queue p' sd s) -> e_id e' = e_id e ->
  e_mae e' <= e_mae e /\ e_mfe e <= e_mfe e'.
Proof. exact (excursions_grow c o ops p p' sd s e e'). Qed.
Print Assumptions C22_excursions_widen.
Example C22_example : map (fun e => (Qred (e_mae e), Qred (e_mfe e))) (queue (state demo_cfg demo) Long 0) = [(-7, 0)] /\
  map (fun e => (Qred (e_mae e), Qred (e_mfe e))) (queue (state demo_cfg demo) Short 1) = [(-1, 4)] /\
  map (fun t => (Qred (t_mae t), Qred (t_mfe t))) (p_trades (state demo_cfg demo)) = [(-2, 10); (-2, 12)].
Proof. conj; comp. Qed.
