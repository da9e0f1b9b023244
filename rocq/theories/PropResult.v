(** Property of the result of a backtest: C77. The vocabulary is in ResultSpec.v. *)
From Verif Require Import Tac PortfolioDemo ResultSpec ResultTables ResultMetrics.
From Verif Require Import PropRecord.
Open Scope list_scope.
Open Scope Q_scope.

(** ** C77 *)
(** Whatever the account did, the result has one row per recorded bar, position row,
    order and trade, in the order they were recorded; every cell shows the recorded
    value: unchanged, or to the nearest cent when the result is rounded; a missing
    limit price stays missing and does not move the prices of other orders. *)
Theorem C77_tables c f ops b round fractional stops : cfg_ok c -> run_rec c f ops = Some b ->
  exists r, to_test_result round fractional false stops b = Some r /\
    Forall2 (bar_shown round) (p_bars (k_port b)) (re_portfolio r) /\
    Forall2 (position_shown round fractional) (k_rows b) (re_positions r) /\
    Forall2 (order_shown round fractional) (p_orders (k_port b)) (re_orders r) /\
    Forall2 (trade_shown round fractional) (p_trades (k_port b)) (re_trades r) /\
    re_stops r = (if stops then Some (k_stops b) else None).
Proof.
  intros K R. destruct (result_ok c f ops b round fractional stops K R) as [r [E [H1 [H2 [H3 [H4 [H5 _]]]]]]].
  exists r. repeat (split; [assumption|]). assumption.
Qed.
Print Assumptions C77_tables.
(** Share counts lose nothing when they are shown as integers, while fractional
    shares are off and orders ask for whole numbers of shares. *)
Theorem C77_shares c f ops b round stops r : cfg_ok c -> c_fractional c = false -> Forall asks_whole ops -> run_rec c f ops = Some b ->
  to_test_result round (c_fractional c) false stops b = Some r ->
  Forall2 (fun w x => pr_long x == w_long w /\ pr_short x == w_short w) (k_rows b) (re_positions r) /\
  Forall2 (fun o x => or_shares x == o_shares o) (p_orders (k_port b)) (re_orders r) /\
  Forall2 (fun t x => tl_shares x == t_shares t) (p_trades (k_port b)) (re_trades r).
Proof.
  intros K FR A R E. destruct (result_ok c f ops b round (c_fractional c) stops K R) as [r' [E' [_ [H2 [H3 [H4 _]]]]]].
  rewrite E in E'. injection E' as <-. pose proof (WholeProofs.account_whole c ops (k_port b) FR A (RecordTotals.rec_port _ _ _ _ R)) as WA.
  split; [|split].
  - eapply forall2_with; [exact (rows_whole c f ops b K FR R A)|exact H2|]. intros w x [W1 W2] P. split; eapply cast_whole; eauto; [eapply pn_long|eapply pn_short]; exact P.
  - eapply forall2_with; [exact (wa_orders _ WA)|exact H3|]. intros w x W P. eapply cast_whole; [eapply os_shares; exact P|exact W].
  - eapply forall2_with; [exact (wa_trades _ WA)|exact H4|]. intros w x W P. eapply cast_whole; [eapply th_shares; exact P|exact W].
Qed.
Print Assumptions C77_shares.
(** A value that is a whole number of cents is shown as it is. *)
Theorem C77_cents n x y : x == inject_Z n / 100 -> forall round, shows round (Some x) (Some y) -> y == x.
Proof. intros X round. destruct round; [exact (cent_kept n x y X)|easy]. Qed.
Print Assumptions C77_cents.
(** The metrics are computed from the shown tables, so with rounding they are those
    of the account only up to the rounding of each value; without it they are exact.
    With fewer than two bars there are none. *)
Theorem C77_metrics_partial c f ops b round fractional stops r : cfg_ok c -> run_rec c f ops = Some b ->
  to_test_result round fractional false stops b = Some r ->
  ((length (p_bars (k_port b)) < 2)%nat -> re_metrics r = EvDefault) /\
  ((2 <= length (p_bars (k_port b)))%nat -> exists m, re_metrics r = EvMetrics m /\ metrics_close round (k_port b) m).
Proof.
  intros K R E. destruct (result_ok c f ops b round fractional stops K R) as [r' [E' [H1 [_ [_ [H4 [_ H6]]]]]]].
  rewrite E in E'. injection E' as <-. rewrite H6. exact (evaluate_ok round fractional (k_port b) _ _ H1 H4).
Qed.
Print Assumptions C77_metrics_partial.
(** They are exactly those of the tables in the result. *)
Theorem C77_of_tables round fractional stops b r m mv fees pnls pcts : to_test_result round fractional false stops b = Some r -> re_metrics r = EvMetrics m ->
  map br_mv (re_portfolio r) = map Some mv -> map br_fees (re_portfolio r) = map Some fees ->
  map tl_pnl (re_trades r) = map Some pnls -> map tl_return (re_trades r) = map Some pcts ->
  metrics_of mv fees (map (fun x => mk_tr (fst (fst x)) (snd (fst x)) (Z.of_nat (snd x))) (combine (combine pnls pcts) (map tl_bars (re_trades r)))) m.
Proof.
  unfold to_test_result. intros E.
  repeat match type of E with match ?x with Some _ => _ | None => _ end = _ => destruct x; [|discriminate E] end.
  injection E as <-. cbn [re_portfolio re_trades re_metrics]. intros H EM EF EP EC. exact (evaluate_of _ _ mv fees pnls pcts m EM EF EP EC H).
Qed.
Print Assumptions C77_of_tables.
(** A run that only trains returns no tables and no metrics. *)
Theorem C77_train_only round fractional stops b : to_test_result round fractional true stops b = Some (mkResult [] [] [] [] None EvDefault).
Proof. reflexivity. Qed.
Print Assumptions C77_train_only.

(** An account that trades thousandths of a share and gains 0.004 twice. *)
Definition small_cfg : cfg := mkCfg 1000 None None true PMDefault None None 1 0 None.
Definition small_ops : list op :=
  [OpCapture 1 (bar_ (100, 100, 100) (80, 80, 80)); OpBuy (ord_ 1 0%nat (1#1000) 100 None None); OpSell (ord_ 2 0%nat (1#1000) 104 None None);
   OpBuy (ord_ 2 0%nat (1#1000) 100 (Some (2001#20)) None); OpSell (ord_ 3 0%nat (1#1000) 104 None None); OpCapture 3 (bar_ (104, 104, 104) (80, 80, 80))].
Definition small_books : books := books_of small_cfg small_ops.
Definition small_result (round : bool) : test_result :=
  match to_test_result round true false true small_books with Some r => r | None => mkResult [] [] [] [] None EvDefault end.
Lemma small_ok : cfg_ok small_cfg.
Proof. constructor; [comp|comp|discriminate]. Qed.
Example C77_example : cfg_ok small_cfg /\ run_rec small_cfg all_on small_ops = Some small_books /\
  to_test_result true true false true small_books = Some (small_result true) /\
  map (fun o => (or_id o, option_map Qred (or_limit o))) (re_orders (small_result true)) = [(1%nat, None); (2%nat, None); (3%nat, Some (2001#20)); (4%nat, None)] /\
  map (fun t => option_map Qred (tl_pnl t)) (re_trades (small_result true)) = [Some 0; Some 0] /\
  map (fun t => option_map Qred (tl_pnl t)) (re_trades (small_result false)) = [Some (1#250); Some (1#250)] /\
  map (fun b => option_map Qred (br_mv b)) (re_portfolio (small_result true)) = [Some 1000; Some (100001#100)] /\
  exists m mv fees pnls pcts, re_metrics (small_result true) = EvMetrics m /\ map br_mv (re_portfolio (small_result true)) = map Some mv /\ map br_fees (re_portfolio (small_result true)) = map Some fees /\
    map tl_pnl (re_trades (small_result true)) = map Some pnls /\ map tl_return (re_trades (small_result true)) = map Some pcts.
Proof. split; [exact small_ok|]. conj; try (vm_compute; reflexivity). do 5 eexists. split; [vm_compute; reflexivity|]. split; [|split; [|split]]; vm_compute; match goal with |- [?a; ?b] = _ => match a with Some ?x => match b with Some ?y => instantiate (1 := [x; y]) end end end; reflexivity. Qed.
Example C77_shares_example : let c := mkCfg 1000 None None false PMDefault None None 1 0 None in
  let ops := [OpBuy (ord_ 1 0%nat 3 100 None None); OpCapture 1 (bar_ (100, 100, 100) (80, 80, 80)); OpSell (ord_ 2 0%nat 2 104 None None)] in
  Forall asks_whole ops /\ match run_rec c all_on ops with Some b => match to_test_result true false false true b with
    | Some r => map (fun o => Qred (or_shares o)) (re_orders r) = [3; 2] /\ map (fun o => Qred (pr_long o)) (re_positions r) = [3] | None => False end | None => False end.
Proof.
  split; [|vm_compute; split; reflexivity].
  apply Forall_cons; [exists 3%Z; reflexivity|]. apply Forall_cons; [exact I|]. apply Forall_cons; [exists 2%Z; reflexivity|]. constructor.
Qed.
(** The metrics are not those of the account: every trade won, and the reported win
    rate is zero. *)
Theorem C77_win_rate_refuted : exists c f ops b r m, cfg_ok c /\ run_rec c f ops = Some b /\ p_trades (k_port b) <> [] /\
  Forall (fun t => 0 < t_pnl t) (p_trades (k_port b)) /\ to_test_result true (c_fractional c) false false b = Some r /\
  re_metrics r = EvMetrics m /\ ts_win_rate (me_trades m) == 0 /\ ts_wins (me_trades m) = 0%nat.
Proof.
  exists small_cfg, all_on, small_ops, small_books. eexists. eexists. split; [exact small_ok|]. split; [vm_compute; reflexivity|].
  split; [vm_compute; discriminate|]. split; [vm_compute; repeat constructor|]. split; [vm_compute; reflexivity|]. split; [cbn [re_metrics]; reflexivity|]. split; vm_compute; reflexivity.
Qed.
Print Assumptions C77_win_rate_refuted.
(** An unrealized profit is reported with nothing open, no fees and no interest. *)
Theorem C77_unrealized_refuted : exists c f ops b r m, cfg_ok c /\ run_rec c f ops = Some b /\ p_longs (k_port b) = [] /\ p_shorts (k_port b) = [] /\
  p_fees (k_port b) == 0 /\ rate_per_bar c == 0 /\ to_test_result true (c_fractional c) false false b = Some r /\
  re_metrics r = EvMetrics m /\ ~ me_unrealized m == 0.
Proof.
  exists small_cfg, all_on, small_ops, small_books. eexists. eexists. split; [exact small_ok|]. split; [vm_compute; reflexivity|].
  split; [vm_compute; reflexivity|]. split; [vm_compute; reflexivity|]. split; [vm_compute; reflexivity|]. split; [vm_compute; reflexivity|].
  split; [vm_compute; reflexivity|]. split; [cbn [re_metrics]; reflexivity|]. vm_compute; discriminate.
Qed.
Print Assumptions C77_unrealized_refuted.
