(** Properties C46-C49, C55 and C56: drawdowns, trade statistics, bootstrap bounds,
    the unrealized pnl metric, interquartile range and profit factors. The
    vocabulary is in EvalSpec.v. *)
From Coq Require Import List Bool Arith Lia ZArith QArith Qminmax Lqa.
From Verif Require Import Tac PortfolioSpec PortfolioDemo WalkSpec WalkDemo EvalModel EvalSpec EvalDrawdown EvalTrades EvalBoot EvalUnrealized.
Import ListNotations.
Open Scope list_scope.
Open Scope Q_scope.

(** ** C46 *)
Theorem C46_cash changes : worst_fall (curve changes) (length changes) (- max_drawdown changes).
Proof. exact (drawdown_worst changes). Qed.
Print Assumptions C46_cash.
Theorem C46_percent returns : let '(d, idx) := max_drawdown_percent returns in
  d <= 0 /\ worst_pct_fall (growth returns) (length returns) d (option_map S idx).
Proof. exact (drawdown_pct_worst returns). Qed.
Print Assumptions C46_percent.
Theorem C46_range returns : Forall (fun r => -(1) <= r) returns -> -(100) <= fst (max_drawdown_percent returns) <= 0.
Proof. exact (drawdown_pct_range returns). Qed.
Print Assumptions C46_range.
(** What [evaluate] reports for the recorded market values [mv]: the largest fall of
    the market value itself; in percent when it stays positive, and the index names
    the bar after the first. *)
Theorem C46_market_value mv v0 : nth_error mv 0 = Some v0 ->
  worst_fall (fun k => nth k mv 0) (length mv - 1) (- max_drawdown (bar_changes mv)) /\
  (Forall (fun v => 0 < v) mv -> let '(d, idx) := max_drawdown_percent (bar_returns mv) in
     -(100) <= d <= 0 /\ worst_pct_fall (fun k => nth k mv 0) (length mv - 1) d (option_map S idx)).
Proof.
  intro H0. assert (L : forall k, (k <= length mv - 1)%nat -> nth_error mv k = Some (nth k mv 0)).
  { intros k Hk. apply nth_error_nth'. destruct mv; [discriminate|cbn [length] in *; lia]. }
  split.
  - pose proof (drawdown_worst (bar_changes mv)) as [[i [j [Hij E]]] A]. rewrite changes_length in *.
    assert (C : forall k, (k <= length mv - 1)%nat -> curve (bar_changes mv) k == nth k mv 0 - v0) by (intros k Hk; apply curve_changes; auto).
    split.
    + exists i, j. split; [lia|]. rewrite E, !C by lia. lra.
    + intros a b Hab. specialize (A a b ltac:(lia)). rewrite !C in A by lia. lra.
  - intro F. pose proof (drawdown_pct_worst (bar_returns mv)) as D. pose proof (drawdown_pct_range (bar_returns mv)) as R.
    destruct (max_drawdown_percent (bar_returns mv)) as [d idx]. destruct D as [D W]. rewrite returns_length in W.
    assert (P0 : 0 < v0) by (rewrite Forall_forall in F; apply F; eapply nth_error_In, H0).
    assert (C : forall k, (k <= length mv - 1)%nat -> growth (bar_returns mv) k == nth k mv 0 / v0) by (intros k Hk; apply growth_returns; auto).
    split.
    + apply R. clear -F. induction F as [|a l Ha F IH]; [constructor|]. destruct l as [|b l]; [constructor|]. cbn [bar_returns]. constructor; [|exact IH].
      pose proof (Forall_inv F) as Hb. cbn in Hb. destruct (Qeq_bool a 0); [lra|]. apply Qle_shift_div_l; lra.
    + assert (S : forall k d, (k <= length mv - 1)%nat -> pct_fall (growth (bar_returns mv)) k d <-> pct_fall (fun k => nth k mv 0) k d).
      { intros k z Hk. split; intros [m [[[i [Hi E]] A] Ez]].
        - exists (m * v0). assert (M : 0 < m) by (rewrite E, C by lia; apply Qlt_shift_div_l; [exact P0|]; rewrite Forall_forall in F; assert (I : 0 < nth i mv 0) by (apply F, nth_In; destruct mv; [discriminate|cbn [length] in *; lia]); lra).
          split; [split|].
          + exists i. split; [exact Hi|]. rewrite E, C by lia. field. lra.
          + intros j Hj. specialize (A j Hj). rewrite C in A by lia. apply (Qmult_le_r _ _ v0 P0) in A.
            setoid_replace (nth j mv 0 / v0 * v0) with (nth j mv 0) in A by (field; lra). exact A.
          + rewrite Ez, C by lia. field. split; lra.
        - exists (m / v0). assert (M : 0 < m) by (rewrite E; rewrite Forall_forall in F; apply F, nth_In; destruct mv; [discriminate|cbn [length] in *; lia]).
          split; [split|].
          + exists i. split; [exact Hi|]. rewrite E, C by lia. reflexivity.
          + intros j Hj. specialize (A j Hj). rewrite C by lia. apply Qle_shift_div_l; [exact P0|].
            setoid_replace (nth j mv 0 / v0 * v0) with (nth j mv 0) by (field; lra). exact A.
          + rewrite Ez, C by lia. field. split; lra. }
      destruct W as [W1 W2]. split.
      * intros j x Hj X. apply (W1 j x); [lia|]. now apply S.
      * destruct (option_map _ idx) as [k|]; [|exact W2]. destruct W2 as [A1 [A2 [A3 A4]]]. split; [lia|]. split; [exact A2|]. split; [apply S; [lia|exact A3]|].
        intros j x Hj X. apply (A4 j x Hj). apply S; [lia|exact X].
Qed.
Print Assumptions C46_market_value.
(** The change and the return of each bar: the return is the change over the value
    before it, 0 if there was nothing. *)
Theorem C46_bar_returns mv : length (bar_returns mv) = (length mv - 1)%nat /\ length (bar_changes mv) = (length mv - 1)%nat /\
  forall k a b, nth_error mv k = Some a -> nth_error mv (S k) = Some b ->
    exists c r, nth_error (bar_changes mv) k = Some c /\ c == b - a /\ nth_error (bar_returns mv) k = Some r /\
      (a == 0 -> r == 0) /\ (~ a == 0 -> r * a == b - a).
Proof.
  induction mv as [|x [|y l] IH]; [now split; [|split; [|intros [|k]]]|split; [easy|split; [easy|intros [|[|k]] a b H1 H2; discriminate]]|].
  destruct IH as (L1 & L2 & IH). split; [cbn in *; lia|]. split; [cbn in *; lia|]. intros [|k] a b A B.
  - injection A as <-. injection B as <-. exists (y - x), (if Qeq_bool x 0 then 0 else (y - x) / x). split; [easy|]. split; [reflexivity|]. split; [easy|].
    destruct (Qeq_bool x 0) eqn:E; [apply Qeq_bool_iff in E|apply Qeq_bool_neq in E]; (split; intro N; [try easy|try easy]); try (now rewrite E in N); try reflexivity.
    now field.
  - exact (IH k a b A B).
Qed.
Print Assumptions C46_bar_returns.
Example C46_example : let mv := [100; 120; 90; 110; 130; 96] in
  max_drawdown (bar_changes mv) == -(34) /\ fst (max_drawdown_percent (bar_returns mv)) == -(3400 # 130) /\
  snd (max_drawdown_percent (bar_returns mv)) = Some 4%nat /\ max_drawdown_percent (bar_returns [100; 110; 120]) = (0, None).
Proof. conj; comp. Qed.

(** ** C47 *)
Theorem C47_agree trades : let r := trade_stats trades in let pnls := map tr_pnl trades in
  (ts_win_rate r, ts_loss_rate r) = win_loss_rate pnls /\
  (ts_wins r, ts_losses r) = winning_losing_trades pnls /\
  (ts_total_profit r, ts_total_loss r) = total_profit_loss pnls /\
  (ts_avg_profit r, ts_avg_loss r) = avg_profit_loss pnls /\
  (ts_largest_win r == fst (largest_win_loss pnls) /\ ts_largest_loss r == snd (largest_win_loss pnls)) /\
  (ts_max_wins r, ts_max_losses r) = max_wins_losses pnls.
Proof. exact (stats_agree trades). Qed.
Print Assumptions C47_agree.
Theorem C47_totals trades w o : those won trades w -> those lost trades o -> let r := trade_stats trades in
  ts_count r = length trades /\ ts_wins r = length w /\ ts_losses r = length o /\
  ts_total_profit r == sum_of tr_pnl w /\ ts_total_loss r == sum_of tr_pnl o /\ ts_total_pnl r == sum_of tr_pnl trades /\
  mean_of tr_pnl w (ts_avg_profit r) /\ mean_of tr_pnl o (ts_avg_loss r) /\
  mean_of tr_pct w (ts_avg_profit_pct r) /\ mean_of tr_pct o (ts_avg_loss_pct r) /\
  mean_of (fun t => inject_Z (tr_bars t)) w (ts_avg_win_bars r) /\ mean_of (fun t => inject_Z (tr_bars t)) o (ts_avg_loss_bars r) /\
  mean_of tr_pnl trades (ts_avg_pnl r) /\ mean_of tr_pct trades (ts_avg_return_pct r) /\
  mean_of (fun t => inject_Z (tr_bars t)) trades (ts_avg_bars r).
Proof. exact (stats_totals trades w o). Qed.
Print Assumptions C47_totals.
Theorem C47_rates trades w o : those won trades w -> those lost trades o -> let r := trade_stats trades in
  (w = [] /\ o = [] -> ts_win_rate r == 0 /\ ts_loss_rate r == 0) /\
  (~ (w = [] /\ o = []) -> ts_win_rate r + ts_loss_rate r == 100 /\
     ts_win_rate r * inject_Z (Z.of_nat (length w + length o)) == 100 * inject_Z (Z.of_nat (length w))).
Proof. exact (stats_rates trades w o). Qed.
Print Assumptions C47_rates.
Theorem C47_largest trades : let r := trade_stats trades in
  (Forall (fun t => ~ won t) trades /\ ts_largest_win r = 0 /\ ts_largest_win_pct r = 0 /\ ts_largest_win_bars r = 0%Z \/
   exists t, won t /\ first_largest tr_pnl trades t /\
     ts_largest_win r = tr_pnl t /\ ts_largest_win_pct r = tr_pct t /\ ts_largest_win_bars r = tr_bars t) /\
  (Forall (fun t => ~ lost t) trades /\ ts_largest_loss r = 0 /\ ts_largest_loss_pct r = 0 /\ ts_largest_loss_bars r = 0%Z \/
   exists t, lost t /\ first_largest (fun t => - tr_pnl t) trades t /\
     ts_largest_loss r = tr_pnl t /\ ts_largest_loss_pct r = tr_pct t /\ ts_largest_loss_bars r = tr_bars t).
Proof. exact (stats_largest trades). Qed.
Print Assumptions C47_largest.
Theorem C47_streaks trades : longest_row won trades (ts_max_wins (trade_stats trades)) /\ longest_row lost trades (ts_max_losses (trade_stats trades)).
Proof. exact (stats_streaks trades). Qed.
Print Assumptions C47_streaks.
Definition some_trades : list trade_row :=
  [mk_tr 10 1 3; mk_tr 25 2 4; mk_tr (-(5)) (-(1)) 2; mk_tr 0 0 1; mk_tr 25 7 9; mk_tr (-(8)) (-(3)) 6; mk_tr (-(1)) (-(1)) 1].
Example C47_example : let r := trade_stats some_trades in
  those won some_trades [mk_tr 10 1 3; mk_tr 25 2 4; mk_tr 25 7 9] /\ those lost some_trades [mk_tr (-(5)) (-(1)) 2; mk_tr (-(8)) (-(3)) 6; mk_tr (-(1)) (-(1)) 1] /\
  ts_win_rate r == 50 /\ ts_largest_win_pct r == 2 /\ ts_largest_win_bars r = 4%Z /\ ts_largest_loss_bars r = 6%Z /\ ts_max_wins r = 2%nat /\ ts_max_losses r = 2%nat.
Proof.
  split; [|split; [|conj; comp]]; unfold some_trades;
    repeat first [apply those_nil|apply those_in; [comp|]|apply those_out; [unfold won, lost; comp; intro; discriminate|]].
Qed.

(** ** C48 *)
Theorem C48_drawdown_bounds fl boot : float_rounding fl -> boot <> [] -> (Z.of_nat (length boot) <= 2 ^ 53)%Z ->
  exists q_001 q_01 q_05 q_10, dd_confs fl boot = (Some q_001, Some q_01, Some q_05, Some q_10) /\
    q_001 <= q_01 /\ q_01 <= q_05 /\ q_05 <= q_10 /\ In q_001 boot /\ In q_01 boot /\ In q_05 boot /\ In q_10 boot.
Proof. exact (dd_confs_ok fl boot). Qed.
Print Assumptions C48_drawdown_bounds.
(** In exact arithmetic the bound for [q] is the [q]-quantile of the sample. *)
Theorem C48_quantile q boot x : dd_conf (fun x => x) q (sort_q boot) = Some x ->
  let n := inject_Z (Z.of_nat (length boot)) in
  inject_Z (Z.of_nat (length (filter (fun y => Qltb y x) boot))) <= Qmax 0 (q * (n + 1) - 1) /\
  q * (n + 1) - 1 < inject_Z (Z.of_nat (length (filter (fun y => Qle_bool y x) boot))).
Proof. exact (dd_conf_quantile q boot x). Qed.
Print Assumptions C48_quantile.
Theorem C48_bca_bounds fl boot alo ahi : boot <> [] ->
  exists lo hi, bca_bounds fl boot (alo, ahi) = (Some lo, Some hi) /\ In lo boot /\ In hi boot.
Proof. exact (bca_ok fl boot alo ahi). Qed.
Print Assumptions C48_bca_bounds.
(** The lower bound is not above the upper one when the levels are ordered. *)
Theorem C48_bca_ordered boot alo ahi lo hi : 0 <= alo -> alo <= ahi -> ahi <= 1 -> boot <> [] ->
  bca_bounds (fun x => x) boot (alo, ahi) = (Some lo, Some hi) -> lo <= hi.
Proof. exact (bca_order boot alo ahi lo hi). Qed.
Print Assumptions C48_bca_ordered.
Example C48_example : let boot := [-(3); -(9); -(1); -(4); -(7); -(2); -(8); -(6); -(5); -(10); -(11); -(12); -(13); -(14); -(15); -(16); -(17); -(18); -(19); -(20); -(21)] in
  dd_confs (fun x => x) boot = (Some (-(21)), Some (-(21)), Some (-(21)), Some (-(20))) /\
  bca_bounds (fun x => x) boot (1 # 10, 9 # 10) = (Some (-(20)), Some (-(2))).
Proof. conj; comp. Qed.

(** ** C49 *)
(** What the metric is, for every history that records a first bar after [ops0] and
    a last one after [ops1]. *)
Theorem C49_exact c ops0 d0 bar0 p0 ops1 p d bar : cfg_ok c ->
  Forall (fun o => ~ captures o) ops0 -> run c ops0 = Some p0 -> run c (ops0 ++ OpCapture d0 bar0 :: ops1) = Some p ->
  all_closes bar0 p0 -> all_closes bar p ->
  unrealized_metric (capture_bar c d bar p) ==
    (unrealized bar p Long + unrealized bar p Short) - (realized p0 + unrealized bar0 p0 Long + unrealized bar0 p0 Short)
    + (interest_paid c (ops0 ++ OpCapture d0 bar0 :: ops1 ++ [OpCapture d bar]) - interest_paid c (ops0 ++ [OpCapture d0 bar0])).
Proof. exact (metric_exact c ops0 d0 bar0 p0 ops1 p d bar). Qed.
Print Assumptions C49_exact.
(** Guard: no interest is configured. *)
Theorem C49_unrealized_partial c ops0 d0 bar0 p0 ops1 p d bar : cfg_ok c -> rate_per_bar c == 0 ->
  Forall (fun o => ~ captures o) ops0 -> run c ops0 = Some p0 -> untraded p0 -> run c (ops0 ++ OpCapture d0 bar0 :: ops1) = Some p ->
  all_closes bar p ->
  unrealized_metric (capture_bar c d bar p) == unrealized bar p Long + unrealized bar p Short.
Proof.
  intros K Z N R0 [T [L S]] R A.
  assert (A0 : all_closes bar0 p0).
  { intros [] s; unfold position_of; cbn [poss]; [rewrite L|rewrite S]; intro X; exfalso; apply X; reflexivity. }
  rewrite (C49_exact c ops0 d0 bar0 p0 ops1 p d bar K N R0 R A0 A).
  assert (R1 : run c (ops0 ++ [OpCapture d0 bar0]) = Some (capture_bar c d0 bar0 p0)) by (rewrite PortfolioFacts.run_snoc, R0; reflexivity).
  assert (R2 : run c (ops0 ++ OpCapture d0 bar0 :: ops1 ++ [OpCapture d bar]) = Some (capture_bar c d bar p)).
  { change (OpCapture d0 bar0 :: ops1 ++ [OpCapture d bar]) with ((OpCapture d0 bar0 :: ops1) ++ [OpCapture d bar]). rewrite app_assoc, PortfolioFacts.run_snoc, R. reflexivity. }
  rewrite (no_rate_no_interest c K Z _ _ R1), (no_rate_no_interest c K Z _ _ R2).
  unfold realized, unrealized. cbn [poss]. rewrite T, L, S. cbn. lra.
Qed.
Print Assumptions C49_unrealized_partial.
(** Interest is counted as unrealized pnl. *)
Theorem C49_unrealized_refuted : exists c ops0 d0 bar0 p0 ops1 p d bar, cfg_ok c /\
  Forall (fun o => ~ captures o) ops0 /\ run c ops0 = Some p0 /\ untraded p0 /\ run c (ops0 ++ OpCapture d0 bar0 :: ops1) = Some p /\
  all_closes bar p /\ ~ unrealized_metric (capture_bar c d bar p) == unrealized bar p Long + unrealized bar p Short.
Proof.
  exists cash_demo_cfg, [], 1%Z, (bar_ (fst bar1) (snd bar1)). eexists. exists []. eexists. exists 2%Z, (bar_ (fst bar2) (snd bar2)).
  split; [constructor; [comp|comp|intros b [= <-]; comp]|]. split; [constructor|]. split; [reflexivity|]. split; [now split|]. split; [reflexivity|].
  split; [|comp]. intros [] s X; exfalso; apply X; reflexivity.
Qed.
Print Assumptions C49_unrealized_refuted.
Definition no_interest_cfg : cfg := mkCfg 10000 (Some FeePerShare) (Some (1#10)) false PMDefault None None 1 0 None.
Definition two_bars : list op := [OpIncr everyone; OpBuy (ord_ 2 0%nat 10 100 None None); OpSell (ord_ 2 0%nat 4 105 None None); OpSell (ord_ 2 1%nat 5 50 None None)].
Example C49_example : cfg_ok no_interest_cfg /\ rate_per_bar no_interest_cfg == 0 /\ untraded (init no_interest_cfg) /\
  let p := state no_interest_cfg (OpCapture 1 (bar_ (fst bar1) (snd bar1)) :: two_bars) in
  let bar := bar_ (fst bar2) (snd bar2) in
  run no_interest_cfg (OpCapture 1 (bar_ (fst bar1) (snd bar1)) :: two_bars) = Some p /\ all_closes bar p /\
  unrealized_metric (capture_bar no_interest_cfg 2 bar p) == 70 /\ realized p == 20 /\ fees_paid p == 19 # 10.
Proof.
  split; [constructor; [comp|comp|discriminate]|]. split; [comp|]. split; [now split|]. cbv zeta. split; [vm_compute; reflexivity|].
  split; [|conj; comp]. intros sd [|[|s]]; [comp|comp|]. destruct sd; vm_compute; intro X; exfalso; apply X; reflexivity.
Qed.

(** ** C55 *)
Theorem C55_iqr fl values : float_rounding fl -> values <> [] -> (Z.of_nat (length values) <= 2 ^ 53)%Z ->
  exists r, iqr fl values = Some r /\ 0 <= r /\ forall lo hi, (forall x, In x values -> lo <= x <= hi) -> r <= hi - lo.
Proof. exact (iqr_ok fl values). Qed.
Print Assumptions C55_iqr.
Theorem C55_iqr_empty fl : iqr fl [] = Some 0 /\ forall q, percentile_midpoint fl [] q = Some 0.
Proof. split; reflexivity. Qed.
Print Assumptions C55_iqr_empty.
Example C55_example : iqr (fun x => x) [7; 1; 3; 9; 5; 11] = Some ((1 # 2) * (7 + 9) - (1 # 2) * (3 + 5)).
Proof. comp. Qed.

(** ** C56 *)
Theorem C56_profit_factor changes w o : those (fun x => 0 < x) changes w -> those (fun x => x < 0) changes o ->
  let gains := fold_right Qplus 0 w in let losses := - fold_right Qplus 0 o in
  ((forall x, In x changes -> x == 0) -> profit_factor changes = 0) /\
  (~ (forall x, In x changes -> x == 0) -> 0 < profit_factor changes /\ profit_factor changes == ((1 # 10000000000) + gains) / ((1 # 10000000000) + losses) /\
     (1 < profit_factor changes <-> losses < gains) /\ (profit_factor changes < 1 <-> gains < losses)).
Proof. exact (profit_factor_spec changes w o). Qed.
Print Assumptions C56_profit_factor.
(** Guard: what is left after removing one value is not all zero. *)
Theorem C56_jackknife_partial a x b v : nth_error (jackknife_profit_factor (a ++ x :: b)) (length a) = Some v ->
  ~ (forall y, In y (a ++ b) -> y == 0) -> v == profit_factor (a ++ b).
Proof. exact (jackknife_leaves_one_out a x b v). Qed.
Print Assumptions C56_jackknife_partial.
(** When the rest is flat the leave-one-out value is 1 instead of 0. *)
Theorem C56_jackknife_refuted : exists a x b v, nth_error (jackknife_profit_factor (a ++ x :: b)) (length a) = Some v /\ ~ v == profit_factor (a ++ b).
Proof. exists [0], 5, [0]. eexists. split; [vm_compute; reflexivity|]. comp. Qed.
Print Assumptions C56_jackknife_refuted.
Example C56_example : let l := [5; -(2); 3; 0; -(4)] in
  those (fun x => 0 < x) l [5; 3] /\ those (fun x => x < 0) l [-(2); -(4)] /\ 1 < profit_factor l /\
  option_map Qred (nth_error (jackknife_profit_factor l) 0) = Some (Qred (profit_factor [-(2); 3; 0; -(4)])).
Proof.
  split; [|split; [|conj; comp]];
    repeat first [apply those_nil|apply those_in; [comp|]|apply those_out; [comp; intro; discriminate|]].
Qed.
