(** Model of src/pybroker/eval.py: drawdowns, profit factors, trade statistics,
    bootstrap bounds and the unrealized pnl metric.

    Arrays are lists of exact rationals without NaN; floats are exact except where
    an index is computed from one ([fl], an arbitrary rounding). *)
From Coq Require Import List Bool Arith Lia ZArith QArith Qminmax Qround.
From Verif Require Export Prelude PortfolioModel.
Import ListNotations.
Open Scope list_scope.
Open Scope Q_scope.

(** ** Profit factor *)
(** 1.0e-10 *)
Definition tiny : Q := 1 # 10000000000.
Definition win_sum (l : list Q) : Q := fold_left (fun a x => if Qltb 0 x then a + x else a) l 0.
Definition loss_sum (l : list Q) : Q := fold_left (fun a x => if Qltb 0 x then a else if Qltb x 0 then a + x else a) l 0.
(** 327-354: [profit_factor] with [use_log = False]. *)
Definition profit_factor (changes : list Q) : Q :=
  let has_win := existsb (fun x => Qltb 0 x) changes in
  let has_loss := existsb (fun x => negb (Qltb 0 x) && Qltb x 0) changes in
  if negb has_win && negb has_loss then 0
  else (tiny + win_sum changes) / (tiny - loss_sum changes).
(** 101-126: [_jackknife_profit_factor] with [use_log = False]. *)
Definition jackknife_profit_factor (x : list Q) : list Q :=
  let ws := win_sum x in let ls := loss_sum x in
  map (fun v => let w := if Qltb 0 v then ws - v else ws in
                let l := if Qltb 0 v then ls else if Qltb v 0 then ls - v else ls in
                (tiny + w) / (tiny - l)) x.

(** ** Drawdown *)
(** 490-510: [max_drawdown]. *)
Definition dd_step (st : Q * Q * Q) (change : Q) : Q * Q * Q :=
  let '(cumulative, max_equity, dd) := st in
  let cumulative := cumulative + change in
  if Qltb max_equity cumulative then (cumulative, cumulative, dd)
  else let loss := max_equity - cumulative in
       (cumulative, max_equity, if Qltb dd loss then loss else dd).
Definition max_drawdown (changes : list Q) : Q :=
  match changes with
  | [] => 0
  | _ => let '(_, _, dd) := fold_left dd_step changes (0, 0, 0) in - dd
  end.
(** 548-576: [max_drawdown_percent]. *)
Definition ddp_step (st : Q * Q * Q * option nat) (ir : nat * Q) : Q * Q * Q * option nat :=
  let '(cumulative, max_equity, dd, index) := st in
  let '(i, r) := ir in
  let cumulative := cumulative * (r + 1) in
  if Qltb max_equity cumulative then (cumulative, cumulative, dd, index)
  else if Qltb 0 max_equity
       then let loss := (cumulative / max_equity - 1) * 100 in
            if Qltb loss dd then (cumulative, max_equity, loss, Some i) else (cumulative, max_equity, dd, index)
       else (cumulative, max_equity, dd, index).
Definition max_drawdown_percent (returns : list Q) : Q * option nat :=
  match returns with
  | [] => (0, None)
  | _ => let '(_, _, dd, index) := fold_left ddp_step (combine (seq 0 (length returns)) returns) (1, 1, 0, None) in (dd, index)
  end.
(** 1236-1257: [_bar_returns_and_changes]. *)
Fixpoint bar_changes (mv : list Q) : list Q :=
  match mv with prev :: (cur :: _) as r => (cur - prev) :: bar_changes r | _ => [] end.
Fixpoint bar_returns (mv : list Q) : list Q :=
  match mv with
  | prev :: (cur :: _) as r => (if Qeq_bool prev 0 then 0 else (cur - prev) / prev) :: bar_returns r
  | _ => []
  end.

(** ** Bootstrap bounds *)
(** [int(x)] of a float: towards zero. *)
Definition truncate (x : Q) : Z := if Qle_bool 0 x then Qfloor x else Qceiling x.
(** [boot.sort()]. *)
Fixpoint insert_q (x : Q) (l : list Q) : list Q :=
  match l with [] => [x] | y :: r => if Qle_bool x y then x :: l else y :: insert_q x r end.
Definition sort_q (l : list Q) : list Q := fold_right insert_q [] l.
(** 580-583: [_dd_conf]; [None] would be an index out of bounds. *)
Definition dd_conf (fl : Q -> Q) (q : Q) (boot : list Q) : option Q :=
  let k := truncate (fl (fl (q * inject_Z (Z.of_nat (length boot) + 1)) - 1)) in
  let k := Z.max k 0 in
  nth_error boot (Z.to_nat k).
(** 617-624: [_dd_confs]; the literals are the doubles nearest to 0.001, 0.01, 0.05
    and 0.1. *)
Definition dd_confs (fl : Q -> Q) (boot : list Q) : option Q * option Q * option Q * option Q :=
  let boot := sort_q boot in
  (dd_conf fl (1152921504606847 # 1152921504606846976) boot, dd_conf fl (5764607523034235 # 576460752303423488) boot,
   dd_conf fl (3602879701896397 # 72057594037927936) boot, dd_conf fl (3602879701896397 # 36028797018963968) boot).
(** 70-71: [_bca_clamp]. *)
Definition bca_clamp (k : Z) (n_boot : Z) : Z := Z.min (Z.max k 0) (n_boot - 1).
(** 150-200: the six bounds of [_bca_intervals_from_boot], as they index the sorted
    sample: [lo] and [hi] are the results of the normal distribution functions,
    any number here, one pair for each level. *)
Definition bca_bounds (fl : Q -> Q) (boot : list Q) (lohi : Q * Q) : option Q * option Q :=
  let boot := sort_q boot in let n := Z.of_nat (length boot) in
  let '(alo, ahi) := lohi in
  let k := bca_clamp (truncate (fl (alo * inject_Z (n + 1))) - 1) n in
  let low := nth_error boot (Z.to_nat k) in
  let k := bca_clamp (truncate (fl (fl (1 - ahi) * inject_Z (n + 1))) - 1) n in
  (low, nth_error boot (Z.to_nat (n - 1 - k))).
(** 784-793: [_percentile_midpoint], on a sorted array. *)
Definition percentile_midpoint (fl : Q -> Q) (sorted : list Q) (q : Q) : option Q :=
  match sorted with
  | [] => Some 0
  | _ =>
      let rank := fl (fl (q / 100) * inject_Z (Z.of_nat (length sorted) - 1)) in
      let lo := Qfloor rank in let hi := Qceiling rank in
      if Z.eqb lo hi then nth_error sorted (Z.to_nat lo)
      else match nth_error sorted (Z.to_nat lo), nth_error sorted (Z.to_nat hi) with
           | Some a, Some b => Some ((1 # 2) * (a + b))
           | _, _ => None
           end
  end.
(** 797-805: [_iqr], without NaNs. *)
Definition iqr (fl : Q -> Q) (values : list Q) : option Q :=
  match values with
  | [] => Some 0
  | _ => match percentile_midpoint fl (sort_q values) 75, percentile_midpoint fl (sort_q values) 25 with
         | Some a, Some b => Some (a - b)
         | _, _ => None
         end
  end.

(** ** Trade statistics by definition *)
Definition wins_of (l : list Q) : list Q := filter (fun x => Qltb 0 x) l.
Definition losses_of (l : list Q) : list Q := filter (fun x => Qltb x 0) l.
Definition flat_out (l : list Q) : list Q := filter (fun x => negb (Qeq_bool x 0)) l.
Definition qlen {A} (l : list A) : Q := inject_Z (Z.of_nat (length l)).
Definition qmean (l : list Q) : Q := fold_left Qplus l 0 / qlen l.
(** 920-937, 940-952, 955-969, 972-987, 990-1005. *)
Definition win_loss_rate (pnls : list Q) : Q * Q :=
  let pnls := flat_out pnls in
  match pnls with [] => (0, 0) | _ => (qlen (wins_of pnls) / qlen pnls * 100, qlen (losses_of pnls) / qlen pnls * 100) end.
Definition winning_losing_trades (pnls : list Q) : nat * nat :=
  let pnls := flat_out pnls in
  match pnls with [] => (0, 0)%nat | _ => (length (wins_of pnls), length (losses_of pnls)) end.
Definition total_profit_loss (pnls : list Q) : Q * Q :=
  (match wins_of pnls with [] => 0 | l => fold_left Qplus l 0 end, match losses_of pnls with [] => 0 | l => fold_left Qplus l 0 end).
Definition avg_profit_loss (pnls : list Q) : Q * Q :=
  (match wins_of pnls with [] => 0 | l => qmean l end, match losses_of pnls with [] => 0 | l => qmean l end).
Definition largest_win_loss (pnls : list Q) : Q * Q :=
  (match wins_of pnls with [] => 0 | x :: l => fold_left Qmax l x end, match losses_of pnls with [] => 0 | x :: l => fold_left Qmin l x end).
(** 1008-1029: [max_wins_losses]. *)
Definition streak_step (st : nat * nat * nat * nat) (pnl : Q) : nat * nat * nat * nat :=
  let '(max_wins, max_losses, wins, losses) := st in
  let '(wins, max_wins) := if Qltb 0 pnl then (S wins, Nat.max max_wins (S wins)) else (0%nat, max_wins) in
  let '(losses, max_losses) := if Qltb pnl 0 then (S losses, Nat.max max_losses (S losses)) else (0%nat, max_losses) in
  (max_wins, max_losses, wins, losses).
Definition max_wins_losses (pnls : list Q) : nat * nat :=
  let '(max_wins, max_losses, _, _) := fold_left streak_step pnls (0, 0, 0, 0)%nat in (max_wins, max_losses).
(** 1032-1041 [total_return_percent]. *)
Definition total_return_percent (initial_value pnl : Q) : Q :=
  if Qeq_bool initial_value 0 then 0 else ((pnl + initial_value) / initial_value - 1) * 100.

(** ** Trade statistics in one pass *)
(** A trade: pnl, return in percent, bars held. *)
Record trade_row := mk_tr { tr_pnl : Q; tr_pct : Q; tr_bars : Z }.
Record tstats := mk_ts {
  ts_count : nat; ts_win_rate : Q; ts_loss_rate : Q; ts_wins : nat; ts_losses : nat;
  ts_total_profit : Q; ts_total_loss : Q; ts_avg_profit : Q; ts_avg_loss : Q; ts_avg_profit_pct : Q; ts_avg_loss_pct : Q;
  ts_largest_win : Q; ts_largest_loss : Q; ts_largest_win_pct : Q; ts_largest_loss_pct : Q; ts_largest_win_bars : Z; ts_largest_loss_bars : Z;
  ts_max_wins : nat; ts_max_losses : nat; ts_avg_pnl : Q; ts_avg_return_pct : Q; ts_avg_bars : Q; ts_avg_win_bars : Q; ts_avg_loss_bars : Q;
  ts_total_pnl : Q }.
(** The variables of the loop of 1158-1202; [wins] and [profit_count] are updated in
    the two places of the code. *)
Record tloop := mk_tl {
  l_nonzero : nat; l_wins : nat; l_losses : nat; l_profit : Q; l_loss : Q; l_pcount : nat; l_lcount : nat; l_ppct : Q; l_lpct : Q;
  l_wbars : Z; l_lbars : Z; l_lwin : Q; l_lloss : Q; l_lwpct : Q; l_llpct : Q; l_lwbars : Z; l_llbars : Z;
  l_pnl : Q; l_pct : Q; l_bars : Z; l_mw : nat; l_ml : nat; l_cw : nat; l_cl : nat }.
(** 1163-1202: one trade. *)
Definition tl_step (s : tloop) (t : trade_row) : tloop :=
  let pnl := tr_pnl t in
  let pnl_sum := l_pnl s + pnl in let pct_sum := l_pct s + tr_pct t in let bars_sum := (l_bars s + tr_bars t)%Z in
  let nz := negb (Qeq_bool pnl 0) in
  let nonzero := if nz then S (l_nonzero s) else l_nonzero s in
  let wins := if nz then if Qltb 0 pnl then S (l_wins s) else l_wins s else l_wins s in
  let losses := if nz then if Qltb 0 pnl then l_losses s else S (l_losses s) else l_losses s in
  if Qltb 0 pnl then
    let cw := S (l_cw s) in
    let big := Qltb (l_lwin s) pnl in
    mk_tl nonzero wins losses (l_profit s + pnl) (l_loss s) (S (l_pcount s)) (l_lcount s) (l_ppct s + tr_pct t) (l_lpct s)
      (l_wbars s + tr_bars t) (l_lbars s)
      (if big then pnl else l_lwin s) (l_lloss s) (if big then tr_pct t else l_lwpct s) (l_llpct s)
      (if big then tr_bars t else l_lwbars s) (l_llbars s)
      pnl_sum pct_sum bars_sum (if Nat.ltb (l_mw s) cw then cw else l_mw s) (l_ml s) cw 0
  else if Qltb pnl 0 then
    let cl := S (l_cl s) in
    let big := Qltb pnl (l_lloss s) in
    mk_tl nonzero wins losses (l_profit s) (l_loss s + pnl) (l_pcount s) (S (l_lcount s)) (l_ppct s) (l_lpct s + tr_pct t)
      (l_wbars s) (l_lbars s + tr_bars t)
      (l_lwin s) (if big then pnl else l_lloss s) (l_lwpct s) (if big then tr_pct t else l_llpct s)
      (l_lwbars s) (if big then tr_bars t else l_llbars s)
      pnl_sum pct_sum bars_sum (l_mw s) (if Nat.ltb (l_ml s) cl then cl else l_ml s) 0 cl
  else
    mk_tl nonzero wins losses (l_profit s) (l_loss s) (l_pcount s) (l_lcount s) (l_ppct s) (l_lpct s) (l_wbars s) (l_lbars s)
      (l_lwin s) (l_lloss s) (l_lwpct s) (l_llpct s) (l_lwbars s) (l_llbars s) pnl_sum pct_sum bars_sum (l_mw s) (l_ml s) 0 0.
Definition tl_init : tloop := mk_tl 0 0 0 0 0 0 0 0 0 0 0 0 0 0 0 0 0 0 0 0 0 0 0 0.
Definition over (a : Q) (n : nat) : Q := match n with O => 0 | _ => a / inject_Z (Z.of_nat n) end.
(** 1117-1232: [_trade_stats]. *)
Definition trade_stats (trades : list trade_row) : tstats :=
  match trades with
  | [] => mk_ts 0 0 0 0 0 0 0 0 0 0 0 0 0 0 0 0 0 0 0 0 0 0 0 0 0
  | _ =>
      let n := length trades in
      let s := fold_left tl_step trades tl_init in
      mk_ts n (match l_nonzero s with O => 0 | k => inject_Z (Z.of_nat (l_wins s)) / inject_Z (Z.of_nat k) * 100 end)
        (match l_nonzero s with O => 0 | k => inject_Z (Z.of_nat (l_losses s)) / inject_Z (Z.of_nat k) * 100 end)
        (l_wins s) (l_losses s) (l_profit s) (l_loss s) (over (l_profit s) (l_pcount s)) (over (l_loss s) (l_lcount s))
        (over (l_ppct s) (l_pcount s)) (over (l_lpct s) (l_lcount s)) (l_lwin s) (l_lloss s) (l_lwpct s) (l_llpct s) (l_lwbars s) (l_llbars s)
        (l_mw s) (l_ml s) (l_pnl s / inject_Z (Z.of_nat n)) (l_pct s / inject_Z (Z.of_nat n)) (inject_Z (l_bars s) / inject_Z (Z.of_nat n))
        (over (inject_Z (l_wbars s)) (l_pcount s)) (over (inject_Z (l_lbars s)) (l_lcount s)) (l_pnl s)
  end.

(** ** The unrealized pnl metric *)
(** 1573-1613, on the recorded bars and trades of a portfolio ([_to_test_result],
    strategy.py 3515-3545, without its rounding): at least two bars are needed
    (1477-1482). *)
Definition unrealized_metric (p : port) : Q :=
  match p_bars p with
  | b0 :: (_ :: _) as r =>
      let bn := last r b0 in
      b_mv bn - b_mv b0 - fold_left Qplus (map t_pnl (p_trades p)) 0 + (b_fees bn - b_fees b0)
  | _ => 0
  end.
