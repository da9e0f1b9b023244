(** Model of the bootstrap of src/pybroker/eval.py: 44-126 and 130-148 (draws and
    leave-one-out values), 150-323 (BCa intervals), 327-365 [profit_factor], 456-510,
    579-734 (drawdown bounds and the shared pass) and what [evaluate] 1531-1569
    reports.

    Floats are real numbers; rounding, NaN and infinities are not modelled. The random
    generator is any state machine; [inverse_normal_cdf] and [normal_cdf] (vect.py
    258-282) are any functions. *)
From Verif Require Export RatioModel.
From Coq Require Export ZArith.

(** 1.0e-10 and 1.0e-60 *)
Definition tiny : R := / 10 ^ 10.
Definition tinier : R := / 10 ^ 60.

(** ** The statistics *)
(** 340-350: gains, losses, and whether there are any. *)
Definition pf_step (st : R * R * bool * bool) (change : R) : R * R * bool * bool :=
  let '(win_sum, loss_sum, has_win, has_loss) := st in
  if ltb 0 change then (win_sum + change, loss_sum, true, has_loss)
  else if ltb change 0 then (win_sum, loss_sum + change, has_win, true)
  else st.
(** 327-354: [profit_factor]; 358-365: [log_profit_factor]. *)
Definition profit_factor (use_log : bool) (changes : list R) : R :=
  let '(win_sum, loss_sum, has_win, has_loss) := fold_left pf_step changes (0, 0, false, false) in
  if andb (negb has_win) (negb has_loss) then 0
  else let numer := tiny + win_sum in
       let denom := tiny - loss_sum in
       if use_log then ln (numer / denom) else numer / denom.
(** 368-392: [sharpe_ratio(x, None)], of numbers. *)
Definition sharpe (x : list R) : R :=
  match x with
  | [] => 0
  | _ => let mean := rmean x in
         let std := sqrt (rmean (map (fun v => (v - mean) * (v - mean)) x)) in
         if eqb std 0 then 0 else mean / std
  end.
(** 490-510: [max_drawdown]. *)
Definition mdd_step (st : R * R * R) (change : R) : R * R * R :=
  let '(cumulative, max_equity, dd) := st in
  let cumulative := cumulative + change in
  if ltb max_equity cumulative then (cumulative, cumulative, dd)
  else let loss := max_equity - cumulative in
       if ltb dd loss then (cumulative, max_equity, loss) else (cumulative, max_equity, dd).
Definition max_drawdown (changes : list R) : R := let '(_, _, dd) := fold_left mdd_step changes (0, 0, 0) in - dd.

(** ** Leave-one-out values *)
(** 75-126: [_jackknife_log_profit_factor] and [_jackknife_profit_factor]. *)
Definition jackknife_profit_factor (use_log : bool) (x : list R) : list R :=
  let '(win_sum, loss_sum) :=
    fold_left (fun st v => if ltb 0 v then (fst st + v, snd st) else if ltb v 0 then (fst st, snd st + v) else st) x (0, 0) in
  map (fun v => let w := if ltb 0 v then win_sum - v else win_sum in
                let loss_total := if ltb 0 v then loss_sum else if ltb v 0 then loss_sum - v else loss_sum in
                let numer := tiny + w in
                let denom := tiny - loss_total in
                if use_log then ln (numer / denom) else numer / denom) x.
(** 130-148: [_jackknife_sharpe]. *)
Definition jackknife_sharpe (x : list R) : list R :=
  let n := length x in
  if Nat.leb n 1 then map (fun _ => 0) x
  else
    let '(total, total_sq) := fold_left (fun st v => (fst st + v, snd st + v * v)) x (0, 0) in
    let m := INR (n - 1) in
    map (fun v => let mean := (total - v) / m in
                  let var := (total_sq - v * v) / m - mean * mean in
                  if ltb 0 var then mean / sqrt var else 0) x.
(** 274-292: the values of a user's statistic. *)
Definition jackknife (fn : list R -> R) (x : list R) : list R :=
  if Nat.leb (length x) 1 then map (fun _ => 0) x
  else map (fun i => fn (firstn i x ++ skipn (S i) x)) (seq 0 (length x)).

(** ** Intervals *)
(** [int(x)]: towards zero. *)
Definition trunc (x : R) : Z := if ltb x 0 then (- Int_part (- x))%Z else Int_part x.
Fixpoint insert (v : R) (l : list R) : list R :=
  match l with [] => [v] | w :: r => if ltb w v then w :: insert v r else v :: l end.
Definition sort (l : list R) : list R := fold_right insert [] l.
(** 70-71: [_bca_clamp]. *)
Definition clamp (k : Z) (n_boot : nat) : Z := Z.min (Z.max k 0) (Z.of_nat n_boot - 1).
(** An index out of bounds is [None]. *)
Definition at_ (boot : list R) (k : Z) : option R := nth_error boot (Z.to_nat k).
(** [BootConfIntervals]: the lows and highs of 2.5%, 5% and 10%. *)
Record intervals := mk_intervals { low_2p5 : option R; high_2p5 : option R; low_5 : option R; high_5 : option R; low_10 : option R; high_10 : option R }.
Definition zero_intervals : intervals := mk_intervals (Some 0) (Some 0) (Some 0) (Some 0) (Some 0) (Some 0).
Definition map_intervals (f : R -> R) (i : intervals) : intervals :=
  mk_intervals (option_map f (low_2p5 i)) (option_map f (high_2p5 i)) (option_map f (low_5 i)) (option_map f (high_5 i))
    (option_map f (low_10 i)) (option_map f (high_10 i)).
(** [DrawdownConfs]. *)
Record dd_confs := mk_dd { q_001 : option R; q_01 : option R; q_05 : option R; q_10 : option R }.
Definition zero_dd : dd_confs := mk_dd (Some 0) (Some 0) (Some 0) (Some 0).
(** 579-583: [_dd_conf]; 616-624: [_dd_confs]. *)
Definition dd_conf (q : R) (boot : list R) : option R := at_ boot (Z.max (trunc (q * (INR (length boot) + 1) - 1)) 0).
Definition dd_confs_of (boot : list R) : dd_confs :=
  let boot := sort boot in mk_dd (dd_conf (1 / 1000) boot) (dd_conf (1 / 100) boot) (dd_conf (5 / 100) boot) (dd_conf (1 / 10) boot).

Section Bootstrap.
Context (icdf ncdf : R -> R).
(** 162-169: the acceleration. *)
Definition accel (jack : list R) (n : nat) : R :=
  let theta_dot := rsum jack / INR n in
  let '(numer, denom) := fold_left (fun st j => let diff := theta_dot - j in (fst st + diff * diff * diff, snd st + diff * diff)) jack (0, 0) in
  numer / (6 * sqrt denom ^ 3 + tinier).
(** 171-180, and again twice: the pair of bounds for [p] and [1 - p]. *)
Definition bounds (boot : list R) (z0 a p : R) : option R * option R :=
  let n_boot := length boot in
  let zlo := icdf p in let zhi := icdf (1 - p) in
  let alo := ncdf (z0 + (z0 + zlo) / (1 - a * (z0 + zlo))) in
  let ahi := ncdf (z0 + (z0 + zhi) / (1 - a * (z0 + zhi))) in
  (at_ boot (clamp (trunc (alo * (INR n_boot + 1)) - 1) n_boot),
   at_ boot (Z.of_nat n_boot - 1 - clamp (trunc ((1 - ahi) * (INR n_boot + 1)) - 1) n_boot)).
(** 150-200: [_bca_intervals_from_boot]. *)
Definition bca_intervals (boot : list R) (z0_count : nat) (jack : list R) (n : nat) : intervals :=
  let n_boot := length boot in
  let z0_count := Nat.max (Nat.min z0_count (n_boot - 1)) 1 in
  let z0 := icdf (INR z0_count / INR n_boot) in
  let a := accel jack n in
  let boot := sort boot in
  let '(l1, h1) := bounds boot z0 a (25 / 1000) in
  let '(l2, h2) := bounds boot z0 a (5 / 100) in
  let '(l3, h3) := bounds boot z0 a (1 / 10) in
  mk_intervals l1 h1 l2 h2 l3 h3.

(** ** The draws *)
(** [np.random.randint(0, n)] of a generator state. *)
Context {S : Type} (randint : nat -> S -> nat * S).
(** 44-54: [_fill_bootstrap_row], [k] draws below [n]. *)
Fixpoint fill_row (k n : nat) (s : S) : list nat * S :=
  match k with
  | O => ([], s)
  | Datatypes.S k => let '(j, s) := randint n s in let '(r, s) := fill_row k n s in (j :: r, s)
  end.
(** [x_buff[j] = x[idx[j]]]; an index out of bounds would be 0. *)
Definition resample (x : list R) (idx : list nat) : list R := map (fun j => nth j x 0) idx.

(** 211-223, 237-249, 263-273: the loop over [n_boot] samples: the values of the
    statistic and how many are below [theta_hat]. *)
Fixpoint boot_loop (fn : list R -> R) (theta_hat : R) (x : list R) (n_boot : nat) (s : S) : list R * nat * S :=
  match n_boot with
  | O => ([], 0%nat, s)
  | Datatypes.S k =>
      let '(idx, s) := fill_row (length x) (length x) s in
      let param := fn (resample x idx) in
      let '(boot, z0, s) := boot_loop fn theta_hat x k s in
      (param :: boot, if ltb param theta_hat then Datatypes.S z0 else z0, s)
  end.
(** 203-293: the three versions differ in the statistic and its leave-one-out values.
    [None] is the ValueError. *)
Definition bca_with (fn : list R -> R) (jack : list R -> list R) (x : list R) (n_boot : nat) (s : S) : option intervals :=
  if Nat.eqb n_boot 0 then None
  else match x with
       | [] => Some zero_intervals
       | _ => let '(boot, z0_count, _) := boot_loop fn (fn x) x n_boot s in Some (bca_intervals boot z0_count (jack x) (length x))
       end.
(** The statistic a caller passes. *)
Inductive statistic := ProfitFactor | LogProfitFactor | Sharpe | UserFn (fn : list R -> R).
Definition bca_generic (fn : list R -> R) := bca_with fn (jackknife fn).
(** 296-323: [bca_boot_conf]. *)
Definition bca_boot_conf (x : list R) (n_boot : nat) (f : statistic) (s : S) : option intervals :=
  match f with
  | ProfitFactor => bca_with (profit_factor false) (jackknife_profit_factor false) x n_boot s
  | LogProfitFactor => bca_with (profit_factor true) (jackknife_profit_factor true) x n_boot s
  | Sharpe => bca_with sharpe jackknife_sharpe x n_boot s
  | UserFn fn => bca_generic fn x n_boot s
  end.
(** 456-468: [conf_profit_factor]. *)
Definition conf_profit_factor (x : list R) (n_boot : nat) (s : S) : option intervals :=
  option_map (map_intervals exp) (bca_boot_conf x n_boot LogProfitFactor s).
(** 471-486: [conf_sharpe_ratio]. *)
Definition conf_sharpe_ratio (x : list R) (n_boot : nat) (obs : option nat) (s : S) : option intervals :=
  option_map (fun i => match obs with None => i | Some n => map_intervals (fun v => v * sqrt (INR n)) i end) (bca_boot_conf x n_boot Sharpe s).

(** [max_drawdown_percent(returns)[0]], of numbers. *)
Definition max_drawdown_pct (returns : list R) : R := max_drawdown_percent (map Some returns).
(** 656-665: the loop of [drawdown_conf]. *)
Fixpoint dd_loop (changes returns : list R) (n_boot : nat) (s : S) : list R * list R * S :=
  match n_boot with
  | O => ([], [], s)
  | Datatypes.S k =>
      let '(idx, s) := fill_row (length changes) (length changes) s in
      let a := max_drawdown (resample changes idx) in
      let b := max_drawdown_pct (resample returns idx) in
      let '(dd, pct, s) := dd_loop changes returns k s in
      (a :: dd, b :: pct, s)
  end.
(** 627-666: [drawdown_conf]; [None] is a ValueError. *)
Definition drawdown_conf (changes returns : list R) (n_boot : nat) (s : S) : option (dd_confs * dd_confs) :=
  if Nat.eqb n_boot 0 then None
  else if negb (Nat.eqb (length changes) (length returns)) then None
  else match changes with
       | [] => Some (zero_dd, zero_dd)
       | _ => let '(dd, pct, _) := dd_loop changes returns n_boot s in Some (dd_confs_of dd, dd_confs_of pct)
       end.

(** 694-711: the loop of the shared pass. *)
Record acc := mk_acc { a_log_pf : list R; a_sharpe : list R; a_dd : list R; a_dd_pct : list R; a_z0_log_pf : nat; a_z0_sharpe : nat }.
Fixpoint all_loop (theta_log_pf theta_sharpe : R) (changes returns : list R) (n_boot : nat) (s : S) : acc * S :=
  match n_boot with
  | O => (mk_acc [] [] [] [] 0 0, s)
  | Datatypes.S k =>
      let '(idx, s) := fill_row (length changes) (length changes) s in
      let changes_sample := resample changes idx in
      let returns_sample := resample returns idx in
      let log_pf := profit_factor true changes_sample in
      let sr := sharpe returns_sample in
      let '(a, s) := all_loop theta_log_pf theta_sharpe changes returns k s in
      (mk_acc (log_pf :: a_log_pf a) (sr :: a_sharpe a) (max_drawdown changes_sample :: a_dd a) (max_drawdown_pct returns_sample :: a_dd_pct a)
         (if ltb log_pf theta_log_pf then Datatypes.S (a_z0_log_pf a) else a_z0_log_pf a)
         (if ltb sr theta_sharpe then Datatypes.S (a_z0_sharpe a) else a_z0_sharpe a), s)
  end.
(** 670-734: [bootstrap_eval_all]. *)
Definition bootstrap_eval_all (changes returns : list R) (n_boot bars_per_year : nat) (s : S)
    : option (intervals * intervals * (dd_confs * dd_confs)) :=
  if Nat.eqb n_boot 0 then None
  else if negb (Nat.eqb (length changes) (length returns)) then None
  else match changes with
       | [] => Some (zero_intervals, zero_intervals, (zero_dd, zero_dd))
       | _ =>
           let n := length changes in
           let '(a, _) := all_loop (profit_factor true changes) (sharpe returns) changes returns n_boot s in
           let log_pf_intervals := bca_intervals (a_log_pf a) (a_z0_log_pf a) (jackknife_profit_factor true changes) n in
           let sharpe_intervals := bca_intervals (a_sharpe a) (a_z0_sharpe a) (jackknife_sharpe returns) n in
           let sharpe_intervals :=
             if Nat.ltb 0 bars_per_year then map_intervals (fun v => v * sqrt (INR bars_per_year)) sharpe_intervals else sharpe_intervals in
           Some (log_pf_intervals, sharpe_intervals, (dd_confs_of (a_dd a), dd_confs_of (a_dd_pct a)))
       end.
(** 1535-1569: the bootstrap of [evaluate]: profit factor, Sharpe ratio, drawdowns. *)
Definition evaluate_bootstrap (changes returns : list R) (n_boot : nat) (bars_per_year : option nat) (s : S)
    : option (intervals * intervals * (dd_confs * dd_confs)) :=
  option_map (fun '(log_pf, sr, dd) => (map_intervals exp log_pf, sr, dd))
    (bootstrap_eval_all changes returns n_boot (match bars_per_year with Some n => n | None => 0 end) s).
End Bootstrap.
