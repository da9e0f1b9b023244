(** Model of the ratio metrics of src/pybroker/eval.py: Sharpe 368-392, downside
    deviation 396-413, Sortino 417-453, Calmar 513-544 with the percentage drawdown
    548-576, the ulcer index 808-845, UPI 849-919, the annual return 1044-1064,
    R-squared 1067-1083, and what [_calc_eval_metrics] 1574-1668 passes to them.

    Floats are real numbers with NaN ([None]); rounding and infinite inputs are not
    modelled. The rolling ulcer index ([period] given) is not modelled: a run
    evaluates the running one. *)
From Coq Require Export Reals List.
Export ListNotations.
Open Scope list_scope.
Open Scope R_scope.

(** A float that is not infinite: NaN is [None]. *)
Notation num := (option R).
(** A score: a float, [np.inf] or NaN. *)
Inductive score := Fin (x : R) | PInf | NaN.

(** Arithmetic with NaN; comparisons with NaN are false. *)
Definition lift2 (f : R -> R -> R) (a b : num) : num := match a, b with Some x, Some y => Some (f x y) | _, _ => None end.
Definition ltb (a b : R) : bool := if Rlt_dec a b then true else false.
Definition eqb (a b : R) : bool := if Req_EM_T a b then true else false.
Definition nlt (a b : num) : bool := match a, b with Some x, Some y => ltb x y | _, _ => false end.
Definition neq0 (a : num) : bool := match a with Some x => eqb x 0 | None => false end.
Definition score_of (a : num) : score := match a with Some x => Fin x | None => NaN end.

(** [np.mean], [np.std] (of the population) of arrays that are not empty. *)
Definition nsum (l : list num) : num := fold_left (lift2 Rplus) l (Some 0).
Definition nmean (l : list num) : num := option_map (fun s => s / INR (length l)) (nsum l).
Definition nstd (l : list num) : num :=
  let m := nmean l in
  option_map sqrt (nmean (map (fun x => let d := lift2 Rminus x m in lift2 Rmult d d) l)).
(** [sr *= np.sqrt(obs)] unless [obs] is [None]. *)
Definition annualize (sr : R) (obs : option nat) : R := match obs with None => sr | Some n => sr * sqrt (INR n) end.

(** 368-392: [sharpe_ratio]. *)
Definition sharpe_ratio (returns : list num) (obs : option nat) : num :=
  match returns with
  | [] => Some 0
  | _ => let std := nstd returns in
         if neq0 std then Some 0 else option_map (fun sr => annualize sr obs) (lift2 Rdiv (nmean returns) std)
  end.
(** 396-413: [downside_deviation]; a NaN is not below 0. *)
Definition downside_deviation (returns : list num) : R :=
  match returns with
  | [] => 0
  | _ => sqrt (fold_left (fun s r => match r with Some x => if ltb x 0 then s + x * x else s | None => s end) returns 0 / INR (length returns))
  end.
(** 417-453: [sortino_ratio]. *)
Definition sortino_ratio (returns : list num) (obs : option nat) : score :=
  match returns with
  | [] => Fin 0
  | _ =>
      match nmean returns with
      | None => NaN
      | Some mean =>
          let dd := downside_deviation returns in
          if eqb dd 0 then (if ltb 0 mean then PInf else Fin 0) else Fin (annualize (mean / dd) obs)
      end
  end.
(** 548-576: [max_drawdown_percent] without the index; [max_equity] starts at 1 and
    is never NaN. *)
Definition ddp_step (st : num * R * R) (r : num) : num * R * R :=
  let '(cumulative, max_equity, dd) := st in
  let cumulative := lift2 Rmult cumulative (option_map (fun x => x + 1) r) in
  match cumulative with
  | None => (None, max_equity, dd)
  | Some c =>
      if ltb max_equity c then (cumulative, c, dd)
      else if ltb 0 max_equity then
        let loss := (c / max_equity - 1) * 100 in
        if ltb loss dd then (cumulative, max_equity, loss) else (cumulative, max_equity, dd)
      else (cumulative, max_equity, dd)
  end.
Definition max_drawdown_percent (returns : list num) : R := let '(_, _, dd) := fold_left ddp_step returns (Some 1, 1, 0) in dd.
(** 513-544: [calmar_ratio]. *)
Definition calmar_ratio (returns : list num) (bars_per_year : nat) : score :=
  match returns with
  | [] => Fin 0
  | _ =>
      match fold_left (lift2 Rmult) (map (option_map (fun r => 1 + r)) returns) (Some 1) with
      | None => NaN
      | Some growth =>
          let max_dd := Rabs (max_drawdown_percent returns) / 100 in
          if eqb max_dd 0 then (if ltb 1 growth then PInf else Fin 0)
          else let cagr := if ltb 0 growth then Rpower growth (INR bars_per_year / INR (length returns)) - 1 else -1 in
               Fin (cagr / max_dd)
      end
  end.

(** 808-834: [ulcer_index] with [period=None]. *)
Definition ulcer_step (st : num * list num) (v : num) : num * list num :=
  let '(peak, dd) := st in
  let peak := if nlt peak v then v else peak in
  (peak, dd ++ [if neq0 peak then Some 0 else option_map (fun x => x * 100) (lift2 Rdiv (lift2 Rminus v peak) peak)]).
Definition ulcer_index (values : list num) : num :=
  match values with
  | [] => Some 0
  | v0 :: _ => let '(_, dd) := fold_left ulcer_step values (v0, []) in option_map sqrt (nmean (map (fun x => lift2 Rmult x x) dd))
  end.
(** 894-899: no value is below the one before. *)
Fixpoint never_falls (peak : num) (l : list num) : bool :=
  match l with [] => true | v :: r => if nlt v peak then false else never_falls v r end.
(** 910-918: the per-bar returns in percent. *)
Fixpoint bar_percents (l : list num) : list num :=
  match l with
  | prev :: ((cur :: _) as r) => (if neq0 prev then Some 0 else option_map (fun x => x * 100) (lift2 Rdiv (lift2 Rminus cur prev) prev)) :: bar_percents r
  | _ => []
  end.
(** 849-919: [upi], with [ui] given or computed. *)
Definition upi (values : list num) (ui : option num) (bars_per_year : option nat) : score :=
  match values with
  | [] | [_] => Fin 0
  | v0 :: rest =>
      let ui := match ui with Some u => u | None => ulcer_index values end in
      let last := last values None in
      if neq0 ui then
        if existsb (fun v => match v with None => true | _ => false end) values then NaN
        else if negb (nlt v0 last) then Fin 0
        else if never_falls v0 rest then PInf else Fin 0
      else
        match bars_per_year with
        | Some n =>
            if neq0 v0 then Fin 0
            else match lift2 Rdiv last v0 with
                 | None => NaN
                 | Some ratio =>
                     let cagr_pct := if ltb 0 ratio then (Rpower ratio (INR n / INR (length values - 1)) - 1) * 100 else -100 in
                     score_of (lift2 Rdiv (Some cagr_pct) ui)
                 end
        | None => score_of (lift2 Rdiv (nmean (bar_percents values)) ui)
        end
  end.

(** 1032-1041: [total_return_percent]. *)
Definition total_return_percent (initial_value pnl : R) : R := if eqb initial_value 0 then 0 else ((pnl + initial_value) / initial_value - 1) * 100.
(** [np.power(x, y)] of floats with a finite result: a negative base has a power only
    when the exponent is an integer; 0 to a positive power is 0. *)
Definition is_int (y : R) : bool := eqb y (IZR (Int_part y)).
Definition np_power (x y : R) : num :=
  if ltb 0 x then Some (Rpower x y)
  else if eqb x 0 then Some (if eqb y 0 then 1 else 0)
  else if is_int y then Some (powerRZ x (Int_part y)) else None.
(** 1044-1064: [annual_total_return_percent]. *)
Definition annual_total_return_percent (initial_value pnl : R) (bars_per_year total_bars : nat) : num :=
  if orb (eqb initial_value 0) (Nat.leb total_bars 1) then Some 0
  else option_map (fun p => (p - 1) * 100) (np_power ((pnl + initial_value) / initial_value) (INR bars_per_year / INR (total_bars - 1))).

(** 1067-1083: [r_squared], of values that are numbers. [np.polyfit], which is not in
    /repo, is the least-squares line; for a single value, whose line is not unique,
    [sstot] is 0 whatever it returns. *)
Definition rsum (l : list R) : R := fold_left Rplus l 0.
Definition rmean (l : list R) : R := rsum l / INR (length l).
Definition xs (l : list R) : list R := map INR (seq 0 (length l)).
Definition polyfit (x y : list R) : R * R :=
  let mx := rmean x in let my := rmean y in
  let slope := rsum (map (fun p => (fst p - mx) * (snd p - my)) (combine x y)) / rsum (map (fun a => (a - mx) * (a - mx)) x) in
  (slope, my - slope * mx).
Definition r_squared (values : list R) : R :=
  match values with
  | [] => 0
  | _ =>
      let x := xs values in
      let '(slope, intercept) := polyfit x values in
      let y_hat := rmean values in
      let ssres := rsum (map (fun p => (snd p - (slope * fst p + intercept)) ^ 2) (combine x values)) in
      let sstot := rsum (map (fun v => (v - y_hat) ^ 2) values) in
      if eqb sstot 0 then 0 else 1 - ssres / sstot
  end.

(** 1236-1257: the returns of [evaluate]'s market values, as [bar_returns]; a value of
    0 gives a return of 0. *)
Fixpoint bar_returns (mv : list R) : list R :=
  match mv with
  | prev :: ((cur :: _) as r) => (if eqb prev 0 then 0 else (cur - prev) / prev) :: bar_returns r
  | _ => []
  end.
(** 1587-1602: the ratio metrics [_calc_eval_metrics] reports for market values. *)
Record metrics := mk_metrics { sharpe : num; sortino : score; calmar : option score; equity_r2 : R; ulcer : num; upi_ : score; max_dd_pct : R }.
Definition ratio_metrics (mv : list R) (bars_per_year : option nat) : metrics :=
  let returns := map Some (bar_returns mv) in
  let ui := ulcer_index (map Some mv) in
  mk_metrics (sharpe_ratio returns bars_per_year) (sortino_ratio returns bars_per_year)
    (option_map (calmar_ratio returns) bars_per_year) (r_squared mv) ui (upi (map Some mv) (Some ui) bars_per_year) (max_drawdown_percent returns).
