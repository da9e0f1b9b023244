(** Walkforward with dynamic symbol selection: strategy.py 3036-3230
    ([_run_walkforward]), 2894-3030 ([_liquidate_dropped_symbols],
    [_exit_dropped_at_bar]), common.py 660-800 and the stitched replay of an
    optimization, optimize.py 2200-2340. *)
From Verif Require Export MarketModel.

(** ** Resolving executions *)
(** The rows a selector is given: those of the training window, per symbol.
    (The code hands over one frame; its row order is not modelled.) *)
Definition trows (R : Type) := list (sym * list (Z * R)).
(** common.py [SymbolSelector]: fixed symbols, or a function of the training rows.
    A selector that raises, or returns something that is not a sequence of
    strings (common.py 668-697, TypeError), returns [None]. *)
Inductive symbols (R : Type) := Fixed (l : list sym) | Selector (f : trows R -> option (list sym)).
Arguments Fixed {R}. Arguments Selector {R}.
Definition is_selector {R} (x : symbols R) : bool := match x with Selector _ => true | Fixed _ => false end.
Fixpoint repeats (l : list sym) : bool := match l with [] => false | s :: r => nmem s r || repeats r end.
(** The symbols that have a row. *)
Definition loaded {R} (f : trows R) : list sym :=
  flat_map (fun x => match snd x with [] => [] | _ => [fst x] end) f.
(** common.py 699-726 [_resolve_execution_symbols]; [None] when it raises. *)
Definition resolve1 {R} (f : trows R) (x : symbols R) : option (list sym) :=
  match x with
  | Fixed l => Some l
  | Selector g =>
      match g f with
      | None => None
      | Some [] => None
      | Some l => if repeats l || negb (forallb (fun s => nmem s (loaded f)) l) then None else Some l
      end
  end.
(** common.py 729-748 [_resolve_executions]: the executions in the order the set
    yields them. *)
Fixpoint resolve_loop {R} (f : trows R) (l : list (symbols R)) (seen : list sym) : option (list (list sym)) :=
  match l with
  | [] => Some []
  | x :: r =>
      match resolve1 f x with
      | None => None
      | Some syms => if existsb (fun s => nmem s seen) syms then None else option_map (cons syms) (resolve_loop f r (seen ++ syms))
      end
  end.
(** common.py 772-795 [_selection_df] and strategy.py 3095-3113: without a
    selector nothing is resolved; with one, a window without training rows
    raises. *)
Definition resolve {R} (f : trows R) (l : list (symbols R)) : option (list (list sym)) :=
  if existsb is_selector l then match loaded f with [] => None | _ => resolve_loop f l [] end
  else Some (map (fun x => match x with Fixed s => s | Selector _ => [] end) l).

Section Select.
Variables U R : Type.
(** The rows inside a window. *)
Definition frame_of (all : list sym) (w : window) (m : market R) : trows R :=
  map (fun s => (s, filter (fun r => inside w (fst r)) (m s))) all.

(** ** Leaving symbols that are no longer selected *)
(** An ascending list without repetition ([sorted] of a set). *)
Fixpoint ninsert (x : nat) (l : list nat) : list nat :=
  match l with
  | [] => [x]
  | y :: r => if Nat.ltb x y then x :: y :: r else if Nat.eqb x y then y :: r else y :: ninsert x r
  end.
Definition sorted_set (l : list nat) : list nat := fold_right ninsert [] l.

Section Boundary.
Variable y : strategy U R.
Variable m : market R.
(** The order in which a set of symbols is iterated. *)
Variable order : list sym -> list sym.
Definition chosen (s : sym) : bool := nmem s (y_syms y).
(** strategy.py 2922-2929. *)
Definition cancel_stale (b : bstate) : bstate :=
  fold_left (fun b s => set_pend (KRemoveAll (Some s)) b)
    (sorted_set (filter (fun s => negb (chosen s)) (map n_sym (orders None None (b_pend b))))) b.
(** 2921 and 2930: the held symbols that are not selected, as a set. *)
Definition dropped (p : port) : list sym :=
  sorted_set (filter (fun s => negb (chosen s)) (akeys (p_longs p) ++ akeys (p_shorts p))).
(** 2935-2936: the first date of the test window. *)
Definition boundary (w : window) : option Z := match all_dates y m w with [] => None | d :: _ => Some d end.
(** 2980-3002: the bar a symbol is exited on: its first one of the test window,
    else its last one not after the boundary (its very last one if the window is
    empty). *)
Definition first_bar (w : window) (s : sym) : option Z := match window_dates m w s with [] => None | d :: _ => Some d end.
Definition last_bar (w : window) (s : sym) : option Z :=
  match rev (match boundary w with None => cal m s | Some d0 => filter (fun d => Z.leb d d0) (cal m s) end) with [] => None | d :: _ => Some d end.
(** 3012-3029 and portfolio.py 1409-1469: the prices and the slippage are those
    of the exit bar. A raise ends the run. *)
Definition exit_on (w : window) (bar : sym -> option Z) (st : option bstate) (s : sym) : option bstate :=
  match st, bar s with
  | Some b, Some d =>
      let v := mkView R w d (rows_until (y_all y) d m) in
      let o := OpExit d s (fst (y_exit_fill y v s)) (snd (y_exit_fill y v s)) (y_sm y v) in
      match step (y_cfg y) o (b_port b) with
      | Ret p _ => Some (set_port p o b)
      | Raise _ _ => None
      end
  | st, _ => st
  end.
(** strategy.py 2894-2957 [_liquidate_dropped_symbols]. *)
Definition liquidate (w : window) (b : bstate) : option bstate :=
  let b := cancel_stale b in
  let d := dropped (b_port b) in
  let st := fold_left (exit_on w (first_bar w)) (order d) (Some b) in
  let rest := filter (fun s => match first_bar w s with Some _ => false | None => true end) d in
  fold_left (exit_on w (last_bar w)) (order rest) st.
(** optimize.py 2292-2300: the caps of the window are pushed onto the account; the
    walkforward of [strategy.py] does not do this. *)
Definition push_caps (stitched : bool) (b : bstate) : bstate :=
  if stitched then
    let o := OpSetCaps (z_max_long (y_settings y)) (z_max_short (y_settings y)) in
    match step (y_cfg y) o (b_port b) with Ret p _ => set_port p o b | Raise p _ => set_port p o b end
  else b.
End Boundary.

(** ** The run *)
(** A split: a training and a test window (strategy.py 3086-3094). *)
Definition wsplit := (window * window)%type.
Section Run.
Variable all : list sym.                               (* the symbols of the data *)
Variable order : list sym -> list sym.
Variable stitched : bool.
(** What is decided before a window is traded - symbols, models, hyperparameter
    values - given the data and the training window; [None] when it raises. *)
Variable plan : market R -> window -> option (strategy U R).
Variable m : market R.
(** One window up to bar [T] ([None]: all of it), strategy.py 3086-3200. *)
Definition one_window (T : option Z) (y : strategy U R) (w : window) (st : bstate * U) : option (bstate * U) :=
  match liquidate y m order w (fst st) with
  | None => None
  | Some b =>
      let b := push_caps y stitched b in
      mbars y m w 0 (match T with None => all_dates y m w | Some t => filter (fun d => Z.leb d t) (all_dates y m w) end)
        (mstart y m w (b, snd st))
  end.
Fixpoint windows_run (splits : list wsplit) (st : bstate * U) : option (bstate * U) :=
  match splits with
  | [] => Some st
  | (train, w) :: r =>
      match plan m train with
      | None => None
      | Some y => match one_window None y w st with None => None | Some st' => windows_run r st' end
      end
  end.
Definition select_run (c : cfg) (u : U) (splits : list wsplit) : option (bstate * U) := windows_run splits (fresh c 0, u).
(** The same run stopped after the last bar not later than [T]: windows that
    begin later are not reached. *)
Definition begun (T : Z) (w : window) : bool :=
  match unique_sorted (flat_map (window_dates m w) all) with [] => false | d :: _ => Z.leb d T end.
Fixpoint windows_until (T : Z) (splits : list wsplit) (st : bstate * U) : option (bstate * U) :=
  match splits with
  | [] => Some st
  | (train, w) :: r =>
      if begun T w then
        match plan m train with
        | None => None
        | Some y => match one_window (Some T) y w st with None => None | Some st' => windows_until T r st' end
        end
      else windows_until T r st
  end.
Definition select_run_until (c : cfg) (u : U) (T : Z) (splits : list wsplit) : option (bstate * U) := windows_until T splits (fresh c 0, u).
End Run.
(** Selection as the plan: the strategy the window's executions make once their
    symbols are resolved and their models are trained, from the training rows. *)
Definition select_plan (all : list sym) (build : trows R -> list (list sym) -> strategy U R) (execs : list (symbols R)) (m : market R) (train : window)
    : option (strategy U R) :=
  let f := frame_of all train m in option_map (build f) (resolve f execs).
End Select.
Arguments frame_of {R}. Arguments chosen {U R}. Arguments cancel_stale {U R}. Arguments dropped {U R}. Arguments boundary {U R}. Arguments first_bar {R}. Arguments last_bar {U R}. Arguments exit_on {U R}.
Arguments liquidate {U R}. Arguments push_caps {U R}. Arguments one_window {U R}. Arguments windows_run {U R}. Arguments select_run {U R}. Arguments begun {R}. Arguments windows_until {U R}. Arguments select_run_until {U R}. Arguments select_plan {U R}.
