(** Model of the registry of data columns: scope.py 151-178 (the part of [StaticScope] about
    columns), 222-292, 443-450, and of how a run locks it: strategy.py 2736-2741 and 2873-2874
    ([Strategy.walkforward]; [Strategy.backtest] 2621-2641 calls it), optimize.py 1629-1659 and
    1873-1874 ([Strategy.optimize]).
    Strings are lists of bytes; Python orders strings by code point, which is the order of their
    UTF-8 bytes. A Python set is a list without repetitions, of which the code reads only the
    elements ([in], [|]) and the sorted sequence. Threads are not modelled: one program runs. *)
From Coq Require Import List String Bool.
Import ListNotations.
Local Open Scope string_scope.

(** scope.py 161-171: [default_data_cols], in the order of 262-269. *)
Definition default_cols : list string := ["date"; "open"; "high"; "low"; "close"; "volume"; "vwap"].

(** [x in l]. *)
Definition mem (x : string) (l : list string) : bool := existsb (String.eqb x) l.
(** [set.update] and [set.difference_update]. *)
Definition set_update (s names : list string) : list string := fold_left (fun s n => if mem n s then s else n :: s) names s.
Definition set_minus (s names : list string) : list string := filter (fun n => negb (mem n names)) s.
(** [sorted] on strings. *)
Fixpoint insert (x : string) (l : list string) : list string :=
  match l with
  | [] => [x]
  | y :: r => if String.leb x y then x :: l else y :: insert x r
  end.
Definition sorted (l : list string) : list string := fold_right insert [] l.

(** scope.py 172-176. *)
Record scope := mk_scope { custom : list string; frozen : bool; snap_all : option (list string); snap_ordered : option (list string); snap_bar : option (list string) }.
Definition init : scope := mk_scope [] false None None None.

(** The argument [names] of 222 and 232, a string or an iterable, followed by [*args]. *)
Inductive names := Str (n : string) | Iter (l : list string).
(** 225-228 and 235-238. *)
Definition all_names (a : names) (args : list string) : list string :=
  match a with Str n => n :: args | Iter l => (l ++ args)%list end.

(** 222-230: [register_custom_cols]; [None] is the ValueError of 273-275. *)
Definition register (s : scope) (a : names) (args : list string) : option scope :=
  if frozen s then None
  else Some (mk_scope (set_update (custom s) (filter (fun c => negb (mem c default_cols)) (all_names a args))) (frozen s) (snap_all s) (snap_ordered s) (snap_bar s)).
(** 232-239: [unregister_custom_cols]. *)
Definition unregister (s : scope) (a : names) (args : list string) : option scope :=
  if frozen s then None
  else Some (mk_scope (set_minus (custom s) (all_names a args)) (frozen s) (snap_all s) (snap_ordered s) (snap_bar s)).
(** 261-271: [_build_ordered_data_cols]. *)
Definition build_ordered (s : scope) : list string := (default_cols ++ sorted (custom s))%list.
(** 241-248: [all_data_cols]. *)
Definition all_cols (s : scope) : list string :=
  match snap_all s with Some c => c | None => set_update default_cols (custom s) end.
(** 250-259: [ordered_data_cols]. *)
Definition ordered_cols (s : scope) : list string :=
  match snap_ordered s with Some c => c | None => build_ordered s end.
(** 1080-1082, in [ColumnScope.bar_data_from_data_columns]. *)
Definition bar_cols (s : scope) : list string :=
  match snap_bar s with Some c => c | None => ordered_cols s end.
(** 277-282: [freeze_data_cols]. *)
Definition freeze (s : scope) : scope :=
  mk_scope (custom s) true (Some (set_update default_cols (custom s))) (Some (build_ordered s)) (Some (build_ordered s)).
(** 284-291: [unfreeze_data_cols]. *)
Definition unfreeze (s : scope) : scope := mk_scope (custom s) false None None None.

(** What code sees of the registry: 241, 250, 172 (read directly at context.py 1726, model.py
    2448, indicator.py 590) and 1080. *)
Record view := mk_view { v_all : list string; v_ordered : list string; v_custom : list string; v_bar : list string }.
Definition look (s : scope) : view := mk_view (all_cols s) (ordered_cols s) (sorted (custom s)) (bar_cols s).

(** A program using pybroker: the user's code and the library's. [Look k] reads the columns and
    goes on as [k] decides. [Run before body] is a call of [walkforward], [backtest] or [optimize]:
    [before] is what it does ahead of locking the columns (the checks of [warmup], strategy.py
    2736-2737; optimize.py 1629-1655), [body] everything inside its [try], the user's functions
    among it. [Catch p q] is [try: p except: q]. *)
Inductive prog :=
| Skip
| Register (a : names) (args : list string)
| Unregister (a : names) (args : list string)
| Look (k : view -> prog)
| Fail
| Seq (p q : prog)
| Catch (p q : prog)
| Run (before body : prog).

(** What happens: a registration or removal that is done, one that is refused, the columns being
    read, and the beginning and end of a run's [try]. *)
Inductive event := Did_register (a : names) (args : list string) | Did_unregister (a : names) (args : list string) | Refused | Saw (v : view) | Started | Ended.

(** The scope after a program, what happened, and whether it raised. *)
Fixpoint eval (p : prog) (s : scope) : scope * list event * bool :=
  match p with
  | Skip => (s, [], false)
  | Register a args =>
      match register s a args with
      | Some s' => (s', [Did_register a args], false)
      | None => (s, [Refused], true)
      end
  | Unregister a args =>
      match unregister s a args with
      | Some s' => (s', [Did_unregister a args], false)
      | None => (s, [Refused], true)
      end
  | Look k => let '(s', es, r) := eval (k (look s)) s in (s', Saw (look s) :: es, r)
  | Fail => (s, [], true)
  | Seq p q =>
      let '(s1, es1, r1) := eval p s in
      if r1 then (s1, es1, true)
      else let '(s2, es2, r2) := eval q s1 in (s2, (es1 ++ es2)%list, r2)
  | Catch p q =>
      let '(s1, es1, r1) := eval p s in
      if r1 then let '(s2, es2, r2) := eval q s1 in (s2, (es1 ++ es2)%list, r2)
      else (s1, es1, false)
  | Run before body =>
      let '(s1, es1, r1) := eval before s in
      if r1 then (s1, es1, true)
      else let '(s2, es2, r2) := eval body (freeze s1) in (unfreeze s2, (es1 ++ Started :: es2 ++ [Ended])%list, r2)
  end.
