(** Model of how Strategy.walkforward and Strategy.backtest select the bars of a
    run (src/pybroker/strategy.py 160-177, 1950-1975, 2740-2790, 2876-2893,
    3242-3274, 3407-3484).

    Timestamps are numbers of nanoseconds since 1970-01-01 00:00. A frame whose
    date column has a time zone stores instants in UTC and shows them with an
    offset; a frame without one stores what it shows. Strings are ASCII. Times of
    day are numbers of microseconds: parsing of "9:30" by pandas is not modelled. *)
From Verif Require Export TextModel.
Import ListNotations.
Open Scope list_scope.
Open Scope Z_scope.

Definition day_ns : Z := 86400 * 1000000000.

Section Request.
Variable R : Type.

(** A row of a data frame: the symbol, the timestamp, the other columns. *)
Record brow : Type := mk_brow { b_sym : nat; b_date : Z; b_vals : R }.
(** A frame: the offset of its time zone at an instant, if its dates have one;
    whether its index is a range from 0 by 1; its rows. *)
Record bframe : Type := mk_bframe { bf_tz : option (Z -> Z); bf_range : bool; bf_rows : list brow }.

(** strategy.py 1950-1975: what a Strategy is built with. A [DataSource] is a
    function of the symbols and dates asked for; its [query] (data.py 173-281) is
    C52. *)
Inductive sourced := Queried (query : list nat -> Z -> Z -> bframe) | Given (f : bframe).
(** An execution's symbols; [None] is a SymbolSelector. *)
Record request : Type := mk_request { q_source : sourced; q_start : Z; q_end : Z; q_execs : list (option (list nat)) }.

(** What is raised. *)
Inductive refusal :=
  | DatesReversed | NoExecutions | StartOutside | EndOutside | SelectorNeedsFrame
  | SourceEmpty | DuplicateBars | UnknownDay | BadTimes.
Inductive outcome (A : Type) := Done (a : A) | Refused (e : refusal).
Arguments Done {A} _.
Arguments Refused {A} _.

(** common.py 149-158: [Day]. *)
Inductive day := Mon | Tues | Weds | Thurs | Fri | Sat | Sun.
Definition day_value (d : day) : Z :=
  match d with Mon => 0 | Tues => 1 | Weds => 2 | Thurs => 3 | Fri => 4 | Sat => 5 | Sun => 6 end.
Inductive day_arg := DayName (s : str) | DayOf (d : day).
Inductive days_arg := OneDay (d : day_arg) | ManyDays (l : list day_arg).
(** [str.upper] on ASCII. *)
Definition upper_char (c : ascii) : ascii := if TextModel.between 97 122 (code c) then ascii_of_N (Z.to_N (code c - 32)) else c.
Definition upper (s : str) : str := map upper_char s.
(** [Day[name]]; [None] is the KeyError. *)
Fixpoint find_day (s : str) (l : list (str * day)) : option day :=
  match l with [] => None | (n, d) :: r => if str_eqb s n then Some d else find_day s r end.
Definition day_names : list (str * day) :=
  [(lit "MON", Mon); (lit "TUES", Tues); (lit "WEDS", Weds); (lit "THURS", Thurs); (lit "FRI", Fri); (lit "SAT", Sat); (lit "SUN", Sun)].
Definition day_id (a : day_arg) : option Z :=
  match a with
  | DayOf d => Some (day_value d)
  | DayName s => match find_day (upper s) day_names with Some d => Some (day_value d) | None => None end
  end.
Fixpoint day_ids_of (l : list day_arg) : option (list Z) :=
  match l with
  | [] => Some []
  | a :: r => match day_id a, day_ids_of r with Some x, Some xs => Some (x :: xs) | _, _ => None end
  end.
Fixpoint zput (x : Z) (l : list Z) : list Z :=
  match l with [] => [x] | y :: r => if x <=? y then x :: l else y :: zput x r end.
(** 2876-2890: [_to_day_ids]. Simplification: equal arguments are not merged by
    [set]; a repeated id changes nothing below. *)
Definition to_day_ids (days : option days_arg) : outcome (option (list Z)) :=
  match days with
  | None => Done None
  | Some a =>
      match day_ids_of (match a with OneDay d => [d] | ManyDays l => l end) with
      | None => Refused UnknownDay
      | Some ids => Done (Some (fold_right zput [] ids))
      end
  end.

(** 160-177: [_between]. The second component says whether the result is the
    frame the user passed, and not a copy. *)
Definition between_dates (lo hi : Z) (x : bframe * bool) : bframe * bool :=
  let '(f, own) := x in
  let kept := filter (fun r => (lo <=? b_date r) && (b_date r <=? hi)) (bf_rows f) in
  if Nat.eqb (length kept) (length (bf_rows f)) then (f, own) else (mk_bframe (bf_tz f) false kept, false).
(** common.py 670-678: [_ensure_range_index]. *)
Definition range_index (x : bframe * bool) : bframe * bool :=
  let '(f, own) := x in if bf_range f then (f, own) else (mk_bframe (bf_tz f) true (bf_rows f), false).
(** 2891-2892: [_has_symbol_selector]. *)
Definition has_selector (execs : list (option (list nat))) : bool :=
  existsb (fun e => match e with None => true | Some _ => false end) execs.
(** common.py 659-667: [_static_symbols], of all executions. *)
Definition static_symbols (execs : list (option (list nat))) : list nat :=
  flat_map (fun e => match e with None => [] | Some l => l end) execs.
(** 3450-3484: [_reject_duplicate_bars]. *)
Definition same_bar (a b : brow) : bool := Nat.eqb (b_sym a) (b_sym b) && (b_date a =? b_date b).
Fixpoint has_duplicates (l : list brow) : bool :=
  match l with [] => false | r :: rest => existsb (same_bar r) rest || has_duplicates rest end.
(** 3407-3448: [_fetch_data]. *)
Definition fetch_bars (q : request) : outcome (bframe * bool) :=
  let selector := has_selector (q_execs q) in
  let syms := static_symbols (q_execs q) in
  let checked (x : bframe * bool) :=
    match bf_rows (fst x) with
    | [] => Refused SourceEmpty
    | _ => if has_duplicates (bf_rows (fst x)) then Refused DuplicateBars else Done (range_index x)
    end in
  match q_source q with
  | Queried query => if selector then Refused SelectorNeedsFrame else checked (query syms (q_start q) (q_end q), false)
  | Given f =>
      let x := between_dates (q_start q) (q_end q) (f, true) in
      checked (if selector then x
               else (mk_bframe (bf_tz (fst x)) false (filter (fun r => nmem (b_sym r) syms) (bf_rows (fst x))), false))
  end.

(** pandas: [DatetimeIndex.weekday] (1970-01-01 was a Thursday), the time of day
    in microseconds, and [DataFrame.between_time] with both ends included, which
    wraps around midnight when the start is after the end. *)
Definition weekday (t : Z) : Z := (t / day_ns + 3) mod 7.
Definition time_micros (t : Z) : Z := (t mod day_ns) / 1000.
Definition time_between (lo hi t : Z) : bool :=
  if lo <=? hi then (lo <=? time_micros t) && (time_micros t <=? hi)
  else (lo <=? time_micros t) || (time_micros t <=? hi).

(** 3242-3274: [_filter_dates]. Also says what has become of the frame the user
    passed: 3253-3256 assign to its date column when no copy was made before. *)
Definition filter_dates (q : request) (lo hi : Z) (times : option (list Z)) (days : option (list Z)) (x : bframe * bool)
  : outcome (list brow) * bool :=
  let '(f, own) := if negb (lo =? q_start q) || negb (hi =? q_end q) then range_index (between_dates lo hi x) else x in
  let written := match bf_tz f with Some _ => own | None => false end in
  let rows := bf_rows f in
  let rows := match days with None => rows | Some ids => filter (fun r => existsb (Z.eqb (weekday (b_date r))) ids) rows end in
  (match times with
   | None => Done rows
   | Some [a; b] => Done (filter (fun r => time_between a b (b_date r)) rows)
   | Some _ => Refused BadTimes
   end, written).

(** 2740-2787: the checks of [walkforward] and the bars it runs on. The second
    component is the data source after the call. Simplifications: the checks of
    registered names (C42) and of the slippage model are left out, and so are
    start and end dates with a time zone. *)
Definition requested_bars (q : request) (start_date end_date : option Z) (times : option (list Z)) (days : option days_arg)
  : outcome (list brow) * sourced :=
  let src := q_source q in
  if q_end q <? q_start q then (Refused DatesReversed, src)
  else match q_execs q with
  | [] => (Refused NoExecutions, src)
  | _ =>
      let lo := match start_date with None => q_start q | Some d => d end in
      if (lo <? q_start q) || (q_end q <? lo) then (Refused StartOutside, src)
      else
        let hi := match end_date with None => q_end q | Some d => d end in
        if (hi <? q_start q) || (q_end q <? hi) then (Refused EndOutside, src)
        else if hi <? lo then (Refused DatesReversed, src)
        else match fetch_bars q with
        | Refused e => (Refused e, src)
        | Done x =>
            match to_day_ids days with
            | Refused e => (Refused e, src)
            | Done ids =>
                let '(out, written) := filter_dates q lo hi times ids x in
                (out, match src with
                      | Given f => if written then Given (mk_bframe None (bf_range f) (bf_rows f)) else src
                      | Queried _ => src
                      end)
            end
        end
  end.
End Request.
Arguments Done {A} _.
Arguments Refused {A} _.
Arguments mk_brow {R} _ _ _.
Arguments b_sym {R} _.
Arguments b_date {R} _.
Arguments b_vals {R} _.
Arguments mk_bframe {R} _ _ _.
Arguments bf_tz {R} _.
Arguments bf_range {R} _.
Arguments bf_rows {R} _.
Arguments Queried {R} _.
Arguments Given {R} _.
Arguments mk_request {R} _ _ _ _.
Arguments q_source {R} _.
Arguments q_start {R} _.
Arguments q_end {R} _.
Arguments q_execs {R} _.
Arguments requested_bars {R} _ _ _ _ _.
