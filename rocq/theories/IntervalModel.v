(** Model of src/pybroker/interval.py: compression of base bars, the alignment map
    of completed bars, hold-out dates of interval models; and of the reads of
    compressed bars in src/pybroker/scope.py (IntervalScope).

    The parallel arrays of one symbol (all of length [n]) are a list of rows. A
    value is an exact rational, NaN is [None]. Dates are integers: nanoseconds
    since 1970-01-01, as in [datetime64[ns]]. *)
From Verif Require Export TextModel.
Open Scope list_scope.
Open Scope Z_scope.

(** A row of the base arrays. [r_vwap] is used only when there is a vwap column;
    [r_custom] holds the custom columns in a fixed order. *)
Record row := mk_row {
  r_date : Z; r_open : option Q; r_high : option Q; r_low : option Q; r_close : option Q; r_volume : option Q;
  r_vwap : option Q; r_custom : list (option Q) }.
(** 89-101: a row of [CompressedBars]; [c_vwap] is [None] without a vwap column. *)
Record cbar := mk_cbar {
  c_date : Z; c_open : option Q; c_high : option Q; c_low : option Q; c_close : option Q; c_volume : option Q;
  c_vwap : option (option Q); c_custom : list (option Q) }.

(** Arithmetic with NaN. *)
Definition nadd (a b : option Q) : option Q := match a, b with Some x, Some y => Some (x + y)%Q | _, _ => None end.
Definition nmul (a b : option Q) : option Q := match a, b with Some x, Some y => Some (x * y)%Q | _, _ => None end.
Definition ndiv (a : option Q) (y : Q) : option Q := match a with Some x => Some (x / y)%Q | None => None end.
Definition nsum (l : list (option Q)) : option Q := fold_left nadd l (Some 0%Q).
(** The running maximum of 968-970, and of [np.nanmax]: NaNs are skipped. *)
Definition max_step (hi x : option Q) : option Q :=
  match x, hi with
  | None, _ => hi
  | Some _, None => x
  | Some a, Some b => if Qltb b a then x else hi
  end.
Definition min_step (lo x : option Q) : option Q :=
  match x, lo with
  | None, _ => lo
  | Some _, None => x
  | Some a, Some b => if Qltb a b then x else lo
  end.
Definition nanmax (l : list (option Q)) : option Q := fold_left max_step l None.
Definition nanmin (l : list (option Q)) : option Q := fold_left min_step l None.

(** [a[s:e]] for [0 <= s <= e]. *)
Definition slice {A} (s e : nat) (l : list A) : list A := firstn (e - s) (skipn s l).
(** [a[i]]; the indices used are in range. *)
Definition at_row (rows : list row) (i : nat) : row := nth i rows (mk_row 0 None None None None None None []).

(** ** Bins *)
(** [dates.astype("datetime64[D]")]: days since 1970-01-01. *)
Definition ns_per_day : Z := 86400 * 1000000000.
Definition day_of (date : Z) : Z := date / ns_per_day.
(** numpy's calendar (proleptic Gregorian), which is not in /repo: the first day of
    each month, months counted from January 1970 (IntervalSpec.first_days says what
    this is), and the month of a day. *)
Definition leap_year (y : Z) : bool := (Z.eqb (y mod 4) 0 && negb (Z.eqb (y mod 100) 0)) || Z.eqb (y mod 400) 0.
Definition month_start (k : Z) : Z :=
  let y := 1970 + k / 12 in let m := k mod 12 in
  365 * (y - 1970) + ((y - 1) / 4 - (y - 1) / 100 + (y - 1) / 400 - 477) +
  nth (Z.to_nat m) [0; 31; 59; 90; 120; 151; 181; 212; 243; 273; 304; 334] 0 +
  (if Z.leb 2 m && leap_year y then 1 else 0).
Definition month_of_day (day : Z) : Z :=
  let k := day * 4800 / 146097 in
  if Z.ltb day (month_start k) then k - 1 else if Z.leb (month_start (k + 1)) day then k + 1 else k.
(** [dates.astype("datetime64[M]")]. *)
Definition month_of (date : Z) : Z := month_of_day (day_of date).
(** 855-867: [_calendar_bin_ids]. ["[Y]"] is the month index floor-divided by 12. *)
Definition calendar_bin (interval : str) (date : Z) : Z :=
  if str_eqb interval (lit "daily") then day_of date
  else if str_eqb interval (lit "weekly") then (day_of date + 3) / 7
  else if str_eqb interval (lit "monthly") then month_of date
  else if str_eqb interval (lit "quarterly") then month_of date / 3
  else month_of date / 12.
(** 870-875: [_duration_bin_ids]. *)
Definition duration_bin (seconds : Z) (date : Z) : Z := date / (seconds * 1000000000).

(** 910-931: [_find_bin_starts_ends]: a bin ends where the id changes. *)
Fixpoint bins_from (i start : nat) (prev : Z) (ids : list Z) : list (nat * nat) :=
  match ids with
  | [] => [(start, i - 1)%nat]
  | x :: r => if Z.eqb x prev then bins_from (S i) start x r else (start, i - 1)%nat :: bins_from (S i) i x r
  end.
Definition find_bins (ids : list Z) : list (nat * nat) :=
  match ids with [] => [] | x :: r => bins_from 1 0 x r end.

(** 935-981, 985-995, 1199: one compressed bar of the rows [s..e], without vwap. *)
Definition aggregate_bin (rows : list row) (se : nat * nat) : cbar :=
  let '(s, e) := se in
  let g := slice s (e + 1) rows in
  mk_cbar (r_date (at_row rows e)) (r_open (at_row rows s)) (nanmax (map r_high g)) (nanmin (map r_low g))
          (r_close (at_row rows e)) (nsum (map r_volume g)) None (r_custom (at_row rows e)).

(** 998-1018: [_aggregate_vwap]; [np.add.reduceat] sums from each start to the
    next, and from the last start to the end. *)
Fixpoint reduceat (l : list (option Q)) (starts : list nat) : list (option Q) :=
  match starts with
  | [] => []
  | [s] => [nsum (skipn s l)]
  | s :: (s2 :: _) as r => nsum (slice s s2 l) :: reduceat l r
  end.
Fixpoint counts (n : nat) (starts : list nat) : list nat :=
  match starts with
  | [] => []
  | [s] => [(n - s)%nat]
  | s :: (s2 :: _) as r => (s2 - s)%nat :: counts n r
  end.
Definition vwap_bin (weighted vol plain_sum : option Q) (count : nat) : option Q :=
  match vol with
  | Some v => if Qltb 0 v then ndiv weighted v else ndiv plain_sum (inject_Z (Z.of_nat count))
  | None => ndiv plain_sum (inject_Z (Z.of_nat count))
  end.
Definition aggregate_vwap (rows : list row) (starts : list nat) : list (option Q) :=
  let vwap := map r_vwap rows in
  let volume := map r_volume rows in
  let weighted := reduceat (map (fun r => nmul (r_vwap r) (r_volume r)) rows) starts in
  let vol_sums := reduceat volume starts in
  let plain := reduceat vwap starts in
  map (fun '(((w, v), p), c) => vwap_bin w v p c)
      (combine (combine (combine weighted vol_sums) plain) (counts (length rows) starts)).
(** Adds the vwap column, if there is one. *)
Definition with_vwap (has_vwap : bool) (rows : list row) (starts : list nat) (bars : list cbar) : list cbar :=
  if has_vwap
  then map (fun '(b, v) => mk_cbar (c_date b) (c_open b) (c_high b) (c_low b) (c_close b) (c_volume b) (Some v) (c_custom b))
           (combine bars (aggregate_vwap rows starts))
  else bars.

(** 1021-1049: [_compute_completed]. *)
Definition compute_completed (n : nat) (starts ends : list nat) (interval_n : Z) : list Z :=
  let completed := map (fun t => Z.of_nat (length (filter (fun e => Nat.leb e t) ends)) - 1) (seq 0 n) in
  match ends with
  | [] => completed
  | _ =>
      let last_bin := Z.of_nat (length ends) - 1 in
      let last_bin_size := Z.of_nat (last ends 0%nat) - Z.of_nat (last starts 0%nat) + 1 in
      if Z.ltb 0 interval_n && Z.leb interval_n last_bin_size then completed
      else map (fun c => if Z.eqb c last_bin then last_bin - 1 else c) completed
  end.

(** 1052-1130: [_compress_every_n_bars]: the rows of the full groups of [k], then
    a shorter last group. *)
Fixpoint chunks (m k : nat) (l : list row) : list (list row) :=
  match m with O => [] | S m' => firstn k l :: chunks m' k (skipn k l) end.
Definition chunk_bar (g : list row) : cbar :=
  let lst := at_row g (length g - 1) in
  mk_cbar (r_date lst) (r_open (at_row g 0)) (nanmax (map r_high g)) (nanmin (map r_low g)) (r_close lst)
          (nsum (map r_volume g)) None (r_custom lst).
Definition compress_every (has_vwap : bool) (kz : Z) (rows : list row) : list cbar * list Z :=
  let k := Z.to_nat kz in
  let n := length rows in
  let n_full := (n / k * k)%nat in
  let full := map chunk_bar (chunks (n / k) k (firstn n_full rows)) in
  let tail := if Nat.ltb n_full n then [chunk_bar (slice n_full n rows)] else [] in
  let starts := map (fun j => (j * k)%nat) (seq 0 (n / k)) ++ (if Nat.ltb n_full n then [n_full] else []) in
  let completed :=
    map (fun t => let b := Z.of_nat t / kz in if Z.eqb (Z.of_nat t mod kz) (kz - 1) then b else b - 1) (seq 0 n) in
  let completed :=
    if negb (Z.eqb (Z.of_nat n mod kz) 0)
    then let last_bin := Z.of_nat (n - 1) / kz in
         map (fun '(t, c) => if Z.eqb (Z.of_nat t / kz) last_bin then last_bin - 1 else c) (combine (seq 0 n) completed)
    else completed in
  (with_vwap has_vwap rows starts (full ++ tail), completed).

(** 1133-1228: [compress]; [None] is the ValueError of an invalid interval. *)
Definition compress_bins (has_vwap : bool) (bin : Z -> Z) (rows : list row) : list cbar * list Z :=
  let bins := find_bins (map (fun r => bin (r_date r)) rows) in
  let bars := map (aggregate_bin rows) bins in
  (with_vwap has_vwap rows (map fst bins) bars, compute_completed (length rows) (map fst bins) (map snd bins) (-1)).
Definition compress (has_vwap : bool) (rows : list row) (i : interval) : option (list cbar * list Z) :=
  match normalize_interval i with
  | None => None
  | Some i =>
      match rows with
      | [] => Some ([], [])
      | _ =>
          match i with
          | Every k => Some (compress_every has_vwap k rows)
          | Named s =>
              if str_in s calendar_intervals then Some (compress_bins has_vwap (calendar_bin s) rows)
              else match to_seconds (Some s) with
                   | Some secs => Some (compress_bins has_vwap (duration_bin secs) rows)
                   | None => None
                   end
          end
      end
  end.

(** ** Reads of compressed bars *)
(** 136-142: [CompressedSymbolData] of one symbol and interval. *)
Record csdata := mk_csdata { cs_bars : list cbar; cs_completed : list Z; cs_base_dates : list Z }.
(** 155-182: [IntervalData.slice_for_test] for one symbol that has test dates.
    [np.searchsorted] gives the number of smaller base dates; indexing with it may
    be out of range. *)
Inductive sliced := SData (d : csdata) | SSkip | SNotSubset | SOutOfRange.
Definition search_left (l : list Z) (x : Z) : nat := length (filter (fun y => Z.ltb y x) l).
Definition slice_for_test (d : csdata) (test_dates : list Z) : sliced :=
  match test_dates with
  | [] => SSkip
  | _ =>
      let idx := map (search_left (cs_base_dates d)) test_dates in
      if existsb (fun i => Nat.leb (length (cs_base_dates d)) i) idx then SOutOfRange
      else if negb (forallb (fun '(i, t) => Z.eqb (nth i (cs_base_dates d) 0) t) (combine idx test_dates)) then SNotSubset
      else SData (mk_csdata (cs_bars d) (map (fun i => nth i (cs_completed d) 0) idx) test_dates)
  end.
(** scope.py 1462-1478: [IntervalScope.completed_index]. *)
Definition completed_index (d : csdata) (end_index : Z) : Z :=
  let completed := cs_completed d in
  if Z.leb end_index 0 || Nat.eqb (length completed) 0 then -1
  else let e := if Z.ltb (Z.of_nat (length completed)) end_index then Z.of_nat (length completed) else end_index in
       nth (Z.to_nat (e - 1)) completed 0.
(** scope.py 1480-1527: [IntervalScope.fetch_bar], all columns at once. The memo of
    the whole column does not change results. *)
Definition fetch_bars (d : csdata) (end_index : Z) : list cbar :=
  let idx := completed_index d end_index in
  if Z.ltb idx 0 then [] else firstn (Z.to_nat (idx + 1)) (cs_bars d).
(** scope.py 1422-1443: [IntervalScope.window_len]. *)
Definition window_len (d : csdata) : Z :=
  if Nat.eqb (length (cs_completed d)) 0 then 0
  else let l := last (cs_completed d) 0 in
       if Z.ltb l 0 then 0 else Z.min (l + 1) (Z.of_nat (length (cs_bars d))).

(** ** Hold-out of interval models *)
Definition zmem (x : Z) (l : list Z) : bool := existsb (Z.eqb x) l.
(** The positions of the members of [l]: [np.nonzero(np.isin(dates, l))[0]]. *)
Definition positions (dates l : list Z) : list nat :=
  map fst (filter (fun '(_, d) => zmem d l) (combine (seq 0 (length dates)) dates)).
(** 610-659: [lookahead_train_dates]. *)
Definition lookahead_train_dates (bar_dates train_dates test_dates : list Z) (lookahead : Z) : list Z * nat :=
  if Z.leb lookahead 1 || Nat.eqb (length bar_dates) 0 then (train_dates, 0%nat)
  else
    let train_idx := positions bar_dates train_dates in
    let test_idx := positions bar_dates test_dates in
    match train_idx, test_idx with
    | _ :: _, t0 :: _ =>
        let kept := filter (fun i => Z.leb (Z.of_nat i) (Z.of_nat t0 - lookahead)) train_idx in
        (map (fun i => nth i bar_dates 0) kept, (length train_idx - length kept)%nat)
    | _, _ => (map (fun i => nth i bar_dates 0) train_idx, 0%nat)
    end.
