(** What the bars of a run should be, in terms of the arguments of [Strategy] and
    [walkforward]. *)
From Verif Require Export RequestModel.
Import ListNotations.
Open Scope list_scope.
Open Scope Z_scope.

(** Midnight of Monday, 1 January 2024, and the length of a day, in ns. *)
Definition a_monday : Z := 1704067200 * 1000000000.
Definition one_day : Z := 24 * 60 * 60 * 1000000000.
(** [t] falls on the [k]-th day of some week, 0 is Monday. *)
Definition on_weekday (k t : Z) : Prop := exists week, a_monday + (7 * week + k) * one_day <= t < a_monday + (7 * week + k + 1) * one_day.
(** At [t] the clock shows [m] whole microseconds after midnight. *)
Definition clock_shows (t m : Z) : Prop :=
  exists midnight ns, t = a_monday + midnight * one_day + m * 1000 + ns /\ 0 <= ns < 1000 /\ 0 <= m < one_day / 1000.
(** Between two times of day, both included; past midnight if the first is later. *)
Definition in_hours (lo hi t : Z) : Prop :=
  exists m, clock_shows t m /\ ((lo <= hi /\ lo <= m <= hi) \/ (hi < lo /\ (lo <= m \/ m <= hi))).

(** The day a name or a member of [Day] stands for; case is ignored. *)
Definition spelled (s : str) (d : day) : Prop :=
  lower s = lit match d with Mon => "mon" | Tues => "tues" | Weds => "weds" | Thurs => "thurs" | Fri => "fri" | Sat => "sat" | Sun => "sun" end.
Definition means_day (a : day_arg) (d : day) : Prop :=
  match a with DayOf d' => d = d' | DayName s => spelled s d end.
Definition listed_days (days : days_arg) : list day_arg := match days with OneDay a => [a] | ManyDays l => l end.

Section Wanted.
Context {R : Type}.
(** The range asked for. *)
Definition asked_start (q : request R) (start_date : option Z) : Z := match start_date with Some d => d | None => q_start q end.
Definition asked_end (q : request R) (end_date : option Z) : Z := match end_date with Some d => d | None => q_end q end.
Definition dynamic (q : request R) : Prop := In None (q_execs q).
Definition executed (q : request R) (s : nat) : Prop := exists l, In (Some l) (q_execs q) /\ In s l.

(** The bars of a run: those of the symbols of its executions (all of them with a
    symbol selector) from the start date to the end date, on the days and at the
    times of day asked for. *)
Definition wanted (q : request R) start_date end_date (times : option (list Z)) (days : option days_arg) (r : brow R) : Prop :=
  (dynamic q \/ executed q (b_sym r)) /\
  asked_start q start_date <= b_date r <= asked_end q end_date /\
  match days with
  | None => True
  | Some l => exists a d, In a (listed_days l) /\ means_day a d /\ on_weekday (day_value d) (b_date r)
  end /\
  match times with Some [lo; hi] => in_hours lo hi (b_date r) | _ => True end.

(** The bars the strategy itself covers, before a narrower range is asked for. *)
Definition covered (q : request R) (r : brow R) : Prop :=
  (dynamic q \/ executed q (b_sym r)) /\ q_start q <= b_date r <= q_end q.
(** A symbol has two covered rows on one date. *)
Definition covered_twice (q : request R) (rows : list (brow R)) : Prop :=
  exists i j a b, i <> j /\ nth_error rows i = Some a /\ nth_error rows j = Some b /\
    covered q a /\ covered q b /\ b_sym a = b_sym b /\ b_date a = b_date b.
(** The dates asked for are inside the strategy's and in order. *)
Definition dates_ok (q : request R) start_date end_date : Prop :=
  q_start q <= asked_start q start_date /\ asked_start q start_date <= asked_end q end_date /\ asked_end q end_date <= q_end q.
Definition args_ok (times : option (list Z)) (days : option days_arg) : Prop :=
  match times with Some l => length l = 2%nat | None => True end /\
  match days with Some l => forall a, In a (listed_days l) -> exists d, means_day a d | None => True end.

(** A source that answers a query with rows of the symbols and dates it was asked
    for only. *)
Definition answers (query : list nat -> Z -> Z -> bframe R) : Prop :=
  forall syms lo hi r, In r (bf_rows (query syms lo hi)) -> In (b_sym r) syms /\ lo <= b_date r <= hi.
End Wanted.
