(** Vocabulary of the interval properties: the calendar, groups of base bars and
    what a compressed bar says about its group. *)
From Verif Require Export TextSpec IntervalModel.
Open Scope list_scope.
Open Scope Z_scope.

(** ** Calendar *)
(** A leap year is divisible by 4 and not by 100, or divisible by 400. *)
Definition is_leap (y : Z) : Prop := ((4 | y) /\ ~ (100 | y)) \/ (400 | y).
(** Days of month [m] (0 is January) of year [y]. *)
Definition month_length (y m days : Z) : Prop :=
  (m = 1 /\ is_leap y /\ days = 29) \/ (m = 1 /\ ~ is_leap y /\ days = 28) \/
  ((m = 3 \/ m = 5 \/ m = 8 \/ m = 10) /\ days = 30) \/
  ((m = 0 \/ m = 2 \/ m = 4 \/ m = 6 \/ m = 7 \/ m = 9 \/ m = 11) /\ days = 31).
(** The day number of the first day of each month, counting days from 1970-01-01
    and months from January 1970 (C54 shows that [month_start] is this). *)
Definition first_days (f : Z -> Z) : Prop :=
  f 0 = 0 /\ forall k, month_length (1970 + k / 12) (k mod 12) (f (k + 1) - f k).
(** A date lies on day [d]. *)
Definition on_day (date d : Z) : Prop := d * (86400 * 1000000000) <= date < (d + 1) * (86400 * 1000000000).
Definition on_days (date a b : Z) : Prop := exists d, on_day date d /\ a <= d < b.
(** The [k]th period of an interval (in normal form) that groups bars by date:
    days; weeks from Monday on (1970-01-05, day 4, was a Monday); months; quarters;
    years; or a fixed number of seconds, counted from 1970-01-01. *)
Inductive period : str -> Z -> Z -> Prop :=
| pd_daily date k : on_day date k -> period (lit "daily") date k
| pd_weekly date k : on_days date (7 * k - 3) (7 * k + 4) -> period (lit "weekly") date k
| pd_monthly date k : on_days date (month_start k) (month_start (k + 1)) -> period (lit "monthly") date k
| pd_quarterly date k : on_days date (month_start (3 * k)) (month_start (3 * k + 3)) -> period (lit "quarterly") date k
| pd_yearly date k : on_days date (month_start (12 * k)) (month_start (12 * k + 12)) -> period (lit "yearly") date k
| pd_duration d u n long secs date k : numeral d n -> tf_unit [u] long secs ->
    k * (n * secs * 1000000000) <= date < (k + 1) * (n * secs * 1000000000) -> period (d ++ [u]) date k.

(** ** Groups *)
(** The sum of a column, NaN if a value is. *)
Definition total (l : list (option Q)) (v : option Q) : Prop :=
  (exists qs q, l = map Some qs /\ v = Some q /\ (q == Qsum qs)%Q) \/ (In None l /\ v = None).
(** The greatest and the least value of a column that is not NaN. *)
Definition greatest (l : list (option Q)) (v : option Q) : Prop :=
  match v with
  | None => forall x, In x l -> x = None
  | Some q => In (Some q) l /\ forall p, In (Some p) l -> (p <= q)%Q
  end.
Definition least (l : list (option Q)) (v : option Q) : Prop :=
  match v with
  | None => forall x, In x l -> x = None
  | Some q => In (Some q) l /\ forall p, In (Some p) l -> (q <= p)%Q
  end.
(** [v] is the total [a] divided by [q]. *)
Definition quotient (a : option Q) (q : Q) (v : option Q) : Prop :=
  match a with None => v = None | Some x => exists y, v = Some y /\ (y * q == x)%Q end.
(** The average vwap of a group, weighted by volume; the plain average if the
    volume is not positive (or not known). *)
Definition group_vwap (g : list row) (v : option Q) : Prop :=
  exists vol weighted plain, total (map r_volume g) vol /\
    total (map (fun r => nmul (r_vwap r) (r_volume r)) g) weighted /\ total (map r_vwap g) plain /\
    ((exists q, vol = Some q /\ (0 < q)%Q /\ quotient weighted q v) \/
     ((forall q, vol = Some q -> (q <= 0)%Q) /\ quotient plain (inject_Z (Z.of_nat (length g))) v)).
(** The compressed bar [b] summarises the base bars [g]: the first open, the last
    close, date and custom values, the extreme prices, the total volume. *)
Definition summarises (has_vwap : bool) (g : list row) (b : cbar) : Prop :=
  (exists x r, g = x :: r /\ c_open b = r_open x) /\
  (exists y r, g = r ++ [y] /\ c_close b = r_close y /\ c_date b = r_date y /\ c_custom b = r_custom y) /\
  greatest (map r_high g) (c_high b) /\ least (map r_low g) (c_low b) /\ total (map r_volume g) (c_volume b) /\
  (if has_vwap then exists v, c_vwap b = Some v /\ group_vwap g v else c_vwap b = None).
(** [rows] is cut into consecutive groups: of [k] bars, the last maybe shorter; or
    by period: the bars of a group are of one period, and those of the next group
    are not. *)
Definition cut (i : interval) (rows : list row) (gs : list (list row)) : Prop :=
  concat gs = rows /\ (forall g, In g gs -> g <> []) /\
  match i with
  | Every k => forall a g b, gs = a ++ g :: b -> Z.of_nat (length g) <= k /\ (b <> [] -> Z.of_nat (length g) = k)
  | Named s =>
      (forall g, In g gs -> exists k, forall r, In r g -> period s (r_date r) k) /\
      (forall a g g' b r r' k, gs = a ++ g :: g' :: b -> In r g -> In r' g' -> period s (r_date r) k -> ~ period s (r_date r') k)
  end.

(** ** Views *)
(** The next bar [f] (if any) is of another period than the last bar of [p]: it
    closes the period. *)
Definition closes (i : interval) (p f : list row) : Prop :=
  match i with
  | Every _ => False
  | Named s => exists x y p' f' k, p = p' ++ [x] /\ f = y :: f' /\ period s (r_date x) k /\ ~ period s (r_date y) k
  end.
(** The last group of [p] is finished: it has all its bars, or the next bar is of
    another period. *)
Definition finished (i : interval) (p f last : list row) : Prop :=
  match i with Every k => Z.of_nat (length last) = k | Named _ => closes i p f end.
(** The positions of the first and last rows of the groups. *)
Fixpoint bounds (off : nat) (gs : list (list row)) : list (nat * nat) :=
  match gs with [] => [] | g :: r => (off, off + length g - 1)%nat :: bounds (off + length g) r end.
Definition starts_of (gs : list (list row)) : list nat := map fst (bounds 0 gs).
Definition ends_of (gs : list (list row)) : list nat := map snd (bounds 0 gs).
Fixpoint increasing (l : list Z) : Prop :=
  match l with x :: (y :: _) as r => x < y /\ increasing r | _ => True end.
