(** Vocabulary of C87-C89: averages, deviations, drawdowns, and lines. *)
From Verif Require Export RatioModel.
Open Scope list_scope.
Open Scope R_scope.

Definition total (l : list R) : R := fold_right Rplus 0 l.
Definition average (l : list R) : R := total l / INR (length l).
(** The standard deviation; and the root mean square of the losses, all bars
    counting. *)
Definition deviation (l : list R) : R := sqrt (average (map (fun x => (x - average l) ^ 2) l)).
Definition downside (l : list R) : R := sqrt (average (map (fun x => Rmin x 0 ^ 2) l)).
(** The factor that annualizes, for a number of bars per year. *)
Definition yearly (obs : option nat) : R := match obs with None => 1 | Some n => sqrt (INR n) end.
Definition constant (l : list R) : Prop := forall x y, In x l -> In y l -> x = y.

(** One unit of capital after [k] returns. *)
Definition compounded (returns : list R) (k : nat) : R := fold_right (fun r a => (1 + r) * a) 1 (firstn k returns).
(** [p] is the highest of [f 0 .. f k]. *)
Definition peak (f : nat -> R) (k : nat) (p : R) : Prop :=
  (exists i, (i <= k)%nat /\ p = f i) /\ forall i, (i <= k)%nat -> f i <= p.
(** [d] is the largest fraction of the peak so far by which [f] falls below it within
    [n] steps. *)
Definition drawdown (f : nat -> R) (n : nat) (d : R) : Prop :=
  0 <= d /\ (forall k p, (k <= n)%nat -> peak f k p -> (1 - d) * p <= f k) /\
  (d = 0 \/ exists k p, (k <= n)%nat /\ peak f k p /\ f k = (1 - d) * p).
(** Never below a value before. *)
Definition rising (l : list R) : Prop := forall i j x y, (i <= j)%nat -> nth_error l i = Some x -> nth_error l j = Some y -> x <= y.
Definition value_at (l : list R) (k : nat) : R := nth k l 0.
(** The percentages by which the values are below their peak so far. *)
Definition falls (values percents : list R) : Prop :=
  length percents = length values /\
  forall k p, (k < length values)%nat -> peak (value_at values) k p -> p <> 0 -> value_at percents k = (value_at values k - p) / p * 100.

(** The sum of squares by which a line misses the values. *)
Definition misses (values : list R) (a b : R) : R :=
  total (map (fun k => (value_at values k - (a + b * INR k)) ^ 2) (seq 0 (length values))).
Definition spread (values : list R) : R := total (map (fun v => (v - average values) ^ 2) values).
