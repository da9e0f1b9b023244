(** Vocabulary of C92: resamples, gains and losses, falls in cash. *)
From Verif Require Export RatioSpec BootModel.
Open Scope list_scope.
Open Scope R_scope.

(** What was won and what was lost. *)
Definition gains (l : list R) : R := total (map (fun v => Rmax v 0) l).
Definition losses (l : list R) : R := total (map (fun v => Rmax (- v) 0) l).
(** The ratio of the two, with 1e-10 added to both. *)
Definition gain_loss_ratio (l : list R) : R := (/ 10 ^ 10 + gains l) / (/ 10 ^ 10 + losses l).
(** As many bars as there are, each one of them, any of them any number of times. *)
Definition bars_drawn (n : nat) (row : list nat) : Prop := length row = n /\ forall j, In j row -> (j < n)%nat.
Definition picked (x : list R) (row : list nat) (l : list R) : Prop := Forall2 (fun j v => nth_error x j = Some v) row l.
(** [d] is the largest fall of the sum of the first changes, below an earlier sum. *)
Definition cash_fall (changes : list R) (d : R) : Prop :=
  let f k := total (firstn k changes) in
  (exists i j, (i <= j <= length changes)%nat /\ d = f i - f j) /\ forall i j, (i <= j <= length changes)%nat -> f i - f j <= d.
(** The six bounds, and the four. *)
Definition six (i : intervals) : list (option R) := [low_2p5 i; high_2p5 i; low_5 i; high_5 i; low_10 i; high_10 i].
Definition four (d : dd_confs) : list (option R) := [q_001 d; q_01 d; q_05 d; q_10 d].
(** Each of the bounds is a number, the value of one of the resamples. *)
Definition each_from (n : nat) (l : list (option R)) (value : list nat -> R -> Prop) : Prop :=
  forall b, In b l -> exists v row, b = Some v /\ bars_drawn n row /\ value row v.

(** How many of the values are below [v]; and at most [v]. *)
Definition below (v : R) (l : list R) : nat := length (filter (fun u => if Rlt_dec u v then true else false) l).
Definition at_most (v : R) (l : list R) : nat := length (filter (fun u => if Rle_dec u v then true else false) l).
(** [v] is one of the values, about a share [q] of them is below it: a value is not
    below with more than that share, and enough are not above. *)
Definition cuts (q v : R) (l : list R) : Prop :=
  In v l /\ INR (below v l) <= Rmax 0 (q * (INR (length l) + 1) - 1) /\ q * (INR (length l) + 1) - 1 < INR (at_most v l).
(** From above: about a share [q] of the values is above [v]. *)
Definition above (v : R) (l : list R) : nat := length (filter (fun u => if Rlt_dec v u then true else false) l).
Definition at_least (v : R) (l : list R) : nat := length (filter (fun u => if Rle_dec v u then true else false) l).
(** A bound that leaves about a share [q] of the values below it (above it); a share of
    which not even all the values could be the rest is cut off. *)
Definition cuts_low (q v : R) (l : list R) : Prop :=
  let k := q * (INR (length l) + 1) - 1 in
  In v l /\ INR (below v l) <= Rmax 0 k /\ (k < INR (length l) -> k < INR (at_most v l)) /\ (INR (length l) <= k -> at_most v l = length l).
Definition cuts_high (q v : R) (l : list R) : Prop :=
  let k := q * (INR (length l) + 1) - 1 in
  In v l /\ INR (above v l) <= Rmax 0 k /\ (k < INR (length l) -> k < INR (at_least v l)) /\ (INR (length l) <= k -> at_least v l = length l).
(** The values of a statistic when one element is left out; 0 for a single element. *)
Definition left_out (fn : list R -> R) (x js : list R) : Prop :=
  length js = length x /\
  forall a v b, x = a ++ v :: b -> nth_error js (length a) = Some (if Nat.leb (length x) 1 then 0 else fn (a ++ b)).
(** The bias correction and the acceleration of the BCa method, and the share it adjusts
    a probability to. *)
Definition bias (icdf : R -> R) (theta : R) (values : list R) : R :=
  icdf (INR (Nat.max (Nat.min (below theta values) (length values - 1)) 1) / INR (length values)).
Definition acceleration (js : list R) : R :=
  total (map (fun j => (average js - j) ^ 3) js) / (6 * sqrt (total (map (fun j => (average js - j) ^ 2) js)) ^ 3 + / 10 ^ 60).
Definition adjusted (icdf ncdf : R -> R) (z0 a p : R) : R := ncdf (z0 + (z0 + icdf p) / (1 - a * (z0 + icdf p))).
