(** The Aroon and stochastic oscillators, in terms of the prices alone. *)
From Coq Require Import List Bool Arith ZArith QArith Qabs Qminmax.
From Verif Require Import VectSpec.
Import ListNotations.
Open Scope nat_scope.

(** Bar [k] is the latest one, among bar [i] and the [n] bars before it, whose value no other beats. *)
Definition latest_best (beats : Q -> Q -> Prop) (n i k : nat) (l : list Q) : Prop :=
  k <= i <= k + n /\ exists x, nth_error l k = Some x /\
    forall j y, j <= i <= j + n -> nth_error l j = Some y -> ~ beats y x /\ (k < j -> beats x y).
Definition latest_high := latest_best (fun x y => (y < x)%Q).
Definition latest_low := latest_best (fun x y => (x < y)%Q).
(** 100 at the bar itself, 0 when the extreme is [n] bars old. *)
Definition aroon_level (n i k : nat) : Q := (100 * (inject_Z (Z.of_nat n) - inject_Z (Z.of_nat i - Z.of_nat k)) / inject_Z (Z.of_nat n))%Q.

(** Where the close lies between the lowest low and the highest high of the last [n] bars; the code adds
    1e-60 to the range, for a range of 0. *)
Definition stochastic_of (n i : nat) (highs lows closes : list Q) (q : Q) : Prop :=
  exists c hi lo, nth_error closes i = Some c /\
    In hi (window n i highs) /\ (forall x, In x (window n i highs) -> (x <= hi)%Q) /\
    In lo (window n i lows) /\ (forall x, In x (window n i lows) -> (lo <= x)%Q) /\
    (q == (c - lo) / (hi - lo + (1 # 10 ^ 60)))%Q.
(** Smoothing, one third of the new to two thirds of the old, beginning at bar [first]: the value [k] bars later. *)
Fixpoint smoothed (f : nat -> Q) (first k : nat) : Q :=
  match k with
  | O => f first
  | S k => ((33333333 # 100000000) * f (first + S k)%nat + (66666667 # 100000000) * smoothed f first k)%Q
  end.
(** The value shown at bar [i] when the raw values start at bar [n - 1]: raw, smoothed once, or the
    result smoothed again from the next bar on. *)
Definition once (n : nat) (raw : nat -> Q) (i : nat) : Q := smoothed raw (n - 1) (i - (n - 1)).
Definition shown (times n : nat) (raw : nat -> Q) (i : nat) : Q :=
  match times with
  | O => raw i
  | S O => once n raw i
  | _ => if i <? n then raw i else smoothed (once n raw) n (i - n)
  end.

(** The true range of bar [i] is the greatest of high - low, abs(high - previous close) and
    abs(low - previous close). *)
Definition true_range (i : nat) (highs lows closes : list Q) (t : Q) : Prop :=
  exists h l p, nth_error highs i = Some h /\ nth_error lows i = Some l /\ nth_error closes (i - 1) = Some p /\
    (t == Qmax (h - l) (Qmax (Qabs (h - p)) (Qabs (l - p))))%Q.
Definition mean (l : list Q) : Q := (fold_right Qplus 0 l / inject_Z (Z.of_nat (length l)))%Q.
