(** What the indicator theorems say, in terms of the series alone. *)
From Coq Require Import List Bool Arith Lia ZArith QArith.
Import ListNotations.

(** Two series that are the same up to and including bar [i]; they may differ, and end,
    anywhere after it. *)
Definition agree {T} (i : nat) (l l' : list T) : Prop :=
  firstn (S i) l = firstn (S i) l' /\ (i < length l)%nat /\ (i < length l')%nat.

(** Both calls that return have a value at bar [i], the same one. *)
Definition same_at {T} (i : nat) (o o' : option (list T)) : Prop :=
  forall r r', o = Some r -> o' = Some r' -> exists x, nth_error r i = Some x /\ nth_error r' i = Some x.

(** The last [n] values up to and including bar [i]. *)
Definition window {T} (n i : nat) (l : list T) : list T := firstn n (skipn (S i - n) l).

(** What a rolling extreme of the last [n] values is, for an order [le] on the values that
    are not NaN: undefined before [n] bars are there and when one of them is NaN, else a
    value of the window that no other one precedes. *)
Definition rolling_extreme {T} (isnan : T -> bool) (nan : T) (le : T -> T -> bool) (n i : nat) (l : list T) (x : T) : Prop :=
  if (S i <? n)%nat then x = nan
  else if existsb isnan (window n i l) then x = nan
  else In x (window n i l) /\ forall y, In y (window n i l) -> le x y = true.
(** The comparisons of floats: total and transitive apart from NaN. *)
Definition total_order {T} (isnan : T -> bool) (le : T -> T -> bool) : Prop :=
  (forall x y, isnan x = false -> isnan y = false -> le x y = true \/ le y x = true) /\
  (forall x y z, isnan x = false -> isnan y = false -> isnan z = false -> le x y = true -> le y z = true -> le x z = true).

(** The columns an indicator may be given, and causality: when two data sets agree up to
    bar [i], both calls give the same value at bar [i], whatever comes later. *)
Record chart T := mkChart { opens : list T; highs : list T; lows : list T; closes : list T; volumes : list T; values : list T }.
Arguments opens {T}. Arguments highs {T}. Arguments lows {T}. Arguments closes {T}. Arguments volumes {T}. Arguments values {T}.
Definition agree_chart {T} (i : nat) (b b' : chart T) : Prop :=
  agree i (opens b) (opens b') /\ agree i (highs b) (highs b') /\ agree i (lows b) (lows b') /\
  agree i (closes b) (closes b') /\ agree i (volumes b) (volumes b') /\ agree i (values b) (values b').
Definition causal {T U} (f : chart T -> option (list U)) : Prop :=
  forall i b b', agree_chart i b b' -> same_at i (f b) (f b').
(** The same for the data sets and bars that satisfy [ok]. *)
Definition causal_when {T U} (ok : nat -> chart T -> chart T -> Prop) (f : chart T -> option (list U)) : Prop :=
  forall i b b', agree_chart i b b' -> ok i b b' -> same_at i (f b) (f b').
