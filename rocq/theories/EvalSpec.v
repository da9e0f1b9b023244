(** Specification of drawdowns, trade statistics and sample bounds. *)
From Coq Require Import List Bool Arith ZArith QArith.
From Verif Require Import EvalModel.
Import ListNotations.
Open Scope list_scope.
Open Scope Q_scope.

(** Value of the curve after [k] changes, starting at 0; and of one unit of capital
    after [k] returns. *)
Fixpoint curve (changes : list Q) (k : nat) : Q :=
  match k, changes with S k, x :: r => x + curve r k | _, _ => 0 end.
Fixpoint growth (returns : list Q) (k : nat) : Q :=
  match k, returns with S k, x :: r => (1 + x) * growth r k | _, _ => 1 end.
(** [m] is the highest of [f 0 .. f k]. *)
Definition peak (f : nat -> Q) (k : nat) (m : Q) : Prop :=
  (exists i, (i <= k)%nat /\ m == f i) /\ forall i, (i <= k)%nat -> f i <= m.
(** Percentage by which [f k] is below the peak so far (not positive). *)
Definition pct_fall (f : nat -> Q) (k : nat) (d : Q) : Prop :=
  exists m, peak f k m /\ d == (f k / m - 1) * 100.
(** [d] is the largest fall of [f 0 .. f n], in money, from an earlier value. *)
Definition worst_fall (f : nat -> Q) (n : nat) (d : Q) : Prop :=
  (exists i j, (i <= j <= n)%nat /\ d == f i - f j) /\ forall i j, (i <= j <= n)%nat -> f i - f j <= d.
(** [d] is the worst percentage fall, reached first after [k] bars ([None]: never
    below the peak). *)
Definition worst_pct_fall (f : nat -> Q) (n : nat) (d : Q) (k : option nat) : Prop :=
  (forall j x, (j <= n)%nat -> pct_fall f j x -> d <= x) /\
  match k with
  | Some k => (k <= n)%nat /\ d < 0 /\ pct_fall f k d /\ forall j x, (j < k)%nat -> pct_fall f j x -> d < x
  | None => d == 0
  end.

(** Trades: [k] trades in a row with the property [P]. *)
Definition in_a_row (P : trade_row -> Prop) (l : list trade_row) (k : nat) : Prop :=
  exists a m b, l = a ++ m ++ b /\ length m = k /\ Forall P m.
Definition longest_row (P : trade_row -> Prop) (l : list trade_row) (k : nat) : Prop :=
  in_a_row P l k /\ forall k', in_a_row P l k' -> (k' <= k)%nat.
Definition won (t : trade_row) : Prop := 0 < tr_pnl t.
Definition lost (t : trade_row) : Prop := tr_pnl t < 0.
Definition flat (t : trade_row) : Prop := tr_pnl t == 0.
(** The trades of [l] with property [P], in order. *)
Inductive those {A} (P : A -> Prop) : list A -> list A -> Prop :=
| those_nil : those P [] []
| those_in x l m : P x -> those P l m -> those P (x :: l) (x :: m)
| those_out x l m : ~ P x -> those P l m -> those P (x :: l) m.
Definition sum_of (f : trade_row -> Q) (l : list trade_row) : Q := fold_right (fun t a => f t + a) 0 l.
(** [x] is the mean of [f] over the trades, 0 of none. *)
Definition mean_of (f : trade_row -> Q) (l : list trade_row) (x : Q) : Prop :=
  match l with [] => x == 0 | _ => x * inject_Z (Z.of_nat (length l)) == sum_of f l end.
(** The first of the trades with the largest value of [f] is [t]. *)
Definition first_largest (f : trade_row -> Q) (l : list trade_row) (t : trade_row) : Prop :=
  exists a b, l = a ++ t :: b /\ Forall (fun x => f x < f t) a /\ Forall (fun x => f x <= f t) b.

(** Sample values in ascending order. *)
Definition nth_smallest (l : list Q) (k : nat) (x : Q) : Prop :=
  In x l /\ (length (filter (fun y => Qltb y x) l) <= k)%nat /\ (k < length (filter (fun y => Qle_bool y x) l))%nat.

(** Calls that record a bar. *)
Definition captures (o : op) : Prop := match o with OpCapture _ _ => True | _ => False end.
(** Nothing has been traded and nothing is open. *)
Definition untraded (p : port) : Prop := p_trades p = [] /\ p_longs p = [] /\ p_shorts p = [].
