(** Vocabulary of C96: the entropy of a histogram of equal bins. *)
From Coq Require Export Permutation.
From Verif Require Export EntropyModel.
Open Scope list_scope.
Open Scope R_scope.

(** The values that are neither NaN nor infinite. *)
Fixpoint numbers (values : list float) : list R :=
  match values with [] => [] | Num x :: r => x :: numbers r | _ :: r => numbers r end.
(** As many of [l] as say [n] satisfy [P]. *)
Definition tally (P : R -> Prop) (l : list R) (n : nat) : Prop :=
  exists yes no, Permutation l (yes ++ no) /\ Forall P yes /\ Forall (fun x => ~ P x) no /\ n = length yes.
Definition least (l : list R) (lo : R) : Prop := In lo l /\ forall x, In x l -> lo <= x.
Definition greatest (l : list R) (hi : R) : Prop := In hi l /\ forall x, In x l -> x <= hi.
(** How many bins there are for [n] values. *)
Definition bins_for (n : Z) (b : nat) : Prop :=
  (n < 100 /\ b = 3%nat \/ 100 <= n < 1000 /\ b = 5%nat \/ 1000 <= n < 10000 /\ b = 10%nat \/ 10000 <= n /\ b = 20%nat)%Z.
(** The bins cut the range of the values, from its lowest, into intervals of one
    width: the range divided by the number of bins, up to [10^-10] of a bin and
    [10^-60] of the range, by which the highest value is inside the last one. *)
Definition width (b : nat) (lo hi : R) : R := (hi - lo + / 10 ^ 60) / (INR b - / 10 ^ 10).
Definition in_bin (b : nat) (lo hi : R) (k : nat) (v : R) : Prop :=
  lo + INR k * width b lo hi <= v < lo + INR (S k) * width b lo hi.
(** Shannon's entropy of shares. ([ln 0] is 0 in Coq, and the share 0 adds 0.) *)
Definition shannon (shares : list R) : R := - fold_right Rplus 0 (map (fun p => p * ln p) shares).
(** [shares] are the shares of the values [l] that lie in each of the [b] bins. *)
Definition shares_of (b : nat) (l : list R) (shares : list R) : Prop :=
  length shares = b /\ forall lo hi k c, least l lo -> greatest l hi -> (k < b)%nat -> tally (in_bin b lo hi k) l c ->
    nth_error shares k = Some (INR c / INR (length l)).
(** All equal. *)
Definition same (l : list R) : Prop := forall x y, In x l -> In y l -> x = y.
