(** Model of [relative_entropy], src/pybroker/eval.py 737-774, which
    [Indicator.relative_entropy] (indicator.py 116-121) applies to the values of an
    indicator.

    Finite floats are real numbers. The rounding of the operations that choose a bin
    is an argument [fl], any function of reals; overflow to infinity and the rounding
    of the logarithm and of the final sum are not modelled. *)
From Coq Require Export Reals List ZArith.
Export ListNotations.
Open Scope list_scope.
Open Scope R_scope.

(** An element of a float64 array. *)
Inductive float := Num (x : R) | Nan | PosInf | NegInf.

(** 747: [values[np.isfinite(values)]]. *)
Definition isfinite (v : float) : bool := match v with Num _ => true | _ => false end.
Definition number (v : float) : R := match v with Num x => x | _ => 0 end.
Definition finite_values (values : list float) : list R := map number (filter isfinite values).

(** 751-757: the number of bins. *)
Definition n_bins (n : nat) : nat :=
  if (N.of_nat n <? 100)%N then 3%nat
  else if (N.of_nat n <? 1000)%N then 5%nat
  else if (N.of_nat n <? 10000)%N then 10%nat else 20%nat.

(** 758-759: [np.min], [np.max] of an array that starts with [v]. *)
Definition np_min (v : R) (l : list R) : R := fold_left Rmin l v.
Definition np_max (v : R) (l : list R) : R := fold_left Rmax l v.

(** Python's [int] of a float: truncation towards zero. *)
Definition trunc (x : R) : Z := if Rlt_dec x 0 then (- Int_part (- x))%Z else Int_part x.

Definition e10 : R := / 10 ^ 10.
Definition e60 : R := / 10 ^ 60.

(** 760: [factor]. *)
Definition bin_factor (fl : R -> R) (bins : nat) (lo hi : R) : R := fl (fl (INR bins - e10) / fl (fl (hi - lo) + e60)).

(** 763-767: the bin of one value, kept inside the array. *)
Definition bin_of (fl : R -> R) (bins : nat) (factor lo v : R) : nat :=
  let k := trunc (fl (factor * fl (v - lo))) in
  if (k <? 0)%Z then 0%nat else if (Z.of_nat bins <=? k)%Z then (bins - 1)%nat else Z.to_nat k.

(** 768: [count[k] += 1]. *)
Fixpoint bump (k : nat) (count : list nat) : list nat :=
  match count, k with
  | [], _ => []
  | c :: r, O => S c :: r
  | c :: r, S k => c :: bump k r
  end.

(** 761-768: the histogram. *)
Definition histogram (fl : R -> R) (bins : nat) (lo hi : R) (x : list R) : list nat :=
  let factor := bin_factor fl bins lo hi in
  fold_left (fun count v => bump (bin_of fl bins factor lo v) count) x (repeat 0%nat bins).

(** 769-773: the sum over the bins that are not empty. *)
Definition sum_plogp (n : nat) (count : list nat) : R :=
  fold_left (fun acc c => match c with O => acc | _ => let p := INR c / INR n in acc + p * ln p end) count 0.

(** 737-774: [relative_entropy]. *)
Definition relative_entropy (fl : R -> R) (values : list float) : R :=
  match finite_values values with
  | [] => 0
  | (v :: r) as x =>
      let n := length x in
      let bins := n_bins n in
      let count := histogram fl bins (np_min v r) (np_max v r) x in
      - sum_plogp n count / ln (INR bins)
  end.
