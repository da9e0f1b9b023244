(** What C64-C67 say, in terms of the declared numbers as rationals. *)
From Coq Require Import List Bool Arith ZArith QArith Permutation.
From Verif Require Export HyperModel.
Import ListNotations.

(** The number a declared value stands for. *)
Definition value (scale : nat) (x : pynum) : Q :=
  match x with PInt z => inject_Z z | PFloat z => (inject_Z z / inject_Z (10 ^ Z.of_nat scale))%Q | _ => 0%Q end.
Definition same_type (a b : pynum) : Prop :=
  match a, b with PInt _, PInt _ | PFloat _, PFloat _ => True | _, _ => False end.
(** All four numbers are ints, or all are floats. *)
Definition uniform (h : hyper) : Prop :=
  same_type (h_default h) (h_low h) /\ same_type (h_default h) (h_high h) /\ same_type (h_default h) (h_step h).
(** A positive step, an ordered range, and a range that is a whole number of steps. *)
Definition well_declared (scale : nat) (h : hyper) : Prop :=
  uniform h /\ (0 < value scale (h_step h))%Q /\ (value scale (h_low h) <= value scale (h_high h))%Q /\
  exists n : nat, (value scale (h_high h) == value scale (h_low h) + inject_Z (Z.of_nat n) * value scale (h_step h))%Q.
(** The bounds and their sums have at most 28 digits at the common scale: Python's
    decimals add them without rounding. *)
Definition short (scale : nat) (h : hyper) : Prop :=
  (Z.abs (units scale (h_low h)) + Z.abs (units scale (h_high h)) + Z.abs (units scale (h_step h)) < 10 ^ 28)%Z.
(** [list(hp)] is [l]: the iteration ends, and yields [l]. *)
Definition iterates (scale : nat) (h : hyper) (l : list pynum) : Prop :=
  exists fuel, forall more, lattice_values scale (fuel + more) h = Ok (Some l).

(** The searchable declarations among [specs]: name, and candidates. *)
Definition searchable (scale : nat) (h : hyper) : Prop := (value scale (h_low h) < value scale (h_high h))%Q.
(** [p] gives every searchable name one of its candidates, and names nothing else. *)
Definition assigns (scale : nat) (specs : list (nat * hyper)) (p : params) : Prop :=
  NoDup (map fst p) /\
  (forall name, In name (map fst p) <-> exists h, In (name, h) specs /\ searchable scale h) /\
  (forall name v h l, In (name, v) p -> In (name, h) specs -> iterates scale h l -> In v l).

(** [a] is at least as good as [b]. *)
Definition score_le (a b : score) : Prop :=
  match a, b with
  | SNegInf, (SNegInf | SNum _ | SPosInf) | SPosInf, SPosInf | SNum _, SPosInf => True
  | SNum x, SNum y => (x <= y)%Q
  | _, _ => False
  end.
Definition as_good (maximize : bool) (a b : score) : Prop := if maximize then score_le b a else score_le a b.

(** The schedules of the pool: every point is evaluated. *)
Definition complete (n : nat) (order : list nat) : Prop := forall i, (i < n)%nat -> In i order.
(** The values of a run: what was given, else the default. *)
Definition run_value (specs : list (nat * hyper)) (overrides : params) (name : nat) : option pynum :=
  match dict_get overrides name with Some v => Some v | None => option_map h_default (dict_get specs name) end.
(** No trial raises. *)
Definition never_raises (f : params -> res score) : Prop := forall p, exists s, f p = Ok s.
(** A score that counts. *)
Definition numeric (s : score) : Prop := match s with SNum _ | SPosInf | SNegInf => True | _ => False end.
(** [values] are the values of a run with the overrides [p]. *)
Definition run_of (specs : list (nat * hyper)) (p values : params) : Prop :=
  map fst values = map fst specs /\ forall name, dict_get values name = run_value specs p name.
