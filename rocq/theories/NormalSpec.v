(** Vocabulary of C97: the standard normal law. *)
From Coq Require Import Reals.
Open Scope R_scope.

(** The bell curve, and a function whose slope it is and which is one half at zero. *)
Definition bell (z : R) : R := exp (- z ^ 2 / 2) / sqrt (2 * PI).
Definition normal_law (F : R -> R) : Prop := (forall z, derivable_pt_lim F z (bell z)) /\ F 0 = 1 / 2.
