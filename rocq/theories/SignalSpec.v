(** Vocabulary of C86: the columns of the frames of signals. *)
From Verif Require Export DeclareSpec SignalModel.
Open Scope list_scope.
Open Scope nat_scope.

(** The columns of a model's predictions: its name with "_pred", or that with a
    numbered suffix. *)
Inductive prediction_column (m : str) : option nat -> str -> Prop :=
| pc_single : prediction_column m None (m ++ lit "_pred")
| pc_multi i t : decimal t (Z.of_nat i) -> prediction_column m (Some i) (m ++ lit "_pred_" ++ t).
(** A name is reserved for the predictions of [m]. *)
Definition reserved (m c : str) : Prop :=
  c = m ++ lit "_pred" \/ exists d, d <> [] /\ Forall digit d /\ c = m ++ lit "_pred_" ++ d.

(** What a column of signals holds: a data column, an indicator, or predictions. *)
Definition holds (bars : nat) (cols inds models : list str) (fetch computed : str -> option column) (preds : str -> option prediction) (c : str) (v : column) : Prop :=
  (In c cols /\ (fetch c = Some v \/ fetch c = None /\ v = repeat None bars)) \/
  (In c inds /\ computed c = Some v) \/
  (exists m p k, In m models /\ preds m = Some p /\ prediction_column m k c /\
     match k, p with None, Single l => v = l | Some i, Multi ls => nth_error ls i = Some v | _, _ => False end).
(** No two of the sources of columns share a name: an indicator is not a data column,
    and a model's prediction columns are neither. *)
Definition apart (cols inds models : list str) : Prop :=
  (forall i, In i inds -> ~ In i cols) /\ (forall m c, In m models -> reserved m c -> ~ In c cols /\ ~ In c inds).

(** Every row of the frame has as many values. *)
Definition rectangular (bars : nat) (f : frame) : Prop := NoDup (map fst f) /\ forall c v, In (c, v) f -> length v = bars.
