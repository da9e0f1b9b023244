(** Specification for C110: the columns a model is trained on and predicts from. *)
From Verif Require Import FeatModel.

(** A registered data column: date, open to vwap, or one registered by the user. *)
Definition registered (custom : list nat) (c : nat) : Prop := c = 0 \/ 2 <= c <= 7 \/ In c custom.

Section Spec.
Context {T : Type}.
(** The data of a symbol has each column once, and has dates; the symbol is not one of
    the symbol's own columns. *)
Definition usable (d : data T) : Prop :=
  NoDup (map fst (d_cols d)) /\ In 0 (map fst (d_cols d)) /\ ~ In 1 (map fst (d_cols d)).
(** No indicator of the model is named like a column of the data frame. *)
Definition no_clash (src : source T) (d : data T) : Prop :=
  forall c, In c (s_inds src) -> c <> 1 /\ ~ In c (map fst (d_cols d)).
(** The frame without its symbol column. *)
Definition without_symbol (f : list (nat * T)) : list (nat * T) :=
  filter (fun p => negb (Nat.eqb (fst p) 1)) f.
(** What a column of the given name holds when predicting. *)
Definition holds (src : source T) (d : data T) (c : nat) (v : T) : Prop :=
  (In c (s_inds src) /\ v = d_ind d c) \/ (~ In c (s_inds src) /\ In (c, v) (d_cols d)).
End Spec.

(** Names registered by the user are none of the default columns (nor the symbol), and
    the indicators of the model are named neither like a registered column nor "symbol". *)
Definition own_names (custom : list nat) : Prop := forall c, In c custom -> 7 < c.
Definition accepted {T} (custom : list nat) (src : source T) : Prop :=
  own_names custom /\ forall c, In c (s_inds src) -> ~ registered custom c /\ c <> 1.
