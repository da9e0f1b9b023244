(** What C69 says about [IndicatorSet]. *)
From Coq Require Import List Bool Arith ZArith QArith Permutation Sorted.
From Verif Require Export IndSetModel IndicatorSpec.
Import ListNotations.
Open Scope nat_scope.

(** [n] was added by a call that was not refused, and neither removed nor cleared
    since. *)
Inductive holds (n : nat) : list set_op -> Prop :=
| holds_last before l : ~ In None l -> In (Some n) l -> holds n (before ++ [SAdd l])
| holds_add before l : holds n before -> holds n (before ++ [SAdd l])
| holds_remove before l : holds n before -> In None l \/ ~ In (Some n) l -> holds n (before ++ [SRemove l]).

(** The bars of some rows of one symbol. *)
Definition bars_of (default custom cols : list nat) (rows : list (frame_row (nat -> Q))) : bar_data :=
  let get c := (c, if existsb (Nat.eqb c) cols then Some (map (fun r => fr_vals r c) rows) else None) in
  mk_bars (map fr_date rows) (map get default) (map get custom).
(** The indicator gives [values] when it is called by itself on those bars. *)
Definition gives (ind : indicator) (bars : bar_data) (values : list (option Q)) : Prop :=
  exists args, arguments ind None args /\ i_fn ind bars args = Ok (1, values) /\ length values = length (bd_date bars).
(** The rows of [frame] by symbol, then date; rows with the same symbol and date
    keep their order. *)
Definition in_order (frame rows : list (frame_row (nat -> Q))) : Prop :=
  Permutation rows frame /\
  StronglySorted (fun a b => fr_sym a < fr_sym b \/ (fr_sym a = fr_sym b /\ (fr_date a <= fr_date b)%Z)) rows /\
  forall s d, filter (fun r => (fr_sym r =? s) && (fr_date r =? d)%Z) rows = filter (fun r => (fr_sym r =? s) && (fr_date r =? d)%Z) frame.
Definition of_symbol (s : nat) (rows : list (frame_row (nat -> Q))) := filter (fun r => fr_sym r =? s) rows.
(** The entries of a column in the rows of one symbol. *)
Definition entries_of (s : nat) (rows : list (frame_row (nat -> Q))) (col : list (option Q)) : list (option Q) :=
  map snd (filter (fun x => fr_sym (fst x) =? s) (combine rows col)).
