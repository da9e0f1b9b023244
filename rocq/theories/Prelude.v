(** Shared numeric and association-list helpers used by all model files.
    Nothing here models pybroker itself, except where a comment says so. *)
From Coq Require Export List Bool Arith ZArith QArith Qminmax Qround Qabs Lia Lqa.
Export ListNotations.
Open Scope Q_scope.

(** Strict comparison on rationals (Python's [a < b]). *)
Definition Qltb (a b : Q) : bool := negb (Qle_bool b a).

(** Python's truthiness of a Decimal: [not x] is [x == 0]. *)
Definition Qis0 (a : Q) : bool := Qeq_bool a 0.

Fixpoint Qsum (l : list Q) : Q :=
  match l with [] => 0 | x :: r => x + Qsum r end.

(** Python dict as an association list in insertion order, keys [nat]. *)
Section Assoc.
  Context {V : Type}.
  Fixpoint aget (k : nat) (l : list (nat * V)) : option V :=
    match l with
    | [] => None
    | (k', v) :: r => if Nat.eqb k k' then Some v else aget k r
    end.
  Definition ahas (k : nat) (l : list (nat * V)) : bool :=
    match aget k l with Some _ => true | None => false end.
  (** [d[k] = v]: replaces in place, or appends a new key at the end. *)
  Fixpoint aset (k : nat) (v : V) (l : list (nat * V)) : list (nat * V) :=
    match l with
    | [] => [(k, v)]
    | (k', v') :: r => if Nat.eqb k k' then (k, v) :: r else (k', v') :: aset k v r
    end.
  (** [del d[k]] (no-op when absent). *)
  Fixpoint adel (k : nat) (l : list (nat * V)) : list (nat * V) :=
    match l with
    | [] => []
    | (k', v') :: r => if Nat.eqb k k' then r else (k', v') :: adel k r
    end.
  Definition akeys (l : list (nat * V)) : list nat := map fst l.
  Definition avals (l : list (nat * V)) : list V := map snd l.
End Assoc.

Definition nmem (k : nat) (l : list nat) : bool := existsb (Nat.eqb k) l.

(** Keep arithmetic folded during simplification in proofs. *)
#[global] Arguments Qplus : simpl never.
#[global] Arguments Qmult : simpl never.
#[global] Arguments Qminus : simpl never.
#[global] Arguments Qopp : simpl never.
#[global] Arguments Qdiv : simpl never.
#[global] Arguments Qinv : simpl never.
#[global] Arguments Qle_bool : simpl never.
#[global] Arguments Qeq_bool : simpl never.
#[global] Arguments Qltb : simpl never.
#[global] Arguments Qis0 : simpl never.
#[global] Arguments Qmin : simpl never.
#[global] Arguments Qmax : simpl never.
#[global] Arguments inject_Z : simpl never.
