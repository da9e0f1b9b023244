(** What the cache properties talk about: a disk cache alone. *)
From Coq Require Import List Bool Arith.
From Verif Require Export CacheModel.
Import ListNotations.

Section Spec.
Context (repr : nat -> nat).

(** What a key holds on disk: its own entry, else the one under the [repr] of the
    key, which earlier releases wrote. *)
Definition held (d : disk_t) (k : key) : option val :=
  match d k with
  | Some v => Some v
  | None => match legacy repr k with Some k' => d k' | None => None end
  end.
Definition or_else (o : option val) (default : val) : val := match o with Some v => v | None => default end.
(** The disk after a write or a removal with the given fate. *)
Definition wrote (f : fate) (k : key) (d : disk_t) (v : option val) : disk_t :=
  match f with
  | FOk => set_key d k v
  | FFalse => match v with Some _ => d | None => set_key d k v end
  | FRaise h => if h k then set_key d k v else d
  end.
Definition raises (f : fate) : bool := match f with FRaise _ => true | _ => false end.
(** Removal of a key and of its earlier form, unless the first raises; the flag
    says whether one of them raised. *)
Definition removed (f1 f2 : fate) (k : key) (d : disk_t) : disk_t * bool :=
  let d := wrote f1 k d None in
  if raises f1 then (d, true)
  else match legacy repr k with None => (d, false) | Some k' => (wrote f2 k' d None, raises f2) end.

(** The six operations on a disk cache alone. *)
Definition disk_op (o : op) (fates : list fate) (d : disk_t) : disk_t * res :=
  let f1 := hd FOk fates in
  let f2 := hd FOk (tl fates) in
  match o with
  | OGet k default => (d, RVal (or_else (held d k) default))
  | OSet k v => (wrote f1 k d (Some v), match f1 with FOk => RFlag true | FFalse => RFlag false | FRaise _ => RRaised end)
  | ODelete k => let '(d', raised) := removed f1 f2 k d in
      (d', if raised then RRaised else RFlag (match d k with Some _ => true | None => false end))
  | OPop k default => let '(d', raised) := removed f1 f2 k d in
      (d', if raised then RRaised else RVal (or_else (d k) default))
  | ODelItem k =>
      match raises f1, d k with
      | false, None => (wrote f1 k d None, RKeyError)
      | _, _ => let '(d', raised) := removed f1 f2 k d in (d', if raised then RRaised else RDone)
      end
  | OClear => (match f1 with FRaise h => fun k => if h k then None else d k | _ => fun _ => None end,
               if raises f1 then RRaised else RDone)
  end.
Fixpoint disk_history (h : list (op * list fate)) (d : disk_t) : disk_t * list res :=
  match h with
  | [] => (d, [])
  | (o, fates) :: h => let '(d, r) := disk_op o fates d in let '(d, rs) := disk_history h d in (d, r :: rs)
  end.

(** A key that is not the earlier form of another key. *)
Definition proper (k : key) : Prop := match k with Data _ => True | Plain n => forall d, repr d <> n end.
Definition key_of (o : op) : option key :=
  match o with OGet k _ | OSet k _ | ODelete k | OPop k _ | ODelItem k => Some k | OClear => None end.
(** An operation of an ordinary client: a proper key, and no [None] is stored. *)
Definition ordinary (o : op) : Prop :=
  (forall k, key_of o = Some k -> proper k) /\ match o with OSet _ v => v <> VNone | _ => True end.

(** The operation may change what [k] holds on disk. *)
Definition may_write (o : op) (k : key) : Prop :=
  match o with
  | OGet _ _ => False
  | OSet k' _ => k' = k
  | ODelete k' | OPop k' _ | ODelItem k' => k' = k \/ legacy repr k' = Some k
  | OClear => True
  end.
(** No thread is inside an operation on [k], or one that may write it. *)
Definition nobody_on (s : cstate) (k : key) : Prop :=
  forall t o p, c_threads s t = Some (o, p) -> key_of o <> Some k /\ ~ may_write o k.
End Spec.
