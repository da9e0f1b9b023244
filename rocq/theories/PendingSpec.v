(** Vocabulary for the pending-order registry: the list of live orders a sequence
    of calls leaves, computed without the registry's indexes. *)
From Verif Require Export PendingModel.

(** Number of orders added so far. *)
Definition added (ops : list kop) : nat :=
  length (filter (fun o => match o with KAdd _ => true | _ => false end) ops).
(** The effect of a call on (orders added, live orders in submission order). *)
Definition live_step (x : nat * list pending) (o : kop) : nat * list pending :=
  match o with
  | KAdd a => (S (fst x), snd x ++ [with_id (S (fst x)) a])
  | KRemove i => (fst x, filter (fun o => negb (Nat.eqb (n_id o) i)) (snd x))
  | KRemoveAll None => (fst x, [])
  | KRemoveAll (Some s) => (fst x, filter (fun o => negb (Nat.eqb (n_sym o) s)) (snd x))
  | _ => x
  end.
Definition live (ops : list kop) : list pending := snd (fold_left live_step ops (0%nat, [])).
Definition is_live (ops : list kop) (i : nat) : bool := existsb (fun o => Nat.eqb (n_id o) i) (live ops).
(** Retry bars recorded for order [i] while it was pending. *)
Definition retries (ops : list kop) (i : nat) : nat :=
  length (filter (fun j => match nth_error ops j with
                           | Some (KAdvance i') => Nat.eqb i' i && is_live (firstn j ops) i
                           | _ => false
                           end) (seq 0 (length ops))).
(** Orders are only marked as attempted while they are pending. *)
Definition marks_live (ops : list kop) : Prop :=
  forall l1 i l2, ops = l1 ++ KMark i :: l2 -> is_live l1 i = true.
Definition marked (ops : list kop) (i : nat) : bool :=
  existsb (fun o => match o with KMark i' => Nat.eqb i' i | _ => false end) ops.
