(** Model of [PendingOrderScope], scope.py 2428-2643. *)
From Verif Require Export PortfolioModel.

(** scope.py 2428-2470 [PendingOrder]; [timeout_bars] of [-1] never expires. *)
Record pending : Type := mkPending {
  n_id : nat; n_type : oside; n_sym : sym; n_created : Z; n_exec : Z; n_shares : Q;
  n_limit : option Q; n_fill : fill_spec; n_exec_bar : nat; n_timeout : option Z;
  n_stops : option (list stop); n_exit : option side
}.
(** The arguments of [add]: everything but the id. *)
Record padd : Type := mkPadd {
  d_type : oside; d_sym : sym; d_created : Z; d_exec : Z; d_shares : Q;
  d_limit : option Q; d_fill : fill_spec; d_exec_bar : nat; d_timeout : option Z;
  d_stops : option (list stop); d_exit : option side
}.
Definition with_id (i : nat) (a : padd) : pending :=
  mkPending i (d_type a) (d_sym a) (d_created a) (d_exec a) (d_shares a) (d_limit a) (d_fill a) (d_exec_bar a)
    (d_timeout a) (d_stops a) (d_exit a).

(** scope.py 2478-2506 [__init__]: the last id, [_orders], [_sym_orders],
    [_retry_bars] and [_attempted]. *)
Record pscope : Type := mkPscope {
  k_last : nat; k_orders : list (nat * pending); k_sym : list (sym * list (nat * pending));
  k_retry : list (nat * nat); k_att : list nat
}.
Definition pscope0 : pscope := mkPscope 0 [] [] [] [].

(** scope.py 2508-2510 [mark_attempted]. *)
Definition mark_attempted (i : nat) (k : pscope) : pscope :=
  mkPscope (k_last k) (k_orders k) (k_sym k) (k_retry k) (if nmem i (k_att k) then k_att k else k_att k ++ [i]).
(** scope.py 2512-2514 [was_attempted]. *)
Definition was_attempted (i : nat) (k : pscope) : bool := nmem i (k_att k).
(** scope.py 2516-2520 [contains]. *)
Definition contains (i : nat) (k : pscope) : bool := ahas i (k_orders k).
(** scope.py 2522-2524 [has_orders]. *)
Definition has_orders (k : pscope) : bool := match k_orders k with [] => false | _ => true end.
(** scope.py 2526-2528 [get]. *)
Definition get (i : nat) (k : pscope) : option pending := aget i (k_orders k).

(** scope.py 2530-2585 [add]; returns the new id. *)
Definition add (a : padd) (k : pscope) : pscope * nat :=
  let i := S (k_last k) in
  let o := with_id i a in
  let cur := match aget (d_sym a) (k_sym k) with Some l => l | None => [] end in
  (mkPscope i (aset i o (k_orders k)) (aset (d_sym a) (aset i o cur) (k_sym k)) (aset i 0%nat (k_retry k)) (k_att k), i).

(** scope.py 2587-2592 [retry_bars]. *)
Definition retry_bars (i : nat) (k : pscope) : nat := match aget i (k_retry k) with Some n => n | None => 0 end.
(** scope.py 2594-2597 [advance_retry_bars]. *)
Definition advance_retry_bars (i : nat) (k : pscope) : pscope :=
  if ahas i (k_orders k)
  then mkPscope (k_last k) (k_orders k) (k_sym k) (aset i (S (retry_bars i k)) (k_retry k)) (k_att k)
  else k.

(** scope.py 2599-2608 [remove]. *)
Definition remove (i : nat) (k : pscope) : pscope * bool :=
  match aget i (k_orders k) with
  | None => (k, false)
  | Some o =>
      (mkPscope (k_last k) (adel i (k_orders k))
         (match aget (n_sym o) (k_sym k) with
          | Some l => aset (n_sym o) (adel i l) (k_sym k)
          | None => k_sym k
          end)
         (adel i (k_retry k)) (filter (fun x => negb (Nat.eqb x i)) (k_att k)), true)
  end.
Definition remove_each (l : list nat) (k : pscope) : pscope := fold_left (fun k i => fst (remove i k)) l k.
(** scope.py 2610-2620 [remove_all]. *)
Definition remove_all (s : option sym) (k : pscope) : pscope :=
  match s with
  | None => remove_each (akeys (k_orders k)) k
  | Some s => match aget s (k_sym k) with Some l => remove_each (akeys l) k | None => k end
  end.
(** scope.py 2622-2643 [orders]. *)
Definition orders (s : option sym) (i : option nat) (k : pscope) : list pending :=
  match i, s with
  | Some i, Some s =>
      match aget i (k_orders k) with Some o => if Nat.eqb (n_sym o) s then [o] else [] | None => [] end
  | Some i, None => match aget i (k_orders k) with Some o => [o] | None => [] end
  | None, Some s => match aget s (k_sym k) with Some l => avals l | None => [] end
  | None, None => avals (k_orders k)
  end.

(** A call on the scope. *)
Inductive kop :=
| KAdd (a : padd)
| KRemove (i : nat)
| KRemoveAll (s : option sym)
| KAdvance (i : nat)
| KMark (i : nat).
Definition kstep (k : pscope) (o : kop) : pscope :=
  match o with
  | KAdd a => fst (add a k)
  | KRemove i => fst (remove i k)
  | KRemoveAll s => remove_all s k
  | KAdvance i => advance_retry_bars i k
  | KMark i => mark_attempted i k
  end.
Definition krun (ops : list kop) : pscope := fold_left kstep ops pscope0.
