(** Model of src/pybroker/indicator.py 632-746: [IndicatorSet].

    Simplifications: names are numbers in the order of the strings; a column of the
    frame is the number each row has in it; rows have a date. *)
From Coq Require Import List Bool Arith ZArith QArith.
From Verif Require Export StoreModel IndicatorModel.
Import ListNotations.
Open Scope nat_scope.

(** 632-673: the set of names, in some order. An entry that is not an [Indicator]
    is [None]: the names are collected first, so nothing changes when one is
    refused. *)
Inductive set_op := SAdd (entries : list (option nat)) | SRemove (entries : list (option nat)) | SClear.
Fixpoint entry_names (l : list (option nat)) : res (list nat) :=
  match l with [] => Ok [] | None :: _ => Raise ValueErr | Some n :: r => bind (entry_names r) (fun t => Ok (n :: t)) end.
Definition set_update (names l : list nat) : list nat := fold_left (fun s n => if existsb (Nat.eqb n) s then s else s ++ [n]) l names.
Definition set_difference (names l : list nat) : list nat := filter (fun n => negb (existsb (Nat.eqb n) l)) names.
Definition set_step (names : list nat) (op : set_op) : list nat * res unit :=
  match op with
  | SClear => ([], Ok tt)
  | SAdd l => match entry_names l with Ok t => (set_update names t, Ok tt) | Raise e => (names, Raise e) end
  | SRemove l => match entry_names l with Ok t => (set_difference names t, Ok tt) | Raise e => (names, Raise e) end
  end.
(** The names after a history of calls, each of which may have been refused. *)
Definition set_run (ops : list set_op) : list nat := fold_left (fun s op => fst (set_step s op)) ops [].

(** The frame returned: [None] in [o_syms] and [o_dates] is an entry of [np.empty]
    that was not written. *)
Record out_frame := mk_out { o_syms : list (option nat); o_dates : list (option Z); o_cols : list (nat * list (option Q)) }.

(** [df[symbol].unique()]: in the order of first appearance. *)
Definition unique_syms (l : list nat) : list nat := set_update [] l.
(** The arrays of one symbol. *)
Definition arrays_of (cols : list nat) (rows : list (frame_row (nat -> Q))) : list Z * list (nat * list Q) :=
  (map fr_date rows, map (fun c => (c, map (fun r => fr_vals r c) rows)) cols).
(** [a[offset : offset + n] = v]. *)
Definition write {X} (a : list X) (offset n : nat) (v : list X) : res (list X) :=
  if (length v =? n) && (offset + n <=? length a) then Ok (firstn offset a ++ v ++ skipn (offset + n) a) else Raise ValueErr.
(** [ind_out[name][offset : offset + n] = series.to_numpy()]. *)
Fixpoint write_col (ind_out : list (nat * list (option Q))) (name offset n : nat) (v : list (option Q)) : res (list (nat * list (option Q))) :=
  match ind_out with
  | [] => Raise KeyErr
  | (k, a) :: r => if k =? name then bind (write a offset n v) (fun a' => Ok ((k, a') :: r))
                   else bind (write_col r name offset n v) (fun r' => Ok ((k, a) :: r'))
  end.
Fixpoint write_cols (ind_out : list (nat * list (option Q))) (offset n : nat) (entries : list (ind_sym * series)) : res (list (nat * list (option Q))) :=
  match entries with
  | [] => Ok ind_out
  | (k, s) :: r => bind (write_col ind_out (fst k) offset n (map snd s)) (fun io => write_cols io offset n r)
  end.
(** 724-734: the loop over the symbols. [sym_dict[sym]] is the part of [d] with that
    symbol. *)
Fixpoint fill (store : list (nat * (list Z * list (nat * list Q)))) (d : data_dict) (syms : list nat) (offset : nat)
    (sym_out : list (option nat)) (date_out : list (option Z)) (ind_out : list (nat * list (option Q))) : res out_frame :=
  match syms with
  | [] => Ok (mk_out sym_out date_out ind_out)
  | sym :: r =>
      match dict_get store sym with
      | None => Raise KeyErr
      | Some arrays =>
          let n := length (fst arrays) in
          bind (write sym_out offset n (repeat (Some sym) n)) (fun so =>
          bind (write date_out offset n (map Some (fst arrays))) (fun dto =>
          bind (write_cols ind_out offset n (filter (fun e => snd (fst e) =? sym) d)) (fun io =>
          fill store d r (offset + n) so dto io)))
      end
  end.
Fixpoint insert_nat (x : nat) (l : list nat) : list nat :=
  match l with [] => [x] | y :: r => if x <=? y then x :: l else y :: insert_nat x r end.
Definition sort_nats (l : list nat) : list nat := fold_right insert_nat [] l.
(** [{name: ind_out[name] for name in names}]. *)
Fixpoint pick_cols (ind_out : list (nat * list (option Q))) (names : list nat) : res (list (nat * list (option Q))) :=
  match names with
  | [] => Ok []
  | n :: r => match dict_get ind_out n with None => Raise KeyErr | Some a => bind (pick_cols ind_out r) (fun t => Ok ((n, a) :: t)) end
  end.
(** 675-746: [__call__]; [cols]: the columns of the frame besides symbol and date. *)
Definition indicator_set (scale : nat) (parse : nat -> nat * option nat) (registry : list (nat * indicator)) (default custom : list nat)
    (names : list nat) (cols : list nat) (frame : list (frame_row (nat -> Q))) (schedule : option (nat -> list nat)) : res out_frame :=
  match names, frame with
  | [], _ => Raise ValueErr
  | _, [] => Ok (mk_out [] [] (map (fun n => (n, [])) names))
  | _, _ =>
      let syms := unique_syms (map fr_sym frame) in
      let store := map (fun x => (fst x, arrays_of cols (snd x))) (store_from_flat frame None) in
      let w := mk_world store [] registry default custom in
      match snd (compute_indicators scale parse (start []) w (mk_call (list_prod names syms) None schedule true None true)) with
      | Raise e => Raise e
      | Ok d =>
          let n_rows := length frame in
          bind (fill store d (sort_nats (unique_syms (map (fun e => snd (fst e)) d))) 0 (repeat None n_rows) (repeat None n_rows)
                     (map (fun n => (n, repeat None n_rows)) names)) (fun out =>
          bind (pick_cols (o_cols out) (sort_nats names)) (fun c => Ok (mk_out (o_syms out) (o_dates out) c)))
      end
  end.
