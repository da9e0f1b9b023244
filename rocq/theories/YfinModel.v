(** Model of src/pybroker/data.py 563-656: how [YFinance._fetch_data] turns
    yfinance's table, which has a row per date and a column per field and symbol,
    into a frame that has a row per symbol and date.

    yfinance itself is outside the model. Columns, symbols and rows are those of
    DataModel.v; NaN is [None], and a row lists the values that are not NaN. *)
From Verif Require Export DataModel.
Import ListNotations.
Open Scope list_scope.
Open Scope nat_scope.

(** A column of numbers. *)
Definition series := list (option Q).
(** yfinance's table after [reset_index]: the dates, and its columns either by
    field, or by field and symbol (a MultiIndex). *)
Inductive columns := Flat (l : list (nat * series)) | Multi (l : list (nat * nat * series)).
Record ytable := mk_ytable { y_dates : list Z; y_cols : columns }.

(** [df[field]] and [df[(field, sym)]]; [None] is a KeyError. *)
Fixpoint flat_get (f : nat) (l : list (nat * series)) : option series :=
  match l with [] => None | (g, v) :: r => if f =? g then Some v else flat_get f r end.
Fixpoint multi_get (f s : nat) (l : list (nat * nat * series)) : option series :=
  match l with [] => None | (g, u, v) :: r => if (f =? g) && (s =? u) then Some v else multi_get f s r end.
(** 609-612: [df.columns = df.columns.get_level_values(0)]. Simplification: of two
    columns of the same name the first is taken. *)
Definition level_0 (c : columns) : list (nat * series) :=
  match c with Flat l => l | Multi l => map (fun x => (fst (fst x), snd x)) l end.
(** 627: [df.columns.to_flat_index()]. Flat columns have no keys that are pairs. *)
Definition pairs (c : columns) : list (nat * nat * series) := match c with Flat _ => [] | Multi l => l end.

Fixpoint collect {A B} (f : A -> option B) (l : list A) : option (list B) :=
  match l with
  | [] => Some []
  | x :: r => match f x, collect f r with Some y, Some t => Some (y :: t) | _, _ => None end
  end.
(** [pd.DataFrame({...})] of columns of the same length: the rows; [None] is a
    ValueError. *)
Definition entries (i : nat) (cols : list (nat * series)) : list (nat * Q) :=
  flat_map (fun x => match nth_error (snd x) i with Some (Some q) => [(fst x, q)] | _ => [] end) cols.
Fixpoint rows_from (i : nat) (dates : list Z) (syms : list nat) (cols : list (nat * series)) : option (list row) :=
  match dates, syms with
  | [], [] => if forallb (fun x => length (snd x) =? i) cols then Some [] else None
  | d :: dates, s :: syms =>
      match rows_from (S i) dates syms cols with Some l => Some (mk_row s d (entries i cols) :: l) | None => None end
  | _, _ => None
  end.
Definition frame_from (dates : list Z) (syms : list nat) (cols : list (nat * series)) : option frame :=
  match rows_from 0 dates syms cols with
  | Some rows => Some (mk_frame ([DATE; SYMBOL] ++ map fst cols) rows)
  | None => None
  end.
(** [np.tile(a, k)] and [np.repeat(l, n)]. *)
Definition tile {A} (a : list A) (k : nat) : list A := List.concat (repeat a k).
Definition repeat_each {A} (l : list A) (n : nat) : list A := flat_map (fun x => repeat x n) l.

(** 613-625, 630-654: the fields, in the order of the frame. *)
Definition yf_fields (auto_adjust : bool) : list nat :=
  [OPEN; HIGH; LOW; CLOSE; VOLUME] ++ (if auto_adjust then [] else [ADJ_CLOSE]).
(** 606-656, for a table that is not empty. [syms] is the set of symbols in the
    order in which Python iterates over it. *)
Definition reshape (auto_adjust : bool) (syms : list nat) (t : ytable) : option frame :=
  match syms with
  | [sym] =>
      match collect (fun f => match flat_get f (level_0 (y_cols t)) with Some v => Some (f, v) | None => None end) (yf_fields auto_adjust) with
      | Some cols => frame_from (y_dates t) (repeat sym (length (y_dates t))) cols
      | None => None
      end
  | _ =>
      match collect (fun f => match collect (fun s => multi_get f s (pairs (y_cols t))) syms with
                              | Some vs => Some (f, List.concat vs)
                              | None => None
                              end) (yf_fields auto_adjust) with
      | Some cols => frame_from (tile (y_dates t) (length syms)) (repeat_each syms (length (y_dates t))) cols
      | None => None
      end
  end.
