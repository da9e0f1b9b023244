(** Model of how src/pybroker/scope.py builds and slices a SymbolArrayStore.

    A symbol has a column of dates and columns of values of any type [A]; numpy's
    dtype of a column is kept as one bit, whether it is a number. Symbols are
    numbers, compared in the order of the strings they stand for. *)
From Verif Require Export ScopeModel.
Open Scope list_scope.
Open Scope Z_scope.

(** The arrays of one symbol: its dates, [None] without a date column, and its
    other columns by name. *)
Record sym_data (A : Type) := mk_sym_data { sd_dates : option (list Z); sd_cols : list (nat * (bool * list A)) }.
Arguments sd_dates {A} _.
Arguments sd_cols {A} _.
Arguments mk_sym_data {A} _ _.
Definition array_store (A : Type) := list (nat * sym_data A).

(** 590-619: [_sorted_dates_indices_njit]; [i] is the position of the first date
    left, the pointers are the lists that remain. *)
Fixpoint sorted_indices (i : nat) (dates : list Z) {struct dates} : list Z -> list nat :=
  match dates with
  | [] => fun _ => []
  | d :: ds =>
      fix inner (target : list Z) : list nat :=
        match target with
        | [] => []
        | t :: ts =>
            if d =? t then i :: sorted_indices (S i) ds ts
            else if d <? t then sorted_indices (S i) ds (t :: ts)
            else inner ts
        end
  end.
(** 622-645: [_gather_f64_by_indices_njit], [_gather_dt64_by_indices_njit] and
    numpy's [arr[indices]]; [None] when an index is outside the array (the
    kernels do not check). *)
Fixpoint gather {B} (l : list B) (indices : list nat) : option (list B) :=
  match indices with
  | [] => Some []
  | i :: r => match nth_error l i, gather l r with Some x, Some g => Some (x :: g) | _, _ => None end
  end.
Fixpoint gather_cols {A} (cast : A -> A) (cols : list (nat * (bool * list A))) (indices : list nat)
  : option (list (nat * (bool * list A))) :=
  match cols with
  | [] => Some []
  | (name, (num, l)) :: r =>
      match gather (if num then map cast l else l) indices, gather_cols cast r indices with
      | Some g, Some gs => Some ((name, (num, g)) :: gs)
      | _, _ => None
      end
  end.
(** 648-697: [_build_sliced_sym_arrays] for a symbol that has dates. [cast] is
    the conversion of a number to float64. Simplifications: the empty dict is
    [Some None]; [None] is an index outside a column; the columns keep their
    order, which is that of a dict. *)
Definition build_sliced {A} (cast : A -> A) (dates : list Z) (cols : list (nat * (bool * list A))) (indices : list nat)
  : option (option (sym_data A)) :=
  match indices, rev indices with
  | [], _ => Some None
  | first :: _, last :: _ =>
      if Nat.eqb (last - first + 1) (length indices)
      then let cut {B} (l : list B) := firstn (last + 1 - first) (skipn first l) in
           Some (Some (mk_sym_data (Some (cut dates)) (map (fun c => (fst c, (fst (snd c), cut (snd (snd c))))) cols)))
      else match gather dates indices, gather_cols cast cols indices with
           | Some ds, Some cs => Some (Some (mk_sym_data (Some ds) cs))
           | _, _ => None
           end
  | _ :: _, [] => Some None
  end.
(** [np.all(l[:-1] <= l[1:])]. *)
Fixpoint sorted_le (l : list Z) : bool :=
  match l with
  | x :: (y :: _) as r => (x <=? y) && sorted_le r
  | _ => true
  end.
(** [np.flatnonzero(mask)]. *)
Fixpoint true_positions (i : nat) (mask : list bool) : list nat :=
  match mask with
  | [] => []
  | b :: r => if b then i :: true_positions (S i) r else true_positions (S i) r
  end.
(** 896-902: the selected row numbers of one symbol. [_dates_in_target_mask]
    (852-872) is called only when one side is not sorted, where it is
    [np.isin]. *)
Definition select_indices (dates target : list Z) : list nat :=
  if sorted_le target && sorted_le dates then sorted_indices 0 dates target
  else true_positions 0 (map (fun d => isin d target) dates).
(** 875-907: [slice_symbol_array_store_by_dates]. *)
Fixpoint slice_symbols {A} (cast : A -> A) (s : array_store A) (target : list Z) : option (array_store A) :=
  match s with
  | [] => Some []
  | (sym, d) :: r =>
      match slice_symbols cast r target with
      | None => None
      | Some sr =>
          match sd_dates d with
          | None | Some [] => Some sr
          | Some dates =>
              match build_sliced cast dates (sd_cols d) (select_indices dates target) with
              | None => None
              | Some None => Some sr
              | Some (Some d') => Some ((sym, d') :: sr)
              end
          end
      end
  end.
Definition slice_store_by_dates {A} (cast : A -> A) (s : array_store A) (target : list Z) : option (array_store A) :=
  match target with [] => Some [] | _ => slice_symbols cast s target end.

(** ** Building a store from a flat frame (725-805) *)

(** A row of the frame: symbol, date, and the other columns. Every column is
    reordered by the same index array, so rows move as a whole. Simplification:
    the split into numeric and other columns, and the conversion of the former to
    float64, are left out. *)
Record frame_row (A : Type) := mk_frame_row { fr_sym : nat; fr_date : Z; fr_vals : A }.
Arguments fr_sym {A} _.
Arguments fr_date {A} _.
Arguments fr_vals {A} _.
Arguments mk_frame_row {A} _ _ _.

(** [np.lexsort((date_arr, sym_ids))]: a stable sort by symbol, then date. *)
Definition row_leb {A} (a b : frame_row A) : bool :=
  Nat.ltb (fr_sym a) (fr_sym b) || (Nat.eqb (fr_sym a) (fr_sym b) && (fr_date a <=? fr_date b)).
Fixpoint insert_row {A} (x : frame_row A) (l : list (frame_row A)) : list (frame_row A) :=
  match l with
  | [] => [x]
  | y :: r => if row_leb x y then x :: l else y :: insert_row x r
  end.
Fixpoint lexsort {A} (l : list (frame_row A)) : list (frame_row A) :=
  match l with [] => [] | x :: r => insert_row x (lexsort r) end.
(** interval.py 910-931: [_find_bin_starts_ends]: a bin ends where the id changes;
    here on symbols (the ranks [sym_ids] are equal exactly when the symbols
    are). Bins are (start, end) with the end included. *)
Fixpoint sym_bins (i start prev : nat) (ids : list nat) : list (nat * nat) :=
  match ids with
  | [] => [(start, i - 1)%nat]
  | x :: r => if Nat.eqb x prev then sym_bins (S i) start x r else (start, i - 1)%nat :: sym_bins (S i) i x r
  end.
Definition find_sym_bins (ids : list nat) : list (nat * nat) :=
  match ids with [] => [] | x :: r => sym_bins 1 0 x r end.
(** 764-773: [selected]: symbol, start, end (excluded). *)
Definition selected_bins (ids : list nat) (symbols : option (list nat)) : list (nat * nat * nat) :=
  let all := map (fun b => (nth (fst b) ids 0%nat, fst b, (snd b + 1)%nat)) (find_sym_bins ids) in
  match symbols with
  | None => all
  | Some want => filter (fun x => existsb (Nat.eqb (fst (fst x))) want) all
  end.
(** 790-796: the offsets of the compacted buffers. *)
Fixpoint compact_offsets (pos : nat) (sel : list (nat * nat * nat)) : list (nat * (nat * nat)) :=
  match sel with
  | [] => []
  | (sym, s, e) :: r => (sym, (pos, pos + (e - s))%nat) :: compact_offsets (pos + (e - s)) r
  end.
(** 725-805: [symbol_array_store_from_flat_frame]: the rows of each symbol, as
    [_StoreBacking.views] (503-515) cuts them out of the buffers. *)
Definition store_from_flat {A} (frame : list (frame_row A)) (symbols : option (list nat))
  : list (nat * list (frame_row A)) :=
  let sorted := lexsort frame in
  let ids := map fr_sym sorted in
  let sel := selected_bins ids symbols in
  let '(buffer, offsets) :=
    if Nat.eqb (length sel) (length (find_sym_bins ids))
    then (sorted, map (fun x => (fst (fst x), (snd (fst x), snd x))) sel)
    else (flat_map (fun x => firstn (snd x - snd (fst x)) (skipn (snd (fst x)) sorted)) sel, compact_offsets 0 sel) in
  map (fun o => (fst o, firstn (snd (snd o) - fst (snd o)) (skipn (fst (snd o)) buffer))) offsets.

(** ** Merging (910-936) *)

(** One column of a symbol: the parts that exist, concatenated. *)
Definition merge_col {A} (l r : option (list A)) : option (list A) :=
  match l, r with
  | Some a, Some b => Some (a ++ b)
  | Some a, None => Some a
  | None, Some b => Some b
  | None, None => None
  end.
Definition nat_union (a b : list nat) : list nat := a ++ filter (fun x => negb (existsb (Nat.eqb x) a)) b.
Definition column {A} (s : store A) (symbol name : nat) : option (list A) :=
  match lookup symbol s with Some cols => lookup name cols | None => None end.
(** 910-936: [merge_symbol_array_stores]. *)
Definition merge_stores {A} (left right : store A) : store A :=
  let names (s : store A) sym := match lookup sym s with Some cols => map fst cols | None => [] end in
  map (fun sym => (sym, flat_map (fun name => match merge_col (column left sym name) (column right sym name) with
                                              | Some a => [(name, a)]
                                              | None => []
                                              end) (nat_union (names left sym) (names right sym))))
      (nat_union (map fst left) (map fst right)).
