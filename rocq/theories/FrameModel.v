(** Model of the frames that models are trained on, src/pybroker/model.py: the
    alignment of indicators to dates, the columns of a frame, and the frames of one
    symbol and of several. *)
From Verif Require Export LagModel.

(** The exceptions of this part: [NotUnique] is pandas' InvalidIndexError,
    [NoIndicator] a KeyError, [BadIndex] an IndexError. *)
Inductive ferr := NotUnique | NoIndicator | BadIndex.
Inductive fresult (A : Type) := FOk (a : A) | FRaise (e : ferr).
Arguments FOk {A} a.
Arguments FRaise {A} e.
Definition fbind {A B} (r : fresult A) (f : A -> fresult B) : fresult B :=
  match r with FOk a => f a | FRaise e => FRaise e end.
Fixpoint fmap_r {A B} (f : A -> fresult B) (l : list A) : fresult (list B) :=
  match l with
  | [] => FOk []
  | x :: r => fbind (f x) (fun y => fbind (fmap_r f r) (fun ys => FOk (y :: ys)))
  end.

(** An indicator's series: its index of dates and its values. *)
Record series := mk_series { x_index : list Z; x_values : list value }.
(** [index.is_monotonic_increasing]: no date before the previous one. *)
Fixpoint monotonic (l : list Z) : bool :=
  match l with x :: ((y :: _) as r) => (x <=? y)%Z && monotonic r | _ => true end.
Definition zmem (x : Z) (l : list Z) : bool := existsb (Z.eqb x) l.
Fixpoint distinct (l : list Z) : bool := match l with [] => true | x :: r => negb (zmem x r) && distinct r end.
(** [index.get_indexer] for one date. *)
Fixpoint find_date (l : list Z) (d : Z) : option nat :=
  match l with [] => None | x :: r => if (x =? d)%Z then Some 0 else option_map S (find_date r d) end.
(** model.py 890-913: [_indicator_values_for_dates]. *)
Definition indicator_values (s : series) (dates : list Z) : fresult (list value) :=
  match dates with
  | [] => FOk []
  | _ =>
      if monotonic (x_index s) then
        fmap_r (fun d => let p := searchsorted (x_index s) d in
                match nth_error (x_index s) p with
                | Some d' => if (d' =? d)%Z then match nth_error (x_values s) p with Some x => FOk x | None => FRaise BadIndex end else FOk None
                | None => FOk None
                end) dates
      else if distinct (x_index s) then
        fmap_r (fun d => match find_date (x_index s) d with
                | Some p => match nth_error (x_values s) p with Some x => FOk x | None => FRaise BadIndex end
                | None => FOk None
                end) dates
      else FRaise NotUnique
  end.

(** A symbol of a [SymbolArrayStore]: its dates, when it has them, and its other
    columns. *)
Record sym_data := mk_sym_data { sd_dates : option (list Z); sd_column : nat -> option (list value) }.
Definition store := nat -> option sym_data.
Definition has {A} (o : option A) : bool := match o with Some _ => true | None => false end.
(** [dict.fromkeys]: each column once, where it comes first. *)
Fixpoint dedup (seen l : list nat) : list nat :=
  match l with [] => [] | x :: r => if mem x seen then dedup seen r else x :: dedup (x :: seen) r end.
(** model.py 916-933: [_model_input_columns], without the symbol and the date
    columns, which [ordered_data_cols] does not repeat. *)
Definition input_columns (data_cols indicators : list nat) (available : nat -> bool) : list nat :=
  dedup [] (filter available data_cols ++ indicators).
Definition indicator_data := nat -> nat -> option series.
(** model.py 972-978 and 1017-1024: the values of a column for a symbol. [None] when
    the column is neither stored nor an indicator: then nothing is added. *)
Definition column_part (ind : indicator_data) (indicators : list nat) (sym : nat) (sd : sym_data) (dates : list Z) (col : nat)
  : fresult (option (list value)) :=
  match sd_column sd col with
  | Some v => FOk (Some v)
  | None =>
      if mem col indicators then
        match ind col sym with
        | None => FRaise NoIndicator
        | Some s => fbind (indicator_values s dates) (fun v => FOk (Some v))
        end
      else FOk None
  end.
Definition empty_input (pooled : bool) (columns : list nat) : input :=
  mk_input (if pooled then Some [] else None) [] (map (fun c => (c, [])) columns) None.
(** model.py 949-979: [_symbol_model_input_from_store]. [known] are the symbols of
    the store. *)
Definition symbol_input (st : store) (known : list nat) (sym : nat) (ind : indicator_data) (indicators data_cols : list nat) : fresult input :=
  match st sym with
  | None =>
      FOk (empty_input false (input_columns data_cols indicators
        (fun c => existsb (fun s => match st s with Some sd => has (sd_column sd c) | None => false end) known)))
  | Some sd =>
      let columns := input_columns data_cols indicators (fun c => has (sd_column sd c)) in
      match sd_dates sd with
      | None | Some [] => FOk (empty_input false columns)
      | Some dates =>
          fbind (fmap_r (fun c => fbind (column_part ind indicators sym sd dates c) (fun v => FOk (c, v))) columns) (fun parts =>
          FOk (mk_input None dates (flat_map (fun p => match snd p with Some v => [(fst p, v)] | None => [] end) parts) None))
      end
  end.

(** [numpy.lexsort((dates, symbols))]: the positions sorted by symbol, then by date,
    equal ones in their order. *)
Definition before (a b : nat * Z) : bool := (fst a <? fst b) || ((fst a =? fst b) && (snd a <=? snd b)%Z).
Fixpoint place (x : (nat * Z) * nat) (l : list ((nat * Z) * nat)) : list ((nat * Z) * nat) :=
  match l with [] => [x] | y :: r => if before (fst x) (fst y) then x :: l else y :: place x r end.
Definition lexsort (keys : list (nat * Z)) : list nat := map snd (fold_right place [] (combine keys (seq 0 (length keys)))).
(** [values[order]] *)
Definition take {A} (l : list A) (order : list nat) : fresult (list A) :=
  fmap_r (fun i => match nth_error l i with Some x => FOk x | None => FRaise BadIndex end) order.
(** The symbols of the frame that have rows, with their data and dates. *)
Definition with_rows (st : store) (symbols : list nat) : list ((nat * sym_data) * list Z) :=
  flat_map (fun s => match st s with
                     | Some sd => match sd_dates sd with Some ((_ :: _) as dates) => [((s, sd), dates)] | _ => [] end
                     | None => []
                     end) symbols.
(** model.py 982-1040: [_pooled_model_input_from_store]. [symbols] is a frozenset:
    the list is any order of its members. Simplifications: the values are fetched
    column by column, not symbol by symbol, so which of two exceptions comes first
    may differ; a column that no symbol with rows has makes [numpy.concatenate]
    raise, here it is [BadIndex]. *)
Definition pooled_input (st : store) (symbols : list nat) (ind : indicator_data) (indicators data_cols : list nat) : fresult input :=
  let columns := input_columns data_cols indicators
    (fun c => existsb (fun s => match st s with Some sd => has (sd_column sd c) | None => false end) symbols) in
  match with_rows st symbols with
  | [] => FOk (empty_input true columns)
  | parts =>
      let sym_vals := flat_map (fun p => repeat (fst (fst p)) (length (snd p))) parts in
      let dates := flat_map snd parts in
      let order := lexsort (combine sym_vals dates) in
      fbind (take sym_vals order) (fun sym_vals' =>
      fbind (take dates order) (fun dates' =>
      fbind (fmap_r (fun c =>
               fbind (fmap_r (fun p => column_part ind indicators (fst (fst p)) (snd (fst p)) (snd p) c) parts) (fun vs =>
               fbind (take (flat_map (fun v => match v with Some l => l | None => [] end) vs) order) (fun l => FOk (c, l)))) columns) (fun cols =>
      FOk (mk_input (Some sym_vals') dates' cols None))))
  end.
