(** What slicing, building and merging stores should do. *)
From Verif Require Export StoreModel.
From Coq Require Export Sorted.
Open Scope list_scope.
Open Scope Z_scope.

(** The entries of a column on the requested dates, in the order of the column. *)
Definition on_dates {B} (target dates : list Z) (l : list B) : list B :=
  map snd (filter (fun x => existsb (Z.eqb (fst x)) target) (combine dates l)).

(** The store of a run: symbols are the keys of a dict, the dates of a symbol are
    distinct (Strategy._reject_duplicate_bars), its columns are as long as its
    dates, and the numbers in it are representable in float64. *)
Definition store_ok {A} (cast : A -> A) (s : array_store A) : Prop :=
  NoDup (map fst s) /\
  forall sym d, In (sym, d) s -> forall dates, sd_dates d = Some dates ->
    NoDup dates /\
    forall name num col, In (name, (num, col)) (sd_cols d) ->
      length col = length dates /\ (num = true -> forall x, In x col -> cast x = x).

(** The rows of a frame with a symbol and a date. *)
Definition rows_at {A} (sym : nat) (date : Z) (l : list (frame_row A)) : list (frame_row A) :=
  filter (fun r => Nat.eqb (fr_sym r) sym && (fr_date r =? date)) l.
