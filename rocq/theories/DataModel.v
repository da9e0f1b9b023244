(** Model of src/pybroker/data.py: querying a data source through the data
    source cache.

    A frame is its list of columns and its rows. Column names, symbols, formatted
    timeframes, adjustments and the names of data source classes are numbers; the
    numbers of symbols compare as the strings they stand for. A value that a row
    does not have is NaN. Simplifications: dtypes and the index of a frame are not
    modelled, so neither is [reset_index]; nor is logging. The cache is the map
    that property C50 says it behaves as. *)
From Coq Require Export List ZArith QArith Bool PeanoNat Lia.
Export ListNotations.
Open Scope list_scope.
Open Scope nat_scope.

Record row := mk_row { r_symbol : nat; r_date : Z; r_values : list (nat * Q) }.
Record frame := mk_frame { f_cols : list nat; f_rows : list row }.

(** common.py [DataCol] values and the YFinance column [ADJ_CLOSE]. *)
Definition SYMBOL := 0.
Definition DATE := 1.
Definition OPEN := 2.
Definition HIGH := 3.
Definition LOW := 4.
Definition CLOSE := 5.
Definition VOLUME := 6.
Definition ADJ_CLOSE := 8.
(** data.py 258-266 and common.py 456-463: the columns of an empty frame and the
    required columns. *)
Definition required := [SYMBOL; DATE; OPEN; HIGH; LOW; CLOSE].

Definition mem (x : nat) (l : list nat) : bool := existsb (Nat.eqb x) l.
(** [pandas.DataFrame()], [df.empty], [df.columns.empty]. *)
Definition no_frame : frame := mk_frame [] [].
Definition empty_cols (f : frame) : bool := match f_cols f with [] => true | _ => false end.
Definition empty (f : frame) : bool := match f_rows f with [] => true | _ => empty_cols f end.
(** [pandas.concat((f, g))]: the union of the columns, the rows of one after
    those of the other. *)
Definition concat2 (f g : frame) : frame :=
  mk_frame (f_cols f ++ filter (fun c => negb (mem c (f_cols f))) (f_cols g)) (f_rows f ++ f_rows g).
Definition concat (l : list frame) : frame := fold_left concat2 l no_frame.
(** [set(f.columns) == set(g.columns)] *)
Definition subset (a b : list nat) : bool := forallb (fun c => mem c b) a.
Definition same_cols (f g : frame) : bool := subset (f_cols f) (f_cols g) && subset (f_cols g) (f_cols f).
(** [df.sort_values(by=[DATE, SYMBOL])]: pandas sorts by two columns with a
    stable lexicographic sort. *)
Definition before (a b : row) : bool :=
  (r_date a <? r_date b)%Z || ((r_date a =? r_date b)%Z && (r_symbol a <=? r_symbol b)).
Fixpoint insert (x : row) (l : list row) : list row :=
  match l with
  | [] => [x]
  | y :: r => if before x y then x :: l else y :: insert x r
  end.
Definition sort_rows (l : list row) : list row := fold_right insert [] l.
Definition sort_values (f : frame) : frame := mk_frame (f_cols f) (sort_rows (f_rows f)).
Definition sorted_unless_empty (f : frame) : frame := if empty f then f else sort_values f.

(** What [query] is asked apart from the symbols, and by which class: [q_source]
    is the class name in the cache key. Simplification: [q_tf] is the timeframe
    after [_format_timeframe]. *)
Record request := mk_request { q_tf : nat; q_start : Z; q_end : Z; q_adjust : nat; q_source : nat }.
(** cache.py [DataSourceCacheKey] *)
Record key := mk_key { k_symbol : nat; k_seconds : nat; k_start : Z; k_end : Z; k_adjust : nat; k_source : nat }.
Definition key_eqb (a b : key) : bool :=
  (k_symbol a =? k_symbol b) && (k_seconds a =? k_seconds b) && (k_start a =? k_start b)%Z && (k_end a =? k_end b)%Z
  && (k_adjust a =? k_adjust b) && (k_source a =? k_source b).
Definition cache := list (key * frame).
Fixpoint cache_get (k : key) (c : cache) : option frame :=
  match c with
  | [] => None
  | (k', f) :: r => if key_eqb k k' then Some f else cache_get k r
  end.
Definition cache_set (k : key) (f : frame) (c : cache) : cache := (k, f) :: c.

(** What a query does that can be seen from outside. *)
Inductive event := Fetched (symbols : list nat) (q : request) | Cleared.
(** [w_cache] is [None] when caching is disabled. *)
Record world := mk_world { w_cache : option cache; w_log : list event }.
Inductive error := Bad_dates | No_symbols | Missing_columns | Fetch_failed.
(** [Deeper]: the recursion of [query] goes deeper than the model looked. *)
Inductive answer := Frame (f : frame) | Raises (e : error) | Deeper.
(** The argument [symbols]: a collection, or an iterator that is empty once it
    has been iterated over. Simplification: a single string is the collection
    that holds it, the empty string is the empty collection. *)
Inductive symbols := Many (l : list nat) | Once (l : list nat).
Definition elements (a : symbols) : list nat := match a with Many l | Once l => l end.
Definition used (a : symbols) : symbols := match a with Many l => Many l | Once _ => Once [] end.

Section Query.
(** [to_seconds] of a formatted timeframe. *)
Variable seconds : nat -> nat.
(** The elements of [frozenset(symbols)] in the order Python iterates over them. *)
Variable order : list nat -> list nat.
(** [_fetch_data]; [None] when it raises. *)
Variable fetch : list nat -> request -> option frame.

(** data.py 88-95 and 147-154 *)
Definition cache_key (q : request) (sym : nat) : key :=
  mk_key sym (seconds (q_tf q)) (q_start q) (q_end q) (q_adjust q) (q_source q).
(** data.py 76-106: [get_cached] *)
Definition get_cached (c : option cache) (q : request) (syms : list nat) : frame * list nat :=
  match c with
  | None => (no_frame, syms)
  | Some c =>
      (concat (flat_map (fun s => match cache_get (cache_key q s) c with Some f => [f] | None => [] end) syms),
       filter (fun s => match cache_get (cache_key q s) c with Some _ => false | None => true end) syms)
  end.
(** [data.groupby(SYMBOL, sort=False)]: the symbols in order of first appearance. *)
Fixpoint seen_symbols (seen : list nat) (l : list row) : list nat :=
  match l with
  | [] => []
  | x :: r => if mem (r_symbol x) seen then seen_symbols seen r
              else r_symbol x :: seen_symbols (r_symbol x :: seen) r
  end.
Definition of_symbol (s : nat) (l : list row) : list row := filter (fun x => r_symbol x =? s) l.
(** data.py 138-159: [set_cached] *)
Definition set_cached (c : option cache) (q : request) (data : frame) : option cache :=
  if empty data then c
  else match c with
       | None => None
       | Some c =>
           Some (fold_left (fun c s => cache_set (cache_key q s) (mk_frame (f_cols data) (of_symbol s (f_rows data))) c)
                           (seen_symbols [] (f_rows data)) c)
       end.
(** data.py 173-285: [DataSource.query], to recursion depth [n]. *)
Fixpoint query (n : nat) (arg : symbols) (q : request) (w : world) : answer * world :=
  match n with
  | O => (Deeper, w)
  | S n =>
      if (q_end q <? q_start q)%Z then (Raises Bad_dates, w)
      else match order (elements arg) with
      | [] => (Raises No_symbols, w)
      | unique =>
          let '(cached, uncached) := get_cached (w_cache w) q unique in
          match uncached with
          | [] => (Frame (sorted_unless_empty cached), w)
          | _ =>
              let w1 := mk_world (w_cache w) (w_log w ++ [Fetched uncached q]) in
              match fetch uncached q with
              | None => (Raises Fetch_failed, w1)
              | Some df =>
                  if (match w_cache w with Some _ => true | None => false end)
                     && negb (empty df) && negb (empty_cols cached) && negb (same_cols cached df)
                  then query n (used arg) q (mk_world (Some []) (w_log w1 ++ [Cleared]))
                  else
                    let df := if empty df && empty_cols df then mk_frame required [] else df in
                    if subset required (f_cols df)
                    then
                      let w2 := mk_world (set_cached (w_cache w) q df) (w_log w1) in
                      let df := if empty df && negb (empty cached) then cached else concat2 cached df in
                      (Frame (sorted_unless_empty df), w2)
                    else (Raises Missing_columns, w1)
              end
          end
      end
  end.
End Query.

(** data.py 568-652: what [YFinance._fetch_data] makes of yfinance's table. The
    dates of the table are those on which one of the requested symbols has a bar;
    a symbol without a bar on a date has NaN there. [bars s] are the dates and
    values of the bars of [s]. Simplification: the table is not empty; yfinance
    itself is outside the model. *)
Definition yf_columns (auto_adjust : bool) : list nat :=
  [DATE; SYMBOL; OPEN; HIGH; LOW; CLOSE; VOLUME] ++ (if auto_adjust then [] else [ADJ_CLOSE]).
Fixpoint add_date (d : Z) (l : list Z) : list Z :=
  match l with
  | [] => [d]
  | e :: r => if (d <? e)%Z then d :: l else if (d =? e)%Z then l else e :: add_date d r
  end.
Definition yf_dates (bars : nat -> list (Z * list (nat * Q))) (syms : list nat) : list Z :=
  fold_right add_date [] (flat_map (fun s => map fst (bars s)) syms).
Definition yf_fetch (auto_adjust : bool) (bars : nat -> list (Z * list (nat * Q))) (syms : list nat) : frame :=
  let entry s d := match find (fun b => (fst b =? d)%Z) (bars s) with Some (_, v) => v | None => [] end in
  mk_frame (yf_columns auto_adjust)
    (flat_map (fun s => map (fun d => mk_row s d (entry s d)) (yf_dates bars syms)) syms).
