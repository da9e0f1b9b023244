(** What property C106 talks about. *)
From Verif Require Export YfinModel.
Import ListNotations.
Open Scope list_scope.
Open Scope nat_scope.

(** The fields of a bar. *)
Definition field (auto_adjust : bool) (f : nat) : Prop :=
  f = OPEN \/ f = HIGH \/ f = LOW \/ f = CLOSE \/ f = VOLUME \/ f = ADJ_CLOSE /\ auto_adjust = false.
(** [v] is the column of yfinance's table for a field of a symbol. *)
Definition column_of (t : ytable) (s f : nat) (v : series) : Prop :=
  match y_cols t with Flat l => In (f, v) l | Multi l => In (f, s, v) l end.
(** yfinance's answer for [syms]: it has each field of each of the symbols, one
    column each, with a value for every date. Only an answer for a single symbol may
    have columns by field alone. *)
Definition answers_for (auto_adjust : bool) (syms : list nat) (t : ytable) : Prop :=
  syms <> []
  /\ (forall s f, In s syms -> field auto_adjust f -> exists v, column_of t s f v)
  /\ (forall s f v, column_of t s f v -> length v = length (y_dates t))
  /\ (forall s f v v', column_of t s f v -> column_of t s f v' -> v = v')
  /\ match y_cols t with
     | Flat _ => length syms = 1
     | Multi l => forall f s v, In (f, s, v) l -> In s syms
     end.
(** Row [r] is the bar of [s] at the date of row [i] of the table. *)
Definition bar_at (auto_adjust : bool) (t : ytable) (s i : nat) (r : row) : Prop :=
  r_symbol r = s
  /\ nth_error (y_dates t) i = Some (r_date r)
  /\ NoDup (map fst (r_values r))
  /\ forall f q, In (f, q) (r_values r) <-> field auto_adjust f /\ exists v, column_of t s f v /\ nth_error v i = Some (Some q).
Definition bars_at (auto_adjust : bool) (t : ytable) (s : nat) (rows : list row) : Prop :=
  length rows = length (y_dates t) /\ forall i r, nth_error rows i = Some r -> bar_at auto_adjust t s i r.

(** The table that yfinance makes of the bars of some symbols: the dates on which
    one of them has a bar; NaN where a symbol has none or a bar lacks the field. *)
Definition value (f : nat) (v : list (nat * Q)) : option Q :=
  match find (fun x => fst x =? f) v with Some x => Some (snd x) | None => None end.
Definition table_of (auto_adjust : bool) (bars : nat -> list (Z * list (nat * Q))) (syms : list nat) : ytable :=
  let dates := yf_dates bars syms in
  let at_ s f d := match find (fun b => (fst b =? d)%Z) (bars s) with Some b => value f (snd b) | None => None end in
  mk_ytable dates
    (Multi (flat_map (fun s => map (fun f => (f, s, map (at_ s f) dates)) ([CLOSE; HIGH; LOW; OPEN; VOLUME] ++ (if auto_adjust then [] else [ADJ_CLOSE]))) syms)).
(** The values of a bar are listed in the order of the frame's columns. *)
Definition listed_in_order (auto_adjust : bool) (v : list (nat * Q)) : Prop :=
  v = flat_map (fun f => match value f v with Some q => [(f, q)] | None => [] end)
        ([OPEN; HIGH; LOW; CLOSE; VOLUME] ++ (if auto_adjust then [] else [ADJ_CLOSE])).
