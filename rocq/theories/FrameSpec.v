(** What the frames that models are trained on should hold. *)
From Verif Require Export FrameModel LagSpec.
From Coq Require Export Permutation.

(** [x] is the series' value on the date [d]: the first entry of that date, NaN
    when there is none. *)
Definition value_at (s : series) (d : Z) (x : value) : Prop :=
  (exists p, nth_error (x_index s) p = Some d /\ nth_error (x_values s) p = Some x /\ forall q, q < p -> nth_error (x_index s) q <> Some d) \/
  (~ In d (x_index s) /\ x = None).
(** [x] is the value of [col] on bar [i] of [sym], dated [d]: its stored value, or
    that of the indicator of that name. *)
Definition cell (st : store) (ind : indicator_data) (indicators : list nat) (sym i : nat) (d : Z) (col : nat) (x : value) : Prop :=
  exists sd, st sym = Some sd /\
    match sd_column sd col with
    | Some v => nth_error v i = Some x
    | None => In col indicators /\ exists s, ind col sym = Some s /\ value_at s d x
    end.
(** The bars of a symbol. *)
Definition bars (st : store) (sym : nat) : list Z :=
  match st sym with Some sd => match sd_dates sd with Some dates => dates | None => [] end | None => [] end.
(** Every symbol's dates ascend and each of its columns has a value for each. *)
Definition store_ok (st : store) : Prop := forall sym sd, st sym = Some sd ->
  StronglySorted Z.lt (bars st sym) /\ forall col v, sd_column sd col = Some v -> length v = length (bars st sym).
(** By symbol, then by date. *)
Definition row_lt (a b : nat * Z) : Prop := fst a < fst b \/ (fst a = fst b /\ (snd a < snd b)%Z).
(** The columns a frame of [symbols] has. *)
Definition frame_column (st : store) (symbols indicators data_cols : list nat) (c : nat) : Prop :=
  In c indicators \/ (In c data_cols /\ exists s sd, In s symbols /\ st s = Some sd /\ sd_column sd c <> None).
(** [c] comes in the list before [c'] does. *)
Definition earlier (l : list nat) (c c' : nat) : Prop :=
  c <> c' /\ exists l1 l2, l = l1 ++ c :: l2 /\ ~ In c' l1 /\ In c' l2.
(** A list of columns in the order asked for: first the columns of data that are [stored], in the
    order of [data_cols], then the other indicators, in their order. *)
Record as_asked (stored : nat -> Prop) (indicators data_cols cols : list nat) : Prop := mk_as_asked {
  aa_data : forall c c', stored c -> stored c' -> earlier data_cols c c' -> earlier cols c c';
  aa_both : forall c c', stored c -> In c data_cols -> In c' indicators -> ~ (stored c' /\ In c' data_cols) -> earlier cols c c';
  aa_indicators : forall c c', ~ (stored c /\ In c data_cols) -> ~ (stored c' /\ In c' data_cols) -> earlier indicators c c' -> earlier cols c c'
}.
