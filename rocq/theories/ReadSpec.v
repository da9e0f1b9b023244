(** What is to be read on a bar: the bars of each symbol dated up to it. *)
From Coq Require Import List ZArith Bool Arith Sorted.
From Verif Require Import ReadModel.
Import ListNotations.
Open Scope nat_scope.

Section Spec.
Context {A : Type}.
(** A window as it is built: test dates ascending; symbols once each; the bars of a symbol ascending and
    on test dates, its columns as long as its dates. *)
Definition well_formed (w : window A) : Prop :=
  StronglySorted Z.lt (w_dates w) /\ NoDup (map fst (w_data w)) /\
  forall s x, In (s, x) (w_data w) ->
    StronglySorted Z.lt (sd_dates x) /\ incl (sd_dates x) (w_dates w) /\ forall c v, In (c, v) (sd_cols x) -> length v = length (sd_dates x).

(** The values of a column on the bars dated up to [d]. *)
Definition up_to {V} (d : Z) (dates : list Z) (v : list V) : list V :=
  map snd (filter (fun p => Z.leb (fst p) d) (combine dates v)).
(** [x] is the data of symbol [s]; [v] is its column [c], if it has one. *)
Definition has_data (w : window A) (s : nat) (x : sym_data A) : Prop := In (s, x) (w_data w).
Definition has_col (x : sym_data A) (c : nat) (o : option (list A)) : Prop :=
  match o with Some v => exists l1 l2, sd_cols x = l1 ++ (c, v) :: l2 /\ ~ In c (map fst l1) | None => ~ In c (map fst (sd_cols x)) end.
(** Nothing of [s] so far. *)
Definition no_bar_yet (w : window A) (s : nat) (d : Z) : Prop := forall x e, has_data w s x -> In e (sd_dates x) -> (d < e)%Z.

(** Every registered column, in order, up to [d]; standard columns that the symbol lacks are shown as
    absent, others are left out. *)
Inductive shows (d : Z) (x : sym_data A) : list (nat * bool) -> bar_data A -> Prop :=
| shows_nil : shows d x [] []
| shows_col c std v r b : has_col x c (Some v) -> shows d x r b -> shows d x ((c, std) :: r) ((c, Some (up_to d (sd_dates x) v)) :: b)
| shows_absent c r b : has_col x c None -> shows d x r b -> shows d x ((c, true) :: r) ((c, None) :: b)
| shows_none c r b : has_col x c None -> shows d x r b -> shows d x ((c, false) :: r) b.

(** The right answer on the bar of date [d]. Bars of a symbol that has had none so far may be refused. *)
Definition right (w : window A) (d : Z) (r : read) (a : answer A) : Prop :=
  match r with
  | Foreign _ s => (exists x b, has_data w s x /\ shows d x (w_cols w) b /\ a = Bar b) \/ (a = Raised /\ no_bar_yet w s d)
  | Foreign_col _ s c => (exists x o, has_data w s x /\ has_col x c o /\ a = Column (option_map (up_to d (sd_dates x)) o)) \/ (a = Raised /\ no_bar_yet w s d)
  | Own s c => exists x o, has_data w s x /\ has_col x c o /\ a = Column (option_map (up_to d (sd_dates x)) o)
  | Value s c => exists x o, has_data w s x /\ has_col x c o /\
      match o with
      | None => a = Scalar None
      | Some v => exists i y, nth_error (sd_dates x) i = Some d /\ nth_error v i = Some y /\ a = Scalar (Some y)
      end
  | Dates s => exists x, has_data w s x /\ a = Date_array (up_to d (sd_dates x) (sd_dates x))
  | Dt _ => a = Date d
  | Bars s => exists x, has_data w s x /\ a = Count (length (up_to d (sd_dates x) (sd_dates x)))
  | Has_bar_on s e => e = d -> exists b, a = Truth b /\ (b = true <-> exists x, has_data w s x /\ In d (sd_dates x))
  | Bar_ohlc s e => e = d ->
      (exists x i c l h, has_data w s x /\ nth_error (sd_dates x) i = Some d /\ a = Prices (c, l, h) /\
         (forall k y, In (k, y) [(4, c); (3, l); (2, h)] -> exists o, has_col x k o /\ y = match o with Some v => nth_error v i | None => None end)) \/
      (a = Prices (None, None, None) /\ forall x, has_data w s x -> ~ In d (sd_dates x))
  end.
(** The context a reading goes through, if any. *)
Definition through (r : read) : option nat :=
  match r with Foreign c _ | Foreign_col c _ _ | Own c _ | Value c _ | Dates c | Dt c | Bars c => Some c | _ => None end.
(** The symbols whose functions run on the bar of [d]: those with a bar of that date, past the warm-up. *)
Definition called (w : window A) (d : Z) (s : nat) : Prop :=
  exists x, has_data w s x /\ In d (sd_dates x) /\ forall k, w_warmup w = Some k -> k < length (up_to d (sd_dates x) (sd_dates x)).
End Spec.
