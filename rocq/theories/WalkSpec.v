(** Vocabulary of the walkforward properties: the dates of the data and how many
    bars lie between two of them. *)
From Verif Require Export WalkModel.
From Coq Require Export Permutation.

(** Row [i] of the data has date [d]. *)
Definition row_date (dates : list Z) (i : nat) (d : Z) : Prop := nth_error dates i = Some d.
(** The distinct dates of the data: its bars. *)
Definition bars_of (dates : list Z) : list Z := nodup Z.eq_dec dates.
Definition n_bars (dates : list Z) : Z := Z.of_nat (length (bars_of dates)).
(** How many bars come after [d], and how many after [d] up to and with [d']. *)
Definition bars_after (dates : list Z) (d : Z) : Z := Z.of_nat (length (filter (fun x => Z.ltb d x) (bars_of dates))).
Definition bars_from_to (dates : list Z) (d d' : Z) : Z :=
  Z.of_nat (length (filter (fun x => Z.ltb d x && Z.leb x d') (bars_of dates))).

(** The standard model of float arithmetic (binary64, round to nearest, no
    overflow): integers up to 2^53 are exact, rounding keeps order, and its
    relative error is at most 2^-53 (2^-1074 absolute near zero). *)
Definition two_to (k : Z) : Q := Qpower 2 k.
Record float_rounding (fl : Q -> Q) : Prop := {
  fr_int : forall z, (Z.abs z <= 2 ^ 53)%Z -> fl (inject_Z z) == inject_Z z;
  fr_mono : forall x y, x <= y -> fl x <= fl y;
  fr_error : forall x, Qabs x <= two_to 1000 -> Qabs (fl x - x) <= two_to (-53) * Qabs x + two_to (-1074)
}.
(** [np.random.shuffle], or nothing: each call permutes its rows. *)
Definition shuffles (shuf : nat -> list nat -> list nat) : Prop := forall k l, Permutation (shuf k l) l.

(** The rows of a set are rows of the data, each at most once, and the set takes
    whole bars: it holds every row of a date or none. *)
Definition whole_bars (dates : list Z) (rows : list nat) : Prop :=
  NoDup rows /\ (forall i, In i rows -> exists d, row_date dates i d) /\
  forall i j d, row_date dates i d -> row_date dates j d -> In i rows -> In j rows.
(** The rows of a set are those with at least [a] and fewer than [b] bars after
    them. *)
Definition rows_aged (dates : list Z) (rows : list nat) (a b : Z) : Prop :=
  forall i, In i rows <-> exists d, row_date dates i d /\ (a <= bars_after dates d < b)%Z.

(** The windows of a split, [i] windows before the last: the test set is the
    [T] bars that follow each other from window to window and end with the last
    bar of the data; the training set is the [L] bars that end [la] bars before
    the first test bar. With a [train_size] of 1 there is no test set and the
    training sets follow each other. *)
Definition window_at (dates : list Z) (la : Z) (ts : Q) (L T i : Z) (w : window) : Prop :=
  (~ ts == 1 -> rows_aged dates (w_test w) (i * T) ((i + 1) * T) /\
                rows_aged dates (w_train w) ((i + 1) * T + la - 1) ((i + 1) * T + la - 1 + L)) /\
  (ts == 1 -> w_test w = [] /\ rows_aged dates (w_train w) (i * L) ((i + 1) * L)).
(** Inside the domain of the properties: [train_size] at most 1 as documented,
    fewer than 2^50 bars and windows, float arithmetic and permuting shuffles. *)
Definition split_domain (fl : Q -> Q) (shuf : nat -> list nat -> list nat) (dates : list Z) (W : Z) (ts : Q) : Prop :=
  float_rounding fl /\ shuffles shuf /\ (n_bars dates <= 2 ^ 50)%Z /\ (W <= 2 ^ 50)%Z /\ ts <= 1.
(** The arguments that are rejected with a ValueError: none or too few bars for
    the windows asked for. With several windows, the float value of the average
    window times the train and test fractions is below one bar each. *)
Definition split_rejected (fl : Q -> Q) (dates : list Z) (W la : Z) (ts : Q) : Prop :=
  let n := n_bars dates in
  let avg := fl (inject_Z (n - (la - 1) * W) / inject_Z W) in
  (W <= 0)%Z \/ (la <= 0)%Z \/ ts < 0 \/ dates = [] \/
  ((ts == 0 \/ ts == 1) /\ (n < W)%Z) \/
  (0 < ts /\ ts < 1 /\ W = 1%Z /\ (n <= la + 1)%Z) \/
  (0 < ts /\ ts < 1 /\ (2 <= W)%Z /\ fl (avg * ts) < 1 /\ fl (avg * fl (1 - ts)) < 1).
