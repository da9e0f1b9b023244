(** What property C52 talks about, without the cache. *)
From Verif Require Export DataModel.

(** The data a vendor has: for each request the bars of every symbol in the
    order the vendor lists them, and the columns of its frames. Requests that
    differ only in how they spell the timeframe ask for the same data. *)
Definition same_request (seconds : nat -> nat) (q q' : request) : Prop :=
  seconds (q_tf q) = seconds (q_tf q') /\ q_start q = q_start q' /\ q_end q = q_end q' /\ q_adjust q = q_adjust q'
  /\ q_source q = q_source q'.
Record vendor (seconds : nat -> nat) := mk_vendor {
  v_rows : nat -> request -> list row;
  v_cols : request -> list nat;
  v_rows_sym : forall s q x, In x (v_rows s q) -> r_symbol x = s;
  v_cols_required : forall q c, In c [SYMBOL; DATE; OPEN; HIGH; LOW; CLOSE] -> In c (v_cols q);
  v_same_rows : forall s q q', same_request seconds q q' -> v_rows s q = v_rows s q';
  v_same_cols : forall q q', same_request seconds q q' -> v_cols q = v_cols q' }.
Arguments v_rows {seconds} _.
Arguments v_cols {seconds} _.

(** [fetch] answers from [v]: a fetch succeeds and has, for every symbol asked,
    the rows the vendor has for it, whatever other symbols are asked for at the
    same time, and no other rows; its columns are the vendor's. A fetch without
    rows may come without columns. *)
Definition serves {seconds} (v : vendor seconds) (fetch : list nat -> request -> option frame) : Prop :=
  forall syms q, exists f, fetch syms q = Some f
    /\ (forall s, of_symbol s (f_rows f) = if mem s syms then v_rows v s q else [])
    /\ (f_cols f = [] /\ f_rows f = [] \/ (forall c, In c (f_cols f) <-> In c (v_cols v q))).

(** [order] enumerates a set. *)
Definition enumerates (order : list nat -> list nat) : Prop :=
  forall l, NoDup (order l) /\ (forall x, In x (order l) <-> In x l).

(** A query and its answer, when it comes to an end. *)
Definition queries seconds order fetch (arg : symbols) q w a w' : Prop :=
  a <> Deeper /\ exists n, query seconds order fetch n arg q w = (a, w').

(** The worlds that any number of queries lead to, one after the other. The order
    in which Python enumerates a set may change from query to query (it depends on
    PYTHONHASHSEED). *)
Inductive reaches seconds fetch : world -> world -> Prop :=
| no_query w : reaches seconds fetch w w
| one_more w w1 w2 order arg q a : reaches seconds fetch w w1 -> enumerates order ->
    queries seconds order fetch arg q w1 a w2 -> reaches seconds fetch w w2.

Definition fresh : world := mk_world (Some []) [].
Definition disabled : world := mk_world None [].

(** [rows] is in order of dates and then of symbols. *)
Definition in_order (rows : list row) : Prop :=
  forall a x b y c, rows = a ++ x :: b ++ y :: c ->
    (r_date x < r_date y)%Z \/ r_date x = r_date y /\ r_symbol x <= r_symbol y.
(** Each requested symbol's bars, as the vendor lists them, at each date. *)
Definition exactly_rows {seconds} (v : vendor seconds) syms q (rows : list row) : Prop :=
  in_order rows
  /\ forall s d, filter (fun x => (r_symbol x =? s) && (r_date x =? d)%Z) rows
                 = if mem s syms then filter (fun x => (r_date x =? d)%Z) (v_rows v s q) else [].

(** The same rows in the same order and, when there are rows, the same columns. *)
Definition same_answer (a b : answer) : Prop :=
  match a, b with
  | Frame f, Frame g => f_rows f = f_rows g /\ (f_rows f <> [] -> forall c, In c (f_cols f) <-> In c (f_cols g))
  | Raises e, Raises e' => e = e'
  | _, _ => False
  end.

(** The symbols a query asks about that have no entry in the cache. *)
Definition missing seconds order (w : world) (arg : symbols) (q : request) : list nat :=
  match w_cache w with
  | None => order (elements arg)
  | Some c => filter (fun s => match cache_get (cache_key seconds q s) c with None => true | _ => false end) (order (elements arg))
  end.
