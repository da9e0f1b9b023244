(** Vocabulary of C94: the calls a bar makes on the account. *)
From Verif Require Export LoopSpec.

(** The symbol has a bar of that date in the window. *)
Definition has_bar (v : env) (s : sym) (d : Z) : Prop := In s (v_syms v) /\ In d (v_sdates v s).
(** An order is tried on date [d]. *)
Definition order_on (d : Z) (o : op) : Prop := exists ty a, o = order_call ty a /\ a_date a = d.
(** Stops are cancelled by an execution function. *)
Definition cancels_stops (o : op) : Prop := match o with OpRemoveStop _ | OpRemoveStops _ _ => True | _ => False end.
(** The window's bars of the symbol up to and including [d]. *)
Definition bars_to (v : env) (s : sym) (d : Z) : nat := length (filter (fun x => Z.leb x d) (v_sdates v s)).
(** [d] is the exit date of the symbol, past the warm-up. *)
Definition exits_on (v : env) (s : sym) (d : Z) : Prop :=
  has_bar v s d /\ (v_warmup v < bars_to v s d)%nat /\ v_exit_dates v s = Some d.
(** The calls of one bar, in order: stops are checked, orders are tried, the account is
    valued, the stops cancelled by the functions go, positions at their exit date are
    closed, and holding times grow. Stops, valuation and holding times are about the
    symbols with a bar of that date only. *)
Definition bar_calls (v : env) (i : nat) (d : Z) (calls : list op) : Prop :=
  exists sc tried f gone exits hb,
    calls = OpCheckStops d sc (v_sm v i) :: tried ++ OpCapture d f :: gone ++
            map (fun s => OpExit d s (fst (v_exit_fill v i s)) (snd (v_exit_fill v i s)) (v_sm v i)) exits ++ [OpIncr hb] /\
    (forall s, sc_can_price sc s = true <-> has_bar v s d /\ sc_can_price (v_scope v i) s = true) /\
    sc_price sc = sc_price (v_scope v i) /\ sc_fetch sc = sc_fetch (v_scope v i) /\
    Forall (order_on d) tried /\
    (forall s, has_bar v s d -> f s = v_bar v i s) /\ (forall s, ~ has_bar v s d -> f s = None) /\
    Forall cancels_stops gone /\
    NoDup exits /\ (forall s, In s exits <-> exits_on v s d) /\
    (forall s, hb s = true <-> has_bar v s d).

(** The bars of a run, in order: window, number in the window, date. *)
Definition window_run (v : env) : list (env * nat * Z) :=
  map (fun x => (v, fst x, snd x)) (combine (seq 0 (length (v_dates v))) (v_dates v)).
Definition all_bars (l : list env) : list (env * nat * Z) := flat_map window_run l.
Definition calls_of (x : env * nat * Z) (calls : list op) : Prop := let '(v, i, d) := x in bar_calls v i d calls.
(** Every bar of a symbol has a close. *)
Definition bars_close (l : list env) : Prop :=
  forall v i d s, In v l -> nth_error (v_dates v) i = Some d -> has_bar v s d -> close_of (v_bar v i) s <> None.
