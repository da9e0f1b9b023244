(** Vocabulary: markets with the same past, and what a run reports of it. *)
From Verif Require Export MarketModel LoopSpec.

(** Every symbol has at most one row a date, oldest first. *)
Definition well_formed {R} (m : market R) : Prop := forall s, ascending (map fst (m s)).
(** The two markets have the same rows up to [T], whatever they do later. *)
Definition same_past {R} (T : Z) (m m' : market R) : Prop :=
  forall s r, (fst r <= T)%Z -> (In r (m s) <-> In r (m' s)).
(** Every symbol's next [n] bars after [T] fall on the same dates in both. *)
Definition next_dates {R} (n : nat) (T : Z) (m : market R) (s : sym) : list Z :=
  firstn n (filter (fun d => Z.ltb T d) (map fst (m s))).
Definition same_next_dates {R} (n : nat) (T : Z) (m m' : market R) : Prop :=
  forall s, next_dates n T m s = next_dates n T m' s.
(** Windows one after the other. *)
Fixpoint chronological (ws : list window) : Prop :=
  match ws with [] => True | w :: r => Forall (fun w' => snd w < fst w')%Z r /\ chronological r end.
Definition strategy_ok {U R} (y : strategy U R) : Prop :=
  NoDup (y_syms y) /\ incl (y_syms y) (y_all y) /\ (1 <= y_buy_delay y)%nat /\ (1 <= y_sell_delay y)%nat.
Definition longest_delay {U R} (y : strategy U R) : nat := Nat.max (y_buy_delay y) (y_sell_delay y).

(** What a result reports up to [T]: orders, closed trades and the account's
    bars. *)
Definition reported (T : Z) (b : bstate) : list order * list trade * list pbar :=
  (filter (fun o => Z.leb (o_date o) T) (p_orders (b_port b)),
   filter (fun t => Z.leb (t_exit_date t) T) (p_trades (b_port b)),
   filter (fun r => Z.leb (b_date r) T) (p_bars (b_port b))).
(** Everything a later bar and the user's functions can see of a run: the
    account, the pending orders, the contexts, the stop ids handed out and what
    the user's functions remember. *)
Definition visible {U} (st : bstate * U) : port * pscope * ctxs * nat * U :=
  let b := fst st in (b_port b, b_pend b, b_ctx b, b_stop b, snd st).
(** The bars of a run in order: every date of every window on which one of the
    symbols has a row, with the rows up to it. *)
Definition bars_in_order {U R} (y : strategy U R) (m : market R) (ws : list window) : list (view R) :=
  flat_map (fun w => map (fun d => mkView R w d (map (fun s => (s, filter (fun r => Z.leb (fst r) d) (m s))) (y_all y))) (all_dates y m w)) ws.
