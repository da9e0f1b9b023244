(** Vocabulary for the bar loop: what the logs of a run say. *)
From Verif Require Export PortfolioSpec PendingSpec LoopModel.

(** ** Orders and attempts *)
(** Every order ever added to the registry, with its id. *)
Definition entered_step (l : list pending) (o : kop) : list pending :=
  match o with KAdd a => l ++ [with_id (S (length l)) a] | _ => l end.
Definition entered (ops : list kop) : list pending := fold_left entered_step ops [].
(** The attempts of order [i], oldest first: date and whether it filled. *)
Definition attempts (b : bstate) (i : nat) : list (Z * bool) :=
  map (fun x => (snd (fst x), snd x)) (filter (fun x => Nat.eqb (fst (fst x)) i) (b_att b)).
Definition pending_now (b : bstate) (i : nat) : bool := contains i (b_pend b).
(** A limit order with a timeout is retried; any other is attempted once. [-1]
    (any negative timeout) never expires. *)
Definition persistent (n : pending) : Prop := n_limit n <> None /\ n_timeout n <> None.
Definition allowed_attempts (n : pending) (k : nat) : Prop :=
  match n_limit n, n_timeout n with
  | Some _, Some t => (0 <= t -> Z.of_nat k <= t + 1)%Z
  | _, _ => (k <= 1)%nat
  end.

(** ** Calendars *)
Fixpoint ascending (l : list Z) : Prop :=
  match l with [] => True | x :: r => Forall (Z.lt x) r /\ ascending r end.
(** Date [x] is [k] bars after [cur] on the calendar [l]. *)
Definition bars_later (l : list Z) (cur : Z) (k : nat) (x : Z) : Prop :=
  exists j, nth_error l j = Some cur /\ nth_error l (j + k) = Some x.
(** A symbol's calendar: the master one if there is one, else the window's. *)
Definition calendar (v : env) (s : sym) : list Z :=
  match v_master v with Some m => m s | None => v_sdates v s end.
Definition delay (v : env) (o : oside) : nat := match o with OBuy => v_buy_delay v | OSell => v_sell_delay v end.
(** Inputs [backtest_executions] is called with: dates ascend, a symbol's dates
    are window dates and a contiguous part of its master dates, delays are at
    least one bar (strategy.py 2023-2032). *)
Record env_ok (v : env) : Prop := mkEnvOk {
  eo_dates : ascending (v_dates v);
  eo_syms : NoDup (v_syms v);
  eo_sdates : forall s, In s (v_syms v) -> ascending (v_sdates v s) /\ incl (v_sdates v s) (v_dates v);
  eo_master : forall m s, v_master v = Some m -> In s (v_syms v) ->
    ascending (m s) /\ exists pre post, m s = pre ++ v_sdates v s ++ post;
  eo_delay : (1 <= v_buy_delay v)%nat /\ (1 <= v_sell_delay v)%nat
}.
(** Successive windows of one run: one configuration, later windows later. *)
Fixpoint windows_ok (c : cfg) (l : list env) : Prop :=
  match l with
  | [] => True
  | v :: r => env_ok v /\ v_cfg v = c /\
              Forall (fun w => forall x y, In x (v_dates v) -> In y (v_dates w) -> (x < y)%Z) r /\ windows_ok c r
  end.
(** The bars of a symbol over the windows. *)
Definition window_bars (v : env) (s : sym) : list Z := if nmem s (v_syms v) then v_sdates v s else [].
Definition own_bars (l : list env) (s : sym) : list Z := flat_map (fun v => window_bars v s) l.
(** The bars on which an order may be attempted: its symbol's, from the
    execution date on. *)
Definition from (n : pending) (l : list Z) : list Z := filter (Z.leb (n_exec n)) l.

(** ** Cancellations *)
(** What a cancellation names. *)
Definition names (y : cancel) (n : pending) : Prop :=
  match y with CanOrder j => j = n_id n | CanOrders None => True | CanOrders (Some s) => s = n_sym n | _ => False end.
(** Some execution function of the run may ask to cancel the order. *)
Definition asked (l : list env) (n : pending) : Prop :=
  exists v i d p k x y, In v l /\ In y (u_cancel (v_user v i d p k x)) /\ names y n.

(** ** Calls *)
(** The account calls that come from an order. *)
Definition order_call (ty : oside) (a : oargs) : op := match ty with OBuy => OpBuy a | OSell => OpSell a end.
(** The call was made for order [n], when [n] was attempted. *)
Record made_for (b : bstate) (ty : oside) (a : oargs) (n : pending) : Prop := mkMadeFor {
  mf_type : n_type n = ty; mf_sym : a_sym a = n_sym n; mf_created : a_created a = Some (n_created n);
  mf_limit : a_limit a = n_limit n;
  mf_stops : a_stops a = None \/ a_stops a = n_stops n;
  mf_shares : 0 <= n_shares n -> a_shares a <= n_shares n;
  mf_att : exists f, In (a_date a, f) (attempts b (n_id n)) /\ (f = false -> a_stops a = None)
}.
(** An exit order, as [sell_all_shares] and [cover_all_shares] create it. *)
Definition exit_of (n : pending) : Prop := n_exit n = Some (closing (n_type n)).

(** ** Single bars *)
(** In the run [l], the bar [i] of window [v], of date [d], took the state [b] to
    [b']. *)
Definition bar_of (c : cfg) (k : nat) (l : list env) (v : env) (i : nat) (d : Z) (b b' : bstate) : Prop :=
  exists l1 l2 b0 pre rest, l = l1 ++ v :: l2 /\ backtests l1 (fresh c k) = Some b0 /\
    v_dates v = pre ++ d :: rest /\ i = length pre /\ bars_from v 0 pre (start v b0) = Some b /\ bar v i d b = Some b'.
