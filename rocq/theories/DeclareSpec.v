(** Vocabulary of C85: what a call of [add_execution] declares. *)
From Verif Require Export TextSpec DeclareModel.
Open Scope list_scope.
Open Scope nat_scope.

(** The text of an interval in normal form. *)
Definition interval_text (i : interval) (t : str) : Prop := match i with Every n => decimal t n | Named s => t = s end.
(** The name of the variant of the source [base] on the base timeframe ([None]) or
    on an interval. *)
Inductive variant_name (base : str) : option interval -> str -> Prop :=
| vn_base : variant_name base None base
| vn_interval j t : interval_text j t -> variant_name base (Some j) (base ++ "@"%char :: t).

(** An entry stands for an object on the base timeframe ([None]) or on an interval:
    an object on its own for the base; a binding for what it lists, and no more. *)
Inductive binds {A} : entry A -> A -> option interval -> Prop :=
| b_plain a : binds (Plain a) a None
| b_base a l : In (Named (lit "base")) l -> binds (Bound a l) a None
| b_interval a l i j : In i l -> normal_form i j -> binds (Bound a l) a (Some j).
Definition declares_model (a : request) (s : source) (t : option interval) : Prop := exists e, In e (a_models a) /\ binds e s t.
Definition declares_ind (a : request) (i : indicator) (t : option interval) : Prop := exists e, In e (a_inds a) /\ binds e i t.
Definition declares_interval (a : request) (j : interval) : Prop :=
  (exists l i, a_intervals a = Some l /\ In i l /\ normal_form i j) \/
  (exists s, declares_model a s (Some j)) \/ (exists i, declares_ind a i (Some j)).
Definition declares_hyper (a : request) (name : str) : Prop := exists h, In (Some h) (a_hyperparams a) /\ h_name h = name.

(** A name's registration: the newest of that name. *)
Inductive registered {V} : str -> V -> list (str * V) -> Prop :=
| rg_here k v l : registered k v ((k, v) :: l)
| rg_later k v k' v' l : k <> k' -> registered k v l -> registered k v ((k', v') :: l).

(** A tuple of intervals that may be declared: not empty, each valid, no two alike. *)
Definition interval_list (allow_base : bool) (l : list interval) : Prop :=
  exists r, l <> [] /\ Forall2 (bound_form allow_base) l r /\ NoDup r.
(** A well-formed entry: an object that is the one registered under its name; a
    binding is of an object that may be bound, to a valid tuple. *)
Definition good_entry {A} (name : A -> str) (id : A -> nat) (bindable : A -> Prop) (reg : list (str * A)) (e : entry A) : Prop :=
  exists a r, registered (name a) r reg /\ id a = id r /\
    (e = Plain a \/ exists l, e = Bound a l /\ bindable a /\ interval_list true l).
(** When [add_execution] returns: fixed symbols are given and free, and everything
    listed is well-formed. *)
Definition acceptable (g : scope) (execs : list execution) (a : request) : Prop :=
  (forall l, a_symbols a = Some l -> l <> [] /\ forall s x l', In s l -> In x execs -> x_symbols x = Some l' -> ~ In s l') /\
  (forall e, In e (a_models a) -> good_entry s_name s_id (fun s => s_trainer s = true) (g_sources g) e) /\
  (forall e, In e (a_inds a) -> good_entry i_name i_id (fun _ => True) (g_inds g) e) /\
  (forall o, In o (a_hyperparams a) -> exists h r, o = Some h /\ registered (h_name h) r (g_hypers g) /\ h_id h = h_id r) /\
  (forall l, a_intervals a = Some l -> interval_list false l) /\
  a_hashable a = true.

(** The calls of a history that returned. *)
Fixpoint accepted_from (st : state) (evs : list event) : list request :=
  match evs with
  | [] => []
  | e :: r =>
      match e with
      | Add a => match snd (add_execution (st_scope st) a (st_strategy st)) with Ok _ => [a] | Raise _ => [] end
      | _ => []
      end ++ accepted_from (event_step st e) r
  end.
Definition accepted (evs : list event) : list request := accepted_from start evs.
Definition executions (evs : list event) : list execution := t_execs (st_strategy (after evs)).
Definition registry (evs : list event) : scope := st_scope (after evs).
(** In a window of a run, the [k]-th accepted call [a] has the execution [x], which
    runs for the symbol [s]. *)
Definition runs (evs : list event) (w : list execution) (a : request) (x : execution) (s : nat) : Prop :=
  exists k l, nth_error (accepted evs) k = Some a /\ nth_error w k = Some x /\ x_symbols x = Some l /\ In s l.

(** The models' indicators have names that [indicator] accepts. *)
Definition plain_indicators (g : scope) : Prop :=
  forall n r ind, registered n r (g_sources g) -> In ind (s_indicators r) -> ~ In "@"%char ind.
(** The indicators a request uses: its own and those of its models. *)
Definition uses (g : scope) (a : request) (b : str) : Prop :=
  (exists i t, declares_ind a i t /\ i_name i = b) \/
  (exists m t r, declares_model a m t /\ registered (s_name m) r (g_sources g) /\ In b (s_indicators r)).
(** ... with the variants: the indicators of a model are wanted on the timeframe of
    the model's variant. *)
Definition wants (g : scope) (a : request) (n : str) : Prop :=
  (exists i t, declares_ind a i t /\ variant_name (i_name i) t n) \/
  (exists m t r ind, declares_model a m t /\ registered (s_name m) r (g_sources g) /\ In ind (s_indicators r) /\ variant_name ind t n).
(** The hyperparameters a run has: those of the settings, those attached to an
    execution and those of the indicators. *)
Definition reachable (evs : list event) (settings : list hyper) (n : str) : Prop :=
  (exists h, In h settings /\ h_name h = n) \/
  (exists a, In a (accepted evs) /\
     (declares_hyper a n \/ exists b r, uses (registry evs) a b /\ registered b r (g_inds (registry evs)) /\ In n (i_hypers r))).
(** When the hyperparameters of a strategy can be collected. *)
Definition collectable (evs : list event) (settings : list hyper) : Prop :=
  (forall h, In h settings -> exists r, registered (h_name h) r (g_hypers (registry evs))) /\
  (forall a b, In a (accepted evs) -> uses (registry evs) a b -> exists r, registered b r (g_inds (registry evs)) /\
     forall n, In n (i_hypers r) -> exists h, registered n h (g_hypers (registry evs))) /\
  (forall a m t r, In a (accepted evs) -> declares_model a m t -> registered (s_name m) r (g_sources (registry evs)) -> s_hypers r = []).
