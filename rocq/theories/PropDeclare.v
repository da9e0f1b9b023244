(** C85: what an execution declares is prepared for it and reachable from its
    context, and nothing else is. *)
From Verif Require Import Tac NameProofs DeclareProofs DeclareRun.
Open Scope list_scope.
Open Scope nat_scope.

(** A call of [add_execution] returns exactly when it is acceptable (DeclareSpec): a
    call that raises leaves the executions as they were. *)
Theorem C85_accepts : forall g a t,
  ((exists u, snd (add_execution g a t) = Ok u) <-> acceptable g (t_execs t) a) /\
  ((exists e, snd (add_execution g a t) = Raise e) -> t_execs (fst (add_execution g a t)) = t_execs t).
Proof.
  intros g a t. split; [apply add_iff|]. intros [e E]. destruct (add_step g a t) as [(e' & _ & H & _)|(x & H & _)]; [easy|congruence].
Qed.
Print Assumptions C85_accepts.

(** After any history of registrations and calls, each accepted call, and no other,
    has an execution, with its symbols, exactly the variants of models and indicators
    it lists, the intervals it lists or binds to, and its hyperparameters. No symbol
    is in two of them, before or after the selectors of a window are resolved. *)
Theorem C85_executions : forall evs,
  Forall2 (fun a x =>
    x_symbols x = a_symbols a /\
    (forall n, In n (x_models x) <-> exists s t, declares_model a s t /\ variant_name (s_name s) t n) /\
    (forall n, In n (x_inds x) <-> exists i t, declares_ind a i t /\ variant_name (i_name i) t n) /\
    (forall j, In j (x_intervals x) <-> declares_interval a j) /\
    (forall n, In n (x_hypers x) <-> declares_hyper a n)) (accepted evs) (executions evs) /\
  NoDup (map x_id (executions evs)) /\
  forall select loaded w, window_executions select loaded (executions evs) = Ok w ->
    length w = length (accepted evs) /\
    (forall k a x, nth_error (accepted evs) k = Some a -> nth_error w k = Some x ->
       exists l, x_symbols x = Some l /\
         (a_symbols a = Some l \/ a_symbols a = None /\ l <> [] /\ forall s, In s l -> In s loaded)) /\
    forall i j x y lx ly s, nth_error w i = Some x -> nth_error w j = Some y -> x_symbols x = Some lx -> x_symbols y = Some ly ->
      In s lx -> In s ly -> i = j.
Proof.
  intro evs. destruct (run_all evs) as ((_ & _ & _ & _ & N) & F & _). split; [exact F|]. split; [exact N|].
  intros select loaded w W. assert (D := window_declared _ _ _ _ W). split; [symmetry; clear -D; induction D; cbn; congruence|].
  split; [|exact (proj2 (window_ok _ _ _ _ W))]. intros k a x A X. destruct (Forall2_nth _ _ _ _ _ D A) as (y & Y & x' & (E & _) & _ & l & L & K).
  assert (y = x) as -> by congruence. exists l. split; [easy|]. rewrite <- E. destruct K as [K|(K & _ & K' & K'')]; auto.
Qed.
Print Assumptions C85_executions.

(** The executions of a window are resolved exactly when every selector returns symbols,
    all of them loaded and none twice, and no symbol is picked by two executions: nothing
    else stops a window. *)
Theorem C85_window_accepts : forall evs select loaded,
  let picks x l := x_symbols x = Some l \/ x_symbols x = None /\ select (x_id x) = Some l in
  (exists w, window_executions select loaded (executions evs) = Ok w) <->
  (forall x, In x (executions evs) -> x_symbols x = None ->
     exists l, select (x_id x) = Some l /\ l <> [] /\ NoDup l /\ forall s, In s l -> In s loaded) /\
  (forall i j x y lx ly s, nth_error (executions evs) i = Some x -> nth_error (executions evs) j = Some y ->
     picks x lx -> picks y ly -> In s lx -> In s ly -> i = j).
Proof.
  intros evs select loaded picks. unfold window_executions. destruct (existsb is_selector (executions evs)) eqn:E.
  - split.
    + intros [w W]. apply resolve_ok in W as (F & _ & U). split.
      * intros x X N. destruct (Forall2_l _ _ _ _ F X) as (y & _ & _ & l & _ & R). apply resolve_symbols_iff in R as [R|(_ & R)]; [congruence|]. now exists l.
      * intros i j x y lx ly s X Y Px Py Ix Iy.
        destruct (Forall2_nth _ _ _ _ _ F X) as (x' & X' & _ & l & L & R). destruct (Forall2_nth _ _ _ _ _ F Y) as (y' & Y' & _ & m & M & R').
        assert (AG : forall x l l', resolve_symbols select loaded x = Ok l -> picks x l' -> l = l').
        { intros z k k' Z P. apply resolve_symbols_iff in Z as [Z|(Z & Z' & _)]; destruct P as [P|[P P']]; congruence. }
        rewrite <- (AG _ _ _ R Px) in Ix. rewrite <- (AG _ _ _ R' Py) in Iy. exact (U i j x' y' l m s X' Y' L M Ix Iy).
    + intros [V D]. apply (resolve_accepts select loaded (executions evs) []); [exact V|exact D|]. intros x l s _ _ _ [].
  - split; [|intros _; now eexists]. intros _.
    assert (N : forall x, In x (executions evs) -> x_symbols x <> None).
    { intros x X H. apply not_true_iff_false in E. apply E. apply existsb_exists. exists x. split; [exact X|]. unfold is_selector. now rewrite H. }
    split; [intros x X H; now destruct (N x X)|]. destruct (run_all evs) as ((_ & _ & U & _) & _ & _).
    intros i j x y lx ly s X Y Px Py Ix Iy. destruct Px as [Px|[Px _]]; [|now destruct (N x (nth_error_In _ _ X))].
    destruct Py as [Py|[Py _]]; [|now destruct (N y (nth_error_In _ _ Y))]. exact (U i j x y lx ly s X Y Px Py Ix Iy).
Qed.
Print Assumptions C85_window_accepts.

(** Intervals. The run compresses a symbol of the frame to an interval exactly when an
    accepted call declares the interval for it, a selector's for every symbol. So in a
    window, the context of a symbol with rows reaches the compressed bars of an
    interval exactly when its own call declared it, under any spelling; any other
    interval is a ValueError. *)
Theorem C85_intervals : forall evs blank valid frame pairs, build_interval_data blank valid (executions evs) frame = Ok pairs ->
  (forall s j, In (s, j) pairs <-> In s frame /\ exists a, In a (accepted evs) /\ declares_interval a j /\
     (a_symbols a = None \/ exists l, a_symbols a = Some l /\ In s l)) /\
  forall select loaded w, window_executions select loaded (executions evs) = Ok w ->
  forall a x s, runs evs w a x s -> In s frame -> forall i,
    (forall j, normal_form i j -> declares_interval a j -> ctx_interval x i = Ok j /\ In (s, j) pairs) /\
    ((forall j, normal_form i j -> ~ declares_interval a j) -> ctx_interval x i = Raise ValueError).
Proof.
  intros evs blank valid frame pairs B. destruct (run_all evs) as (_ & F & _). destruct (build_ok _ _ _ _ _ B) as [P _].
  assert (Q : forall s j, In (s, j) pairs <-> In s frame /\ exists a, In a (accepted evs) /\ declares_interval a j /\
     (a_symbols a = None \/ exists l, a_symbols a = Some l /\ In s l)).
  { intros s j. rewrite P. split; intros [I H]; (split; [easy|]).
    - destruct H as (x & X & J & K). destruct (Forall2_r _ _ _ _ F X) as (a & A & (E & _ & _ & T & _)). exists a. split; [easy|]. split; [now apply T|]. now rewrite <- E.
    - destruct H as (a & A & J & K). destruct (Forall2_l _ _ _ _ F A) as (x & X & (E & _ & _ & T & _)). exists x. split; [easy|]. split; [now apply T|]. now rewrite E. }
  split; [exact Q|]. intros select loaded w W a x s R I i. assert (A : In a (accepted evs)) by (destruct R as (k & l & A & _); eapply nth_error_In; eauto).
  destruct (runs_at _ _ _ _ W a x s R) as (x0 & l & _ & D & S0 & _ & _ & L & J). destruct (declared_window _ _ _ _ _ D S0) as (_ & _ & T & _). split.
  - intros j N Dj. split; [apply ctx_interval_ok; split; [easy|]; now apply T|]. apply Q. split; [easy|]. exists a. split; [easy|]. split; [easy|].
    destruct D as [E _]. rewrite <- E. destruct S0 as (_ & l' & L' & [K|(K & _)]); [right|now left]. exists l'. split; [easy|]. congruence.
  - intro H. apply ctx_interval_raise. intros j N Dj. apply (H j N). now apply T.
Qed.
Print Assumptions C85_intervals.

(** The run is refused, before anything is compressed, exactly when some call
    declares an interval and the timeframe is blank or does not allow the interval,
    whether or not its symbols have rows. *)
Theorem C85_interval_check : forall evs blank valid frame,
  (exists e, build_interval_data blank valid (executions evs) frame = Raise e) <->
  exists a j, In a (accepted evs) /\ declares_interval a j /\ (blank = true \/ valid j = false).
Proof.
  intros evs blank valid frame. destruct (run_all evs) as (_ & F & _). split.
  - intros [e E]. apply build_raise in E as (_ & x & j & X & J & K). destruct (Forall2_r _ _ _ _ F X) as (a & A & (_ & _ & _ & T & _)). exists a, j. split; [easy|]. split; [now apply T|easy].
  - intros (a & j & A & D & K). destruct (Forall2_l _ _ _ _ F A) as (x & X & (_ & _ & _ & T & _)).
    destruct (build_interval_data blank valid (executions evs) frame) as [pairs|e] eqn:E; [|eauto]. exfalso. destruct (build_ok _ _ _ _ _ E) as [_ V].
    destruct (V x j X (proj2 (T j) D)). destruct K; congruence.
Qed.
Print Assumptions C85_interval_check.

(** Indicators. Those computed for a symbol are exactly the ones its call wants: its
    own variants, and the registered indicators of its models, each on the timeframe
    of the model's variant. Naming them never fails. Every one on an interval has its
    compressed bars. *)
Theorem C85_indicators : forall evs select loaded w, window_executions select loaded (executions evs) = Ok w ->
  exists l, indicator_syms (registry evs) w = Ok l /\
  (forall n s, In (n, s) l <-> exists a x, runs evs w a x s /\ wants (registry evs) a n) /\
  forall blank valid frame pairs, build_interval_data blank valid (executions evs) frame = Ok pairs -> plain_indicators (registry evs) ->
    forall n s b j, In (n, s) l -> In s frame -> parse_interval_name n = (b, Some j) -> In (s, j) pairs.
Proof.
  intros evs select loaded w W. destruct (indicator_syms_ok _ _ _ _ W) as (l & L & H). exists l. split; [easy|]. split; [exact H|].
  intros blank valid frame pairs B P n s b j I J Q. apply H in I as (a & x & R & U).
  assert (D : declares_interval a j).
  { destruct (runs_at _ _ _ _ W a x s R) as (x0 & sl & _ & _ & _ & (_ & K2 & _) & _). right. destruct U as [(i & t & D & V)|(m & t & r & ind & D & Rg & Ind & V)].
    - right. destruct (K2 i t D) as [r Rg]. rewrite (variant_parses (i_name i) t n) in Q; [|exact (proj2 (ind_plain evs _ _ Rg))|intros k ->; eapply declares_normal_ind; eauto|easy].
      injection Q as _ ->. eauto.
    - left. rewrite (variant_parses ind t n) in Q; [|eapply P; eauto|intros k ->; eapply declares_normal; eauto|easy]. injection Q as _ ->. eauto. }
  destruct (C85_intervals _ _ _ _ _ B) as [_ C]. destruct (C _ _ _ W a x s R J j) as [C1 _]. apply (C1 j); [|easy].
  destruct D as [(l0 & i & _ & _ & N)|[(m & D)|(i & D)]]; [eapply normal_form_idem; eauto|eapply declares_normal; eauto|eapply declares_normal_ind; eauto].
Qed.
Print Assumptions C85_indicators.

(** Models. Those trained on a window for a symbol with training rows are exactly the
    variants its call lists. *)
Theorem C85_models : forall evs select loaded w, window_executions select loaded (executions evs) = Ok w ->
  forall train n s, In (n, s) (model_syms w train) <->
    In s train /\ exists a x m t, runs evs w a x s /\ declares_model a m t /\ variant_name (s_name m) t n.
Proof. intros evs select loaded w W train n s. eapply model_syms_ok. exact W. Qed.
Print Assumptions C85_models.

(** Hyperparameters. They can be collected exactly when what the strategy uses is
    registered and no model has one among its arguments; overrides must be of
    reachable ones. A run then has a value for exactly the reachable ones: the
    override, else the registered default. So a context reads the ones attached to
    its execution, never missing one, any other is a ValueError; and no indicator
    that is computed lacks one. *)
Theorem C85_hyperparams : forall evs settings, plain_indicators (registry evs) ->
  ((exists specs, collect_hyperparams (registry evs) settings (executions evs) = Ok specs) <-> collectable evs settings) /\
  forall specs overrides, collect_hyperparams (registry evs) settings (executions evs) = Ok specs -> NoDup (map fst overrides) ->
  ((exists values, build_run specs overrides = Ok values) <-> forall n v, In (n, v) overrides -> reachable evs settings n) /\
  forall values, build_run specs overrides = Ok values ->
  (forall n v, registered n v values <-> reachable evs settings n /\
     (In (n, v) overrides \/ (~ In n (map fst overrides) /\ exists h, registered n h (g_hypers (registry evs)) /\ v = h_default h))) /\
  forall select loaded w, window_executions select loaded (executions evs) = Ok w ->
  (forall a x s, runs evs w a x s -> forall n,
     (declares_hyper a n -> exists v, registered n v values /\ ctx_hyperparam x values n = Ok v) /\
     (~ declares_hyper a n -> ctx_hyperparam x values n = Raise ValueError)) /\
  (forall l n s b t, indicator_syms (registry evs) w = Ok l -> In (n, s) l -> parse_interval_name n = (b, t) ->
     exists r, registered b r (g_inds (registry evs)) /\ forall h, In h (i_hypers r) -> exists v, registered h v values).
Proof.
  intros evs settings P. destruct (collect_ok evs P settings) as [C S0]. split; [exact C|]. intros specs overrides E N. specialize (S0 specs E).
  assert (Ca : collectable evs settings) by (apply C; eauto).
  assert (Sp : forall n, reachable evs settings n <-> exists h, registered n h specs).
  { intro n. split.
    - intro R. destruct (reachable_known evs settings n Ca R) as [h G]. apply registered_dec. apply (in_map fst specs (n, h)). now apply S0.
    - intros [h G]. apply registered_in in G. now apply S0 in G. }
  assert (Sd : forall n h, registered n h specs -> registered n h (g_hypers (registry evs))) by (intros n h G; apply registered_in in G; now apply S0 in G).
  split; [rewrite build_run_accepts; split; intros H n v I; [apply Sp|apply Sp]; eauto|].
  intros values B. assert (V := build_run_ok _ _ _ N B).
  assert (Ov : forall n v, In (n, v) overrides -> reachable evs settings n) by (intros n v I; apply Sp; eapply build_run_accepts; eauto).
  assert (Vr : forall n v, registered n v values <-> reachable evs settings n /\
     (In (n, v) overrides \/ (~ In n (map fst overrides) /\ exists h, registered n h (g_hypers (registry evs)) /\ v = h_default h))).
  { intros n v. rewrite V. split.
    - intros [I|(I & h & G & ->)]; [split; [eauto|now left]|]. split; [apply Sp; eauto|]. right. split; [easy|]. exists h. auto.
    - intros [R [I|(I & h & G & ->)]]; [now left|]. right. split; [easy|]. apply Sp in R as [h' G']. exists h'. split; [easy|].
      apply Sd in G'. now rewrite (registered_fun _ _ _ _ G G'). }
  assert (Ex : forall n, reachable evs settings n -> exists v, registered n v values).
  { intros n R. destruct (in_dec (list_eq_dec ascii_dec) n (map fst overrides)) as [I|I].
    - apply in_map_iff in I as ([n' v] & <- & I). exists v. apply V. now left.
    - apply Sp in R as [h G]. exists (h_default h). apply V. right. split; [easy|]. eauto. }
  split; [exact Vr|]. intros select loaded w W. split.
  - intros a x s R n. assert (A : In a (accepted evs)) by (destruct R as (k & l & A & _); eapply nth_error_In; eauto).
    destruct (runs_at _ _ _ _ W a x s R) as (x0 & l & _ & D & S1 & _). destruct (declared_window _ _ _ _ _ D S1) as (_ & _ & _ & H). unfold ctx_hyperparam. split.
    + intro I. rewrite (proj2 (str_in_iff n (x_hypers x)) (proj2 (H n) I)). destruct (Ex n) as [v G]; [right; eauto|]. exists v. split; [easy|].
      now rewrite (proj2 (sget_iff _ _ _) G).
    + intro I. destruct (str_in n (x_hypers x)) eqn:Q; [|easy]. apply str_in_iff in Q. exfalso. apply I. now apply H.
  - intros l n s b t L I Q. destruct (indicator_syms_ok _ _ _ _ W) as (l' & L' & H). assert (l' = l) as -> by congruence. apply H in I as (a & x & R & U).
    assert (A : In a (accepted evs)) by (destruct R as (k & sl & A & _); eapply nth_error_In; eauto).
    assert (Ub : uses (registry evs) a b).
    { destruct (runs_at _ _ _ _ W a x s R) as (x0 & sl & _ & _ & _ & (_ & K2 & _) & _). destruct U as [(i & t' & D & Vn)|(m & t' & r & ind & D & Rg & Ind & Vn)].
      - left. destruct (K2 i t' D) as [r Rg]. rewrite (variant_parses (i_name i) t' n) in Q; [|exact (proj2 (ind_plain evs _ _ Rg))|intros k ->; eapply declares_normal_ind; eauto|easy].
        injection Q as <- <-. eauto.
      - right. rewrite (variant_parses ind t' n) in Q; [|eapply P; eauto|intros k ->; eapply declares_normal; eauto|easy]. injection Q as <- <-. eauto 10. }
    destruct Ca as (_ & C2 & _). destruct (C2 a b A Ub) as (r & Rr & _). exists r. split; [easy|]. intros h Ih. apply Ex. right. exists a. split; [easy|]. right. eauto.
Qed.
Print Assumptions C85_hyperparams.

(** A strategy whose first call binds a model to 'weekly' and the base, whose second
    call is rejected for its symbol, and whose third has a selector and an indicator
    on 5 bars. *)
Definition ex_n : hyper := mk_hyper 1 (lit "n") 20.
Definition ex_sma : indicator := mk_ind 2 (lit "sma") [lit "n"].
Definition ex_rsi : indicator := mk_ind 3 (lit "rsi") [].
Definition ex_model : source := mk_source 4 (lit "lr") true [lit "sma"] [].
Definition ex_evs : list event :=
  [RegHyper ex_n; RegInd ex_sma; RegInd ex_rsi; RegSource ex_model; RegInd (mk_ind 9 (lit "a@weekly") []);
   Add (mk_request (Some [1; 2]) [Bound ex_model [Named (lit "weekly"); Named (lit "base")]] [] [Some ex_n] None true);
   Add (mk_request (Some [2; 3]) [] [] [] None true);
   Add (mk_request None [] [Bound ex_rsi [Every 5]] [] (Some [Named (lit "01H")]) true)].
Definition ex_select (id : nat) : option (list nat) := Some [3].
Example C85_example :
  length (accepted ex_evs) = 2 /\ plain_indicators (registry ex_evs) /\
  map x_models (executions ex_evs) = [[lit "lr"; lit "lr@weekly"]; []] /\
  build_interval_data false (fun _ => true) (executions ex_evs) [1; 3] =
    Ok [(1, Named (lit "weekly")); (1, Named (lit "1h")); (1, Every 5); (3, Named (lit "1h")); (3, Every 5)] /\
  exists w, window_executions ex_select [1; 3] (executions ex_evs) = Ok w /\
    indicator_syms (registry ex_evs) w = Ok [(lit "sma", 1); (lit "sma@weekly", 1); (lit "sma", 2); (lit "sma@weekly", 2); (lit "rsi@5", 3)] /\
    model_syms w [1; 3] = [(lit "lr", 1); (lit "lr@weekly", 1)] /\
    (exists a x, runs ex_evs w a x 3 /\ ctx_interval x (Named (lit "1h")) = Ok (Named (lit "1h")) /\ ctx_interval x (Named (lit "weekly")) = Raise ValueError) /\
    exists specs, collect_hyperparams (registry ex_evs) [] (executions ex_evs) = Ok specs /\ build_run specs [(lit "n", 30%Z)] = Ok ((lit "n", 30%Z) :: map (fun s => (fst s, h_default (snd s))) specs).
Proof.
  split; [comp|]. split.
  { intros n r ind R I. assert (registry ex_evs = mk_scope [(lit "rsi", ex_rsi); (lit "sma", ex_sma)] [(lit "lr", ex_model)] [(lit "n", ex_n)]) as Q by comp.
    rewrite Q in R. apply registered_in in R as [[= <- <-]|[]]. destruct I as [<-|[]]. intro J. repeat (destruct J as [J|J]; [discriminate|]). easy. }
  split; [comp|]. split; [comp|]. eexists. split; [comp|]. split; [comp|]. split; [comp|]. split.
  - eexists. eexists. split; [exists 1; eexists; split; [comp|]; split; [comp|]; split; [comp|]; now left|]. split; comp.
  - eexists. split; comp.
Qed.
