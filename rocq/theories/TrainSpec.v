(** What C70 says: the model of a symbol by itself, and the histories it is about. *)
From Coq Require Import List Bool Arith ZArith QArith Sorted.
From Verif Require Export IndicatorSpec TrainModel.
Import ListNotations.
Open Scope nat_scope.

Section Spec.
Context {M : Type} (parse iparse : nat -> nat * option nat).
(** A model is asked for on a symbol: some execution has both, and the symbol has
    training data. *)
Definition asked (c : settings) (k : ind_sym) : Prop :=
  exists e, In e (c_execs c) /\ In (fst k) (e_models e) /\ In (snd k) (e_syms e) /\ In (snd k) (c_trained c).
(** The symbols a pooled model is trained on together. *)
Definition pool_of (c : settings) (k : ind_sym) (group : list nat) : Prop :=
  StronglySorted lt group /\
  exists e, In e (c_execs c) /\ In (fst k) (e_models e) /\ In (snd k) (e_syms e) /\
            forall s, In s group <-> In s (e_syms e) /\ In s (c_trained c).
(** The frames a model is trained on. *)
Definition inputs (w : window) (pooled : bool) (name : nat) (syms : list nat) (lookahead : nat) (tr te : input) : Prop :=
  match snd (parse name) with
  | None => w_base (M := M) w pooled name syms = Ok (tr, te)
  | Some _ => exists get, w_compressed w = Some get /\ get pooled name syms lookahead = Ok (tr, te)
  end.
(** The model and its input columns and lag columns, as trained or loaded now. *)
Inductive fresh (w : window) (c : settings) (k : ind_sym) (src : source) : M -> option (list nat) -> option (list nat) -> Prop :=
| fresh_symbol train tr te m cols : s_kind src = Trainer false train ->
    inputs w false (fst k) [snd k] (c_lookahead c) tr te -> train [snd k] tr te = Ok (m, cols) -> fresh w c k src m cols (in_lag_cols tr)
| fresh_pooled train group tr te m cols : s_kind src = Trainer true train -> pool_of c k group ->
    inputs w true (fst k) group (c_lookahead c) tr te -> train group tr te = Ok (m, cols) -> fresh w c k src m cols (in_lag_cols tr)
| fresh_loaded lags load m cols : s_kind src = Loader lags load -> snd (parse (fst k)) = None ->
    load (snd k) (fst (w_dates w)) (snd (w_dates w)) = Ok (m, cols) -> fresh w c k src m cols lags.
Definition trained_now (w : window) (c : settings) (k : ind_sym) (t : trained) : Prop :=
  exists src m cols lags, dict_get (w_sources w) (fst (parse (fst k))) = Some src /\ fresh w c k src m cols lags /\
    t = mk_trained (fst k) m cols lags (s_predict src) (s_per_bar src).

(** Executions have different symbols (add_execution and _resolve_executions raise
    otherwise); symbols are sets; the schedule covers the tasks. *)
Definition accepted_run (c : settings) : Prop :=
  (forall e e' s, In e (c_execs c) -> In e' (c_execs c) -> In s (e_syms e) -> In s (e_syms e') -> e = e') /\
  (forall e, In e (c_execs c) -> NoDup (e_syms e)) /\
  (forall order, c_pool c = Some order -> forall n, complete n (order n)).
(** One of the model's indicators has hyperparameters. *)
Definition tuned (w : window) (name : nat) : Prop :=
  exists src i, dict_get (w_sources (M := M) w) (fst (parse name)) = Some src /\ In i (s_inds src) /\ dict_get (w_hyper w) (fst (iparse i)) = Some true.
(** [w] and [w'] have the same source and the same frames for [name]. *)
Definition same_training (w w' : window) (name : nat) : Prop :=
  dict_get (w_sources (M := M) w) (fst (parse name)) = dict_get (w_sources w') (fst (parse name)) /\
  forall pooled syms lookahead tr te, inputs w pooled name syms lookahead tr te <-> inputs w' pooled name syms lookahead tr te.
(** Windows that use the cache with the same training dates, timeframe, times and
    days train the models without hyperparameters that they both ask for on the same
    frames. *)
Definition steady_training (history : list (window * settings)) : Prop :=
  forall w c w' c' k, In (w, c) history -> In (w', c') history -> c_cache c = true -> c_cache c' = true ->
    w_dates w = w_dates w' -> c_secs c = c_secs c' -> c_hours c = c_hours c' -> c_weekdays c = c_weekdays c' ->
    asked c k -> asked c' k -> ~ tuned w (fst k) -> ~ tuned w' (fst k) -> same_training w w' (fst k).
(** Exactly the models asked for, each as it is trained now; it raises only when
    one of them cannot be trained. *)
Definition right_models (w : window) (c : settings) (out : res (models (M := M))) : Prop :=
  match out with
  | Ok d => NoDup (map fst d) /\ (forall k, In k (map fst d) <-> asked c k) /\ forall k t, In (k, t) d -> trained_now w c k t
  | Raise _ => exists k, asked c k /\ forall t, ~ trained_now w c k t
  end.
End Spec.
