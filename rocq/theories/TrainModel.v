(** Model of src/pybroker/model.py 650-660, 1873-1940, 1946-2344 and 2654-2866,
    cache.py 240-289 and strategy.py 3139-3184: the models of a training window,
    with the model cache, pooled groups and worker processes.

    Simplifications: names and symbols are numbers in the order of the strings; the
    frames a model is trained on (C59-C63) are functions of the window; the model
    cache is one dict that is never full; [train_fn] and [load_fn] give the same
    result for the same arguments, and their result with [_parse_model_result] is a
    pair of the model and the input columns. [parse] is
    [parse_model_interval_name], [iparse] is [parse_indicator_interval_name]. *)
From Coq Require Import List Bool Arith ZArith QArith.
From Verif Require Export IndSetModel.
Import ListNotations.
Open Scope nat_scope.

(** A [ModelInput]: rows of the frame, and the columns its lags are made of. *)
Record input := mk_input { in_rows : list (Z * list (option Q)); in_lag_cols : option (list nat) }.
Section Train.
Context {M : Type} (picklable : M -> bool) (parse iparse : nat -> nat * option nat).

(** 1154-1210, 1296-1430: a model source. [train] is given one symbol, or the
    sorted symbols of the pooled group. [l_lags]: [lag_cols] of a loader with
    [lags]. *)
Inductive kind :=
| Trainer (pooled : bool) (train : list nat -> input -> input -> res (M * option (list nat)))
| Loader (l_lags : option (list nat)) (load : nat -> Z -> Z -> res (M * option (list nat))).
Record source := mk_source { s_kind : kind; s_inds : list nat; s_predict : nat; s_per_bar : bool }.
(** A [TrainedModel]; and a [CachedModel]. *)
Record trained := mk_trained { tm_name : nat; tm_model : M; tm_cols : option (list nat); tm_lags : option (list nat); tm_predict : nat; tm_per_bar : bool }.
Record cached := mk_cached { cm_model : M; cm_cols : option (list nat); cm_lags : option (list nat) }.
(** The window: registered sources; registered indicators, with whether they have
    hyperparameters; first and last training date; the training and test frames of
    a model: by pooled or not, name and symbols; for an interval model also by
    [lookahead]; [None]: no interval data. *)
Record window := mk_window {
  w_sources : list (nat * source);
  w_hyper : list (nat * bool);
  w_dates : Z * Z;
  w_base : bool -> nat -> list nat -> res (input * input);
  w_compressed : option (bool -> nat -> list nat -> nat -> res (input * input)) }.

(** cache.py 240-289: [ModelCacheKey]. *)
Record model_key := mk_model_key { mk_symbol : nat; mk_seconds : nat; mk_start : Z; mk_end : Z; mk_between : option (nat * nat);
                                   mk_days : option (list nat); mk_name : nat; mk_pooled : option (list nat); mk_lookahead : option nat }.
Definition model_key_eqb (a b : model_key) : bool :=
  ind_key_eqb (mk_ind_key (mk_symbol a) (mk_seconds a) (mk_start a) (mk_end a) (mk_between a) (mk_days a) (mk_name a))
              (mk_ind_key (mk_symbol b) (mk_seconds b) (mk_start b) (mk_end b) (mk_between b) (mk_days b) (mk_name b)) &&
  (match mk_pooled a, mk_pooled b with None, None => true | Some x, Some y => if list_eq_dec Nat.eq_dec x y then true else false | _, _ => false end) &&
  (match mk_lookahead a, mk_lookahead b with None, None => true | Some x, Some y => x =? y | _, _ => false end).
(** model.py 650-660: [_model_cache_lookahead]. *)
Definition cache_lookahead (name lookahead : nat) : option nat :=
  match snd (parse name) with None => None | Some _ => Some lookahead end.
Definition model_key_of (symbol name : nat) (f : date_fields) (pooled : option (list nat)) (lookahead : nat) : model_key :=
  mk_model_key symbol (cf_seconds f) (cf_start f) (cf_end f) (cf_between f) (cf_days f) name
               (match pooled with None => None | Some l => Some (sort_nats l) end) (cache_lookahead name lookahead).
Definition model_cache := list (model_key * cached).
Fixpoint cache_get (m : model_cache) (k : model_key) : option cached :=
  match m with [] => None | (k', c) :: r => if model_key_eqb k k' then Some c else cache_get r k end.
Fixpoint cache_put (m : model_cache) (k : model_key) (c : cached) : model_cache :=
  match m with [] => [(k, c)] | (k', c') :: r => if model_key_eqb k k' then (k', c) :: r else (k', c') :: cache_put r k c end.

(** (model name, symbol), and a dict by them. *)
Definition models := list (ind_sym * trained).
Fixpoint models_set (d : models) (k : ind_sym) (t : trained) : models :=
  match d with [] => [(k, t)] | (k', t') :: r => if ind_sym_eqb k k' then (k, t) :: r else (k', t') :: models_set r k t end.
Definition has_sym (l : list ind_sym) (k : ind_sym) : bool := existsb (ind_sym_eqb k) l.
(** scope.py: [get_model_source]. *)
Definition get_source (w : window) (base : nat) : res source :=
  match dict_get (w_sources w) base with Some s => Ok s | None => Raise ValueErr end.
(** 2711-2741: [_uses_hyperparams]. *)
Definition uses_hyperparams (w : window) (name : nat) : bool :=
  match dict_get (w_sources w) (fst (parse name)) with
  | None => false
  | Some s => existsb (fun i => match dict_get (w_hyper w) (fst (iparse i)) with Some b => b | None => false end) (s_inds s)
  end.
(** ((model name, execution id), symbols). *)
Definition groups := list (nat * nat * list nat).
Definition group_syms (g : nat * nat * list nat) : list ind_sym := map (fun s => (fst (fst g), s)) (snd g).

Definition from_cached (w : window) (name : nat) (c : cached) : res trained :=
  bind (get_source w (fst (parse name))) (fun s => Ok (mk_trained name (cm_model c) (cm_cols c) (cm_lags c) (s_predict s) (s_per_bar s))).
(** 2654-2709: [_load_pooled_group_cache]. *)
Fixpoint group_hits (st : model_cache) (name : nat) (group : list nat) (f : date_fields) (lookahead : nat) (syms : list nat) : option (list (nat * cached)) :=
  match syms with
  | [] => Some []
  | s :: r => match cache_get st (model_key_of s name f (Some group) lookahead) with
              | None => None
              | Some c => option_map (cons (s, c)) (group_hits st name group f lookahead r)
              end
  end.
Fixpoint load_group (w : window) (name : nat) (hits : list (nat * cached)) (found : models) : res models :=
  match hits with
  | [] => Ok found
  | (s, c) :: r => bind (from_cached w name c) (fun t => load_group w name r (models_set found (name, s) t))
  end.
(** 2766-2772: the group of a model and symbol: a later group wins. *)
Fixpoint group_of (gs : groups) (k : ind_sym) : option (list nat) :=
  match gs with
  | [] => None
  | g :: r => match group_of r k with Some l => Some l | None => if has_sym (group_syms g) k then Some (snd g) else None end
  end.
Definition same_group (a b : nat * list nat) : bool :=
  (fst a =? fst b) && if list_eq_dec Nat.eq_dec (sort_nats (snd a)) (sort_nats (snd b)) then true else false.
(** 2773-2825. *)
Fixpoint cached_loop (st : model_cache) (w : window) (f : date_fields) (gs : groups) (lookahead : nat) (syms : list ind_sym)
    (found : models) (missing : list ind_sym) (processed : list (nat * list nat)) : res (models * list ind_sym) :=
  match syms with
  | [] => Ok (found, missing)
  | k :: r =>
      match group_of gs k with
      | Some group =>
          if existsb (same_group (fst k, group)) processed then cached_loop st w f gs lookahead r found missing processed
          else match group_hits st (fst k) group f lookahead group with
               | Some hits => bind (load_group w (fst k) hits found) (fun found =>
                                cached_loop st w f gs lookahead r found missing ((fst k, group) :: processed))
               | None => cached_loop st w f gs lookahead r found (missing ++ [k]) ((fst k, group) :: processed)
               end
      | None =>
          match cache_get st (model_key_of (snd k) (fst k) f None lookahead) with
          | Some c => bind (from_cached w (fst k) c) (fun t => cached_loop st w f gs lookahead r (models_set found k t) missing processed)
          | None => cached_loop st w f gs lookahead r found (missing ++ [k]) processed
          end
      end
  end.
(** 2743-2827: [_get_cached_models]. [enabled]: a model cache is set. *)
Definition get_cached_models (st : model_cache) (w : window) (enabled : bool) (f : date_fields) (gs : groups) (lookahead : nat) (syms : list ind_sym)
  : res (models * list ind_sym) :=
  let syms := sort_syms syms in
  if negb enabled then Ok ([], syms)
  else
    let hyper := filter (fun k => uses_hyperparams w (fst k)) syms in
    bind (cached_loop st w f gs lookahead (filter (fun k => negb (uses_hyperparams w (fst k))) syms) [] [] []) (fun '(found, missing) =>
      Ok (found, match hyper with [] => missing | _ => sort_syms (missing ++ hyper) end)).
(** 2829-2866: [_set_cached_model]. *)
Definition set_cached_model (st : model_cache) (w : window) (enabled : bool) (c : cached) (k : ind_sym) (f : date_fields) (pooled : option (list nat)) (lookahead : nat)
  : model_cache :=
  if negb enabled then st
  else if uses_hyperparams w (fst k) then st
  else if picklable (cm_model c) then cache_put st (model_key_of (snd k) (fst k) f pooled lookahead) c else st.

(** A [_TrainerTask]. *)
Record task := mk_task { tk_pooled : option (list nat); tk_source : source; tk_name : nat; tk_symbol : nat; tk_train : input; tk_test : input }.
(** The frames of a model: 2063-2093 and 2123-2182. *)
Definition frames (w : window) (pooled : bool) (name : nat) (syms : list nat) (lookahead : nat) : res (input * input) :=
  match snd (parse name) with
  | Some _ => match w_compressed w with None => Raise ValueErr | Some get => get pooled name syms lookahead end
  | None => w_base w pooled name syms
  end.
(** 2043-2106: the tasks of the pooled groups, and what they cover. *)
Fixpoint pooled_tasks (w : window) (gs : groups) (found : models) (missing : list ind_sym) (lookahead : nat) : res (list task * list ind_sym) :=
  match gs with
  | [] => Ok ([], [])
  | g :: r =>
      let syms := group_syms g in
      if forallb (has_sym (map fst found)) syms then pooled_tasks w r found missing lookahead
      else if negb (existsb (has_sym missing) syms) then pooled_tasks w r found missing lookahead
      else
        let name := fst (fst g) in
        bind (get_source w (fst (parse name))) (fun s =>
          match s_kind s with
          | Trainer true _ =>
              bind (frames w true name (sort_nats (snd g)) lookahead) (fun '(tr, te) =>
              bind (pooled_tasks w r found missing lookahead) (fun '(tasks, covered) =>
                Ok (mk_task (Some (snd g)) s name 0 tr te :: tasks, syms ++ covered)))
          | _ => Raise TypeErr
          end)
  end.
(** 2108-2205: the tasks of single symbols, and the loaders. *)
Fixpoint symbol_tasks (w : window) (found : models) (covered : list ind_sym) (lookahead : nat) (missing : list ind_sym) : res (list task * list (source * ind_sym)) :=
  match missing with
  | [] => Ok ([], [])
  | k :: r =>
      if has_sym (map fst found) k || has_sym covered k then symbol_tasks w found covered lookahead r
      else
        bind (get_source w (fst (parse (fst k)))) (fun s =>
          match s_kind s, snd (parse (fst k)) with
          | Loader _ _, Some _ => Raise ValueErr
          | Loader _ _, None => bind (symbol_tasks w found covered lookahead r) (fun '(tasks, loaders) => Ok (tasks, (s, k) :: loaders))
          | Trainer true _, None => symbol_tasks w found covered lookahead r
          | Trainer _ _, _ =>
              bind (frames w false (fst k) [snd k] lookahead) (fun '(tr, te) =>
              bind (symbol_tasks w found covered lookahead r) (fun '(tasks, loaders) =>
                Ok (mk_task None s (fst k) (snd k) tr te :: tasks, loaders)))
          end)
  end.
(** 1873-1940: [_run_trainer_task]. *)
Definition run_task (t : task) : res (task * (M * option (list nat))) :=
  match s_kind (tk_source t) with
  | Trainer _ train =>
      bind (train (match tk_pooled t with Some l => sort_nats l | None => [tk_symbol t] end) (tk_train t) (tk_test t)) (fun r => Ok (t, r))
  | Loader _ _ => Raise TypeErr
  end.
(** 2330-2344: [_run_model_trainers]. [schedule]: [None] without workers. *)
Definition run_trainers (schedule : option (nat -> list nat)) (tasks : list task) : res (list (task * (M * option (list nat)))) :=
  match schedule with
  | Some order => if 1 <? length tasks then in_pool run_task (order (length tasks)) tasks else in_turn run_task tasks
  | None => in_turn run_task tasks
  end.
(** 2210-2267: the results of the trainers. *)
Definition store_one (w : window) (enabled : bool) (f : date_fields) (lookahead : nat) (t : task) (c : cached) (pooled : option (list nat))
    (x : model_cache * models) (sym : nat) : model_cache * models :=
  (set_cached_model (fst x) w enabled c (tk_name t, sym) f pooled lookahead,
   models_set (snd x) (tk_name t, sym) (mk_trained (tk_name t) (cm_model c) (cm_cols c) (cm_lags c) (s_predict (tk_source t)) (s_per_bar (tk_source t)))).
Definition store_results (w : window) (enabled : bool) (f : date_fields) (lookahead : nat) (results : list (task * (M * option (list nat))))
    (x : model_cache * models) : model_cache * models :=
  fold_left (fun x '(t, (m, cols)) =>
    let c := mk_cached m cols (in_lag_cols (tk_train t)) in
    match tk_pooled t with
    | Some syms => fold_left (store_one w enabled f lookahead t c (Some syms)) syms x
    | None => store_one w enabled f lookahead t c None x (tk_symbol t)
    end) results x.
(** 2268-2303: the loaders. *)
Fixpoint run_loaders (w : window) (enabled : bool) (f : date_fields) (lookahead : nat) (loaders : list (source * ind_sym)) (st : model_cache) (found : models)
  : model_cache * res models :=
  match loaders with
  | [] => (st, Ok found)
  | (s, k) :: r =>
      match s_kind s with
      | Trainer _ _ => (st, Raise TypeErr)
      | Loader lags load =>
          match load (snd k) (fst (w_dates w)) (snd (w_dates w)) with
          | Raise e => (st, Raise e)
          | Ok (m, cols) =>
              let c := mk_cached m cols lags in
              run_loaders w enabled f lookahead r (set_cached_model st w enabled c k f None lookahead)
                          (models_set found k (mk_trained (fst k) m cols lags (s_predict s) (s_per_bar s)))
          end
      end
  end.
(** 2306-2318: [_has_uncached_pooled_groups]. *)
Definition uncached_groups (syms : list ind_sym) (found : models) (gs : groups) : bool :=
  existsb (fun g => existsb (fun k => has_sym syms k && negb (has_sym (map fst found) k)) (group_syms g)) gs.
(** 1946-2305: [train_models], on a window that has training data. *)
Definition train_models (st : model_cache) (w : window) (enabled : bool) (f : date_fields) (gs : groups) (lookahead : nat) (schedule : option (nat -> list nat))
    (syms : list ind_sym) : model_cache * res models :=
  match syms with
  | [] => (st, Ok [])
  | _ =>
      match get_cached_models st w enabled f gs lookahead syms with
      | Raise e => (st, Raise e)
      | Ok (found, missing) =>
          if match missing with [] => negb (uncached_groups syms found gs) | _ => false end then (st, Ok found)
          else
            match bind (pooled_tasks w gs found missing lookahead) (fun '(ptasks, covered) =>
                  bind (symbol_tasks w found covered lookahead missing) (fun '(stasks, loaders) =>
                  bind (run_trainers schedule (ptasks ++ stasks)) (fun results => Ok (results, loaders)))) with
            | Raise e => (st, Raise e)
            | Ok (results, loaders) =>
                let '(st', found') := store_results w enabled f lookahead results (st, found) in
                run_loaders w enabled f lookahead loaders st' found'
            end
      end
  end.

(** ** strategy.py 3139-3184 *)
(** An execution: id, symbols, model names. *)
Record execution := mk_exec { e_id : nat; e_syms : list nat; e_models : list nat }.
Definition add_sym (l : list ind_sym) (k : ind_sym) : list ind_sym := if has_sym l k then l else l ++ [k].
(** 3141-3147: the set of model symbols. *)
Definition model_syms (executions : list execution) (train_symbols : list nat) : list ind_sym :=
  fold_left add_sym
    (flat_map (fun sym => flat_map (fun e => if existsb (Nat.eqb sym) (e_syms e) then map (fun m => (m, sym)) (e_models e) else []) executions) train_symbols) [].
(** 3148-3163: the pooled groups. *)
Fixpoint exec_groups (w : window) (id : nat) (syms : list nat) (names : list nat) : res groups :=
  match names with
  | [] => Ok []
  | n :: r => bind (get_source w (fst (parse n))) (fun s => bind (exec_groups w id syms r) (fun gs =>
      Ok (match s_kind s with Trainer true _ => (n, id, syms) :: gs | _ => gs end)))
  end.
Fixpoint pooled_groups (w : window) (train_symbols : list nat) (executions : list execution) : res groups :=
  match executions with
  | [] => Ok []
  | e :: r =>
      match filter (fun s => existsb (Nat.eqb s) train_symbols) (e_syms e) with
      | [] => pooled_groups w train_symbols r
      | syms => bind (exec_groups w (e_id e) syms (e_models e)) (fun gs => bind (pooled_groups w train_symbols r) (fun gs' => Ok (gs ++ gs')))
      end
  end.
(** The settings of a run that the window's models depend on. *)
Record settings := mk_settings { c_execs : list execution; c_trained : list nat; c_secs : nat; c_hours : option (nat * nat); c_weekdays : option (list nat);
                                 c_lookahead : nat; c_pool : option (nat -> list nat); c_cache : bool }.
Definition window_models (st : model_cache) (w : window) (c : settings) : model_cache * res models :=
  match pooled_groups w (c_trained c) (c_execs c) with
  | Raise e => (st, Raise e)
  | Ok gs =>
      train_models st w (c_cache c) (mk_fields (fst (w_dates w)) (snd (w_dates w)) (c_secs c) (c_hours c) (c_weekdays c)) gs (c_lookahead c) (c_pool c)
                   (model_syms (c_execs c) (c_trained c))
  end.
(** optimize.py 1264-1338: [_load_pretrained_models], the models of a window of an optimization. It is
    written out a second time, without worker processes (1320-1338). [_is_trainable_model_source]
    (394-395) holds of the [ModelTrainer]s. *)
Definition pretrained_models (st : model_cache) (w : window) (c : settings) : model_cache * res models :=
  if negb (existsb (fun e => match e_models e with [] => false | _ => true end) (c_execs c)) then (st, Ok [])   (* 1278-1279 *)
  else match c_trained c with
  | [] => (st, Ok [])                                                                                          (* 1284-1285 *)
  | _ =>
      match pooled_groups w (c_trained c) (c_execs c) with                                                     (* 1305-1318 *)
      | Raise e => (st, Raise e)
      | Ok gs => train_models st w (c_cache c) (mk_fields (fst (w_dates w)) (snd (w_dates w)) (c_secs c) (c_hours c) (c_weekdays c)) gs (c_lookahead c) None
                              (model_syms (c_execs c) (c_trained c))                                           (* 1297-1304, 1319-1338 *)
      end
  end.
(** A history of windows, of one run or many. *)
Fixpoint windows (st : model_cache) (l : list (window * settings)) : model_cache * list (res models) :=
  match l with
  | [] => (st, [])
  | (w, c) :: r => let '(st', o) := window_models st w c in let '(st'', os) := windows st' r in (st'', o :: os)
  end.
End Train.
Arguments Trainer {M}. Arguments Loader {M}.
