(** Model of src/pybroker/indicator.py 99-201 and 232-629 and cache.py 156-237:
    calling an indicator, and computing the indicators of a run with the disk
    cache and with the memo of [optimize], sequentially or with worker processes.

    Simplifications: names are numbers, in the order of the strings; the disk cache
    is one dict (its two levels are C50), it is never full and nothing expires;
    a [pd.Series] is the list of its (index, value) pairs and is not changed by
    those it is handed to; an indicator function gives the same values for the same
    arguments. [parse] is [parse_indicator_interval_name] (C37): base name and
    interval. *)
From Coq Require Import List Bool Arith ZArith QArith.
From Verif Require Export HyperModel.
Import ListNotations.
Open Scope nat_scope.

(** The [BarData] given to an indicator function. *)
Record bar_data := mk_bars { bd_date : list Z; bd_default : list (nat * option (list Q)); bd_custom : list (nat * option (list Q)) }.
Definition series := list (Z * option Q).
(** 99-114: [Indicator]: keyword arguments and the function; it gives an array:
    number of dimensions and values, or raises. *)
Record indicator := mk_indicator { i_kwargs : list (nat * kwarg pynum); i_fn : bar_data -> params -> res (nat * list (option Q)) }.

(** [self._kwargs] without hyperparameters. *)
Definition plain_kwargs (l : list (nat * kwarg pynum)) : params :=
  flat_map (fun '(key, k) => match k with KVal v => [(key, v)] | KHyper _ => [] end) l.
(** [pd.Series(values, index=dates)]: raises when the lengths differ. *)
Definition to_series (dates : list Z) (values : list (option Q)) : res series :=
  if length values =? length dates then Ok (combine dates values) else Raise ValueErr.
(** 173-201: [Indicator.__call__]. *)
Definition call_indicator (ind : indicator) (data : bar_data) (hyperparams : option params) : res series :=
  bind (match hyperparam_names (i_kwargs ind) with
        | [] => i_fn ind data (plain_kwargs (i_kwargs ind))
        | _ => bind (match hyperparams with
                     | Some p => Ok p
                     | None => build_run h_default (hyperparam_specs (i_kwargs ind)) []
                     end) (fun effective =>
               bind (resolve_hyperparams (i_kwargs ind) effective) (fun resolved => i_fn ind data resolved))
        end) (fun '(dims, values) =>
  if dims =? 1 then to_series (bd_date data) values else Raise ValueErr).

(** The data of a run: the arrays of each symbol (a [SymbolArrayStore]: dates, and
    columns by name), the compressed bars of each symbol and interval; and the
    static scope: registered indicators, default and custom columns. *)
Record world := mk_world {
  w_store : list (nat * (list Z * list (nat * list Q)));
  w_intervals : list (nat * nat * bar_data);
  w_registry : list (nat * indicator);
  w_default : list nat;
  w_custom : list nat }.
(** (indicator name, symbol). *)
Definition ind_sym := (nat * nat)%type.
Definition ind_sym_eqb (a b : ind_sym) : bool := (fst a =? fst b) && (snd a =? snd b).
Definition ind_sym_leb (a b : ind_sym) : bool := (fst a <? fst b) || ((fst a =? fst b) && (snd a <=? snd b)).
Fixpoint insert_sym (x : ind_sym) (l : list ind_sym) : list ind_sym :=
  match l with [] => [x] | y :: r => if ind_sym_leb x y then x :: l else y :: insert_sym x r end.
Fixpoint sort_syms (l : list ind_sym) : list ind_sym := match l with [] => [] | x :: r => insert_sym x (sort_syms r) end.
(** [indicator_data[ind_sym] = series]. *)
Definition data_dict := list (ind_sym * series).
Fixpoint data_set (d : data_dict) (k : ind_sym) (s : series) : data_dict :=
  match d with [] => [(k, s)] | (k', s') :: r => if ind_sym_eqb k k' then (k, s) :: r else (k', s') :: data_set r k s end.

(** cache.py 156-174: [CacheDateFields]. *)
Record date_fields := mk_fields { cf_start : Z; cf_end : Z; cf_seconds : nat; cf_between : option (nat * nat); cf_days : option (list nat) }.
(** cache.py 209-237: [IndicatorCacheKey]. *)
Record ind_key := mk_ind_key { ik_symbol : nat; ik_seconds : nat; ik_start : Z; ik_end : Z; ik_between : option (nat * nat);
                               ik_days : option (list nat); ik_name : nat }.
Definition from_date_fields (symbol ind_name : nat) (f : date_fields) : ind_key :=
  mk_ind_key symbol (cf_seconds f) (cf_start f) (cf_end f) (cf_between f) (cf_days f) ind_name.
Definition ind_key_eqb (a b : ind_key) : bool :=
  (ik_symbol a =? ik_symbol b) && (ik_seconds a =? ik_seconds b) && (ik_start a =? ik_start b)%Z && (ik_end a =? ik_end b)%Z &&
  (match ik_between a, ik_between b with None, None => true | Some x, Some y => (fst x =? fst y) && (snd x =? snd y) | _, _ => false end) &&
  (match ik_days a, ik_days b with None, None => true | Some x, Some y => if list_eq_dec Nat.eq_dec x y then true else false | _, _ => false end) &&
  (ik_name a =? ik_name b).

(** The key of the memo: indicator name, symbol, sorted hyperparameter values. *)
Definition memo_key := (nat * nat * params)%type.
Section Compute.
Context (scale : nat) (parse : nat -> nat * option nat).
(** Python's [==] on values: 2 == 2.0. *)
Definition py_eqb (a b : pynum) : bool := (units scale a =? units scale b)%Z.
Fixpoint values_eqb (a b : params) : bool :=
  match a, b with
  | [], [] => true
  | (n, v) :: r, (m, w) :: t => (n =? m) && py_eqb v w && values_eqb r t
  | _, _ => false
  end.
Definition memo_key_eqb (a b : memo_key) : bool :=
  (fst (fst a) =? fst (fst b)) && (snd (fst a) =? snd (fst b)) && values_eqb (snd a) (snd b).
Definition memo := list (memo_key * series).
Fixpoint memo_get (m : memo) (k : memo_key) : option series :=
  match m with [] => None | (k', s) :: r => if memo_key_eqb k k' then Some s else memo_get r k end.
Fixpoint memo_put (m : memo) (k : memo_key) (s : series) : memo :=
  match m with [] => [(k, s)] | (k', s') :: r => if memo_key_eqb k k' then (k', s) :: r else (k', s') :: memo_put r k s end.
Definition disk := list (ind_key * series).
Fixpoint disk_get (m : disk) (k : ind_key) : option series :=
  match m with [] => None | (k', s) :: r => if ind_key_eqb k k' then Some s else disk_get r k end.
Fixpoint disk_put (m : disk) (k : ind_key) (s : series) : disk :=
  match m with [] => [(k, s)] | (k', s') :: r => if ind_key_eqb k k' then (k', s) :: r else (k', s') :: disk_put r k s end.

(** The object's memo and its bound, 0 outside [optimize]; and the disk cache. *)
Record state := mk_state { st_memo : memo; st_max : nat; st_disk : disk }.

(** scope.py 190-195: [get_indicator]. *)
Definition get_indicator (w : world) (base : nat) : res indicator :=
  match dict_get (w_registry w) base with Some i => Ok i | None => Raise ValueErr end.

(** [{n: hyperparams[n] for n in names}]. *)
Fixpoint subset (p : params) (names : list nat) : res params :=
  match names with
  | [] => Ok []
  | n :: r => match dict_get p n with None => Raise KeyErr | Some v => bind (subset p r) (fun d => Ok ((n, v) :: d)) end
  end.
(** 383-403: [_memo_key]. *)
Definition memo_key_of (w : world) (name symbol : nat) (hyperparams : option params) : res (option memo_key) :=
  bind (get_indicator w (fst (parse name))) (fun ind =>
    match hyperparam_names (i_kwargs ind) with
    | [] => Ok None
    | names => bind (match hyperparams with
                     | None => build_run h_default (hyperparam_specs (i_kwargs ind)) []
                     | Some p => subset p names
                     end) (fun sub => Ok (Some (name, symbol, sort_names sub)))
    end).
(** 405-415: [_get_memoized_indicator]. *)
Definition get_memoized (st : state) (w : world) (k : ind_sym) (hyperparams : option params) : res (option series) :=
  if st_max st =? 0 then Ok None
  else bind (memo_key_of w (fst k) (snd k) hyperparams) (fun key =>
         Ok (match key with None => None | Some key => memo_get (st_memo st) key end)).
(** 417-436: [_set_memoized_indicator]. *)
Definition set_memoized (st : state) (w : world) (k : ind_sym) (s : series) (hyperparams : option params) : res state :=
  if st_max st =? 0 then Ok st
  else bind (memo_key_of w (fst k) (snd k) hyperparams) (fun key =>
         Ok (match key with
             | None => st
             | Some key =>
                 let m := if st_max st <=? length (st_memo st) then tl (st_memo st) else st_memo st in
                 mk_state (memo_put m key s) (st_max st) (st_disk st)
             end)).

(** 521-551: [_get_cached_indicators]. [enabled]: an indicator cache is set. *)
Fixpoint get_cached_loop (st : state) (w : world) (f : date_fields) (syms : list ind_sym) (found : data_dict) (missing : list ind_sym)
  : res (data_dict * list ind_sym) :=
  match syms with
  | [] => Ok (found, missing)
  | k :: r =>
      bind (get_indicator w (fst (parse (fst k)))) (fun ind =>
        match hyperparam_names (i_kwargs ind) with
        | _ :: _ => get_cached_loop st w f r found (missing ++ [k])
        | [] => match disk_get (st_disk st) (from_date_fields (snd k) (fst k) f) with
                | Some s => get_cached_loop st w f r (data_set found k s) missing
                | None => get_cached_loop st w f r found (missing ++ [k])
                end
        end)
  end.
Definition get_cached (st : state) (w : world) (enabled : bool) (syms : list ind_sym) (f : option date_fields) : res (data_dict * list ind_sym) :=
  let syms := sort_syms syms in
  match f with
  | None => Ok ([], syms)
  | Some f => if enabled then get_cached_loop st w f syms [] [] else Ok ([], syms)
  end.
(** 553-574: [_set_cached_indicator]. *)
Definition set_cached (st : state) (w : world) (enabled : bool) (s : series) (k : ind_sym) (f : option date_fields) : res state :=
  match f with
  | None => Ok st
  | Some f =>
      if enabled then
        bind (get_indicator w (fst (parse (fst k)))) (fun ind =>
          Ok (match hyperparam_names (i_kwargs ind) with
              | _ :: _ => st
              | [] => mk_state (st_memo st) (st_max st) (disk_put (st_disk st) (from_date_fields (snd k) (fst k) f) s)
              end))
      else Ok st
  end.

(** 274-288: the compressed bars of one symbol; [None] when it has none. *)
Definition symbol_intervals (w : world) (sym : nat) : option (list (nat * nat * bar_data)) :=
  match filter (fun e => fst (fst e) =? sym) (w_intervals w) with [] => None | l => Some l end.
Fixpoint interval_get (l : list (nat * nat * bar_data)) (sym token : nat) : option bar_data :=
  match l with [] => None | (s, t, b) :: r => if (s =? sym) && (t =? token) then Some b else interval_get r sym token end.
(** scope.py 841-849: [sym_data_from_store], and 232-271: [_indicator_args]. *)
Definition indicator_args (w : world) (name sym : nat) (arrays : list Z * list (nat * list Q)) (intervals : option (list (nat * nat * bar_data)))
  : res bar_data :=
  match snd (parse name) with
  | Some token =>
      match intervals with
      | None => Raise ValueErr
      | Some l => match interval_get l sym token with None => Raise ValueErr | Some b => Ok b end
      end
  | None => Ok (mk_bars (fst arrays) (map (fun c => (c, dict_get (snd arrays) c)) (w_default w))
                        (map (fun c => (c, dict_get (snd arrays) c)) (w_custom w)))
  end.
(** 291-346: [_run_indicators_for_symbol], with the function that
    [_decorate_indicator_fn] makes. *)
Fixpoint run_symbol (w : world) (hyperparams : option params) (sym : nat) (arrays : list Z * list (nat * list Q)) (names : list nat)
  : res (list (ind_sym * series)) :=
  match names with
  | [] => Ok []
  | name :: r =>
      bind (get_indicator w (fst (parse name))) (fun ind =>
      bind (indicator_args w name sym arrays (symbol_intervals w sym)) (fun data =>
      bind (call_indicator ind data hyperparams) (fun s =>
      bind (run_symbol w hyperparams sym arrays r) (fun rest => Ok (((name, sym), s) :: rest)))))
  end.
(** 592-594: [ind_names_by_sym]. *)
Fixpoint add_name (d : list (nat * list nat)) (sym name : nat) : list (nat * list nat) :=
  match d with [] => [(sym, [name])] | (s, l) :: r => if s =? sym then (s, l ++ [name]) :: r else (s, l) :: add_name r sym name end.
Definition names_by_sym (syms : list ind_sym) : list (nat * list nat) := fold_left (fun d k => add_name d (snd k) (fst k)) syms [].
(** 582-586: every function is looked up first. *)
Fixpoint check_names (w : world) (syms : list ind_sym) : res unit :=
  match syms with [] => Ok tt | k :: r => bind (get_indicator w (fst (parse (fst k)))) (fun _ => check_names w r) end.
(** 598-608: one symbol's task. *)
Definition task (w : world) (store : list (nat * (list Z * list (nat * list Q)))) (hyperparams : option params) (x : nat * list nat)
  : res (list (ind_sym * series)) :=
  match dict_get store (fst x) with None => Raise KeyErr | Some arrays => run_symbol w hyperparams (fst x) arrays (snd x) end.
Fixpoint in_turn {A B} (f : A -> res B) (l : list A) : res (list B) :=
  match l with [] => Ok [] | x :: r => bind (f x) (fun y => bind (in_turn f r) (fun t => Ok (y :: t))) end.
(** [parallel()]: the tasks are taken in the order of the schedule; the results
    come back in the order of the tasks, or the call raises. *)
Fixpoint put_slot {A} (l : list A) (i : nat) (x : A) : list A :=
  match l, i with [], _ => [] | _ :: r, O => x :: r | y :: r, S j => y :: put_slot r j x end.
Fixpoint pool_tasks {A B} (f : A -> res B) (tasks : list A) (order : list nat) (slots : list (option B)) : res (list (option B)) :=
  match order with
  | [] => Ok slots
  | i :: r => match nth_error tasks i with
              | None => pool_tasks f tasks r slots
              | Some x => bind (f x) (fun y => pool_tasks f tasks r (put_slot slots i (Some y)))
              end
  end.
Definition in_pool {A B} (f : A -> res B) (order : list nat) (tasks : list A) : res (list B) :=
  bind (pool_tasks f tasks order (map (fun _ => None) tasks)) (fun slots =>
    match all_slots slots with Some l => Ok l | None => Raise UserErr end).
(** 576-629: [_run_indicators]. [schedule]: [None] for [parallel_indicators=False]. *)
Definition run_indicators (w : world) (store : list (nat * (list Z * list (nat * list Q)))) (syms : list ind_sym)
    (schedule : option (nat -> list nat)) (hyperparams : option params) : res (list (ind_sym * series)) :=
  bind (check_names w syms) (fun _ =>
    let tasks := names_by_sym syms in
    bind (match schedule with
          | None => in_turn (task w store hyperparams) tasks
          | Some order => if length tasks =? 1 then in_turn (task w store hyperparams) tasks
                          else in_pool (task w store hyperparams) (order (length tasks)) tasks
          end) (fun batches => Ok (concat batches))).

(** 489-501: the memo hits. *)
Fixpoint memo_loop (st : state) (w : world) (hyperparams : option params) (syms : list ind_sym) (found : data_dict) (missing : list ind_sym)
  : res (data_dict * list ind_sym) :=
  match syms with
  | [] => Ok (found, missing)
  | k :: r => bind (get_memoized st w k hyperparams) (fun s =>
      match s with
      | Some s => memo_loop st w hyperparams r (data_set found k s) missing
      | None => memo_loop st w hyperparams r found (missing ++ [k])
      end)
  end.
(** 516-535: every result is stored. *)
Fixpoint store_loop (st : state) (w : world) (enabled : bool) (f : option date_fields) (hyperparams : option params)
    (results : list (ind_sym * series)) (found : data_dict) : state * res data_dict :=
  match results with
  | [] => (st, Ok found)
  | (k, s) :: r =>
      match set_memoized st w k s hyperparams with
      | Raise e => (st, Raise e)
      | Ok st1 =>
          match set_cached st1 w enabled s k f with
          | Raise e => (st1, Raise e)
          | Ok st2 => store_loop st2 w enabled f hyperparams r (data_set found k s)
          end
      end
  end.
(** The arguments of [compute_indicators] besides the data. *)
Record call := mk_call { c_syms : list ind_sym; c_fields : option date_fields; c_schedule : option (nat -> list nat);
                         c_prebuilt : bool; c_hyperparams : option params; c_enabled : bool }.
(** 438-536: [compute_indicators]. *)
Definition compute_indicators (st : state) (w : world) (c : call) : state * res data_dict :=
  match c_syms c, w_store w with
  | [], _ | _, [] => (st, Ok [])
  | _, _ =>
      match get_cached st w (c_enabled c) (c_syms c) (c_fields c) with
      | Raise e => (st, Raise e)
      | Ok (found, missing) =>
          match memo_loop st w (c_hyperparams c) missing found [] with
          | Raise e => (st, Raise e)
          | Ok (found, []) => (st, Ok found)
          | Ok (found, missing) =>
              let needed := map snd missing in
              let store := if c_prebuilt c then w_store w
                           else filter (fun x => existsb (Nat.eqb (fst x)) needed) (w_store w) in
              match run_indicators w store missing (c_schedule c) (c_hyperparams c) with
              | Raise e => (st, Raise e)
              | Ok results => store_loop st w (c_enabled c) (c_fields c) (c_hyperparams c) results found
              end
          end
      end
  end.

(** A history of one strategy object: calls outside [optimize] (strategy.py
    3392-3413), and calls of [optimize] (optimize.py 1659 and 1873-1880), which
    turns the memo on, computes indicators on one set of data until it is done or
    a call raises, and turns the memo off and empties it either way. *)
Inductive event := Plain (w : world) (c : call) | Optimize (max : nat) (w : world) (calls : list call).
Fixpoint optimize_calls (st : state) (w : world) (calls : list call) : state * list (res data_dict) :=
  match calls with
  | [] => (st, [])
  | c :: r => match compute_indicators st w c with
              | (st', Raise e) => (st', [Raise e])
              | (st', Ok d) => let '(st'', out) := optimize_calls st' w r in (st'', Ok d :: out)
              end
  end.
Definition step (st : state) (e : event) : state * list (res data_dict) :=
  match e with
  | Plain w c => let '(st', d) := compute_indicators st w c in (st', [d])
  | Optimize max w calls =>
      let '(st', out) := optimize_calls (mk_state (st_memo st) max (st_disk st)) w calls in
      (mk_state [] 0 (st_disk st'), out)
  end.
Fixpoint run (st : state) (events : list event) : state * list (list (res data_dict)) :=
  match events with
  | [] => (st, [])
  | e :: r => let '(st', o) := step st e in let '(st'', os) := run st' r in (st'', o :: os)
  end.
(** A new object; the disk cache may hold entries of earlier processes. *)
Definition start (d : disk) : state := mk_state [] 0 d.
End Compute.
