(** What C68 says: the value of an indicator alone, and the histories it is about. *)
From Coq Require Import List Bool Arith ZArith QArith.
From Verif Require Export IndicatorModel HyperSpec.
Import ListNotations.
Open Scope nat_scope.

(** The bars an indicator name refers to for a symbol: the symbol's own arrays, or
    for an interval its compressed bars. *)
Definition source (parse : nat -> nat * option nat) (w : world) (k : ind_sym) (bars : bar_data) : Prop :=
  In (snd k) (map fst (w_store w)) /\
  match snd (parse (fst k)) with
  | None => exists dates cols, dict_get (w_store w) (snd k) = Some (dates, cols) /\
      bars = mk_bars dates (map (fun c => (c, dict_get cols c)) (w_default w)) (map (fun c => (c, dict_get cols c)) (w_custom w))
  | Some token => exists before after, w_intervals w = before ++ (snd k, token, bars) :: after /\
      forall b, ~ In (snd k, token, b) before
  end.
(** The arguments an indicator is called with. *)
Definition arguments (ind : indicator) (hyperparams : option params) (args : params) : Prop :=
  Forall2 (fun declared given => fst given = fst declared /\
    match snd declared with
    | KVal v => snd given = v
    | KHyper h => match hyperparams with Some p => dict_get p (h_name h) = Some (snd given) | None => snd given = h_default h end
    end) (i_kwargs ind) args.
(** [s] is what the indicator gives when it is called by itself on those bars. *)
Definition alone (parse : nat -> nat * option nat) (w : world) (hyperparams : option params) (k : ind_sym) (s : series) : Prop :=
  exists ind bars args values,
    dict_get (w_registry w) (fst (parse (fst k))) = Some ind /\ source parse w k bars /\ arguments ind hyperparams args /\
    i_fn ind bars args = Ok (1, values) /\ length values = length (bd_date bars) /\ s = combine (bd_date bars) values.

(** An accepted [w]: arguments of one indicator that declare the same name declare
    the same hyperparameter, and defaults are numbers. *)
Definition declared_once (w : world) : Prop :=
  forall base ind, In (base, ind) (w_registry w) ->
    (forall key h key' h', In (key, KHyper h) (i_kwargs ind) -> In (key', KHyper h') (i_kwargs ind) -> h_name h = h_name h' -> h = h') /\
    (forall key h, In (key, KHyper h) (i_kwargs ind) -> same_type (h_default h) (h_default h)).
(** The values given have the declared types. *)
Definition typed (w : world) (c : call) : Prop :=
  forall p base ind key h v, c_hyperparams c = Some p -> In (base, ind) (w_registry w) -> In (key, KHyper h) (i_kwargs ind) ->
    dict_get p (h_name h) = Some v -> same_type v (h_default h).
(** Every schedule covers the tasks. *)
Definition scheduled (c : call) : Prop := forall order, c_schedule c = Some order -> forall n, complete n (order n).

(** The calls of a history, with their data. *)
Definition calls_of (e : event) : list (world * call) :=
  match e with Plain w c => [(w, c)] | Optimize _ w calls => map (fun c => (w, c)) calls end.
Definition accepted (e : event) : Prop :=
  Forall (fun x => declared_once (fst x) /\ typed (fst x) (snd x) /\ scheduled (snd x) /\ c_syms (snd x) <> [] /\ w_store (fst x) <> []) (calls_of e).
(** [w] and [w'] have the same indicator and the same bars for [k]. *)
Definition same_source (parse : nat -> nat * option nat) (w w' : world) (k : ind_sym) : Prop :=
  dict_get (w_registry w) (fst (parse (fst k))) = dict_get (w_registry w') (fst (parse (fst k))) /\
  forall bars, source parse w k bars <-> source parse w' k bars.
(** Calls that use the disk cache with the same dates, timeframe, times and days
    have the same indicators and bars, for what they both ask for. *)
Definition steady (parse : nat -> nat * option nat) (history : list (world * call)) : Prop :=
  forall w c w' c' f k, In (w, c) history -> In (w', c') history ->
    c_enabled c = true -> c_enabled c' = true -> c_fields c = Some f -> c_fields c' = Some f ->
    In k (c_syms c) -> In k (c_syms c') -> same_source parse w w' k.

(** The outcome of one call: exactly what was asked for, each as it is alone; and
    it raises only when something asked for has no value. *)
Definition right (parse : nat -> nat * option nat) (w : world) (c : call) (out : res data_dict) : Prop :=
  match out with
  | Ok d => NoDup (map fst d) /\ (forall k, In k (map fst d) <-> In k (c_syms c)) /\
            forall k s, In (k, s) d -> alone parse w (c_hyperparams c) k s
  | Raise _ => exists k, In k (c_syms c) /\ forall s, ~ alone parse w (c_hyperparams c) k s
  end.
(** The outcomes of a list of calls, up to the first that raises. *)
Fixpoint all_right (parse : nat -> nat * option nat) (calls : list (world * call)) (outs : list (res data_dict)) : Prop :=
  match calls, outs with
  | [], [] => True
  | (w, c) :: r, o :: t => right parse w c o /\ match o with Ok _ => all_right parse r t | Raise _ => t = [] end
  | _, _ => False
  end.
