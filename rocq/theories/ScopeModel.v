(** Model of the reads of src/pybroker/scope.py: ColumnScope, IndicatorScope,
    the buffer of per-bar predictions, PredictionScope and PriceScope.

    Symbols and column names are numbers. The values of a column have an
    arbitrary type [A]; the conversions to [float] of a value read from a column
    are the identity. Prices are exact rationals, NaN is [None]. *)
From Verif Require Export TextModel.
From Verif Require PortfolioModel.
Open Scope list_scope.
Open Scope Z_scope.

(** The exceptions of the modelled functions. *)
Inductive err :=
  | SymbolNotFound | ValueNotFound | IndexError | KeyError | IntervalBound | IndicatorNotFound
  | NoInputData | ModelNotFound | BadPredictions | PredictRaised.
Inductive result (A : Type) := Ok (a : A) | Raise (e : err).
Arguments Ok {A} a.
Arguments Raise {A} e.
Definition bind {A B} (r : result A) (f : A -> result B) : result B :=
  match r with Ok a => f a | Raise e => Raise e end.

(** [d.get(k)] on a dict. *)
Fixpoint lookup {V} (k : nat) (d : list (nat * V)) : option V :=
  match d with [] => None | (k', v) :: r => if Nat.eqb k k' then Some v else lookup k r end.
(** [array[:end_index]]: no truncation when [None], from the back when negative. *)
Definition upto {A} (end_index : option Z) (l : list A) : list A :=
  match end_index with
  | None => l
  | Some e => if e <? 0 then firstn (length l - Z.to_nat (- e)) l else firstn (Z.to_nat e) l
  end.
(** [array[i]]: counts from the back when negative, [IndexError] outside. *)
Definition item {A} (l : list A) (i : Z) : result A :=
  let j := if i <? 0 then i + Z.of_nat (length l) else i in
  if j <? 0 then Raise IndexError
  else match nth_error l (Z.to_nat j) with Some a => Ok a | None => Raise IndexError end.

(** 518-524: a [SymbolArrayStore]: arrays by symbol and column name. Its [symbols]
    are the keys of the mapping. *)
Definition store (A : Type) := list (nat * list (nat * list A)).

(** 1032-1053: [ColumnScope.fetch]. *)
Definition fetch {A} (s : store A) (symbol name : nat) (end_index : option Z) : result (option (list A)) :=
  match lookup symbol s with
  | None => Raise SymbolNotFound
  | Some cols =>
      match lookup name cols with
      | None => Ok None
      | Some array => Ok (Some (upto end_index array))
      end
  end.
(** 999-1030: [ColumnScope.fetch_dict]. *)
Definition fetch_dict {A} (s : store A) (symbol : nat) (names : list nat) (end_index : option Z)
  : result (list (nat * option (list A))) :=
  match names with
  | [] => Ok []
  | _ =>
      match lookup symbol s with
      | None => Raise SymbolNotFound
      | Some cols => Ok (map (fun name => (name, match lookup name cols with
                                                 | None => None
                                                 | Some array => Some (upto end_index array)
                                                 end)) names)
      end
  end.
(** The clamped scalar read shared by [fetch_value] (1065-1069, 1238-1242) and
    [_column_value] (2287-2295). *)
Definition last_value {A} (array : list A) (end_index : Z) : result A :=
  if end_index <=? 0 then Raise ValueNotFound
  else
    let e := if Z.of_nat (length array) <? end_index then Z.of_nat (length array) else end_index in
    item array (e - 1).
(** 1055-1069: [ColumnScope.fetch_value]. *)
Definition fetch_value {A} (s : store A) (symbol name : nat) (end_index : Z) : result (option A) :=
  match lookup symbol s with
  | None => Raise SymbolNotFound
  | Some cols =>
      match lookup name cols with
      | None => Ok None
      | Some array => bind (last_value array end_index) (fun v => Ok (Some v))
      end
  end.
(** 1071-1102: [bar_data_from_data_columns]: the registered columns that the
    symbol has, truncated. Simplification: a default column that the symbol
    lacks is absent here, a [None] field of [BarData] there. *)
Definition bar_data {A} (registered : list nat) (s : store A) (symbol : nat) (end_index : option Z)
  : result (list (nat * list A)) :=
  match lookup symbol s with
  | None => Raise SymbolNotFound
  | Some cols =>
      Ok (flat_map (fun col => match lookup col cols with
                               | None => []
                               | Some array => [(col, upto end_index array)]
                               end) registered)
  end.

(** ** IndicatorScope *)

(** Indicator data: a [pandas.Series] indexed by date, or a bare array. *)
Inductive raw (A : Type) := RSeries (l : list (Z * A)) | RArray (l : list A).
Arguments RSeries {A} l.
Arguments RArray {A} l.
(** 1116-1127: the constructor arguments. *)
Record ind_scope (A : Type) := mk_ind_scope { is_data : str -> nat -> option (raw A); is_dates : list Z }.
Arguments is_data {A} _ _ _.
Arguments is_dates {A} _.
Arguments mk_ind_scope {A} _ _.
(** [_sym_inds]. *)
Definition ind_cache (A : Type) := list ((str * nat) * list A).
Fixpoint cache_get {A} (name : str) (symbol : nat) (c : ind_cache A) : option (list A) :=
  match c with
  | [] => None
  | ((n, s), v) :: r => if str_eqb name n && Nat.eqb symbol s then Some v else cache_get name symbol r
  end.
Definition isin (x : Z) (l : list Z) : bool := existsb (Z.eqb x) l.
(** 1175-1187: the array that is cached for an indicator. *)
Definition ind_array {A} (dates : list Z) (interval_bound : bool) (r : raw A) : list A :=
  match r with
  | RArray l => l
  | RSeries l => if interval_bound then map snd l else map snd (filter (fun x => isin (fst x) dates) l)
  end.
(** 1129-1189: [IndicatorScope.fetch]. *)
Definition ind_fetch {A} (s : ind_scope A) (c : ind_cache A) (symbol : nat) (name : str) (end_index : option Z)
  : result (list A) * ind_cache A :=
  let token := snd (parse_interval_name name) in
  match token, end_index with
  | Some _, Some _ => (Raise IntervalBound, c)
  | _, _ =>
      match cache_get name symbol c with
      | Some cached => (Ok (upto end_index cached), c)
      | None =>
          match is_data s name symbol with
          | None => (Raise IndicatorNotFound, c)
          | Some r =>
              let d := ind_array (is_dates s) (match token with Some _ => true | None => false end) r in
              (Ok (upto end_index d), ((name, symbol), d) :: c)
          end
      end
  end.
(** 1225-1242: [IndicatorScope.fetch_value]. *)
Definition ind_fetch_value {A} (s : ind_scope A) (c : ind_cache A) (symbol : nat) (name : str) (end_index : Z)
  : result A * ind_cache A :=
  match snd (parse_interval_name name) with
  | Some _ => (Raise IntervalBound, c)
  | None =>
      let '(r, c') := ind_fetch s c symbol name None in
      (bind r (fun array => last_value array end_index), c')
  end.

(** ** Per-bar predictions *)

(** 1319-1334: [_PerBarPredictions]. [pb_heap] holds every buffer allocated so
    far, [pb_cur] is the index of [_buf] in it. A view that was handed out is a
    buffer index and a length: numpy slices share memory with the buffer. *)
Record per_bar (A : Type) := mk_per_bar { pb_heap : list (list A); pb_cur : nat; pb_filled : nat }.
Arguments pb_heap {A} _.
Arguments pb_cur {A} _.
Arguments pb_filled {A} _.
Arguments mk_per_bar {A} _ _ _.
Definition pb_buf {A} (s : per_bar A) : list A := nth (pb_cur s) (pb_heap s) [].
Definition pb_new {A} : per_bar A := mk_per_bar [[]] 0 0.
Definition set_nth {A} (i : nat) (v : A) (l : list A) : list A := firstn i l ++ v :: skipn (S i) l.
(** 1336-1342: [append]. [junk] is what fresh memory contains ([np.empty]). *)
Definition pb_append {A} (junk : nat -> A) (v : A) (s : per_bar A) : per_bar A :=
  let buf := pb_buf s in
  let s := if Nat.eqb (pb_filled s) (length buf)
           then mk_per_bar
                  (pb_heap s ++
                   [firstn (pb_filled s) buf ++
                    map junk (seq (pb_filled s) (Nat.max 16 (2 * length buf) - pb_filled s))])
                  (length (pb_heap s)) (pb_filled s)
           else s in
  mk_per_bar (set_nth (pb_cur s) (set_nth (pb_filled s) v (pb_buf s)) (pb_heap s)) (pb_cur s) (S (pb_filled s)).
(** 1344-1345: [values]: a view of the buffer. *)
Definition view := (nat * nat)%type.
Definition pb_values {A} (n : Z) (s : per_bar A) : view :=
  (pb_cur s, Nat.min (Z.to_nat (Z.max 0 (Z.min n (Z.of_nat (pb_filled s))))) (length (pb_buf s))).
(** What a view shows now. *)
Definition show {A} (s : per_bar A) (v : view) : list A := firstn (snd v) (nth (fst v) (pb_heap s) []).

(** ** PredictionScope *)

(** A trained model's [predict], [None] when it raises; the flattened output. Its
    input is the rows of a [ModelInput]. *)
Definition predictor (R A : Type) := list R -> option (list A).
(** 2192-2216: [_run_predict_scalar]. *)
Definition predict_scalar {R A} (p : predictor R A) (input : list R) : result A :=
  match p input with
  | None => Raise PredictRaised
  | Some flat =>
      match rev flat with
      | [] => Raise BadPredictions
      | last :: _ =>
          if negb (Nat.eqb (length flat) 1) && negb (Nat.eqb (length flat) (length input))
          then Raise BadPredictions else Ok last
      end
  end.
(** 2142-2148: the loop of [_fetch_per_bar]; [todo] iterations are left. The
    buffer keeps what was appended when the model raises. *)
Fixpoint fill_per_bar {R A} (p : predictor R A) (input : list R) (junk : nat -> A) (todo : nat) (s : per_bar A)
  : option err * per_bar A :=
  match todo with
  | O => (None, s)
  | S todo =>
      match predict_scalar p (firstn (S (pb_filled s)) input) with
      | Raise e => (Some e, s)
      | Ok v => fill_per_bar p input junk todo (pb_append junk v s)
      end
  end.
(** 2126-2153: [_fetch_per_bar]. [input] is the model input of the whole window;
    [_fetch_model_input] with an end index slices it (2055-2057). *)
Definition fetch_per_bar {R A} (p : predictor R A) (input : list R) (junk : nat -> A) (s : per_bar A)
    (end_index : option Z) : result (list A) * per_bar A :=
  let target := match end_index with None => Z.of_nat (length input) | Some e => e end in
  match fill_per_bar p input junk (Z.to_nat target - pb_filled s) s with
  | (Some e, s') => (Raise e, s')
  | (None, s') => (Ok (upto end_index (show s' (pb_values (Z.of_nat (pb_filled s')) s'))), s')
  end.
(** 2080-2124: [PredictionScope.fetch] of a model that is not per-bar;
    [found] tells whether a trained model is registered, [cached] is the entry of
    [_sym_preds]. *)
Definition fetch_predictions {R A} (p : predictor R A) (found : bool) (input : list R) (cached : option (list A))
    (end_index : option Z) : result (list A) * option (list A) :=
  match cached with
  | Some preds => (Ok (upto end_index preds), cached)
  | None =>
      match input with
      | [] => (Raise NoInputData, None)
      | _ =>
          if negb found then (Raise ModelNotFound, None)
          else match p input with
               | None => (Raise PredictRaised, None)
               | Some preds =>
                   if negb (Nat.eqb (length preds) (length input)) then (Raise BadPredictions, None)
                   else (Ok (upto end_index preds), Some preds)
               end
      end
  end.

(** ** PriceScope *)

(** The columns of prices, and of dates: names that no other column has. *)
Definition col_open : nat := 0.
Definition col_high : nat := 1.
Definition col_low : nat := 2.
Definition col_close : nat := 3.
(** NaN arithmetic. *)
Definition fadd (a b : option Q) : option Q := match a, b with Some x, Some y => Some (x + y)%Q | _, _ => None end.
Definition fsub (a b : option Q) : option Q := match a, b with Some x, Some y => Some (x - y)%Q | _, _ => None end.
Definition fdiv (a : option Q) (d : Q) : option Q := match a with Some x => Some (x / d)%Q | None => None end.
(** Python's [int(x)]: truncation towards zero. *)
Definition py_trunc (x : Q) : Z := if Qle_bool 0 x then Qfloor x else Qceiling x.
(** 2297-2308: [_round_float]. *)
Definition round_float (round_fill_price : bool) (price : option Q) : option Q :=
  if negb round_fill_price then price
  else match price with
       | None => None
       | Some x =>
           if Qle_bool 0 x then Some (inject_Z (py_trunc (x * 100 + (1#2))) / 100)%Q
           else Some (inject_Z (- py_trunc (- x * 100 + (1#2))) / 100)%Q
       end.
(** 2222-2237: the constructor arguments; [_sym_end_index] as it is on this bar. *)
Record price_scope := mk_price_scope {
  ps_store : store (option Q); ps_end_index : list (nat * Z); ps_round : bool }.
Definition price_cache := list ((nat * PortfolioModel.price_type) * option Q).
Definition price_type_eqb (a b : PortfolioModel.price_type) : bool :=
  match a, b with
  | PortfolioModel.PTOpen, PortfolioModel.PTOpen | PortfolioModel.PTLow, PortfolioModel.PTLow
  | PortfolioModel.PTHigh, PortfolioModel.PTHigh | PortfolioModel.PTClose, PortfolioModel.PTClose
  | PortfolioModel.PTMiddle, PortfolioModel.PTMiddle | PortfolioModel.PTAverage, PortfolioModel.PTAverage => true
  | _, _ => false
  end.
Fixpoint bar_cache_get (symbol : nat) (t : PortfolioModel.price_type) (c : price_cache) : option (option Q) :=
  match c with
  | [] => None
  | ((s, u), v) :: r => if Nat.eqb symbol s && price_type_eqb t u then Some v else bar_cache_get symbol t r
  end.
(** 2285-2295: [_column_value]. *)
Definition column_value (s : price_scope) (symbol col : nat) : result (option Q) :=
  match lookup symbol (ps_end_index s) with
  | None => Raise KeyError
  | Some end_index =>
      if end_index <=? 0 then Raise ValueNotFound
      else match lookup symbol (ps_store s) with
           | None => Raise KeyError
           | Some cols =>
               match lookup col cols with
               | None => Raise ValueNotFound
               | Some array => last_value array end_index
               end
           end
  end.
(** The cache around a read (2311-2314, 2335-2336). *)
Definition cached_read (symbol : nat) (t : PortfolioModel.price_type) (c : price_cache)
    (read : price_cache -> result (option Q) * price_cache) : result (option Q) * price_cache :=
  match bar_cache_get symbol t c with
  | Some v => (Ok v, c)
  | None =>
      match read c with
      | (Ok v, c') => (Ok v, ((symbol, t), v) :: c')
      | (Raise e, c') => (Raise e, c')
      end
  end.
Definition then_read (r : result (option Q) * price_cache)
    (f : option Q -> price_cache -> result (option Q) * price_cache) : result (option Q) * price_cache :=
  match r with (Ok v, c) => f v c | (Raise e, c) => (Raise e, c) end.
Definition fetch_column (s : price_scope) (symbol col : nat) (t : PortfolioModel.price_type) (c : price_cache) :=
  cached_read symbol t c (fun c => (column_value s symbol col, c)).
(** 2310-2336: [_fetch_price_type]. *)
Definition fetch_price_type (s : price_scope) (symbol : nat) (t : PortfolioModel.price_type) (c : price_cache)
  : result (option Q) * price_cache :=
  match t with
  | PortfolioModel.PTOpen => fetch_column s symbol col_open t c
  | PortfolioModel.PTHigh => fetch_column s symbol col_high t c
  | PortfolioModel.PTLow => fetch_column s symbol col_low t c
  | PortfolioModel.PTClose => fetch_column s symbol col_close t c
  | PortfolioModel.PTMiddle =>
      cached_read symbol t c (fun c =>
        then_read (fetch_column s symbol col_low PortfolioModel.PTLow c) (fun low c =>
        then_read (fetch_column s symbol col_high PortfolioModel.PTHigh c) (fun high c =>
        (Ok (fadd low (fdiv (fsub high low) 2)), c))))
  | PortfolioModel.PTAverage =>
      cached_read symbol t c (fun c =>
        then_read (fetch_column s symbol col_open PortfolioModel.PTOpen c) (fun open c =>
        then_read (fetch_column s symbol col_low PortfolioModel.PTLow c) (fun low c =>
        then_read (fetch_column s symbol col_high PortfolioModel.PTHigh c) (fun high c =>
        then_read (fetch_column s symbol col_close PortfolioModel.PTClose c) (fun close c =>
        (Ok (fdiv (fadd (fadd (fadd open low) high) close) 4), c))))))
  end.
(** What a fill price may be given as (2338-2349); a callable gets the symbol and
    the bar data up to this bar, for the registered columns. *)
Inductive price_arg :=
  | PType (t : PortfolioModel.price_type)
  | PNum (q : option Q)
  | PCall (f : nat -> list (nat * list (option Q)) -> result (option Q)).
(** 2338-2362: [fetch_float]. *)
Definition fetch_float (registered : list nat) (s : price_scope) (symbol : nat) (p : price_arg) (c : price_cache)
  : result (option Q) * price_cache :=
  let '(r, c) := match p with
                 | PType t => fetch_price_type s symbol t c
                 | PNum q => (Ok q, c)
                 | PCall f =>
                     (match lookup symbol (ps_end_index s) with
                      | None => Raise KeyError
                      | Some e => bind (bar_data registered (ps_store s) symbol (Some e)) (f symbol)
                      end, c)
                 end in
  (bind r (fun v => Ok (round_float (ps_round s) v)), c).
(** 2243-2250: [has_bar]. *)
Definition has_bar (s : price_scope) (symbol : nat) : bool :=
  match lookup symbol (ps_end_index s) with Some e => 0 <? e | None => false end.
