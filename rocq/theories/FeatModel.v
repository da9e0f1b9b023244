(** Model of the columns a model is trained on and predicts from: src/pybroker/model.py (the frames handed to a train function, the
    columns recorded with the trained model) and src/pybroker/scope.py
    (ModelInputScope, IntervalScope).

    A column name is a number; [date] and [symbol] are the reserved ones. What a
    column holds for one symbol is a value of any type [T], the series of the whole
    run: a training or a test frame holds the rows of its window of it, and the rows
    are not modelled here (ScopeModel.v, LagModel.v). One symbol is followed; it has
    bars in the window (without bars the frames have the same columns and no row). *)
From Coq Require Export List Arith Bool Lia.
Export ListNotations.

(** common.py 136-146: [DataCol]. *)
Definition date := 0.
Definition symbol := 1.

(** [x in l] and [tuple(dict.fromkeys(l))]. *)
Definition mem (c : nat) (l : list nat) : bool := existsb (Nat.eqb c) l.
Fixpoint fromkeys (l : list nat) : list nat :=
  match l with
  | [] => []
  | x :: rest => x :: filter (fun y => negb (Nat.eqb y x)) (fromkeys rest)
  end.

(** scope.py 161-172, 261-271: [ordered_data_cols]: the default columns (open, high,
    low, close, volume, vwap are 2 to 7) and then the registered ones, sorted:
    [custom] is that sorted list. [all_data_cols] (242-248) is the set of them. *)
Definition ordered (custom : list nat) : list nat := date :: [2; 3; 4; 5; 6; 7] ++ custom.

(** scope.py 293-323: the part of [validate_registered_names] about indicators:
    whether a run is accepted. *)
Definition validated (custom inds : list nat) : bool :=
  negb (existsb (fun c => mem c (ordered custom)) inds).

Section Feat.
Context {T : Type}.

(** A data frame, or a dict of columns: the columns in order. *)
Definition frame := list (nat * T).
Fixpoint lookup (f : frame) (c : nat) : option T :=
  match f with
  | [] => None
  | (x, v) :: rest => if Nat.eqb x c then Some v else lookup rest c
  end.
(** [input_[name] = value]: in place, or at the end. *)
Fixpoint dset (f : frame) (c : nat) (v : T) : frame :=
  match f with
  | [] => [(c, v)]
  | (x, w) :: rest => if Nat.eqb x c then (x, v) :: rest else (x, w) :: dset rest c v
  end.
Definition names (f : frame) : list nat := map fst f.

(** The data of the symbol: scope.py 725-800, the columns of the user's data frame
    other than symbol, registered or not; and the indicator series. *)
Record data := mk_data { d_cols : frame; d_ind : nat -> T }.

(** model.py 1188-1210: [ModelSource]: whether [lags] is set, [lag_cols] (empty when
    not given), [pooled], [input_data_fn]. An [input_data_fn] that changes the number
    of rows raises (model.py 849-855) and is not modelled. *)
Record source := mk_source {
  s_inds : list nat; s_lags : bool; s_lag_cols : list nat; s_pooled : bool;
  s_fn : option (frame -> frame) }.

(** common.py: [TrainedModel]: [input_cols] and [lag_columns]. *)
Record trained := mk_trained { tm_cols : option (list nat); tm_lags : option (list nat) }.

Inductive err :=
| ELagCol (c : nat) | ENoLagCols | EInputCols | EMissingLag (c : nat) | EMissing (c : nat)
| EIndicator (c : nat) | ENoDates.
Inductive res (A : Type) := Ok (x : A) | Err (e : err).
Arguments Ok {A}. Arguments Err {A}.

(** model.py 916-934: [_model_input_columns]. *)
Definition model_input_columns (custom inds available : list nat) (pooled : bool) : list nat :=
  fromkeys ((if pooled then [symbol; date] else [date])
            ++ filter (fun c => negb (Nat.eqb c symbol || Nat.eqb c date) && mem c available) (ordered custom)
            ++ inds).

(** [ModelInput.to_dataframe] (model.py 269-274) of the columns [l], given what each
    column holds. *)
Definition to_frame (l : list nat) (holds : nat -> option T) : frame :=
  flat_map (fun c => match holds c with Some v => [(c, v)] | None => [] end) (fromkeys l).

(** model.py 948-979 [_symbol_model_input_from_store] and 982-1035
    [_pooled_model_input_from_store]: the array of a column. [sv] is the symbol
    column of the symbol's rows. *)
Definition train_array (src : source) (d : data) (sv : T) (c : nat) : option T :=
  if Nat.eqb c symbol && s_pooled src then Some sv
  else match lookup (d_cols d) c with
       | Some v => Some v
       | None => if mem c (s_inds src) then Some (d_ind d c) else None
       end.
Definition train_columns (custom : list nat) (src : source) (d : data) : list nat :=
  model_input_columns custom (s_inds src) (names (d_cols d)) (s_pooled src).
(** The frame handed to the train function: the rows of the symbol. *)
Definition train_frame (custom : list nat) (src : source) (d : data) (sv : T) : frame :=
  to_frame (train_columns custom src d) (train_array src d sv).

(** model.py 1802-1818: [_infer_input_cols]. *)
Definition infer_input_cols (custom inds columns : list nat) (pooled : bool) : list nat :=
  let cols := filter (fun c => mem c (ordered custom) || mem c inds) columns in
  if pooled then filter (fun c => negb (Nat.eqb c symbol)) cols else cols.

(** model.py 1848-1853: the default of [_lag_feature_cols]. *)
Definition default_lag_cols (custom inds columns : list nat) (pooled : bool) : list nat :=
  filter (fun c => negb (Nat.eqb c date) && negb (mem c inds)) (infer_input_cols custom inds columns pooled).
(** model.py 1821-1853: [_lag_feature_cols]; [has] is [col in train_data]. *)
Definition lag_feature_cols (custom : list nat) (src : source) (columns : list nat) (has : nat -> bool)
  : res (list nat) :=
  match s_lag_cols src with
  | [] => Ok (default_lag_cols custom (s_inds src) columns (s_pooled src))
  | lag_cols =>
      match find (fun c => negb (has c)) lag_cols with
      | Some c => Err (ELagCol c)
      | None => Ok lag_cols
      end
  end.

(** What a train or load function answers: a model, or a model and column names. *)
Inductive answer := Bare | With (cols : list nat).

(** model.py 1856-1870 [_parse_model_result], and 2080-2100, 2155-2185, 2222-2270: the
    lag columns are chosen from the training frame before training, and are recorded
    with the trained model. *)
Definition train (custom : list nat) (src : source) (d : data) (sv : T) (a : answer) : res trained :=
  let columns := train_columns custom src d in
  let has c := match train_array src d sv c with Some _ => mem c columns | None => false end in
  let lags := if s_lags src
              then match lag_feature_cols custom src columns has with
                   | Ok l => Ok (Some l)
                   | Err e => Err e
                   end
              else Ok None in
  match lags with
  | Err e => Err e
  | Ok lags =>
      Ok (mk_trained
            (Some (match a with
                   | With cols => cols
                   | Bare => infer_input_cols custom (s_inds src) columns (s_pooled src)
                   end)) lags)
  end.

(** model.py 2271-2301: a pretrained model. *)
Definition load (src : source) (a : answer) : trained :=
  mk_trained (match a with With cols => Some cols | Bare => None end)
    (if s_lags src then match s_lag_cols src with [] => None | l => Some l end else None).

(** scope.py 1299-1317: [_require_lag_cols]. *)
Definition require_lag_cols (l : list nat) : res (option (list nat)) :=
  match l with [] => Err ENoLagCols | _ => Ok (Some l) end.
(** scope.py 1245-1296: [_resolve_lag_cols]; [columns] are those of [model_input]. *)
Definition resolve_lag_cols (custom : list nat) (src : source) (tm : trained) (columns : option (list nat))
  : res (option (list nat)) :=
  if negb (s_lags src) then Ok None
  else match tm_lags tm with
       | Some l => Ok (Some l)
       | None =>
           match columns with
           | Some columns => require_lag_cols (default_lag_cols custom (s_inds src) columns (s_pooled src))
           | None =>
               match tm_cols tm with
               | None => Err EInputCols
               | Some cols =>
                   require_lag_cols (filter (fun c => negb (Nat.eqb c date) && negb (mem c (s_inds src))) cols)
               end
           end
       end.

(** model.py 1212-1228, 842-862: [prepare_input_data]. *)
Definition prepare_input_data (src : source) (f : frame) : res frame :=
  match f with
  | [] => Ok f
  | _ =>
      match s_fn src with
      | Some fn => Ok (fn f)
      | None =>
          match find (fun c => negb (mem c (names f))) (s_inds src) with
          | Some c => Err (EIndicator c)
          | None => Ok (to_frame (s_inds src) (lookup f))
          end
      end
  end.

(** scope.py 1990-2006: the data columns that are fetched. *)
Definition fetched_cols (custom : list nat) (src : source) (tm : trained) (lag_cols : option (list nat)) : list nat :=
  match tm_cols tm, s_fn src with
  | Some cols, None =>
      let needed := (date :: cols) ++ match lag_cols with Some l => l | None => [] end in
      fromkeys (filter (fun c => mem c needed) (ordered custom) ++ needed)
  | _, _ => ordered custom
  end.
(** scope.py 2007-2013: the columns and then the indicators, as a dict. *)
Definition fetched (src : source) (d : data) (cols : list nat) : frame :=
  fold_left (fun f c => dset f c (d_ind d c)) (s_inds src)
    (fold_left (fun f c => match lookup (d_cols d) c with Some v => dset f c v | None => f end) cols []).

(** scope.py 1944-2057: [ModelInputScope._fetch_model_input], without its cache: the
    frame, and the columns the lag features are built from. *)
Definition predict_input (custom : list nat) (src : source) (tm : trained) (d : data)
  : res (frame * option (list nat)) :=
  let defer := s_lags src && match tm_lags tm with None => true | Some _ => false end
               && match tm_cols tm with None => true | Some _ => false end in
  match (if defer then Ok None else resolve_lag_cols custom src tm None) with
  | Err e => Err e
  | Ok lag_cols =>
      let f := fetched src d (fetched_cols custom src tm lag_cols) in
      match lookup f date, lookup (d_cols d) date with
      | None, None => Err ENoDates
      | _, _ =>
          match (if defer then resolve_lag_cols custom src tm (Some (names f)) else Ok lag_cols) with
          | Err e => Err e
          | Ok lag_cols =>
              match find (fun c => negb (mem c (names f))) (match lag_cols with Some l => l | None => [] end) with
              | Some c => Err (EMissingLag c)
              | None =>
                  let narrowed :=
                    match tm_cols tm with
                    | None => Ok f
                    | Some cols =>
                        match find (fun c => negb (mem c (names f))) cols with
                        | Some c => Err (EMissing c)
                        | None => Ok (to_frame cols (lookup f))
                        end
                    end in
                  match narrowed with
                  | Err e => Err e
                  | Ok f =>
                      let prepare := match tm_cols tm, s_fn src with
                                     | Some (_ :: _), None => false
                                     | _, _ => true
                                     end in
                      match (if prepare then prepare_input_data src f else Ok f) with
                      | Err e => Err e
                      | Ok f => Ok (f, lag_cols)
                      end
                  end
              end
          end
      end
  end.

(** ** On a compressed interval *)
(** interval.py 92-103: the compressed bars of the symbol: dates (0), open to volume
    (2 to 6), vwap if the data has it, the registered custom columns of the data; and the
    indicator series computed on the interval. *)
Record cbars := mk_cbars { cb_fixed : nat -> T; cb_vwap : option T; cb_custom : frame; cb_ind : nat -> T }.

(** interval.py 543-589: [build_compressed_symbol_arrays]: the columns and the dict of
    arrays. An indicator that was not computed raises and is not modelled. *)
Definition compressed_columns (custom inds : list nat) (b : cbars) : list nat :=
  [date; 2; 3; 4; 5; 6] ++ (match cb_vwap b with Some _ => [7] | None => [] end)
  ++ filter (fun c => mem c (names (cb_custom b))) custom ++ inds.
Definition compressed_arrays (custom inds : list nat) (b : cbars) : frame :=
  let f := map (fun c => (c, cb_fixed b c)) [date; 2; 3; 4; 5; 6] in
  let f := match cb_vwap b with Some v => dset f 7 v | None => f end in
  let f := fold_left (fun f c => match lookup (cb_custom b) c with Some v => dset f c v | None => f end) custom f in
  fold_left (fun f c => dset f c (cb_ind b c)) inds f.

(** model.py 2557-2655 [_prepare_interval_symbol_data], 2415-2555
    [_prepare_pooled_interval_data]: the columns of the training frame, its arrays, and
    the frame itself; the pooled one has the symbol last. *)
Definition interval_columns (custom : list nat) (src : source) (b : cbars) : list nat :=
  compressed_columns custom (s_inds src) b ++ (if s_pooled src then [symbol] else []).
Definition interval_array (custom : list nat) (src : source) (b : cbars) (sv : T) (c : nat) : option T :=
  if Nat.eqb c symbol && s_pooled src then Some sv else lookup (compressed_arrays custom (s_inds src) b) c.
Definition interval_frame (custom : list nat) (src : source) (b : cbars) (sv : T) : frame :=
  to_frame (interval_columns custom src b) (interval_array custom src b sv).
(** The same recording as [train]. *)
Definition train_interval (custom : list nat) (src : source) (b : cbars) (sv : T) (a : answer) : res trained :=
  let columns := interval_columns custom src b in
  let has c := match interval_array custom src b sv c with Some _ => true | None => false end in
  let lags := if s_lags src
              then match lag_feature_cols custom src columns has with
                   | Ok l => Ok (Some l)
                   | Err e => Err e
                   end
              else Ok None in
  match lags with
  | Err e => Err e
  | Ok lags =>
      Ok (mk_trained
            (Some (match a with
                   | With cols => cols
                   | Bare => infer_input_cols custom (s_inds src) columns (s_pooled src)
                   end)) lags)
  end.

(** scope.py 1752-1789: [_build_compressed_model_input], the dict in order. *)
Definition built (custom : list nat) (src : source) (b : cbars) : frame :=
  let f := [(date, cb_fixed b date); (2, cb_fixed b 2); (3, cb_fixed b 3); (4, cb_fixed b 4); (5, cb_fixed b 5); (6, cb_fixed b 6)] in
  let f := match cb_vwap b with Some v => dset f 7 v | None => f end in
  let f := fold_left (fun f c => match lookup (cb_custom b) c with Some v => dset f c v | None => f end) custom f in
  fold_left (fun f c => dset f c (cb_ind b c)) (s_inds src) f.

(** scope.py 1685-1750: [IntervalScope._prepare_full_input], without its caches. *)
Definition predict_interval (custom : list nat) (src : source) (tm : trained) (b : cbars)
  : res (frame * option (list nat)) :=
  let f := built custom src b in
  match resolve_lag_cols custom src tm (Some (names f)) with
  | Err e => Err e
  | Ok lag_cols =>
      match find (fun c => negb (mem c (names f))) (match lag_cols with Some l => l | None => [] end) with
      | Some c => Err (EMissingLag c)
      | None =>
          let narrowed :=
            match tm_cols tm with
            | None => Ok f
            | Some cols =>
                match find (fun c => negb (mem c (names f))) cols with
                | Some c => Err (EMissing c)
                | None => Ok (to_frame cols (lookup f))
                end
            end in
          match narrowed with
          | Err e => Err e
          | Ok f =>
              let prepare := match tm_cols tm, s_fn src with
                             | Some (_ :: _), None => false
                             | _, _ => true
                             end in
              match (if prepare then prepare_input_data src f else Ok f) with
              | Err e => Err e
              | Ok f => Ok (f, lag_cols)
              end
          end
      end
  end.
End Feat.
Arguments cbars : clear implicits.
Arguments frame : clear implicits. Arguments data : clear implicits. Arguments source : clear implicits.
Arguments Ok {A}. Arguments Err {A}.
