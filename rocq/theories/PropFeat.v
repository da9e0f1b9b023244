(** C110: a model predicts from the columns it was trained on. *)
From Verif Require Import FeatModel FeatSpec FeatProofs.

(** The frame handed to a train function: each registered data column the data has,
    and each indicator of the model, once; and the symbol when the model is pooled. *)
Theorem C110_training_frame : forall T custom (src : source T) d sv, usable d -> no_clash src d ->
  NoDup (map fst (train_frame custom src d sv))
  /\ forall c v, In (c, v) (train_frame custom src d sv) <->
       (s_pooled src = true /\ c = 1 /\ v = sv)
       \/ (registered custom c /\ In (c, v) (d_cols d)) \/ (In c (s_inds src) /\ v = d_ind d c).
Proof. intros. now apply training_frame. Qed.
Print Assumptions C110_training_frame.

(** A train function that names no columns: the frame predicted from (or handed to
    [input_data_fn]) is the training frame, the same columns in the same order holding
    the same series, without the symbol; and the lag features are built from the
    columns they were built from in training.
    Missing: indicators named like a column of the data frame; [C110_clash_refuted]
    shows it does not hold for them, although the run is accepted. *)
Theorem C110_same_columns_partial : forall T custom (src : source T) d sv tm,
  usable d -> no_clash src d -> ~ In 1 (s_lag_cols src) ->
  train custom src d sv Bare = Ok tm ->
  predict_input custom src tm d
  = Ok (match s_fn src with
        | None => without_symbol (train_frame custom src d sv)
        | Some fn => fn (without_symbol (train_frame custom src d sv))
        end, tm_lags tm).
Proof. intros. now apply same_columns. Qed.
Print Assumptions C110_same_columns_partial.

(** The columns the lag features are built from in training: the ones declared, else
    the columns of the frame other than date, symbol and indicators. *)
Theorem C110_lag_columns : forall T custom (src : source T) d sv a tm,
  usable d -> no_clash src d -> train custom src d sv a = Ok tm ->
  tm_lags tm =
  if s_lags src then
    Some (match s_lag_cols src with
          | [] => filter (fun c => negb (Nat.eqb c 0) && negb (Nat.eqb c 1) && negb (existsb (Nat.eqb c) (s_inds src)))
                    (map fst (train_frame custom src d sv))
          | l => l
          end)
  else None.
Proof. intros T custom src d sv a tm U N H. exact (trained_lags custom src d sv a tm U N H). Qed.
Print Assumptions C110_lag_columns.

(** Named columns, by a train or a load function: the frame has exactly those, in that
    order; a name that is neither a column of the data nor an indicator of the model
    raises. A pretrained model with lags has to declare which columns to lag, and they
    have to be there ([C110_pretrained_lags_refuted] is about the others). *)
Theorem C110_named_columns : forall T custom (src : source T) d sv tm cols,
  usable d -> cols <> [] -> s_fn src = None -> ~ In 1 (s_lag_cols src) ->
  train custom src d sv (With cols) = Ok tm
  \/ (tm = load src (With cols) /\ (s_lags src = true -> s_lag_cols src <> [])
      /\ (forall c, In c (s_lag_cols src) -> In c (s_inds src) \/ In c (map fst (d_cols d)))) ->
  ((forall c, In c cols -> In c (s_inds src) \/ In c (map fst (d_cols d))) ->
   exists f, predict_input custom src tm d = Ok (f, tm_lags tm)
     /\ NoDup (map fst f) /\ (NoDup cols -> map fst f = cols)
     /\ forall c v, In (c, v) f <-> In c cols /\ holds src d c v)
  /\ ((exists c, In c cols /\ ~ In c (s_inds src) /\ ~ In c (map fst (d_cols d))) ->
      exists c, predict_input custom src tm d = Err (EMissing c)
        /\ In c cols /\ ~ In c (s_inds src) /\ ~ In c (map fst (d_cols d))).
Proof.
  intros T custom src d sv tm cols U NE HF NL H.
  assert (K : tm_cols tm = Some cols /\ (s_lags src = true -> tm_lags tm <> None) /\ (s_lags src = false -> tm_lags tm = None)
    /\ (forall l c, tm_lags tm = Some l -> In c l -> In c (s_inds src) \/ In c (map fst (d_cols d)))).
  { destruct H as [H|(-> & HL & HP)].
    - destruct (train_ok _ _ _ _ _ _ H) as (C & L & L1). split; [exact C|]. split; [|split; [exact L|]].
      + intros E. destruct (L1 E) as (l & -> & _). discriminate.
      + intros l c. now apply (trained_lags_present custom src d sv (With cols)).
    - unfold load. cbn. destruct (s_lags src); [|repeat split; discriminate].
      destruct (s_lag_cols src) as [|x xs]; [now contradiction HL|]. repeat split; try discriminate.
      intros l c [= <-]. apply HP. }
  destruct K as (C & L1 & L0 & LP). split; intros P.
  - now apply (explicit custom src tm d cols).
  - now apply (explicit_missing custom src tm d cols).
Qed.
Print Assumptions C110_named_columns.

(** Whatever else happens, lag features are never built from other columns than the
    ones recorded in training or declared for a pretrained model. *)
Theorem C110_lags_kept : forall T custom (src : source T) d sv a tm f k,
  predict_input custom src tm d = Ok (f, k) ->
  (s_lags src = false -> k = None)
  /\ (s_lags src = true -> train custom src d sv a = Ok tm -> k = tm_lags tm)
  /\ (s_lags src = true -> tm = load src a -> s_lag_cols src <> [] -> k = Some (s_lag_cols src)).
Proof.
  intros T custom src d sv a tm f k H. destruct (lags_kept custom src tm d f k H) as (H0 & H1).
  split; [exact H0|]. split.
  - intros E TR. destruct (train_ok _ _ _ _ _ _ TR) as (_ & _ & L1). destruct (L1 E) as (l & E' & _).
    rewrite E'. now apply H1.
  - intros E -> NE. apply H1; [exact E|]. unfold load. cbn. rewrite E. destruct (s_lag_cols src); [contradiction | reflexivity].
Qed.
Print Assumptions C110_lags_kept.

(** A pretrained model that names no columns is given its indicators, in the order they
    were declared; its lag features are built from the columns that a model trained with
    the same settings builds them from. *)
Theorem C110_pretrained : forall T custom (src : source T) d,
  usable d -> s_fn src = None ->
  (s_lags src = false -> NoDup (s_inds src) ->
   predict_input custom src (load src Bare) d = Ok (map (fun c => (c, d_ind d c)) (s_inds src), None))
  /\ (no_clash src d -> s_lags src = true -> s_lag_cols src = [] ->
      forall sv a tm l, train custom src d sv a = Ok tm -> tm_lags tm = Some l -> l <> [] ->
      exists f, predict_input custom src (load src Bare) d = Ok (f, Some l)).
Proof.
  intros T custom src d U HF. split.
  - intros. now apply loaded_bare.
  - intros N HL HC sv a tm l H E NE. now apply (loaded_lags custom src d sv a tm).
Qed.
Print Assumptions C110_pretrained.

(** A run is accepted with an indicator (30) named like a column of the data frame that
    is not registered; the model is trained on the column and predicts from the
    indicator. *)
Theorem C110_clash_refuted : exists custom (src : source nat) d sv tm f,
  validated custom (s_inds src) = true /\ usable d
  /\ train custom src d sv Bare = Ok tm /\ predict_input custom src tm d = Ok (f, None)
  /\ exists c v w, In (c, v) (train_frame custom src d sv) /\ In (c, w) f /\ v <> w.
Proof.
  exists [], (@mk_source nat [30] false [] false None), (@mk_data nat [(0, 100); (5, 105); (30, 130)] (fun _ => 7)), 1.
  eexists. eexists. repeat split; try (vm_compute; reflexivity).
  - cbn. repeat constructor; cbn; lia.
  - cbn. auto.
  - cbn. lia.
  - exists 30, 130, 7. repeat split; [vm_compute; auto | vm_compute; auto | discriminate].
Qed.
Print Assumptions C110_clash_refuted.

(** The columns a pretrained model's lag features are built from depend on whether its
    load function names columns. *)
Theorem C110_pretrained_lags_refuted : exists custom (src : source nat) d cols f g l k,
  usable d /\ no_clash src d
  /\ predict_input custom src (load src Bare) d = Ok (f, Some l)
  /\ predict_input custom src (load src (With cols)) d = Ok (g, Some k)
  /\ l <> k.
Proof.
  exists [], (@mk_source nat [30] true [] false None), (@mk_data nat [(0, 100); (2, 102); (5, 105)] (fun _ => 7)), [5; 30].
  do 4 eexists. split; [|split; [|split; [vm_compute; reflexivity | split; [vm_compute; reflexivity | discriminate]]]].
  - repeat split; cbn; [repeat constructor; cbn; lia | auto | lia].
  - intros c [<-|[]]. cbn. lia.
Qed.
Print Assumptions C110_pretrained_lags_refuted.

(** On a compressed interval the frame a model is trained on holds the bars' date and
    prices, the vwap when it is built, the registered columns the bars carry, the
    indicators built on the interval and, for a pooled model, the symbol. *)
Theorem C110_interval_frame : forall T custom (src : source T) b sv,
  accepted custom src -> NoDup (map fst (cb_custom b)) ->
  NoDup (map fst (interval_frame custom src b sv))
  /\ forall c v, In (c, v) (interval_frame custom src b sv) <->
       (s_pooled src = true /\ c = 1 /\ v = sv)
       \/ ((c = 0 \/ 2 <= c <= 6) /\ v = cb_fixed b c) \/ (c = 7 /\ cb_vwap b = Some v)
       \/ (In c custom /\ In (c, v) (cb_custom b)) \/ (In c (s_inds src) /\ v = cb_ind b c).
Proof. intros. now apply interval_frame_is. Qed.
Print Assumptions C110_interval_frame.

(** On a compressed interval, a model whose train function names no columns predicts,
    from bars with the same columns, from the frame it was trained on without the
    symbol, in the same order, after the model's own input function if it has one; and
    with the lag columns recorded when it was trained. A column of the data frame that is
    not registered is not carried by the bars, so there is no exception here. *)
Theorem C110_interval : forall T custom (src : source T) b sv tm,
  accepted custom src -> ~ In 1 (s_lag_cols src) ->
  train_interval custom src b sv Bare = Ok tm ->
  predict_interval custom src tm b
  = Ok (match s_fn src with
        | None => without_symbol (interval_frame custom src b sv)
        | Some fn => fn (without_symbol (interval_frame custom src b sv))
        end, tm_lags tm).
Proof. intros. now apply interval_same. Qed.
Print Assumptions C110_interval.

(** Named columns on a compressed interval: exactly those, in that order; a name that is
    not a column of the training frame, or is the symbol, raises. *)
Theorem C110_interval_named : forall T custom (src : source T) b sv tm cols,
  accepted custom src -> ~ In 1 (s_lag_cols src) -> cols <> [] -> s_fn src = None ->
  train_interval custom src b sv (With cols) = Ok tm ->
  let w := without_symbol (interval_frame custom src b sv) in
  ((forall c, In c cols -> In c (map fst w)) ->
   exists f, predict_interval custom src tm b = Ok (f, tm_lags tm)
     /\ NoDup (map fst f) /\ (NoDup cols -> map fst f = cols)
     /\ forall c v, In (c, v) f <-> In c cols /\ In (c, v) w)
  /\ ((exists c, In c cols /\ ~ In c (map fst w)) ->
      exists c, predict_interval custom src tm b = Err (EMissing c) /\ In c cols /\ ~ In c (map fst w)).
Proof. intros T custom src b sv tm cols A. now apply interval_named. Qed.
Print Assumptions C110_interval_named.

(** A pooled model with a registered column (20), a column that is not registered (21),
    an indicator (30) and lags: the frames. *)
Definition ex_src := @mk_source nat [30] true [] true None.
Definition ex_data := @mk_data nat [(0, 100); (2, 102); (20, 120); (5, 105); (21, 121)] (fun _ => 7).
Example C110_example :
  usable ex_data /\ no_clash ex_src ex_data
  /\ train_frame [20] ex_src ex_data 9 = [(1, 9); (0, 100); (2, 102); (5, 105); (20, 120); (30, 7)]
  /\ train [20] ex_src ex_data 9 Bare = Ok (mk_trained (Some [0; 2; 5; 20; 30]) (Some [2; 5; 20]))
  /\ predict_input [20] ex_src (mk_trained (Some [0; 2; 5; 20; 30]) (Some [2; 5; 20])) ex_data
     = Ok ([(0, 100); (2, 102); (5, 105); (20, 120); (30, 7)], Some [2; 5; 20])
  /\ predict_input [20] (@mk_source nat [30] false [] false None) (load ex_src (With [21; 30; 5])) ex_data
     = Ok ([(21, 121); (30, 7); (5, 105)], None)
  /\ predict_input [20] (@mk_source nat [30] true [30; 2] false None)
       (load (@mk_source nat [30] true [30; 2] false None) (With [21; 5])) ex_data
     = Ok ([(21, 121); (5, 105)], Some [30; 2]).
Proof.
  repeat split; try (vm_compute; reflexivity); try (cbn; repeat constructor; cbn; lia); try (cbn; auto; fail);
    try (cbn; lia); intros; cbn in *; lia.
Qed.

(** Weekly bars of the same model: the registered column 20 is carried, the vwap is
    built. *)
Definition ex_bars := @mk_cbars nat (fun c => 100 + c) (Some 107) [(20, 120); (21, 121)] (fun _ => 7).
Example C110_interval_example :
  accepted [20] ex_src /\ NoDup (map fst (cb_custom ex_bars)) /\ ~ In 1 (s_lag_cols ex_src)
  /\ interval_frame [20] ex_src ex_bars 9
     = [(0, 100); (2, 102); (3, 103); (4, 104); (5, 105); (6, 106); (7, 107); (20, 120); (30, 7); (1, 9)]
  /\ train_interval [20] ex_src ex_bars 9 Bare
     = Ok (mk_trained (Some [0; 2; 3; 4; 5; 6; 7; 20; 30]) (Some [2; 3; 4; 5; 6; 7; 20]))
  /\ (exists tm, train_interval [20] ex_src ex_bars 9 (With [30; 20; 5]) = Ok tm
      /\ predict_interval [20] ex_src tm ex_bars = Ok ([(30, 7); (20, 120); (5, 105)], Some [2; 3; 4; 5; 6; 7; 20]))
  /\ (exists tm, train_interval [20] ex_src ex_bars 9 (With [5; 21]) = Ok tm
      /\ predict_interval [20] ex_src tm ex_bars = Err (EMissing 21)).
Proof.
  assert (N : NoDup (map fst (cb_custom ex_bars))) by (repeat constructor; cbn; lia).
  repeat split; try (vm_compute; reflexivity); try exact N.
  - intros c [<-|[]]. lia.
  - destruct H as [<-|[]]. intros [H|[H|[]]]; cbn in H; lia.
  - destruct H as [<-|[]]. discriminate.
  - cbn. tauto.
  - eexists. split; vm_compute; reflexivity.
  - eexists. split; vm_compute; reflexivity.
Qed.
