(** C83: the frames that a model bound to an interval is trained and tested on. *)
From Verif Require Import IntervalViews.
From Verif Require Import ITrainSpec ITrainProofs ITrainCausal.
From Coq Require Import Lia.
Import ListNotations.
Open Scope list_scope.
Open Scope nat_scope.

(** C83: a row of the training frame for each bar that closes on a training date, at
    least [lookahead] bars before every bar that closes on a test date, and (with
    lags) not before the first such bar with all its lag features; a row of the test
    frame for each bar that closes on a test date. Each row is that of its bar. *)
Theorem C83_rows : forall data sym interval y s c c' train_dates test_dates lookahead train test,
  prepared data c -> data sym interval = Some y -> bars_ok y -> source_ok y s ->
  (forall d e, In d train_dates -> In e test_dates -> (d < e)%Z) ->
  prepare_symbol sym interval train_dates test_dates (Some y) s c lookahead = (c', Done (train, test)) ->
  (exists ks, StronglySorted lt ks /\ Forall2 (is_row y s) ks (rows_of train) /\
     forall i, In i ks <-> may_train y train_dates test_dates lookahead i /\
       match so_lags s with
       | None => True
       | Some lags => exists j, j <= i /\ may_train y train_dates test_dates lookahead j /\ whole_features y s lags j
       end) /\
  (exists ks, StronglySorted lt ks /\ Forall2 (is_row y s) ks (rows_of test) /\ forall i, In i ks <-> closes_on y test_dates i).
Proof. exact prepare_rows. Qed.
Print Assumptions C83_rows.

(** C83: the bars of a symbol, compressed from base bars with ascending dates and
    [customs] custom columns, are fit for C83_rows. *)
Theorem C83_bars : forall has_vwap rows interval bars completed customs ind,
  compress has_vwap rows interval = Some (bars, completed) -> increasing (map r_date rows) ->
  (forall r, In r rows -> length (r_custom r) = customs) -> bars_ok (mk_sym bars has_vwap customs ind).
Proof. exact compressed_ok. Qed.
Print Assumptions C83_bars.

(** C83: the frames are built when the indicators were computed on the interval, the
    lag columns exist and the training and test bars have no gaps, unless no bar to
    train on has all its lag features: then the training fails for that reason. *)
Theorem C83_accepts : forall data sym interval y s c train_dates test_dates lookahead,
  prepared data c -> data sym interval = Some y -> bars_ok y -> source_ok y s ->
  (forall d e, In d train_dates -> In e test_dates -> (d < e)%Z) ->
  (forall k, In k (so_indicators s) -> exists l, y_indicator y k = Some l /\ length l = length (y_bars y)) ->
  (forall k, In k (so_lag_cols s) -> is_column y s k) ->
  unbroken (may_train y train_dates test_dates lookahead) -> unbroken (closes_on y test_dates) ->
  exists c' r, prepare_symbol sym interval train_dates test_dates (Some y) s c lookahead = (c', r) /\
    (match so_lags s with
     | None => True
     | Some lags => (forall i, ~ may_train y train_dates test_dates lookahead i) \/
                    exists i, may_train y train_dates test_dates lookahead i /\ whole_features y s lags i
     end -> exists frames, r = Done frames) /\
    (forall lags, so_lags s = Some lags -> (exists i, may_train y train_dates test_dates lookahead i) ->
       (forall i, may_train y train_dates test_dates lookahead i -> ~ whole_features y s lags i) ->
       r = Failed (LagFails NothingToTrain)).
Proof. exact prepare_accepts. Qed.
Print Assumptions C83_accepts.

(** C83: no frames without the compressed bars, an indicator of the model on them,
    or a lag column that the model names. *)
Theorem C83_refuses : forall sym interval train_dates test_dates s c lookahead,
  prepare_symbol sym interval train_dates test_dates None s c lookahead = (c, Failed NoInterval) /\
  forall y,
    ((exists k, In k (so_indicators s) /\ y_indicator y k = None) ->
     prepare_symbol sym interval train_dates test_dates (Some y) s c lookahead = (c, Failed NoIndicator)) /\
    ((exists k lags, In k (so_lag_cols s) /\ so_lags s = Some lags /\ ~ is_column y s k) ->
     (forall k, In k (so_indicators s) -> exists l, y_indicator y k = Some l /\ length l = length (y_bars y)) ->
     prepare_symbol sym interval train_dates test_dates (Some y) s c lookahead = (c, Failed NoLagColumn)).
Proof.
  intros sym itv train test s c la. split; [reflexivity|]. intros y. split.
  - intros (k & I & N). unfold prepare_symbol, build_arrays.
    rewrite (proj2 (existsb_exists (fun k => match y_indicator y k with None => true | _ => false end) (so_indicators s))); [reflexivity|].
    exists k. rewrite N. auto.
  - intros (k & lags & I & L & N) IN. unfold prepare_symbol. rewrite (build_ok sym y s IN), L. cbv zeta.
    assert (lag_feature_cols (all_columns y s) (data_columns y) s = Failed NoLagColumn) as ->; [|reflexivity]. unfold lag_feature_cols.
    destruct (so_lag_cols s) as [|a l] eqn:Q; [destruct I|]. destruct (forallb _ _) eqn:F; [|reflexivity]. exfalso. rewrite forallb_forall in F. apply N, all_columns_in, LagProofs.mem_in, F, I.
Qed.
Print Assumptions C83_refuses.

(** C83: whatever the base bars after the training dates hold, the training frame is
    the same, provided that the indicators are computed from the bars so far. (The
    dates of the later bars are given: they tell when a period is over.) *)
Theorem C83_no_leak : forall data data' sym interval has_vwap i p f f' bars bars' completed completed' customs ind s c c1 c' c1'
    train_dates test_dates lookahead train test train' test',
  compress has_vwap (p ++ f) i = Some (bars, completed) -> compress has_vwap (p ++ f') i = Some (bars', completed') ->
  map r_date f = map r_date f' -> increasing (map r_date (p ++ f)) ->
  (forall r, In r (p ++ f ++ f') -> length (r_custom r) = customs) ->
  (forall k g, ind k = Some g -> causal g) ->
  (forall d r, In d train_dates -> In r f -> (d < r_date r)%Z) -> (forall d e, In d train_dates -> In e test_dates -> (d < e)%Z) ->
  prepared data c -> data sym interval = Some (computed bars has_vwap customs ind) ->
  prepared data' c' -> data' sym interval = Some (computed bars' has_vwap customs ind) ->
  source_ok (computed bars has_vwap customs ind) s ->
  prepare_symbol sym interval train_dates test_dates (Some (computed bars has_vwap customs ind)) s c lookahead = (c1, Done (train, test)) ->
  prepare_symbol sym interval train_dates test_dates (Some (computed bars' has_vwap customs ind)) s c' lookahead = (c1', Done (train', test')) ->
  rows_of train = rows_of train'.
Proof. exact no_leak. Qed.
Print Assumptions C83_no_leak.

(** Non-vacuity: ten base bars in twos; an indicator; one lag; a hold-out of two bars.
    The model trains on the second and third of the five bars (the first has no lag)
    and is tested on the last. *)
Definition demo_base (k : Z) : list row :=
  map (fun d => mk_row d (Some 1%Q) (Some (inject_Z d)) (Some 1%Q) (Some (inject_Z (d + (if Z.ltb 8 d then k else 0)))) (Some 10%Q) None [Some 7%Q]) [1; 2; 3; 4; 5; 6; 7; 8; 9; 10]%Z.
Definition demo_bars (k : Z) : list cbar := match compress false (demo_base k) (Every 2) with Some (b, _) => b | None => [] end.
Definition demo_ind (k : nat) : option (list cbar -> list value) := if k =? 7 then Some (map c_close) else None.
Definition demo_source : source := mk_source [7] (Some 1) [3; 7].
Definition demo_sym (k : Z) : sym_data := computed (demo_bars k) false 1 demo_ind.
Definition demo_run (k : Z) := prepare_symbol 0 0 [1; 2; 3; 4; 5; 6; 7; 8]%Z [9; 10]%Z (Some (demo_sym k)) demo_source [] 2.
Example C83_example :
  (exists c train test, demo_run 0 = (c, Done (train, test)) /\ map w_date (rows_of train) = [4; 6]%Z /\ map w_date (rows_of test) = [10]%Z /\
     map w_lags (rows_of train) = [Some (Some [Some 4%Q; Some 2%Q; Some 4%Q; Some 2%Q]); Some (Some [Some 6%Q; Some 4%Q; Some 6%Q; Some 4%Q])] /\
     map (fun w => nth_error (w_values w) 5) (rows_of train) = [Some (6, Some (Some 7%Q)); Some (6, Some (Some 7%Q))] /\
     exists c' train' test', demo_run 5 = (c', Done (train', test')) /\ rows_of train = rows_of train' /\ rows_of test <> rows_of test') /\
  compress false (demo_base 0) (Every 2) <> None /\ bars_ok (demo_sym 0) /\ source_ok (demo_sym 0) demo_source /\
  (forall k g, demo_ind k = Some g -> causal g).
Proof.
  split; [|split; [|split; [|split]]].
  - eexists. eexists. eexists. split; [vm_compute; reflexivity|]. do 4 (split; [vm_compute; reflexivity|]).
    eexists. eexists. eexists. split; [vm_compute; reflexivity|]. split; [reflexivity|]. vm_compute. discriminate.
  - vm_compute. discriminate.
  - apply (C83_bars false (demo_base 0) (Every 2) (demo_bars 0) (match compress false (demo_base 0) (Every 2) with Some (_, l) => l | None => [] end)).
    + vm_compute. reflexivity.
    + cbn. lia.
    + intros r I. unfold demo_base in I. apply in_map_iff in I. destruct I as (d & <- & _). reflexivity.
  - split; [repeat constructor; cbn; tauto|]. intros k [<-|[]] [H|[(H & _)|H]]; cbn in H; lia.
  - intros k g E. unfold demo_ind in E. destruct (k =? 7); [|discriminate]. injection E as <-. intros bars bars' n H. rewrite !firstn_map, H. reflexivity.
Qed.
