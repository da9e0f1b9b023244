(** C84: the pooled frames of a model bound to an interval. *)
From Verif Require Import IntervalViews.
From Verif Require Import ITrainSpec ITrainProofs ITrainCausal IPoolProofs IPoolAccept.
From Verif Require PropITrain.
From Coq Require Import Lia.
Import ListNotations.
Open Scope list_scope.
Open Scope nat_scope.

(** C84: the rows, by symbol and then date: in the training frame, one for each bar of
    each symbol that closes on a training date, at least [lookahead] of the symbol's
    bars before each of its bars that close on a test date, and (with lags) not before
    the symbol's first such bar with all its lag features; in the test frame, one for
    each bar that closes on a test date. Each row names its symbol and is that of its
    bar; with lags, the test frame's is, provided there is any bar to train on. *)
Theorem C84_rows : forall data symbols interval s vwap customs c c' train_dates test_dates lookahead train test,
  prepared data c -> NoDup symbols -> fit (fun sym => data sym interval) s symbols vwap customs ->
  (forall d e, In d train_dates -> In e test_dates -> (d < e)%Z) ->
  prepare_pooled symbols interval train_dates test_dates (fun sym => data sym interval) s c lookahead = (c', Done (train, test)) ->
  (exists ks, StronglySorted pair_lt ks /\ Forall2 (is_pooled_row (fun sym => data sym interval) s) ks (rows_of train) /\
     forall sym i, In (sym, i) ks <-> In sym symbols /\ exists y, data sym interval = Some y /\ may_train y train_dates test_dates lookahead i /\
       match so_lags s with
       | None => True
       | Some lags => exists j, j <= i /\ may_train y train_dates test_dates lookahead j /\ whole_features y s lags j
       end) /\
  (exists ks, StronglySorted pair_lt ks /\
     (so_lags s = None \/ (exists sym y i, In sym symbols /\ data sym interval = Some y /\ may_train y train_dates test_dates lookahead i) ->
      Forall2 (is_pooled_row (fun sym => data sym interval) s) ks (rows_of test)) /\
     forall sym i, In (sym, i) ks <-> In sym symbols /\ exists y, data sym interval = Some y /\ closes_on y test_dates i).
Proof. exact prepare_pooled_rows. Qed.
Print Assumptions C84_rows.

(** C84: the frames are built when every symbol's indicators were computed on the
    interval, the lag columns exist and no symbol's training or test bars have gaps,
    unless no bar to train on has all its lag features: then the training fails for
    that reason. With nothing to train on at all, a model that names its lag columns is
    refused as if they did not exist; one that does not gets test rows without any lag
    feature. *)
Theorem C84_accepts : forall data symbols interval s vwap customs c train_dates test_dates lookahead,
  prepared data c -> NoDup symbols -> fit (fun sym => data sym interval) s symbols vwap customs ->
  (forall d e, In d train_dates -> In e test_dates -> (d < e)%Z) ->
  (forall sym y, In sym symbols -> data sym interval = Some y ->
     (forall k, In k (so_indicators s) -> exists l, y_indicator y k = Some l /\ length l = length (y_bars y)) /\
     (forall k, In k (so_lag_cols s) -> is_column y s k) /\
     unbroken (may_train y train_dates test_dates lookahead) /\ unbroken (closes_on y test_dates)) ->
  exists c' r, prepare_pooled symbols interval train_dates test_dates (fun sym => data sym interval) s c lookahead = (c', r) /\
    (so_lags s = None -> exists frames, r = Done frames) /\
    (forall lags, so_lags s = Some lags ->
       ((exists sym y i, In sym symbols /\ data sym interval = Some y /\ may_train y train_dates test_dates lookahead i /\ whole_features y s lags i) ->
        exists frames, r = Done frames) /\
       ((exists sym y i, In sym symbols /\ data sym interval = Some y /\ may_train y train_dates test_dates lookahead i) ->
        (forall sym y i, In sym symbols -> data sym interval = Some y -> may_train y train_dates test_dates lookahead i -> ~ whole_features y s lags i) ->
        r = Failed (LagFails NothingToTrain)) /\
       ((forall sym y i, In sym symbols -> data sym interval = Some y -> ~ may_train y train_dates test_dates lookahead i) ->
        (so_lag_cols s <> [] -> r = Failed NoLagColumn) /\
        (so_lag_cols s = [] -> exists train test, r = Done (train, test) /\ rows_of train = [] /\ forall w, In w (rows_of test) -> w_lags w = Some (Some [])))).
Proof. exact prepare_pooled_accepts. Qed.
Print Assumptions C84_accepts.

(** C84: no frames unless every symbol has the compressed bars and, on them, the
    indicators of the model, each as long as the bars. *)
Theorem C84_refuses : forall symbols interval train_dates test_dates data s c lookahead c' frames,
  prepare_pooled symbols interval train_dates test_dates data s c lookahead = (c', Done frames) ->
  forall sym, In sym symbols -> exists y, data sym = Some y /\
    forall k, In k (so_indicators s) -> exists l, y_indicator y k = Some l /\ (y_bars y <> [] -> length l = length (y_bars y)).
Proof.
  intros symbols itv train test data s c la c' frames. unfold prepare_pooled. destruct (pool_parts symbols train test data s la) as [((a & b) & d)|] eqn:PP; [|discriminate]. intros _ sym I.
  apply parts_done in PP. destruct PP as (_ & _ & DD). destruct (DD sym I) as (y & Y & _ & O). exists y. auto.
Qed.
Print Assumptions C84_refuses.

(** C84: the frames do not depend on the order in which the set of symbols is gone
    through, nor on what models were prepared before. *)
Theorem C84_order : forall data symbols symbols' interval s vwap customs c c1 c' c1' train_dates test_dates lookahead train test train' test',
  prepared data c -> prepared data c' -> NoDup symbols -> NoDup symbols' -> (forall sym, In sym symbols <-> In sym symbols') ->
  fit (fun sym => data sym interval) s symbols vwap customs -> (forall d e, In d train_dates -> In e test_dates -> (d < e)%Z) ->
  (so_lags s = None \/ exists sym y i, In sym symbols /\ data sym interval = Some y /\ may_train y train_dates test_dates lookahead i) ->
  prepare_pooled symbols interval train_dates test_dates (fun sym => data sym interval) s c lookahead = (c1, Done (train, test)) ->
  prepare_pooled symbols' interval train_dates test_dates (fun sym => data sym interval) s c' lookahead = (c1', Done (train', test')) ->
  rows_of train = rows_of train' /\ rows_of test = rows_of test'.
Proof. exact prepare_pooled_order. Qed.
Print Assumptions C84_order.

(** C84: whatever the base bars of the symbols after the training dates hold, the
    training frame is the same. *)
Theorem C84_no_leak : forall data data' symbols interval has_vwap i customs ind s c c1 c' c1' train_dates test_dates lookahead train test train' test',
  (forall sym, In sym symbols -> exists y y', data sym interval = Some y /\ data' sym interval = Some y' /\
     same_past has_vwap customs ind i train_dates y y' /\ source_ok y s) ->
  (forall k g, ind k = Some g -> causal g) -> NoDup symbols -> (forall d e, In d train_dates -> In e test_dates -> (d < e)%Z) ->
  prepared data c -> prepared data' c' ->
  prepare_pooled symbols interval train_dates test_dates (fun sym => data sym interval) s c lookahead = (c1, Done (train, test)) ->
  prepare_pooled symbols interval train_dates test_dates (fun sym => data' sym interval) s c' lookahead = (c1', Done (train', test')) ->
  rows_of train = rows_of train'.
Proof. exact pooled_no_leak. Qed.
Print Assumptions C84_no_leak.

(** Non-vacuity: two symbols with ten base bars in twos, with other last bars; an indicator, one lag, a hold-out of two bars. The
    warm-up of each symbol is left out; the symbols may come in any order. *)
Definition demo_data (a b : Z) (sym interval : nat) : option sym_data :=
  match sym with 0 => Some (PropITrain.demo_sym a) | 1 => Some (PropITrain.demo_sym b) | _ => None end.
Definition demo_pool (a b : Z) (symbols : list nat) (train_dates : list Z) (s : source) :=
  prepare_pooled symbols 0 train_dates [9; 10]%Z (fun sym => demo_data a b sym 0) s [] 2.
Definition up_to_8 : list Z := [1; 2; 3; 4; 5; 6; 7; 8]%Z.
Example C84_example :
  (exists c train test, demo_pool 0 5 [1; 0] up_to_8 PropITrain.demo_source = (c, Done (train, test)) /\
     map (fun w => (w_symbol w, w_date w)) (rows_of train) = [(Some (Some 0), 4%Z); (Some (Some 0), 6%Z); (Some (Some 1), 4%Z); (Some (Some 1), 6%Z)] /\
     map (fun w => (w_symbol w, w_date w)) (rows_of test) = [(Some (Some 0), 10%Z); (Some (Some 1), 10%Z)] /\
     map w_lags (rows_of test) = [Some (Some [Some 10%Q; Some 8%Q; Some 10%Q; Some 8%Q]); Some (Some [Some 15%Q; Some 8%Q; Some 15%Q; Some 8%Q])] /\
     exists c' train' test', demo_pool 7 0 [0; 1] up_to_8 PropITrain.demo_source = (c', Done (train', test')) /\ rows_of train = rows_of train' /\ rows_of test <> rows_of test') /\
  (exists c, demo_pool 0 5 [1; 0] [] PropITrain.demo_source = (c, Failed NoLagColumn)) /\
  (exists c train test, demo_pool 0 5 [1; 0] [] (mk_source [7] (Some 1) []) = (c, Done (train, test)) /\ map w_lags (rows_of test) = [Some (Some []); Some (Some [])]) /\
  fit (fun sym => demo_data 0 5 sym 0) PropITrain.demo_source [1; 0] false 1.
Proof.
  split; [|split; [|split]].
  - eexists. eexists. eexists. split; [vm_compute; reflexivity|]. do 3 (split; [vm_compute; reflexivity|]).
    eexists. eexists. eexists. split; [vm_compute; reflexivity|]. split; [reflexivity|]. vm_compute. discriminate.
  - eexists. vm_compute. reflexivity.
  - eexists. eexists. eexists. split; vm_compute; reflexivity.
  - assert (forall k, bars_ok (PropITrain.demo_sym k)) as B.
    { intros k. destruct (compress false (PropITrain.demo_base k) (Every 2)) as [(bars & l)|] eqn:C; [|discriminate].
      unfold PropITrain.demo_sym, PropITrain.demo_bars. rewrite C. apply (PropITrain.C83_bars false (PropITrain.demo_base k) (Every 2) bars l); [exact C| |].
      - cbn. lia.
      - intros r I. unfold PropITrain.demo_base in I. apply in_map_iff in I. destruct I as (d & <- & _). reflexivity. }
    assert (forall k, source_ok (PropITrain.demo_sym k) PropITrain.demo_source) as S1.
    { intros k. split; [repeat constructor; cbn; tauto|]. intros x [<-|[]] [H|[(H & _)|H]]; cbn in H; lia. }
    intros sym [<-|[<-|[]]]; cbn [demo_data]; eexists; (split; [reflexivity|]); split; auto.
Qed.
