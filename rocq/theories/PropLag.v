(** C59, C60, C61: lag features of models. *)
From Verif Require Import LagProofs.

(** C59: on whatever models were asked before, each row handed to a model for
    prediction holds, for each lag column, the symbol's value on that bar and on the
    1, 2, ..., lags bars before it. *)
Theorem C59_prediction_rows h s sym columns lags row_dates s' rows :
  scope_of h s -> lag_features (Some h) sym columns lags row_dates s = (s', Ok rows) ->
  exists dates, h_dates h sym = Some dates /\ lag_rows dates (h_column h sym) columns lags row_dates rows.
Proof. intros S0 E. exact (lag_features_rows _ _ _ _ _ _ _ _ (scope_of_inv _ _ S0) E). Qed.
Print Assumptions C59_prediction_rows.

(** C59: and it is never refused for a run of consecutive bars of a symbol that has
    the columns. *)
Theorem C59_prediction_defined h s sym columns lags before row_dates after :
  scope_of h s -> history_ok h -> columns <> [] -> h_dates h sym = Some (before ++ row_dates ++ after) ->
  (forall col, In col columns -> h_column h sym col <> None) ->
  exists s' rows, lag_features (Some h) sym columns lags row_dates s = (s', Ok rows).
Proof. intros S0 HO NE Hd Hc. exact (lag_features_defined _ _ _ _ _ _ _ _ (scope_of_inv _ _ S0) HO NE Hd Hc). Qed.
Print Assumptions C59_prediction_defined.

(** C59: the same for the rows a model is trained and tested on. *)
Theorem C59_training_rows h c d sym columns lags train test cd a b :
  trained_of h c d -> train_lag_features h sym columns lags train test c d = (cd, Ok (a, b)) ->
  exists dates, h_dates h sym = Some dates /\
    lag_rows dates (h_column h sym) columns lags train a /\ lag_rows dates (h_column h sym) columns lags test b.
Proof.
  intros T E. apply trained_inv in T. unfold train_lag_features in E. destruct (merge_store _ _ _ _ _ _) as [[c1 d1] [[]|e]] eqn:M; [|inversion E].
  destruct (merge_store_spec _ _ _ _ _ _ _ _ _ T M) as ((I1 & I2) & _). inversion E as [[Ecd E']]. clear E. destruct (dget sym d1) as [dates|] eqn:D; [|discriminate].
  exists dates. split; [exact (I2 _ _ D)|].
  destruct (build_matrix sym None columns lags train dates c1) as [ma|e] eqn:B1; cbn [bind] in E'; [|discriminate].
  destruct (build_matrix sym None columns lags test dates c1) as [mb|e] eqn:B2; cbn [bind] in E'; [|discriminate]. inversion E'; subst.
  split; [exact (matrix_rows _ _ _ _ _ _ _ _ _ I1 B1)|exact (matrix_rows _ _ _ _ _ _ _ _ _ I1 B2)].
Qed.
Print Assumptions C59_training_rows.

Theorem C59_training_defined h c d sym columns lags b1 train a1 b2 test a2 :
  trained_of h c d -> history_ok h -> train <> [] ->
  h_dates h sym = Some (b1 ++ train ++ a1) -> b1 ++ train ++ a1 = b2 ++ test ++ a2 ->
  (forall col, In col columns -> h_column h sym col <> None) ->
  exists cd r, train_lag_features h sym columns lags train test c d = (cd, Ok r).
Proof.
  intros T HO NE Hd Eq Hc. apply trained_inv in T. unfold train_lag_features. destruct (merge_store c d h [sym] columns lags) as [[c1 d1] r] eqn:M.
  destruct (merge_store_spec _ _ _ _ _ _ _ _ _ T M) as ((I1 & I2) & _ & _ & A & O). rewrite O in * by (intros s col [<-|[]] Ic; exact (Hc col Ic)).
  assert (b1 ++ train ++ a1 <> []) as N. { destruct train; [congruence|]. destruct b1; discriminate. }
  destruct (A eq_refl sym _ (or_introl eq_refl) Hd N) as (D & St). rewrite D. destruct (HO _ _ Hd) as (HS & HL).
  assert (forall dd, dd = b1 ++ train ++ a1 -> forall col, In col columns -> exists v st, hist_of h (mk_lkey sym col None) = Some v /\ length v = length dd
     /\ lget (mk_lkey sym col None) c1 = Some st /\ S lags <= length st) as H.
  { intros dd -> col Ic. destruct (h_column h sym col) as [v|] eqn:V; [|destruct (Hc col Ic V)]. destruct (St col Ic) as (st & G & L). exists v, st. split; [exact V|]. split; [exact (HL _ _ V)|auto]. }
  destruct (matrix_defined (hist_of h) c1 sym None columns lags b1 train a1 I1 HS (H _ eq_refl)) as (m1 & ->). cbn [bind]. rewrite Eq in *.
  destruct (matrix_defined (hist_of h) c1 sym None columns lags b2 test a2 I1 HS (H _ eq_refl)) as (m2 & ->). cbn [bind]. eauto.
Qed.
Print Assumptions C59_training_defined.

(** C59: a frame of several symbols: each row of a pooled symbol holds the lags of
    its own symbol, whatever the order of the rows. *)
Theorem C59_pooled_rows h c d sym_col columns lags row_dates symbols rows :
  trained_of h c d -> build_matrix_pooled sym_col columns lags row_dates d c symbols None = Ok rows ->
  length rows = length sym_col /\
  forall i sym, nth_error sym_col i = Some sym -> In sym symbols ->
    exists dates t row, h_dates h sym = Some dates /\ nth_error row_dates i = Some t /\ nth_error rows i = Some (Some row) /\
      lag_row dates (h_column h sym) columns lags t row.
Proof.
  intros T E. apply trained_inv in T. destruct T as (I1 & I2). unfold build_matrix_pooled in E.
  apply (pooled_loop_spec _ _ _ _ _ _ _ _ _ I1) in E; [|apply repeat_length]. rewrite repeat_length in E. destruct E as (L & H). split; [exact L|].
  intros i sym Hi Is. destruct (H i sym Hi) as (H1 & _). destruct H1 as (hd & t & row & D & Hd & Hr & LR).
  { split; [|exact Is]. apply unique_in. exact (nth_error_In _ _ Hi). }
  exists hd, t, row. split; [exact (I2 _ _ D)|auto].
Qed.
Print Assumptions C59_pooled_rows.

Theorem C59_pooled_defined h c d c' d' sym_col columns lags row_dates symbols :
  trained_of h c d -> history_ok h -> merge_store c d h symbols columns lags = ((c', d'), Ok tt) -> length sym_col = length row_dates ->
  (forall sym, In sym sym_col -> In sym symbols -> exists before sd after, h_dates h sym = Some (before ++ sd ++ after) /\ before ++ sd ++ after <> [] /\
     gather row_dates (positions sym sym_col) = Ok sd /\ forall col, In col columns -> h_column h sym col <> None) ->
  exists rows, build_matrix_pooled sym_col columns lags row_dates d' c' symbols None = Ok rows.
Proof.
  intros T HO M L H. apply trained_inv in T. destruct (merge_store_spec _ _ _ _ _ _ _ _ _ T M) as ((I1 & I2) & _ & _ & A & _).
  apply (pooled_defined (hist_of h)); [exact I1|exact L|]. intros sym Ic Is. destruct (H sym Ic Is) as (p & sd & q & Hd & NE & G & Hc).
  destruct (A eq_refl sym _ Is Hd NE) as (D & St). destruct (HO _ _ Hd) as (HS & HL). exists p, sd, q. split; [exact D|]. split; [exact HS|]. split; [exact G|].
  intros col Icol. destruct (h_column h sym col) as [v|] eqn:V; [|destruct (Hc col Icol V)]. destruct (St col Icol) as (st & Gs & Ls). exists v, st.
  split; [exact V|]. split; [exact (HL _ _ V)|auto].
Qed.
Print Assumptions C59_pooled_defined.

(** C60: histories that agree up to a date give the same prediction features on the
    bars up to that date, whatever was asked of either before. *)
Theorem C60_prediction_causal h1 h2 s1 s2 sym columns lags row_dates s1' s2' rows1 rows2 until :
  scope_of h1 s1 -> scope_of h2 s2 -> history_ok h1 -> agree_until until h1 h2 ->
  lag_features (Some h1) sym columns lags row_dates s1 = (s1', Ok rows1) ->
  lag_features (Some h2) sym columns lags row_dates s2 = (s2', Ok rows2) ->
  forall i t, nth_error row_dates i = Some t -> (t <= until)%Z -> nth_error rows1 i = nth_error rows2 i.
Proof.
  intros S1 S2 HO A E1 E2 i t Ht Le. apply C59_prediction_rows in E1, E2; [|assumption..]. destruct E1 as (d1 & D1 & R1), E2 as (d2 & D2 & R2).
  destruct (A sym) as (Ad & Ac). rewrite D1, D2 in Ad. inversion Ad; subst d2. destruct (HO _ _ D1) as (HS & _).
  destruct (Forall2_nth _ _ _ R1 _ _ Ht) as (r1 & N1 & L1). destruct (Forall2_nth _ _ _ R2 _ _ Ht) as (r2 & N2 & L2). rewrite N1, N2. f_equal.
  apply (lag_row_agree d1 (h_column h1 sym) (h_column h2 sym) columns lags t); auto.
  intros col v1 v2 j u _ V1 V2 Hu Lu. specialize (Ac col). rewrite V1, V2 in Ac. apply (Ac d1 j u); auto. lia.
Qed.
Print Assumptions C60_prediction_causal.

(** C60: and the same training features. *)
Theorem C60_training_causal h1 h2 c1 d1 c2 d2 sym columns lags train test cd1 cd2 a1 b1 a2 b2 until :
  trained_of h1 c1 d1 -> trained_of h2 c2 d2 -> history_ok h1 -> agree_until until h1 h2 ->
  train_lag_features h1 sym columns lags train test c1 d1 = (cd1, Ok (a1, b1)) ->
  train_lag_features h2 sym columns lags train test c2 d2 = (cd2, Ok (a2, b2)) ->
  forall i t, (nth_error train i = Some t -> (t <= until)%Z -> nth_error a1 i = nth_error a2 i) /\
              (nth_error test i = Some t -> (t <= until)%Z -> nth_error b1 i = nth_error b2 i).
Proof.
  intros S1 S2 HO A E1 E2 i t. apply C59_training_rows in E1, E2; [|assumption..]. destruct E1 as (dd & D1 & R1 & Q1), E2 as (dd2 & D2 & R2 & Q2).
  destruct (A sym) as (Ad & Ac). rewrite D1, D2 in Ad. inversion Ad; subst dd2. destruct (HO _ _ D1) as (HS & _).
  assert (forall r1 r2, (t <= until)%Z -> lag_row dd (h_column h1 sym) columns lags t r1 -> lag_row dd (h_column h2 sym) columns lags t r2 -> r1 = r2) as Eq.
  { intros r1 r2 Le L1 L2. apply (lag_row_agree dd (h_column h1 sym) (h_column h2 sym) columns lags t); auto.
    intros col v1 v2 j u _ V1 V2 Hu Lu. specialize (Ac col). rewrite V1, V2 in Ac. apply (Ac dd j u); auto. lia. }
  split; intros Ht Le.
  - destruct (Forall2_nth _ _ _ R1 _ _ Ht) as (r1 & N1 & L1). destruct (Forall2_nth _ _ _ R2 _ _ Ht) as (r2 & N2 & L2). rewrite N1, N2. f_equal. auto.
  - destruct (Forall2_nth _ _ _ Q1 _ _ Ht) as (r1 & N1 & L1). destruct (Forall2_nth _ _ _ Q2 _ _ Ht) as (r2 & N2 & L2). rewrite N1, N2. f_equal. auto.
Qed.
Print Assumptions C60_training_causal.

(** C60: and the same features in a frame of several symbols. *)
Theorem C60_pooled_causal h1 h2 c1 d1 c2 d2 sym_col columns lags row_dates symbols rows1 rows2 until :
  trained_of h1 c1 d1 -> trained_of h2 c2 d2 -> history_ok h1 -> agree_until until h1 h2 ->
  build_matrix_pooled sym_col columns lags row_dates d1 c1 symbols None = Ok rows1 ->
  build_matrix_pooled sym_col columns lags row_dates d2 c2 symbols None = Ok rows2 ->
  forall i sym t, nth_error sym_col i = Some sym -> In sym symbols -> nth_error row_dates i = Some t -> (t <= until)%Z ->
    nth_error rows1 i = nth_error rows2 i.
Proof.
  intros S1 S2 HO A E1 E2 i sym t Hs Is Ht Le. apply (C59_pooled_rows h1) in E1; [|exact S1]. apply (C59_pooled_rows h2) in E2; [|exact S2].
  destruct E1 as (_ & E1), E2 as (_ & E2). destruct (E1 i sym Hs Is) as (dd & t1 & r1 & D1 & T1 & N1 & L1). destruct (E2 i sym Hs Is) as (dd2 & t2 & r2 & D2 & T2 & N2 & L2).
  rewrite Ht in T1, T2. inversion T1; inversion T2; subst t1 t2. destruct (A sym) as (Ad & Ac). rewrite D1, D2 in Ad. inversion Ad; subst dd2.
  destruct (HO _ _ D1) as (HS & _). rewrite N1, N2. do 2 f_equal.
  apply (lag_row_agree dd (h_column h1 sym) (h_column h2 sym) columns lags t); auto.
  intros col v1 v2 j u _ V1 V2 Hu Lu. specialize (Ac col). rewrite V1, V2 in Ac. apply (Ac dd j u); auto. lia.
Qed.
Print Assumptions C60_pooled_causal.

(** C61: training keeps exactly the rows that come after the warm-up of their symbol,
    each with all that belongs to it, in their order. *)
Theorem C61_kept m rows m' : input_ok m -> i_lags m = Some rows -> drop_lag_warmup m = Ok m' ->
  exists keep, length keep = length (i_dates m) /\
    (forall j, j < length (i_dates m) -> (nth_error keep j = Some true <-> warm m rows j)) /\
    rows_of m' = marked keep (rows_of m) /\ input_ok m'.
Proof. apply drop_spec. Qed.
Print Assumptions C61_kept.

(** C61: training fails exactly when no row has all its lag features. *)
Theorem C61_raises m rows e : input_ok m -> i_lags m = Some rows -> i_dates m <> [] ->
  (drop_lag_warmup m = Raise e <-> e = NothingToTrain /\ Forall (In None) rows).
Proof. apply drop_raises. Qed.
Print Assumptions C61_raises.

(** C61: when no column has a NaN, the rows dropped are exactly those with fewer
    than [lags] earlier bars: none when the history starts early enough. *)
Theorem C61_warmup_bars m rows dates before after series columns lags j :
  input_ok m -> i_symbols m = None -> i_lags m = Some rows -> columns <> [] ->
  StronglySorted Z.lt dates -> dates = before ++ i_dates m ++ after ->
  lag_rows dates series columns lags (i_dates m) rows ->
  (forall col v, In col columns -> series col = Some v -> ~ In None v) ->
  j < length (i_dates m) -> (warm m rows j <-> lags <= length before + j).
Proof.
  intros O Hs Hr NE HS Ed LR NN Hj.
  assert (forall i row, nth_error rows i = Some row -> i < length (i_dates m) -> (~ In None row <-> lags <= length before + i)) as C.
  { intros i row Hi Li. destruct (nth_lt_some _ _ Li) as (d & Hd). destruct (Forall2_nth _ _ _ LR _ _ Hd) as (row' & N & L). rewrite Hi in N. inversion N; subst row'.
    apply (lag_row_complete dates series columns lags d row (length before + i)); auto.
    rewrite Ed, nth_error_app2 by lia. replace (length before + i - length before) with i by lia. rewrite nth_error_app1 by exact Li. exact Hd. }
  destruct O as (O1 & O2 & O3). pose proof (O3 _ Hr) as Lr. split.
  - intros (i & row & (Hi & _) & Hrow & N). apply (C i row Hrow) in N; lia.
  - intros Hl. destruct (nth_lt_some rows j ltac:(lia)) as (row & Hrow). apply (self_warm m rows j row); [split; [exact O1|split; assumption]|exact Hrow|exact Hj|].
    apply (C j row Hrow Hj). exact Hl.
Qed.
Print Assumptions C61_warmup_bars.

(** Two symbols of five and four bars, one column with a gap; two lags. *)
Definition hx : history := mk_history
  (fun s => match s with 1 => Some [10; 20; 30; 40; 50]%Z | 2 => Some [20; 30; 40; 50]%Z | _ => None end)
  (fun s c => match s, c with
     | 1, 0 => Some [Some 1; Some 2; Some 3; Some 4; Some 5]%Q | 2, 0 => Some [Some 6; None; Some 8; Some 9]%Q
     | 1, 1 => Some [Some 11; Some 12; Some 13; Some 14; Some 15]%Q | _, _ => None end).
Example hx_ok : history_ok hx.
Proof.
  intros [|[|[|s]]] dates E; cbn in E; inversion E; subst; (split; [repeat (constructor; [|repeat (constructor; try lia)]); constructor|]);
    intros [|[|c]] v Ev; cbn in Ev; inversion Ev; subst; reflexivity.
Qed.
(** One model asks for column 0 with one lag, the next for both columns with two. *)
Definition sx := fst (lag_features (Some hx) 1 [0] 1 [30; 40]%Z new_scope).
Example sx_of : scope_of hx sx.
Proof. apply (scope_more hx new_scope sx 1 [0] 1 [30; 40]%Z (snd (lag_features (Some hx) 1 [0] 1 [30; 40]%Z new_scope))); [constructor|reflexivity]. Qed.
Example features_run : snd (lag_features (Some hx) 1 [0; 1] 2 [20; 30]%Z sx) =
  Ok [[Some 2; Some 1; None; Some 12; Some 11; None]; [Some 3; Some 2; Some 1; Some 13; Some 12; Some 11]]%Q.
Proof. reflexivity. Qed.
Example train_run : snd (train_lag_features hx 1 [0] 1 [10; 20]%Z [30]%Z [] []) = Ok ([[Some 1; None]; [Some 2; Some 1]], [[Some 3; Some 2]])%Q.
Proof. reflexivity. Qed.
Definition cdx := fst (merge_store [] [] hx [1; 2] [0] 1).
Example cdx_of : trained_of hx (fst cdx) (snd cdx).
Proof. apply (trained_more hx [] [] _ _ [1; 2] [0] 1 (Ok tt)); [constructor|reflexivity]. Qed.
Example pooled_run : build_matrix_pooled [1; 1; 2; 2; 2] [0] 1 [10; 20; 20; 30; 40]%Z (snd cdx) (fst cdx) [1; 2] None =
  Ok [Some [Some 1; None]; Some [Some 2; Some 1]; Some [Some 6; None]; Some [None; Some 6]; Some [Some 8; None]]%Q.
Proof. reflexivity. Qed.
(** A history that differs from 40 on. *)
Definition hy : history := mk_history (h_dates hx)
  (fun s c => match s, c with 1, 0 => Some [Some 1; Some 2; Some 3; Some 40; Some 50]%Q | _, _ => h_column hx s c end).
Example agree_hy : agree_until 30 hx hy.
Proof.
  intros s. split; [reflexivity|]. intros c. destruct s as [|[|[|s]]]; cbn; try (destruct c as [|[|c]]; cbn; auto; intros; reflexivity).
  destruct c as [|[|c]]; cbn; auto.
  intros dates i t E Ht Le. inversion E; subst. do 5 (destruct i as [|i]; [cbn in *; inversion Ht; subst; try reflexivity; lia|]). destruct i; discriminate.
Qed.
(** Rows of two symbols: the warm-up of each is dropped, the later gap of the second is kept. *)
Definition mx : input := mk_input (Some [1; 1; 2; 2; 2; 2]) [10; 20; 20; 30; 40; 50]%Z [(0, [Some 1; Some 2; Some 6; Some 7; None; Some 9]%Q)]
  (Some [[Some 1; None]; [Some 2; Some 1]; [Some 6; None]; [Some 7; Some 6]; [None; Some 7]; [Some 9; None]])%Q.
Example mx_ok : input_ok mx.
Proof. split; [|split]; cbn; intros x E; [inversion E; reflexivity|destruct E as [<-|[]]; reflexivity|inversion E; reflexivity]. Qed.
Example mx_dropped : drop_lag_warmup mx = Ok (mk_input (Some [1; 2; 2; 2]) [20; 30; 40; 50]%Z [(0, [Some 2; Some 7; None; Some 9]%Q)]
  (Some [[Some 2; Some 1]; [Some 7; Some 6]; [None; Some 7]; [Some 9; None]])%Q).
Proof. reflexivity. Qed.
Example single_dropped : drop_lag_warmup (mk_input None [10; 20; 30]%Z [] (Some [[Some 1; None]; [Some 2; Some 1]; [Some 3; Some 2]]%Q)) =
  Ok (mk_input None [20; 30]%Z [] (Some [[Some 2; Some 1]; [Some 3; Some 2]]%Q)).
Proof. reflexivity. Qed.
Example none_left : drop_lag_warmup (mk_input None [10; 20]%Z [] (Some [[Some 1; None]; [None; Some 1]]%Q)) = Raise NothingToTrain.
Proof. reflexivity. Qed.
