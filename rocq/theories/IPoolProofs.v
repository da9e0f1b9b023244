(** Proofs about the pooled frames of interval-bound models. *)
From Verif Require Import IntervalProofs IntervalReads.
From Verif Require Import LagProofs.
From Verif Require Import ITrainSpec ITrainProofs.
From Coq Require Import Lia Permutation.
Open Scope list_scope.
Open Scope nat_scope.

Notation tag := ((nat * (nat * cbar))%type) (only parsing).
Section Pool.
Variable data : nat -> option sym_data.
Variable s : source.

(** A bar of a symbol: the symbol, the position and the bar. *)
Definition mk (t : tag) : irow := match data (fst t) with Some y => row_at (fst t) y s (snd t) | None => mk_irow (fst t) (c_date (snd (snd t))) [] end.
Lemma mk_sym t : w_sym (mk t) = fst t.
Proof. unfold mk. destruct (data (fst t)); reflexivity. Qed.
Lemma mk_when t : w_when (mk t) = c_date (snd (snd t)).
Proof. unfold mk. destruct (data (fst t)); reflexivity. Qed.
Definition pick (P : sym_data -> Z -> bool) (symbols : list nat) : list tag :=
  flat_map (fun sym => match data sym with Some y => map (fun ib => (sym, ib)) (sel (y_bars y) (P y)) | None => [] end) symbols.
Lemma pick_in P symbols sym i b : In (sym, (i, b)) (pick P symbols) <->
  In sym symbols /\ exists y, data sym = Some y /\ nth_error (y_bars y) i = Some b /\ P y (c_date b) = true.
Proof.
  unfold pick. rewrite in_flat_map. split.
  - intros (s0 & I & H). destruct (data s0) as [y|] eqn:Y; [|destruct H]. apply in_map_iff in H. destruct H as (ib & E & H). injection E as -> ->. apply sel_in in H. split; [exact I|]. exists y. auto.
  - intros (I & y & Y & B & P1). exists sym. split; [exact I|]. rewrite Y. apply in_map_iff. exists (i, b). split; [reflexivity|]. apply sel_in. auto.
Qed.

(** Sorting. *)
Definition tb (a b : tag) : bool := row_before (mk a) (mk b).
Lemma tb_spec a b : tb a b = true <-> fst a < fst b \/ (fst a = fst b /\ (c_date (snd (snd a)) < c_date (snd (snd b)))%Z).
Proof. unfold tb, row_before. rewrite !mk_sym, !mk_when, orb_true_iff, andb_true_iff, Nat.ltb_lt, Nat.eqb_eq, Z.ltb_lt. reflexivity. Qed.
Fixpoint tinsert (x : tag) (l : list tag) : list tag := match l with [] => [x] | y :: r => if tb y x then y :: tinsert x r else x :: l end.
Definition tsort (l : list tag) : list tag := fold_right tinsert [] l.
Lemma insert_map x l : insert_row (mk x) (map mk l) = map mk (tinsert x l).
Proof. induction l as [|y r IH]; [reflexivity|]. cbn [map insert_row tinsert]. unfold tb. destruct (row_before (mk y) (mk x)); [cbn [map]; rewrite IH|]; reflexivity. Qed.
Lemma sort_map l : sort_rows (map mk l) = map mk (tsort l).
Proof. unfold sort_rows, tsort. induction l as [|x l IH]; [reflexivity|]. cbn [map fold_right]. rewrite IH. apply insert_map. Qed.
Lemma tinsert_perm x l : Permutation (x :: l) (tinsert x l).
Proof. induction l as [|y r IH]; [reflexivity|]. cbn [tinsert]. destruct (tb y x); [|reflexivity]. rewrite perm_swap. apply perm_skip, IH. Qed.
Lemma tsort_perm l : Permutation l (tsort l).
Proof. unfold tsort. induction l as [|x l IH]; [reflexivity|]. cbn [fold_right]. etransitivity; [apply perm_skip, IH|apply tinsert_perm]. Qed.
Definition key (t : tag) : nat * Z := (fst t, c_date (snd (snd t))).
Definition tlt (a b : tag) : Prop := tb a b = true.
Lemma tinsert_sorted x l : StronglySorted tlt l -> ~ In (key x) (map key l) -> StronglySorted tlt (tinsert x l).
Proof.
  induction 1 as [|y l HS IH F]; intros N; [repeat constructor|]. cbn [tinsert]. destruct (tb y x) eqn:B.
  - constructor; [apply IH; intros I; apply N; right; exact I|]. rewrite Forall_forall in *. intros z I.
    apply (Permutation_in _ (Permutation_sym (tinsert_perm x l))) in I. destruct I as [<-|I]; [exact B|exact (F z I)].
  - assert (tlt x y) as L.
    { unfold tlt. apply tb_spec. assert (~ (fst y < fst x \/ (fst y = fst x /\ (c_date (snd (snd y)) < c_date (snd (snd x)))%Z))) as NB by (rewrite <- tb_spec; congruence).
      assert (key y <> key x) as NK by (intros Q; apply N; left; exact Q). unfold key in NK.
      destruct (Nat.lt_trichotomy (fst x) (fst y)) as [L|[E|L]]; [left; exact L|right; split; [exact E|]|exfalso; apply NB; left; exact L].
      destruct (Z.lt_trichotomy (c_date (snd (snd x))) (c_date (snd (snd y)))) as [L|[Q|L]]; [exact L|exfalso; apply NK; congruence|]. exfalso. apply NB. right. split; [congruence|exact L]. }
    constructor; [constructor; assumption|]. constructor; [exact L|]. rewrite Forall_forall in *. intros z I. specialize (F z I). unfold tlt in *. rewrite tb_spec in *. lia.
Qed.
Lemma tsort_sorted l : NoDup (map key l) -> StronglySorted tlt (tsort l).
Proof.
  unfold tsort. induction l as [|x l IH]; intros N; [constructor|]. cbn [fold_right]. cbn [map] in N. inversion N; subst. apply tinsert_sorted; [apply IH; assumption|].
  intros I. apply in_map_iff in I. destruct I as (z & E & I). apply (Permutation_in _ (Permutation_sym (tsort_perm l))) in I. match goal with H : ~ In (key x) _ |- _ => apply H end.
  rewrite <- E. apply in_map, I.
Qed.

Lemma nodup_apart (m l : list (nat * Z)) sym : NoDup m -> NoDup l -> (forall k, In k m -> fst k = sym) -> (forall k, In k l -> fst k <> sym) -> NoDup (m ++ l).
Proof.
  intros N1 N2 FS NS. induction m as [|k m IHm]; [exact N2|]. inversion N1; subst. cbn [app]. constructor.
  - intros I. apply in_app_iff in I. destruct I as [I|I]; [contradiction|]. apply (NS k I), FS. left. reflexivity.
  - apply IHm; [assumption|]. intros q I. apply FS. right. exact I.
Qed.
(** The data are fit. *)
Variable symbols : list nat.
Hypothesis ND : NoDup symbols.
Hypothesis OK : forall sym y, In sym symbols -> data sym = Some y -> bars_ok y.
Lemma pick_keys P : NoDup (map key (pick P symbols)).
Proof.
  revert ND OK. induction symbols as [|sym l IH]; intros N K; [constructor|]. inversion N as [|? ? NI N']; subst. cbn [pick flat_map].
  fold (pick P l). specialize (IH N' ltac:(intros s0 y0 I; apply K; right; exact I)). rewrite map_app.
  assert (forall k, In k (map key (pick P l)) -> fst k <> sym) as NS.
  { intros k I E. apply in_map_iff in I. destruct I as ((s0 & (i & b)) & <- & I). cbn in E. subst s0. apply pick_in in I. apply NI, I. }
  destruct (data sym) as [y|] eqn:Y; [|exact IH]. pose proof (K sym y (or_introl eq_refl) Y) as (INC & _). apply increasing_sorted in INC.
  assert (NoDup (map key (map (fun ib => (sym, ib)) (sel (y_bars y) (P y))))) as N1.
  { rewrite map_map. unfold key. cbn [fst snd]. pose proof (sel_sorted (y_bars y) (P y)) as SS.
    assert (forall ib, In ib (sel (y_bars y) (P y)) -> nth_error (y_bars y) (fst ib) = Some (snd ib)) as NB by (intros (i & b) I; apply sel_in in I; apply I).
    revert SS NB. induction (sel (y_bars y) (P y)) as [|(i & b) r IHr]; intros SS NB; [constructor|]. cbn [map fst] in SS. inversion SS as [|? ? SS' F]; subst. cbn [map]. constructor.
    - intros I. apply in_map_iff in I. destruct I as ((i' & b') & E & I). cbn [snd] in E. injection E as E.
      assert (i' = i).
      { apply (sorted_nth_inj (map c_date (y_bars y)) i' i (c_date b)); [exact INC| |]; rewrite nth_error_map.
        - pose proof (NB (i', b') (or_intror I)) as Q. cbn [fst snd] in Q. rewrite Q. cbn. congruence.
        - pose proof (NB (i, b) (or_introl eq_refl)) as Q. cbn [fst snd] in Q. rewrite Q. reflexivity. }
      rewrite Forall_forall in F. specialize (F i'). assert (i < i') by (apply F, in_map_iff; exists (i', b'); auto). lia.
    - apply IHr; [exact SS'|]. intros ib I. apply NB. right. exact I. }
  assert (forall k, In k (map key (map (fun ib => (sym, ib)) (sel (y_bars y) (P y)))) -> fst k = sym) as FS.
  { intros k I. rewrite map_map in I. apply in_map_iff in I. destruct I as (ib & <- & _). reflexivity. }
  pose proof IH as N2. clear IH.
  exact (nodup_apart _ _ sym N1 N2 FS NS).
Qed.

(** The sorted bars, by symbol and position. *)
Definition ids (l : list tag) : list (nat * nat) := map (fun t => (fst t, fst (snd t))) l.
Lemma ids_sorted P : StronglySorted pair_lt (ids (tsort (pick P symbols))).
Proof.
  pose proof (tsort_sorted _ (pick_keys P)) as SS.
  assert (forall t, In t (tsort (pick P symbols)) -> exists y, data (fst t) = Some y /\ In (fst t) symbols /\ nth_error (y_bars y) (fst (snd t)) = Some (snd (snd t))) as V.
  { intros (sym & (i & b)) I. apply (Permutation_in _ (Permutation_sym (tsort_perm _))) in I. apply pick_in in I. destruct I as (I & y & Y & B & _). exists y. auto. }
  revert V. induction SS as [|a l HS IH F]; intros V; [constructor|]. cbn [ids map]. constructor; [apply IH; intros t I; apply V; right; exact I|].
  rewrite Forall_forall in *. intros q I. apply in_map_iff in I. destruct I as (b & <- & I). specialize (F b I). unfold tlt in F. apply tb_spec in F. unfold pair_lt. cbn [fst snd].
  destruct F as [L|(E & L)]; [left; exact L|right; split; [exact E|]].
  destruct (V a (or_introl eq_refl)) as (y & Y & Is & B). destruct (V b (or_intror I)) as (y' & Y' & _ & B'). assert (y' = y) as -> by congruence.
  destruct (OK _ _ Is Y) as (INC & _). apply increasing_sorted in INC.
  destruct (Nat.lt_trichotomy (fst (snd a)) (fst (snd b))) as [Q|[Q|Q]]; [exact Q| |].
  - rewrite Q, B' in B. injection B as B. rewrite B in L. lia.
  - pose proof (sorted_nth_lt _ INC (fst (snd b)) (fst (snd a)) (c_date (snd (snd b))) (c_date (snd (snd a))) Q) as Z1.
    rewrite !nth_error_map, B, B' in Z1. specialize (Z1 eq_refl eq_refl). lia.
Qed.
Lemma ids_in P sym i : In (sym, i) (ids (tsort (pick P symbols))) <-> In sym symbols /\ exists y, data sym = Some y /\ In i (map fst (sel (y_bars y) (P y))).
Proof.
  unfold ids. rewrite in_map_iff. split.
  - intros ((s0 & (i0 & b)) & E & I). cbn in E. injection E as -> ->. apply (Permutation_in _ (Permutation_sym (tsort_perm _))) in I. apply pick_in in I.
    destruct I as (I & y & Y & B & Q). split; [exact I|]. exists y. split; [exact Y|]. apply sel_map_in. eauto.
  - intros (I & y & Y & H). apply sel_map_in in H. destruct H as (b & B & Q). exists (sym, (i, b)). split; [reflexivity|]. apply (Permutation_in _ (tsort_perm _)). apply pick_in. eauto.
Qed.

(** The loop over the symbols. *)
Lemma parts_done train test la : forall l tr te d, pool_parts l train test data s la = Done (tr, te, d) ->
  tr = map mk (pick (fun y dt => zmem dt (fst (lookahead_train_dates (bar_dates y) train test la))) l) /\
  te = map mk (pick (fun y dt => zmem dt test) l) /\
  (forall sym, In sym l -> exists y, data sym = Some y /\ dget sym d = Some (bar_dates y) /\ indicators_ok y s).
Proof.
  induction l as [|sym l IH]; intros tr te d E; cbn [pool_parts] in E; [injection E as <- <- <-; split; [reflexivity|]; split; [reflexivity|intros ? []]|].
  destruct (data sym) as [y|] eqn:Y; [|discriminate]. destruct (build_arrays sym y s) as [rows|] eqn:B; cbn [obind] in E; [|discriminate].
  destruct (pool_parts l train test data s la) as [((tr' & te') & d')|] eqn:P; cbn [obind] in E; [|discriminate]. cbv zeta in E.
  apply done_inj, pair_inj in E. destruct E as (E & <-). apply pair_inj in E. destruct E as (<- & <-). destruct (build_done _ _ _ _ B) as (-> & IN). rewrite !slice_sel.
  destruct (IH _ _ _ eq_refl) as (-> & -> & D). cbn [pick flat_map]. rewrite Y. rewrite !map_app, !map_map.
  assert (forall l0, map (row_at sym y s) l0 = map (fun x => mk (sym, x)) l0) as ME.
  { intros l0. apply map_ext. intros ib. unfold mk. cbn [fst snd]. rewrite Y. reflexivity. }
  split; [rewrite <- ME; reflexivity|]. split; [rewrite <- ME; reflexivity|]. intros s0 I. cbn [dget]. destruct (Nat.eqb_spec s0 sym) as [->|NE].
  - exists y. split; [exact Y|]. split; [reflexivity|exact IN].
  - destruct I as [<-|I]; [congruence|]. exact (D s0 I).
Qed.

(** Frames. *)
Variable columns : list nat.
Hypothesis COLS : forall sym y, In sym symbols -> data sym = Some y -> all_columns y s = columns.
Hypothesis IN : forall sym y, In sym symbols -> data sym = Some y -> indicators_ok y s.
Lemma tag_of P t : In t (tsort (pick P symbols)) -> exists y, In (fst t) symbols /\ data (fst t) = Some y /\ nth_error (y_bars y) (fst (snd t)) = Some (snd (snd t)) /\
  mk t = row_at (fst t) y s (snd t).
Proof.
  intros I. destruct t as (sym & (i & b)). apply (Permutation_in _ (Permutation_sym (tsort_perm _))) in I. apply pick_in in I. destruct I as (I & y & Y & B & _). exists y.
  split; [exact I|]. split; [exact Y|]. split; [exact B|]. unfold mk. cbn [fst snd]. rewrite Y. reflexivity.
Qed.
Lemma pooled_frame P lags :
  match so_lags s with
  | None => lags = None
  | Some n => exists cols rows, lags = Some rows /\
      Forall2 (fun t row => exists y, data (fst t) = Some y /\ lag_columns y s cols /\ features y cols n (fst (snd t)) row) (tsort (pick P symbols)) rows
  end ->
  Forall2 (is_pooled_row data s) (ids (tsort (pick P symbols))) (rows_of (input_of true columns (map mk (tsort (pick P symbols))) lags)).
Proof.
  intros LG. apply Forall2_intro.
  - rewrite rows_of_length. cbn [input_of i_dates]. unfold ids. rewrite !map_length. reflexivity.
  - intros j q w I W. unfold ids in I. rewrite nth_error_map in I. destruct (nth_error (tsort (pick P symbols)) j) as [t|] eqn:T; [|discriminate]. cbn in I. injection I as <-.
    destruct (tag_of P t (nth_error_In _ _ T)) as (y & Is & Y & B & M). rewrite <- (COLS _ _ Is Y) in W.
    assert (nth_error (map mk (tsort (pick P symbols))) j = Some (row_at (fst t) y s (fst (snd t), snd (snd t)))) as S by (rewrite nth_error_map, T; cbn; rewrite M; destruct t as (? & (? & ?)); reflexivity).
    apply (row_of_input true (fst t) y s _ lags j (fst (snd t)) (snd (snd t)) w (OK _ _ Is Y) (IN _ _ Is Y) S B) in W.
    + destruct W as (W1 & W2). split; [exact W1|]. exists y. auto.
    + destruct (so_lags s) as [n|]; [|exact LG]. destruct LG as (cols & rows & -> & F). destruct (Forall2_nth _ _ _ F _ _ T) as (row & R & y' & Y' & LC & FE).
      assert (y' = y) as -> by congruence. exists cols, rows, row. auto.
Qed.
Lemma pooled_features P cols n c dates itv hist m' :
  entry hist c -> (forall sym y col, In sym symbols -> data sym = Some y -> In col cols -> hist (mk_lkey sym col (Some itv)) = series y col) ->
  (forall sym y, In sym symbols -> data sym = Some y -> lag_columns y s cols) ->
  (forall sym y, In sym symbols -> data sym = Some y -> dget sym dates = Some (bar_dates y)) ->
  tsort (pick P symbols) <> [] ->
  apply_lags_pooled (input_of true columns (map mk (tsort (pick P symbols))) None) cols n c dates symbols itv = Ok m' ->
  exists rows, m' = input_of true columns (map mk (tsort (pick P symbols))) (Some rows) /\
    Forall2 (fun t row => exists y, data (fst t) = Some y /\ lag_columns y s cols /\ features y cols n (fst (snd t)) row) (tsort (pick P symbols)) rows.
Proof.
  intros EN SE LC DA NE E. pose proof (tag_of P) as TO. revert NE TO E. generalize (tsort (pick P symbols)). intros T NE TO E. unfold apply_lags_pooled in E. cbn [input_of i_dates i_symbols] in E.
  destruct (map w_when (map mk T)) as [|z zs] eqn:W; [destruct T; [congruence|discriminate]|]. rewrite <- W in E. clear z zs W.
  destruct (build_matrix_pooled _ _ _ _ _ _ _ _) as [matrix|] eqn:B; cbn [bind] in E; [|discriminate].
  destruct (map_r _ matrix) as [rows|] eqn:M; cbn [bind] in E; [|discriminate]. injection E as <-. exists rows. split; [reflexivity|].
  unfold build_matrix_pooled in B. apply (pooled_loop_spec hist _ _ _ _ _ _ _ _ EN) in B; [|rewrite repeat_length; reflexivity]. destruct B as (LM & B).
  rewrite repeat_length, !map_length in LM. apply map_r_ok in M. apply Forall2_intro; [rewrite <- (Forall2_len _ _ _ M); symmetry; exact LM|].
  intros j t row Tj Rj. destruct (TO t (nth_error_In _ _ Tj)) as (y & Is & Y & Bt & _). exists y. split; [exact Y|]. split; [exact (LC _ _ Is Y)|].
  assert (nth_error (map w_sym (map mk T)) j = Some (fst t)) as Nj by (rewrite map_map, nth_error_map, Tj; cbn; rewrite mk_sym; reflexivity).
  destruct (B j (fst t) Nj) as (B1 & _). destruct B1 as (hd & d & row' & D & Rd & Mr & LR).
  { split; [apply unique_in, (nth_error_In _ _ Nj)|exact Is]. }
  rewrite (DA _ _ Is Y) in D. injection D as <-. destruct (Forall2_nth _ _ _ M _ _ Mr) as (row2 & R2 & E2). injection E2 as ->. assert (row2 = row) as -> by congruence.
  rewrite map_map, nth_error_map, Tj in Rd. cbn in Rd. rewrite mk_when in Rd. injection Rd as <-.
  apply (features_of y s cols n (fst (snd t)) (snd (snd t)) row (fun col => hist (mk_lkey (fst t) col (Some itv))) (OK _ _ Is Y) (LC _ _ Is Y) Bt); [|exact LR].
  intros col I. exact (SE _ _ col Is Y I).
Qed.
End Pool.

Lemma last_data_some data : forall l, (forall sym, In sym l -> data sym <> None) -> l <> [] -> exists sym y, In sym l /\ last_data l data = Some y /\ data sym = Some y.
Proof.
  induction l as [|sym l IH]; intros H N; [congruence|]. cbn [last_data]. destruct l as [|s2 l].
  - destruct (data sym) as [y|] eqn:Y; [|destruct (H sym (or_introl eq_refl) Y)]. exists sym, y. cbn. auto.
  - destruct IH as (s0 & y & I & L & Y); [intros s0 I; apply H; right; exact I|discriminate|]. exists s0, y. split; [right; exact I|auto].
Qed.
Lemma tsort_nil data s l : tsort data s l = [] <-> l = [].
Proof. split; intros E; [|subst; reflexivity]. pose proof (tsort_perm data s l) as P. rewrite E in P. apply Permutation_sym, Permutation_nil in P. exact P. Qed.
Lemma columns_same y y' s : y_vwap y = y_vwap y' -> y_customs y = y_customs y' -> all_columns y s = all_columns y' s /\ data_columns y = data_columns y'.
Proof. intros E1 E2. unfold all_columns, data_columns. rewrite E1, E2. auto. Qed.
Lemma lag_columns_same y y' s cols : y_vwap y = y_vwap y' -> y_customs y = y_customs y' -> lag_columns y s cols -> lag_columns y' s cols.
Proof.
  intros E1 E2. unfold lag_columns, is_column, is_data. rewrite E1, E2. tauto.
Qed.
Lemma merge_symbols_ok data itv cols lags s : forall symbols c c' r, entry (hist_run data) c ->
  merge_symbols c symbols itv cols lags (fun sym => data sym itv) s = (c', r) -> entry (hist_run data) c'.
Proof. intros symbols c c' r EN E. apply (merge_symbols_entry _ _ _ _ _ _ _ _ _ EN) in E; [exact E|]. intros. apply array_none. Qed.

(** The prefix that is dropped as warm-up. *)
Lemma warm_pooled (T : list tag) data s columns rows m : m = input_of true columns (map (mk data s) T) (Some rows) -> StronglySorted pair_lt (ids T) ->
  forall j t, nth_error T j = Some t -> (warm m rows j <-> exists j' t' row, j' <= j /\ nth_error T j' = Some t' /\ fst t' = fst t /\ nth_error rows j' = Some row /\ ~ In None row).
Proof.
  intros -> SS j t Tj. pose proof (nth_some_lt _ _ _ Tj) as Lj. unfold warm, same_run. cbn [input_of i_dates i_symbols]. rewrite !map_length.
  assert (forall k t', nth_error T k = Some t' -> nth_error (map w_sym (map (mk data s) T)) k = Some (fst t')) as SY by (intros k t' N; rewrite map_map, nth_error_map, N; cbn; rewrite mk_sym; reflexivity).
  split.
  - intros (j' & row & ((L & L2) & RUN) & R & N). destruct (nth_lt_some T j') as (t' & T'); [lia|]. exists j', t', row. split; [exact L|]. split; [exact T'|]. split; [|auto].
    specialize (RUN _ eq_refl j ltac:(lia)). rewrite (SY _ _ Tj), (SY _ _ T') in RUN. congruence.
  - intros (j' & t' & row & L & T' & E & R & N). exists j', row. split; [|auto]. split; [lia|]. intros l Q k K. injection Q as <-.
    destruct (nth_lt_some T k) as (tk & Tk); [lia|]. rewrite (SY _ _ Tk), (SY _ _ T'). f_equal.
    assert (forall a b ta tb, a <= b -> nth_error T a = Some ta -> nth_error T b = Some tb -> fst ta <= fst tb) as MO.
    { clear - SS. intros a b ta tb L A B. destruct (Nat.eq_dec a b) as [->|NE]; [assert (ta = tb) by congruence; subst; lia|].
      assert (a < b) as L' by lia. clear L NE. revert a b ta tb L' A B. unfold ids in SS. induction T as [|x T IH]; intros a b ta tb L A B; [destruct a; discriminate|].
      cbn [map] in SS. inversion SS as [|? ? SS' F]; subst. destruct b as [|b]; [lia|]. cbn in B. destruct a as [|a]; cbn in A.
      - injection A as ->. rewrite Forall_forall in F. assert (pair_lt (fst ta, fst (snd ta)) (fst tb, fst (snd tb))) as Q by (apply F; apply in_map_iff; exists tb; split; [reflexivity|exact (nth_error_In _ _ B)]).
        unfold pair_lt in Q. cbn [fst snd] in Q. lia.
      - apply (IH SS' a b ta tb); auto. lia. }
    pose proof (MO j' k _ _ ltac:(lia) T' Tk). pose proof (MO k j _ _ ltac:(lia) Tk Tj). lia.
Qed.
Lemma ids_nth_le T : StronglySorted pair_lt (ids T) -> forall a b ta tb, nth_error T a = Some ta -> nth_error T b = Some tb -> fst ta = fst tb ->
  (a <= b <-> fst (snd ta) <= fst (snd tb)).
Proof.
  intros SS. assert (forall a b ta tb, a < b -> nth_error T a = Some ta -> nth_error T b = Some tb -> fst ta = fst tb -> fst (snd ta) < fst (snd tb)) as ST.
  { unfold ids in SS. induction T as [|x T IH]; intros a b ta tb L A B E; [destruct a; discriminate|].
    cbn [map] in SS. inversion SS as [|? ? SS' F]; subst. destruct b as [|b]; [lia|]. cbn in B. destruct a as [|a]; cbn in A.
    - injection A as ->. rewrite Forall_forall in F. assert (pair_lt (fst ta, fst (snd ta)) (fst tb, fst (snd tb))) as Q by (apply F; apply in_map_iff; exists tb; split; [reflexivity|exact (nth_error_In _ _ B)]).
      unfold pair_lt in Q. cbn [fst snd] in Q. lia.
    - apply (IH SS' a b ta tb); auto. lia. }
  intros a b ta tb A B E. destruct (Nat.lt_trichotomy a b) as [L|[->|L]].
  - pose proof (ST _ _ _ _ L A B E). lia.
  - assert (ta = tb) by congruence. subst. lia.
  - pose proof (ST _ _ _ _ L B A (eq_sym E)). lia.
Qed.

Lemma prepare_pooled_rows data symbols itv s vwap customs c c' train test la tr te :
  prepared data c -> NoDup symbols -> fit (fun sym => data sym itv) s symbols vwap customs ->
  (forall d e, In d train -> In e test -> (d < e)%Z) ->
  prepare_pooled symbols itv train test (fun sym => data sym itv) s c la = (c', Done (tr, te)) ->
  (exists ks, StronglySorted pair_lt ks /\ Forall2 (is_pooled_row (fun sym => data sym itv) s) ks (rows_of tr) /\
     forall sym i, In (sym, i) ks <-> In sym symbols /\ exists y, data sym itv = Some y /\ may_train y train test la i /\
       match so_lags s with None => True | Some lags => exists j, j <= i /\ may_train y train test la j /\ whole_features y s lags j end) /\
  (exists ks, StronglySorted pair_lt ks /\
     (so_lags s = None \/ (exists sym y i, In sym symbols /\ data sym itv = Some y /\ may_train y train test la i) ->
      Forall2 (is_pooled_row (fun sym => data sym itv) s) ks (rows_of te)) /\
     forall sym i, In (sym, i) ks <-> In sym symbols /\ exists y, data sym itv = Some y /\ closes_on y test i).
Proof.
  intros PR ND FIT LT E. apply prepared_entry in PR. set (D := fun sym => data sym itv) in *. unfold prepare_pooled in E.
  destruct (pool_parts symbols train test D s la) as [((a & b) & d)|] eqn:PP; [|discriminate]. apply parts_done in PP. destruct PP as (-> & -> & DD).
  set (P := fun (y : sym_data) dt => zmem dt (fst (lookahead_train_dates (bar_dates y) train test la))) in *. set (T := fun (_ : sym_data) dt => zmem dt test) in *.
  assert (forall sym y, In sym symbols -> D sym = Some y -> bars_ok y) as OK by (intros sym y I Y; destruct (FIT sym I) as (y' & Y' & O & _); assert (y' = y) as -> by congruence; exact O).
  assert (forall sym y, In sym symbols -> D sym = Some y -> source_ok y s) as SO by (intros sym y I Y; destruct (FIT sym I) as (y' & Y' & _ & O & _); assert (y' = y) as -> by congruence; exact O).
  assert (forall sym y, In sym symbols -> D sym = Some y -> y_vwap y = vwap /\ y_customs y = customs) as VC by (intros sym y I Y; destruct (FIT sym I) as (y' & Y' & _ & _ & O); assert (y' = y) as -> by congruence; exact O).
  assert (forall sym y, In sym symbols -> D sym = Some y -> indicators_ok y s) as INN by (intros sym y I Y; destruct (DD sym I) as (y' & Y' & _ & O); assert (y' = y) as -> by congruence; exact O).
  assert (forall sym y, In sym symbols -> D sym = Some y -> dget sym d = Some (bar_dates y)) as DA by (intros sym y I Y; destruct (DD sym I) as (y' & Y' & O & _); assert (y' = y) as -> by congruence; exact O).
  assert (forall sym i y, In sym symbols -> D sym = Some y -> (In i (map fst (sel (y_bars y) (P y))) <-> may_train y train test la i)) as TS by (intros sym i y I Y; exact (train_sel y train test la (OK _ _ I Y) LT i)).
  assert (forall sym i, In (sym, i) (ids (tsort D s (pick D P symbols))) <-> In sym symbols /\ exists y, D sym = Some y /\ may_train y train test la i) as KP.
  { intros sym i. rewrite (ids_in D s symbols P sym i). split; intros (I & y & Y & H); (split; [exact I|]); exists y; (split; [exact Y|]); apply (TS sym i y I Y), H. }
  assert (forall sym i, In (sym, i) (ids (tsort D s (pick D T symbols))) <-> In sym symbols /\ exists y, D sym = Some y /\ closes_on y test i) as KT.
  { intros sym i. rewrite (ids_in D s symbols T sym i). split; intros (I & y & Y & H); (split; [exact I|]); exists y; (split; [exact Y|]); apply (test_sel y test i), H. }
  pose proof (ids_sorted D s symbols ND OK P) as SP. pose proof (ids_sorted D s symbols ND OK T) as ST.
  cbv zeta in E. set (columns := match last_data symbols D with Some y => all_columns y s | None => [] end) in *.
  assert (forall sym y, In sym symbols -> D sym = Some y -> all_columns y s = columns /\ exists y0 s0, last_data symbols D = Some y0 /\ In s0 symbols /\ D s0 = Some y0) as CO.
  { intros sym y I Y. destruct (last_data_some D symbols) as (s0 & y0 & I0 & L0 & Y0); [intros s1 I1; destruct (FIT s1 I1) as (y1 & Y1 & _); congruence|intros Q; rewrite Q in I; destruct I|].
    unfold columns. rewrite L0. split; [|exists y0, s0; auto]. destruct (VC _ _ I Y) as (V1 & V2), (VC _ _ I0 Y0) as (V3 & V4). apply columns_same; congruence. }
  assert (forall sym y, In sym symbols -> D sym = Some y -> all_columns y s = columns) as COLS by (intros sym y I Y; exact (proj1 (CO sym y I Y))).
  assert (forall Q, concat_pooled columns (map (mk D s) (pick D Q symbols)) =
            match pick D Q symbols with [] => mk_input None [] [] None | _ => input_of true columns (map (mk D s) (tsort D s (pick D Q symbols))) None end) as CP.
  { intros Q. unfold concat_pooled. rewrite <- sort_map. destruct (pick D Q symbols); reflexivity. }
  assert (forall Q, so_lags s = None -> Forall2 (is_pooled_row D s) (ids (tsort D s (pick D Q symbols))) (rows_of (concat_pooled columns (map (mk D s) (pick D Q symbols))))) as NL.
  { intros Q SL. rewrite CP. destruct (pick D Q symbols) as [|t l] eqn:EQ; [constructor|]. rewrite <- EQ. apply pooled_frame; auto. rewrite SL. reflexivity. }
  destruct (so_lags s) as [n|] eqn:SL.
  2:{ apply pair_inj in E. destruct E as (_ & E). apply done_inj, pair_inj in E. destruct E as (<- & <-). split.
      - eexists. split; [exact SP|]. split; [apply NL; reflexivity|]. intros sym i. rewrite KP. split; intros (I & y & H); (split; [exact I|]); exists y; tauto.
      - eexists. split; [exact ST|]. split; [intros _; apply NL; reflexivity|exact KT]. }
  destruct (lag_feature_cols _ _ s) as [cols|] eqn:LF; [|discriminate].
  destruct (merge_symbols _ _ _ _ _ _ _) as [c1 r1] eqn:M. apply pair_inj in E. destruct E as (_ & E). apply merge_symbols_ok in M; [|exact PR].
  destruct r1; [|discriminate]. cbn [of_lag obind] in E.
  destruct (apply_lags_pooled (concat_pooled columns (map (mk D s) (pick D P symbols))) _ _ _ _ _ _) as [m1|] eqn:A1; [|discriminate]. cbn [of_lag obind] in E.
  destruct (apply_lags_pooled (concat_pooled columns (map (mk D s) (pick D T symbols))) _ _ _ _ _ _) as [m2|] eqn:A2; [|discriminate]. cbn [of_lag obind] in E.
  destruct (drop_lag_warmup m1) as [m3|] eqn:DW; [|discriminate]. cbn [of_lag obind] in E. apply done_inj, pair_inj in E. destruct E as (<- & <-).
  rewrite CP in A1, A2, LF.
  assert (pick D P symbols <> [] -> forall sym y, In sym symbols -> D sym = Some y -> lag_columns y s cols) as LC.
  { intros NE sym y I Y. destruct (CO sym y I Y) as (_ & y0 & s0 & L0 & I0 & Y0). rewrite L0 in LF.
    destruct (pick D P symbols) as [|t l]; [congruence|]. cbn [input_of i_columns] in LF.
    assert (map fst (columns_of columns (map (mk D s) (tsort D s (t :: l)))) = all_columns y0 s) as FS.
    { unfold columns_of. rewrite columns_fst. unfold columns. rewrite L0. reflexivity. }
    rewrite FS in LF. apply lag_cols_spec in LF; [|exact (SO _ _ I0 Y0)]. destruct (VC _ _ I Y) as (V1 & V2), (VC _ _ I0 Y0) as (V3 & V4). apply (lag_columns_same y0 y); congruence || exact LF. }
  assert (forall sym y col, In sym symbols -> D sym = Some y -> In col cols -> hist_run data (mk_lkey sym col (Some itv)) = series y col) as SE
    by (intros sym y col _ Y _; unfold hist_run; cbn; unfold D in Y; rewrite Y; reflexivity).
  split.
  - destruct (pick D P symbols) as [|t0 l0] eqn:EP.
    { exists []. split; [constructor|]. cbn [apply_lags_pooled i_dates with_lags i_symbols i_columns] in A1. injection A1 as <-. cbn in DW. injection DW as <-. split; [constructor|].
      intros sym i. split; [intros []|]. intros (I & y & Y & MT & _). exact (proj2 (KP sym i) (conj I (ex_intro _ y (conj Y MT)))). }
    rewrite <- EP in *. assert (pick D P symbols <> []) as NE by (rewrite EP; discriminate). clear EP t0 l0.
    assert (tsort D s (pick D P symbols) <> []) as NT by (intros Q; apply tsort_nil in Q; contradiction).
    destruct (pooled_features D s symbols OK columns P cols n c1 d itv (hist_run data) m1 M SE (LC NE) DA NT) as (rows & -> & F).
    { destruct (pick D P symbols) as [|t0 l0]; [congruence|exact A1]. }
    assert (Forall2 (is_pooled_row D s) (ids (tsort D s (pick D P symbols))) (rows_of (input_of true columns (map (mk D s) (tsort D s (pick D P symbols))) (Some rows)))) as R1
      by (apply pooled_frame; auto; rewrite SL; eauto).
    set (Tg := tsort D s (pick D P symbols)) in *. set (m := input_of true columns (map (mk D s) Tg) (Some rows)) in *.
    assert (length (i_dates m) = length Tg) as LD by (unfold m; cbn [input_of i_dates]; rewrite !map_length; reflexivity).
    assert (input_ok m) as IO by (apply input_rows_ok; intros l Q; injection Q as <-; apply Forall2_len in F; rewrite map_length; auto).
    destruct (drop_spec m rows m3 IO eq_refl DW) as (keep & LK & KW & RO & _).
    exists (marked keep (ids Tg)). split.
    { clear - SP. revert keep. unfold Tg in *. induction SP as [|x l HS IH F]; intros [|k keep]; try (cbn; constructor). rewrite marked_cons. destruct k; [|apply IH]. constructor; [apply IH|].
      rewrite Forall_forall in *. intros z I. apply marked_in in I. destruct I as (j & J & _). exact (F z (nth_error_In _ _ J)). }
    split; [rewrite RO; apply marked_forall2, R1|]. intros sym i. rewrite marked_in.
    assert (forall j t, nth_error Tg j = Some t -> exists y row, D (fst t) = Some y /\ In (fst t) symbols /\ may_train y train test la (fst (snd t)) /\ nth_error rows j = Some row /\ (~ In None row <-> whole_features y s n (fst (snd t)))) as WH.
    { intros j t Tj. destruct (Forall2_nth _ _ _ F _ _ Tj) as (row & R & y & Y & L1 & FE). exists y, row. split; [exact Y|].
      assert (In (fst t, fst (snd t)) (ids Tg)) as IT by (apply in_map_iff; exists t; split; [reflexivity|exact (nth_error_In _ _ Tj)]). apply KP in IT. destruct IT as (Is & y' & Y' & MT).
      assert (y' = y) as -> by congruence. split; [exact Is|]. split; [exact MT|]. split; [exact R|]. exact (features_whole _ _ _ _ _ _ L1 FE). }
    split.
    + intros (j & N & K). unfold ids in N. rewrite nth_error_map in N. destruct (nth_error Tg j) as [t|] eqn:Tj; [|discriminate]. cbn in N.
      assert (fst t = sym /\ fst (snd t) = i) as (Es & Ei) by (split; congruence). clear N.
      apply (KW j ltac:(rewrite LD; exact (nth_some_lt _ _ _ Tj))) in K. apply (warm_pooled Tg D s columns rows m eq_refl SP j t Tj) in K. destruct K as (j' & t' & row & L & T' & Ef & R & NN).
      destruct (WH j t Tj) as (y & rw & Y & Is & MT & _). destruct (WH j' t' T') as (y' & rw' & Y' & _ & MT' & R' & Q).
      assert (y' = y) as -> by congruence. assert (rw' = row) as -> by congruence. subst sym i. split; [exact Is|]. exists y. split; [exact Y|]. split; [exact MT|].
      exists (fst (snd t')). split; [apply (ids_nth_le Tg SP j' j t' t T' Tj Ef), L|]. split; [exact MT'|]. apply Q, NN.
    + intros (I & y & Y & MT & j0 & L & MJ & W). assert (In (sym, i) (ids Tg)) as I1 by (apply KP; split; [exact I|exists y; auto]). assert (In (sym, j0) (ids Tg)) as I2 by (apply KP; split; [exact I|exists y; auto]).
      apply in_map_iff in I1, I2. destruct I1 as (t & E1 & I1), I2 as (t' & E2 & I2). destruct (In_nth_error _ _ I1) as (j & Tj), (In_nth_error _ _ I2) as (j' & T').
      exists j. split; [unfold ids; rewrite nth_error_map, Tj; cbn; congruence|]. apply (KW j ltac:(rewrite LD; exact (nth_some_lt _ _ _ Tj))). apply (warm_pooled Tg D s columns rows m eq_refl SP j t Tj).
      destruct (WH j' t' T') as (y' & rw' & Y' & _ & MT' & R' & Q). assert (fst t = sym /\ fst (snd t) = i /\ fst t' = sym /\ fst (snd t') = j0) as (X1 & X2 & X3 & X4) by (do 3 (split; [congruence|]); congruence).
      assert (y' = y) as -> by (unfold D in Y'; rewrite X3 in Y'; congruence). exists j', t', rw'. split; [apply (ids_nth_le Tg SP j' j t' t T' Tj); congruence || lia|]. split; [exact T'|]. split; [congruence|]. split; [exact R'|]. apply Q. congruence.
  - exists (ids (tsort D s (pick D T symbols))). split; [exact ST|]. split; [|exact KT]. intros [Q|(sym & y & i & I & Y & MT)]; [discriminate|].
    assert (pick D P symbols <> []) as NE.
    { intros Q. assert (In (sym, i) (ids (tsort D s (pick D P symbols)))) as I1 by (apply KP; split; [exact I|exists y; auto]). rewrite Q in I1. destruct I1. }
    destruct (pick D T symbols) as [|t0 l0] eqn:ET.
    { cbn [apply_lags_pooled i_dates with_lags i_symbols i_columns] in A2. injection A2 as <-. constructor. }
    rewrite <- ET in *. assert (tsort D s (pick D T symbols) <> []) as NT by (rewrite tsort_nil, ET; discriminate).
    destruct (pooled_features D s symbols OK columns T cols n c1 d itv (hist_run data) m2 M SE (LC NE) DA NT) as (rows & -> & F).
    { clear - A2 ET. destruct (pick D T symbols) as [|t1 l1]; [discriminate|exact A2]. }
    apply pooled_frame; auto. rewrite SL. eauto.
Qed.
