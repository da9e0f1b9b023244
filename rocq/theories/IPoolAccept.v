(** When the pooled frames of interval-bound models are built, and that the order of
    the symbols does not matter. *)
From Verif Require Import IntervalProofs IntervalReads.
From Verif Require Import LagProofs.
From Verif Require Import ITrainSpec ITrainProofs ITrainCausal IPoolProofs.
From Coq Require Import Lia Permutation.
Open Scope list_scope.
Open Scope nat_scope.

Lemma ss_unique {A} (R : A -> A -> Prop) : (forall a, ~ R a a) -> (forall a b, R a b -> R b a -> False) ->
  forall l l', StronglySorted R l -> StronglySorted R l' -> (forall x, In x l <-> In x l') -> l = l'.
Proof.
  intros IR AS. induction l as [|a l IH]; intros [|b l'] S1 S2 E; [reflexivity|destruct (proj2 (E b) (or_introl eq_refl))|destruct (proj1 (E a) (or_introl eq_refl))|].
  inversion S1 as [|? ? S1' F1]; inversion S2 as [|? ? S2' F2]; subst. rewrite Forall_forall in F1, F2.
  assert (a = b) as ->.
  { destruct (proj1 (E a) (or_introl eq_refl)) as [Q|I]; [auto|]. destruct (proj2 (E b) (or_introl eq_refl)) as [Q|I']; [auto|]. destruct (AS a b (F1 b I') (F2 a I)). }
  f_equal. apply IH; auto. intros x. split; intros I.
  - destruct (proj1 (E x) (or_intror I)) as [<-|J]; [destruct (IR b (F1 b I))|exact J].
  - destruct (proj2 (E x) (or_intror I)) as [<-|J]; [destruct (IR b (F2 b I))|exact J].
Qed.
Lemma gather_from {A B} (f : A -> B) (g : A -> nat) sym : forall T pre,
  gather (map f (pre ++ T)) (positions_from (length pre) sym (map g T)) = Ok (map f (filter (fun t => g t =? sym) T)).
Proof.
  induction T as [|t T IH]; intros pre; [reflexivity|]. unfold positions_from. cbn [map length seq combine filter snd].
  specialize (IH (pre ++ [t])). rewrite <- app_assoc in IH. cbn [app] in IH. rewrite app_length in IH. cbn [length] in IH. rewrite Nat.add_1_r in IH.
  destruct (g t =? sym) eqn:E; [|exact IH]. cbn [map fst]. unfold gather. cbn [map_r].
  rewrite nth_error_map, nth_error_app2, Nat.sub_diag by lia. cbn [nth_error option_map bind]. unfold gather, positions_from in IH. rewrite IH. reflexivity.
Qed.
Lemma ss_filter {A} (R : A -> A -> Prop) f l : StronglySorted R l -> StronglySorted R (filter f l).
Proof.
  induction 1 as [|x l HS IH F]; [constructor|]. cbn [filter]. destruct (f x); [|exact IH]. constructor; [exact IH|]. rewrite Forall_forall in *. intros z I. apply filter_In in I. apply F, I.
Qed.

Section Accept.
Variable data : nat -> nat -> option sym_data.
Variable itv : nat.
Let D (sym : nat) := data sym itv.
Variable s : source.
Variable symbols : list nat.
Hypothesis ND : NoDup symbols.
Hypothesis OK : forall sym y, In sym symbols -> D sym = Some y -> bars_ok y.
Hypothesis ALL : forall sym, In sym symbols -> D sym <> None.
Hypothesis INN : forall sym y, In sym symbols -> D sym = Some y -> forall k, In k (so_indicators s) -> exists l, y_indicator y k = Some l /\ length l = length (y_bars y).

Lemma symbol_dates P sym y : In sym symbols -> D sym = Some y ->
  gather (map w_when (map (mk D s) (tsort D s (pick D P symbols)))) (positions sym (map w_sym (map (mk D s) (tsort D s (pick D P symbols)))))
  = Ok (map (fun ib => c_date (snd ib)) (sel (y_bars y) (P y))).
Proof.
  intros I Y. set (T := tsort D s (pick D P symbols)). rewrite !map_map.
  change (positions sym) with (positions_from (length (@nil tag)) sym). change T with ([] ++ T) at 1. rewrite gather_from. f_equal.
  apply (ss_unique Z.lt); [intros; lia|intros; lia| | |].
  - assert (StronglySorted (tlt D s) T) as ST by (apply tsort_sorted, pick_keys; assumption). apply (ss_filter _ (fun t => w_sym (mk D s t) =? sym)) in ST.
    assert (forall t, In t (filter (fun t => w_sym (mk D s t) =? sym) T) -> fst t = sym) as FS by (intros t J; apply filter_In in J; destruct J as (_ & J); rewrite mk_sym in J; apply Nat.eqb_eq, J).
    revert ST FS. generalize (filter (fun t => w_sym (mk D s t) =? sym) T). intros l. induction 1 as [|x l HS IH F]; intros FS; [constructor|]. cbn [map].
    constructor; [apply IH; intros t J; apply FS; right; exact J|]. rewrite Forall_forall in *. intros z J. apply in_map_iff in J. destruct J as (t & <- & J). specialize (F t J). unfold tlt in F.
    rewrite tb_spec in F. rewrite !mk_when. pose proof (FS x (or_introl eq_refl)). pose proof (FS t (or_intror J)). lia.
  - pose proof (sel_sorted (y_bars y) (P y)) as SS. destruct (OK _ _ I Y) as (INC & _). apply increasing_sorted in INC.
    assert (forall ib, In ib (sel (y_bars y) (P y)) -> nth_error (y_bars y) (fst ib) = Some (snd ib)) as NB by (intros (i & b) J; apply sel_in in J; exact (proj1 J)).
    revert SS NB. generalize (sel (y_bars y) (P y)). induction l as [|x l IH]; intros SS NB; [constructor|]. cbn [map] in *. inversion SS as [|? ? SS' F]; subst.
    constructor; [apply IH; [exact SS'|intros ib J; apply NB; right; exact J]|]. rewrite Forall_forall in *. intros z J. apply in_map_iff in J. destruct J as (t & <- & J).
    apply (sorted_nth_lt (map c_date (y_bars y)) INC (fst x) (fst t)).
    + apply F, in_map, J.
    + rewrite nth_error_map, (NB x (or_introl eq_refl)). reflexivity.
    + rewrite nth_error_map, (NB t (or_intror J)). reflexivity.
  - intros z. rewrite !in_map_iff. split.
    + intros (t & <- & J). apply filter_In in J. destruct J as (J & E). rewrite mk_sym in E. apply Nat.eqb_eq in E. rewrite mk_when.
      apply (Permutation_in _ (Permutation_sym (tsort_perm D s _))) in J. destruct t as (s0 & (i & b)). cbn [fst snd] in *. subst s0. apply pick_in in J. destruct J as (_ & y' & Y' & B & P1).
      assert (y' = y) as -> by congruence. exists (i, b). split; [reflexivity|]. apply sel_in. auto.
    + intros ((i & b) & <- & J). apply sel_in in J. destruct J as (B & P1). exists (sym, (i, b)). split; [rewrite mk_when; reflexivity|]. apply filter_In. rewrite mk_sym. cbn [fst]. rewrite Nat.eqb_refl.
      split; [|reflexivity]. apply (Permutation_in _ (tsort_perm D s _)), pick_in. split; [exact I|]. exists y. auto.
Qed.

Lemma parts_ok train test la : forall l, (forall sym, In sym l -> In sym symbols) -> (forall sym, In sym l -> D sym <> None) ->
  exists x, pool_parts l train test D s la = Done x.
Proof.
  induction l as [|sym l IH]; intros SU NN; cbn [pool_parts]; [eauto|]. destruct (D sym) as [y|] eqn:Y; [|destruct (NN sym (or_introl eq_refl) Y)].
  rewrite (build_ok sym y s); [|exact (INN _ _ (SU _ (or_introl eq_refl)) Y)]. cbn [obind]. destruct IH as (((a & b) & d) & ->); [intros; apply SU; right; assumption|intros; apply NN; right; assumption|].
  cbn [obind]. eauto.
Qed.

Lemma merge_defined cols lags : (forall sym y col, In sym symbols -> D sym = Some y -> In col cols -> is_column y s col) ->
  forall l, (forall sym, In sym l -> In sym symbols) -> forall c, entry (hist_run data) c ->
  exists c', merge_symbols c l itv cols lags D s = (c', Ok tt) /\ entry (hist_run data) c' /\ deeper c c' /\
    forall sym y col, In sym l -> D sym = Some y -> In col cols -> exists st, lget (mk_lkey sym col (Some itv)) c' = Some st /\ S lags <= length st.
Proof.
  intros CC. induction l as [|sym l IH]; intros SU c EN; cbn [merge_symbols].
  - exists c. split; [reflexivity|]. split; [exact EN|]. split; [apply deeper_refl|intros ? ? ? []].
  - assert (forall x, In x l -> In x symbols) as SU' by (intros x I; apply SU; right; exact I). destruct (D sym) as [y|] eqn:Y.
    2:{ destruct (IH SU' c EN) as (c' & E & EN' & DE & DP). exists c'. split; [exact E|]. split; [exact EN'|]. split; [exact DE|]. intros s0 y0 col [<-|I] Y0; [congruence|]. eapply DP; eassumption. }
    pose proof (SU sym (or_introl eq_refl)) as Is.
    rewrite (merge_ext _ _ _ _ (fun col => hist_run data (mk_lkey sym col (Some itv)))).
    2:{ intros col I. rewrite (array_series y s col (CC _ _ _ Is Y I)). unfold hist_run. cbn. unfold D in Y. rewrite Y. reflexivity. }
    destruct (merge_arrays _ _ _ _ _ _) as [c1 r1] eqn:M. destruct (merge_spec _ _ _ _ _ _ _ _ EN M) as (EN1 & DE1 & DP & RO).
    assert (r1 = Ok tt) as ->.
    { apply RO. intros col I. unfold hist_run. cbn. unfold D in Y. rewrite Y. unfold series. destruct (mem col (data_columns y)) eqn:MM; [discriminate|].
      destruct (CC _ _ _ Is Y I) as [Q|Q]; [apply data_columns_mem in Q; congruence|]. destruct (INN _ _ Is Y col Q) as (v & V & _). rewrite V. discriminate. }
    specialize (DP eq_refl). destruct (IH SU' c1 EN1) as (c' & E & EN' & DE & DP'). exists c'. split; [exact E|]. split; [exact EN'|]. split; [exact (deeper_trans _ _ _ DE1 DE)|].
    intros s0 y0 col [<-|I] Y0 Ic; [|eapply DP'; eassumption]. destruct (DP col Ic) as (st & G & L). destruct (DE _ _ G) as (st' & G' & L'). exists st'. split; [exact G'|lia].
Qed.

Lemma lags_defined columns P Q cols lags c d :
  (forall sym y i, In sym symbols -> D sym = Some y -> (In i (map fst (sel (y_bars y) (P y))) <-> Q y i)) -> (forall sym y, In sym symbols -> D sym = Some y -> unbroken (Q y)) ->
  (forall sym y col, In sym symbols -> D sym = Some y -> In col cols -> is_column y s col) -> entry (hist_run data) c ->
  (forall sym y col, In sym symbols -> D sym = Some y -> In col cols -> exists st, lget (mk_lkey sym col (Some itv)) c = Some st /\ S lags <= length st) ->
  (forall sym y, In sym symbols -> D sym = Some y -> dget sym d = Some (bar_dates y)) ->
  exists rows, apply_lags_pooled (input_of true columns (map (mk D s) (tsort D s (pick D P symbols))) None) cols lags c d symbols itv
    = Ok (input_of true columns (map (mk D s) (tsort D s (pick D P symbols))) (Some rows)) /\
    length rows = length (tsort D s (pick D P symbols)) /\ forall row, In row rows -> length row = length cols * S lags.
Proof.
  intros HP HU CC EN DP DA. pose proof (symbol_dates P) as SD. pose proof (tag_of D s symbols P) as TO.
  revert SD TO. generalize (tsort D s (pick D P symbols)). intros T SD TO. unfold apply_lags_pooled. cbn [input_of i_dates i_symbols].
  assert (T = [] \/ T <> []) as [->|NT] by (destruct T; [auto|right; discriminate]).
  { exists []. split; [reflexivity|]. split; [reflexivity|intros ? []]. }
  assert (forall A (u v : A), match map w_when (map (mk D s) T) with [] => u | _ :: _ => v end = v) as -> by (intros; destruct T; [congruence|reflexivity]).
  destruct (pooled_defined (hist_run data) (map w_sym (map (mk D s) T)) cols lags (map w_when (map (mk D s) T)) d c symbols (Some itv) EN) as (m & B).
  - rewrite !map_length. reflexivity.
  - intros sym _ Is. destruct (D sym) as [y|] eqn:Y; [|destruct (ALL sym Is Y)].
    destruct (sel_segment y (P y) (Q y) (fun i => HP sym y i Is Y) (HU _ _ Is Y)) as (p & q & E). exists p, (map (fun ib => c_date (snd ib)) (sel (y_bars y) (P y))), q. rewrite <- E.
    split; [exact (DA _ _ Is Y)|]. split; [apply increasing_sorted, (OK _ _ Is Y)|]. split; [exact (SD sym y Is Y)|]. intros col Ic. destruct (DP _ _ _ Is Y Ic) as (st & G & L).
    assert (exists v, series y col = Some v /\ length v = length (bar_dates y)) as (v & V & LV).
    { unfold series. destruct (mem col (data_columns y)) eqn:MM; [eexists; split; [reflexivity|]; unfold bar_dates; rewrite !map_length; reflexivity|].
      destruct (CC _ _ _ Is Y Ic) as [W|W]; [apply data_columns_mem in W; congruence|]. destruct (INN _ _ Is Y col W) as (l & L1 & L2). exists l. split; [exact L1|]. unfold bar_dates. rewrite map_length. exact L2. }
    exists v, st. split; [unfold hist_run; cbn; unfold D in Y; rewrite Y; exact V|]. auto.
  - rewrite B. cbn [bind]. unfold build_matrix_pooled in B. apply (pooled_loop_spec (hist_run data) _ _ _ _ _ _ _ _ EN) in B; [|rewrite repeat_length; reflexivity]. destruct B as (LM & B). rewrite repeat_length, !map_length in LM.
    assert (forall j o, nth_error m j = Some o -> exists row, o = Some row /\ length row = length cols * S lags) as RW.
    { intros j o O. destruct (nth_lt_some T j) as (t & Tj); [rewrite <- LM; exact (nth_some_lt _ _ _ O)|]. destruct (TO t (nth_error_In _ _ Tj)) as (y & Is & Y & _).
      assert (nth_error (map w_sym (map (mk D s) T)) j = Some (fst t)) as Nj by (rewrite map_map, nth_error_map, Tj; cbn; rewrite mk_sym; reflexivity).
      destruct (B j (fst t) Nj) as (B1 & _). destruct B1 as (hd & dt & row & _ & _ & Mr & LR & _); [split; [apply unique_in, (nth_error_In _ _ Nj)|exact Is]|]. exists row. split; [congruence|exact LR]. }
    assert (exists rows, map_r (fun o => match o with Some row => Ok row | None => Raise Undefined end) m = Ok rows /\ length rows = length m /\ forall row, In row rows -> length row = length cols * S lags) as (rows & E & LE & RL).
    { clear - RW. induction m as [|o m IH]; [exists []; split; [reflexivity|split; [reflexivity|intros ? []]]|]. destruct (RW 0 o eq_refl) as (row & -> & L).
      destruct IH as (rows & E & LE & RL); [intros j o O; exact (RW (S j) o O)|]. exists (row :: rows). cbn [map_r bind]. rewrite E. split; [reflexivity|]. split; [cbn; congruence|]. intros x [<-|I]; auto. }
    exists rows. rewrite E. split; [reflexivity|]. split; [congruence|exact RL].
Qed.
End Accept.

Lemma prepare_pooled_accepts data symbols itv s vwap customs c train test la :
  prepared data c -> NoDup symbols -> fit (fun sym => data sym itv) s symbols vwap customs ->
  (forall d e, In d train -> In e test -> (d < e)%Z) ->
  (forall sym y, In sym symbols -> data sym itv = Some y ->
     (forall k, In k (so_indicators s) -> exists l, y_indicator y k = Some l /\ length l = length (y_bars y)) /\
     (forall k, In k (so_lag_cols s) -> is_column y s k) /\ unbroken (may_train y train test la) /\ unbroken (closes_on y test)) ->
  exists c' r, prepare_pooled symbols itv train test (fun sym => data sym itv) s c la = (c', r) /\
    (so_lags s = None -> exists frames, r = Done frames) /\
    (forall n, so_lags s = Some n ->
       ((exists sym y i, In sym symbols /\ data sym itv = Some y /\ may_train y train test la i /\ whole_features y s n i) -> exists frames, r = Done frames) /\
       ((exists sym y i, In sym symbols /\ data sym itv = Some y /\ may_train y train test la i) ->
        (forall sym y i, In sym symbols -> data sym itv = Some y -> may_train y train test la i -> ~ whole_features y s n i) -> r = Failed (LagFails NothingToTrain)) /\
       ((forall sym y i, In sym symbols -> data sym itv = Some y -> ~ may_train y train test la i) ->
        (so_lag_cols s <> [] -> r = Failed NoLagColumn) /\
        (so_lag_cols s = [] -> exists tr te, r = Done (tr, te) /\ rows_of tr = [] /\ forall w, In w (rows_of te) -> w_lags w = Some (Some [])))).
Proof.
  intros PR ND FIT LT HY. apply prepared_entry in PR. set (D := fun sym => data sym itv) in *. unfold prepare_pooled.
  assert (forall sym y, In sym symbols -> D sym = Some y -> bars_ok y) as OK by (intros sym y I Y; destruct (FIT sym I) as (y' & Y' & O & _); assert (y' = y) as -> by congruence; exact O).
  assert (forall sym y, In sym symbols -> D sym = Some y -> source_ok y s) as SO by (intros sym y I Y; destruct (FIT sym I) as (y' & Y' & _ & O & _); assert (y' = y) as -> by congruence; exact O).
  assert (forall sym y, In sym symbols -> D sym = Some y -> y_vwap y = vwap /\ y_customs y = customs) as VC by (intros sym y I Y; destruct (FIT sym I) as (y' & Y' & _ & _ & O); assert (y' = y) as -> by congruence; exact O).
  assert (forall sym, In sym symbols -> D sym <> None) as ALL by (intros sym I; destruct (FIT sym I) as (y' & Y' & _); congruence).
  assert (forall sym y, In sym symbols -> D sym = Some y -> forall k, In k (so_indicators s) -> exists l, y_indicator y k = Some l /\ length l = length (y_bars y)) as INN by (intros sym y I Y; exact (proj1 (HY sym y I Y))).
  destruct (parts_ok data itv s symbols INN train test la symbols (fun _ I => I) ALL) as (((a & b) & d) & PP). fold D in PP. rewrite PP. apply parts_done in PP. destruct PP as (-> & -> & DD).
  set (P := fun (y : sym_data) dt => zmem dt (fst (lookahead_train_dates (bar_dates y) train test la))) in *. set (T := fun (_ : sym_data) dt => zmem dt test) in *.
  assert (forall sym y, In sym symbols -> D sym = Some y -> dget sym d = Some (bar_dates y)) as DA by (intros sym y I Y; destruct (DD sym I) as (y' & Y' & O & _); assert (y' = y) as -> by congruence; exact O).
  assert (forall sym y i, In sym symbols -> D sym = Some y -> (In i (map fst (sel (y_bars y) (P y))) <-> may_train y train test la i)) as TS by (intros sym y i I Y; exact (train_sel y train test la (OK _ _ I Y) LT i)).
  assert (forall sym y i, In sym symbols -> D sym = Some y -> (In i (map fst (sel (y_bars y) (T y))) <-> closes_on y test i)) as ES by (intros sym y i I Y; exact (test_sel y test i)).
  assert (forall sym i, In (sym, i) (ids (tsort D s (pick D P symbols))) <-> In sym symbols /\ exists y, D sym = Some y /\ may_train y train test la i) as KP.
  { intros sym i. rewrite (ids_in D s symbols P sym i). split; intros (I & y & Y & H); (split; [exact I|]); exists y; (split; [exact Y|]); apply (TS sym y i I Y), H. }
  cbv zeta. set (columns := match last_data symbols D with Some y => all_columns y s | None => [] end) in *.
  assert (forall sym y, In sym symbols -> D sym = Some y -> all_columns y s = columns /\ exists y0 s0, last_data symbols D = Some y0 /\ In s0 symbols /\ D s0 = Some y0) as CO.
  { intros sym y I Y. destruct (last_data_some D symbols) as (s0 & y0 & I0 & L0 & Y0); [exact ALL|intros Q; rewrite Q in I; destruct I|].
    unfold columns. rewrite L0. split; [|exists y0, s0; auto]. destruct (VC _ _ I Y) as (V1 & V2), (VC _ _ I0 Y0) as (V3 & V4). apply columns_same; congruence. }
  assert (forall Q, concat_pooled columns (map (mk D s) (pick D Q symbols)) =
            match pick D Q symbols with [] => mk_input None [] [] None | _ => input_of true columns (map (mk D s) (tsort D s (pick D Q symbols))) None end) as CP.
  { intros Q. unfold concat_pooled. rewrite <- sort_map. destruct (pick D Q symbols); reflexivity. }
  destruct (so_lags s) as [n|] eqn:SL.
  2:{ eexists. eexists. split; [reflexivity|]. split; [eauto|]. intros n Q. discriminate. }
  assert (pick D P symbols = [] <-> (forall sym y i, In sym symbols -> D sym = Some y -> ~ may_train y train test la i)) as EMP.
  { split.
    - intros Q sym y i I Y MT. assert (In (sym, i) (ids (tsort D s (pick D P symbols)))) as I1 by (apply KP; split; [exact I|exists y; auto]). rewrite Q in I1. destruct I1.
    - intros H. destruct (pick D P symbols) as [|(sym & (i & b0)) l] eqn:EP; [reflexivity|]. exfalso. rewrite <- EP in KP.
      assert (In (sym, i) (ids (tsort D s (pick D P symbols)))) as I1.
      { apply in_map_iff. exists (sym, (i, b0)). split; [reflexivity|]. apply (Permutation_in _ (tsort_perm D s _)). rewrite EP. left. reflexivity. }
      apply KP in I1. destruct I1 as (I & y & Y & MT). exact (H sym y i I Y MT). }
  assert (forall cols lags0 c1 Q Q', (forall sym y i, In sym symbols -> D sym = Some y -> (In i (map fst (sel (y_bars y) (Q y))) <-> Q' y i)) -> (forall sym y, In sym symbols -> D sym = Some y -> unbroken (Q' y)) ->
    (forall sym y col, In sym symbols -> D sym = Some y -> In col cols -> is_column y s col) -> entry (hist_run data) c1 ->
    (forall sym y col, In sym symbols -> D sym = Some y -> In col cols -> exists st, lget (mk_lkey sym col (Some itv)) c1 = Some st /\ S lags0 <= length st) ->
    exists m rows, apply_lags_pooled (concat_pooled columns (map (mk D s) (pick D Q symbols))) cols lags0 c1 d symbols itv = Ok m /\ i_lags m = Some rows /\ length rows = length (i_dates m) /\
       (forall row, In row rows -> length row = length cols * S lags0) /\
       (pick D Q symbols <> [] -> m = input_of true columns (map (mk D s) (tsort D s (pick D Q symbols))) (Some rows))) as AL.
  { intros cols lags0 c1 Q Q' HQ HU CC EN DP. rewrite CP. destruct (pick D Q symbols) as [|t0 l0] eqn:EQ.
    - exists (mk_input None [] [] (Some [])), []. split; [reflexivity|]. split; [reflexivity|]. split; [reflexivity|]. split; [intros ? []|congruence].
    - rewrite <- EQ. destruct (lags_defined data itv s symbols ND OK ALL INN columns Q Q' cols lags0 c1 d HQ HU CC EN DP DA) as (rows & E & LE & RL). exists (input_of true columns (map (mk D s) (tsort D s (pick D Q symbols))) (Some rows)), rows.
      split; [exact E|]. split; [reflexivity|]. split; [cbn [input_of i_dates]; rewrite !map_length; exact LE|]. split; [exact RL|reflexivity]. }
  destruct (pick D P symbols) as [|t0 l0] eqn:EP.
  - (* no bar to train on *)
    assert (forall sym y i, In sym symbols -> D sym = Some y -> ~ may_train y train test la i) as NM by (apply EMP; reflexivity). unfold concat_pooled at 1. cbn [map i_columns]. unfold lag_feature_cols.
    assert (forall r0 : outcome (input * input), (exists sym y i, In sym symbols /\ D sym = Some y /\ may_train y train test la i /\ whole_features y s n i) -> exists frames, r0 = Done frames) as X1
      by (intros r0 (sym & y & i & I & Y & MT & _); destruct (NM sym y i I Y MT)).
    assert (forall r0 : outcome (input * input), (exists sym y i, In sym symbols /\ D sym = Some y /\ may_train y train test la i) ->
        (forall sym y i, In sym symbols -> D sym = Some y -> may_train y train test la i -> ~ whole_features y s n i) -> r0 = Failed (LagFails NothingToTrain)) as X2
      by (intros r0 (sym & y & i & I & Y & MT) _; destruct (NM sym y i I Y MT)).
    destruct (so_lag_cols s) as [|k ks] eqn:LCS.
    + cbn [filter]. destruct (merge_defined data itv s symbols INN [] n (fun _ _ _ _ _ (I : In _ []) => match I with end) symbols (fun _ I => I) c PR) as (c1 & M & EN & _ & DP). fold D in M. rewrite M.
      eexists. eexists. split; [reflexivity|]. split; [discriminate|]. intros n0 Q. injection Q as <-. split; [apply X1|]. split; [apply X2|]. intros _. split; [congruence|]. intros _.
      cbn [of_lag obind map concat_pooled apply_lags_pooled i_dates with_lags i_symbols i_columns].
      destruct (AL [] n c1 T (fun y => closes_on y test) ES) as (m & rows & E & ML & LE & RL & _); [intros sym y I Y; apply (HY sym y I Y)|intros ? ? ? _ _ []|exact EN|intros ? ? ? _ _ []|]. rewrite E. cbn [of_lag obind].
      eexists. exists m. split; [reflexivity|]. split; [reflexivity|]. intros w I. destruct (In_nth_error _ _ I) as (j & J). destruct (rows_of_nth _ _ _ J) as (dt & Dj & ->). cbn [whole w_lags]. rewrite ML. cbn [option_map'].
      destruct (nth_lt_some rows j) as (row & R); [rewrite LE; exact (nth_some_lt _ _ _ Dj)|]. rewrite R. pose proof (RL row (nth_error_In _ _ R)) as L0. destruct row; [reflexivity|discriminate].
    + cbn [forallb mem existsb]. eexists. eexists. split; [reflexivity|]. split; [discriminate|]. intros n0 Q. injection Q as <-. split; [apply X1|]. split; [apply X2|]. intros _. split; [reflexivity|discriminate].
  - rewrite <- EP in *. assert (pick D P symbols <> []) as NE by (rewrite EP; discriminate). clear EP t0 l0.
    assert (tsort D s (pick D P symbols) <> []) as NT by (rewrite tsort_nil; exact NE).
    assert (exists t, In t (tsort D s (pick D P symbols))) as (t1 & IT) by (destruct (tsort D s (pick D P symbols)) as [|t1 l1]; [congruence|exists t1; left; reflexivity]).
    destruct (tag_of D s symbols P t1 IT) as (y1 & I1 & Y1 & _ & _).
    destruct (CO _ _ I1 Y1) as (_ & y0 & s0 & L0 & I0 & Y0).
    assert (map fst (i_columns (concat_pooled columns (map (mk D s) (pick D P symbols)))) = all_columns y0 s) as FS.
    { rewrite CP. destruct (pick D P symbols) as [|t l]; [congruence|]. cbn [input_of i_columns]. unfold columns_of. rewrite columns_fst. unfold columns. rewrite L0. reflexivity. }
    rewrite FS, L0. destruct (lag_cols_ok y0 s) as (cols & LF); [apply (HY _ _ I0 Y0)|]. rewrite LF. apply lag_cols_spec in LF; [|exact (SO _ _ I0 Y0)].
    assert (forall sym y, In sym symbols -> D sym = Some y -> lag_columns y s cols) as LC.
    { intros sym y I Y. destruct (VC _ _ I Y) as (V1 & V2), (VC _ _ I0 Y0) as (V3 & V4). apply (lag_columns_same y0 y); congruence || exact LF. }
    assert (forall sym y col, In sym symbols -> D sym = Some y -> In col cols -> is_column y s col) as CC by (intros sym y col I Y Ic; exact (lag_cols_column _ _ _ _ (LC _ _ I Y) Ic)).
    destruct (merge_defined data itv s symbols INN cols n CC symbols (fun _ I => I) c PR) as (c1 & M & EN & _ & DP). fold D in M, DP. rewrite M. cbn [of_lag obind].
    destruct (AL cols n c1 P (fun y => may_train y train test la) TS) as (m & rows & E & ML & LE & RL & MI); [intros sym y I Y; apply (HY sym y I Y)|exact CC|exact EN|exact DP|].
    destruct (AL cols n c1 T (fun y => closes_on y test) ES) as (m2 & rows2 & E2 & _); [intros sym y I Y; apply (HY sym y I Y)|exact CC|exact EN|exact DP|].
    rewrite E, E2. cbn [of_lag obind]. specialize (MI NE).
    assert (forall sym y col, In sym symbols -> D sym = Some y -> In col cols -> hist_run data (mk_lkey sym col (Some itv)) = series y col) as SE
      by (intros sym y col _ Y _; unfold hist_run; cbn; unfold D in Y; rewrite Y; reflexivity).
    destruct (pooled_features D s symbols OK columns P cols n c1 d itv (hist_run data) m EN SE LC DA NT) as (rows' & Em & F).
    { rewrite <- E, CP. destruct (pick D P symbols) as [|t0 l0]; [congruence|reflexivity]. }
    assert (rows' = rows) as -> by (rewrite Em in ML; cbn in ML; congruence).
    assert (input_ok m) as IO by (rewrite Em; apply input_rows_ok; intros l Q; injection Q as <-; apply Forall2_len in F; rewrite map_length; auto).
    assert (i_dates m <> []) as ND0 by (rewrite Em; cbn [input_of i_dates]; destruct (tsort D s (pick D P symbols)); [congruence|discriminate]).
    assert (forall e, drop_lag_warmup m = Raise e <-> e = NothingToTrain /\ Forall (In None) rows) as DR by (intros e; exact (drop_raises m rows e IO ML ND0)).
    assert (Forall (In None) rows <-> forall sym y i, In sym symbols -> D sym = Some y -> may_train y train test la i -> ~ whole_features y s n i) as NW.
    { split.
      - intros FN sym y i I Y MT W. assert (In (sym, i) (ids (tsort D s (pick D P symbols)))) as Ii by (apply KP; split; [exact I|exists y; auto]). apply in_map_iff in Ii. destruct Ii as (t & Q & It).
        assert (fst t = sym /\ fst (snd t) = i) as (X1 & X2) by (split; congruence). destruct (In_nth_error _ _ It) as (j & J). destruct (Forall2_nth _ _ _ F _ _ J) as (row & R & y' & Y' & L1 & FE).
        rewrite X1 in Y'. assert (y' = y) as -> by congruence. rewrite X2 in FE. rewrite Forall_forall in FN. apply (proj2 (features_whole _ _ _ _ _ _ L1 FE) W). exact (FN row (nth_error_In _ _ R)).
      - intros H. apply Forall_forall. intros row R. destruct (Forall2_in_r _ _ _ F _ R) as (t & It & y' & Y' & L1 & FE).
        assert (In (fst t, fst (snd t)) (ids (tsort D s (pick D P symbols)))) as Ii by (apply in_map_iff; exists t; auto). apply KP in Ii. destruct Ii as (I & y & Y & MT). assert (y' = y) as -> by congruence.
        destruct (in_dec value_dec None row) as [Q|Q]; [exact Q|]. destruct (H (fst t) y (fst (snd t)) I Y MT). apply (features_whole _ _ _ _ _ _ L1 FE). exact Q. }
    eexists. eexists. split; [reflexivity|]. split; [discriminate|]. intros n0 Q. injection Q as <-. split; [|split].
    + intros (sym & y & i & I & Y & MT & W). destruct (drop_lag_warmup m) as [t|e] eqn:DL; [cbn [of_lag obind]; eauto|]. exfalso. destruct (proj1 (DR e) eq_refl) as (_ & FN). exact (proj1 NW FN sym y i I Y MT W).
    + intros _ H. rewrite (proj2 (DR NothingToTrain) (conj eq_refl (proj2 NW H))). reflexivity.
    + intros H. exfalso. apply NE, EMP, H.
Qed.

(** The order in which the set of symbols is gone through does not matter. *)
Lemma pooled_row_same D s p w w' : is_pooled_row D s p w -> is_pooled_row D s p w' -> w = w'.
Proof.
  intros (S1 & y & Y & R) (S2 & y' & Y' & R'). assert (y' = y) as -> by congruence.
  assert (mk_whole None (w_date w) (w_values w) (w_lags w) = mk_whole None (w_date w') (w_values w') (w_lags w')) as E.
  { apply (row_alike y y s (snd p)); [reflexivity|reflexivity| | |].
    - intros k _. split; [reflexivity|]. intros c l l' E E'. congruence.
    - split; [reflexivity|exact R].
    - split; [reflexivity|exact R']. }
  destruct w, w'. cbn in *. congruence.
Qed.
Lemma pooled_rows_same D s : forall ks ws ws', Forall2 (is_pooled_row D s) ks ws -> Forall2 (is_pooled_row D s) ks ws' -> ws = ws'.
Proof.
  induction ks as [|k ks IH]; intros ws ws' F F'; inversion F; inversion F'; subst; [reflexivity|]. f_equal; [eapply pooled_row_same; eassumption|apply IH; assumption].
Qed.
Lemma pairs_unique l l' : StronglySorted pair_lt l -> StronglySorted pair_lt l' -> (forall sym i, In (sym, i) l <-> In (sym, i) l') -> l = l'.
Proof.
  intros S1 S2 E. apply (ss_unique pair_lt); [unfold pair_lt; intros; lia|unfold pair_lt; intros; lia|exact S1|exact S2|]. intros (a & b). apply E.
Qed.
Lemma prepare_pooled_order data symbols symbols' itv s vwap customs c c1 c' c1' train test la tr te tr' te' :
  prepared data c -> prepared data c' -> NoDup symbols -> NoDup symbols' -> (forall sym, In sym symbols <-> In sym symbols') ->
  fit (fun sym => data sym itv) s symbols vwap customs -> (forall d e, In d train -> In e test -> (d < e)%Z) ->
  (so_lags s = None \/ exists sym y i, In sym symbols /\ data sym itv = Some y /\ may_train y train test la i) ->
  prepare_pooled symbols itv train test (fun sym => data sym itv) s c la = (c1, Done (tr, te)) ->
  prepare_pooled symbols' itv train test (fun sym => data sym itv) s c' la = (c1', Done (tr', te')) ->
  rows_of tr = rows_of tr' /\ rows_of te = rows_of te'.
Proof.
  intros PR PR' ND ND' SAME FIT LT MT E E'.
  assert (fit (fun sym => data sym itv) s symbols' vwap customs) as FIT' by (intros sym I; apply FIT, SAME, I).
  destruct (prepare_pooled_rows _ _ _ _ _ _ _ _ _ _ _ _ _ PR ND FIT LT E) as ((ks & S1 & F1 & K1) & (kt & S2 & F2 & K2)).
  destruct (prepare_pooled_rows _ _ _ _ _ _ _ _ _ _ _ _ _ PR' ND' FIT' LT E') as ((ks' & S1' & F1' & K1') & (kt' & S2' & F2' & K2')).
  assert (ks = ks') as <- by (apply pairs_unique; auto; intros sym i; rewrite K1, K1', SAME; reflexivity).
  assert (kt = kt') as <- by (apply pairs_unique; auto; intros sym i; rewrite K2, K2', SAME; reflexivity).
  split; [exact (pooled_rows_same _ _ _ _ _ F1 F1')|]. apply (pooled_rows_same _ _ _ _ _ (F2 MT)). apply F2'.
  destruct MT as [Q|(sym & y & i & I & Y & M)]; [left; exact Q|right]. exists sym, y, i. rewrite <- SAME. auto.
Qed.

(** The training frame does not depend on what comes later. *)
Lemma prepare_pooled_indicators symbols itv train test D s c la c' r : prepare_pooled symbols itv train test D s c la = (c', Done r) ->
  forall sym y, In sym symbols -> D sym = Some y -> indicators_ok y s.
Proof.
  unfold prepare_pooled. destruct (pool_parts symbols train test D s la) as [((a & b) & d)|] eqn:PP; [|discriminate]. intros _ sym y I Y.
  apply parts_done in PP. destruct PP as (_ & _ & DD). destruct (DD sym I) as (y' & Y' & _ & O). assert (y' = y) as -> by congruence. exact O.
Qed.
Lemma pooled_row_alike D D' s p y y' w w' : D (fst p) = Some y -> D' (fst p) = Some y' -> y_vwap y = y_vwap y' -> y_customs y = y_customs y' -> alike y y' (snd p) ->
  is_pooled_row D s p w -> is_pooled_row D' s p w' -> w = w'.
Proof.
  intros Y Y' EV EC A (S1 & y1 & Y1 & R) (S2 & y2 & Y2 & R'). assert (y1 = y) as -> by congruence. assert (y2 = y') as -> by congruence.
  assert (mk_whole None (w_date w) (w_values w) (w_lags w) = mk_whole None (w_date w') (w_values w') (w_lags w')) as E.
  { apply (row_alike y y' s (snd p) _ _ EV EC A); (split; [reflexivity|]); assumption. }
  destruct w, w'. cbn in *. congruence.
Qed.
Lemma alike_sym y y' j : alike y y' j -> alike y' y j.
Proof. intros A k Kj. destruct (A k Kj) as (A1 & A2). split; [congruence|]. intros c0 l l' H H'. symmetry. exact (A2 c0 l' l H' H). Qed.
Lemma pooled_no_leak data data' symbols itv hv i n ind s c c1 c' c1' train test la tr te tr' te' :
  (forall sym, In sym symbols -> exists y y', data sym itv = Some y /\ data' sym itv = Some y' /\ same_past hv n ind i train y y' /\ source_ok y s) ->
  (forall k g, ind k = Some g -> causal g) -> NoDup symbols -> (forall d e, In d train -> In e test -> (d < e)%Z) ->
  prepared data c -> prepared data' c' ->
  prepare_pooled symbols itv train test (fun sym => data sym itv) s c la = (c1, Done (tr, te)) ->
  prepare_pooled symbols itv train test (fun sym => data' sym itv) s c' la = (c1', Done (tr', te')) -> rows_of tr = rows_of tr'.
Proof.
  intros H CA ND LT P P' E E'.
  assert (forall sym y y', In sym symbols -> data sym itv = Some y -> data' sym itv = Some y' -> bars_ok y /\ bars_ok y' /\ source_ok y s /\ source_ok y' s /\
    (y_vwap y = hv /\ y_customs y = n) /\ (y_vwap y' = hv /\ y_customs y' = n) /\ map c_date (y_bars y) = map c_date (y_bars y') /\ forall m, closes_on y train m -> alike y y' m) as FA.
  { intros sym y y' I Y Y'. destruct (H sym I) as (y1 & y1' & Y1 & Y1' & (p & f & f' & bars & bars' & cp & cp' & C & C' & SD & IN & CL & LF & -> & ->) & SO).
    assert (y = computed bars hv n ind) as -> by congruence. assert (y' = computed bars' hv n ind) as -> by congruence.
    destruct (past_alike _ _ _ _ _ _ _ _ _ _ _ _ C C' SD IN CL CA LF) as (OK & OK' & ED & AL). split; [exact OK|]. split; [exact OK'|]. split; [exact SO|]. split; [exact SO|]. auto. }
  assert (fit (fun sym => data sym itv) s symbols hv n) as FIT.
  { intros sym I. destruct (H sym I) as (y & y' & Y & Y' & _). destruct (FA sym y y' I Y Y') as (O1 & _ & O2 & _ & O3 & _). exists y. split; [exact Y|]. tauto. }
  assert (fit (fun sym => data' sym itv) s symbols hv n) as FIT'.
  { intros sym I. destruct (H sym I) as (y & y' & Y & Y' & _). destruct (FA sym y y' I Y Y') as (_ & O1 & _ & O2 & _ & O3 & _). exists y'. split; [exact Y'|]. tauto. }
  destruct (prepare_pooled_rows _ _ _ _ _ _ _ _ _ _ _ _ _ P ND FIT LT E) as ((ks & S1 & F1 & K1) & _).
  destruct (prepare_pooled_rows _ _ _ _ _ _ _ _ _ _ _ _ _ P' ND FIT' LT E') as ((ks' & S1' & F1' & K1') & _).
  pose proof (prepare_pooled_indicators _ _ _ _ _ _ _ _ _ _ E) as IN1. pose proof (prepare_pooled_indicators _ _ _ _ _ _ _ _ _ _ E') as IN2. cbv beta in IN1, IN2.
  assert (forall sym y y' m, In sym symbols -> data sym itv = Some y -> data' sym itv = Some y' ->
    (may_train y train test la m /\ match so_lags s with None => True | Some lags => exists j, j <= m /\ may_train y train test la j /\ whole_features y s lags j end <->
     may_train y' train test la m /\ match so_lags s with None => True | Some lags => exists j, j <= m /\ may_train y' train test la j /\ whole_features y' s lags j end)) as EQ.
  { intros sym y y' m I Y Y'. destruct (FA sym y y' I Y Y') as (OK & OK' & SO & SO' & (V1 & V2) & (V3 & V4) & ED & AL).
    assert (y_vwap y = y_vwap y') as EV by congruence. assert (y_customs y = y_customs y') as EC by congruence.
    pose proof (column_values y s OK (IN1 sym y I Y)) as CV. pose proof (column_values y' s OK' (IN2 sym y' I Y')) as CV'.
    assert (length (y_bars y) = length (y_bars y')) as LL by (apply (f_equal (@length Z)) in ED; rewrite !map_length in ED; exact ED).
    assert (forall j, may_train y train test la j -> j < length (y_bars y)) as LB by (intros j ((b & B & _) & _); exact (nth_some_lt _ _ _ B)).
    assert (forall c0, is_column y s c0 <-> is_column y' s c0) as IC by (intros c0; unfold is_column; rewrite (is_data_same y y' c0 EV EC); reflexivity).
    split; intros (M & W).
    - split; [exact (may_train_same _ _ _ _ _ _ ED M)|]. destruct (so_lags s) as [q|]; [|exact Logic.I]. destruct W as (j & L & MJ & W). exists j. split; [exact L|].
      split; [exact (may_train_same _ _ _ _ _ _ ED MJ)|]. apply (whole_alike y y' s q j EV EC); [apply AL, MJ| |exact W].
      intros c0 C0 k Kj. apply CV'; [apply IC, C0|]. pose proof (LB j MJ). lia.
    - apply (may_train_same _ _ _ _ _ _ (eq_sym ED)) in M. split; [exact M|]. destruct (so_lags s) as [q|]; [|exact Logic.I]. destruct W as (j & L & MJ & W). exists j. split; [exact L|].
      apply (may_train_same _ _ _ _ _ _ (eq_sym ED)) in MJ. split; [exact MJ|].
      apply (whole_alike y' y s q j (eq_sym EV) (eq_sym EC) (alike_sym _ _ _ (AL j (proj1 MJ)))); [|exact W]. intros c0 C0 k Kj. apply CV; [apply IC, C0|]. pose proof (LB j MJ). lia. }
  assert (ks = ks') as <-.
  { apply pairs_unique; auto. intros sym m. rewrite K1, K1'. split; intros (I & y & Y & Q); (split; [exact I|]); destruct (H sym I) as (y1 & y2 & Y1 & Y2 & _).
    - assert (y = y1) as -> by congruence. exists y2. split; [exact Y2|]. exact (proj1 (EQ sym y1 y2 m I Y1 Y2) Q).
    - assert (y = y2) as -> by congruence. exists y1. split; [exact Y1|]. exact (proj2 (EQ sym y1 y2 m I Y1 Y2) Q). }
  assert (forall q, In q ks -> exists y y', data (fst q) itv = Some y /\ data' (fst q) itv = Some y' /\ y_vwap y = y_vwap y' /\ y_customs y = y_customs y' /\ alike y y' (snd q)) as AK.
  { intros (sym & m) Iq. apply K1 in Iq. destruct Iq as (I & y & Y & (C & _) & _). destruct (H sym I) as (y1 & y2 & Y1 & Y2 & _). assert (y1 = y) as -> by congruence.
    destruct (FA sym y y2 I Y Y2) as (_ & _ & _ & _ & (V1 & V2) & (V3 & V4) & _ & AL). exists y, y2. split; [exact Y|]. split; [exact Y2|]. split; [congruence|]. split; [congruence|]. apply AL, C. }
  clear K1 K1' S1 S1'. revert F1'. generalize (rows_of tr'). induction F1 as [|q w ks ws Hw F IH]; intros l R'; inversion R'; subst; [reflexivity|]. f_equal.
  - destruct (AK q (or_introl eq_refl)) as (yy & yy' & Y & Y' & EV & EC & A). eapply (pooled_row_alike (fun sym => data sym itv) (fun sym => data' sym itv)); eassumption.
  - apply IH; [|assumption]. intros k Ik. apply AK. right. exact Ik.
Qed.
