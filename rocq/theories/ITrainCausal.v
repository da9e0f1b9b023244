(** When interval-bound models are prepared, and what their training frames depend on. *)
From Verif Require Import NameProofs IntervalProofs IntervalViews IntervalReads.
From Verif Require Import LagProofs.
From Verif Require Import ITrainSpec ITrainProofs.
From Coq Require Import Lia.
Open Scope list_scope.
Open Scope nat_scope.

(** ** Groups depend on the dates only *)
Definition same_dates (g g' : list row) : Prop := map r_date g = map r_date g'.
Lemma runs_dates bin : forall rows rows', same_dates rows rows' -> Forall2 same_dates (runs bin rows) (runs bin rows').
Proof.
  induction rows as [|x r IH]; intros [|x' r'] E; try discriminate E; [constructor|]. unfold same_dates in E. cbn [map] in E. injection E as E1 E2.
  specialize (IH r' E2). cbn [runs]. destruct IH as [|g g' gs gs' G F]; [constructor; [|constructor]; unfold same_dates; cbn [map]; congruence|].
  destruct g as [|z g], g' as [|z' g']; try discriminate G.
  - constructor; [|constructor]. unfold same_dates. cbn [map]. congruence.
  - unfold same_dates in G. cbn [map] in G. injection G as G1 G2. unfold id. rewrite G1, E1. destruct (Z.eqb _ _).
    + constructor; [|exact F]. unfold same_dates. cbn [map]. congruence.
    + constructor; [unfold same_dates; cbn [map]; congruence|]. constructor; [|exact F]. unfold same_dates. cbn [map]. congruence.
Qed.
Lemma same_dates_length g g' : same_dates g g' -> length g = length g'.
Proof. intros E. unfold same_dates in E. apply (f_equal (@length Z)) in E. rewrite !map_length in E. exact E. Qed.
Lemma same_dates_firstn g g' n : same_dates g g' -> same_dates (firstn n g) (firstn n g').
Proof. unfold same_dates. intros E. rewrite <- !firstn_map, E. reflexivity. Qed.
Lemma same_dates_skipn g g' n : same_dates g g' -> same_dates (skipn n g) (skipn n g').
Proof. unfold same_dates. intros E. rewrite <- !skipn_map, E. reflexivity. Qed.
Lemma chunks_dates k m : forall l l', same_dates l l' -> Forall2 same_dates (chunks m k l) (chunks m k l').
Proof. induction m as [|m IH]; intros l l' E; [constructor|]. cbn [chunks]. constructor; [apply same_dates_firstn, E|]. apply IH, same_dates_skipn, E. Qed.
Lemma groups_dates j rows rows' : same_dates rows rows' -> Forall2 same_dates (groups j rows) (groups j rows').
Proof.
  intros E. destruct j as [k|s]; cbn [groups]; [|apply runs_dates, E]. unfold groups_every. cbv zeta. rewrite <- (same_dates_length _ _ E).
  apply Forall2_app; [apply chunks_dates, same_dates_firstn, E|]. destruct (_ <? _); [|constructor]. constructor; [|constructor].
  unfold IntervalModel.slice. apply same_dates_firstn, same_dates_skipn, E.
Qed.
(** The groups that lie within the common beginning are the same. *)
Lemma groups_common gs gs' : Forall2 same_dates gs gs' -> forall p f f' i g, concat gs = p ++ f -> concat gs' = p ++ f' ->
  nth_error gs i = Some g -> length (concat (firstn (S i) gs)) <= length p -> nth_error gs' i = Some g.
Proof.
  induction 1 as [|g0 g0' gs gs' SD F IH]; intros p f f' i g C C' N L; [destruct i; discriminate|]. pose proof (same_dates_length _ _ SD) as LG.
  cbn [concat firstn] in *. rewrite app_length in L.
  assert (g0 = firstn (length g0) p) as E0.
  { apply (f_equal (firstn (length g0))) in C. rewrite !firstn_app in C. rewrite Nat.sub_diag in C. cbn [firstn] in C. rewrite app_nil_r, firstn_all in C.
    replace (length g0 - length p) with 0 in C by lia. cbn [firstn] in C. rewrite app_nil_r in C. exact C. }
  assert (g0' = firstn (length g0) p) as E0'.
  { apply (f_equal (firstn (length g0))) in C'. rewrite !firstn_app in C'. rewrite LG, Nat.sub_diag, <- LG in C'. cbn [firstn] in C'. rewrite app_nil_r in C'. rewrite LG in C' at 1. rewrite firstn_all in C'.
    replace (length g0 - length p) with 0 in C' by lia. cbn [firstn] in C'. rewrite app_nil_r in C'. exact C'. }
  destruct i as [|i]; cbn in N |- *; [injection N as <-; congruence|].
  assert (p = g0 ++ skipn (length g0) p) as Ep by (rewrite E0 at 1; symmetry; apply firstn_skipn).
  apply (IH (skipn (length g0) p) f f' i g); [| |exact N|].
  - rewrite Ep, <- app_assoc in C. apply app_inv_head in C. exact C.
  - rewrite Ep, <- app_assoc in C'. replace g0' with g0 in C' by congruence. apply app_inv_head in C'. exact C'.
  - rewrite skipn_length. cbn [firstn] in L. lia.
Qed.
(** The last base bar of a group. *)
Lemma group_last (gs : list (list row)) : forall i g r y, nth_error gs i = Some g -> g = r ++ [y] -> nth_error (concat gs) (length (concat (firstn (S i) gs)) - 1) = Some y.
Proof.
  induction gs as [|g0 gs IH]; intros i g r y N E; [destruct i; discriminate|]. destruct i as [|i]; cbn in N.
  - injection N as ->. cbn [firstn concat]. rewrite app_nil_r, E, app_length. cbn [length].
    rewrite <- app_assoc, nth_error_app2 by lia. replace (length r + 1 - 1 - length r) with 0 by lia. reflexivity.
  - specialize (IH i g r y N E). change (firstn (S (S i)) (g0 :: gs)) with (g0 :: firstn (S i) gs). cbn [concat]. rewrite app_length.
    assert (1 <= length (concat (firstn (S i) gs))) as L1.
    { rewrite <- (firstn_skipn (S i) gs) in N. rewrite nth_error_app1 in N by (rewrite firstn_length; apply nth_some_lt in N; rewrite firstn_skipn in N; lia).
      clear - N E. revert N. generalize (firstn (S i) gs). intros l N. apply nth_error_split in N. destruct N as (l1 & l2 & -> & _).
      rewrite concat_app, app_length. cbn [concat]. rewrite app_length, E, app_length. cbn. lia. }
    rewrite nth_error_app2 by lia. replace (length g0 + length (concat (firstn (S i) gs)) - 1 - length g0) with (length (concat (firstn (S i) gs)) - 1) by lia. exact IH.
Qed.
(** Bars that close before the bars differ are the same. *)
Lemma bars_common hv itv p f f' bars bars' completed completed' :
  compress hv (p ++ f) itv = Some (bars, completed) -> compress hv (p ++ f') itv = Some (bars', completed') -> same_dates f f' ->
  map c_date bars = map c_date bars' /\
  forall i b, nth_error bars i = Some b -> (forall r, In r f -> (c_date b < r_date r)%Z) -> nth_error bars' i = Some b.
Proof.
  intros C C' SD. destruct (compress_some _ _ _ _ _ C) as (j & N & -> & _). destruct (compress_some _ _ _ _ _ C') as (j' & N' & -> & _).
  assert (j' = j) as -> by (apply normalize_iff in N; apply normalize_iff in N'; congruence).
  assert (same_dates (p ++ f) (p ++ f')) as SA by (unfold same_dates in *; rewrite !map_app; congruence).
  pose proof (groups_dates j _ _ SA) as GD. destruct (groups_ok itv j (p ++ f) N) as (CC & NE). destruct (groups_ok itv j (p ++ f') N) as (CC' & NE').
  assert (forall rows g, (forall h, In h (groups j rows) -> h <> []) -> In g (groups j rows) -> exists y r, g = r ++ [y] /\ c_date (full_bar hv g) = r_date y) as LD.
  { intros rows g NN I. pose proof (IntervalViews.bars_ok hv [g]) as B. assert (Forall2 (summarises hv) [g] (map (full_bar hv) [g])) as S.
    { apply B. intros h [<-|[]]. exact (NN g I). }
    inversion S as [|? ? ? ? (_ & (y & r & E & _ & D & _) & _) _]; subst. exists y, r. auto. }
  split.
  - rewrite !map_map. revert GD LD. clear - NE NE'. intros GD LD.
    assert (forall g, In g (groups j (p ++ f)) -> exists y r, g = r ++ [y] /\ c_date (full_bar hv g) = r_date y) as L1 by (intros g I; exact (LD _ g NE I)).
    assert (forall g, In g (groups j (p ++ f')) -> exists y r, g = r ++ [y] /\ c_date (full_bar hv g) = r_date y) as L2 by (intros g I; exact (LD _ g NE' I)).
    clear LD NE NE'. induction GD as [|g g' gs gs' SD F IH]; [reflexivity|]. cbn [map]. f_equal.
    + destruct (L1 g (or_introl eq_refl)) as (y & r & E & D). destruct (L2 g' (or_introl eq_refl)) as (y' & r' & E' & D'). rewrite D, D'.
      unfold same_dates in SD. rewrite E, E', !map_app in SD. cbn [map] in SD. apply app_inj_tail in SD. apply SD.
    + apply IH; intros h I; [apply L1|apply L2]; right; exact I.
  - intros i b B LT. rewrite nth_error_map in B |- *. destruct (nth_error (groups j (p ++ f)) i) as [g|] eqn:G; [|discriminate]. cbn in B. injection B as <-.
    rewrite (groups_common _ _ GD p f f' i g CC CC' G); [reflexivity|].
    destruct (LD _ g NE (nth_error_In _ _ G)) as (y & r & E & D). pose proof (group_last _ _ _ _ _ G E) as LY. rewrite CC in LY.
    destruct (Nat.le_gt_cases (length (concat (firstn (S i) (groups j (p ++ f))))) (length p)) as [L|L]; [exact L|]. exfalso.
    rewrite nth_error_app2 in LY by lia. apply nth_error_In, LT in LY. rewrite D in LY. lia.
Qed.

(** ** Compressed bars are fit for training *)
Lemma increasing_app_last : forall gs : list (list row), StronglySorted Z.lt (map r_date (concat gs)) ->
  (forall g, In g gs -> g <> []) -> forall hv, StronglySorted Z.lt (map c_date (map (full_bar hv) gs)) /\
  forall b, In b (map (full_bar hv) gs) -> exists r, In r (concat gs) /\ c_date b = r_date r /\ c_custom b = r_custom r /\ (hv = true -> c_vwap b <> None).
Proof.
  intros gs SS NE hv. pose proof (IntervalViews.bars_ok hv gs NE) as B. induction B as [|g b gs bs S F IH]; [split; [constructor|intros b []]|].
  cbn [concat] in SS. rewrite map_app in SS.
  assert (forall (l m : list Z), StronglySorted Z.lt (l ++ m) -> StronglySorted Z.lt m /\ forall a c, In a l -> In c m -> (a < c)%Z) as SP.
  { clear. induction l as [|x l IH]; intros m H; [split; [exact H|intros a c []]|]. cbn [app] in H. inversion H as [|? ? H1 H2]; subst. destruct (IH m H1) as (A & B).
    split; [exact A|]. intros a c [<-|Ia] Ic; [|exact (B a c Ia Ic)]. rewrite Forall_forall in H2. apply H2, in_or_app. right. exact Ic. }
  destruct (SP _ _ SS) as (S2 & LT). destruct (IH S2 ltac:(intros h I; apply NE; right; exact I)) as (I1 & I2).
  destruct S as (_ & (z & r & E & _ & D & CU) & _ & _ & _ & V). split.
  - cbn [map]. constructor; [exact I1|]. apply Forall_forall. intros d I. apply in_map_iff in I. destruct I as (b' & <- & I).
    destruct (I2 b' I) as (r' & I' & D' & _). rewrite D, D'. apply LT; apply in_map; [rewrite E; apply in_or_app; right; left; reflexivity|exact I'].
  - intros b' [<-|I].
    + exists z. split; [cbn [concat]; rewrite E; apply in_or_app; left; apply in_or_app; right; left; reflexivity|]. split; [exact D|]. split; [exact CU|].
      intros ->. destruct V as (v & V & _). rewrite V. discriminate.
    + destruct (I2 b' I) as (r' & I' & Q). exists r'. split; [cbn [concat]; apply in_or_app; right; exact I'|exact Q].
Qed.
Lemma sorted_increasing l : StronglySorted Z.lt l -> increasing l.
Proof.
  induction 1 as [|x l HS IH F]; [exact I|]. destruct l as [|z l]; [exact I|]. split; [inversion F; assumption|exact IH].
Qed.
Lemma compressed_ok hv rows itv bars completed n ind : compress hv rows itv = Some (bars, completed) ->
  increasing (map r_date rows) -> (forall r, In r rows -> length (r_custom r) = n) -> bars_ok (mk_sym bars hv n ind).
Proof.
  intros C I L. destruct (compress_some _ _ _ _ _ C) as (j & N & -> & _). destruct (groups_ok itv j rows N) as (CC & NE).
  destruct (increasing_app_last (groups j rows)) with (hv := hv) as (S1 & S2); [rewrite CC; apply increasing_sorted, I|exact NE|].
  split; cbn [y_bars y_customs y_vwap]; [apply sorted_increasing, S1|]. intros b Ib. destruct (S2 b Ib) as (r & Ir & _ & CU & V). rewrite CC in Ir. rewrite CU. split; [exact (L r Ir)|exact V].
Qed.

(** ** Two runs with the same bars up to some bar *)
Definition alike (y y' : sym_data) (i : nat) : Prop := forall k, k <= i ->
  nth_error (y_bars y) k = nth_error (y_bars y') k /\
  forall c l l', y_indicator y c = Some l -> y_indicator y' c = Some l' -> nth_error l k = nth_error l' k.
Lemma alike_le y y' i j : alike y y' i -> j <= i -> alike y y' j.
Proof. intros A L k K. apply A. lia. Qed.
Lemma is_data_same y y' c : y_vwap y = y_vwap y' -> y_customs y = y_customs y' -> (is_data y c <-> is_data y' c).
Proof. unfold is_data. intros -> ->. reflexivity. Qed.
Lemma value_alike y y' i k col v v' : y_vwap y = y_vwap y' -> y_customs y = y_customs y' -> alike y y' i -> k <= i ->
  value_at y k col v -> value_at y' k col v' -> v = v'.
Proof.
  intros EV EC A L H H'. destruct (A k L) as (B & I).
  destruct H as [(D & b & Hb & V)|(D & l & Hl & V)], H' as [(D' & b' & Hb' & V')|(D' & l' & Hl' & V')];
    try (exfalso; apply D'; apply (is_data_same y y' _ EV EC); exact D); try (exfalso; apply D; apply (is_data_same y y' _ EV EC); exact D').
  - assert (b' = b) as -> by congruence. exact (data_value_fun _ _ _ _ V V').
  - rewrite (I _ _ _ Hl Hl') in V. congruence.
Qed.
Lemma sorted_same l : StronglySorted lt l -> forall m, StronglySorted lt m -> (forall c, In c l <-> In c m) -> l = m.
Proof.
  induction 1 as [|x l HS IH F]; intros [|z m] SM E.
  - reflexivity.
  - destruct (proj2 (E z) (or_introl eq_refl)).
  - destruct (proj1 (E x) (or_introl eq_refl)).
  - inversion SM as [|? ? SM' F']; subst. rewrite Forall_forall in F, F'.
    assert (x = z) as ->.
    { destruct (proj1 (E x) (or_introl eq_refl)) as [->|I]; [reflexivity|]. destruct (proj2 (E z) (or_introl eq_refl)) as [->|I']; [reflexivity|].
      specialize (F' x I). specialize (F z I'). lia. }
    f_equal. apply IH; [exact SM'|]. intros c. split; intros I.
    + destruct (proj1 (E c) (or_intror I)) as [<-|J]; [specialize (F _ I); lia|exact J].
    + destruct (proj2 (E c) (or_intror I)) as [<-|J]; [specialize (F' _ I); lia|exact J].
Qed.
Lemma lag_columns_alike y y' s cols cols' : y_vwap y = y_vwap y' -> y_customs y = y_customs y' -> lag_columns y s cols -> lag_columns y' s cols' -> cols = cols'.
Proof.
  intros EV EC [(N & E & _)|(N & S & E)] [(N' & E' & _)|(N' & S' & E')]; try congruence. apply sorted_same; auto. intros c. rewrite E, E'. apply is_data_same; auto.
Qed.
Lemma frame_columns_alike y y' s l l' : y_vwap y = y_vwap y' -> y_customs y = y_customs y' -> frame_columns y s l -> frame_columns y' s l' -> l = l'.
Proof.
  intros EV EC (c & -> & S & E) (c' & -> & S' & E'). f_equal. apply sorted_same; auto. intros x. rewrite E, E'. apply is_data_same; auto.
Qed.
Lemma row_alike y y' s i w w' : y_vwap y = y_vwap y' -> y_customs y = y_customs y' -> alike y y' i -> is_row y s i w -> is_row y' s i w' -> w = w'.
Proof.
  intros EV EC A (WS & (b & B & D) & F & V & L) (WS' & (b' & B' & D') & F' & V' & L'). destruct w as [ws wd wv wl], w' as [ws' wd' wv' wl']. cbn [w_symbol w_date w_values w_lags] in *.
  assert (wd = wd') as ->. { destruct (A i (Nat.le_refl i)) as (Q & _). assert (b' = b) as -> by congruence. congruence. }
  assert (ws = ws') as -> by congruence.
  assert (wv = wv') as ->.
  { pose proof (frame_columns_alike _ _ _ _ _ EV EC F F') as FE. clear - A V V' EV EC FE. revert wv' V' FE.
    induction wv as [|(c & x) r IH]; intros [|(c' & x') r'] V' FE; try discriminate; [reflexivity|]. cbn [map fst] in FE. injection FE as <- FE.
    destruct (V c x (or_introl eq_refl)) as (v & -> & H). destruct (V' c x' (or_introl eq_refl)) as (v' & -> & H').
    rewrite (value_alike y y' i i c v v' EV EC A (Nat.le_refl i) H H'). f_equal. apply IH; [|intros c1 x1 I; apply V'; right; exact I|exact FE]. intros c1 x1 I. apply V. right. exact I. }
  f_equal. destruct (so_lags s) as [n|]; [|congruence]. destruct L as (cols & row & LC & -> & (LR & H)), L' as (cols' & row' & LC' & -> & (LR' & H')).
  rewrite <- (lag_columns_alike _ _ _ _ _ EV EC LC LC') in *. do 2 f_equal. apply nth_error_ext'; [congruence|]. intros p Lp. rewrite LR in Lp.
  set (ci := p / S n). set (k := p mod S n). assert (p = ci * S n + k) as E by (unfold ci, k; pose proof (Nat.div_mod p (S n) ltac:(lia)); lia).
  assert (k <= n) as K by (unfold k; pose proof (Nat.mod_upper_bound p (S n) ltac:(lia)); lia).
  assert (ci < length cols) as C by (apply Nat.div_lt_upper_bound; lia). destruct (nth_lt_some _ _ C) as (col & Hc).
  destruct (H ci col k Hc K) as (v & N & Q). destruct (H' ci col k Hc K) as (v' & N' & Q'). rewrite E, N, N'. f_equal.
  destruct Q as [(L1 & Q)|(L1 & ->)], Q' as [(L2 & Q')|(L2 & ->)]; try lia; [|reflexivity]. apply (value_alike y y' i (i - k) col v v' EV EC A); [lia|exact Q|exact Q'].
Qed.
Lemma whole_alike y y' s n i : y_vwap y = y_vwap y' -> y_customs y = y_customs y' -> alike y y' i ->
  (forall c, is_column y s c -> forall k, k <= i -> exists v, value_at y' k c v) ->
  whole_features y s n i -> whole_features y' s n i.
Proof.
  intros EV EC A EX (cols & LC & H). exists cols. split.
  - destruct LC as [(N & E & I)|(N & S & E)]; [left; split; [exact N|]; split; [exact E|]|right; split; [exact N|]; split; [exact S|]].
    + intros c Ic. destruct (I c Ic) as [D|D]; [left; apply (is_data_same y y' c EV EC), D|right; exact D].
    + intros c. rewrite E. apply is_data_same; assumption.
  - intros col k I K. destruct (H col k I K) as (L & q & V). split; [exact L|]. exists q.
    destruct (EX col (lag_cols_column _ _ _ _ LC I) (i - k) ltac:(lia)) as (v' & V'). rewrite (value_alike y y' i (i - k) col (Some q) v' EV EC A ltac:(lia) V V'). exact V'.
Qed.

Lemma closes_same y y' dates i : map c_date (y_bars y) = map c_date (y_bars y') -> closes_on y dates i -> closes_on y' dates i.
Proof.
  intros E (b & B & I). assert (nth_error (map c_date (y_bars y')) i = Some (c_date b)) as N by (rewrite <- E, nth_error_map, B; reflexivity).
  rewrite nth_error_map in N. destruct (nth_error (y_bars y') i) as [b'|] eqn:B'; [|discriminate]. exists b'. split; [exact B'|]. cbn in N. congruence.
Qed.
Lemma may_train_same y y' train test la i : map c_date (y_bars y) = map c_date (y_bars y') -> may_train y train test la i -> may_train y' train test la i.
Proof. intros E (C & T). split; [exact (closes_same _ _ _ _ E C)|]. intros t H. apply T, (closes_same y' y _ _ (eq_sym E) H). Qed.
Lemma prepare_indicators sym itv train test y s c la c' r : prepare_symbol sym itv train test (Some y) s c la = (c', Done r) ->
  forall k, In k (so_indicators s) -> exists l, y_indicator y k = Some l /\ (y_bars y <> [] -> length l = length (y_bars y)).
Proof.
  unfold prepare_symbol. destruct (build_arrays sym y s) as [rows|] eqn:B; [|discriminate]. intros _. exact (proj2 (build_done _ _ _ _ B)).
Qed.
Lemma column_values y s : bars_ok y ->
  (forall k, In k (so_indicators s) -> exists l, y_indicator y k = Some l /\ (y_bars y <> [] -> length l = length (y_bars y))) ->
  forall c k, is_column y s c -> k < length (y_bars y) -> exists v, value_at y k c v.
Proof.
  intros OK IN c k H L. destruct (nth_lt_some _ _ L) as (b & B). destruct (mem c (data_columns y)) eqn:M.
  - apply data_columns_mem in M. exists (bar_value b c). left. split; [exact M|]. exists b. split; [exact B|]. exact (bar_value_ok y b c OK (nth_error_In _ _ B) M).
  - apply data_columns_nomem in M. destruct H as [H|H]; [contradiction|]. destruct (IN c H) as (l & Y & LL).
    assert (k < length l) as Lk by (rewrite LL; [exact L|]; intros Q; rewrite Q in L; cbn in L; lia). destruct (nth_lt_some _ _ Lk) as (v & V). exists v. right. split; [exact M|]. eauto.
Qed.
Lemma frames_alike data data' sym itv y y' s c c1 c' c1' train test la tr te tr' te' :
  prepared data c -> data sym itv = Some y -> prepared data' c' -> data' sym itv = Some y' ->
  bars_ok y -> bars_ok y' -> source_ok y s -> y_vwap y = y_vwap y' -> y_customs y = y_customs y' ->
  (forall d e, In d train -> In e test -> (d < e)%Z) ->
  map c_date (y_bars y) = map c_date (y_bars y') -> (forall i, closes_on y train i -> alike y y' i) ->
  prepare_symbol sym itv train test (Some y) s c la = (c1, Done (tr, te)) ->
  prepare_symbol sym itv train test (Some y') s c' la = (c1', Done (tr', te')) -> rows_of tr = rows_of tr'.
Proof.
  intros P D P' D' OK OK' SO EV EC LT ED AL E E'.
  assert (source_ok y' s) as SO' by (destruct SO as (ND & DJ); split; [exact ND|]; intros k I Q; apply (DJ k I), (is_data_same y y' k EV EC), Q).
  destruct (prepare_rows _ _ _ _ _ _ _ _ _ _ _ _ P D OK SO LT E) as ((ks & SS & R & K) & _).
  destruct (prepare_rows _ _ _ _ _ _ _ _ _ _ _ _ P' D' OK' SO' LT E') as ((ks' & SS' & R' & K') & _).
  pose proof (column_values y s OK (prepare_indicators _ _ _ _ _ _ _ _ _ _ E)) as CV.
  pose proof (column_values y' s OK' (prepare_indicators _ _ _ _ _ _ _ _ _ _ E')) as CV'.
  assert (length (y_bars y) = length (y_bars y')) as LL by (apply (f_equal (@length Z)) in ED; rewrite !map_length in ED; exact ED).
  assert (forall i, may_train y train test la i -> i < length (y_bars y)) as LB by (intros i ((b & B & _) & _); exact (nth_some_lt _ _ _ B)).
  assert (forall i, is_column y s i <-> is_column y' s i) as IC.
  { intros i. unfold is_column. rewrite (is_data_same y y' i EV EC). reflexivity. }
  assert (ks = ks') as <-.
  { apply sorted_same; auto. intros i. rewrite K, K'. split; intros (M & W).
    - split; [exact (may_train_same _ _ _ _ _ _ ED M)|]. destruct (so_lags s) as [n|]; [|exact I]. destruct W as (j & L & MJ & W). exists j. split; [exact L|].
      split; [exact (may_train_same _ _ _ _ _ _ ED MJ)|]. apply (whole_alike y y' s n j EV EC); [apply AL, MJ| |exact W].
      intros c0 H k Kj. apply CV'; [apply IC, H|]. pose proof (LB j MJ). lia.
    - apply (may_train_same _ _ _ _ _ _ (eq_sym ED)) in M. split; [exact M|]. destruct (so_lags s) as [n|]; [|exact I]. destruct W as (j & L & MJ & W). exists j. split; [exact L|].
      apply (may_train_same _ _ _ _ _ _ (eq_sym ED)) in MJ. split; [exact MJ|].
      assert (alike y' y j) as A' by (intros k Kj; destruct (AL j (proj1 MJ) k Kj) as (A1 & A2); split; [congruence|]; intros c0 l l' H H'; symmetry; exact (A2 c0 l' l H' H)).
      apply (whole_alike y' y s n j (eq_sym EV) (eq_sym EC) A'); [|exact W]. intros c0 H k Kj. apply CV; [apply IC, H|]. pose proof (LB j MJ). lia. }
  assert (forall i, In i ks -> alike y y' i) as AK by (intros i Ik; apply K in Ik; apply AL, (proj1 Ik)).
  clear K K' SS SS'. revert R'. generalize (rows_of tr'). induction R as [|i w ks ws H F IH]; intros l R'; inversion R'; subst; [reflexivity|]. f_equal.
  - apply (row_alike y y' s i); auto. apply AK. left. reflexivity.
  - apply IH; [|assumption]. intros k Ik. apply AK. right. exact Ik.
Qed.
Lemma past_alike hv i p f f' bars bars' completed completed' n ind train :
  compress hv (p ++ f) i = Some (bars, completed) -> compress hv (p ++ f') i = Some (bars', completed') ->
  map r_date f = map r_date f' -> increasing (map r_date (p ++ f)) ->
  (forall r, In r (p ++ f ++ f') -> length (r_custom r) = n) ->
  (forall k g, ind k = Some g -> causal g) ->
  (forall d r, In d train -> In r f -> (d < r_date r)%Z) ->
  bars_ok (computed bars hv n ind) /\ bars_ok (computed bars' hv n ind) /\ map c_date bars = map c_date bars' /\
  forall m, closes_on (computed bars hv n ind) train m -> alike (computed bars hv n ind) (computed bars' hv n ind) m.
Proof.
  intros C C' SD IN CL CA LF. destruct (bars_common _ _ _ _ _ _ _ _ _ C C' SD) as (ED & BC).
  assert (bars_ok (computed bars hv n ind)) as OK.
  { apply (compressed_ok hv (p ++ f) i bars completed); [exact C|exact IN|]. intros r I. apply CL. rewrite !in_app_iff in *. tauto. }
  assert (bars_ok (computed bars' hv n ind)) as OK'.
  { apply (compressed_ok hv (p ++ f') i bars' completed'); [exact C'|rewrite map_app in *; rewrite <- SD; exact IN|]. intros r I. apply CL. rewrite !in_app_iff in *. tauto. }
  split; [exact OK|]. split; [exact OK'|]. split; [exact ED|].
  intros m (b & B & I). cbn [computed y_bars] in B.
  assert (forall k, k <= m -> nth_error bars k = nth_error bars' k) as AB.
  { intros k K. destruct (nth_lt_some bars k) as (bk & Bk); [apply nth_some_lt in B; lia|]. rewrite Bk. symmetry. apply BC; [exact Bk|]. intros r Ir. specialize (LF _ r I Ir).
    assert (c_date bk <= c_date b)%Z; [|lia]. destruct OK as (INC & _). cbn [computed y_bars] in INC. destruct (Nat.eq_dec k m) as [->|NE]; [assert (bk = b) as -> by congruence; lia|].
    assert (c_date bk < c_date b)%Z; [|lia].
    apply (sorted_nth_lt _ (increasing_sorted _ INC) k m); [lia| |]; rewrite nth_error_map; [rewrite Bk|rewrite B]; reflexivity. }
  assert (firstn (S m) bars = firstn (S m) bars') as FB.
  { apply nth_error_ext'.
    - rewrite !firstn_length. apply (f_equal (@length Z)) in ED. rewrite !map_length in ED. lia.
    - intros k Lk. rewrite firstn_length in Lk. rewrite !nth_error_firstn' by lia. apply AB. lia. }
  intros k K. cbn [computed y_bars y_indicator]. split; [exact (AB k K)|]. intros col l l' H H'. destruct (ind col) as [g|] eqn:G; [|discriminate].
  injection H as <-. injection H' as <-. rewrite <- (nth_error_firstn' (g bars) (S m)), <- (nth_error_firstn' (g bars') (S m)) by lia. rewrite (CA col g G bars bars' (S m) FB). reflexivity.
Qed.
Lemma no_leak data data' sym itv hv i p f f' bars bars' completed completed' n ind s c c1 c' c1' train test la tr te tr' te' :
  compress hv (p ++ f) i = Some (bars, completed) -> compress hv (p ++ f') i = Some (bars', completed') ->
  map r_date f = map r_date f' -> increasing (map r_date (p ++ f)) ->
  (forall r, In r (p ++ f ++ f') -> length (r_custom r) = n) ->
  (forall k g, ind k = Some g -> causal g) ->
  (forall d r, In d train -> In r f -> (d < r_date r)%Z) -> (forall d e, In d train -> In e test -> (d < e)%Z) ->
  prepared data c -> data sym itv = Some (computed bars hv n ind) ->
  prepared data' c' -> data' sym itv = Some (computed bars' hv n ind) ->
  source_ok (computed bars hv n ind) s ->
  prepare_symbol sym itv train test (Some (computed bars hv n ind)) s c la = (c1, Done (tr, te)) ->
  prepare_symbol sym itv train test (Some (computed bars' hv n ind)) s c' la = (c1', Done (tr', te')) -> rows_of tr = rows_of tr'.
Proof.
  intros C C' SD IN CL CA LF LT P D P' D' SO E E'. destruct (past_alike _ _ _ _ _ _ _ _ _ _ _ _ C C' SD IN CL CA LF) as (OK & OK' & ED & AL).
  exact (frames_alike _ _ _ _ _ _ _ _ _ _ _ _ _ _ _ _ _ _ P D P' D' OK OK' SO eq_refl eq_refl LT ED AL E E').
Qed.

(** ** When a model is prepared *)
Lemma filter_segment {A} (g : A -> bool) (l : list A) :
  (forall i j k a b c, i < j < k -> nth_error l i = Some a -> nth_error l j = Some b -> nth_error l k = Some c -> g a = true -> g c = true -> g b = true) ->
  exists p q, l = p ++ filter g l ++ q /\ Forall (fun x => g x = false) p.
Proof.
  induction l as [|x l IH]; intros H; [exists [], []; auto|].
  destruct IH as (p & q & E & F).
  { intros i j k a b c L Na Nb Nc. apply (H (S i) (S j) (S k) a b c); auto. lia. }
  cbn [filter]. destruct (g x) eqn:G.
  - destruct (filter g l) as [|z fl] eqn:FL.
    + exists [], l. split; [reflexivity|constructor].
    + destruct p as [|w p].
      * exists [], q. cbn [app]. split; [rewrite E at 1; reflexivity|constructor].
      * exfalso. assert (g w = false) as Gw by (inversion F; assumption).
        assert (g w = true); [|congruence]. apply (H 0 1 (S (length (w :: p))) x w z); auto.
        -- cbn. lia.
        -- rewrite E. reflexivity.
        -- cbn [nth_error]. rewrite E. rewrite nth_error_app2 by lia. rewrite Nat.sub_diag. reflexivity.
        -- assert (In z (filter g l)) as I by (rewrite FL; left; reflexivity). apply filter_In in I. apply I.
  - exists (x :: p), q. cbn [app]. split; [rewrite E at 1; reflexivity|constructor; assumption].
Qed.
Lemma sel_segment y P Q : (forall i, In i (map fst (sel (y_bars y) P)) <-> Q i) -> unbroken Q ->
  exists p q, bar_dates y = p ++ map (fun ib => c_date (snd ib)) (sel (y_bars y) P) ++ q.
Proof.
  intros H U. destruct (filter_segment (fun ib : nat * cbar => P (c_date (snd ib))) (combine (seq 0 (length (y_bars y))) (y_bars y))) as (p & q & E & _).
  - intros i j k (ia & a) (ib & b) (ic & c) L Na Nb Nc Ga Gc. cbn [snd] in *.
    assert (forall i ia a, nth_error (combine (seq 0 (length (y_bars y))) (y_bars y)) i = Some (ia, a) -> ia = i /\ nth_error (y_bars y) i = Some a) as NB.
    { clear. intros i ia a N. destruct (nth_error (y_bars y) i) as [x|] eqn:B; [rewrite (combine_seq_nth _ 0 _ _ B) in N; injection N as <- <-; auto|].
      apply nth_error_None in B. rewrite (proj2 (nth_error_None _ i)) in N by (rewrite combine_length; lia). discriminate. }
    apply NB in Na, Nb, Nc. destruct Na as (-> & Na), Nb as (-> & Nb), Nc as (-> & Nc).
    assert (Q j) as Qj by (apply (U i j k); [lia| |]; apply H, sel_map_in; eauto). apply H, sel_map_in in Qj. destruct Qj as (b' & B' & G). congruence.
  - exists (map (fun ib => c_date (snd ib)) p), (map (fun ib => c_date (snd ib)) q). unfold sel. rewrite <- !map_app, <- E. unfold bar_dates.
    clear. generalize 0 at 1. induction (y_bars y) as [|b r IH]; intros s; [reflexivity|]. cbn [length seq combine map snd]. f_equal. apply IH.
Qed.

Lemma existsb_none {A} (g : A -> bool) l : (forall x, In x l -> g x = false) -> existsb g l = false.
Proof. induction l as [|x l IH]; intros H; [reflexivity|]. cbn [existsb]. rewrite (H x (or_introl eq_refl)). apply IH. intros z I. apply H. right. exact I. Qed.
Lemma value_dec (a b : value) : {a = b} + {a <> b}.
Proof. repeat decide equality. Qed.
Lemma build_ok sym y s : (forall k, In k (so_indicators s) -> exists l, y_indicator y k = Some l /\ length l = length (y_bars y)) ->
  build_arrays sym y s = Done (map (row_at sym y s) (combine (seq 0 (length (y_bars y))) (y_bars y))).
Proof.
  intros H. unfold build_arrays. rewrite existsb_none.
  - rewrite existsb_none; [reflexivity|]. intros k I. destruct (H k I) as (l & -> & ->). rewrite Nat.eqb_refl, andb_false_r. reflexivity.
  - intros k I. destruct (H k I) as (l & -> & _). reflexivity.
Qed.
Lemma lag_cols_ok y s : (forall c, In c (so_lag_cols s) -> is_column y s c) -> exists cols, lag_feature_cols (all_columns y s) (data_columns y) s = Done cols.
Proof.
  intros H. unfold lag_feature_cols. destruct (so_lag_cols s) as [|a l] eqn:L; [eexists; reflexivity|].
  rewrite (proj2 (forallb_forall _ _)); [eexists; reflexivity|]. intros c I. apply mem_in, all_columns_in, H, I.
Qed.
Lemma prepare_accepts data sym itv y s c train test la :
  prepared data c -> data sym itv = Some y -> bars_ok y -> source_ok y s ->
  (forall d e, In d train -> In e test -> (d < e)%Z) ->
  (forall k, In k (so_indicators s) -> exists l, y_indicator y k = Some l /\ length l = length (y_bars y)) ->
  (forall k, In k (so_lag_cols s) -> is_column y s k) ->
  unbroken (may_train y train test la) -> unbroken (closes_on y test) ->
  exists c' r, prepare_symbol sym itv train test (Some y) s c la = (c', r) /\
    (match so_lags s with None => True | Some n => (forall i, ~ may_train y train test la i) \/ exists i, may_train y train test la i /\ whole_features y s n i end ->
     exists frames, r = Done frames) /\
    (forall n, so_lags s = Some n -> (exists i, may_train y train test la i) -> (forall i, may_train y train test la i -> ~ whole_features y s n i) ->
     r = Failed (LagFails NothingToTrain)).
Proof.
  intros PR Y OK SO LT IN LCS U1 U2. apply prepared_entry in PR. unfold prepare_symbol. rewrite (build_ok sym y s IN). cbv zeta. rewrite !slice_sel.
  set (P := fun d => zmem d (fst (lookahead_train_dates (bar_dates y) train test la))) in *. set (T := fun d => zmem d test) in *.
  pose proof (train_sel y train test la OK LT) as TS. fold P in TS. pose proof (test_sel y test) as ES. fold T in ES.
  destruct (so_lags s) as [lags|] eqn:SL.
  2:{ eexists. eexists. split; [reflexivity|]. split; [eauto|]. intros n Q. discriminate. }
  destruct (lag_cols_ok y s LCS) as (cols & LF). rewrite LF. pose proof (lag_cols_spec _ _ _ LF SO) as LC.
  assert (forall col, In col cols -> hist_run data (mk_lkey sym col (Some itv)) = series y col) as SE by (intros col _; unfold hist_run; cbn; rewrite Y; reflexivity).
  rewrite (merge_ext _ _ _ _ (fun col => hist_run data (mk_lkey sym col (Some itv)))).
  2:{ intros col I. rewrite (array_series y s col (lag_cols_weak _ _ _ _ LF I)). symmetry. apply SE, I. }
  destruct (merge_arrays _ _ _ _ _ _) as [c1 r1] eqn:M. destruct (merge_spec _ _ _ _ _ _ _ _ PR M) as (EN & _ & DP & RO).
  assert (forall col, In col cols -> exists v, series y col = Some v /\ length v = length (bar_dates y)) as SV.
  { intros col I. unfold series. destruct (mem col (data_columns y)) eqn:MM; [eexists; split; [reflexivity|]; unfold bar_dates; rewrite !map_length; reflexivity|].
    destruct (lag_cols_column _ _ _ _ LC I) as [D|D]; [apply data_columns_mem in D; congruence|]. destruct (IN col D) as (l & L1 & L2). exists l. split; [exact L1|]. unfold bar_dates. rewrite map_length. exact L2. }
  assert (r1 = Ok tt) as ->. { apply RO. intros col I. rewrite (SE col I). destruct (SV col I) as (v & -> & _). discriminate. }
  specialize (DP eq_refl). cbn [of_lag obind].
  assert (forall P' Q', (forall i, In i (map fst (sel (y_bars y) P')) <-> Q' i) -> unbroken Q' ->
    exists m, build_matrix sym (Some itv) cols lags (map w_when (map (row_at sym y s) (sel (y_bars y) P'))) (bar_dates y) c1 = Ok m) as BM.
  { intros P' Q' HP HU. destruct (sel_segment y P' Q' HP HU) as (p & q & E). rewrite map_map. cbn [row_at w_when].
    rewrite E. apply (matrix_defined (hist_run data)); [exact EN|rewrite <- E; apply increasing_sorted, OK|]. intros col I. destruct (SV col I) as (v & V & LV). destruct (DP col I) as (st & G & LG).
    exists v, st. rewrite (SE col I), <- E. auto. }
  destruct (BM P _ TS U1) as (a & B1). destruct (BM T _ ES U2) as (b & B2). rewrite B1, B2. cbn [of_lag obind].
  pose proof (matrix_features _ _ _ _ _ _ _ _ _ _ OK LC EN SE B1) as F1.
  set (m := input_of _ _ _ (Some a)) in *.
  assert (length (i_dates m) = length (sel (y_bars y) P)) as LD by (unfold m; cbn [input_of i_dates]; rewrite !map_length; reflexivity).
  assert (input_ok m) as IO by (apply input_rows_ok; intros l Q; injection Q as <-; apply Forall2_len in F1; rewrite map_length; auto).
  eexists. eexists. split; [reflexivity|].
  assert (i_dates m = [] \/ i_dates m <> []) as [Ed|NE] by (destruct (i_dates m); [auto|right; discriminate]).
  { assert (sel (y_bars y) P = []) as S0 by (rewrite Ed in LD; destruct (sel (y_bars y) P); [reflexivity|discriminate]).
    split.
    - intros _. unfold drop_lag_warmup. cbn [m input_of i_lags]. fold m. rewrite Ed. cbn [of_lag obind]. eauto.
    - intros n _ (i & MT) _. apply TS in MT. rewrite S0 in MT. destruct MT. }
  assert (forall e, drop_lag_warmup m = Raise e <-> e = NothingToTrain /\ Forall (In None) a) as DR by (intros e; exact (drop_raises m a e IO eq_refl NE)).
  assert (Forall (In None) a <-> forall i, may_train y train test la i -> ~ whole_features y s lags i) as NW.
  { split.
    - intros F i MT W. apply TS, in_map_iff in MT. destruct MT as ((i' & b0) & Q & I). cbn in Q. subst i'. destruct (In_nth_error _ _ I) as (j & J).
      destruct (Forall2_nth _ _ _ F1 _ _ J) as (row & R & FR). cbn [fst] in FR. rewrite Forall_forall in F. apply (proj2 (features_whole _ _ _ _ _ _ LC FR) W). exact (F row (nth_error_In _ _ R)).
    - intros H. apply Forall_forall. intros row R. destruct (Forall2_in_r _ _ _ F1 _ R) as ((i & b0) & I & FR). cbn [fst] in FR.
      assert (may_train y train test la i) as MT by (apply TS, in_map_iff; exists (i, b0); auto).
      destruct (in_dec value_dec None row) as [Q|Q]; [exact Q|]. destruct (H i MT). apply (features_whole _ _ _ _ _ _ LC FR). exact Q. }
  split.
  - intros [N|(i & MT & W)].
    + exfalso. destruct (sel (y_bars y) P) as [|(i & b0) r] eqn:SP; [apply NE; destruct (i_dates m); [reflexivity|discriminate]|]. apply (N i), TS. left. reflexivity.
    + destruct (drop_lag_warmup m) as [t|e] eqn:DL; [cbn [of_lag obind]; eauto|]. exfalso. destruct (proj1 (DR e) eq_refl) as (_ & F). exact (proj1 NW F i MT W).
  - intros n Q _ H. injection Q as <-. rewrite (proj2 (DR NothingToTrain) (conj eq_refl (proj2 NW H))). reflexivity.
Qed.
