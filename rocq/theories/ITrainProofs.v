(** Proofs about the frames of interval-bound models. *)
From Verif Require Import IntervalProofs IntervalReads.
From Verif Require Import LagProofs.
From Verif Require Import ITrainSpec.
From Coq Require Import Lia.
Open Scope list_scope.
Open Scope nat_scope.

Lemma done_inj {A} (a b : A) : Done a = Done b -> a = b.
Proof. congruence. Qed.
Lemma pair_inj {A B} (a c : A) (b d : B) : (a, b) = (c, d) -> a = c /\ b = d.
Proof. intros E. split; congruence. Qed.

(** Columns. *)
Lemma data_columns_in y col : In col (data_columns y) <-> is_data y col.
Proof.
  unfold data_columns, is_data. rewrite !in_app_iff, in_map_iff. split.
  - intros [H|[H|(k & <- & I)]].
    + left. cbn in H. lia.
    + destruct (y_vwap y); [|destruct H]. destruct H as [<-|[]]. auto.
    + apply in_seq in I. lia.
  - intros [H|[(-> & V)|H]].
    + left. cbn. lia.
    + right. left. rewrite V. left. reflexivity.
    + right. right. exists (col - 6). split; [lia|]. apply in_seq. lia.
Qed.
Lemma data_columns_mem y col : mem col (data_columns y) = true <-> is_data y col.
Proof. rewrite mem_in. apply data_columns_in. Qed.
Lemma data_columns_nomem y col : mem col (data_columns y) = false <-> ~ is_data y col.
Proof. rewrite <- data_columns_mem. destruct (mem col (data_columns y)); split; congruence. Qed.
Lemma sorted_lt_app l m : StronglySorted lt l -> StronglySorted lt m -> (forall a b, In a l -> In b m -> a < b) -> StronglySorted lt (l ++ m).
Proof.
  induction 1 as [|x l HS IH F]; intros HM H; [exact HM|]. cbn [app]. constructor.
  - apply IH; [exact HM|]. intros a b Ia Ib. apply H; [right; exact Ia|exact Ib].
  - rewrite Forall_forall in *. intros b I. apply in_app_iff in I. destruct I as [I|I]; [exact (F b I)|]. apply H; [left; reflexivity|exact I].
Qed.
Lemma sorted_seq n : forall s, StronglySorted lt (seq s n).
Proof. induction n as [|n IH]; intros s; cbn [seq]; constructor; [apply IH|]. apply Forall_forall. intros x I. apply in_seq in I. lia. Qed.
Lemma sorted_map_add k l : StronglySorted lt l -> StronglySorted lt (map (Nat.add k) l).
Proof. induction 1 as [|x l HS IH F]; cbn [map]; constructor; [exact IH|]. rewrite Forall_forall in *. intros b I. apply in_map_iff in I. destruct I as (z & <- & I). specialize (F z I). lia. Qed.
Lemma data_columns_sorted y : StronglySorted lt (data_columns y).
Proof.
  unfold data_columns. apply sorted_lt_app; [exact (sorted_seq 5 0)| |].
  - apply sorted_lt_app; [destruct (y_vwap y); repeat constructor|apply sorted_map_add, sorted_seq|].
    intros a b Ia Ib. apply in_map_iff in Ib. destruct Ib as (k & <- & _). destruct (y_vwap y); [destruct Ia as [<-|[]]; lia|destruct Ia].
  - intros a b Ia Ib. apply in_app_iff in Ib. cbn in Ia. destruct Ib as [Ib|Ib].
    + destruct (y_vwap y); [destruct Ib as [<-|[]]; lia|destruct Ib].
    + apply in_map_iff in Ib. destruct Ib as (k & <- & _). lia.
Qed.
Lemma all_columns_in y s col : In col (all_columns y s) <-> is_column y s col.
Proof. unfold all_columns, is_column. rewrite in_app_iff, data_columns_in. reflexivity. Qed.
Lemma all_columns_nodup y s : source_ok y s -> NoDup (all_columns y s).
Proof.
  intros (ND & DJ). unfold all_columns. pose proof (sorted_nodup _ (data_columns_sorted y)) as NL.
  assert (forall k, In k (so_indicators s) -> ~ In k (data_columns y)) as X by (intros k I J; apply (DJ k I), data_columns_in, J).
  clear DJ. induction (data_columns y) as [|a l IH]; [exact ND|]. cbn [app]. inversion NL; subst. constructor.
  - intros I. apply in_app_iff in I. destruct I as [I|I]; [contradiction|]. apply (X a I). left. reflexivity.
  - apply IH; [assumption|]. intros k I J. apply (X k I). right. exact J.
Qed.

(** Values. *)
Definition series (y : sym_data) (col : nat) : option (list value) :=
  if mem col (data_columns y) then Some (map (fun b => bar_value b col) (y_bars y)) else y_indicator y col.
Lemma array_series y s col : is_column y s col -> array_of y s col = series y col.
Proof.
  intros H. unfold array_of, series. destruct (mem col (data_columns y)) eqn:E; [reflexivity|].
  destruct H as [H|H]; [apply data_columns_mem in H; congruence|]. rewrite (proj2 (mem_in _ _) H). reflexivity.
Qed.
Lemma bar_value_ok y b col : bars_ok y -> In b (y_bars y) -> is_data y col -> data_value b col (bar_value b col).
Proof.
  intros (_ & OK) I D. destruct (OK b I) as (LC & V).
  do 5 (destruct col as [|col]; [cbn; constructor|]). destruct D as [D|[(D & W)|D]]; [lia| |].
  - assert (col = 0) as -> by lia. cbn [bar_value]. destruct (c_vwap b) as [v|] eqn:E; [constructor; exact E|]. destruct (V W eq_refl).
  - destruct col as [|col]; [lia|]. cbn [bar_value]. change (S (S (S (S (S (S col)))))) with (6 + col). constructor.
    apply nth_error_nth'. lia.
Qed.
Lemma series_at y col l i v : bars_ok y -> series y col = Some l -> nth_error l i = Some v -> value_at y i col v.
Proof.
  intros OK E N. unfold series in E. destruct (mem col (data_columns y)) eqn:M.
  - apply data_columns_mem in M. injection E as <-. left. split; [exact M|]. rewrite nth_error_map in N.
    destruct (nth_error (y_bars y) i) as [b|] eqn:B; [|discriminate]. cbn in N. injection N as <-. exists b. split; [reflexivity|].
    exact (bar_value_ok y b col OK (nth_error_In _ _ B) M).
  - apply data_columns_nomem in M. right. split; [exact M|]. exists l. auto.
Qed.
Lemma data_value_fun b col v w : data_value b col v -> data_value b col w -> v = w.
Proof.
  intros A B. inversion A; subst; inversion B; subst; try reflexivity; try congruence.
Qed.
Lemma value_at_fun y i col v w : value_at y i col v -> value_at y i col w -> v = w.
Proof.
  intros [(D & b & B & V)|(D & l & L & V)] [(D' & b' & B' & W)|(D' & l' & L' & W)]; try contradiction.
  - rewrite B in B'. injection B' as <-. exact (data_value_fun _ _ _ _ V W).
  - congruence.
Qed.

(** Selected bars. *)
Definition sel (bars : list cbar) (P : Z -> bool) : list (nat * cbar) := filter (fun ib => P (c_date (snd ib))) (combine (seq 0 (length bars)) bars).
Lemma combine_seq_in {A} (l : list A) : forall s i x, In (i, x) (combine (seq s (length l)) l) <-> s <= i /\ nth_error l (i - s) = Some x.
Proof.
  induction l as [|y l IH]; intros s i x; cbn [length seq combine In].
  - split; [intros []|intros (_ & H); destruct (i - s); discriminate].
  - rewrite IH. split.
    + intros [E|(L & N)].
      * injection E as <- <-. rewrite Nat.sub_diag. split; [lia|reflexivity].
      * split; [lia|]. replace (i - s) with (S (i - S s)) by lia. exact N.
    + intros (L & N). destruct (Nat.eq_dec i s) as [->|D].
      * rewrite Nat.sub_diag in N. cbn in N. injection N as ->. left. reflexivity.
      * right. split; [lia|]. replace (i - s) with (S (i - S s)) in N by lia. exact N.
Qed.
Lemma sel_in bars P i b : In (i, b) (sel bars P) <-> nth_error bars i = Some b /\ P (c_date b) = true.
Proof. unfold sel. rewrite filter_In, combine_seq_in, Nat.sub_0_r. cbn [snd]. intuition lia. Qed.
Lemma sel_sorted bars P : StronglySorted lt (map fst (sel bars P)).
Proof.
  unfold sel. generalize 0 at 1. induction bars as [|b bars IH]; intros s; [constructor|]. cbn [length seq combine filter].
  destruct (P _); cbn [map fst]; [|apply IH]. constructor; [apply IH|]. apply Forall_forall. intros j I.
  apply in_map_iff in I. destruct I as ((j' & x) & <- & I). apply filter_In in I. destruct I as (I & _). apply combine_seq_in in I. cbn. lia.
Qed.
Lemma sel_map_in bars P i : In i (map fst (sel bars P)) <-> exists b, nth_error bars i = Some b /\ P (c_date b) = true.
Proof.
  rewrite in_map_iff. split.
  - intros ((j & b) & <- & I). exists b. apply sel_in, I.
  - intros (b & H). exists (i, b). split; [reflexivity|]. apply sel_in, H.
Qed.
Lemma zmem_in x l : zmem x l = true <-> In x l.
Proof. unfold zmem. rewrite existsb_exists. split; [intros (y & I & E); apply Z.eqb_eq in E; subst; exact I|intros I; exists x; rewrite Z.eqb_refl; auto]. Qed.
Lemma filter_map {A B} (f : A -> B) P l : filter P (map f l) = map f (filter (fun x => P (f x)) l).
Proof. induction l as [|x l IH]; [reflexivity|]. cbn [map filter]. destruct (P (f x)); cbn [map]; rewrite IH; reflexivity. Qed.
Lemma slice_sel sym y s dates :
  slice_dates (map (row_at sym y s) (combine (seq 0 (length (y_bars y))) (y_bars y))) dates = map (row_at sym y s) (sel (y_bars y) (fun d => zmem d dates)).
Proof. unfold slice_dates, sel. rewrite filter_map. reflexivity. Qed.

(** Rows of an input. *)
Lemma input_rows_ok pooled columns rows lags : (forall l, lags = Some l -> length l = length rows) -> input_ok (input_of pooled columns rows lags).
Proof.
  intros L. unfold input_of, input_ok. cbn [i_symbols i_dates i_columns i_lags]. rewrite map_length. split; [|split].
  - intros l E. destruct pooled; [|discriminate]. injection E as <-. apply map_length.
  - intros c I. unfold columns_of in I. apply in_map_iff in I. destruct I as (ic & <- & _). cbn. apply map_length.
  - exact L.
Qed.
Lemma combine_seq_nth {A} (l : list A) : forall s j x, nth_error l j = Some x -> nth_error (combine (seq s (length l)) l) j = Some (s + j, x).
Proof.
  induction l as [|z l IH]; intros s [|j] x X; try discriminate; cbn in X |- *; [injection X as ->; rewrite Nat.add_0_r; reflexivity|].
  rewrite (IH _ _ _ X). rewrite Nat.add_succ_r. reflexivity.
Qed.
Lemma rows_of_nth m j w : nth_error (rows_of m) j = Some w -> exists d, nth_error (i_dates m) j = Some d /\ w = whole m j d.
Proof.
  intros H. unfold rows_of in H. rewrite nth_error_map in H. destruct (nth_error (i_dates m) j) as [d|] eqn:D.
  - rewrite (combine_seq_nth _ 0 _ _ D) in H. cbn in H. injection H as <-. exists d. auto.
  - apply nth_error_None in D. rewrite (proj2 (nth_error_None _ j)) in H by (rewrite combine_length; lia). discriminate.
Qed.
Lemma rows_of_length m : length (rows_of m) = length (i_dates m).
Proof. unfold rows_of. rewrite map_length, combine_length, seq_length. lia. Qed.
Lemma columns_fst {A} columns (f : nat * nat -> A) : forall s, map fst (map (fun ic => (snd ic, f ic)) (combine (seq s (length columns)) columns)) = columns.
Proof. induction columns as [|c r IH]; intros s; [reflexivity|]. cbn [length seq combine map fst snd]. rewrite IH. reflexivity. Qed.

(** The lag features of a bar. *)
Definition hist_run (data : nat -> nat -> option sym_data) (k : lkey) : option (list value) :=
  match l_interval k with Some itv => match data (l_symbol k) itv with Some y => series y (l_column k) | None => None end | None => None end.
Lemma merge_ext sym itv lags f g columns : (forall col, In col columns -> f col = g col) -> forall c,
  merge_arrays c sym itv columns lags f = merge_arrays c sym itv columns lags g.
Proof.
  induction columns as [|col r IH]; intros H c; [reflexivity|]. cbn [merge_arrays]. rewrite (H col (or_introl eq_refl)).
  destruct (g col); [|reflexivity]. apply IH. intros z I. apply H. right. exact I.
Qed.
Lemma lag_cols_spec y s cols : lag_feature_cols (all_columns y s) (data_columns y) s = Done cols -> source_ok y s -> lag_columns y s cols.
Proof.
  intros E (ND & DJ). unfold lag_feature_cols in E. destruct (so_lag_cols s) as [|a l] eqn:L.
  - right. split; [exact L|]. assert (filter (fun c => mem c (data_columns y) && negb (mem c (so_indicators s))) (all_columns y s) = data_columns y) as F.
    { unfold all_columns. rewrite filter_app.
      assert (forall l', (forall c, In c l' -> is_data y c) -> filter (fun c => mem c (data_columns y) && negb (mem c (so_indicators s))) l' = l') as K1.
      { induction l' as [|c r IH]; intros H; [reflexivity|]. cbn [filter]. rewrite IH by (intros z I; apply H; right; exact I).
        assert (is_data y c) as D by (apply H; left; reflexivity). rewrite (proj2 (data_columns_mem _ _) D).
        destruct (mem c (so_indicators s)) eqn:M; [apply mem_in in M; destruct (DJ c M D)|reflexivity]. }
      assert (forall l', (forall c, In c l' -> In c (so_indicators s)) -> filter (fun c => mem c (data_columns y) && negb (mem c (so_indicators s))) l' = []) as K2.
      { induction l' as [|c r IH]; intros H; [reflexivity|]. cbn [filter]. rewrite IH by (intros z I; apply H; right; exact I).
        rewrite (proj2 (mem_in c (so_indicators s))) by (apply H; left; reflexivity). rewrite andb_false_r. reflexivity. }
      rewrite K1 by (intros c I; apply data_columns_in, I). rewrite K2 by auto. apply app_nil_r. }
    rewrite F in E. injection E as <-. split; [apply data_columns_sorted|]. apply data_columns_in.
  - left. rewrite L. split; [discriminate|]. destruct (forallb _ _) eqn:F; [|discriminate]. injection E as <-. split; [reflexivity|].
    intros c I. rewrite forallb_forall in F. apply all_columns_in, mem_in, F, I.
Qed.
Lemma lag_cols_column y s cols c : lag_columns y s cols -> In c cols -> is_column y s c.
Proof. intros [(_ & _ & H)|(_ & _ & H)] I; [exact (H c I)|]. left. apply H, I. Qed.
Lemma lag_cols_same y s cols cols' c : lag_columns y s cols -> lag_columns y s cols' -> In c cols -> In c cols'.
Proof. intros [(N & E & _)|(N & _ & E)] [(N' & E' & _)|(N' & _ & E')] I; try congruence. apply E', E, I. Qed.
(** [source_ok] is not needed for the cache: any lag column is a column. *)
Lemma lag_cols_weak y s cols c : lag_feature_cols (all_columns y s) (data_columns y) s = Done cols -> In c cols -> is_column y s c.
Proof.
  intros E I. unfold lag_feature_cols in E. destruct (so_lag_cols s) as [|a l] eqn:L.
  - apply done_inj in E. subst cols. apply filter_In in I. apply all_columns_in, I.
  - destruct (forallb _ _) eqn:F; [|discriminate]. injection E as <-. rewrite forallb_forall in F. apply all_columns_in, mem_in, F, I.
Qed.
Lemma prepare_entry data c c' sym itv tr te s la r : entry (hist_run data) c ->
  prepare_symbol sym itv tr te (data sym itv) s c la = (c', r) -> entry (hist_run data) c'.
Proof.
  intros EN E. unfold prepare_symbol in E. destruct (data sym itv) as [y|] eqn:Y; [|injection E as <- _; exact EN].
  destruct (build_arrays sym y s); [|injection E as <- _; exact EN]. destruct (so_lags s) as [lags|]; [|injection E as <- _; exact EN].
  destruct (lag_feature_cols _ _ s) as [cols|] eqn:LC; [|injection E as <- _; exact EN].
  destruct (merge_arrays _ _ _ _ _ _) as [c1 r1] eqn:M. injection E as <- _.
  rewrite (merge_ext _ _ _ _ (fun col => hist_run data (mk_lkey sym col (Some itv)))) in M.
  2:{ intros col I. rewrite (array_series y s col (lag_cols_weak _ _ _ _ LC I)). unfold hist_run. cbn. rewrite Y. reflexivity. }
  exact (proj1 (merge_spec _ _ _ _ _ _ _ _ EN M)).
Qed.
Lemma merge_symbols_entry data itv cols lags s : forall symbols c c' r, entry (hist_run data) c ->
  (forall sym y col, In sym symbols -> data sym itv = Some y -> In col cols -> is_column y s col \/ array_of y s col = None) ->
  merge_symbols c symbols itv cols lags (fun sym => data sym itv) s = (c', r) -> entry (hist_run data) c'.
Proof.
  induction symbols as [|sym l IH]; intros c c' r EN H E; cbn [merge_symbols] in E; [injection E as <- _; exact EN|].
  assert (forall sym0 y col, In sym0 l -> data sym0 itv = Some y -> In col cols -> is_column y s col \/ array_of y s col = None) as H' by (intros s0 y0 c0 I; apply H; right; exact I).
  destruct (data sym itv) as [y|] eqn:Y; [|exact (IH c c' r EN H' E)].
  destruct (merge_arrays c sym (Some itv) cols lags (array_of y s)) as [c1 r1] eqn:M.
  assert (entry (hist_run data) c1) as EN1.
  { clear E IH H'. assert (forall col, In col cols -> is_column y s col \/ array_of y s col = None) as HC by (intros col I; exact (H sym y col (or_introl eq_refl) Y I)). clear H.
    revert c EN M. induction cols as [|col cs IH]; intros c EN M; cbn [merge_arrays] in M; [injection M as <- _; exact EN|].
    destruct (array_of y s col) as [v|] eqn:A; [|injection M as <- _; exact EN].
    assert (hist_run data (mk_lkey sym col (Some itv)) = Some v) as HV.
    { unfold hist_run. cbn. rewrite Y. destruct (HC col (or_introl eq_refl)) as [Q|Q]; [|congruence]. rewrite <- (array_series y s col Q). exact A. }
    apply (IH ltac:(intros c0 I; apply HC; right; exact I) _ (proj1 (store_spec _ _ _ _ lags EN HV)) M). }
  destruct r1; [exact (IH c1 c' r EN1 H' E)|]. injection E as <- _. exact EN1.
Qed.
Lemma array_none y s col : is_column y s col \/ array_of y s col = None.
Proof.
  unfold array_of. destruct (mem col (data_columns y)) eqn:M; [left; left; apply data_columns_mem, M|].
  destruct (mem col (so_indicators s)) eqn:N; [left; right; apply mem_in, N|]. right. reflexivity.
Qed.
Lemma pooled_entry data c c' symbols itv tr te s la r : entry (hist_run data) c ->
  prepare_pooled symbols itv tr te (fun sym => data sym itv) s c la = (c', r) -> entry (hist_run data) c'.
Proof.
  intros EN E. unfold prepare_pooled in E. destruct (pool_parts _ _ _ _ _ _) as [((a & b) & d)|]; [|injection E as <- _; exact EN].
  destruct (so_lags s) as [lags|]; [|injection E as <- _; exact EN]. cbv zeta in E. destruct (lag_feature_cols _ _ s) as [cols|]; [|injection E as <- _; exact EN].
  destruct (merge_symbols _ _ _ _ _ _ _) as [c1 r1] eqn:M. injection E as <- _. apply (merge_symbols_entry _ _ _ _ _ _ _ _ _ EN) in M; [exact M|].
  intros. apply array_none.
Qed.
Lemma prepared_entry data c : prepared data c -> entry (hist_run data) c.
Proof.
  induction 1 as [|c c' sym itv tr te s la r P IH E|c c' symbols itv tr te s la r P IH E]; [intros k st; discriminate|exact (prepare_entry _ _ _ _ _ _ _ _ _ _ IH E)|].
  exact (pooled_entry _ _ _ _ _ _ _ _ _ _ IH E).
Qed.

Lemma increasing_sorted l : increasing l -> StronglySorted Z.lt l.
Proof.
  induction l as [|x l IH]; intros I; [constructor|]. assert (increasing l) as I' by (destruct l; [exact Logic.I|exact (proj2 I)]).
  constructor; [exact (IH I')|]. specialize (IH I'). destruct l as [|z l]; [constructor|]. destruct I as (L & _). inversion IH; subst. constructor; [exact L|].
  rewrite Forall_forall in *. intros w W. match goal with H : forall x, In x l -> _ |- _ => specialize (H w W) end. lia.
Qed.
Lemma features_of y s cols lags i b row ser : bars_ok y -> lag_columns y s cols -> nth_error (y_bars y) i = Some b ->
  (forall col, In col cols -> ser col = series y col) ->
  lag_row (bar_dates y) ser cols lags (c_date b) row -> features y cols lags i row.
Proof.
  intros OK LC B SE (L & H). split; [exact L|]. intros ci col k N K. destruct (H ci col k N K) as (values & x & V & R & (i' & D & K1 & K2)).
  exists x. split; [exact R|]. assert (i' = i) as ->.
  { apply (sorted_nth_inj (bar_dates y) i' i (c_date b)); [apply increasing_sorted, OK|exact D|]. unfold bar_dates. rewrite nth_error_map, B. reflexivity. }
  destruct (Nat.le_gt_cases k i) as [Q|Q]; [left|right; auto]. split; [exact Q|]. apply (series_at y col values _ _ OK); [|exact (K1 Q)].
  rewrite <- SE; [exact V|]. exact (nth_error_In _ _ N).
Qed.
Lemma features_whole y s cols lags i row : lag_columns y s cols -> features y cols lags i row -> (~ In None row <-> whole_features y s lags i).
Proof.
  intros LC (L & H). split.
  - intros N. exists cols. split; [exact LC|]. intros col k I K. destruct (In_nth_error _ _ I) as (ci & C).
    destruct (H ci col k C K) as (v & V & D). destruct v as [q|]; [|destruct (N (nth_error_In _ _ V))].
    destruct D as [(D & A)|(D & A)]; [split; [exact D|]; exists q; exact A|discriminate].
  - intros (cols' & LC' & W) I. destruct (In_nth_error _ _ I) as (p & P). assert (p < length row) as Lp by exact (nth_some_lt _ _ _ P). rewrite L in Lp.
    set (ci := p / S lags). set (k := p mod S lags). assert (p = ci * S lags + k) as E by (unfold ci, k; pose proof (Nat.div_mod p (S lags) ltac:(lia)); lia).
    assert (k <= lags) as K by (unfold k; pose proof (Nat.mod_upper_bound p (S lags) ltac:(lia)); lia).
    assert (ci < length cols) as C by (apply Nat.div_lt_upper_bound; lia). destruct (nth_lt_some _ _ C) as (col & Hc).
    destruct (H ci col k Hc K) as (v & V & D). rewrite <- E in V. assert (@nth_error value row p = Some None) as P' by exact P. assert (v = None) as -> by congruence.
    destruct (W col k (lag_cols_same _ _ _ _ _ LC LC' (nth_error_In _ _ Hc)) K) as (Q & q & A).
    destruct D as [(_ & D)|(D & _)]; [pose proof (value_at_fun _ _ _ _ _ A D); discriminate|lia].
Qed.

(** A row of an input of rows. *)
Lemma build_done sym y s rows : build_arrays sym y s = Done rows ->
  rows = map (row_at sym y s) (combine (seq 0 (length (y_bars y))) (y_bars y)) /\
  forall k, In k (so_indicators s) -> exists l, y_indicator y k = Some l /\ (y_bars y <> [] -> length l = length (y_bars y)).
Proof.
  unfold build_arrays. destruct (existsb _ _) eqn:E1; [discriminate|]. destruct (existsb _ (so_indicators s)) eqn:E2 in |- *; [discriminate|].
  intros E. injection E as <-. split; [reflexivity|]. intros k I.
  destruct (y_indicator y k) as [l|] eqn:Y.
  - exists l. split; [reflexivity|]. intros NE. destruct (Nat.eqb_spec (length l) (length (y_bars y))) as [|D]; [assumption|]. exfalso.
    assert (existsb (fun k => match y_indicator y k with Some l => negb (length (y_bars y) =? 0) && negb (length l =? length (y_bars y)) | None => false end) (so_indicators s) = true); [|congruence].
    apply existsb_exists. exists k. split; [exact I|]. rewrite Y. rewrite (proj2 (Nat.eqb_neq _ _) D). cbn [negb]. rewrite andb_true_r.
    destruct (y_bars y); [congruence|reflexivity].
  - exfalso. assert (existsb (fun k => match y_indicator y k with None => true | _ => false end) (so_indicators s) = true); [|congruence].
    apply existsb_exists. exists k. rewrite Y. auto.
Qed.
Definition indicators_ok (y : sym_data) (s : source) : Prop :=
  forall k, In k (so_indicators s) -> exists l, y_indicator y k = Some l /\ (y_bars y <> [] -> length l = length (y_bars y)).
Lemma row_of_input pooled sym y s rows lags j i b w : bars_ok y -> indicators_ok y s ->
  nth_error rows j = Some (row_at sym y s (i, b)) -> nth_error (y_bars y) i = Some b ->
  nth_error (rows_of (input_of pooled (all_columns y s) rows lags)) j = Some w ->
  match so_lags s with
  | None => lags = None
  | Some n => exists cols rows row, lags = Some rows /\ lag_columns y s cols /\ nth_error rows j = Some row /\ features y cols n i row
  end -> w_symbol w = (if pooled then Some (Some sym) else None) /\ row_of_bar y s i w.
Proof.
  intros OK IN S B W LG. apply rows_of_nth in W. destruct W as (d & D & ->). cbn [input_of i_dates] in D. rewrite nth_error_map, S in D. cbn in D. injection D as <-.
  pose proof (nth_some_lt _ _ _ B) as Li.
  unfold row_of_bar, whole, input_of. cbn [i_symbols i_columns i_lags w_symbol w_date w_values w_lags].
  assert (map fst (map (fun c : nat * list value => (fst c, nth_error (snd c) j)) (columns_of (all_columns y s) rows)) = all_columns y s) as FS.
  { rewrite map_map. cbn [fst]. unfold columns_of. rewrite map_map. cbn [fst]. 
    pose proof (columns_fst (all_columns y s) (fun _ => 0) 0) as Q. rewrite map_map in Q. cbn [fst] in Q. exact Q. }
  split; [destruct pooled; cbn [option_map']; [rewrite nth_error_map, S|]; reflexivity|].
  split; [exists b; auto|]. split; [rewrite FS; exists (data_columns y); split; [reflexivity|]; split; [apply data_columns_sorted|apply data_columns_in]|]. split.
  - intros col x I. apply in_map_iff in I. destruct I as ((col' & arr) & E & I). cbn [fst snd] in E.
    assert (col' = col /\ x = nth_error arr j) as (-> & ->) by (split; congruence). clear E. unfold columns_of in I. apply in_map_iff in I. destruct I as ((ci & c) & E & I). cbn [fst snd] in E.
    apply combine_seq_in in I. destruct I as (_ & C). rewrite Nat.sub_0_r in C. assert (c = col) as -> by congruence.
    assert (arr = map (fun r => nth ci (w_vals r) None) rows) as -> by congruence. clear E.
    rewrite nth_error_map, S. cbn [option_map]. eexists. split; [reflexivity|]. cbn [row_at w_vals fst].
    assert (is_column y s col) as IC by (apply all_columns_in, (nth_error_In _ _ C)).
    assert (exists l, array_of y s col = Some l /\ length l = length (y_bars y)) as (l & A & Ll).
    { rewrite (array_series y s col IC). unfold series. destruct (mem col (data_columns y)) eqn:M; [eexists; split; [reflexivity|apply map_length]|].
      destruct IC as [IC|IC]; [apply data_columns_mem in IC; congruence|]. destruct (IN col IC) as (l & Y & LL). exists l. split; [exact Y|]. apply LL.
      intros Q. rewrite Q in Li. cbn in Li. lia. }
    erewrite nth_indep; [|rewrite map_length; exact (nth_some_lt _ _ _ C)].
    rewrite (map_nth (fun col => match array_of y s col with Some l => nth i l None | None => None end)). rewrite (nth_error_nth _ _ 0 C), A.
    apply (series_at y col l); [exact OK|rewrite <- (array_series y s col IC); exact A|]. apply nth_error_nth'. lia.
  - destruct (so_lags s) as [n|].
    + destruct LG as (cols & rows' & row & -> & LC & R & F). exists cols, row. cbn [option_map']. rewrite R. auto.
    + subst lags. reflexivity.
Qed.
Lemma is_row_of sym y s P lags j i b w : bars_ok y -> source_ok y s -> indicators_ok y s ->
  nth_error (sel (y_bars y) P) j = Some (i, b) ->
  nth_error (rows_of (input_of false (all_columns y s) (map (row_at sym y s) (sel (y_bars y) P)) lags)) j = Some w ->
  match so_lags s with
  | None => lags = None
  | Some n => exists cols rows row, lags = Some rows /\ lag_columns y s cols /\ nth_error rows j = Some row /\ features y cols n i row
  end -> is_row y s i w.
Proof.
  intros OK SO IN S W LG. apply (row_of_input false sym y s _ lags j i b w OK IN) in W; [exact W| | |exact LG].
  - rewrite nth_error_map, S. reflexivity.
  - apply nth_error_In, sel_in in S. apply S.
Qed.

(** Marked elements. *)
Lemma marked_cons {A} k keep (x : A) l : marked (k :: keep) (x :: l) = if k then x :: marked keep l else marked keep l.
Proof. unfold marked. cbn [combine filter fst]. destruct k; reflexivity. Qed.
Lemma marked_forall2 {A B} (R : A -> B -> Prop) l m : Forall2 R l m -> forall keep, Forall2 R (marked keep l) (marked keep m).
Proof.
  induction 1 as [|x z l m H F IH]; intros [|k keep]; try (cbn; constructor). rewrite !marked_cons. destruct k; [constructor; [exact H|]|]; apply IH.
Qed.
Lemma marked_in {A} (l : list A) : forall keep x, In x (marked keep l) <-> exists j, nth_error l j = Some x /\ nth_error keep j = Some true.
Proof.
  induction l as [|z l IH]; intros [|k keep] x.
  - cbn. split; [intros []|intros ([|j] & E & _); discriminate].
  - cbn. split; [intros []|intros ([|j] & E & _); discriminate].
  - cbn. split; [intros []|intros ([|j] & _ & E); discriminate].
  - rewrite marked_cons. assert (In x (marked keep l) <-> exists j, nth_error (z :: l) (S j) = Some x /\ nth_error (k :: keep) (S j) = Some true) as Q by apply IH.
    split.
    + intros I. destruct k; [destruct I as [<-|I]; [exists 0; auto|]|]; apply Q in I; destruct I as (j & J); eauto.
    + intros ([|j] & E & F).
      * cbn in E, F. injection E as ->. injection F as ->. left. reflexivity.
      * assert (In x (marked keep l)) as I by (apply Q; eauto). destruct k; [right|]; exact I.
Qed.
Lemma marked_sorted l : StronglySorted lt l -> forall keep, StronglySorted lt (marked keep l).
Proof.
  induction 1 as [|x l HS IH F]; intros [|k keep]; try (cbn; constructor). rewrite marked_cons. destruct k; [|apply IH]. constructor; [apply IH|].
  rewrite Forall_forall in *. intros z I. apply marked_in in I. destruct I as (j & J & _). exact (F z (nth_error_In _ _ J)).
Qed.

(** A frame of selected bars. *)
Lemma frame_rows sym y s P lags : bars_ok y -> source_ok y s ->
  (forall k, In k (so_indicators s) -> exists l, y_indicator y k = Some l /\ (y_bars y <> [] -> length l = length (y_bars y))) ->
  match so_lags s with
  | None => lags = None
  | Some n => exists cols rows, lags = Some rows /\ lag_columns y s cols /\ Forall2 (fun ib row => features y cols n (fst ib) row) (sel (y_bars y) P) rows
  end ->
  Forall2 (is_row y s) (map fst (sel (y_bars y) P)) (rows_of (input_of false (all_columns y s) (map (row_at sym y s) (sel (y_bars y) P)) lags)).
Proof.
  intros OK SO IN LG. apply Forall2_intro.
  - rewrite rows_of_length. cbn [input_of i_dates]. rewrite !map_length. reflexivity.
  - intros j i w I W. rewrite nth_error_map in I. destruct (nth_error (sel _ _) j) as [(i' & b)|] eqn:S; [|discriminate]. cbn in I. injection I as ->.
    apply (is_row_of sym y s P lags j i b w OK SO IN S W). destruct (so_lags s) as [n|]; [|exact LG].
    destruct LG as (cols & rows & -> & LC & F). destruct (Forall2_nth _ _ _ F _ _ S) as (row & R & FR). exists cols, rows, row. auto.
Qed.
Lemma matrix_features sym itv y s cols lags P c ser m : bars_ok y -> lag_columns y s cols ->
  entry ser c -> (forall col, In col cols -> ser (mk_lkey sym col (Some itv)) = series y col) ->
  build_matrix sym (Some itv) cols lags (map w_when (map (row_at sym y s) (sel (y_bars y) P))) (bar_dates y) c = Ok m ->
  Forall2 (fun ib row => features y cols lags (fst ib) row) (sel (y_bars y) P) m.
Proof.
  intros OK LC EN SE B. apply (matrix_rows ser _ _ _ _ _ _ _ _ EN) in B. unfold lag_rows in B. rewrite map_map in B. cbn [row_at w_when] in B.
  apply Forall2_intro.
  - apply Forall2_len in B. rewrite map_length in B. exact B.
  - intros j (i & b) row S R. assert (nth_error (map (fun x : nat * cbar => c_date (snd x)) (sel (y_bars y) P)) j = Some (c_date b)) as D by (rewrite nth_error_map, S; reflexivity).
    destruct (Forall2_nth _ _ _ B _ _ D) as (row' & R' & L). assert (row' = row) as -> by congruence. cbn [fst].
    apply (features_of y s cols lags i b row (fun col => ser (mk_lkey sym col (Some itv))) OK LC); [|exact SE|exact L].
    apply nth_error_In, sel_in in S. apply S.
Qed.
Lemma train_sel y train test la : bars_ok y -> (forall d e, In d train -> In e test -> (d < e)%Z) ->
  forall i, In i (map fst (sel (y_bars y) (fun d => zmem d (fst (lookahead_train_dates (bar_dates y) train test la))))) <-> may_train y train test la i.
Proof.
  intros (INC & _) LT i. rewrite sel_map_in. destruct (lookahead_train_dates (bar_dates y) train test la) as [kept dropped] eqn:E. cbn [fst].
  pose proof (holdout_kept _ _ _ _ _ _ INC LT E) as K. unfold may_train, closes_on. split.
  - intros (b & B & M). apply zmem_in in M. apply (K i) in M; [|unfold bar_dates; rewrite nth_error_map, B; reflexivity]. destruct M as (M & T). split; [exists b; auto|].
    intros t (b' & B' & I'). apply (T t (c_date b')); [unfold bar_dates; rewrite nth_error_map, B'; reflexivity|exact I'].
  - intros ((b & B & I) & T). exists b. split; [exact B|]. apply zmem_in. apply (K i); [unfold bar_dates; rewrite nth_error_map, B; reflexivity|]. split; [exact I|].
    intros t e N Ie. unfold bar_dates in N. rewrite nth_error_map in N. destruct (nth_error (y_bars y) t) as [b'|] eqn:B'; [|discriminate]. injection N as <-. apply T. exists b'. auto.
Qed.
Lemma test_sel y test i : In i (map fst (sel (y_bars y) (fun d => zmem d test))) <-> closes_on y test i.
Proof. rewrite sel_map_in. unfold closes_on. split; intros (b & B & M); exists b; (split; [exact B|]); apply zmem_in, M. Qed.

Lemma prepare_rows data sym itv y s c c' train test la tr te :
  prepared data c -> data sym itv = Some y -> bars_ok y -> source_ok y s ->
  (forall d e, In d train -> In e test -> (d < e)%Z) ->
  prepare_symbol sym itv train test (Some y) s c la = (c', Done (tr, te)) ->
  (exists ks, StronglySorted lt ks /\ Forall2 (is_row y s) ks (rows_of tr) /\
     forall i, In i ks <-> may_train y train test la i /\
       match so_lags s with None => True | Some lags => exists j, j <= i /\ may_train y train test la j /\ whole_features y s lags j end) /\
  (exists ks, StronglySorted lt ks /\ Forall2 (is_row y s) ks (rows_of te) /\ forall i, In i ks <-> closes_on y test i).
Proof.
  intros PR Y OK SO LT E. apply prepared_entry in PR. unfold prepare_symbol in E.
  destruct (build_arrays sym y s) as [rows|] eqn:BA; [|discriminate]. destruct (build_done _ _ _ _ BA) as (-> & IN).
  rewrite !slice_sel in E. set (P := fun d => zmem d (fst (lookahead_train_dates (bar_dates y) train test la))) in *. set (T := fun d => zmem d test) in *.
  pose proof (train_sel y train test la OK LT) as TS. fold P in TS. pose proof (test_sel y test) as ES. fold T in ES. cbv zeta in E.
  destruct (so_lags s) as [lags|] eqn:SL.
  2:{ apply pair_inj in E. destruct E as (_ & E). apply done_inj, pair_inj in E. destruct E as (<- & <-). split.
      - exists (map fst (sel (y_bars y) P)). split; [apply sel_sorted|]. split; [apply frame_rows; auto; rewrite SL; reflexivity|]. intros i. rewrite TS. tauto.
      - exists (map fst (sel (y_bars y) T)). split; [apply sel_sorted|]. split; [apply frame_rows; auto; rewrite SL; reflexivity|]. exact ES. }
  destruct (lag_feature_cols _ _ s) as [cols|] eqn:LF; [|discriminate]. pose proof (lag_cols_spec _ _ _ LF SO) as LC.
  assert (forall col, In col cols -> hist_run data (mk_lkey sym col (Some itv)) = series y col) as SE by (intros col _; unfold hist_run; cbn; rewrite Y; reflexivity).
  destruct (merge_arrays _ _ _ _ _ _) as [c1 r1] eqn:M. apply pair_inj in E. destruct E as (_ & E).
  rewrite (merge_ext _ _ _ _ (fun col => hist_run data (mk_lkey sym col (Some itv)))) in M.
  2:{ intros col I. rewrite (array_series y s col (lag_cols_weak _ _ _ _ LF I)). symmetry. apply SE, I. }
  destruct (merge_spec _ _ _ _ _ _ _ _ PR M) as (EN & _). destruct r1 as [[]|]; [|discriminate]. cbn [of_lag obind] in E.
  destruct (build_matrix _ _ _ _ (map w_when (map (row_at sym y s) (sel (y_bars y) P))) _ _) as [a|] eqn:B1; [|discriminate]. cbn [of_lag obind] in E.
  destruct (build_matrix _ _ _ _ (map w_when (map (row_at sym y s) (sel (y_bars y) T))) _ _) as [b|] eqn:B2; [|discriminate]. cbn [of_lag obind] in E.
  destruct (drop_lag_warmup _) as [t|] eqn:DW; [|discriminate]. cbn [of_lag obind] in E. apply done_inj, pair_inj in E. destruct E as (<- & <-).
  pose proof (matrix_features _ _ _ _ _ _ _ _ _ _ OK LC EN SE B1) as F1. pose proof (matrix_features _ _ _ _ _ _ _ _ _ _ OK LC EN SE B2) as F2.
  assert (Forall2 (is_row y s) (map fst (sel (y_bars y) P)) (rows_of (input_of false (all_columns y s) (map (row_at sym y s) (sel (y_bars y) P)) (Some a)))) as R1
    by (apply frame_rows; auto; rewrite SL; eauto).
  assert (Forall2 (is_row y s) (map fst (sel (y_bars y) T)) (rows_of (input_of false (all_columns y s) (map (row_at sym y s) (sel (y_bars y) T)) (Some b)))) as R2
    by (apply frame_rows; auto; rewrite SL; eauto).
  split; [|exists (map fst (sel (y_bars y) T)); split; [apply sel_sorted|]; split; [exact R2|exact ES]].
  set (m := input_of _ _ _ (Some a)) in *.
  assert (length (i_dates m) = length (sel (y_bars y) P)) as LD by (unfold m; cbn [input_of i_dates]; rewrite !map_length; reflexivity).
  assert (input_ok m) as IO by (apply input_rows_ok; intros l Q; injection Q as <-; apply Forall2_len in F1; rewrite map_length; auto).
  destruct (drop_spec m a t IO eq_refl DW) as (keep & LK & KW & RO & _).
  exists (marked keep (map fst (sel (y_bars y) P))). split; [apply marked_sorted, sel_sorted|]. split; [rewrite RO; apply marked_forall2, R1|].
  intros i. rewrite marked_in. rewrite <- TS.
  assert (forall j i, nth_error (map fst (sel (y_bars y) P)) j = Some i -> exists row, nth_error a j = Some row /\ (~ In None row <-> whole_features y s lags i)) as WH.
  { intros j i0 N. rewrite nth_error_map in N. destruct (nth_error (sel (y_bars y) P) j) as [(i1 & b1)|] eqn:S; [|discriminate]. injection N as ->.
    destruct (Forall2_nth _ _ _ F1 _ _ S) as (row & R & FR). exists row. split; [exact R|]. exact (features_whole _ _ _ _ _ _ LC FR). }
  assert (forall j i, nth_error (map fst (sel (y_bars y) P)) j = Some i -> j < length (i_dates m)) as LJ.
  { intros j i0 N. apply nth_some_lt in N. rewrite map_length in N. lia. }
  assert (forall j j' i i', nth_error (map fst (sel (y_bars y) P)) j = Some i -> nth_error (map fst (sel (y_bars y) P)) j' = Some i' -> (j <= j' <-> i <= i')) as MO.
  { pose proof (sel_sorted (y_bars y) P) as SS. revert SS. generalize (map fst (sel (y_bars y) P)). clear. intros l SS.
    assert (forall j j' i i', nth_error l j = Some i -> nth_error l j' = Some i' -> j < j' -> i < i') as ST.
    { induction SS as [|x l HS IH F]; intros j j' i i' N N' L; [destruct j; discriminate|]. destruct j' as [|j']; [lia|]. cbn in N'. destruct j as [|j]; cbn in N.
      - injection N as <-. rewrite Forall_forall in F. exact (F _ (nth_error_In _ _ N')).
      - apply (IH j j' i i' N N'). lia. }
    intros j j' i i' N N'. destruct (Nat.lt_trichotomy j j') as [L|[->|L]].
    - pose proof (ST _ _ _ _ N N' L). lia.
    - assert (i = i') by congruence. lia.
    - pose proof (ST _ _ _ _ N' N L). lia. }
  split.
  - intros (j & N & K). split; [exact (nth_error_In _ _ N)|]. apply (KW j (LJ _ _ N)) in K. destruct K as (j0 & row & (R0 & _) & Hr & NN).
    assert (exists i0, nth_error (map fst (sel (y_bars y) P)) j0 = Some i0) as (i0 & N0) by (apply nth_lt_some; rewrite map_length; lia).
    exists i0. split; [apply (MO j0 j i0 i N0 N); lia|]. split; [apply TS, (nth_error_In _ _ N0)|]. destruct (WH _ _ N0) as (row' & R' & W). assert (row' = row) as -> by congruence. apply W, NN.
  - intros (I & i0 & L & MT & W). destruct (In_nth_error _ _ I) as (j & N). exists j. split; [exact N|]. apply (KW j (LJ _ _ N)).
    apply TS in MT. destruct (In_nth_error _ _ MT) as (j0 & N0). destruct (WH _ _ N0) as (row & R & Q). exists j0, row. split; [|split; [exact R|apply Q, W]].
    split; [|intros l Q'; discriminate]. split; [apply (MO j0 j i0 i N0 N), L|exact (LJ _ _ N)].
Qed.
