(** C62, C63: the frames that models are trained on. *)
From Verif Require Import FrameProofs.

(** C62: the frame of several symbols is sorted by symbol and date, has each bar of
    each symbol exactly once, and on the row of a bar each column holds the value
    of that symbol on that bar. *)
Theorem C62_rows st symbols ind indicators data_cols m :
  store_ok st -> NoDup symbols -> pooled_input st symbols ind indicators data_cols = FOk m ->
  exists syms, i_symbols m = Some syms /\ input_ok m /\
    StronglySorted row_lt (combine syms (i_dates m)) /\
    Permutation (combine syms (i_dates m)) (flat_map (fun s => map (pair s) (bars st s)) symbols) /\
    forall p s d, nth_error syms p = Some s -> nth_error (i_dates m) p = Some d ->
      exists i, nth_error (bars st s) i = Some d /\
        forall c vals, In (c, vals) (i_columns m) -> exists x, nth_error vals p = Some x /\ cell st ind indicators s i d c x.
Proof.
  intros OK ND E. destruct (pooled_frame st ind indicators data_cols OK symbols m ND E) as (syms & H1 & _ & H2 & H3 & H4 & _ & H5). exists syms. auto.
Qed.
Print Assumptions C62_rows.

(** C62: its columns, each once. *)
Theorem C62_columns st symbols ind indicators data_cols m :
  store_ok st -> NoDup symbols -> pooled_input st symbols ind indicators data_cols = FOk m ->
  NoDup (map fst (i_columns m)) /\ forall c, In c (map fst (i_columns m)) <-> frame_column st symbols indicators data_cols c.
Proof.
  intros OK ND E. destruct (pooled_frame st ind indicators data_cols OK symbols m ND E) as (syms & _ & _ & _ & _ & _ & C & _). rewrite C. split; [apply dedup_nodup|].
  intros c. apply pcolumns_in.
Qed.
Print Assumptions C62_columns.

(** C62: they come in the order asked for. *)
Theorem C62_column_order st symbols ind indicators data_cols m :
  store_ok st -> NoDup symbols -> pooled_input st symbols ind indicators data_cols = FOk m ->
  as_asked (fun c => exists s sd, In s symbols /\ st s = Some sd /\ sd_column sd c <> None) indicators data_cols (map fst (i_columns m)).
Proof.
  intros OK ND E. destruct (pooled_frame st ind indicators data_cols OK symbols m ND E) as (syms & _ & _ & _ & _ & _ & C & _). rewrite C.
  apply columns_as_asked. intro c. rewrite existsb_exists. split.
  - intros (s & I & H). destruct (st s) as [sd|] eqn:Es; [|discriminate]. exists s, sd. rewrite <- available_some. auto.
  - intros (s & sd & I & Es & H). exists s. rewrite Es, available_some. auto.
Qed.
Print Assumptions C62_column_order.

(** C62: the order in which the set of symbols is gone through does not matter. *)
Theorem C62_any_order st symbols symbols' ind indicators data_cols m :
  store_ok st -> NoDup symbols -> Permutation symbols symbols' ->
  pooled_input st symbols ind indicators data_cols = FOk m -> pooled_input st symbols' ind indicators data_cols = FOk m.
Proof.
  intros OK ND P E. pose proof (Permutation_NoDup P ND) as ND'.
  assert (exists m', pooled_input st symbols' ind indicators data_cols = FOk m') as (m' & E').
  { apply pooled_defined; [exact OK|]. intros [[s sd] dates] c Ip Ic. assert (exists m, pooled_input st symbols ind indicators data_cols = FOk m) as D by eauto.
    rewrite (pooled_defined st ind indicators data_cols OK) in D. apply D.
    - apply with_rows_in in Ip. apply with_rows_in. destruct Ip as (I & Ip). split; [exact (Permutation_in _ (Permutation_sym P) I)|exact Ip].
    - apply pcolumns_in in Ic. apply pcolumns_in. destruct Ic as [Ic|(Ic & s' & sd' & I & H)]; [left; exact Ic|right]. split; [exact Ic|]. exists s', sd'. split; [exact (Permutation_in _ (Permutation_sym P) I)|exact H]. }
  rewrite E'. f_equal. symmetry.
  exact (frame_unique st ind indicators data_cols OK symbols symbols' m m' P (pooled_frame st ind indicators data_cols OK symbols m ND E) (pooled_frame st ind indicators data_cols OK symbols' m' ND' E')).
Qed.
Print Assumptions C62_any_order.

(** C62: a symbol with bars that lacks a column of the frame makes it fail: columns
    are never shifted against the rows. *)
Theorem C62_missing_column st symbols ind indicators data_cols s sd c :
  store_ok st -> In s symbols -> st s = Some sd -> bars st s <> [] ->
  frame_column st symbols indicators data_cols c -> sd_column sd c = None -> ~ In c indicators ->
  exists e, pooled_input st symbols ind indicators data_cols = FRaise e.
Proof.
  intros OK Is Es NB FC Ec NI. destruct (pooled_input st symbols ind indicators data_cols) as [m|e] eqn:E; [exfalso|eauto].
  assert (exists m, pooled_input st symbols ind indicators data_cols = FOk m) as D by eauto. rewrite (pooled_defined st ind indicators data_cols OK) in D.
  assert (exists dates, sd_dates sd = Some dates /\ dates <> []) as (dates & Ed & Nd).
  { unfold bars in NB. rewrite Es in NB. destruct (sd_dates sd) as [dates|]; [eauto|congruence]. }
  destruct (D ((s, sd), dates) c) as (v & Hv).
  - apply with_rows_in. auto.
  - apply pcolumns_in. exact FC.
  - unfold column_part in Hv. cbn [fst snd] in Hv. rewrite Ec in Hv. destruct (mem c indicators) eqn:M; [apply mem_in in M; contradiction|discriminate].
Qed.
Print Assumptions C62_missing_column.

(** C62: otherwise the frame is built. *)
Theorem C62_defined st symbols ind indicators data_cols :
  store_ok st ->
  (forall s sd c, In s symbols -> st s = Some sd -> bars st s <> [] -> frame_column st symbols indicators data_cols c ->
     sd_column sd c <> None \/
     (In c indicators /\ exists x, ind c s = Some x /\ NoDup (x_index x) /\ length (x_values x) = length (x_index x))) ->
  exists m, pooled_input st symbols ind indicators data_cols = FOk m.
Proof.
  intros OK H. apply pooled_defined; [exact OK|]. intros [[s sd] dates] c Ip Ic. apply with_rows_in in Ip. destruct Ip as (Is & Es & Ed & Nd). apply pcolumns_in in Ic.
  unfold part_ok, column_part. cbn [fst snd]. destruct (H s sd c Is Es) as [N|(I & x & Ex & ND & L)]; [rewrite (bars_eq _ _ _ _ Es Ed); exact Nd|exact Ic| |].
  - destruct (sd_column sd c) as [v|]; [eauto|congruence].
  - destruct (sd_column sd c) as [v|]; [eauto|]. rewrite (proj2 (mem_in _ _) I), Ex. destruct (indicator_defined x dates ND L) as (l & ->). cbn [fbind]. eauto.
Qed.
Print Assumptions C62_defined.

(** C63: an indicator is lined up with bars by date: a bar gets the indicator's value
    of its own date, or NaN. *)
Theorem C63_by_date s dates values : indicator_values s dates = FOk values -> Forall2 (value_at s) dates values.
Proof. apply indicator_spec. Qed.
Print Assumptions C63_by_date.
Theorem C63_defined s dates : NoDup (x_index s) -> length (x_values s) = length (x_index s) -> exists values, indicator_values s dates = FOk values.
Proof. apply indicator_defined. Qed.
Print Assumptions C63_defined.
(** C63: so a bar's value does not depend on what the indicator is on other dates. *)
Theorem C63_other_dates s s' dates values values' : indicator_values s dates = FOk values -> indicator_values s' dates = FOk values' ->
  forall i d, nth_error dates i = Some d -> (forall x, value_at s d x <-> value_at s' d x) -> nth_error values i = nth_error values' i.
Proof.
  intros E E' i d Hd H. apply indicator_spec in E, E'. destruct (Forall2_nth _ _ _ E _ _ Hd) as (x & Hx & V). destruct (Forall2_nth _ _ _ E' _ _ Hd) as (x' & Hx' & V').
  rewrite Hx, Hx'. f_equal. apply H in V. exact (value_at_fun _ _ _ _ V V').
Qed.
Print Assumptions C63_other_dates.
(** C63: in the frame of one symbol the columns come in the order asked for, and each has, on
    each bar, the symbol's value on that bar. *)
Theorem C63_symbol_frame st known sym sd ind indicators data_cols m :
  store_ok st -> st sym = Some sd -> symbol_input st known sym ind indicators data_cols = FOk m ->
  i_dates m = bars st sym /\ i_symbols m = None /\
  (bars st sym <> [] -> NoDup (map fst (i_columns m)) /\
   as_asked (fun c => sd_column sd c <> None) indicators data_cols (map fst (i_columns m)) /\
   (forall c, In c (map fst (i_columns m)) <-> In c indicators \/ (In c data_cols /\ sd_column sd c <> None)) /\
   forall c vals, In (c, vals) (i_columns m) -> length vals = length (i_dates m) /\
     forall i d x, nth_error (i_dates m) i = Some d -> nth_error vals i = Some x -> cell st ind indicators sym i d c x).
Proof.
  intros OK Es E. unfold symbol_input in E. rewrite Es in E. cbv zeta in E. set (columns := input_columns _ _ _) in E.
  destruct (sd_dates sd) as [[|d0 ds]|] eqn:Ed.
  - inversion E; subst m. rewrite (bars_eq _ _ _ _ Es Ed). split; [reflexivity|]. split; [reflexivity|]. congruence.
  - pose proof (bars_eq _ _ _ _ Es Ed) as Hb. rewrite Hb. set (dates := d0 :: ds) in *.
    destruct (fmap_r _ columns) as [parts|e] eqn:Ep; cbn [fbind] in E; [|discriminate]. inversion E; subst m. cbn [i_dates i_symbols i_columns]. split; [reflexivity|]. split; [reflexivity|].
    intros _. apply fmap_r_ok in Ep.
    assert (forall c v, In (c, v) parts -> exists w, v = Some w /\ column_part ind indicators sym sd dates c = FOk (Some w)) as Pt.
    { intros c v I. destruct (Forall2_in_r _ _ _ Ep _ I) as (c' & Ic & H). destruct (column_part ind indicators sym sd dates c') as [v'|e] eqn:Q; cbn [fbind] in H; [|discriminate]. inversion H; subst c' v'.
      destruct v as [w|]; [eauto|exfalso]. unfold column_part in Q. destruct (sd_column sd c) eqn:C; [discriminate|]. destruct (mem c indicators) eqn:M.
      - destruct (ind c sym) as [x|]; [|discriminate]. destruct (indicator_values x dates); discriminate.
      - unfold columns, input_columns in Ic. rewrite dedup_in, in_app_iff, filter_In in Ic. destruct Ic as ([(_ & H')|I'] & _); [rewrite C in H'; discriminate|]. apply mem_in in I'. congruence. }
    assert (map fst (flat_map (fun p : nat * option (list value) => match snd p with Some v => [(fst p, v)] | None => [] end) parts) = columns) as Mf.
    { assert (map fst parts = columns) as <-. { clear - Ep. induction Ep as [|c [c' v] cs ps H F IH]; [reflexivity|]. cbn. f_equal; [|exact IH]. destruct (column_part _ _ _ _ _ c); cbn [fbind] in H; [|discriminate]. inversion H; reflexivity. }
      clear - Pt. induction parts as [|[c v] parts IH]; [reflexivity|]. cbn [flat_map fst snd map]. destruct (Pt c v (or_introl eq_refl)) as (w & -> & _). cbn. f_equal. apply IH. intros c' v' I. apply Pt. right. exact I. }
    rewrite Mf. split; [apply dedup_nodup|]. split; [apply columns_as_asked; intro c; apply available_some|]. split.
    + intros c. unfold columns, input_columns. rewrite dedup_in, in_app_iff, filter_In. split.
      * intros ([(I & H)|I] & _); [|auto]. right. split; [exact I|]. destruct (sd_column sd c); [discriminate|discriminate H].
      * intros [I|(I & N)]; (split; [|intros []]); [auto|]. left. split; [exact I|]. destruct (sd_column sd c); [reflexivity|congruence].
    + intros c vals I. apply in_flat_map in I. destruct I as ([c' v] & Ip & I). cbn [fst snd] in I. destruct (Pt c' v Ip) as (w & -> & Q). destruct I as [I|[]]. inversion I; subst c' w.
      destruct (part_spec st ind indicators sym sd dates c vals Es Hb OK Q) as (L & V). split; [exact L|exact V].
  - inversion E; subst m. assert (bars st sym = []) as Hb by (unfold bars; rewrite Es, Ed; reflexivity). rewrite Hb. split; [reflexivity|]. split; [reflexivity|]. congruence.
Qed.
Print Assumptions C63_symbol_frame.

(** A symbol without bars, or that the store does not have, gets a frame without
    rows. Its columns are the indicators and the data columns that the symbol has,
    or, for a symbol the store does not have, that some symbol of the store has. *)
Theorem C63_no_bars st known sym ind indicators data_cols :
  bars st sym = [] ->
  exists m, symbol_input st known sym ind indicators data_cols = FOk m /\
    i_symbols m = None /\ i_dates m = [] /\ i_lags m = None /\
    (forall c vals, In (c, vals) (i_columns m) -> vals = []) /\
    NoDup (map fst (i_columns m)) /\
    forall c, In c (map fst (i_columns m)) <->
      In c indicators \/
      (In c data_cols /\
       exists s sd, st s = Some sd /\ sd_column sd c <> None /\ (s = sym \/ (st sym = None /\ In s known))).
Proof.
  intros B.
  assert (forall cols, map fst (map (fun c : nat => (c, @nil value)) cols) = cols) as M.
  { intros cols. rewrite map_map. cbn. apply map_id. }
  assert (forall avail, exists m, FOk (empty_input false (input_columns data_cols indicators avail)) = FOk m /\
    i_symbols m = None /\ i_dates m = [] /\ i_lags m = None /\
    (forall c vals, In (c, vals) (i_columns m) -> vals = []) /\ NoDup (map fst (i_columns m)) /\
    forall c, In c (map fst (i_columns m)) <-> In c indicators \/ (In c data_cols /\ avail c = true)) as G.
  { intros avail. eexists. split; [reflexivity|]. cbn [empty_input i_symbols i_dates i_lags i_columns].
    do 3 (split; [reflexivity|]). rewrite M. split; [|split; [apply dedup_nodup|]].
    - intros c vals I. apply in_map_iff in I. destruct I as (c' & E & _). now inversion E.
    - intros c. unfold input_columns. rewrite dedup_in, in_app_iff, filter_In. split.
      + intros ([(I & H)|I] & _); auto.
      + intros H. split; [tauto|intros []]. }
  unfold symbol_input. destruct (st sym) as [sd|] eqn:Es.
  - cbv zeta. destruct (G (fun c => has (sd_column sd c))) as (m & E & H1 & H2 & H3 & H4 & H5 & H6).
    exists m. split.
    { unfold bars in B. rewrite Es in B. destruct (sd_dates sd) as [[|]|]; [exact E|discriminate|exact E]. }
    do 5 (split; [assumption|]). intros c. rewrite H6. split; (intros [I|(I & K)]; [left; exact I|right; split; [exact I|]]).
    + exists sym, sd. split; [exact Es|]. split; [|left; reflexivity]. destruct (sd_column sd c); [discriminate|discriminate K].
    + destruct K as (s & sd' & E1 & E2 & [->|(N & _)]); [|discriminate]. rewrite Es in E1. inversion E1; subst sd'.
      destruct (sd_column sd c); [reflexivity|congruence].
  - destruct (G (fun c => existsb (fun s => match st s with Some sd => has (sd_column sd c) | None => false end) known)) as (m & E & H1 & H2 & H3 & H4 & H5 & H6).
    exists m. split; [exact E|]. do 5 (split; [assumption|]). intros c. rewrite H6, existsb_exists.
    split; (intros [I|(I & K)]; [left; exact I|right; split; [exact I|]]).
    + destruct K as (s & Is & K). destruct (st s) as [sd|] eqn:E1; [|discriminate]. exists s, sd. split; [exact E1|]. split; [|right; auto].
      destruct (sd_column sd c); [discriminate|discriminate K].
    + destruct K as (s & sd & E1 & E2 & [->|(_ & Is)]); [congruence|]. exists s. split; [exact Is|]. rewrite E1.
      destruct (sd_column sd c); [reflexivity|congruence].
Qed.
Print Assumptions C63_no_bars.

(** Two symbols with one stored column and an indicator that has no value on one
    bar. *)
Definition stx : store := fun s => match s with
  | 1 => Some (mk_sym_data (Some [10; 20; 30]%Z) (fun c => match c with 0 => Some [Some 1; Some 2; Some 3]%Q | _ => None end))
  | 2 => Some (mk_sym_data (Some [20; 30]%Z) (fun c => match c with 0 => Some [Some 4; Some 5]%Q | _ => None end))
  | 3 => Some (mk_sym_data (Some [30]%Z) (fun c => match c with 5 => Some [Some 7]%Q | _ => None end))
  | _ => None end.
Definition indx : indicator_data := fun c s => match c, s with
  | 9, 1 => Some (mk_series [10; 20; 30]%Z [None; Some 21; Some 22]%Q) | 9, 2 => Some (mk_series [30; 40]%Z [Some 31; Some 32]%Q)
  | 9, 3 => Some (mk_series [30]%Z [Some 41]%Q) | _, _ => None end.
Example stx_ok : store_ok stx.
Proof.
  intros [|[|[|[|s]]]] sd E; cbn in E; inversion E; subst; (split; [repeat (constructor; [|repeat (constructor; try lia)]); constructor|]);
    intros [|[|[|[|[|[|c]]]]]] v Ev; cbn in Ev; inversion Ev; subst; reflexivity.
Qed.
Example pooled_runs : pooled_input stx [2; 1] indx [9] [0; 5] =
  FOk (mk_input (Some [1; 1; 1; 2; 2]) [10; 20; 30; 20; 30]%Z
        [(0, [Some 1; Some 2; Some 3; Some 4; Some 5]%Q); (9, [None; Some 21; Some 22; None; Some 31]%Q)] None).
Proof. reflexivity. Qed.
Example lacks_column : pooled_input stx [2; 3; 1] indx [9] [0; 5] = FRaise BadIndex.
Proof. reflexivity. Qed.
Example single_runs : symbol_input stx [1; 2; 3] 2 indx [9] [0; 5] = FOk (mk_input None [20; 30]%Z [(0, [Some 4; Some 5]%Q); (9, [None; Some 31]%Q)] None).
Proof. reflexivity. Qed.
Example unsorted : indicator_values (mk_series [30; 10; 20]%Z [Some 3; Some 1; Some 2]%Q) [10; 15; 30]%Z = FOk [Some 1; None; Some 3]%Q.
Proof. reflexivity. Qed.

(** The store of the example has no symbol 8: its frame has the columns of the
    symbols it has, and the indicator. *)
Example C63_no_bars_example : bars stx 8 = [] /\
  symbol_input stx [1; 2; 3] 8 indx [9] [0; 4; 5] = FOk (mk_input None [] [(0, []); (5, []); (9, [])] None).
Proof. split; reflexivity. Qed.

(** Columns asked for as 5, 0, 5 and indicators 9, 0: the stored ones first, each once. *)
Example column_order : earlier [5; 0; 5] 5 0 /\ ~ earlier [5; 0; 5] 0 5 /\ earlier [9; 0] 9 0 /\
  exists m, symbol_input stx [1; 2; 3] 1 indx [9; 0] [5; 0; 5] = FOk m /\ map fst (i_columns m) = [0; 9].
Proof.
  split; [split; [discriminate|]; exists [], [0; 5]; cbn; tauto|]. split.
  { intros (_ & l1 & l2 & E & N & _). destruct l1 as [|x l1]; [discriminate|]. injection E as <- _. apply N. now left. }
  split; [split; [discriminate|]; exists [], [0]; cbn; tauto|]. eexists. split; reflexivity.
Qed.
