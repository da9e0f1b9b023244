(** * C92: bootstrap bounds *)
From Verif Require Import BootSpec RatioProofs RatioCurve BootProofs.
From Coq Require Import Lia Lra Psatz.
Open Scope list_scope.
Open Scope R_scope.

(** The statistics resampled are the documented ones: the ratio of gains to losses, its
    logarithm, the Sharpe ratio that [sharpe_ratio] reports and the falls. *)
Theorem C92_statistics : forall l,
  profit_factor true l = ln (gain_loss_ratio l) /\
  ((exists v, In v l /\ v <> 0) -> profit_factor false l = gain_loss_ratio l) /\
  ((forall v, In v l -> v = 0) -> profit_factor false l = 0) /\
  sharpe_ratio (map Some l) None = Some (sharpe l) /\
  cash_fall l (- max_drawdown l) /\
  exists d, drawdown (compounded l) (length l) d /\ max_drawdown_pct l = - (100 * d).
Proof.
  intros l. split; [apply log_pf_ok |]. split; [| split; [| split; [apply sharpe_is | split; [apply mdd_cash | apply mdd_ok]]]].
  - intros (v & I & N). now apply plain_pf_ok with v.
  - intros H. rewrite pf_ok. destruct (Forall_dec _ _ l) as [F | F]; [easy |]. destruct F. now apply Forall_forall.
Qed.
Print Assumptions C92_statistics.

(** ** Shortcuts *)
(** The versions written for [log_profit_factor] and [sharpe_ratio] return the
    intervals that the version for a user's statistic returns. *)
Theorem C92_shortcuts : forall (S : Type) icdf ncdf (randint : nat -> S -> nat * S) x n_boot s,
  bca_boot_conf icdf ncdf randint x n_boot LogProfitFactor s = bca_boot_conf icdf ncdf randint x n_boot (UserFn (profit_factor true)) s /\
  bca_boot_conf icdf ncdf randint x n_boot Sharpe s = bca_boot_conf icdf ncdf randint x n_boot (UserFn sharpe) s.
Proof.
  intros. unfold bca_boot_conf, bca_generic, bca_with. rewrite jack_log_pf, jack_sharpe. easy.
Qed.
Print Assumptions C92_shortcuts.

(** So does the one for [profit_factor] when, whichever bar is left out, another one
    changes the equity. *)
Theorem C92_profit_factor_partial : forall (S : Type) icdf ncdf (randint : nat -> S -> nat * S) x n_boot s,
  (forall a v b, x = a ++ v :: b -> exists w, In w (a ++ b) /\ w <> 0) ->
  bca_boot_conf icdf ncdf randint x n_boot ProfitFactor s = bca_boot_conf icdf ncdf randint x n_boot (UserFn (profit_factor false)) s.
Proof. intros. unfold bca_boot_conf, bca_generic, bca_with. now rewrite jack_pf. Qed.
Print Assumptions C92_profit_factor_partial.

Lemma ltb_yes a b : a < b -> ltb a b = true.
Proof. apply ltb_iff. Qed.
Lemma ltb_no a b : b <= a -> ltb a b = false.
Proof. apply ltb_false. Qed.
(** With a single loss, the acceleration has the other sign. *)
Theorem C92_profit_factor_refuted : exists x,
  accel (jackknife_profit_factor false x) (length x) < 0 < accel (jackknife (profit_factor false) x) (length x).
Proof.
  exists [-1; 0; 0].
  pose proof tiny_pos as T. set (h := tiny / (tiny + 1)).
  assert (H0 : 0 < h) by (apply Rdiv_lt_0_compat; lra).
  assert (H1 : h < 1). { unfold h. apply Rmult_lt_reg_r with (tiny + 1); [lra |]. unfold Rdiv. rewrite Rmult_assoc, Rinv_l by lra. lra. }
  assert (J : jackknife_profit_factor false [-1; 0; 0] = [1; h; h]).
  { unfold jackknife_profit_factor. cbn [fold_left fst snd map].
    rewrite (ltb_no 0 (-1)), (ltb_yes (-1) 0), (ltb_no 0 0) by lra. cbn [fst snd].
    f_equal; [field; lra |]. f_equal; [unfold h; f_equal; lra |]. f_equal. unfold h. f_equal; lra. }
  assert (K : jackknife (profit_factor false) [-1; 0; 0] = [0; h; h]).
  { unfold jackknife. cbn [length Nat.leb seq map firstn skipn app]. unfold profit_factor, fold_left, pf_step.
    rewrite (ltb_no 0 (-1)), (ltb_yes (-1) 0), (ltb_no 0 0) by lra. cbn [negb andb].
    f_equal. f_equal; [unfold h; f_equal; lra |]. f_equal. unfold h. f_equal; lra. }
  rewrite J, K. unfold accel, rsum. cbn [fold_left fst snd length INR].
  assert (TT : 0 < tinier) by (unfold tinier; apply Rinv_0_lt_compat, pow_lt; lra).
  split.
  - match goal with |- ?n / ?d < 0 => assert (D : 0 < d); [| assert (N : n < 0); [| apply Ropp_lt_cancel; rewrite Ropp_0; replace (- (n / d)) with ((- n) / d) by (field; lra); apply Rdiv_lt_0_compat; lra]] end.
    + match goal with |- 0 < 6 * ?p ^ 3 + _ => assert (0 <= p ^ 3) by (apply pow_le, sqrt_pos) end. lra.
    + set (e := (1 - h) / 3). match goal with |- ?n < 0 => replace n with (- 6 * e ^ 3) by (unfold e; field) end.
      assert (0 < e ^ 3) by (apply pow_lt; unfold e; lra). lra.
  - match goal with |- 0 < ?n / ?d => assert (D : 0 < d); [| assert (N : 0 < n); [| apply Rdiv_lt_0_compat; lra]] end.
    + match goal with |- 0 < 6 * ?p ^ 3 + _ => assert (0 <= p ^ 3) by (apply pow_le, sqrt_pos) end. lra.
    + set (e := h / 3). match goal with |- 0 < ?n => replace n with (6 * e ^ 3) by (unfold e; field) end.
      assert (0 < e ^ 3) by (apply pow_lt; unfold e; lra). lra.
Qed.
Print Assumptions C92_profit_factor_refuted.

(** ** One pass *)
(** The pass that an evaluation makes over the resamples reports what
    [conf_profit_factor], [conf_sharpe_ratio] and [drawdown_conf] return when each is
    called with the generator as it was before the pass. *)
Theorem C92_one_pass : forall (S : Type) icdf ncdf (randint : nat -> S -> nat * S) changes returns n_boot bpy s,
  length changes = length returns -> bpy <> Some 0%nat ->
  evaluate_bootstrap icdf ncdf randint changes returns n_boot bpy s =
    match conf_profit_factor icdf ncdf randint changes n_boot s, conf_sharpe_ratio icdf ncdf randint returns n_boot bpy s, drawdown_conf randint changes returns n_boot s with
    | Some pf, Some sr, Some dd =>
        Some (pf, sr, dd)
    | _, _, _ => None
    end.
Proof.
  intros S icdf ncdf randint changes returns n_boot bpy s L B.
  unfold evaluate_bootstrap, bootstrap_eval_all, conf_profit_factor, conf_sharpe_ratio, drawdown_conf, bca_boot_conf, bca_with.
  rewrite L, Nat.eqb_refl. cbn [negb]. destruct (Nat.eqb n_boot 0); [easy |].
  destruct changes as [| c changes], returns as [| r returns]; try discriminate L.
  - cbn. destruct bpy; cbn; unfold map_intervals, zero_intervals; cbn; now rewrite ?Rmult_0_l.
  - set (cs := c :: changes) in *. set (rs := r :: returns) in *.
    rewrite all_loop_rows, !boot_loop_rows, dd_loop_rows, L. destruct (rows randint (length rs) n_boot s) as [rw s']. cbn.
    destruct bpy as [[| n] |]; [easy | |]; easy.
Qed.
Print Assumptions C92_one_pass.

(** It raises for no resamples and for lengths that differ, and for nothing else. *)
Theorem C92_refuses : forall (S : Type) icdf ncdf (randint : nat -> S -> nat * S) changes returns n_boot bpy s,
  evaluate_bootstrap icdf ncdf randint changes returns n_boot bpy s = None <-> n_boot = 0%nat \/ length changes <> length returns.
Proof.
  intros. unfold evaluate_bootstrap, bootstrap_eval_all. destruct (Nat.eqb_spec n_boot 0) as [E | E]; [cbn; tauto |].
  destruct (Nat.eqb_spec (length changes) (length returns)) as [L | L]; [| cbn; tauto]. cbn [negb].
  destruct changes; [cbn; split; [easy | tauto] |]. rewrite all_loop_rows. destruct (rows _ _ _ _). cbn. split; [easy | tauto].
Qed.
Print Assumptions C92_refuses.

(** ** What the bounds are *)
(** Every bound reported is the statistic of some resample of the bars, as long as the
    run and drawn from its bars only: the gain to loss ratio, the annualized Sharpe
    ratio, and the largest falls in cash and percent. *)
Theorem C92_bounds : forall (S : Type) icdf ncdf (randint : nat -> S -> nat * S) changes returns n_boot bpy s pf sr dd pct,
  (forall n s, (0 < n)%nat -> (fst (randint n s) < n)%nat) -> changes <> [] -> bpy <> Some 0%nat ->
  evaluate_bootstrap icdf ncdf randint changes returns n_boot bpy s = Some (pf, sr, (dd, pct)) ->
  let n := length changes in
  each_from n (six pf) (fun row v => exists l, picked changes row l /\ v = gain_loss_ratio l) /\
  each_from n (six sr) (fun row v => exists l, picked returns row l /\ sharpe_ratio (map Some l) bpy = Some v) /\
  each_from n (four dd) (fun row v => exists l, picked changes row l /\ cash_fall l (- v)) /\
  each_from n (four pct) (fun row v => exists l d, picked returns row l /\ drawdown (compounded l) n d /\ v = - (100 * d)).
Proof.
  intros S icdf ncdf randint changes returns n_boot bpy s pf sr dd pct BELOW NE B H n.
  unfold evaluate_bootstrap, bootstrap_eval_all in H. destruct (Nat.eqb_spec n_boot 0) as [E | NB]; [easy |].
  destruct (Nat.eqb_spec (length changes) (length returns)) as [L | L]; [| easy]. cbn [negb] in H.
  assert (P : (0 < n)%nat) by (unfold n; destruct changes; [easy | cbn; lia]).
  assert (H' : option_map (fun '(log_pf, sr, dd) => (map_intervals exp log_pf, sr, dd))
    (let '(a, _) := all_loop randint (profit_factor true changes) (sharpe returns) changes returns n_boot s in
     let log_pf_intervals := bca_intervals icdf ncdf (a_log_pf a) (a_z0_log_pf a) (jackknife_profit_factor true changes) n in
     let sharpe_intervals := bca_intervals icdf ncdf (a_sharpe a) (a_z0_sharpe a) (jackknife_sharpe returns) n in
     let sharpe_intervals :=
       if Nat.ltb 0 (match bpy with Some n => n | None => 0%nat end) then map_intervals (fun v => v * sqrt (INR (match bpy with Some n => n | None => 0%nat end))) sharpe_intervals else sharpe_intervals in
     Some (log_pf_intervals, sharpe_intervals, (dd_confs_of (a_dd a), dd_confs_of (a_dd_pct a)))) = Some (pf, sr, (dd, pct))).
  { destruct changes; [easy | exact H]. }
  clear H. rewrite all_loop_rows in H'. fold n in H'. pose proof (rows_ok randint BELOW n P n_boot s) as (LEN & ROWS).
  destruct (rows randint n n_boot s) as [rs s']. cbn [fst] in LEN, ROWS. cbn -[bca_intervals dd_confs_of Nat.ltb] in H'.
  injection H' as HP HS HD HQ.
  assert (NR : rs <> []) by (intros ->; cbn in LEN; lia).
  assert (NM : forall f : list nat -> R, map f rs <> []) by (intros f Z; apply NR; now apply map_eq_nil in Z).
  assert (PICK : forall x row, length x = n -> In row rs -> picked x row (resample x row)).
  { intros x row LX I. apply resample_picked. rewrite LX. apply (ROWS row I). }
  split; [| split; [| split]].
  - intros b I. rewrite <- HP in I.
    assert (exists b0, In b0 (six (bca_intervals icdf ncdf (map (fun r => profit_factor true (resample changes r)) rs)
      (below_count (profit_factor true changes) (map (fun r => profit_factor true (resample changes r)) rs)) (jackknife_profit_factor true changes) n)) /\ b = option_map exp b0) as (b0 & I0 & EB).
    { unfold six, map_intervals in *. cbn -[bca_intervals] in *. repeat (destruct I as [<- | I]; [eexists; split; [| reflexivity]; tauto |]). easy. }
    destruct (bca_in _ _ _ _ _ _ _ (NM _) I0) as (v & E0 & IV). apply in_map_iff in IV as (row & EV & IR).
    subst b b0 v. cbn [option_map]. eexists _, row. split; [reflexivity |]. split; [now apply ROWS |]. exists (resample changes row). split; [now apply PICK |].
    rewrite log_pf_ok. apply exp_ln, ratio_pos.
  - intros b I. rewrite <- HS in I.
    assert (exists b0, In b0 (six (bca_intervals icdf ncdf (map (fun r => sharpe (resample returns r)) rs)
      (below_count (sharpe returns) (map (fun r => sharpe (resample returns r)) rs)) (jackknife_sharpe returns) n)) /\ b = option_map (fun v => v * yearly bpy) b0) as (b0 & I0 & EB).
    { destruct bpy as [[| k] |]; [easy | |].
      - change (Nat.ltb 0 (Datatypes.S k)) with true in I. unfold six, map_intervals in *. cbn -[bca_intervals INR] in *.
        repeat (destruct I as [<- | I]; [eexists; split; [| reflexivity]; tauto |]). easy.
      - change (Nat.ltb 0 0) with false in I. exists b. split; [exact I |]. unfold yearly. destruct b; cbn; [now rewrite Rmult_1_r | easy]. }
    destruct (bca_in _ _ _ _ _ _ _ (NM _) I0) as (v & E0 & IV). apply in_map_iff in IV as (row & EV & IR).
    subst b b0 v. cbn [option_map]. eexists _, row. split; [reflexivity |]. split; [now apply ROWS |]. exists (resample returns row). split; [apply PICK; [now rewrite <- L | easy] |].
    rewrite sharpe_ok, sharpe_def. destruct (eqb _ _); [now rewrite Rmult_0_l | easy].
  - intros b I. rewrite <- HD in I. destruct (dd_confs_in _ _ (NM _) I) as (v & E0 & IV). apply in_map_iff in IV as (row & EV & IR).
    subst b v. eexists _, row. split; [reflexivity |]. split; [now apply ROWS |]. exists (resample changes row). split; [now apply PICK |]. apply mdd_cash.
  - intros b I. rewrite <- HQ in I. destruct (dd_confs_in _ _ (NM _) I) as (v & E0 & IV). apply in_map_iff in IV as (row & EV & IR).
    subst b v. eexists _, row. split; [reflexivity |]. split; [now apply ROWS |].
    destruct (mdd_ok (resample returns row)) as (d & D & E). exists (resample returns row), d. split; [apply PICK; [now rewrite <- L | easy] |].
    split; [| exact E]. replace n with (length (resample returns row)); [exact D |]. unfold resample. rewrite map_length. apply (ROWS row IR).
Qed.
Print Assumptions C92_bounds.

(** The bounds that [bca_boot_conf] returns are those of the BCa method: they cut the
    values of the statistic on the resamples at the shares that the bias correction and
    the acceleration adjust 2.5%, 5% and 10% to. *)
Theorem C92_bca : forall (S : Type) icdf ncdf (randint : nat -> S -> nat * S) x n_boot fn s i,
  (forall n s, (0 < n)%nat -> (fst (randint n s) < n)%nat) -> x <> [] ->
  bca_boot_conf icdf ncdf randint x n_boot (UserFn fn) s = Some i ->
  exists values js, length values = n_boot /\ left_out fn x js /\
  Forall (fun v => exists row l, bars_drawn (length x) row /\ picked x row l /\ v = fn l) values /\
  let share := adjusted icdf ncdf (bias icdf (fn x) values) (acceleration js) in
  Forall2 (fun p b => exists l h, b = (Some l, Some h) /\ cuts_low (share p) l values /\ cuts_high (1 - share (1 - p)) h values)
    [25 / 1000; 5 / 100; 1 / 10] [(low_2p5 i, high_2p5 i); (low_5 i, high_5 i); (low_10 i, high_10 i)].
Proof.
  intros S icdf ncdf randint x n_boot fn s i BELOW NE H.
  unfold bca_boot_conf, bca_generic, bca_with in H. destruct (Nat.eqb_spec n_boot 0) as [E | NB]; [easy |].
  destruct x as [| x0 x']; [easy |]. set (x := x0 :: x') in *. set (n := length x) in *.
  assert (P : (0 < n)%nat) by (unfold n, x; cbn; lia).
  rewrite boot_loop_rows in H. fold n in H. pose proof (rows_ok randint BELOW n P n_boot s) as (LEN & ROWS).
  destruct (rows randint n n_boot s) as [rs s']. cbn [fst] in LEN, ROWS. cbv zeta in H. injection H as <-.
  set (values := map (fun r => fn (resample x r)) rs).
  assert (LV : length values = n_boot) by (unfold values; now rewrite map_length).
  assert (NV : values <> []) by (intros Z; rewrite Z in LV; cbn in LV; lia).
  exists values, (jackknife fn x). split; [easy |]. split; [apply left_out_ok |]. split.
  - apply Forall_forall. intros v I. apply in_map_iff in I as (row & <- & I). exists row, (resample x row).
    split; [now apply ROWS |]. split; [apply resample_picked, (ROWS row I) | easy].
  - unfold bca_intervals. rewrite (accel_ok (jackknife fn x) n) by apply left_out_ok. cbv zeta.
    rewrite below_count_ok. fold (bias icdf (fn x) values). set (z0 := bias icdf (fn x) values). set (a := acceleration (jackknife fn x)).
    destruct (bounds_cut icdf ncdf values z0 a (25 / 1000) NV) as (l1 & h1 & -> & A1 & B1).
    destruct (bounds_cut icdf ncdf values z0 a (5 / 100) NV) as (l2 & h2 & -> & A2 & B2).
    destruct (bounds_cut icdf ncdf values z0 a (1 / 10) NV) as (l3 & h3 & -> & A3 & B3).
    cbn [low_2p5 high_2p5 low_5 high_5 low_10 high_10]. constructor; [eauto |]. constructor; [eauto |]. constructor; [eauto |]. constructor.
Qed.
Print Assumptions C92_bca.

(** The bounds of the profit factor are those of its logarithm, each raised; those of
    the Sharpe ratio are annualized. *)
Theorem C92_rescaled : forall (S : Type) icdf ncdf (randint : nat -> S -> nat * S) x n_boot obs s,
  option_map six (conf_profit_factor icdf ncdf randint x n_boot s) =
    option_map (fun i => map (option_map exp) (six i)) (bca_boot_conf icdf ncdf randint x n_boot LogProfitFactor s) /\
  option_map six (conf_sharpe_ratio icdf ncdf randint x n_boot obs s) =
    option_map (fun i => map (option_map (fun v => v * yearly obs)) (six i)) (bca_boot_conf icdf ncdf randint x n_boot Sharpe s).
Proof.
  intros. unfold conf_profit_factor, conf_sharpe_ratio. destruct (bca_boot_conf _ _ _ _ _ LogProfitFactor _) as [i |];
    destruct (bca_boot_conf _ _ _ _ _ Sharpe _) as [j |]; destruct obs; cbn; split; try easy;
    destruct j as [[] [] [] [] [] []]; cbn; now rewrite ?Rmult_1_r.
Qed.
Print Assumptions C92_rescaled.

(** The drawdown bounds cut the falls of one and the same set of resamples at 0.1%, 1%,
    5% and 10%: that share of them falls deeper. *)
Theorem C92_drawdowns : forall (S : Type) icdf ncdf (randint : nat -> S -> nat * S) changes returns n_boot bpy s pf sr dd pct,
  (forall n s, (0 < n)%nat -> (fst (randint n s) < n)%nat) -> changes <> [] ->
  evaluate_bootstrap icdf ncdf randint changes returns n_boot bpy s = Some (pf, sr, (dd, pct)) ->
  exists cash percent, length cash = n_boot /\
  Forall2 (fun c p => exists row lc lr d, bars_drawn (length changes) row /\ picked changes row lc /\ picked returns row lr /\
    cash_fall lc (- c) /\ drawdown (compounded lr) (length changes) d /\ p = - (100 * d)) cash percent /\
  Forall2 (fun q b => exists v, b = Some v /\ cuts q v cash) [1 / 1000; 1 / 100; 5 / 100; 1 / 10] (four dd) /\
  Forall2 (fun q b => exists v, b = Some v /\ cuts q v percent) [1 / 1000; 1 / 100; 5 / 100; 1 / 10] (four pct).
Proof.
  intros S icdf ncdf randint changes returns n_boot bpy s pf sr dd pct BELOW NE H.
  unfold evaluate_bootstrap, bootstrap_eval_all in H. destruct (Nat.eqb_spec n_boot 0) as [E | NB]; [easy |].
  destruct (Nat.eqb_spec (length changes) (length returns)) as [L | L]; [| easy]. cbn [negb] in H.
  destruct changes as [| c0 changes0]; [easy |]. set (changes := c0 :: changes0) in *. set (n := length changes) in *.
  assert (P : (0 < n)%nat) by (unfold n, changes; cbn; lia).
  rewrite all_loop_rows in H. fold n in H. pose proof (rows_ok randint BELOW n P n_boot s) as (LEN & ROWS).
  destruct (rows randint n n_boot s) as [rs s']. cbn [fst] in LEN, ROWS. cbn -[bca_intervals dd_confs_of Nat.ltb] in H. injection H as _ _ HD HQ.
  assert (NR : rs <> []) by (intros ->; cbn in LEN; lia).
  assert (NM : forall f : list nat -> R, map f rs <> []) by (intros f Z; apply NR; now apply map_eq_nil in Z).
  exists (map (fun r => max_drawdown (resample changes r)) rs), (map (fun r => max_drawdown_pct (resample returns r)) rs).
  split; [now rewrite map_length |]. split; [| split].
  - clear - ROWS L. induction rs as [| row rs IH]; cbn; constructor; [| apply IH; intros; apply ROWS; now right].
    destruct (ROWS row (or_introl eq_refl)) as (LR & IR). destruct (mdd_ok (resample returns row)) as (d & D & E).
    exists row, (resample changes row), (resample returns row), d. split; [easy |]. split; [now apply resample_picked |].
    split; [apply resample_picked; now rewrite <- L |]. split; [apply mdd_cash |]. split; [| exact E].
    assert (LL : length (resample returns row) = n) by (unfold resample; now rewrite map_length). rewrite LL in D. exact D.
  - rewrite <- HD. unfold dd_confs_of, four. cbn [q_001 q_01 q_05 q_10]. repeat constructor; (apply dd_conf_cuts; [lra | apply NM | reflexivity]).
  - rewrite <- HQ. unfold dd_confs_of, four. cbn [q_001 q_01 q_05 q_10]. repeat constructor; (apply dd_conf_cuts; [lra | apply NM | reflexivity]).
Qed.
Print Assumptions C92_drawdowns.

(** ** Not vacuous *)
(** A generator that counts, three bars, and one resample per bar. *)
Definition counting (n s : nat) : nat * nat := (Nat.modulo s n, Datatypes.S s).
Example C92_example :
  (forall n s, (0 < n)%nat -> (fst (counting n s) < n)%nat) /\
  fst (fill_row counting 3 3 1%nat) = [1; 2; 0]%nat /\
  (forall a v b, [2; -1; 1] = a ++ v :: b -> exists w, In w (a ++ b) /\ w <> 0) /\
  evaluate_bootstrap (fun p => p) (fun z => z) counting [2; -1; 1] [2 / 10; - (1 / 12); 1 / 11] 3 (Some 252%nat) 1%nat <> None.
Proof.
  split; [intros n s P; cbn; apply Nat.mod_upper_bound; lia |]. split; [reflexivity |]. split.
  - intros a v b E. destruct a as [| a0 [| a1 [| a2 a]]]; cbn in E; injection E; intros; subst.
    + exists (-1). cbn. split; [tauto | lra].
    + exists 2. cbn. split; [tauto | lra].
    + exists 2. cbn. split; [tauto | lra].
    + destruct a; discriminate.
  - rewrite C92_refuses. cbn. lia.
Qed.
