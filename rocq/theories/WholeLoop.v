(** Whole shares in the bar loop: the loop itself only sends whole numbers. *)
From Verif Require Import LoopSend.
From Verif Require Export WholeProofs.

Section Calls.
Variable c : cfg.
Variable v : env.
Hypothesis CFG : v_cfg v = c.
Hypothesis FR : c_fractional c = false.
Definition whole_calls (b : bstate) : Prop := refined c b /\ Forall asks_whole (b_ops b).
Lemma get_shares_whole q : whole (get_shares v q).
Proof. unfold get_shares. rewrite CFG, FR. apply whole_z. Qed.
Lemma clamp_exit_whole p n q sh : Whole p -> clamp_exit p n q = Some sh -> whole q -> whole sh.
Proof.
  intros W E Q. revert E. unfold clamp_exit. destruct (n_exit n) as [sd|]; [|intros [= <-]; auto].
  set (h := match aget (n_sym n) (poss sd p) with Some pos => ps_shares pos | None => 0 end).
  assert (H : whole h) by (unfold h; destruct (aget _ _) as [pos|] eqn:G; [exact (proj1 (map_get _ _ _ (wh_pos _ W sd) G))|apply whole_0]).
  destruct (Qltb h q); destruct (Qle_bool _ 0); try discriminate; intros [= <-]; auto.
Qed.
Lemma apply_slip_whole i n sh price q f : apply_slip v i n sh price = Some (q, f) -> whole sh -> whole q.
Proof.
  unfold apply_slip. destruct (v_slip v) as [|g|g]; [intros [= <- _]; auto..|]. destruct (g i (n_type n) (n_sym n) sh price) as [s' p'].
  destruct (_ || _); [discriminate|]. intros [= <- _] _. apply get_shares_whole.
Qed.
Lemma whole_attempt i d n b b' f : Whole (b_port b) -> Forall asks_whole (b_ops b) -> attempt v i d n b = Some (b', f) -> Forall asks_whole (b_ops b').
Proof.
  intros W H E. destruct (attempt_spec _ _ _ _ _ _ _ E) as [_ [_ REST]]. destruct REST as [[_ [O _]]|[a0 [x [SN [F O]]]]]; rewrite O; auto.
  apply forall_snoc; auto. destruct SN as [_ _ _ _ _ _ [price [_ [_ [sh [CL SL]]]]] _].
  assert (X : whole (a_shares a0)) by (eapply apply_slip_whole; [exact SL|]; eapply clamp_exit_whole; [exact W|exact CL|]; apply get_shares_whole).
  destruct (n_type n), f; exact X.
Qed.
Lemma port_whole b : refined c b -> Forall asks_whole (b_ops b) -> Whole (b_port b).
Proof. intros [_ R] H. eapply run_whole; eauto. apply init_whole. Qed.
Lemma loop_op_whole o : loop_op o -> asks_whole o.
Proof. destruct o; cbn; auto; intros []. Qed.
Lemma whole_backtest b b' : whole_calls b -> backtest v b = Some b' -> whole_calls b'.
Proof.
  apply (backtest_pres v whole_calls (fun _ => whole_calls)); auto.
  - intros w x b0 [[C R] H]. split; [split; [now apply core_sched|destruct w; exact R]|]. destruct w; auto.
  - intros e b0 [[C R] H]. split; [split; [now apply core_ends|exact R]|]. auto.
  - intros x b0 [[C R] H]. split; [split; [now apply core_ctx|exact R]|]. auto.
  - intros o b0 b1 [R H] L E. split; [eapply refined_op; eauto|]. unfold do_op in E. destruct (step (v_cfg v) o (b_port b0)) as [p u|]; [|discriminate].
    injection E as <-. cbn [b_ops]. apply forall_snoc; auto. now apply loop_op_whole.
  - intros k b0 [[C R] H] L. split; [split; [apply kstate_set; auto; intros j ->; destruct L|exact R]|]. auto.
  - intros i d n b0 b1 [R H] G E. split; [exact (refined_attempt v c CFG i d n b0 b1 R G E)|]. unfold attempt_and_settle in E.
    destruct (attempt v i d n (set_pend (KMark (n_id n)) b0)) as [[b2 f]|] eqn:A; [|discriminate].
    assert (X : Forall asks_whole (b_ops b2)) by (eapply whole_attempt; [| |exact A]; [exact (port_whole b0 R H)|exact H]).
    destruct (f || negb (is_persistent_limit n)); injection E as <-; auto.
  - intros d x l cs bs ss n b0 [[C R] H] _. split; [split; [now apply core_ctx|exact R]|]. auto.
  - intros d k w r l b0 b1 [R H] E. split; [exact (refined_schedule v c d k w r b0 b1 R E)|].
    destruct (schedule_order_spec _ _ _ _ _ _ _ E) as [->|[date [iw [a [_ [_ ->]]]]]]; auto. cbn zeta. destruct iw; [destruct w|]; exact H.
  - intros b0 i n [[C _] _]. now apply core_get.
  - intros b0 [[C _] _]. exact C.
  - intros b0 [[C R] H]. split; [split; [now apply core_start|exact R]|]. auto.
Qed.
End Calls.
Lemma backtests_whole c l k b : c_fractional c = false -> windows_ok c l -> backtests l (fresh c k) = Some b -> whole_calls c b.
Proof.
  intros FR W E. revert E. apply (backtests_pres (whole_calls c) c l); auto.
  - intros v b0 b1 _ CF _. exact (whole_backtest c v CF FR b0 b1).
  - split; [apply refined_fresh|constructor].
Qed.

(** ** The counts sent are the counts wanted *)
Lemma trunc_sendable v c q : v_cfg v = c -> sendable c q (get_shares v q).
Proof.
  intro CFG. unfold sendable, get_shares. rewrite CFG. destruct (c_fractional c); [reflexivity|]. split; [apply whole_z|]. unfold Qtrunc.
  destruct (Qle_bool 0 q) eqn:E; qb.
  - pose proof (Qfloor_le q). pose proof (Qlt_floor q) as U. rewrite inject_Z_plus in U. change (inject_Z 1) with 1 in U.
    assert (P : 0 <= inject_Z (Qfloor q)). { change 0 with (inject_Z 0). rewrite <- Zle_Qle. change 0%Z with (Qfloor 0). now apply Qfloor_resp_le. }
    rewrite !Qabs_pos; auto. split; [lra|]. split; [lra|]. nra.
  - pose proof (Qle_ceiling q). pose proof (Qceiling_lt q) as U. unfold Z.sub in U. rewrite inject_Z_plus in U. change (inject_Z (-(1))) with (-(1)) in U.
    assert (P : inject_Z (Qceiling q) <= 0). { change 0 with (inject_Z 0). rewrite <- Zle_Qle. change 0%Z with (Qceiling 0). apply Qceiling_resp_le. lra. }
    rewrite !Qabs_neg by lra. split; [lra|]. split; [lra|]. nra.
Qed.
Section Exact.
Variable c : cfg.
Variable v : env.
Hypothesis CFG : v_cfg v = c.
Hypothesis KEEP : keeps_shares v.
Definition exact_calls (b : bstate) : Prop := refined c b /\
  forall ty a, In (order_call ty a) (b_ops b) -> exists n, In n (entered (b_kops b)) /\ n_type n = ty /\ a_sym a = n_sym n /\
    a_created a = Some (n_created n) /\ (n_exit n = None -> sendable c (n_shares n) (a_shares a)).
Lemma exact_same b b' : (forall n, In n (entered (b_kops b)) -> In n (entered (b_kops b'))) ->
  (b_ops b' = b_ops b \/ exists o, b_ops b' = b_ops b ++ [o] /\ forall ty a, o <> order_call ty a) -> refined c b' -> exact_calls b -> exact_calls b'.
Proof.
  intros K O R' [_ H]. split; auto. intros ty a I.
  assert (X : In (order_call ty a) (b_ops b)).
  { destruct O as [O|[o [O N]]]; rewrite O in I; auto. apply in_app_iff in I. destruct I as [I|[I|[]]]; auto. destruct (N _ _ I). }
  destruct (H ty a X) as [n [I1 P]]. exists n. split; auto.
Qed.
Lemma exact_attempt i d n b b' f : (forall ty a, In (order_call ty a) (b_ops b) -> exists n, In n (entered (b_kops b)) /\ n_type n = ty /\ a_sym a = n_sym n /\
    a_created a = Some (n_created n) /\ (n_exit n = None -> sendable c (n_shares n) (a_shares a))) -> In n (entered (b_kops b)) -> attempt v i d n b = Some (b', f) ->
  forall ty a, In (order_call ty a) (b_ops b') -> exists n, In n (entered (b_kops b')) /\ n_type n = ty /\ a_sym a = n_sym n /\
    a_created a = Some (n_created n) /\ (n_exit n = None -> sendable c (n_shares n) (a_shares a)).
Proof.
  intros H I E ty a J. destruct (attempt_spec _ _ _ _ _ _ _ E) as [FR [_ REST]]. destruct FR as [_ [_ [_ [_ [_ [_ [_ F8]]]]]]]. rewrite F8.
  destruct REST as [[_ [O _]]|[a0 [x [SN [F O]]]]]; rewrite O in J; auto. apply in_app_iff in J. destruct J as [J|[J|[]]]; auto.
  assert (J2 : order_call (n_type n) (if f then a0 else unstopped a0) = order_call ty a) by (rewrite <- J; destruct (n_type n); reflexivity).
  apply order_call_inv in J2. destruct J2 as [<- <-]. exists n. split; auto. destruct SN as [S1 S2 S3 S4 S5 S6 [price [_ [_ [sh [CL SL]]]]] S7].
  split; auto. split; [destruct f; auto|]. split; [destruct f; auto|]. intro X. unfold clamp_exit in CL. rewrite X in CL. injection CL as <-.
  assert (Y : a_shares (if f then a0 else unstopped a0) = a_shares a0) by (destruct f; reflexivity). rewrite Y.
  assert (Z : a_shares a0 = get_shares v (n_shares n)).
  { revert SL KEEP. unfold apply_slip, keeps_shares. destruct (v_slip v); [intros [= <- _]; auto..|intros _ []]. }
  rewrite Z. now apply trunc_sendable.
Qed.
Lemma exact_backtest b b' : exact_calls b -> backtest v b = Some b' -> exact_calls b'.
Proof.
  apply (backtest_pres v exact_calls (fun _ => exact_calls)); auto.
  - intros w x b0 EX. apply (exact_same b0); auto; try (destruct w; auto; fail). destruct EX as [[C R] H]. split; [now apply core_sched|destruct w; exact R].
  - intros e b0 EX. apply (exact_same b0); auto. destruct EX as [[C R] H]. split; [now apply core_ends|exact R].
  - intros x b0 EX. apply (exact_same b0); auto. destruct EX as [[C R] H]. split; [now apply core_ctx|exact R].
  - intros o b0 b1 EX L E. apply (exact_same b0); auto; [| |eapply refined_op; eauto; apply EX]; unfold do_op in E;
    (destruct (step (v_cfg v) o (b_port b0)) as [p u|]; [|discriminate]); injection E as <-; auto. right. exists o. split; [reflexivity|]. now apply not_order.
  - intros k b0 EX L. apply (exact_same b0); auto.
    + intros n I. unfold set_pend. cbn [b_kops]. rewrite entered_snoc. destruct k; cbn [entered_step]; auto. apply in_app_iff. auto.
    + destruct EX as [[C R] H]. split; [apply kstate_set; auto; intros j ->; destruct L|exact R].
  - intros i d n b0 b1 [R H] G E. split; [exact (refined_attempt v c CFG i d n b0 b1 R G E)|]. unfold attempt_and_settle in E.
    destruct (attempt v i d n (set_pend (KMark (n_id n)) b0)) as [[b2 f]|] eqn:A; [|discriminate].
    assert (K : forall k b, (forall n, In n (entered (b_kops b)) -> In n (entered (b_kops (set_pend k b))))).
    { intros k b2' m I. unfold set_pend. cbn [b_kops]. rewrite entered_snoc. destruct k; cbn [entered_step]; auto. apply in_app_iff. auto. }
    pose proof (exact_attempt i d n (set_pend (KMark (n_id n)) b0) b2 f) as X.
    assert (Y : forall ty a, In (order_call ty a) (b_ops b2) -> exists n, In n (entered (b_kops b2)) /\ n_type n = ty /\ a_sym a = n_sym n /\
      a_created a = Some (n_created n) /\ (n_exit n = None -> sendable c (n_shares n) (a_shares a))).
    { apply X; auto.
      - intros ty a J. destruct (H ty a J) as [m [I1 P]]. exists m. split; [apply K, I1|exact P].
      - apply K. destruct R as [C R]. apply live_entered. now apply (get_In b0 (n_id n) n C). }
    destruct (f || negb (is_persistent_limit n)); injection E as <-; auto. intros ty a J. destruct (Y ty a J) as [m [I1 P]]. exists m. split; [apply K, I1|exact P].
  - intros d x l cs bs ss n b0 EX _. apply (exact_same b0); auto. destruct EX as [[C R] H]. split; [now apply core_ctx|exact R].
  - intros d k w r l b0 b1 EX E. apply (exact_same b0); auto; [| |exact (refined_schedule v c d k w r b0 b1 (proj1 EX) E)];
    (destruct (schedule_order_spec _ _ _ _ _ _ _ E) as [->|[date [iw [a [_ [_ ->]]]]]]; auto); cbn zeta.
    + intros n I. assert (Y : In n (entered (b_kops b0 ++ [KAdd a]))) by (rewrite entered_snoc; cbn [entered_step]; apply in_app_iff; auto).
      destruct iw; [destruct w|]; exact Y.
    + left. destruct iw; [destruct w|]; auto.
  - intros b0 i n [[C _] _]. now apply core_get.
  - intros b0 [[C _] _]. exact C.
  - intros b0 EX. apply (exact_same b0); auto. destruct EX as [[C R] H]. split; [now apply core_start|exact R].
Qed.
End Exact.
Lemma backtests_exact c l k b : (forall v, In v l -> keeps_shares v) -> windows_ok c l -> backtests l (fresh c k) = Some b -> exact_calls c b.
Proof.
  intros KEEP W E. revert E. apply (backtests_pres (exact_calls c) c l); auto.
  - intros v b0 b1 I CF _. exact (exact_backtest c v CF (KEEP v I) b0 b1).
  - split; [apply refined_fresh|]. intros ty a [].
Qed.
