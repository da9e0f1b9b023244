(** A property preserved by every elementary action of the bar loop is preserved
    by whole windows. *)
From Verif Require Export LoopCore.

(** The calls the loop itself makes on the account. *)
Definition loop_op (o : op) : Prop :=
  match o with OpBuy _ | OpSell _ | OpSetCaps _ _ => False | _ => True end.
Definition loop_kop (k : kop) : Prop :=
  match k with KRemove _ | KRemoveAll _ | KAdvance _ => True | _ => False end.

Section Pres.
Variable v : env.
Variable P : bstate -> Prop.
Variable Q : list result -> bstate -> Prop.
Hypothesis P_sched : forall w x b, P b -> P (set_sched w x b).
Hypothesis P_ends : forall e b, P b -> P (set_ends e b).
Hypothesis P_ctx : forall x b, P b -> P (set_ctx x (b_stop b) b).
Hypothesis P_op : forall o b b', P b -> loop_op o -> do_op v o b = Some b' -> P b'.
Hypothesis P_kop : forall k b, P b -> loop_kop k -> P (set_pend k b).
Hypothesis P_attempt : forall i d n b b', P b -> get (n_id n) (b_pend b) = Some n -> attempt_and_settle v i d n b = Some b' -> P b'.
Hypothesis P_collect : forall d x l cs bs ss n b, P b -> collect v d x (b_stop b) = Some (cs, bs, ss, n) ->
  Q (cs ++ bs ++ ss) (set_ctx l n b).
Hypothesis Q_schedule : forall d k w r l b b', Q (r :: l) b -> schedule_order v d k w (Some b) r = Some b' -> Q l b'.
Hypothesis Q_done : forall b, Q [] b -> P b.
(** Pending orders are found under their ids. *)
Hypothesis P_get : forall b i n, P b -> get i (b_pend b) = Some n -> n_id n = i.
(** The orders of a snapshot stay pending until their turn. *)
Hypothesis P_core : forall b, P b -> core b.

Lemma place1_none i d w l : fold_left (place1 v i d w) l None = None.
Proof. induction l; cbn; auto. Qed.
Lemma schedule_none d k w l : fold_left (schedule_order v d k w) l None = None.
Proof. induction l; cbn; auto. Qed.
Lemma persist_none i d l : fold_left (persist1 v i d) l None = None.
Proof. induction l; cbn; auto. Qed.
Lemma cancel_none l : fold_left (do_cancel v) l None = None.
Proof. induction l; cbn; auto. Qed.
Lemma exit_none i d l : fold_left (do_exit v i d) l None = None.
Proof. induction l; cbn; auto. Qed.

Lemma place_fold_pres i d w l : forall b b', P b -> fold_left (place1 v i d w) l (Some b) = Some b' -> P b'.
Proof.
  induction l as [|r l IH]; intros b b' H; [intros [= <-]; auto|]. cbn [fold_left place1].
  destruct (negb (given match w with WSell => r_sell r | _ => r_buy r end)); [apply IH; auto|].
  destruct (r_pid r) as [id|]; [|apply IH; auto]. destruct (negb (contains id (b_pend b))); [apply IH; auto|].
  destruct (get id (b_pend b)) as [n|] eqn:G; [|apply IH; auto].
  destruct (attempt_and_settle v i d n b) as [b1|] eqn:A; [|rewrite place1_none; discriminate].
  apply IH. eapply P_attempt; eauto. rewrite (P_get b id n); auto.
Qed.
Lemma place_pres i d w now st b' : (forall b, st = Some b -> P b) -> place_if v w now i d st = Some b' -> P b'.
Proof.
  intro H. unfold place_if. destruct st as [b|]; [|discriminate]. destruct now; [|intros [= <-]; auto].
  unfold place_orders. destruct (fold_left (place1 v i d w) _ (Some b)) as [b1|] eqn:F; [|discriminate].
  intros [= <-]. apply P_sched. exact (place_fold_pres i d w _ b b1 (H b eq_refl) F).
Qed.
(** Settling one order leaves the others pending. *)
Lemma settle_live i d n b b' m : core b -> get (n_id n) (b_pend b) = Some n -> attempt_and_settle v i d n b = Some b' ->
  n_id m <> n_id n -> In m (live (b_kops b)) -> In m (live (b_kops b')).
Proof.
  intros C G A N I. unfold attempt_and_settle in A. destruct (attempt v i d n (set_pend (KMark (n_id n)) b)) as [[b1 f]|] eqn:E; [|discriminate].
  destruct (attempt_spec _ _ _ _ _ _ _ E) as [[_ [_ [_ [_ [_ [_ [_ K]]]]]]] _].
  assert (I1 : In m (live (b_kops b1))) by (rewrite K; unfold set_pend; cbn [b_kops]; rewrite live_snoc; exact I).
  destruct (f || negb (is_persistent_limit n)); injection A as <-; auto.
  unfold set_pend. cbn [b_kops]. rewrite live_snoc. cbn [live_step fst snd]. apply filter_In. split; auto.
  apply negb_true_iff, Nat.eqb_neq, N.
Qed.
Lemma get_live b n : core b -> In n (live (b_kops b)) -> get (n_id n) (b_pend b) = Some n.
Proof.
  intros C I. rewrite (co_pend _ C), get_spec. apply find_id; auto. apply sorted_nodup, live_sorted.
Qed.
Lemma get_In b i n : core b -> get i (b_pend b) = Some n -> In n (live (b_kops b)) /\ n_id n = i.
Proof.
  intros C G. rewrite (co_pend _ C), get_spec in G. apply find_some in G. destruct G as [I E]. apply Nat.eqb_eq in E. auto.
Qed.
Lemma persist_fold_pres i d l : forall b b', NoDup (map n_id l) -> (forall n, In n l -> In n (live (b_kops b))) -> P b ->
  fold_left (persist1 v i d) l (Some b) = Some b' -> P b'.
Proof.
  induction l as [|n l IH]; intros b b' ND LV H; [intros [= <-]; auto|]. cbn [fold_left persist1].
  inversion ND as [|? ? N1 N2]; subst.
  assert (LV' : forall m, In m l -> In m (live (b_kops b))) by (intros m I; apply LV; right; exact I).
  assert (NE : forall m, In m l -> n_id m <> n_id n) by (intros m I X; apply N1; rewrite <- X; now apply in_map).
  pose proof (get_live b n (P_core b H) (LV n (or_introl eq_refl))) as G.
  destruct (Z.ltb d (n_exec n)); [apply IH; auto|]. destruct (Z.eqb (n_exec n) d && _); [apply IH; auto|].
  destruct (negb (has_bar_on v b (n_sym n) d)); [apply IH; auto|].
  assert (GO : forall b0, P b0 -> In n (live (b_kops b0)) -> (forall m, In m l -> In m (live (b_kops b0))) ->
            fold_left (persist1 v i d) l (attempt_and_settle v i d n b0) = Some b' -> P b').
  { intros b0 H0 I0 L0 F. pose proof (get_live b0 n (P_core b0 H0) I0) as G0.
    destruct (attempt_and_settle v i d n b0) as [b1|] eqn:A; [|rewrite persist_none in F; discriminate].
    apply (IH b1); auto; [|eapply P_attempt; eauto]. intros m I. eapply settle_live; eauto. }
  destruct (negb (was_attempted (n_id n) (b_pend b))).
  - apply GO; auto. apply LV. left. reflexivity.
  - destruct (n_timeout n) as [t|]; [|apply IH; auto].
    assert (KA : forall m, In m (live (b_kops b)) -> In m (live (b_kops (set_pend (KAdvance (n_id n)) b)))).
    { intros m I. unfold set_pend. cbn [b_kops]. rewrite live_snoc. exact I. }
    destruct (Z.leb 0 t && _).
    + apply IH; auto; [|apply P_kop; [apply P_kop|]; cbn; auto]. intros m I. unfold set_pend at 1. cbn [b_kops].
      rewrite live_snoc. cbn [live_step fst snd]. apply filter_In. split; [apply KA; auto|]. apply negb_true_iff, Nat.eqb_neq. auto.
    + apply GO; [apply P_kop; cbn; auto|apply KA, LV; left; reflexivity|]. intros m I. apply KA. auto.
Qed.
Lemma isort_perm {A} (le : A -> A -> bool) l : Permutation (isort le l) l.
Proof.
  assert (I : forall x l, Permutation (insert le x l) (x :: l)).
  { intros x m. induction m as [|y m IH]; cbn; auto. destruct (le x y); auto. rewrite IH. apply perm_swap. }
  induction l as [|x l IH]; cbn; auto. rewrite I. auto.
Qed.
Lemma all_orders b : core b -> orders None None (b_pend b) = live (b_kops b).
Proof. intro C. rewrite (co_pend _ C). apply (queries_spec (b_kops b) 0 0). Qed.
Lemma snapshot_facts b : core b ->
  NoDup (map n_id (isort priority_leb (orders None None (b_pend b)))) /\
  (forall n, In n (isort priority_leb (orders None None (b_pend b))) <-> In n (live (b_kops b))).
Proof.
  intro C. pose proof (isort_perm priority_leb (orders None None (b_pend b))) as PM. rewrite (all_orders b C) in *. split.
  - apply (Permutation_NoDup (l := map n_id (live (b_kops b)))); [symmetry; now apply Permutation_map|].
    apply sorted_nodup, live_sorted.
  - intro n. split; intro I; [exact (Permutation_in n PM I)|exact (Permutation_in n (Permutation_sym PM) I)].
Qed.
Lemma process_pres i d b b' : P b -> process_persistent v i d b = Some b' -> P b'.
Proof.
  intro H. unfold process_persistent. destruct (has_orders (b_pend b)); [|intros [= <-]; auto].
  destruct (snapshot_facts b (P_core b H)) as [ND IN]. apply persist_fold_pres; auto. intros n I. now apply IN.
Qed.
Lemma sort_pres d b : P b -> P (sort_scheds v d b).
Proof.
  intro H. unfold sort_scheds, sort_sched. destruct (v_sort_long v), (v_sort_short v);
    repeat match goal with |- context [zhas ?d ?s] => destruct (zhas d s) end; auto.
Qed.
Lemma settle_parts i d b b' : P b -> settle v i d b = Some b' -> exists b5 f, P b5 /\ do_op v (OpCapture d f) b5 = Some b'.
Proof.
  intro H. unfold settle. pose proof (sort_pres d b H) as H0. set (b0 := sort_scheds v d b) in *.
  destruct (do_op v (OpCheckStops d (scope_on v b0 i d) (v_sm v i)) b0) as [b1|] eqn:E1; [|discriminate].
  assert (H1 : P b1) by (eapply P_op; eauto; exact I).
  destruct (place_if v WCover _ i d (Some b1)) as [b2|] eqn:E2; [|discriminate].
  assert (H2 : P b2) by (eapply place_pres; [|exact E2]; intros ? [= <-]; auto).
  destruct (place_if v WSell _ i d (Some b2)) as [b3|] eqn:E3; [|discriminate].
  assert (H3 : P b3) by (eapply place_pres; [|exact E3]; intros ? [= <-]; auto).
  destruct (place_if v WBuy _ i d (Some b3)) as [b4|] eqn:E4; [|discriminate].
  assert (H4 : P b4) by (eapply place_pres; [|exact E4]; intros ? [= <-]; auto).
  cbn [bind]. destruct (process_persistent v i d b4) as [b5|] eqn:E5; [|discriminate].
  assert (H5 : P b5) by (eapply process_pres; eauto).
  cbn [bind]. intro E6. eauto.
Qed.
Lemma settle_pres i d b b' : P b -> settle v i d b = Some b' -> P b'.
Proof. intros H E. destruct (settle_parts _ _ _ _ H E) as [b5 [f [H5 E5]]]. eapply P_op; eauto. exact I. Qed.
Lemma cancel_pres l : forall b b', P b -> fold_left (do_cancel v) l (Some b) = Some b' -> P b'.
Proof.
  induction l as [|x l IH]; intros b b' H; [intros [= <-]; auto|]. cbn [fold_left]. unfold do_cancel at 2. cbn [bind].
  destruct x as [i|s|i|t ty].
  - apply IH, P_kop; cbn; auto.
  - apply IH, P_kop; cbn; auto.
  - destruct (do_op v (OpRemoveStop i) b) as [b1|] eqn:E; [|rewrite cancel_none; discriminate]. apply IH. eapply P_op; eauto. exact I.
  - destruct (do_op v (OpRemoveStops t ty) b) as [b1|] eqn:E; [|rewrite cancel_none; discriminate]. apply IH. eapply P_op; eauto. exact I.
Qed.
Lemma exits_pres i d l : forall b b', P b -> fold_left (do_exit v i d) l (Some b) = Some b' -> P b'.
Proof.
  induction l as [|s l IH]; intros b b' H; [intros [= <-]; auto|]. cbn [fold_left]. unfold do_exit at 2. cbn [bind].
  destruct (do_op v _ b) as [b1|] eqn:E; [|rewrite exit_none; discriminate]. apply IH. eapply P_op; eauto. exact I.
Qed.
Lemma schedule_pres d k w l : forall more b b', Q (l ++ more) b -> fold_left (schedule_order v d k w) l (Some b) = Some b' -> Q more b'.
Proof.
  induction l as [|r l IH]; intros more b b' H; [intros [= <-]; auto|]. cbn [fold_left].
  destruct (schedule_order v d k w (Some b) r) as [b1|] eqn:E; [|rewrite schedule_none; discriminate].
  apply IH. eapply Q_schedule; eauto.
Qed.
Lemma decide_pres i d act exits b b' : P b -> decide v i d act exits b = Some b' -> P b'.
Proof.
  intro H. unfold decide. set (x := map _ act). set (u := v_user v i d (b_port b) (b_pend b) x). set (x1 := map _ x).
  destruct (fold_left (do_cancel v) (u_cancel u) (Some b)) as [b1|] eqn:E1; [|discriminate]. cbn [bind].
  assert (H1 : P b1) by (eapply cancel_pres; eauto).
  destruct (rotate v i b1 x1) as [x2|]; [|discriminate].
  destruct (collect v d x2 (b_stop b1)) as [[[[cs bs] ss] n]|] eqn:C; [|discriminate].
  set (b2 := set_ctx _ n b1).
  assert (H2 : Q (cs ++ bs ++ ss) b2) by (eapply P_collect; eauto).
  destruct (fold_left (schedule_order v d (v_buy_delay v) WCover) cs (Some b2)) as [b3|] eqn:E3; [|rewrite !schedule_none, exit_none; discriminate].
  assert (H3 : Q (bs ++ ss) b3) by (eapply schedule_pres; eauto).
  destruct (fold_left (schedule_order v d (v_buy_delay v) WBuy) bs (Some b3)) as [b4|] eqn:E4; [|rewrite schedule_none, exit_none; discriminate].
  assert (H4 : Q ss b4) by (eapply schedule_pres; eauto).
  destruct (fold_left (schedule_order v d (v_sell_delay v) WSell) ss (Some b4)) as [b5|] eqn:E5; [|rewrite exit_none; discriminate].
  assert (H5 : P b5) by (apply Q_done; eapply schedule_pres with (l := ss); [rewrite app_nil_r; eassumption|eauto]).
  destruct (fold_left (do_exit v i d) exits (Some b5)) as [b6|] eqn:E6; [|discriminate]. cbn [bind].
  intro E7. eapply P_op; [| |exact E7]; [eapply exits_pres; eauto|exact I].
Qed.
Lemma bar_pres i d b b' : P b -> bar v i d b = Some b' -> P b'.
Proof.
  intro H. unfold bar. destruct (activate v d b) as [[ends act] exits]. set (b1 := set_ctx _ _ _).
  assert (H1 : P b1) by (apply P_ctx, P_ends, H).
  destruct (settle v i d b1) as [b2|] eqn:E; [|discriminate]. cbn [bind]. apply decide_pres. eapply settle_pres; eauto.
Qed.
Lemma bars_pres dates : forall i b b', P b -> bars_from v i dates b = Some b' -> P b'.
Proof.
  induction dates as [|d dates IH]; intros i b b' H; cbn [bars_from]; [intros [= <-]; auto|].
  destruct (bar v i d b) as [b1|] eqn:E; [|discriminate]. apply IH. eapply bar_pres; eauto.
Qed.
Hypothesis P_start : forall b, P b -> P (start v b).
Lemma backtest_pres b b' : P b -> backtest v b = Some b' -> P b'.
Proof. intro H. unfold backtest. apply bars_pres. auto. Qed.
End Pres.

(** ** Applications *)
Lemma to_add_some r created date bar a : to_add r created date bar = Some a ->
  d_sym a = r_sym r /\ d_created a = created /\ d_exec a = date /\ d_exec_bar a = bar.
Proof. unfold to_add. destruct (r_buy r); [|destruct (r_sell r); [|discriminate]]; intros [= <-]; auto. Qed.
(** Scheduling adds at most one order. *)
Lemma schedule_order_spec v d k w b r b' : schedule_order v d k w (Some b) r = Some b' ->
  b' = b \/
  exists date iw a, exec_date v (r_sym r) (end_of b (r_sym r)) k = Some (date, iw) /\
    to_add r d date (end_of b (r_sym r) + k) = Some a /\
    b' = let id := snd (add a (b_pend b)) in let b1 := set_pend (KAdd a) b in
         if iw then set_sched w (zset date (zget date (get_sched w b1) ++ [set_pid id r]) (get_sched w b1)) b1 else b1.
Proof.
  unfold schedule_order. destruct (exec_date v (r_sym r) (end_of b (r_sym r)) k) as [[date iw]|]; [|intros [= <-]; auto].
  destruct (to_add r d date (end_of b (r_sym r) + k)) as [a|] eqn:E; [|discriminate]. intros [= <-]. right. exists date, iw, a. auto.
Qed.

Section Core.
Variable v : env.
Lemma core_sched w x b : core b -> core (set_sched w x b).
Proof. intros [H1 H2 H3]. constructor; auto. Qed.
Lemma core_ends e b : core b -> core (set_ends e b).
Proof. intros [H1 H2 H3]. constructor; auto. Qed.
Lemma core_ctx x n b : core b -> core (set_ctx x n b).
Proof. intros [H1 H2 H3]. constructor; auto. Qed.
Lemma core_op o b b' : core b -> do_op v o b = Some b' -> core b'.
Proof. unfold do_op. intros [H1 H2 H3]. destruct (step (v_cfg v) o (b_port b)); [|discriminate]. intros [= <-]. constructor; auto. Qed.
Lemma core_attempt i d n b b' : core b -> get (n_id n) (b_pend b) = Some n -> attempt_and_settle v i d n b = Some b' -> core b'.
Proof.
  intros C G. unfold attempt_and_settle. pose proof (get_In _ _ _ C G) as [I _].
  pose proof (is_live_In _ _ I) as L.
  assert (C1 : core (set_pend (KMark (n_id n)) b)) by (apply kstate_set; auto; intros ? [= <-]; auto).
  destruct (attempt v i d n (set_pend (KMark (n_id n)) b)) as [[b1 f]|] eqn:A; [|discriminate].
  destruct (attempt_spec _ _ _ _ _ _ _ A) as [[K1 [_ [_ [_ [_ [_ [_ K2]]]]]]] [AT _]].
  assert (C2 : core b1).
  { destruct C1 as [P1 P2 P3]. constructor; rewrite ?K1, ?K2; auto. intros x J. rewrite AT in J. apply in_app_iff in J.
    destruct J as [J|[<-|[]]]; auto. cbn [fst]. unfold set_pend. cbn [b_kops]. rewrite added_snoc. cbn. pose proof (is_live_le _ _ L). lia. }
  destruct (f || negb (is_persistent_limit n)); intros [= <-]; auto. apply kstate_set; auto. discriminate.
Qed.
Lemma core_schedule d k w r b b' : core b -> schedule_order v d k w (Some b) r = Some b' -> core b'.
Proof.
  intros C E. destruct (schedule_order_spec _ _ _ _ _ _ _ E) as [->|[date [iw [a [_ [_ ->]]]]]]; auto.
  assert (C1 : core (set_pend (KAdd a) b)) by (apply kstate_set; auto; discriminate).
  cbv zeta. destruct iw; auto. now apply core_sched.
Qed.
Lemma core_get b i n : core b -> get i (b_pend b) = Some n -> n_id n = i.
Proof. intros C G. now apply (get_In b i n). Qed.
Lemma core_start b : core b -> core (start v b).
Proof. intros [H1 H2 H3]. constructor; auto. Qed.
Lemma core_backtest b b' : core b -> backtest v b = Some b' -> core b'.
Proof.
  apply (backtest_pres v core (fun _ => core)); auto using core_sched, core_ends, core_start.
  - intros; now apply core_ctx.
  - intros; eapply core_op; eauto.
  - intros k b0 H K. apply kstate_set; auto. intros j ->. destruct K.
  - exact core_attempt.
  - intros; now apply core_ctx.
  - intros; eapply core_schedule; eauto.
  - exact core_get.
Qed.
End Core.
