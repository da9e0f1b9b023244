(** Where the account calls of a run come from, and what scheduling does. *)
From Verif Require Export LoopHist.

Section Calls.
Variable c : cfg.
Variable v : env.
Hypothesis CFG : v_cfg v = c.
Definition calls_ok (b : bstate) : Prop :=
  forall l1 ty a l2, b_ops b = l1 ++ order_call ty a :: l2 -> exists n, In n (entered (b_kops b)) /\ made_for b ty a n /\
    exists p p' x, run c l1 = Some p /\ send c ty a p = Ret p' x /\ (exit_of n -> a_shares a <= shares_held p (closing ty) (n_sym n)).
Definition from_orders (b : bstate) : Prop := refined c b /\ calls_ok b.
Lemma snoc_split {A} (l : list A) y l1 x l2 : l ++ [y] = l1 ++ x :: l2 -> (l2 = [] /\ l1 = l /\ x = y) \/ exists l3, l2 = l3 ++ [y] /\ l = l1 ++ x :: l3.
Proof.
  destruct l2 as [|z l2'] using rev_ind; intro E.
  - left. apply app_inj_tail in E. destruct E; auto.
  - right. exists l2'. rewrite app_comm_cons, app_assoc in E. apply app_inj_tail in E. destruct E as [-> ->]. auto.
Qed.
Lemma made_for_mono b b' ty a n : incl (b_att b) (b_att b') -> made_for b ty a n -> made_for b' ty a n.
Proof.
  intros A [H1 H2 H3 H4 H5 H6 [f [H7 H8]]]. constructor; auto. exists f. split; auto. unfold attempts in *. apply in_map_iff in H7.
  destruct H7 as [x [E I]]. apply in_map_iff. exists x. split; auto. apply filter_In in I. apply filter_In. split; [apply A; tauto|tauto].
Qed.
Lemma calls_same b b' : (forall n, In n (entered (b_kops b)) -> In n (entered (b_kops b'))) -> incl (b_att b) (b_att b') ->
  (b_ops b' = b_ops b \/ exists o, b_ops b' = b_ops b ++ [o] /\ forall ty a, o <> order_call ty a) -> calls_ok b -> calls_ok b'.
Proof.
  intros K A O H l1 ty a l2 E. assert (X : exists l3, b_ops b = l1 ++ order_call ty a :: l3).
  { destruct O as [O|[o [O N]]]; [exists l2; congruence|]. rewrite O in E. apply snoc_split in E. destruct E as [[_ [_ E]]|[l3 [_ E]]]; [|eauto].
    destruct (N ty a). auto. }
  destruct X as [l3 X]. destruct (H l1 ty a l3 X) as [n [I1 [M P]]]. exists n. split; auto. split; auto. eapply made_for_mono; eauto.
Qed.
Lemma Qtrunc_le q : 0 <= q -> inject_Z (Qtrunc q) <= q.
Proof. intro H. unfold Qtrunc. destruct (Qle_bool 0 q) eqn:E; [apply Qfloor_le|]. qb. lra. Qed.
Lemma Qtrunc_nonneg q : 0 <= q -> 0 <= inject_Z (Qtrunc q).
Proof.
  intro H. unfold Qtrunc. destruct (Qle_bool 0 q) eqn:E; [|qb; lra]. change 0 with (inject_Z 0). rewrite <- Zle_Qle.
  change 0%Z with (Qfloor 0). now apply Qfloor_resp_le.
Qed.
Lemma get_shares_le q : 0 <= q -> get_shares v q <= q.
Proof. intro H. unfold get_shares. destruct (c_fractional (v_cfg v)); [lra|now apply Qtrunc_le]. Qed.
Lemma clamp_le p n q sh : clamp_exit p n q = Some sh -> sh <= q /\
  match n_exit n with Some sd => 0 < sh /\ sh <= shares_held p sd (n_sym n) | None => True end.
Proof.
  unfold clamp_exit, shares_held, position_of. destruct (n_exit n) as [sd|]; [|intros [= <-]; split; auto; lra].
  set (h := match aget (n_sym n) (poss sd p) with Some pos => ps_shares pos | None => 0 end).
  destruct (Qltb h q) eqn:E; destruct (Qle_bool _ 0) eqn:Z; try discriminate; intros [= <-]; qb; (split; [lra|split; lra]).
Qed.
Lemma slip_le i n sh price q f : apply_slip v i n sh price = Some (q, f) -> 0 <= sh -> q <= sh.
Proof.
  unfold apply_slip. destruct (v_slip v) as [|g|g].
  - intros [= <- _]. lra.
  - intros [= <- _]. lra.
  - destruct (g i (n_type n) (n_sym n) sh price) as [s' p']. destruct (Qltb s' 0 || Qltb sh s') eqn:E; [discriminate|].
    intros [= <- _] _. apply orb_false_iff in E. destruct E as [E1 E2]. qb. assert (X := get_shares_le s' E1). lra.
Qed.
Lemma order_call_inv ty a ty' a' : order_call ty a = order_call ty' a' -> ty = ty' /\ a = a'.
Proof. destruct ty, ty'; cbn; intros [= ->]; auto. Qed.
Lemma calls_attempt i d n b b' f : run c (b_ops b) = Some (b_port b) -> calls_ok b -> In n (entered (b_kops b)) -> attempt v i d n b = Some (b', f) -> calls_ok b'.
Proof.
  intros R H I E. destruct (attempt_spec _ _ _ _ _ _ _ E) as [FR [AT REST]]. destruct FR as [_ [_ [_ [_ [_ [_ [_ F8]]]]]]].
  assert (MONO : incl (b_att b) (b_att b')) by (rewrite AT; intros z Iz; apply in_app_iff; auto).
  assert (OLD : forall l1 ty a l2, b_ops b = l1 ++ order_call ty a :: l2 -> exists n, In n (entered (b_kops b')) /\ made_for b' ty a n /\
    exists p p' x, run c l1 = Some p /\ send c ty a p = Ret p' x /\ (exit_of n -> a_shares a <= shares_held p (closing ty) (n_sym n))).
  { intros l1 ty a l2 J'. destruct (H l1 ty a l2 J') as [m [I1 [M P]]]. exists m. rewrite F8. split; auto. split; auto. eapply made_for_mono; eauto. }
  intros l1 ty a l2 J. destruct REST as [[_ [O _]]|[a0 [x [S [F O]]]]]; rewrite O in J; [eapply OLD; eauto|].
  apply snoc_split in J. destruct J as [[_ [-> J]]|[l3 [_ J]]]; [|eapply OLD; eauto].
  assert (J2 : order_call (n_type n) (if f then a0 else unstopped a0) = order_call ty a) by (rewrite J; destruct (n_type n); reflexivity).
  apply order_call_inv in J2. destruct J2 as [<- <-]. exists n. rewrite F8. split; auto.
  destruct S as [S1 S2 S3 S4 S5 S6 [price [_ [_ [sh [CL SL]]]]] S7].
  split; [constructor; auto|].
  - destruct f; cbn; auto.
  - destruct f; cbn; auto.
  - destruct f; cbn; auto.
  - destruct f; cbn; auto.
  - intro N0. assert (X : a_shares (if f then a0 else unstopped a0) = a_shares a0) by (destruct f; reflexivity). rewrite X.
    destruct (clamp_le _ _ _ _ CL) as [L1 L2]. pose proof (get_shares_le _ N0) as L3.
    assert (POS : 0 <= get_shares v (n_shares n)).
    { unfold get_shares. destruct (c_fractional (v_cfg v)); auto. now apply Qtrunc_nonneg. }
    assert (POS2 : 0 <= sh) by (revert CL L2; unfold clamp_exit; destruct (n_exit n); [intros _ [L2 _]; lra|intros [= <-] _; auto]).
    pose proof (slip_le _ _ _ _ _ _ SL POS2). lra.
  - exists f. split; [|destruct f; [discriminate|reflexivity]].
    assert (X : a_date (if f then a0 else unstopped a0) = d) by (destruct f; auto). rewrite X.
    unfold attempts. rewrite AT, filter_app, map_app. apply in_app_iff. right. cbn [filter fst]. rewrite Nat.eqb_refl. left. reflexivity.
  - exists (b_port b), (b_port b'), x. split; auto. split.
    { rewrite CFG in S7. rewrite F. destruct x as [ord|]; cbn [given]; [exact S7|]. now apply send_unstopped. }
    intro X. assert (Y : a_shares (if f then a0 else unstopped a0) = a_shares a0) by (destruct f; reflexivity). rewrite Y.
    destruct (clamp_le _ _ _ _ CL) as [_ L2]. rewrite X in L2. pose proof (slip_le _ _ _ _ _ _ SL). lra.
Qed.
Lemma not_order o : loop_op o -> forall ty a, o <> order_call ty a.
Proof. intros L ty a ->. destruct ty; exact L. Qed.
Lemma calls_kop k b : (match k with KAdd _ => False | _ => True end) \/ (exists a, k = KAdd a) -> calls_ok b -> calls_ok (set_pend k b).
Proof.
  intros H. apply calls_same; auto; [|intros x; auto]. intros n I. unfold set_pend. cbn [b_kops]. rewrite entered_snoc.
  destruct k; cbn [entered_step]; auto. apply in_app_iff. auto.
Qed.
Lemma calls_settle i d n b b' : from_orders b -> get (n_id n) (b_pend b) = Some n -> attempt_and_settle v i d n b = Some b' -> from_orders b'.
Proof.
  intros [[C R] H] G E. split; [exact (refined_attempt v c CFG i d n b b' (conj C R) G E)|]. unfold attempt_and_settle in E.
  destruct (attempt v i d n (set_pend (KMark (n_id n)) b)) as [[b1 f]|] eqn:A; [|discriminate].
  assert (X : calls_ok b1).
  { eapply calls_attempt; [| | |exact A]; [exact R|apply calls_kop; auto|]. unfold set_pend. cbn [b_kops]. rewrite entered_snoc. cbn [entered_step].
    apply live_entered. now apply (get_In b (n_id n) n C). }
  destruct (f || negb (is_persistent_limit n)); injection E as <-; auto. apply calls_kop; auto.
Qed.
Lemma from_orders_backtest b b' : from_orders b -> backtest v b = Some b' -> from_orders b'.
Proof.
  apply (backtest_pres v from_orders (fun _ => from_orders)); auto.
  - intros w x b0 [[C R] H]. split; [split; [now apply core_sched|destruct w; exact R]|]. apply (calls_same b0); auto; destruct w; auto; intros x0; auto.
  - intros e b0 [[C R] H]. split; [split; [now apply core_ends|exact R]|]. apply (calls_same b0); auto; intros x0; auto.
  - intros x b0 [[C R] H]. split; [split; [now apply core_ctx|exact R]|]. apply (calls_same b0); auto; intros x0; auto.
  - intros o b0 b1 [R H] L E. split; [eapply refined_op; eauto|]. unfold do_op in E. destruct (step (v_cfg v) o (b_port b0)) as [p u|]; [|discriminate].
    injection E as <-. apply (calls_same b0); auto; [intros x0; auto|]. right. exists o. split; [reflexivity|]. now apply not_order.
  - intros k b0 [[C R] H] L. split; [split; [apply kstate_set; auto; intros j ->; destruct L|exact R]|]. apply calls_kop; auto. left. destruct k; auto.
  - intros. eapply calls_settle; eauto.
  - intros d x l cs bs ss n b0 [[C R] H] _. split; [split; [now apply core_ctx|exact R]|]. apply (calls_same b0); auto; intros x0; auto.
  - intros d k w r l b0 b1 [R H] E. split; [exact (refined_schedule v c d k w r b0 b1 R E)|].
    destruct (schedule_order_spec _ _ _ _ _ _ _ E) as [->|[date [iw [a [_ [_ ->]]]]]]; auto.
    apply (calls_same b0); auto.
    + intros n I. assert (Y : In n (entered (b_kops b0 ++ [KAdd a]))) by (rewrite entered_snoc; cbn [entered_step]; apply in_app_iff; auto).
      cbn zeta. destruct iw; [destruct w|]; exact Y.
    + cbn zeta. destruct iw; [destruct w|]; intros x0; auto.
    + cbn zeta. left. destruct iw; [destruct w|]; auto.
  - intros b0 i n [[C _] _]. now apply core_get.
  - intros b0 [[C _] _]. exact C.
  - intros b0 [[C R] H]. split; [split; [now apply core_start|exact R]|]. apply (calls_same b0); auto; intros x0; auto.
Qed.
End Calls.
Lemma backtests_calls c l k b : windows_ok c l -> backtests l (fresh c k) = Some b -> from_orders c b.
Proof.
  intros W E. revert E. apply (backtests_pres (from_orders c) c l); auto.
  - intros v b0 b1 _ CF _. exact (from_orders_backtest c v CF b0 b1).
  - split; [apply refined_fresh|]. intros l1 ty a l2 X. destruct l1; discriminate.
Qed.

(** ** C24 *)
(** A signalled order is scheduled exactly when the bar it is for exists. *)
Lemma schedule_complete v d k w r b : env_ok v -> In (r_sym r) (v_syms v) ->
  nth_error (v_sdates v (r_sym r)) (end_of b (r_sym r) - 1) = Some d -> (r_buy r <> None \/ r_sell r <> None) ->
  (exists x b' n, bars_later (calendar v (r_sym r)) d k x /\ schedule_order v d k w (Some b) r = Some b' /\
     entered (b_kops b') = entered (b_kops b) ++ [n] /\ n_sym n = r_sym r /\ n_created n = d /\ n_exec n = x /\
     n_type n = result_side r) \/
  (forall x, ~ bars_later (calendar v (r_sym r)) d k x) /\ schedule_order v d k w (Some b) r = Some b.
Proof.
  intros EO T N ONE. pose proof (exec_date_cur v EO (r_sym r) (end_of b (r_sym r)) d k T N) as X. unfold schedule_order.
  destruct (exec_date v (r_sym r) (end_of b (r_sym r)) k) as [[x iw]|]; [left|right; auto].
  destruct (to_add r d x (end_of b (r_sym r) + k)) as [a|] eqn:A.
  2: { exfalso. revert A. unfold to_add. destruct (r_buy r); [discriminate|]. destruct (r_sell r); [discriminate|]. destruct ONE; congruence. }
  destruct (to_add_some _ _ _ _ _ A) as [A1 [A2 [A3 A4]]].
  assert (A5 : d_type a = result_side r).
  { revert A. unfold to_add, result_side. destruct (r_buy r); [intros [= <-]; auto|]. destruct (r_sell r); [|discriminate]. intros [= <-]. auto. }
  exists x. eexists. exists (with_id (S (length (entered (b_kops b)))) a). split; [apply X|]. split; [reflexivity|].
  split; [|cbn; auto]. assert (Y : entered (b_kops b ++ [KAdd a]) = entered (b_kops b) ++ [with_id (S (length (entered (b_kops b)))) a]) by apply entered_snoc.
  destruct iw; [destruct w|]; exact Y.
Qed.
Lemma created_before_exec v n : env_ok v -> born1 v n -> (n_created n < n_exec n)%Z.
Proof.
  intros EO [S [I BL]]. assert (D : (1 <= delay v (n_type n))%nat) by (destruct (n_type n); apply EO).
  assert (A : ascending (calendar v (n_sym n))).
  { unfold calendar. destruct (v_master v) as [m|] eqn:M; [apply (eo_master v EO m (n_sym n) M S)|apply (eo_sdates v EO (n_sym n) S)]. }
  eapply bars_later_lt; eauto.
Qed.
Lemma windows_env c l v : windows_ok c l -> In v l -> env_ok v /\ v_cfg v = c.
Proof. induction l as [|w l IH]; [intros _ []|]. intros [E [C [_ W]]] [<-|I]; auto. Qed.
Lemma own_ascending c l s : windows_ok c l -> ascending (own_bars l s).
Proof.
  induction l as [|v l IH]; [intros _; exact I|]. intros [EO [_ [L W]]]. unfold own_bars. cbn [flat_map]. apply ascending_join.
  - apply (window_facts v EO s).
  - now apply IH.
  - intros x y Ix Iy. unfold own_bars in Iy. apply in_flat_map in Iy. destruct Iy as [w [Iw Iy]]. rewrite Forall_forall in L.
    apply (L w Iw x y); [exact (proj2 (window_facts v EO s) x Ix)|]. destruct (windows_env _ _ w W Iw) as [EW _]. exact (proj2 (window_facts w EW s) y Iy).
Qed.
