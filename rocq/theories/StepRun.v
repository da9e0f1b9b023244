(** The calls of a bar, over a whole run. *)
From Verif Require Export StepDates.

Lemma window_in c l1 v l2 : windows_ok c (l1 ++ v :: l2) -> windows_ok c l1 /\ env_ok v /\ v_cfg v = c.
Proof.
  intro W. induction l1 as [|u l1 IH]; cbn [app windows_ok] in *; [tauto|]. destruct W as [A [B [C E]]]. destruct (IH E) as [I1 I2].
  split; auto. split; auto. split; auto. split; auto. apply Forall_app in C. tauto.
Qed.
Lemma ends_start v b : ends_ok v [] (start v b).
Proof. intro s. unfold end_of, seen. cbn. unfold window_bars. destruct (nmem s (v_syms v)); [|reflexivity]. induction (v_sdates v s); auto. Qed.
(** All calls of the bars [mid], in turn. *)
Lemma bars_log v rest : env_ok v -> forall mid pre b b', v_dates v = pre ++ mid ++ rest -> ends_ok v pre b -> bars_from v (length pre) mid b = Some b' ->
  ends_ok v (pre ++ mid) b' /\ exists calls, b_ops b' = b_ops b ++ concat calls /\
    Forall2 calls_of (map (fun x => (v, fst x, snd x)) (combine (seq (length pre) (length mid)) mid)) calls.
Proof.
  intros EO. induction mid as [|d mid IH]; intros pre b b' D EN E; cbn [bars_from] in E.
  - injection E as <-. rewrite app_nil_r. split; auto. exists []. split; [now rewrite app_nil_r|constructor].
  - destruct (bar v (length pre) d b) as [b1|] eqn:B; [|discriminate]. cbn [bind] in E. destruct (bar_log v EO pre d (mid ++ rest) D (length pre) b b1 EN B) as [E1 [calls [O1 C1]]].
    replace (S (length pre)) with (length (pre ++ [d])) in E by (rewrite app_length; cbn; lia).
    destruct (IH (pre ++ [d]) b1 b') as [E2 [cs [O2 C2]]]; auto; [rewrite <- app_assoc; exact D|]. rewrite <- app_assoc in E2. split; [exact E2|].
    exists (calls :: cs). split; [cbn [concat]; now rewrite O2, O1, <- app_assoc|]. cbn [length seq combine map fst snd]. constructor; [exact C1|].
    rewrite app_length, Nat.add_1_r in C2. exact C2.
Qed.
Lemma bar_steps c k l v i d b b' : windows_ok c l -> bar_of c k l v i d b b' -> exists calls, b_ops b' = b_ops b ++ calls /\ bar_calls v i d calls.
Proof.
  intros W [l1 [l2 [b0 [pre [rest [-> [B0 [D [-> [B1 B2]]]]]]]]]]. destruct (window_in _ _ _ _ W) as [_ [EO _]].
  destruct (bars_log v (d :: rest) EO pre [] (start v b0) b D (ends_start v b0) B1) as [E1 _].
  now destruct (bar_log v EO pre d rest D (length pre) b b' E1 B2).
Qed.
Lemma run_steps c l : windows_ok c l -> forall b b', backtests l b = Some b' ->
  exists calls, b_ops b' = b_ops b ++ concat calls /\ Forall2 calls_of (all_bars l) calls.
Proof.
  induction l as [|v l IH]; intros W b b'; cbn [backtests].
  - intros [= <-]. exists []. split; [now rewrite app_nil_r|constructor].
  - destruct W as [EO [_ [_ W]]]. destruct (backtest v b) as [b1|] eqn:E; [|discriminate]. intro R. destruct (IH W _ _ R) as [c2 [O2 F2]].
    unfold backtest in E. destruct (bars_log v [] EO (v_dates v) [] (start v b) b1) as [_ [c1 [O1 F1]]]; auto; [now rewrite app_nil_r|apply ends_start|].
    exists (c1 ++ c2). split; [rewrite O2, O1, concat_app, <- app_assoc; reflexivity|]. apply Forall2_app; assumption.
Qed.
Lemma all_bars_in l v i d : In (v, i, d) (all_bars l) -> In v l /\ nth_error (v_dates v) i = Some d.
Proof.
  intro I. apply in_flat_map in I. destruct I as [w [Iw I]]. apply in_map_iff in I. destruct I as [[j e] [X I]]. injection X as -> -> ->. split; auto.
  assert (G : forall (m : list Z) n, In (i, d) (combine (seq n (length m)) m) -> exists q, i = (n + q)%nat /\ nth_error m q = Some d).
  { induction m as [|x m IH]; intros n J; cbn in J; [contradiction|]. destruct J as [J|J].
    - injection J as -> ->. exists 0%nat. split; [lia|reflexivity].
    - destruct (IH _ J) as [q [E Q]]. exists (S q). split; [lia|exact Q]. }
  destruct (G _ _ I) as [q [-> Q]]. exact Q.
Qed.
Lemma steps_of l calls x : Forall2 calls_of (all_bars l) calls -> In x calls ->
  exists v i d, In v l /\ nth_error (v_dates v) i = Some d /\ bar_calls v i d x.
Proof.
  intros F I. remember (all_bars l) as m eqn:E. assert (S : incl m (all_bars l)) by (rewrite E; apply incl_refl). clear E.
  induction F as [|[[v i] d] y m ys H F IH]; [contradiction|]. destruct I as [->|I].
  - exists v, i, d. destruct (all_bars_in l v i d) as [A B]; [apply S; now left|]. auto.
  - apply IH; auto. intros z Z. apply S. now right.
Qed.
Lemma has_bar_own l v s d : In v l -> has_bar v s d -> In d (own_bars l s).
Proof.
  intros I [A B]. unfold own_bars. apply in_flat_map. exists v. split; auto. unfold window_bars. now rewrite (proj2 (nmem_syms v s) A).
Qed.
Lemma calls_dated c l k b : windows_ok c l -> backtests l (LoopModel.fresh c k) = Some b -> Forall (call_dated (fun s d => In d (own_bars l s))) (b_ops b).
Proof.
  intros W E. apply Forall_forall. intros o I.
  assert (TRY : forall ty a, o = order_call ty a -> In (a_date a) (own_bars l (a_sym a))).
  { intros ty a ->. destruct (call_origin c l k b ty a W E I) as [n [I1 [M _]]]. destruct (order_origin c l k b n W E I1) as [_ [_ [_ [_ [_ [_ AT]]]]]].
    destruct (mf_att _ _ _ _ M) as [f [J _]]. destruct (AT _ _ J) as [_ X]. rewrite (mf_sym _ _ _ _ M). exact X. }
  destruct o as [a|a|d s bf sf sm|d sc sm|d f|h|id|t ty|ml ms]; try exact Logic.I; [exact (TRY OBuy a eq_refl)|exact (TRY OSell a eq_refl)| |];
    destruct (run_steps c l W _ _ E) as [calls [O F]]; cbn [LoopModel.fresh b_ops app] in O; rewrite O in I; apply in_concat in I; destruct I as [x [Ix I]];
    destruct (steps_of l calls x F Ix) as [v [i [e [Iv [_ [sc0 [tried [f [gone [exits [hb [-> [C1 [_ [_ [FT [_ [_ [FG [_ [EX _]]]]]]]]]]]]]]]]]]]]];
    cbn [call_dated]; rewrite Forall_forall in FT, FG; destruct I as [I|I]; [discriminate| |injection I as <- <- _; intros s H; apply C1 in H; eapply has_bar_own; eauto; tauto|].
  - apply in_app_iff in I. destruct I as [I|[I|I]]; [destruct (FT _ I) as [[] [a [X _]]]; discriminate|discriminate|].
    apply in_app_iff in I. destruct I as [I|I]; [destruct (FG _ I)|]. apply in_app_iff in I. destruct I as [I|[I|[]]]; [|discriminate].
    apply in_map_iff in I. destruct I as [y [X Iy]]. injection X as <- <- _ _. apply EX in Iy. destruct Iy as [Iy _]. eapply has_bar_own; eauto.
  - exfalso. apply in_app_iff in I. destruct I as [I|[I|I]]; [destruct (FT _ I) as [[] [a [X _]]]; discriminate|discriminate|].
    apply in_app_iff in I. destruct I as [I|I]; [destruct (FG _ I)|]. apply in_app_iff in I. destruct I as [I|[I|[]]]; [|discriminate].
    apply in_map_iff in I. destruct I as [y [X Iy]]. discriminate.
Qed.
Lemma all_dated c l k b : cfg_ok c -> windows_ok c l -> backtests l (LoopModel.fresh c k) = Some b -> dated (fun s d => In d (own_bars l s)) (b_port b).
Proof.
  intros K W E. destruct (backtest_history c l k b W E) as [R [S _]]. apply (run_dated _ c K (b_ops b)); auto. now apply (calls_dated c l k).
Qed.

(** ** Positions at their exit date *)
Lemma exits_flat c v i d : cfg_ok c -> v_cfg v = c -> forall l b b', fold_left (do_exit v i d) l (Some b) = Some b' -> refined c b ->
  refined c b' /\ forall sd s, (In s l -> position_of (b_port b') sd s = None) /\ (position_of (b_port b) sd s = None -> position_of (b_port b') sd s = None).
Proof.
  intros K CF. induction l as [|x l IH]; intros b b' E RF; cbn [fold_left] in E.
  - injection E as <-. split; auto. intros sd s. cbn. tauto.
  - unfold do_exit at 2 in E. cbn [bind] in E. destruct (do_op v _ b) as [b1|] eqn:E1; [|now rewrite exit_none in E].
    assert (RF1 : refined c b1) by (eapply refined_op; eauto). destruct (IH _ _ E RF1) as [RF2 H]. split; auto.
    unfold do_op in E1. cbn [step] in E1. rewrite CF in E1. destruct RF as [_ R].
    pose proof (exit_flat_total c _ (b_port b) d x (fst (v_exit_fill v i x)) (snd (v_exit_fill v i x)) (v_sm v i) K R) as T.
    destruct (exit_position _ _ _ _ _ _ _) as [p u|]; [|discriminate]. destruct T as [T1 [T2 _]].
    assert (P : b_port b1 = p) by (now injection E1 as <-). intros sd s. destruct (H sd s) as [H1 H2]. rewrite P in H2. split.
    + intros [<-|I]; auto.
    + intro N. apply H2. destruct (Nat.eq_dec s x) as [->|NE]; auto. now rewrite T2.
Qed.
Lemma incr_flat hb p sd s : position_of p sd s = None -> position_of (incr_bars hb p) sd s = None.
Proof.
  unfold position_of. intro N. rewrite incr_poss, mapv_get, N. reflexivity.
Qed.
Lemma decide_flat c v i d act exits b b' : cfg_ok c -> v_cfg v = c -> refined c b -> decide v i d act exits b = Some b' ->
  forall sd s, In s exits -> position_of (b_port b') sd s = None.
Proof.
  intros K CF RF. unfold decide. cbv zeta. set (u := v_user _ _ _ _ _ _).
  destruct (fold_left (do_cancel v) (u_cancel u) (Some b)) as [b1|] eqn:C1; [|discriminate]. pose proof (refined_cancel v c CF _ _ _ RF C1) as RF1.
  cbn [bind]. destruct (rotate _ _ _ _) as [x2|]; [|discriminate]. destruct (collect _ _ _ _) as [[[[cs bs] ss] n]|]; [|discriminate].
  set (b2 := set_ctx _ n b1). assert (RF2 : refined c b2) by (destruct RF1 as [A1 A2]; split; [now apply core_ctx|exact A2]).
  assert (SC : forall kk w l x y, refined c x -> fold_left (schedule_order v d kk w) l (Some x) = Some y -> refined c y).
  { intros kk w l. induction l as [|r l IH]; intros x y Rx E; cbn [fold_left] in E; [now injection E as <-|].
    destruct (schedule_order v d kk w (Some x) r) as [z|] eqn:Z; [|now rewrite schedule_none in E]. apply (IH z); auto. exact (refined_schedule v c d kk w r x z Rx Z). }
  destruct (fold_left (schedule_order v d (v_buy_delay v) WCover) cs (Some b2)) as [b3|] eqn:E3; [|rewrite !schedule_none, exit_none; discriminate].
  destruct (fold_left (schedule_order v d (v_buy_delay v) WBuy) bs (Some b3)) as [b4|] eqn:E4; [|rewrite schedule_none, exit_none; discriminate].
  destruct (fold_left (schedule_order v d (v_sell_delay v) WSell) ss (Some b4)) as [b5|] eqn:E5; [|rewrite exit_none; discriminate].
  destruct (fold_left (do_exit v i d) exits (Some b5)) as [b6|] eqn:E6; [|discriminate]. cbn [bind]. intro E7.
  destruct (exits_flat c v i d K CF _ _ _ E6) as [_ H]; [eapply SC; [|exact E5]; eapply SC; [|exact E4]; eapply SC; [|exact E3]; exact RF2|].
  intros sd s I. destruct (H sd s) as [H1 _]. unfold do_op in E7. cbn [step] in E7. injection E7 as <-. cbn [b_port]. apply incr_flat. auto.
Qed.
Lemma bar_flat c k l v i d b b' s sd : cfg_ok c -> windows_ok c l -> bar_of c k l v i d b b' -> exits_on v s d -> position_of (b_port b') sd s = None.
Proof.
  intros K W B X. pose proof (bar_refined _ _ _ _ _ _ _ _ W B) as [EO [CF RF]]. destruct B as [l1 [l2 [b0 [pre [rest [-> [B0 [D [-> [B1 B2]]]]]]]]]].
  destruct (bars_log v (d :: rest) EO pre [] (start v b0) b D (ends_start v b0) B1) as [EN _].
  unfold bar in B2. pose proof (activate_spec v EO pre d rest D b EN) as A.
  pose proof (activate_exits v pre d rest D (filter (trades_on v d) (v_syms v)) (b_ends b) [] [] (NoDup_filter _ (eo_syms v EO))) as Y. fold (activate v d b) in Y.
  destruct (activate v d b) as [[e act] ex]. destruct Y as [new [-> [ND H]]]. cbn [app] in B2.
  set (b1 := set_ctx _ _ _) in B2. destruct (settle v (length pre) d b1) as [b2|] eqn:E1; [|discriminate]. cbn [bind] in B2.
  assert (RF1 : refined c b1) by (destruct RF as [R1 R2]; split; [apply core_ctx, core_ends, R1|exact R2]).
  assert (RF2 : refined c b2) by (eapply refined_settle; eauto).
  eapply decide_flat; eauto. destruct X as [HB [WU XD]]. apply H. pose proof (bars_to_seen v EO pre d rest D s HB) as BT. rewrite BT in WU.
  cbn [app] in EN. specialize (EN s). unfold end_of in EN. split; [|split; auto].
  - apply filter_In. split; [apply HB|]. apply bar_at_has in HB. unfold bar_at in HB. apply andb_true_iff in HB. tauto.
  - revert WU. rewrite <- EN. auto.
Qed.
