(** Proofs for C112 on backtests. *)
From Verif Require Export TotalLoopSpec TotalProofs LoopRun TotalRotate.

Definition sound_order (n : pending) : Prop :=
  0 <= n_shares n /\ (forall l, n_limit n = Some l -> 0 < l) /\ sane_fill (n_fill n) /\ (forall st, In st (pstops n) -> usable_stop st).
Definition sound_result (r : result) : Prop :=
  (forall q, r_buy r = Some q -> 0 <= q) /\ (forall q, r_sell r = Some q -> 0 <= q) /\
  (forall l, r_blimit r = Some l -> 0 < l) /\ (forall l, r_slimit r = Some l -> 0 < l) /\
  sane_fill (r_bfill r) /\ sane_fill (r_sfill r) /\ (forall st, In st (result_stops r) -> usable_stop st).

(** ** The stops of a result *)
Lemma price_stop_not_bar s ty sd po pe li ex n l n' st : ty <> SBar -> price_stop s ty sd po pe li ex n = Some (l, n') -> In st l -> st_type st <> SBar.
Proof.
  intros N E I. unfold price_stop in E.
  assert (X : forall a b, match create_stop s ty sd a b None None li ex n with Some (st, n') => Some ([st], n') | None => None end = Some (l, n') -> st_type st <> SBar).
  { intros a b. unfold create_stop. destruct (match ty with SBar => _ | _ => _ end) as [[pc pt]|]; [|discriminate].
    destruct ex as [[t|]|]; try discriminate; intros [= <- <-]; destruct I as [<-|[]]; exact N. }
  destruct po, pe; try discriminate; eauto. destruct li, ex; try discriminate. injection E as <- <-. destruct I.
Qed.
Lemma bar_stop_made s g n ls ss n' st : get_stops s g n = Some (ls, ss, n') ->
  (forall f, g_bfill g = Some f -> sane_fill f) -> (forall f, g_sfill g = Some f -> sane_fill f) ->
  In st (match ls with Some l => l | None => [] end) \/ In st (match ss with Some l => l | None => [] end) ->
  st_type st = SBar -> (exists k, st_bars st = Some k) /\ forall f, st_fill st = Some f -> sane_fill f.
Proof.
  intros E HB HS I Et. unfold get_stops in E.
  destruct (match g_bshares g with Some _ => Some Long | None => match g_sshares g with Some _ => Some Short | None => None end end) as [sd|];
    [|injection E as <- <- <-; destruct I as [[]|[]]].
  cbv zeta in E.
  destruct (match g_hold g with Some h => _ | None => _ end) as [[l0 n0]|] eqn:H0; [|discriminate].
  destruct (price_stop s SLoss _ _ _ _ _ n0) as [[l1 n1]|] eqn:H1; [|discriminate].
  destruct (price_stop s SProfit _ _ _ _ _ n1) as [[l2 n2]|] eqn:H2; [|discriminate].
  destruct (price_stop s STrailing _ _ _ _ _ n2) as [[l3 n3]|] eqn:H3; [|discriminate].
  assert (J : In st (l0 ++ l1 ++ l2 ++ l3)) by (destruct sd; injection E as <- <- <-; destruct I as [I|I]; auto; destruct I).
  rewrite !in_app_iff in J. destruct J as [J|[J|[J|J]]].
  - destruct (g_hold g) as [h|]; [|injection H0 as <- <-; destruct J]. destruct (Z.leb h 0); [discriminate|]. cbn in H0.
    injection H0 as <- <-. destruct J as [<-|[]]. cbn. split; [eauto|]. intros f [= <-].
    destruct sd; [destruct (g_sfill g)|destruct (g_bfill g)]; cbn; auto.
  - exfalso. eapply (price_stop_not_bar _ _ _ _ _ _ _ _ _ _ st) in H1; eauto; discriminate.
  - exfalso. eapply (price_stop_not_bar _ _ _ _ _ _ _ _ _ _ st) in H2; eauto; discriminate.
  - exfalso. eapply (price_stop_not_bar _ _ _ _ _ _ _ _ _ _ st) in H3; eauto; discriminate.
Qed.
Lemma result_sound s d rot rot' g n r n' : clean_signals rot' g -> to_result s d rot g n = OResult r n' -> sound_result r.
Proof.
  intros [C1 C2 C3 C4 C5 C6 C7 C8] E. pose proof (to_result_ok _ _ _ _ _ _ _ E) as [_ [_ [_ R]]].
  assert (ST : forall st, In st (result_stops r) -> stop_sized st).
  { intros st I. pose proof (md_sym _ _ _ _ _ _ (ro_stops _ _ _ _ _ _ R)) as M. rewrite Forall_forall in M. apply M, I. }
  destruct R as [R1 R2 R3 R4 R5 R6 R7 R8 R9 _ _ _ _ _ _ _]. unfold sound_result. rewrite R4, R5, R6, R7.
  split; [exact C3|]. split; [exact C4|]. split; [|split; [|split; [|split]]].
  - intros l El. rewrite El in R8. apply C5. now rewrite <- R8.
  - intros l El. rewrite El in R9. apply C6. now rewrite <- R9.
  - destruct (g_bfill g); [auto|exact I].
  - destruct (g_sfill g); [auto|exact I].
  - intros st J. split; [auto|]. unfold to_result in E.
    repeat match type of E with (if ?y then _ else _) = _ => destruct y; try discriminate end.
    destruct (finite_limit (g_blimit g)); [|discriminate]. destruct (finite_limit (g_slimit g)); [|discriminate].
    destruct (get_stops s g n) as [[[ls ss] n1]|] eqn:G; [|discriminate]. injection E as <- <-.
    apply (bar_stop_made _ _ _ _ _ _ st G C7 C8). unfold result_stops in J. cbn in J. destruct (g_bshares g); auto.
Qed.

Section Window.
Variable v : env.
Variable c : cfg.
Hypothesis CFG : v_cfg v = c.
Hypothesis K : cfg_ok c.
Hypothesis T : tame v.

Record inv (rs : list result) (b : bstate) : Prop := mkInv {
  in_stop : stop_inv rs b;
  in_ref : refined c b;
  in_live : Forall sound_order (live (b_kops b));
  in_ops : forall o st, In o (b_ops b) -> In st (op_stops o) -> usable_stop st;
  in_res : Forall sound_result rs
}.

Lemma inv_core b : inv [] b -> core b. Proof. intro H. apply (si_core _ _ (in_stop _ _ H)). Qed.
Lemma inv_port b : inv [] b -> run c (b_ops b) = Some (b_port b) /\ stops_wf (b_ops b) /\ Good c (b_port b).
Proof.
  intros [H1 [_ H2] _ _ _]. split; auto. split; [|exact (run_good _ _ _ K H2)]. split; [|exact (si_ops _ _ H1)].
  pose proof (si_ids _ _ H1) as N. unfold stop_ids in N. rewrite map_app in N. eapply NoDup_app_left; eauto.
Qed.
Lemma inv_frame rs b b' : inv rs b -> core b' -> b_kops b' = b_kops b -> b_ops b' = b_ops b -> b_stop b' = b_stop b -> b_port b' = b_port b -> inv rs b'.
Proof.
  intros [H1 [C R] H3 H4 H5] C' E1 E2 E3 E4. constructor; auto.
  - eapply stop_inv_same; eauto. now rewrite E1.
  - split; auto. now rewrite E2, E4.
  - now rewrite E1.
  - now rewrite E2.
Qed.
Lemma inv_op rs o b b' : inv rs b -> loop_op o -> do_op v o b = Some b' -> inv rs b'.
Proof.
  intros [H1 H2 H3 H4 H5] L E. constructor; auto.
  - eapply stop_inv_op; eauto.
  - eapply refined_op; eauto.
  - unfold do_op in E. destruct (step _ _ _); [|discriminate]. now injection E as <-.
  - unfold do_op in E. destruct (step _ _ _); [|discriminate]. injection E as <-. cbn [b_ops set_port].
    intros x st I. apply in_app_iff in I. destruct I as [I|[<-|[]]]; [eauto|]. destruct (op_stops_loop o L) as [-> _]. intros [].
Qed.
Lemma inv_kop rs k b : inv rs b -> loop_kop k -> inv rs (set_pend k b).
Proof.
  intros [H1 [C R] H3 H4 H5] L. constructor; auto.
  - now apply stop_inv_kop.
  - split; auto. apply kstate_set; auto. intros j ->. destruct L.
  - cbn [b_kops set_pend]. destruct (live_filtered (b_kops b) k L) as [f ->]. now apply Forall_filter.
Qed.

(** *** Calls on the account *)
Lemma quiet_total o b : match o with OpCapture _ _ | OpIncr _ | OpRemoveStop _ | OpRemoveStops _ _ => True | _ => False end ->
  inv [] b -> exists b', do_op v o b = Some b' /\ inv [] b'.
Proof.
  intros L H. assert (LO : loop_op o) by (destruct o; try contradiction; exact I).
  assert (X : exists b', do_op v o b = Some b') by (destruct o; try contradiction; cbn; eauto).
  destruct X as [b' E]. exists b'. split; auto. eapply inv_op; eauto.
Qed.
Lemma stops_total i d b b0 : inv [] b -> exists b', do_op v (OpCheckStops d (scope_on v b0 i d) (v_sm v i)) b = Some b' /\ inv [] b'.
Proof.
  intro H. destruct (inv_port b H) as [R [W G]].
  destruct (checked_total c (b_ops b) (b_port b) d (scope_on v b0 i d) (v_sm v i) K R W (in_ops _ _ H)) as [p E].
  { intros s C. cbn in C. apply andb_true_iff in C. exact (tm_scope _ T i s (proj2 C)). }
  assert (X : do_op v (OpCheckStops d (scope_on v b0 i d) (v_sm v i)) b = Some (set_port p (OpCheckStops d (scope_on v b0 i d) (v_sm v i)) b)).
  { unfold do_op. cbn [step]. rewrite CFG, E. reflexivity. }
  eexists. split; [exact X|]. eapply inv_op; eauto. exact I.
Qed.
Lemma exit_total_loop i d s b : inv [] b -> exists b', do_op v (OpExit d s (fst (v_exit_fill v i s)) (snd (v_exit_fill v i s)) (v_sm v i)) b = Some b' /\ inv [] b'.
Proof.
  intro H. destruct (inv_port b H) as [R [W G]]. destruct (tm_exit _ T i s) as [B S]. pose proof (tm_exit_slip _ T i) as SL.
  assert (L : forall o price q, Good c q -> 0 < price -> exists q', leg c d s o price (v_sm v i) q = Ret q' tt).
  { intros o price q Gq Hp. unfold leg. destruct (aget s (poss (closes o) q)) as [pos|] eqn:E; [|eauto].
    assert (F : exists f, slip_price (v_sm v i) o s (ps_shares pos) price = Some f /\ 0 < f).
    { unfold slip_price. destruct (v_sm v i) as [f|]; [apply SL; auto|eauto]. }
    destruct F as [f [-> Hf]]. set (a := exit_args d s (ps_shares pos) f price).
    destruct (nostop_total c o a q K Gq eq_refl) as [p' [r ->]]; [|cbn; eauto].
    intros [X|[X|[l [X _]]]]; cbn in X; [|lra|discriminate].
    pose proof (po_shares _ _ _ _ (co_pos _ _ (gd_core _ _ Gq) _ _ _ E)) as Es.
    assert (0 <= Qsum (map e_shares (ps_entries pos))); [|lra]. apply Qsum_nonneg, Forall_forall. intros x Ix.
    apply in_map_iff in Ix. destruct Ix as [e [<- Ie]].
    apply Qlt_le_weak, (eo_pos _ _ _ _ (po_entries _ _ _ _ (co_pos _ _ (gd_core _ _ Gq) _ _ _ E) e Ie)). auto. }
  assert (X : exists p, exit_position c d s (fst (v_exit_fill v i s)) (snd (v_exit_fill v i s)) (v_sm v i) (b_port b) = Ret p tt).
  { rewrite exit_position_legs. destruct (L OSell (snd (v_exit_fill v i s)) (b_port b) G S) as [p1 E1]. rewrite E1.
    pose proof (leg_cases (fun _ => True) c d s OSell (snd (v_exit_fill v i s)) (v_sm v i) (b_port b) K G Logic.I (fun _ _ _ _ _ => Logic.I)) as GG. rewrite E1 in GG.
    apply L; tauto. }
  destruct X as [p E].
  assert (X : exists b', do_op v (OpExit d s (fst (v_exit_fill v i s)) (snd (v_exit_fill v i s)) (v_sm v i)) b = Some b').
  { unfold do_op. cbn [step]. rewrite CFG, E. eauto. }
  destruct X as [b' X]. exists b'. split; auto. eapply inv_op; eauto. exact I.
Qed.

(** *** Orders *)
Lemma get_shares_nonneg q : 0 <= q -> 0 <= get_shares v q.
Proof.
  intro H. unfold get_shares. destruct (c_fractional (v_cfg v)); auto. unfold Qtrunc.
  destruct (Qle_bool 0 q) eqn:B; [|apply Qle_bool_iff in H; congruence].
  assert (0 <= Qfloor q)%Z; [|change 0 with (inject_Z 0); now rewrite <- Zle_Qle].
  change 0%Z with (Qfloor 0). now apply Qfloor_resp_le.
Qed.
Lemma attempt_total i d n b : inv [] b -> get (n_id n) (b_pend b) = Some n -> exists b', attempt_and_settle v i d n b = Some b' /\ inv [] b'.
Proof.
  intros H G. destruct (inv_port b H) as [R [W GD]].
  destruct (get_In _ _ _ (inv_core b H) G) as [J _].
  pose proof (in_live _ _ H) as SL. rewrite Forall_forall in SL. destruct (SL n J) as [S1 [S2 [S3 S4]]].
  pose proof (in_stop _ _ H) as SI. pose proof (si_live _ _ SI) as SV. rewrite Forall_forall in SV. pose proof (SV n J) as SF.
  assert (FR : stops_wf (b_ops b ++ [send_op (n_type n) (mkOArgs d (n_sym n) 0 0 None (n_stops n) None OMarket None)])).
  { split.
    - pose proof (si_ids _ _ SI) as N. unfold stop_ids in N. destruct (split_live _ _ J) as [l1 [l2 [EL _]]].
      rewrite EL in N. rewrite flat_map_app in N. cbn [flat_map] in N. rewrite flat_map_app. cbn [flat_map].
      rewrite send_op_stops. cbn [a_stops]. fold (pstops n). rewrite app_nil_r in N.
      rewrite !map_app, <- ?app_assoc in N. apply nodup_sub in N. rewrite app_assoc in N. apply NoDup_app_left in N.
      now rewrite app_nil_r, map_app.
    - apply Forall_app. split; [apply W|]. constructor; [|constructor]. apply send_op_match. rewrite send_op_stops. exact SF. }
  assert (X : exists b1 f, attempt v i d n (set_pend (KMark (n_id n)) b) = Some (b1, f)).
  { unfold attempt. destruct (v_fetch v i (n_sym n) (n_fill n)) as [price|] eqn:F; [|eauto].
    pose proof (tm_fetch _ T _ _ _ _ S3 F) as HP. cbn [set_pend b_port].
    destruct (clamp_exit (b_port b) n (get_shares v (n_shares n))) as [sh|] eqn:CE; [|eauto].
    assert (SH : 0 <= sh).
    { unfold clamp_exit in CE. pose proof (get_shares_nonneg _ S1) as N0. destruct (n_exit n); [|injection CE as <-; exact N0].
      cbv zeta in CE. match type of CE with (if Qle_bool ?y 0 then _ else _) = _ => destruct (Qle_bool y 0) eqn:B; [discriminate|injection CE as <-] end.
      apply Qle_bool_false in B. lra. }
    assert (A : exists sh' fill, apply_slip v i n sh price = Some (sh', fill) /\ 0 <= sh' /\ 0 < fill).
    { unfold apply_slip. pose proof (tm_slip _ T) as TS. destruct (v_slip v) as [|f|f].
      1: exists sh, price; auto.
      1: exists sh, (f (n_type n) price); auto.
      specialize (TS i (n_type n) (n_sym n) sh price SH HP). destruct (f i (n_type n) (n_sym n) sh price) as [m y]. cbn [fst snd] in TS.
      destruct TS as [A1 [A2 A3]].
      assert (B1 : Qltb m 0 = false) by (apply Qltb_nlt; lra). assert (B2 : Qltb sh m = false) by (apply Qltb_nlt; lra).
      rewrite B1, B2. cbn [orb]. exists (get_shares v m), y. split; [reflexivity|]. split; auto. now apply get_shares_nonneg. }
    destruct A as [sh' [fill [-> [A1 A2]]]]. set (a := mkOArgs _ _ _ _ _ _ _ _ _).
    assert (E : match n_type n with OBuy => buy (v_cfg v) a (b_port b) | OSell => sell (v_cfg v) a (b_port b) end =
              send (v_cfg v) (n_type n) a (b_port b)) by (destruct (n_type n); reflexivity).
    rewrite E, CFG. clear E.
    destruct (order_total c (b_ops b) (b_port b) (n_type n) a K R) as [p' [r ->]]; [| | |eauto].
    - assert (EQ : op_stops (send_op (n_type n) a) = op_stops (send_op (n_type n) (mkOArgs d (n_sym n) 0 0 None (n_stops n) None OMarket None))) by (rewrite !send_op_stops; reflexivity).
      destruct FR as [F1 F2]. split.
      + rewrite flat_map_app in *. cbn [flat_map] in *. now rewrite EQ.
      + apply Forall_app in F2. apply Forall_app. split; [apply F2|]. constructor; [|constructor]. apply send_op_match. rewrite send_op_stops. exact SF.
    - rewrite send_op_stops. intros st I. apply (S4 st I).
    - intros [X|[X|[l [X Y]]]]; cbn in X; [lra|lra|]. apply S2 in X. lra. }
  destruct X as [b1 [f A]].
  assert (E : exists b', attempt_and_settle v i d n b = Some b') by (unfold attempt_and_settle; rewrite A; eauto).
  destruct E as [b' E]. exists b'. split; auto. constructor.
  - eapply stop_inv_attempt; eauto.
  - eapply refined_attempt; eauto. apply H.
  - unfold attempt_and_settle in E. rewrite A in E. destruct (attempt_spec _ _ _ _ _ _ _ A) as [[_ [_ [_ [_ [_ [_ [_ FK]]]]]]] _].
    assert (LM : live (b_kops b1) = live (b_kops b)) by (rewrite FK; cbn [b_kops set_pend]; rewrite live_snoc; reflexivity).
    destruct (f || negb (is_persistent_limit n)); injection E as <-; [|rewrite LM; apply H].
    cbn [b_kops set_pend]. rewrite live_snoc. cbn [live_step fst snd]. apply Forall_filter. rewrite LM. apply H.
  - unfold attempt_and_settle in E. rewrite A in E. destruct (attempt_spec _ _ _ _ _ _ _ A) as [_ [_ OP]].
    assert (OB : forall o st, In o (b_ops b1) -> In st (op_stops o) -> usable_stop st).
    { cbn [set_pend b_ops] in OP. destruct OP as [[_ [-> _]]|[a [x [SE [_ ->]]]]]; [apply H|].
      intros o st I. apply in_app_iff in I. destruct I as [I|[<-|[]]]; [apply (in_ops _ _ H o st I)|].
      rewrite send_op_stops. destruct f; [rewrite (se_stops _ _ _ _ _ _ _ _ SE); apply S4|intros []]. }
    destruct (f || negb (is_persistent_limit n)); injection E as <-; exact OB.
  - constructor.
Qed.
(** *** Parts of a bar *)
Lemma inv_sched w x b : inv [] b -> inv [] (set_sched w x b).
Proof. intro H. apply (inv_frame [] b); auto; [apply core_sched, inv_core, H|destruct w; reflexivity..]. Qed.
Lemma place_fold_total i d w l : forall b, inv [] b -> exists b', fold_left (place1 v i d w) l (Some b) = Some b' /\ inv [] b'.
Proof.
  induction l as [|r l IH]; intros b H; [cbn; eauto|]. cbn [fold_left place1].
  destruct (negb (given match w with WSell => r_sell r | _ => r_buy r end)); [apply IH; auto|].
  destruct (r_pid r) as [id|]; [|apply IH; auto]. destruct (negb (contains id (b_pend b))); [apply IH; auto|].
  destruct (get id (b_pend b)) as [n|] eqn:G; [|apply IH; auto].
  destruct (attempt_total i d n b H) as [b1 [-> H1]]; [rewrite (core_get b id n (inv_core b H) G); exact G|]. apply IH, H1.
Qed.
Lemma place_total_loop i d w now b : inv [] b -> exists b', place_if v w now i d (Some b) = Some b' /\ inv [] b'.
Proof.
  intro H. unfold place_if. destruct now; [|eauto]. unfold place_orders.
  destruct (place_fold_total i d w (zget d (get_sched w b)) b H) as [b1 [-> H1]]. eexists. split; [reflexivity|]. now apply inv_sched.
Qed.
Lemma persist_fold_total i d l : forall b, NoDup (map n_id l) -> (forall n, In n l -> In n (live (b_kops b))) -> inv [] b ->
  exists b', fold_left (persist1 v i d) l (Some b) = Some b' /\ inv [] b'.
Proof.
  induction l as [|n l IH]; intros b ND LV H; [cbn; eauto|]. cbn [fold_left persist1].
  inversion ND as [|? ? N1 N2]; subst.
  assert (LV' : forall m, In m l -> In m (live (b_kops b))) by (intros m I; apply LV; right; exact I).
  assert (NE : forall m, In m l -> n_id m <> n_id n) by (intros m I X; apply N1; rewrite <- X; now apply in_map).
  destruct (Z.ltb d (n_exec n)); [apply IH; auto|]. destruct (Z.eqb (n_exec n) d && _); [apply IH; auto|].
  destruct (negb (has_bar_on v b (n_sym n) d)); [apply IH; auto|].
  assert (GO : forall b0, inv [] b0 -> In n (live (b_kops b0)) -> (forall m, In m l -> In m (live (b_kops b0))) ->
            exists b', fold_left (persist1 v i d) l (attempt_and_settle v i d n b0) = Some b' /\ inv [] b').
  { intros b0 H0 I0 L0. pose proof (get_live b0 n (inv_core b0 H0) I0) as G0.
    destruct (attempt_total i d n b0 H0 G0) as [b1 [E H1]]. rewrite E.
    apply (IH b1); auto. intros m I. eapply settle_live; eauto. apply inv_core, H0. }
  destruct (negb (was_attempted (n_id n) (b_pend b))).
  - apply GO; auto. apply LV. left. reflexivity.
  - destruct (n_timeout n) as [t|]; [|apply IH; auto].
    assert (KA : forall m, In m (live (b_kops b)) -> In m (live (b_kops (set_pend (KAdvance (n_id n)) b)))).
    { intros m I. unfold set_pend. cbn [b_kops]. rewrite live_snoc. exact I. }
    destruct (Z.leb 0 t && _).
    + apply IH; auto; [|apply inv_kop; [apply inv_kop|]; cbn; auto]. intros m I. unfold set_pend at 1. cbn [b_kops].
      rewrite live_snoc. cbn [live_step fst snd]. apply filter_In. split; [apply KA; auto|]. apply negb_true_iff, Nat.eqb_neq. auto.
    + apply GO; [apply inv_kop; cbn; auto|apply KA, LV; left; reflexivity|]. intros m I. apply KA. auto.
Qed.
Lemma settle_total i d b : inv [] b -> exists b', settle v i d b = Some b' /\ inv [] b'.
Proof.
  intro H. unfold settle.
  assert (H0 : inv [] (sort_scheds v d b)).
  { unfold sort_scheds, sort_sched. destruct (v_sort_long v), (v_sort_short v);
    repeat match goal with |- context [zhas ?d ?s] => destruct (zhas d s) end; auto using inv_sched. }
  cbv zeta. set (b0 := sort_scheds v d b) in *. clearbody b0.
  destruct (stops_total i d b0 b0 H0) as [b1 [-> H1]].
  destruct (place_total_loop i d WCover (zhas d (b_cover b)) b1 H1) as [b2 [-> H2]].
  destruct (place_total_loop i d WSell (zhas d (b_sell b)) b2 H2) as [b3 [-> H3]].
  destruct (place_total_loop i d WBuy (zhas d (b_buy b)) b3 H3) as [b4 [-> H4]]. cbn [bind].
  assert (X : exists b5, process_persistent v i d b4 = Some b5 /\ inv [] b5).
  { unfold process_persistent. destruct (has_orders (b_pend b4)); [|eauto].
    destruct (snapshot_facts b4 (inv_core b4 H4)) as [ND IN]. apply persist_fold_total; auto. intros n I. now apply IN. }
  destruct X as [b5 [-> H5]]. cbn [bind]. apply quiet_total; auto.
Qed.
Lemma cancel_total l : forall b, inv [] b -> exists b', fold_left (do_cancel v) l (Some b) = Some b' /\ inv [] b'.
Proof.
  induction l as [|x l IH]; intros b H; [cbn; eauto|]. cbn [fold_left]. unfold do_cancel at 2. cbn [bind].
  destruct x as [i|s|i|t ty].
  - apply IH, inv_kop; cbn; auto.
  - apply IH, inv_kop; cbn; auto.
  - destruct (quiet_total (OpRemoveStop i) b Logic.I H) as [b1 [-> H1]]. apply IH, H1.
  - destruct (quiet_total (OpRemoveStops t ty) b Logic.I H) as [b1 [-> H1]]. apply IH, H1.
Qed.
Lemma exits_total i d l : forall b, inv [] b -> exists b', fold_left (do_exit v i d) l (Some b) = Some b' /\ inv [] b'.
Proof.
  induction l as [|s l IH]; intros b H; [cbn; eauto|]. cbn [fold_left]. unfold do_exit at 2. cbn [bind].
  destruct (exit_total_loop i d s b H) as [b1 [-> H1]]. apply IH, H1.
Qed.
Lemma collect_total d x : Forall (fun kv : sym * sig => clean_signals (given (z_worst (v_settings v))) (snd kv)) x -> forall cs bs ss n,
  Forall sound_result (cs ++ bs ++ ss) ->
  exists cs' bs' ss' n', fold_left (collect1 v d) x (Some (cs, bs, ss, n)) = Some (cs', bs', ss', n') /\ Forall sound_result (cs' ++ bs' ++ ss').
Proof.
  induction 1 as [|kv x C _ IH]; intros cs bs ss n F; [cbn; eauto 8|]. cbn [fold_left]. unfold collect1 at 2.
  pose proof (to_result_raises (fst kv) d (given (z_worst (v_settings v))) (snd kv) n) as RA.
  destruct (to_result (fst kv) d (given (z_worst (v_settings v))) (snd kv) n) as [| |r m] eqn:E.
  - exfalso. destruct (proj1 RA eq_refl) as [X|[X Y]]; [exact (cl_consistent _ _ C X)|exact (cl_usable _ _ C X Y)].
  - apply IH, F.
  - pose proof (result_sound _ _ _ _ _ _ _ _ C E) as SR. rewrite !Forall_app in F. destruct F as [F1 [F2 F3]].
    destruct (given (r_buy r)); [destruct (r_cover r)|]; destruct (given (r_sell r)); apply IH; rewrite !Forall_app; auto 8.
Qed.
Lemma schedule_total d k w l : forall more b, inv (l ++ more) b -> exists b', fold_left (schedule_order v d k w) l (Some b) = Some b' /\ inv more b'.
Proof.
  induction l as [|r l IH]; intros more b H; [cbn; eauto|]. cbn [fold_left app] in *.
  assert (X : exists b1, schedule_order v d k w (Some b) r = Some b1).
  { unfold schedule_order. destruct (exec_date v (r_sym r) (end_of b (r_sym r)) k) as [[date iw]|]; [|eauto].
    pose proof (si_res _ _ (in_stop _ _ H)) as SR. inversion SR as [|? ? [_ OS] _]; subst.
    unfold to_add. destruct (r_buy r); [eauto|]. destruct (r_sell r); [eauto|]. destruct OS; congruence. }
  destruct X as [b1 E]. rewrite E. apply IH. pose proof (in_res _ _ H) as FR. inversion FR as [|? ? F1 F2]; subst.
  destruct H as [H1 H2 H3 H4 H5]. constructor; auto.
  - eapply stop_inv_schedule; eauto.
  - eapply refined_schedule; eauto.
  - destruct (schedule_order_spec _ _ _ _ _ _ _ E) as [->|[date [iw [a [_ [TA ->]]]]]]; auto. cbv zeta.
    assert (L : Forall sound_order (live (b_kops b ++ [KAdd a]))).
    { rewrite live_snoc. cbn [live_step fst snd]. apply Forall_app. split; auto. constructor; [|constructor].
      destruct (to_add_facts _ _ _ _ _ TA) as [_ [_ T3]]. destruct F1 as [A1 [A2 [A3 [A4 [A5 [A6 A7]]]]]].
      split; [|split; [|split]].
      + unfold to_add in TA. destruct (r_buy r); [|destruct (r_sell r); [|discriminate]]; injection TA as <-; cbn; auto.
      + unfold to_add in TA. destruct (r_buy r); [|destruct (r_sell r); [|discriminate]]; injection TA as <-; cbn; auto.
      + unfold to_add in TA. destruct (r_buy r); [|destruct (r_sell r); [|discriminate]]; injection TA as <-; cbn; auto.
      + intros st I. apply A7. rewrite <- T3. exact I. }
    destruct iw, w; exact L.
  - destruct (schedule_order_spec _ _ _ _ _ _ _ E) as [->|[date [iw [a [_ [TA ->]]]]]]; auto. cbv zeta. destruct iw, w; exact H4.
Qed.
Lemma decide_total i d act exits b : (z_worst (v_settings v) <> None -> NoDup act) -> inv [] b -> exists b', decide v i d act exits b = Some b' /\ inv [] b'.
Proof.
  intros NA H. unfold decide. cbv zeta. set (x := map _ act). set (u := v_user v i d (b_port b) (b_pend b) x). set (x1 := map _ x).
  destruct (cancel_total (u_cancel u) b H) as [b1 [-> H1]]. cbn [bind].
  assert (CL : exists x2, rotate v i b1 x1 = Some x2 /\ Forall (fun kv : sym * sig => clean_signals (given (z_worst (v_settings v))) (snd kv)) x2).
  { destruct (inv_port b H) as [R _]. rewrite <- CFG in R.
    pose proof (fun s => tm_user _ T _ _ i d (b_pend b) x s R) as U. fold u in U.
    destruct (z_worst (v_settings v)) as [worst|] eqn:ZW; cbn [given].
    - destruct (tm_rotation _ T) as [ND [m SL]]; [congruence|]. destruct (inv_port b1 H1) as [R1 _]. rewrite <- CFG in R1.
      unfold x1, x. rewrite map_map. cbn [fst snd].
      eapply (rotate_total v i b1 act (u_sigs u)); eauto; [now rewrite CFG|apply (inv_core b1 H1)|apply NA; congruence].
    - unfold rotate. rewrite ZW. exists x1. split; [reflexivity|]. apply Forall_forall. intros kv I. unfold x1 in I.
      apply in_map_iff in I. destruct I as [y [<- _]]. apply U. }
  destruct CL as [x2 [-> CL]].
  assert (F0 : Forall sound_result ([] ++ [] ++ [])) by constructor.
  destruct (collect_total d x2 CL [] [] [] (b_stop b1) F0) as [cs [bs [ss [n [C F]]]]].
  unfold collect. rewrite C. set (b2 := set_ctx _ n b1).
  assert (H2 : inv (cs ++ bs ++ ss) b2).
  { destruct H1 as [A1 [A2 A2'] A3 A4 A5]. constructor; auto.
    - eapply stop_inv_collect; eauto.
    - split; auto. now apply core_ctx. }
  destruct (schedule_total d (v_buy_delay v) WCover cs (bs ++ ss) b2 H2) as [b3 [-> H3]].
  destruct (schedule_total d (v_buy_delay v) WBuy bs ss b3 H3) as [b4 [-> H4]].
  rewrite <- (app_nil_r ss) in H4. destruct (schedule_total d (v_sell_delay v) WSell ss [] b4 H4) as [b5 [-> H5]].
  destruct (exits_total i d exits b5 H5) as [b6 [-> H6]]. cbn [bind]. apply quiet_total; auto.
Qed.
Lemma bars_total dates : forall i b, inv [] b -> exists b', bars_from v i dates b = Some b' /\ inv [] b'.
Proof.
  induction dates as [|d dates IH]; intros i b H; cbn [bars_from]; [eauto|].
  assert (X : exists b1, bar v i d b = Some b1 /\ inv [] b1).
  { unfold bar. assert (NA : z_worst (v_settings v) <> None -> NoDup (snd (fst (activate v d b)))).
    { intro Z. destruct (tm_rotation _ T Z) as [ND _].
      pose proof (act_nodup v d (filter (trades_on v d) (v_syms v)) (b_ends b) [] [] (NoDup_filter _ ND) (NoDup_nil _) ltac:(auto)) as A.
      unfold activate. destruct (fold_left _ _ _) as [[e a] x]. exact A. }
    destruct (activate v d b) as [[ends act] exits]. cbn [fst snd] in NA. cbv zeta. set (b1 := set_ctx _ _ _).
    assert (H1 : inv [] b1).
    { apply (inv_frame [] b); auto. apply core_ctx, core_ends, inv_core, H. }
    destruct (settle_total i d b1 H1) as [b2 [-> H2]]. cbn [bind]. now apply decide_total. }
  destruct X as [b1 [-> H1]]. now apply IH.
Qed.
Lemma backtest_total b : inv [] b -> exists b', backtest v b = Some b' /\ inv [] b'.
Proof.
  intro H. unfold backtest. apply bars_total. apply (inv_frame [] b); auto. apply core_start, inv_core, H.
Qed.
End Window.

Theorem backtests_total c l k : cfg_ok c -> Forall (fun v => v_cfg v = c /\ tame v) l -> exists b, backtests l (fresh c k) = Some b.
Proof.
  intros K F.
  assert (I0 : inv c [] (fresh c k)).
  { constructor; [apply stop_inv_fresh|apply refined_fresh|constructor|intros o st []|constructor]. }
  revert I0. generalize (fresh c k). induction F as [|v l [E T] _ IH]; intros b H; cbn [backtests]; [eauto|].
  destruct (backtest_total v c E K T b H) as [b1 [-> H1]]. now apply IH.
Qed.
