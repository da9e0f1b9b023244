(** The account of a backtest is the account of its call history, and that
    history's stops are well formed. *)
From Verif Require Export ContextProofs LoopPres.

(** An order that fills nothing does not look at its stops. *)
Lemma long_unstopped c d s sh fill st p p' q : long_ c d s sh fill st p = Ret p' q -> q == 0 -> long_ c d s sh fill None p = Ret p' q.
Proof.
  unfold long_. destruct (c_mode c); auto; destruct (clamp_shares c s fill sh OBuy p) as [cl p1];
    set (x := if Qltb cl sh then cl else sh); destruct (Qle_bool x 0) eqn:E; auto; destruct (at_cap (p_max_long p1) s (p_longs p1)); auto;
    intros R Z; exfalso; apply Qle_bool_false in E; unfold open_fill in R;
    repeat match type of R with (let '(_, _) := ?y in _) = _ => destruct y as [? ?] end;
    repeat match type of R with (if ?y then _ else _) = _ => destruct y end;
    try discriminate; injection R as _ <-; lra.
Qed.
Lemma short_unstopped c d s sh fill st p p' q : short_ c d s sh fill st p = Ret p' q -> q == 0 -> short_ c d s sh fill None p = Ret p' q.
Proof.
  unfold short_. destruct (Qle_bool sh 0); auto. destruct (at_cap (p_max_short p) s (p_shorts p)); auto.
  destruct (c_mode c); auto; destruct (clamp_shares c s fill sh OSell p) as [cl p1];
    set (x := if Qltb cl sh then cl else sh); destruct (Qle_bool x 0) eqn:E; auto;
    intros R Z; exfalso; apply Qle_bool_false in E; unfold open_fill in R;
    repeat match type of R with (let '(_, _) := ?y in _) = _ => destruct y as [? ?] end;
    repeat match type of R with (if ?y then _ else _) = _ => destruct y end;
    try discriminate; injection R as _ <-; lra.
Qed.
Lemma send_unstopped c o a p p' : send c o a p = Ret p' None -> send c o (unstopped a) p = Ret p' None.
Proof.
  destruct o; cbn [send]; unfold buy, sell; cbn [unstopped a_date a_sym a_shares a_fill a_limit a_stops a_created a_otype a_market].
  - destruct (verify_input_raises _ _ _); auto. destruct (match a_limit a with Some _ => _ | None => _ end); auto.
    destruct (Qeq_bool (a_shares a) 0); auto. destruct (close_existing c Short _ _ _ _ p) as [[filled rem] p1].
    destruct (long_ c _ _ rem _ (a_stops a) p1) as [p2 q|] eqn:L; [|discriminate].
    destruct (Qis0 filled && Qis0 q) eqn:E; [|destruct (add_order _ _ _ _ _ _ _ _ _ _ _ p2); discriminate].
    intros [= ->]. apply andb_true_iff in E. destruct E as [E1 E2]. rewrite (long_unstopped _ _ _ _ _ _ _ _ _ L (Qis0_true _ E2)).
    now rewrite E1, E2.
  - destruct (verify_input_raises _ _ _); auto. destruct (match a_limit a with Some _ => _ | None => _ end); auto.
    destruct (Qeq_bool (a_shares a) 0); auto. destruct (close_existing c Long _ _ _ _ p) as [[filled rem] p1].
    destruct (short_ c _ _ rem _ (a_stops a) p1) as [p2 q|] eqn:L; [|discriminate].
    destruct (Qis0 filled && Qis0 q) eqn:E; [|destruct (add_order _ _ _ _ _ _ _ _ _ _ _ p2); discriminate].
    intros [= ->]. apply andb_true_iff in E. destruct E as [E1 E2]. rewrite (short_unstopped _ _ _ _ _ _ _ _ _ L (Qis0_true _ E2)).
    now rewrite E1, E2.
Qed.
Lemma run_snoc c ops o p p' : run c ops = Some p -> exec c (Some p) o = Some p' -> run c (ops ++ [o]) = Some p'.
Proof. unfold run. intros R E. rewrite fold_left_app. cbn [fold_left]. rewrite R. exact E. Qed.
Lemma exec_send c o a p p' x : send c o a p = Ret p' x -> exec c (Some p) (send_op o a) = Some p'.
Proof. intro E. unfold exec. destruct o; cbn [send_op step send] in *; rewrite E; reflexivity. Qed.

(** ** Refinement *)
Definition refined (c : cfg) (b : bstate) : Prop := core b /\ run c (b_ops b) = Some (b_port b).

Section Refine.
Variable v : env.
Variable c : cfg.
Hypothesis CFG : v_cfg v = c.
Lemma refined_op o b b' : refined c b -> do_op v o b = Some b' -> refined c b'.
Proof.
  intros [C R] E. split; [eapply core_op; eauto|]. unfold do_op in E.
  destruct (step (v_cfg v) o (b_port b)) as [p u|] eqn:S; [|discriminate]. injection E as <-. cbn [b_ops b_port set_port].
  eapply run_snoc; eauto. unfold exec. rewrite <- CFG, S. reflexivity.
Qed.
Lemma refined_attempt i d n b b' : refined c b -> get (n_id n) (b_pend b) = Some n -> attempt_and_settle v i d n b = Some b' -> refined c b'.
Proof.
  intros [C R] G E. split; [eapply core_attempt; eauto|]. unfold attempt_and_settle in E.
  destruct (attempt v i d n (set_pend (KMark (n_id n)) b)) as [[b1 f]|] eqn:A; [|discriminate].
  destruct (attempt_spec _ _ _ _ _ _ _ A) as [_ [_ H]].
  assert (R1 : run c (b_ops b1) = Some (b_port b1)).
  { cbn [set_pend b_port b_ops] in H. destruct H as [[-> [-> _]]|[a [x [SE [-> ->]]]]]; auto.
    pose proof (se_send _ _ _ _ _ _ _ _ SE) as S. rewrite CFG in S. cbn [set_pend b_port] in S. eapply run_snoc; eauto.
    destruct x as [o|]; cbn [given]; eapply exec_send; eauto. eapply send_unstopped; eauto. }
  destruct (f || negb (is_persistent_limit n)); injection E as <-; exact R1.
Qed.
Lemma refined_schedule d k w r b b' : refined c b -> schedule_order v d k w (Some b) r = Some b' -> refined c b'.
Proof.
  intros [C R] E. split; [eapply core_schedule; eauto|].
  destruct (schedule_order_spec _ _ _ _ _ _ _ E) as [->|[date [iw [a [_ [_ ->]]]]]]; auto. cbv zeta. destruct iw, w; exact R.
Qed.
Lemma refined_backtest b b' : refined c b -> backtest v b = Some b' -> refined c b'.
Proof.
  apply (backtest_pres v (refined c) (fun _ => refined c)); auto.
  - intros w x b0 [C R]. split; [now apply core_sched|destruct w; exact R].
  - intros e b0 [C R]. split; [now apply core_ends|exact R].
  - intros x b0 [C R]. split; [now apply core_ctx|exact R].
  - intros o b0 b1 H _ E. eapply refined_op; eauto.
  - intros k b0 [C R] K. split; [|exact R]. apply kstate_set; auto. intros j ->. destruct K.
  - exact refined_attempt.
  - intros d x l cs bs ss n b0 [C R] _. split; [now apply core_ctx|exact R].
  - intros; eapply refined_schedule; eauto.
  - intros b0 i n [C _]. now apply core_get.
  - intros b0 [C _]. exact C.
  - intros b0 [C R]. split; [now apply core_start|exact R].
Qed.
End Refine.
Lemma refined_fresh c n : refined c (fresh c n).
Proof. split; [|reflexivity]. constructor; cbn; auto using marks_nil. tauto. Qed.
Lemma backtests_pres (P : bstate -> Prop) c l : (forall v b b', In v l -> v_cfg v = c -> env_ok v -> P b -> backtest v b = Some b' -> P b') ->
  windows_ok c l -> forall b b', P b -> backtests l b = Some b' -> P b'.
Proof.
  induction l as [|v l IH]; intros H W b b' HP; cbn [backtests]; [intros [= <-]; auto|].
  destruct W as [EO [E [_ W]]]. destruct (backtest v b) as [b1|] eqn:B; [|discriminate].
  apply IH; auto; [intros; eapply H; eauto; now right|]. eapply H; eauto. now left.
Qed.
Lemma refined_backtests c l n b : windows_ok c l -> backtests l (fresh c n) = Some b -> refined c b.
Proof.
  intros W B. revert W B. intro W. apply (backtests_pres (refined c) c l); auto using refined_fresh.
  intros v b0 b1 _ E _. now apply refined_backtest.
Qed.

(** ** Stops *)
Definition pstops (n : pending) : list stop := match n_stops n with Some l => l | None => [] end.
Definition side_of (o : oside) : side := opening_side o.
Record stops_for (s : sym) (o : oside) (l : list stop) : Prop := mkStopsFor {
  sf_match : forall st, In st l -> st_sym st = s /\ st_pos st = opening_side o /\ stop_sized st;
  sf_one : one_per_type l
}.
(** The result's order side. *)
Definition result_side (r : result) : oside := match r_buy r with Some _ => OBuy | None => OSell end.
Definition stop_ids (b : bstate) (rs : list result) : list nat :=
  map st_id (flat_map op_stops (b_ops b) ++ flat_map pstops (live (b_kops b)) ++ flat_map result_stops rs).
Record stop_inv (rs : list result) (b : bstate) : Prop := mkSI {
  si_core : core b;
  si_ids : NoDup (stop_ids b rs);
  si_max : forall i, In i (stop_ids b rs) -> (i <= b_stop b)%nat;
  si_ops : Forall stops_match (b_ops b);
  si_one : Forall (fun o => one_per_type (op_stops o) /\ Forall stop_sized (op_stops o)) (b_ops b);
  si_live : Forall (fun n => stops_for (n_sym n) (n_type n) (pstops n)) (live (b_kops b));
  si_res : Forall (fun r => stops_for (r_sym r) (result_side r) (result_stops r) /\ (r_buy r <> None \/ r_sell r <> None)) rs
}.
Lemma nodup_sub {A} (l1 l2 m : list A) : NoDup (l1 ++ l2 ++ m) -> NoDup (l1 ++ m).
Proof.
  intro H. apply Permutation_NoDup with (l' := l2 ++ (l1 ++ m)) in H; [now apply NoDup_app_right in H|].
  rewrite !app_assoc. apply Permutation_app_tail, Permutation_app_comm.
Qed.
Lemma sublist_nodup (f : pending -> bool) l (x y : list stop) :
  NoDup (map st_id (x ++ flat_map pstops l ++ y)) -> NoDup (map st_id (x ++ flat_map pstops (filter f l) ++ y)).
Proof.
  revert x. induction l as [|n l IH]; intro x; cbn [filter flat_map]; auto. intro H. destruct (f n); cbn [flat_map].
  - rewrite <- !app_assoc in *. rewrite (app_assoc x) in *. now apply IH.
  - rewrite <- app_assoc in H. rewrite map_app, (map_app _ (pstops n)) in H. apply nodup_sub in H. rewrite <- map_app in H. now apply IH.
Qed.
Lemma live_filtered ops k : loop_kop k -> exists f, live (ops ++ [k]) = filter f (live ops).
Proof.
  intro H. rewrite live_snoc. destruct k as [a|i|[s|]|i|i]; try destruct H; cbn [live_step fst snd]; eauto.
  - exists (fun _ => false). induction (live ops); cbn; auto.
  - exists (fun _ => true). induction (live ops); cbn; congruence.
Qed.
Lemma Forall_filter {A} (P : A -> Prop) f l : Forall P l -> Forall P (filter f l).
Proof. rewrite !Forall_forall. intros H x I. apply filter_In in I. now apply H. Qed.
(** Any filtering of the pending orders is harmless. *)
Lemma stop_inv_filter rs b b' f : stop_inv rs b -> core b' -> live (b_kops b') = filter f (live (b_kops b)) ->
  b_ops b' = b_ops b -> b_stop b' = b_stop b -> stop_inv rs b'.
Proof.
  intros [H1 H2 H3 H4 H5 H6 H7] C L O S. constructor; auto; rewrite ?O, ?S; auto.
  - unfold stop_ids in *. rewrite O, L. now apply sublist_nodup.
  - intros i I. apply H3. unfold stop_ids in *. rewrite O, L in I. rewrite !map_app, !in_app_iff in *. destruct I as [I|[I|I]]; auto.
    right. left. apply in_map_iff in I. destruct I as [st [<- I]]. apply in_flat_map in I. destruct I as [n [I J]]. apply filter_In in I.
    apply in_map, in_flat_map. exists n. tauto.
  - rewrite L. now apply Forall_filter.
Qed.
Lemma filter_all {A} (l : list A) : filter (fun _ => true) l = l.
Proof. induction l; cbn; congruence. Qed.
Lemma stop_inv_kop rs b k : stop_inv rs b -> loop_kop k -> stop_inv rs (set_pend k b).
Proof.
  intros H K. destruct (live_filtered (b_kops b) k K) as [f F]. eapply (stop_inv_filter rs b _ f); eauto.
  apply kstate_set; [apply H|]. intros j ->. destruct K.
Qed.
Lemma stop_inv_same rs b b' : stop_inv rs b -> core b' -> live (b_kops b') = live (b_kops b) -> b_ops b' = b_ops b -> b_stop b' = b_stop b -> stop_inv rs b'.
Proof. intros H C L O S. apply (stop_inv_filter rs b b' (fun _ => true)); auto. now rewrite filter_all. Qed.
Lemma op_stops_loop o : loop_op o -> op_stops o = [] /\ stops_match o.
Proof. destruct o; cbn; tauto. Qed.
Lemma stop_inv_op v rs o b b' : stop_inv rs b -> loop_op o -> do_op v o b = Some b' -> stop_inv rs b'.
Proof.
  intros H O E. pose proof (core_op v o b b' (si_core _ _ H) E) as C. unfold do_op in E.
  destruct (step (v_cfg v) o (b_port b)) as [p u|]; [|discriminate]. injection E as <-.
  destruct (op_stops_loop o O) as [ON OM]. destruct H as [H1 H2 H3 H4 H5 H6 H7].
  assert (E : stop_ids (set_port p o b) rs = stop_ids b rs).
  { unfold stop_ids. cbn [b_ops b_kops set_port]. rewrite flat_map_app. cbn [flat_map]. rewrite ON. cbn [app]. rewrite app_nil_r. reflexivity. }
  constructor; auto; rewrite ?E; auto; cbn [b_ops set_port].
  - apply Forall_app. auto.
  - apply Forall_app. split; auto. apply Forall_cons; [|apply Forall_nil]. rewrite ON. split; [intros ? ? []|constructor].
Qed.
Lemma send_op_stops o a : op_stops (send_op o a) = match a_stops a with Some l => l | None => [] end.
Proof. destruct o; reflexivity. Qed.
Lemma send_op_match o a : stops_for (a_sym a) o (op_stops (send_op o a)) -> stops_match (send_op o a).
Proof. intros [M _]. destruct o; cbn [send_op stops_match] in *; intros st I; destruct (M st I) as [A [B _]]; auto. Qed.
Lemma split_live ops n : In n (live ops) -> exists l1 l2, live ops = l1 ++ n :: l2 /\
  filter (fun o => negb (Nat.eqb (n_id o) (n_id n))) (live ops) = l1 ++ l2.
Proof.
  intro I. pose proof (sorted_nodup _ (live_sorted ops)) as ND. apply in_split in I. destruct I as [l1 [l2 E]]. exists l1, l2. split; auto.
  rewrite E in *. rewrite filter_app. cbn [filter]. rewrite Nat.eqb_refl. cbn [negb]. rewrite map_app in ND. cbn [map] in ND.
  pose proof (NoDup_remove_2 _ _ _ ND) as N. rewrite in_app_iff in N. f_equal; fold (without (n_id n) l1); fold (without (n_id n) l2); apply without_notin; tauto.
Qed.
Lemma core_tried v i d n b b1 f : core b -> In n (live (b_kops b)) -> attempt v i d n (set_pend (KMark (n_id n)) b) = Some (b1, f) -> core b1.
Proof.
  intros [P1 P2 P3] I A. destruct (attempt_spec _ _ _ _ _ _ _ A) as [[Q1 [_ [_ [_ [_ [_ [_ Q8]]]]]]] [AT _]].
  constructor.
  * rewrite Q1, Q8. cbn [set_pend b_pend b_kops]. now rewrite krun_snoc, P1.
  * rewrite Q8. cbn [set_pend b_kops]. apply marks_snoc_iff; auto. intros ? [= <-]. now apply is_live_In.
  * intros y J. rewrite AT in J. rewrite Q8. cbn [set_pend b_kops]. rewrite added_snoc. apply in_app_iff in J. destruct J as [J|[<-|[]]].
    -- specialize (P3 y J). lia.
    -- cbn [fst]. pose proof (is_live_le _ _ (is_live_In _ _ I)). lia.
Qed.
Lemma stop_inv_attempt v i d n b b' : stop_inv [] b -> get (n_id n) (b_pend b) = Some n -> attempt_and_settle v i d n b = Some b' -> stop_inv [] b'.
Proof.
  intros H G E. pose proof (core_attempt v i d n b b' (si_core _ _ H) G E) as C. destruct (get_In _ _ _ (si_core _ _ H) G) as [I _].
  unfold attempt_and_settle in E. set (bm := set_pend (KMark (n_id n)) b) in *.
  destruct (attempt v i d n bm) as [[b1 f]|] eqn:A; [|discriminate].
  destruct (attempt_spec _ _ _ _ _ _ _ A) as [[_ [_ [_ [_ [_ [_ [FS FK]]]]]]] [_ OP]].
  assert (LM : live (b_kops b1) = live (b_kops b)) by (rewrite FK; unfold bm, set_pend; cbn [b_kops]; rewrite live_snoc; reflexivity).
  cbn [bm set_pend b_stop b_ops] in *.
  destruct H as [H1 H2 H3 H4 H5 H6 H7].
  destruct f; cbn [orb] in E.
  - (* filled: the stops move from the order to the log *)
    injection E as <-. destruct OP as [[_ [_ X]]|[a [x [SE [_ OP]]]]]; [discriminate|].
    destruct (split_live _ _ I) as [l1 [l2 [EL EF]]].
    assert (LF : live (b_kops (set_pend (KRemove (n_id n)) b1)) = l1 ++ l2).
    { unfold set_pend. cbn [b_kops]. rewrite live_snoc. cbn [live_step fst snd]. rewrite LM. exact EF. }
    assert (OS : op_stops (send_op (n_type n) a) = pstops n) by (rewrite send_op_stops, (se_stops _ _ _ _ _ _ _ _ SE); reflexivity).
    assert (SF : stops_for (n_sym n) (n_type n) (pstops n)) by (rewrite Forall_forall in H6; auto).
    assert (PM : Permutation (stop_ids (set_pend (KRemove (n_id n)) b1) []) (stop_ids b [])).
    { unfold stop_ids. rewrite LF, EL. cbn [b_ops set_pend]. rewrite OP. apply Permutation_map. cbn [flat_map].
      rewrite !flat_map_app. cbn [flat_map]. rewrite OS, !app_nil_r, <- !app_assoc. apply Permutation_app_head.
      rewrite !app_assoc. apply Permutation_app_tail, Permutation_app_comm. }
    constructor; auto.
    + eapply Permutation_NoDup; [symmetry; exact PM|exact H2].
    + intros j J. cbn [b_stop set_pend]. rewrite FS. apply H3. eapply Permutation_in; eauto.
    + cbn [b_ops set_pend]. rewrite OP. apply Forall_app. split; auto. constructor; [|constructor]. apply send_op_match.
      rewrite OS, (se_sym _ _ _ _ _ _ _ _ SE). exact SF.
    + cbn [b_ops set_pend]. rewrite OP. apply Forall_app. split; auto. constructor; [|constructor]. rewrite OS. split; [apply SF|].
      apply Forall_forall. intros st J. apply (sf_match _ _ _ SF st J).
    + rewrite LF, EL in *. rewrite Forall_app in *. destruct H6 as [H6a H6b]. inversion H6b; auto.
  - (* not filled *)
    assert (C1 : core b1) by exact (core_tried _ _ _ _ _ _ _ H1 I A).
    assert (S1 : stop_inv [] b1).
    { destruct OP as [[_ [OP _]]|[a [x [SE [_ OP]]]]].
      - apply (stop_inv_same [] b); auto. constructor; auto.
      - assert (OS : op_stops (send_op (n_type n) (unstopped a)) = []) by (rewrite send_op_stops; reflexivity).
        assert (EI : stop_ids b1 [] = stop_ids b []).
        { unfold stop_ids. rewrite LM, OP, flat_map_app. cbn [flat_map]. rewrite OS. cbn [app]. now rewrite !app_nil_r. }
        constructor; auto; rewrite ?EI, ?FS, ?LM; auto; rewrite OP; apply Forall_app; split; auto; constructor; try constructor.
        + destruct (n_type n); cbn; intros st [].
        + rewrite OS. intros ? ? [].
        + rewrite OS. constructor. }
    destruct (is_persistent_limit n); cbn [negb] in E; injection E as <-; auto. apply stop_inv_kop; auto. exact Logic.I.
Qed.

Lemma NoDup_join {A} (l m : list A) : NoDup l -> NoDup m -> (forall x, In x l -> In x m -> False) -> NoDup (l ++ m).
Proof.
  induction l as [|x l IH]; intros H1 H2 H3; auto. inversion H1; subst. cbn. constructor.
  - rewrite in_app_iff. intros [I|I]; [tauto|]. exact (H3 x (or_introl eq_refl) I).
  - apply IH; auto. intros y I J. exact (H3 y (or_intror I) J).
Qed.
(** The results collected on a bar carry fresh stop ids. *)
Definition good_result (r : result) : Prop :=
  stops_for (r_sym r) (result_side r) (result_stops r) /\ (r_buy r <> None \/ r_sell r <> None).
Record gathered (n0 : nat) (l : list result) (n : nat) : Prop := mkGath {
  ga_nodup : NoDup (map st_id (flat_map result_stops l));
  ga_ids : forall i, In i (map st_id (flat_map result_stops l)) -> (n0 < i <= n)%nat;
  ga_le : (n0 <= n)%nat;
  ga_good : Forall good_result l
}.
Lemma flat_map_perm {A B} (f : A -> list B) l l' : Permutation l l' -> Permutation (flat_map f l) (flat_map f l').
Proof.
  induction 1; cbn [flat_map]; auto.
  - now apply Permutation_app_head.
  - rewrite !app_assoc. apply Permutation_app_tail, Permutation_app_comm.
  - etransitivity; eauto.
Qed.
Lemma gathered_perm n0 l l' n : Permutation l l' -> gathered n0 l n -> gathered n0 l' n.
Proof.
  intros PM [H1 H2 H3 H4].
  assert (PI : Permutation (map st_id (flat_map result_stops l)) (map st_id (flat_map result_stops l')))
    by (apply Permutation_map, flat_map_perm, PM).
  constructor; auto.
  - eapply Permutation_NoDup; eauto.
  - intros i I. apply H2. eapply Permutation_in; [symmetry; exact PI|exact I].
  - rewrite Forall_forall in *. intros x I. apply H4. eapply Permutation_in; [symmetry; exact PM|exact I].
Qed.
Lemma gathered_cons n0 l n s d g r n' : gathered n0 l n -> result_of s d g n r n' -> gathered n0 (r :: l) n'.
Proof.
  intros [H1 H2 H3 H4] R. pose proof (result_one_sided _ _ _ _ _ _ R) as OS. destruct R as [R1 _ _ _ _ _ _ _ _ _ _ _ _ _ _ R2].
  pose proof (made_one_per_type _ _ _ _ _ _ R2) as OP. destruct R2 as [M1 M2 M3 M4].
  assert (IN : forall i, In i (map st_id (result_stops r)) -> (n < i <= n')%nat) by (intros i I; rewrite M1 in I; apply in_seq in I; lia).
  constructor; cbn [flat_map]; rewrite ?map_app.
  - apply NoDup_join; auto.
    + rewrite M1. apply seq_NoDup.
    + intros i I J. specialize (IN i I). specialize (H2 i J). lia.
  - intros i I. apply in_app_iff in I. destruct I as [I|I]; [specialize (IN i I)|specialize (H2 i I)]; lia.
  - lia.
  - constructor; auto. split.
    + constructor; auto. intros st I. rewrite Forall_forall in M4. destruct (M4 st I) as [A [B C]]. rewrite R1. split; auto. split; auto.
      rewrite B. unfold result_side. destruct (r_buy r); reflexivity.
    + destruct OS as [[q [-> _]]|[q [-> _]]]; [left|right]; discriminate.
Qed.
Lemma collect_gathered v d n0 x : forall cs bs ss n cs' bs' ss' n', gathered n0 (cs ++ bs ++ ss) n ->
  fold_left (collect1 v d) x (Some (cs, bs, ss, n)) = Some (cs', bs', ss', n') -> gathered n0 (cs' ++ bs' ++ ss') n'.
Proof.
  induction x as [|kv x IH]; intros cs bs ss n cs' bs' ss' n' G; cbn [fold_left]; [intros [= <- <- <- <-]; auto|].
  unfold collect1 at 2. destruct (to_result (fst kv) d (given (z_worst (v_settings v))) (snd kv) n) as [| |r m] eqn:T.
  - intro E. exfalso. revert E. clear. induction x as [|y x IH]; cbn [fold_left]; [discriminate|exact IH].
  - now apply IH.
  - apply to_result_ok in T. destruct T as [_ [_ [_ R]]]. pose proof (gathered_cons _ _ _ _ _ _ _ _ G R) as G'.
    destruct (result_one_sided _ _ _ _ _ _ R) as [[q [-> [-> _]]]|[q [-> [-> _]]]]; cbn [given].
    + destruct (r_cover r); apply IH; (eapply gathered_perm; [|exact G']).
      * rewrite <- app_assoc. cbn [app]. apply Permutation_middle.
      * rewrite <- app_assoc. cbn [app]. rewrite (app_assoc cs bs), (app_assoc cs bs). apply Permutation_middle.
    + apply IH. eapply gathered_perm; [|exact G']. rewrite !app_assoc. apply Permutation_cons_append.
Qed.
Lemma stop_inv_collect v d x l cs bs ss n b : stop_inv [] b -> collect v d x (b_stop b) = Some (cs, bs, ss, n) ->
  stop_inv (cs ++ bs ++ ss) (set_ctx l n b).
Proof.
  intros [H1 H2 H3 H4 H5 H6 H7] C. unfold collect in C.
  assert (G0 : gathered (b_stop b) ([] ++ [] ++ []) (b_stop b)) by (constructor; cbn; auto; [constructor|tauto]).
  destruct (collect_gathered v d (b_stop b) x _ _ _ _ _ _ _ _ G0 C) as [G1 G2 G3 G4].
  assert (EI : stop_ids (set_ctx l n b) (cs ++ bs ++ ss) = stop_ids b [] ++ map st_id (flat_map result_stops (cs ++ bs ++ ss))).
  { unfold stop_ids. cbn [set_ctx b_ops b_kops flat_map]. rewrite app_nil_r, <- map_app, <- !app_assoc. reflexivity. }
  constructor; auto; [now apply core_ctx| |]; rewrite EI.
  - apply NoDup_join; auto. intros i I J. specialize (H3 i I). specialize (G2 i J). lia.
  - intros i I. apply in_app_iff in I. cbn [set_ctx b_stop]. destruct I as [I|I]; [specialize (H3 i I)|specialize (G2 i I)]; lia.
Qed.
Lemma to_add_facts r d date k a : to_add r d date k = Some a ->
  d_type a = result_side r /\ d_sym a = r_sym r /\ pstops (with_id 0 a) = result_stops r.
Proof.
  unfold to_add, result_side, result_stops. destruct (r_buy r) as [q|]; [|destruct (r_sell r); [|discriminate]]; intros [= <-];
    (split; [reflexivity|split; [reflexivity|]]); cbn.
  - destruct (r_lstops r) as [[|]|]; reflexivity.
  - destruct (r_sstops r) as [[|]|]; reflexivity.
Qed.
Lemma stop_inv_schedule v d k w r l b b' : stop_inv (r :: l) b -> schedule_order v d k w (Some b) r = Some b' -> stop_inv l b'.
Proof.
  intros [H1 H2 H3 H4 H5 H6 H7] E. pose proof (core_schedule v d k w r b b' H1 E) as C. inversion H7 as [|? ? R1 R2]; subst.
  destruct (schedule_order_spec _ _ _ _ _ _ _ E) as [->|[date [iw [a [_ [T ->]]]]]].
  - constructor; auto.
    + unfold stop_ids in *. cbn [flat_map] in H2. rewrite app_assoc, map_app in *. cbn [flat_map] in H2. rewrite (map_app _ (result_stops r)) in H2.
      now apply nodup_sub in H2.
    + intros i I. apply H3. unfold stop_ids in *. cbn [flat_map]. rewrite !map_app, !in_app_iff in *. tauto.
  - destruct (to_add_facts _ _ _ _ _ T) as [T1 [T2 T3]].
    assert (K : forall bx, b_ops bx = b_ops b -> b_kops bx = b_kops b ++ [KAdd a] -> b_stop bx = b_stop b -> core bx -> stop_inv l bx).
    { intros bx K1 K2 K3 K4.
      assert (L : live (b_kops bx) = live (b_kops b) ++ [with_id (S (added (b_kops b))) a]) by (rewrite K2, live_snoc; reflexivity).
      assert (PS : pstops (with_id (S (added (b_kops b))) a) = result_stops r) by exact T3.
      assert (EI : stop_ids bx l = stop_ids b (r :: l)).
      { unfold stop_ids. rewrite K1, L, flat_map_app. cbn [flat_map]. rewrite PS, app_nil_r, <- app_assoc. reflexivity. }
      constructor; auto; rewrite ?EI, ?K1, ?K3; auto. rewrite L. apply Forall_app. split; auto. constructor; [|constructor].
      rewrite PS. cbn. rewrite T1, T2. apply R1. }
    cbv zeta in C |- *. destruct iw, w; apply K; auto.
Qed.
Lemma stop_inv_start v b : stop_inv [] b -> stop_inv [] (start v b).
Proof. intro H. apply (stop_inv_same [] b); auto. apply core_start, H. Qed.
Lemma stop_inv_backtest v b b' : stop_inv [] b -> backtest v b = Some b' -> stop_inv [] b'.
Proof.
  apply (backtest_pres v (stop_inv []) stop_inv); auto using stop_inv_start.
  - intros w x b0 H. apply (stop_inv_same [] b0); auto; try (destruct w; reflexivity). apply core_sched, H.
  - intros e b0 H. apply (stop_inv_same [] b0); auto. apply core_ends, H.
  - intros x b0 H. apply (stop_inv_same [] b0); auto. apply core_ctx, H.
  - intros o b0 b1 H O E. eapply stop_inv_op; eauto.
  - intros k b0 H K. now apply stop_inv_kop.
  - exact (stop_inv_attempt v).
  - intros. eapply stop_inv_collect; eauto.
  - intros. eapply stop_inv_schedule; eauto.
  - intros b0 i n H. apply core_get, H.
  - intros b0 H. apply H.
Qed.
Lemma stop_inv_fresh c n : stop_inv [] (fresh c n).
Proof. constructor; cbn; auto; [apply (refined_fresh c n)|constructor|tauto]. Qed.
Lemma stop_inv_backtests c l n b : windows_ok c l -> backtests l (fresh c n) = Some b -> stop_inv [] b.
Proof.
  intros W B. revert W B. intro W. apply (backtests_pres (stop_inv []) c l); auto using stop_inv_fresh.
  intros v b0 b1 _ _ _. apply stop_inv_backtest.
Qed.
