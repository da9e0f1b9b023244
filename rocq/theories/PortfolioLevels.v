(** Stops: what a check does, how levels move, and what entries have seen. *)
From Verif Require Export PortfolioFacts.

(** ** One stop on one bar *)
Lemma reachedb_spec sc st v : reachedb sc st v = true <-> reached sc st v.
Proof. unfold reachedb, reached. destruct (st_exit st), (falling st); apply Qle_bool_iff. Qed.
Lemma reachedb_false sc st v : reachedb sc st v = false <-> ~ reached sc st v.
Proof. rewrite <- reachedb_spec. destruct (reachedb sc st v); split; congruence. Qed.
Lemma trigger_spec sc st v : st_type st <> SBar ->
  trigger_price_stop st v sc = if reachedb sc st v then Some (price_at sc st v) else None.
Proof.
  intro T. unfold trigger_price_stop, reachedb, price_at, falling.
  destruct (st_pos st), (st_type st), (st_exit st); try congruence; reflexivity.
Qed.
Lemma bar_spec sc st e m : trigger_bar_stop st sc e = TFill m <->
  (exists n, st_bars st = Some n /\ (n <= e_symbars e)%nat) /\
  m = sc_fetch sc (st_sym st) (match st_fill st with Some f => f | None => FType PTMiddle end) /\ 0 < m.
Proof.
  unfold trigger_bar_stop. destruct (st_bars st) as [n|]; [|split; [discriminate|intros [[n [E _]] _]; discriminate]].
  destruct (Nat.leb_spec n (e_symbars e)) as [L|L].
  - set (q := sc_fetch _ _ _). destruct (Qle_bool q 0) eqn:E; qb.
    + split; [discriminate|]. intros [_ [-> H]]. lra.
    + split; [intro H; injection H as <-; eauto|]. intros [_ [-> _]]. reflexivity.
  - split; [discriminate|]. intros [[n' [E L']] _]. injection E as <-. lia.
Qed.
Lemma decides_spec p sc e st m : decides sc e st (level p (st_id st)) m <-> due p sc e st /\ stop_fills_at p sc st m.
Proof.
  unfold decides, due, stop_fills_at.
  assert (X : st_type st <> SBar -> ((exists v, level p (st_id st) = Some v /\ trigger_price_stop st v sc = Some m) <->
    (exists v, level p (st_id st) = Some v /\ reached sc st v) /\ (exists v, level p (st_id st) = Some v /\ m = price_at sc st v))).
  { intro T. split.
    - intros [v [E H]]. rewrite trigger_spec in H by auto. destruct (reachedb sc st v) eqn:R; [|discriminate].
      apply reachedb_spec in R. injection H as <-. split; exists v; auto.
    - intros [[v [E R]] [v' [E' ->]]]. rewrite E in E'. injection E' as <-. exists v. split; auto.
      rewrite trigger_spec by auto. apply reachedb_spec in R. now rewrite R. }
  destruct (st_type st) eqn:T; [apply bar_spec|apply X; congruence..].
Qed.
Lemma slip_spec sm st e m : slip_stop_fill sm st e m = slipped sm (st_pos st) (st_sym st) (e_shares e) m.
Proof.
  unfold slip_stop_fill, slipped, exit_oside. destruct sm as [f|]; auto.
Qed.
Lemma price_in_bar sc st v : sc_price sc (st_sym st) PTLow <= sc_price sc (st_sym st) PTHigh -> reached sc st v ->
  st_exit st = None ->
  sc_price sc (st_sym st) PTLow <= price_at sc st v /\ price_at sc st v <= sc_price sc (st_sym st) PTHigh.
Proof.
  intros L R E. unfold reached, price_at in *. rewrite E in *. destruct (falling st).
  - pose proof (Qmin_cases v (sc_price sc (st_sym st) PTHigh)). lra.
  - pose proof (Qmax_cases v (sc_price sc (st_sym st) PTLow)). lra.
Qed.

(** ** One [check_stops] call *)
Lemma owns_queue p sd s e : owns p sd s e <-> In e (queue p sd s).
Proof. rewrite owns_entries. reflexivity. Qed.



Theorem check_stops_did c date sc sm p p' u : cfg_ok c -> Good c p -> StopInv p ->
  check_stops c date sc sm p = Ret p' u -> exists exits, check_did c date sc sm p exits p'.
Proof.
  intros K G S E. pose proof (check_stops_ok c date sc sm p K G) as H. rewrite E in H.
  destruct H as [evs [HO HF]]. specialize (HF S). exists evs.
  destruct HO as [o1 o2 o3 o4 o5 o6 o7 o8]. destruct HF as [f1 f2 f3 f4].
  assert (Q : forall sd s, queue p' sd s = filter (fun e => negb (nmem (e_id e) (ids evs))) (queue p sd s)) by exact o2.
  constructor; auto.
  - eapply Forall_impl; [|exact f2]. intros v [a1 a2 a3 a4 a5 a6 a7 a8]. apply decides_spec in a6.
    constructor; auto; [now apply owns_queue|tauto|tauto|]. now rewrite a7, slip_spec, a3, a4.
  - intros sd s e st I N C Is D. apply owns_queue in I. destruct (f3 sd s e st I N C Is) as [B1 B2].
    destruct (si_own _ S _ _ _ _ I Is) as [W1 W2].
    assert (X : exists m, stop_fills_at p sc st m).
    { unfold stop_fills_at, due in *. destruct (st_type st) eqn:T.
      - specialize (B1 eq_refl). unfold trigger_bar_stop in B1. destruct D as [n [En Ln]]. rewrite En in B1.
        apply Nat.leb_le in Ln. rewrite Ln in B1.
        exists (sc_fetch sc (st_sym st) (match st_fill st with Some f => f | None => FType PTMiddle end)).
        split; auto. destruct (Qle_bool _ 0) eqn:Eb in B1; [congruence|]. qb. destruct (st_fill st); lra.
      - destruct D as [v [Ev _]]; eauto.
      - destruct D as [v [Ev _]]; eauto.
      - destruct D as [v [Ev _]]; eauto. }
    destruct X as [m Hm]. exists m. split; auto. rewrite <- W1, <- W2, <- slip_spec. apply B2. apply decides_spec. auto.
  - intros v st I Is. rewrite Forall_forall in f2. destruct (f2 v I) as [a1 a2 a3 a4 a5 _ _ _].
    unfold level. destruct (aget (st_id st) (p_stop_data p')) as [d|] eqn:Ed; auto. exfalso.
    destruct (si_reg _ f1 _ _ Ed) as [G1 [G2 [e [G3 [G4 G5]]]]].
    apply owns_queue in G3. rewrite Q in G3. apply filter_In in G3. destruct G3 as [G3 G6].
    apply owns_queue in G3.
    pose proof (si_uniq _ S _ _ _ _ _ _ _ _ G3 G5 a2 Is G1) as X1.
    apply negb_true_iff, nmem_notIn in G6. apply G6. unfold ids. apply in_map_iff. exists v. split; auto.
  - intros id x Hl. unfold level in Hl. destruct (aget id (p_stop_data p')) as [d|] eqn:Ed; [|discriminate].
    destruct (si_reg _ f1 _ _ Ed) as [G1 [G2 [e [G3 [G4 G5]]]]]. exists (st_pos (sd_stop d)), (st_sym (sd_stop d)), e, (sd_stop d).
    split; [now apply owns_queue|auto].
Qed.

(** ** Levels from call to call *)
Definition set_by (st : stop) (e : entry) (v : Q) : Prop :=
  exists a, stop_amount st (e_price e) = Some a /\ v = initial_stop_value st (e_price e) a.
Record fresh_level (o : list stop) (p p' : port) (d : stop_data) : Prop := mkFL {
  fl_in : In (sd_stop d) o;
  fl_entry : exists e, owns p' (st_pos (sd_stop d)) (st_sym (sd_stop d)) e /\ e_id e = sd_entry d /\
     (p_entry_id p < e_id e)%nat /\ set_by (sd_stop d) e (sd_value d)
}.

Lemma place_level c o a p p' r : cfg_ok c -> Good c p -> StopInv p -> stops_fresh o a p ->
  place c o a p = Ret p' r -> forall id d, aget id (p_stop_data p') = Some d ->
  aget id (p_stop_data p) = Some d \/ fresh_level (order_stops a) p p' d.
Proof.
  intros K G S F E id d Hd.
  destruct (place_ret _ _ _ _ _ _ K G E) as [[_ [CO _]]|[p2 [filled [bought [Hs [_ [_ [HF [_ [-> _]]]]]]]]]].
  - left. now rewrite <- (cc_sd _ _ CO).
  - assert (Hd2 : aget id (p_stop_data p2) = Some d).
    { revert Hd. unfold the_order, add_order. destruct (c_fee_mode c); auto. }
    clear Hd. destruct HF as [_ _ _ _ _ _ [rem [p1 [Ecl [HCl Hop]]]]].
    pose proof (close_fifo c (closes o) (a_date a) (a_sym a) (a_shares a) (a_fill a) p (gd_core _ _ G) Hs) as FF.
    rewrite Ecl in FF. cbn in FF. pose proof (ff_sub _ _ _ _ _ _ _ FF S) as SUB. pose proof (ff_stop _ _ _ _ _ _ _ FF S) as S1.
    destruct Hop as [[_ CO]|[[_ _ [q [o' [CO [_ [_ HO]]]]]] _]].
    + left. apply SUB. now rewrite <- (cc_sd _ _ CO).
    + destruct (op_reg _ _ _ _ _ _ _ _ _ HO) as [q0 [e' [q' [Q1 [Q2 [HL [D A]]]]]]].
      assert (RQ : RegInv q0).
      { eapply reg_ext; [exact Q1|exact Q2|]. eapply reg_ext; [apply CO|apply CO|apply (si_ri _ S1)]. }
      destruct (add_stops_reg _ _ _ _ _ RQ HL (stops_of_nd _ (sfr_nd _ _ _ F))) as [R' [I2 [I3 I4]]].
      rewrite D in Hd2. destruct (I3 _ _ Hd2) as [J|[J1 [J2 [J3 J4]]]].
      * left. apply SUB. rewrite Q1, (cc_sd _ _ CO) in J. exact J.
      * right. constructor; [now apply stops_of_In|].
        destruct (I4 _ J2 J3) as [d' [K1 [K2 [K3 [x [K4 K5]]]]]]. rewrite J1, Hd2 in K1. injection K1 as <-.
        set (e := new_entry (opens o) (a_date a) (a_sym a) bought (a_fill a) (stops_of (a_stops a)) q).
        destruct (sfr_match _ _ _ F _ (proj1 (stops_of_In _ _) J2)) as [M1 M2].
        exists e. split; [|split; [|split]].
        -- apply owns_entries. rewrite add_order_entries, (open_entries _ _ _ _ _ _ _ _ _ _ _ HO), M1, M2, side_eqb_refl, Nat.eqb_refl.
           apply in_app_iff. right. now left.
        -- rewrite J4. reflexivity.
        -- unfold e. cbn. rewrite (sa_entry_id _ _ (cc_acct _ _ CO)).
           rewrite (cf_entry_id _ _ _ _ (cl_frame _ _ _ _ _ _ _ _ HCl)). lia.
        -- exists x. auto.
Qed.

Definition moved (o : op) (st : stop) (v v' : Q) : Prop :=
  match o with
  | OpCheckStops _ sc _ =>
      if sc_can_price sc (st_sym st) then next_level sc st v = Some v' else v' = v
  | _ => v' = v
  end.
Record kept_level (o : op) (p : port) (id : nat) (d' : stop_data) : Prop := mkKL {
  kl_ex : exists d, aget id (p_stop_data p) = Some d /\ sd_stop d' = sd_stop d /\ sd_entry d' = sd_entry d /\
     moved o (sd_stop d) (sd_value d) (sd_value d')
}.
Lemma kept_same o p id d : (forall sc dt sm, o <> OpCheckStops dt sc sm) -> aget id (p_stop_data p) = Some d -> kept_level o p id d.
Proof.
  intros N H. constructor. exists d. split; auto. split; auto. split; auto. destruct o; cbn; auto. now contradiction (N sc date sm).
Qed.

Theorem step_level c o p p' : cfg_ok c -> Good c p -> StopInv p -> op_fresh o p -> exec c (Some p) o = Some p' ->
  forall id d, aget id (p_stop_data p') = Some d -> kept_level o p id d \/ fresh_level (op_stops o) p p' d.
Proof.
  intros K G S F E id d Hd. unfold exec in E.
  destruct o as [a|a|dt s b sl sm|dt sc sm|dt bar|hb|i|v t|ml ms]; cbn [step op_fresh] in *.
  - rewrite buy_place in E. pose proof (place_good c OBuy a p K G) as H.
    destruct (place c OBuy a p) as [q r|q []] eqn:Ep; cbn in E; inversion E; subst.
    + destruct (place_level _ _ _ _ _ _ K G S F Ep id d Hd); auto. left. apply kept_same; auto. discriminate.
    + left. apply kept_same; auto. discriminate.
  - rewrite sell_place in E. pose proof (place_good c OSell a p K G) as H.
    destruct (place c OSell a p) as [q r|q []] eqn:Ep; cbn in E; inversion E; subst.
    + destruct (place_level _ _ _ _ _ _ K G S F Ep id d Hd); auto. left. apply kept_same; auto. discriminate.
    + left. apply kept_same; auto. discriminate.
  - set (P := fun q => StopInv q /\ sub_data p q).
    assert (HP : forall o a p0 p'0 r, Good c p0 -> P p0 -> a_stops a = None -> place c o a p0 = Ret p'0 r -> P p'0).
    { intros o a p0 p1 r G0 [S0 D0] Hst E1. pose proof (no_stops_fresh o a p0 Hst) as F0.
      split; [eapply place_stop; eauto|]. intros id' d' H'.
      destruct (place_level _ _ _ _ _ _ K G0 S0 F0 E1 id' d' H') as [X|[X _]]; auto. unfold order_stops in X. rewrite Hst in X. destruct X. }
    pose proof (exit_cases P c dt s b sl sm p K G (conj S (fun _ _ H => H)) HP) as H.
    assert (X : P p') by (destruct (exit_position c dt s b sl sm p) as [q r|q []]; inversion E; subst; tauto).
    left. apply kept_same; [discriminate|]. now apply X.
  - pose proof (check_stops_ok c dt sc sm p K G) as H. destruct (check_stops c dt sc sm p) as [q r|q []]; inversion E; subst.
    2:{ destruct H; congruence. }
    destruct H as [evs [HO HF]]. specialize (HF S). left.
    destruct (si_reg _ (sf_inv _ _ _ _ _ HF) _ _ Hd) as [G1 [G2 [e [G3 [G4 G5]]]]].
    apply owns_entries in G3. rewrite (so_ent _ _ _ _ _ _ _ HO) in G3. apply filter_In in G3. destruct G3 as [G3 G6].
    apply owns_entries in G3. unfold kept in G6. apply negb_true_iff, nmem_notIn in G6.
    destruct (si_has _ S _ _ _ _ G3 G5 G2) as [d0 [D1 [D2 D3]]].
    destruct (sf_level _ _ _ _ _ HF _ _ _ _ G3 G6 G5 G2) as [v [v' [L1 [L2 L3]]]].
    unfold level in L1, L2. rewrite G1 in *. rewrite D1 in L1. rewrite Hd in L2. injection L1 as <-. injection L2 as <-.
    constructor. exists d0. split; auto. split; auto. split; [congruence|]. unfold moved. now rewrite D2.
  - injection E as <-. left. apply kept_same; [discriminate|].
    pose proof (capture_ok c dt bar p K G) as CA. assert (X : p_stop_data (capture_bar c dt bar p) = p_stop_data p) by apply CA.
    now rewrite <- X.
  - injection E as <-. left. apply kept_same; [discriminate|exact Hd].
  - injection E as <-. left. apply kept_same; [discriminate|].
    destruct (find (fun x => has_stop_id i (e_stops x)) (all_entries p)) as [e|] eqn:Ef.
    + apply find_some in Ef. destruct Ef as [I0 H0]. apply (all_entries_owns [] p) in I0; [|apply G].
      destruct I0 as [sd0 [s0 O0]]. apply has_stop_id_true, in_map_iff in H0. destruct H0 as [st0 [E0 J0]].
      subst i. destruct (remove_stop_effect p sd0 s0 e st0 (gd_core _ _ G) S O0 J0) as [_ [_ [X _]]]. cbn zeta in X.
      rewrite X in Hd. now destruct (Nat.eqb id (st_id st0)).
    + rewrite remove_stop_absent in Hd; auto; [apply G|]. intros sd s e st Ho I Ei.
      assert (Ie : In e (all_entries p)) by (apply (all_entries_owns [] p); [apply G|eauto]).
      pose proof (find_none _ _ Ef e Ie) as N. cbn in N. assert (X : has_stop_id i (e_stops e) = true); [|congruence].
      apply has_stop_id_true. rewrite <- Ei. now apply in_map.
  - injection E as <-. left. apply kept_same; [discriminate|].
    destruct (remove_stops_effect p v t (gd_core _ _ G) S) as [_ [X _]]. cbn zeta in X. rewrite X in Hd.
    now destruct (nmem id _).
  - injection E as <-. left. apply kept_same; [discriminate|exact Hd].
Qed.

(** ** Histories with well formed stops *)
Lemma hist_ind_wf c (P : list op -> port -> Prop) : cfg_ok c ->
  P [] (init c) ->
  (forall ops p o p', run c ops = Some p -> stops_wf ops -> stops_wf (ops ++ [o]) -> Good c p -> StopInv p -> op_fresh o p ->
     P ops p -> exec c (Some p) o = Some p' ->
     Good c p' -> StopInv p' -> history c (ops ++ [o]) = history c ops ++ [(p, o, p')] -> P (ops ++ [o]) p') ->
  forall ops p, run c ops = Some p -> stops_wf ops -> P ops p.
Proof.
  intros K H0 HS. apply (hist_ind c (fun ops p => stops_wf ops -> P ops p) K); auto.
  intros ops p o p' R G IH E G' Hh W. pose proof (wf_snoc _ _ W) as W0.
  destruct (run_stop_all c ops p K R W0) as [S A]. pose proof (wf_fresh _ _ _ W A) as F.
  apply (HS ops p); auto. pose proof (step_stop c o p K G S F) as X. unfold exec in E.
  destruct (step c o p) as [p1 u|p1 []]; try discriminate; injection E as <-; auto.
Qed.
Lemma run_snoc c ops p : run c ops = Some p -> forall o p', exec c (Some p) o = Some p' -> run c (ops ++ [o]) = Some p'.
Proof. intros R o p' E. unfold run in *. rewrite fold_left_app. cbn. now rewrite R. Qed.

Definition trail_step (st : stop) (x : port * op * port) : list scope :=
  match x with
  | (q, OpCheckStops _ sc _, _) =>
      match level q (st_id st) with
      | Some v => if sc_can_price sc (st_sym st) && negb (reachedb sc st v) then [sc] else []
      | None => []
      end
  | _ => []
  end.
Lemma trail_snoc c ops o p p' st : history c (ops ++ [o]) = history c ops ++ [(p, o, p')] ->
  trail_bars c (ops ++ [o]) st = trail_bars c ops st ++ trail_step st (p, o, p').
Proof. intro H. unfold trail_bars. rewrite H, flat_map_app. cbn [flat_map]. now rewrite app_nil_r. Qed.
Lemma level_known c ops p id v : cfg_ok c -> run c ops = Some p -> stops_wf ops -> level p id = Some v ->
  In id (map st_id (flat_map op_stops ops)).
Proof.
  intros K R W H. destruct (run_stop_all c ops p K R W) as [S A]. unfold level in H.
  destruct (aget id (p_stop_data p)) as [d|] eqn:Ed; [|discriminate].
  destruct (si_reg _ S _ _ Ed) as [G1 [_ [e [G3 [_ G5]]]]]. rewrite <- G1. eapply A; eauto.
Qed.
(** A stop that no call has brought yet has seen no bar. *)
Lemma trail_none c ops p st : cfg_ok c -> run c ops = Some p -> stops_wf ops ->
  ~ In (st_id st) (map st_id (flat_map op_stops ops)) -> trail_bars c ops st = [].
Proof.
  intros K R W. revert ops p R W.
  apply (hist_ind_wf c (fun ops _ => ~ In (st_id st) (map st_id (flat_map op_stops ops)) -> trail_bars c ops st = []) K); auto.
  intros ops p o p' R W W' G S F IH E G' S' Hh N.
  rewrite flat_map_app, map_app, in_app_iff in N.
  rewrite (trail_snoc _ _ _ _ _ _ Hh), IH by tauto. cbn. destruct o; auto.
  destruct (level p (st_id st)) as [v|] eqn:El; auto. apply level_known with (c := c) (ops := ops) in El; auto. tauto.
Qed.

Lemma initial_spec st e v : st_type st <> SBar -> set_by st e v -> v = level_from st (e_price e).
Proof.
  intros T [a [H ->]]. unfold initial_stop_value, level_from, stop_distance, falling, stop_amount in *.
  assert (X : (match st_percent st with Some pc => e_price e * pc / 100 | None => match st_points st with Some k => k | None => 0 end end) = a).
  { destruct (st_percent st); [now injection H|]. now rewrite H. }
  rewrite X. destruct (st_pos st), (st_type st); congruence || reflexivity.
Qed.
Lemma ratchet_spec st v sc x : st_type st = STrailing -> ratchet st v sc = Some x ->
  x = tighter st (level_from st (extreme sc st)) v.
Proof.
  intros T. unfold ratchet, tighter, level_from, falling, extreme, stop_distance, stop_amount. rewrite T.
  destruct (st_pos st), (st_percent st), (st_points st); cbn; intro H; try discriminate; now injection H.
Qed.

Theorem level_history c ops p : cfg_ok c -> run c ops = Some p -> stops_wf ops ->
  forall id d, aget id (p_stop_data p) = Some d -> exists e,
    owns p (st_pos (sd_stop d)) (st_sym (sd_stop d)) e /\ e_id e = sd_entry d /\
    sd_value d = trailed (sd_stop d) (e_price e) (trail_bars c ops (sd_stop d)).
Proof.
  intros K R W. revert ops p R W.
  apply (hist_ind_wf c (fun ops p => forall id d, aget id (p_stop_data p) = Some d -> exists e,
    owns p (st_pos (sd_stop d)) (st_sym (sd_stop d)) e /\ e_id e = sd_entry d /\
    sd_value d = trailed (sd_stop d) (e_price e) (trail_bars c ops (sd_stop d))) K).
  { intros id d H. discriminate. }
  intros ops p o p' R W W' G S F IH E G' S' Hh id d' Hd'.
  destruct (si_reg _ S' _ _ Hd') as [G1 [G2 [e' [G3 [G4 G5]]]]].
  destruct (step_level c o p p' K G S F E id d' Hd') as [[[d [D1 [D2 [D3 D4]]]]]|[FI [e [O1 [O2 [O3 O4]]]]]].
  - destruct (IH id d D1) as [e [O1 [O2 O3]]]. exists e'. split; auto. split; auto.
    assert (EP : e_price e' = e_price e).
    { destruct (step_entry c o p p' K G E) as [_ SE]. destruct (SE _ _ _ G3) as [[e0 [O0 V]]|B].
      - destruct (core_owns_inj _ _ _ _ _ _ _ _ (gd_core _ _ G) O0 O1) as [_ [_ ->]]; [|apply V].
        rewrite <- (vo_id _ _ _ _ _ V). congruence.
      - exfalso. pose proof (bo_id _ _ _ B). pose proof (co_bound _ _ (gd_core _ _ G) _ _ _ O1). lia. }
    rewrite EP, D2, (trail_snoc _ _ _ _ _ _ Hh). rewrite D2 in G1, G2. unfold moved in D4. unfold trail_step.
    assert (SAME : sd_value d' = sd_value d -> sd_value d' = trailed (sd_stop d) (e_price e) (trail_bars c ops (sd_stop d) ++ [])).
    { intro X. now rewrite app_nil_r, X. }
    destruct o; auto.
    assert (L : level p (st_id (sd_stop d)) = Some (sd_value d)) by (unfold level; now rewrite G1, D1).
    rewrite L. destruct (sc_can_price sc (st_sym (sd_stop d))); cbn [andb]; auto.
    unfold next_level in D4. rewrite trigger_spec in D4 by auto.
    destruct (reachedb sc (sd_stop d) (sd_value d)); cbn [negb].
    + apply SAME. destruct (st_type (sd_stop d)); congruence.
    + unfold trailed in *. destruct (st_type (sd_stop d)) eqn:T; try congruence.
      rewrite fold_left_app. cbn [fold_left]. rewrite <- O3. now apply ratchet_spec.
  - exists e'. split; auto. split; auto.
    destruct (core_owns_inj _ _ _ _ _ _ _ _ (gd_core _ _ G') O1 G3) as [_ [_ <-]]; [congruence|].
    apply initial_spec in O4; auto. rewrite O4, (trail_snoc _ _ _ _ _ _ Hh).
    assert (N : ~ In (st_id (sd_stop d')) (map st_id (flat_map op_stops ops))).
    { intro I. destruct W' as [ND _]. rewrite flat_map_app, map_app in ND. cbn in ND. rewrite app_nil_r in ND.
      revert ND I. generalize (map st_id (flat_map op_stops ops)). intros l ND I.
      induction l as [|y r IHr]; [destruct I|]. cbn in ND. inversion ND as [|? ? N1 N2]; subst. destruct I as [->|I]; auto.
      apply N1. apply in_app_iff. right. now apply in_map. }
    rewrite (trail_none c ops p); auto.
    assert (X : trail_step (sd_stop d') (p, o, p') = []).
    { unfold trail_step. destruct o; auto. destruct (level p (st_id (sd_stop d'))) as [v|] eqn:El; auto.
      exfalso. apply N. eapply level_known; eauto. }
    rewrite X. cbn. unfold trailed. destruct (st_type (sd_stop d')); reflexivity.
Qed.

(** The level of every price stop, from the entry price and the bars seen. *)
Theorem stop_level c ops p sd s e st : cfg_ok c -> run c ops = Some p -> stops_wf ops ->
  In e (queue p sd s) -> In st (e_stops e) -> st_type st <> SBar ->
  level p (st_id st) = Some (trailed st (e_price e) (trail_bars c ops st)).
Proof.
  intros K R W I Is T. pose proof (run_stop c ops p K W R) as S. apply owns_queue in I.
  destruct (si_has _ S _ _ _ _ I Is T) as [d [D1 [D2 D3]]].
  destruct (level_history c ops p K R W _ _ D1) as [e' [O1 [O2 O3]]].
  pose proof (run_good c ops p K R) as G.
  destruct (core_owns_inj _ _ _ _ _ _ _ _ (gd_core _ _ G) O1 I) as [_ [_ ->]]; [congruence|].
  unfold level. rewrite D1. cbn. now rewrite O3, D2.
Qed.
(** A trailing level never moves away from the market. *)
Theorem level_tightens c ops o p p' id v v' : cfg_ok c -> run c ops = Some p -> stops_wf (ops ++ [o]) ->
  exec c (Some p) o = Some p' -> level p id = Some v -> level p' id = Some v' ->
  exists sd s e st, In e (queue p' sd s) /\ In st (e_stops e) /\ st_id st = id /\
    match sd with Long => v <= v' | Short => v' <= v end /\ (st_type st <> STrailing -> v' = v).
Proof.
  intros K R W' E L L'. pose proof (wf_snoc _ _ W') as W. pose proof (run_good c ops p K R) as G.
  destruct (run_stop_all c ops p K R W) as [S A]. pose proof (wf_fresh _ _ _ W' A) as F.
  unfold level in L, L'. destruct (aget id (p_stop_data p)) as [d|] eqn:Ed; [|discriminate].
  destruct (aget id (p_stop_data p')) as [d'|] eqn:Ed'; [|discriminate]. cbn in L, L'. injection L as <-. injection L' as <-.
  pose proof (run_stop c _ p' K W' (run_snoc _ _ _ R _ _ E)) as S'.
  destruct (si_reg _ S' _ _ Ed') as [G1 [G2 [e' [G3 [G4 G5]]]]].
  exists (st_pos (sd_stop d')), (st_sym (sd_stop d')), e', (sd_stop d'). split; [now apply owns_queue|]. split; auto. split; auto.
  destruct (step_level c o p p' K G S F E id d' Ed') as [[[d0 [D1 [D2 [D3 D4]]]]]|[FI _]].
  - rewrite Ed in D1. injection D1 as <-. rewrite D2 in *.
    assert (SAME : sd_value d' = sd_value d -> match st_pos (sd_stop d) with Long => sd_value d <= sd_value d' | Short => sd_value d' <= sd_value d end /\
      (st_type (sd_stop d) <> STrailing -> sd_value d' = sd_value d)).
    { intros ->. split; auto. destruct (st_pos (sd_stop d)); lra. }
    unfold moved in D4. destruct o; auto. destruct (sc_can_price sc (st_sym (sd_stop d))); auto.
    unfold next_level in D4. destruct (st_type (sd_stop d)) eqn:T; try (apply SAME; congruence).
    destruct (trigger_price_stop _ _ _); [apply SAME; congruence|]. split; [|congruence].
    apply ratchet_spec in D4; auto. rewrite D4. unfold tighter. destruct (st_pos (sd_stop d)).
    + pose proof (Qmax_cases (level_from (sd_stop d) (extreme sc (sd_stop d))) (sd_value d)). lra.
    + pose proof (Qmin_cases (level_from (sd_stop d) (extreme sc (sd_stop d))) (sd_value d)). lra.
  - exfalso. assert (I : In id (map st_id (flat_map op_stops ops))).
    { eapply (level_known c ops p); eauto. unfold level. rewrite Ed. reflexivity. }
    destruct W' as [ND _]. rewrite flat_map_app, map_app in ND. cbn in ND. rewrite app_nil_r in ND.
    revert ND I. generalize (map st_id (flat_map op_stops ops)). intros l ND I.
    induction l as [|y r IHr]; [destruct I|]. cbn in ND. inversion ND as [|? ? N1 N2]; subst. destruct I as [Eq|I]; auto.
    apply N1. apply in_app_iff. right. rewrite Eq. now apply in_map.
Qed.
