(** How far below zero the cash of an account without leverage can go. *)
From Verif Require Export CashSpec PortfolioPower.

Lemma max0_nonneg x : 0 <= Qmax 0 x. Proof. apply Q.le_max_l. Qed.
Lemma max0_ge x : x <= Qmax 0 x. Proof. apply Q.le_max_r. Qed.
Lemma sum_nonneg {T} (f : T -> Q) l : (forall x, 0 <= f x) -> 0 <= Qsum (map f l).
Proof. intro H. induction l as [|x l IH]; cbn in *; [lra|]. specialize (H x). lra. Qed.
Lemma stake_nonneg t : 0 <= beyond_stake t.
Proof. unfold beyond_stake. destruct (t_type t); apply max0_nonneg. Qed.
Lemma overdraft_nonneg p : 0 <= overdraft p.
Proof.
  unfold overdraft. pose proof (sum_nonneg (fun o => Qmax 0 (o_fees o)) (p_orders p) (fun o => max0_nonneg _)).
  pose proof (sum_nonneg beyond_stake (p_trades p) stake_nonneg). lra.
Qed.
(** What a trade gives back is at worst minus its excess. *)
Lemma stake_ge t : trade_ok t -> - beyond_stake t <= t_shares t * t_entry t + t_pnl t.
Proof.
  intros [S _ P _ _ _ _]. unfold per_share in P. unfold beyond_stake. destruct (t_type t).
  - pose proof (max0_ge (- (t_shares t * t_exit t))). lra.
  - pose proof (max0_ge (t_shares t * (t_exit t - 2 * t_entry t))). lra.
Qed.
Lemma stakes_ge ts : Forall trade_ok ts ->
  - Qsum (map beyond_stake ts) <= Qsum (map (fun t => t_shares t * t_entry t) ts) + Qsum (map t_pnl ts).
Proof.
  induction 1 as [|t ts H F IH]; cbn in *; [lra|]. pose proof (stake_ge t H). unfold Qsum in *. lra.
Qed.

Lemma place_overdraft c o a p p' r : cfg_ok c -> c_leverage c == 1 -> Good c p -> - overdraft p <= p_cash p ->
  place c o a p = Ret p' r -> - overdraft p' <= p_cash p'.
Proof.
  intros K CL G H0 E. destruct r as [ord|].
  2:{ destruct (place_ret _ _ _ _ _ _ K G E) as [[_ [CO _]]|[p2 [filled [bought [_ [_ [_ [_ [_ [_ X]]]]]]]]]]; [|discriminate].
      unfold overdraft in *. destruct (cc_acct _ _ CO). congruence. }
  pose proof (place_good c o a p K G) as G'. rewrite E in G'.
  destruct (place_fifo c p o a p' ord K G E) as [ts [closed [Ht [Hff [Hc [Hm [HA HO]]]]]]].
  destruct (place_fill c p o a p' ord K G E) as [_ [_ [_ [_ [_ [_ [_ [_ [Eo Ef]]]]]]]]].
  assert (OK : Forall trade_ok ts).
  { pose proof (ld_trades _ _ _ (gd_led _ _ G')) as LT. rewrite Ht in LT. now apply Forall_app in LT. }
  pose proof (stakes_ge ts OK) as SG. pose proof (max0_nonneg (o_fees ord)) as F0. pose proof (max0_ge (o_fees ord)) as F1.
  assert (OV : overdraft p' == overdraft p + Qmax 0 (o_fees ord) + Qsum (map beyond_stake ts)).
  { unfold overdraft. rewrite Eo, Ht, !map_app, !Qsum_app. cbn. lra. }
  pose proof (overdraft_nonneg p) as OP. pose proof (sum_nonneg beyond_stake ts stake_nonneg) as SN.
  assert (CASES : 0 <= p_cash p' + o_fees ord \/ o_shares ord <= closed).
  { destruct (place_ret _ _ _ _ _ _ K G E) as [[X _]|[p2 [filled [bought [Hs [Hf [HL [HF [Hz [Ep Er]]]]]]]]]]; [discriminate|].
    injection Er as Er. destruct HF as [_ _ HLed F4 F5 F6 [rem [p1 [Ecl [HCl Hop]]]]].
    assert (Es : o_shares ord = filled + bought) by (rewrite Er; reflexivity).
    destruct Hop as [[-> CO]|[[B0 B1 [q [o' [CO [B2 [Eq2 HOp]]]]]] _]].
    - right. rewrite Es, Hm. pose proof (cl_held _ _ _ _ _ _ _ _ HCl) as CH. pose proof (cl_rem _ _ _ _ _ _ _ _ HCl). pose proof (cl_sum _ _ _ _ _ _ _ _ HCl).
      change (closes o) with (closing o) in CH. change (shares_held p (closing o) (a_sym a)) with (held (closing o) p (a_sym a)).
      assert (HH : 0 <= held (closing o) p1 (a_sym a)).
      { unfold held. destruct (aget (a_sym a) (poss (closing o) p1)) as [pos|] eqn:Eg; [|lra].
        pose proof (co_pos _ _ (cl_core _ _ _ _ _ _ _ _ HCl) _ _ _ Eg) as PO. rewrite (po_shares _ _ _ _ PO).
        assert (FA : forall e, In e (ps_entries pos) -> 0 <= e_shares e).
        { intros e I. pose proof (eo_pos _ _ _ _ (po_entries _ _ _ _ PO e I) (fun x => x)). lra. }
        clear -FA. induction (ps_entries pos) as [|e l IH]; cbn; [lra|]. pose proof (FA e (or_introl eq_refl)).
        assert (0 <= Qsum (map e_shares l)) by (apply IH; intros; apply FA; now right). unfold Qsum in *. lra. }
      apply Q.min_glb; lra.
    - left. subst o'. set (bq := bought) in *.
      assert (CASH : p_cash p' == p_cash p2 - o_fees ord).
      { rewrite Ep. unfold the_order. rewrite add_order_cash, Er. reflexivity. }
      assert (TC : total_cache_ok p1) by apply (ld_cache _ _ _ (cl_led _ _ _ _ _ _ _ _ HCl)).
      pose proof (clamp_cost c (a_sym a) (a_fill a) rem _ p1 bq K TC Hf B0 B2) as CC.
      assert (Q1 : Qle_bool (c_leverage c) 1 = true) by (apply Qle_bool_iff; lra). rewrite Q1 in CC. destruct CC as [C1 C2].
      assert (OC : p_cash p2 == p_cash p1 - bq * a_fill a).
      { rewrite (op_cash _ _ _ _ _ _ _ _ _ HOp), (sa_cash _ _ (cc_acct _ _ CO)).
        assert (Q2 : Qltb 1 (c_leverage c) = false) by (apply Qltb_nlt; lra). rewrite Q2. reflexivity. }
      lra. }
  destruct CASES as [C|C]; [lra|].
  assert (QO : queue p' (opening_side o) (a_sym a) = queue p (opening_side o) (a_sym a)).
  { destruct HA as [[Q _]|[e [_ [_ X]]]]; [exact Q|lra]. }
  pose proof (place_frame _ _ _ _ _ _ K G E) as [FB [FA _]].
  pose proof (ld_money _ _ _ (gd_led _ _ G)) as M. pose proof (ld_money _ _ _ (gd_led _ _ G')) as M'.
  rewrite FB in M'. unfold margin_loan in M, M'.
  assert (Q1 : Qle_bool (c_leverage c) 1 = true) by (apply Qle_bool_iff; lra). rewrite Q1, FA in M'. rewrite Q1 in M.
  assert (PN : p_pnl p' == p_pnl p + Qsum (map t_pnl ts)).
  { rewrite (ld_pnl _ _ _ (gd_led _ _ G')), (ld_pnl _ _ _ (gd_led _ _ G)), Ht, map_app, Qsum_app. reflexivity. }
  assert (FE : p_fees p' == p_fees p + o_fees ord).
  { rewrite (ld_fees _ _ _ (gd_led _ _ G')), (ld_fees _ _ _ (gd_led _ _ G)), Eo, map_app, Qsum_app. cbn. lra. }
  pose proof (en_delta c p p' (closing o) (a_sym a) G G' (HO (closing o))) as E1.
  pose proof (en_delta c p p' (opening_side o) (a_sym a) G G' (HO (opening_side o))) as E2. rewrite QO in E2.
  destruct (fifo_cost _ _ _ _ _ _ _ Hff) as [A1 _].
  assert (EE : en Long p' + en Short p' - en Long p - en Short p == - Qsum (map (fun t => t_shares t * t_entry t) ts)) by (destruct o; cbn [closing opening_side] in *; lra).
  lra.
Qed.

Lemma interest_overdraft c p : cfg_ok c -> p_cash p <= p_cash (apply_interest c p) \/ 0 <= p_cash (apply_interest c p).
Proof.
  intros K. unfold apply_interest. destruct (c_bpy c) as [b|] eqn:Eb; [|left; lra].
  destruct (Qle_bool (c_rate c) 0) eqn:Er; [left; lra|]. apply Qle_bool_nle in Er.
  assert (S : p_cash p <= p_cash (sweep p) \/ 0 <= p_cash (sweep p)).
  { unfold sweep. destruct (Qle_bool (p_accrued p) 0 || Qle_bool (p_cash p) 0) eqn:E; [left; lra|]. right. cbn.
    pose proof (Q.le_min_l (p_cash p) (p_accrued p)). lra. }
  assert (I : 0 <= Qabs (net_cash c (sweep p)) * (c_rate c / 100 / b)).
  { apply Qmult_le_0_compat; [apply Qabs_nonneg|]. pose proof (ck_bpy _ K b Eb).
    apply Qle_shift_div_l; [auto|]. rewrite Qmult_0_l. apply Qle_shift_div_l; lra. }
  destruct (Qeq_bool (net_cash c (sweep p)) 0); [exact S|]. destruct (Qltb (net_cash c (sweep p)) 0); cbn; lra.
Qed.

Lemma cash_overdraft c ops p : cfg_ok c -> c_leverage c == 1 -> 0 <= c_cash c -> run c ops = Some p -> - overdraft p <= p_cash p.
Proof.
  intros K CL C0. revert ops p. refine (hist_ind c (fun _ p => - overdraft p <= p_cash p) K _ _).
  { cbn. unfold overdraft. cbn. lra. }
  intros ops p o p' R G IH E G' _.
  assert (SAME : forall q, p_cash q = p_cash p -> p_orders q = p_orders p -> p_trades q = p_trades p -> - overdraft q <= p_cash q).
  { intros q E1 E2 E3. unfold overdraft in *. rewrite E1, E2, E3. exact IH. }
  unfold exec in E. destruct o as [a|a|d s b sl sm|d sc sm|d bar|hb|id|v t|ml ms]; cbn [step] in E.
  - rewrite buy_place in E. pose proof (place_good c OBuy a p K G) as H. destruct (place c OBuy a p) as [q r|q []] eqn:Ep; cbn in E; inversion E; subst; auto.
    exact (place_overdraft c OBuy a p p' r K CL G IH Ep).
  - rewrite sell_place in E. pose proof (place_good c OSell a p K G) as H. destruct (place c OSell a p) as [q r|q []] eqn:Ep; cbn in E; inversion E; subst; auto.
    exact (place_overdraft c OSell a p p' r K CL G IH Ep).
  - pose proof (exit_cases (fun q => - overdraft q <= p_cash q) c d s b sl sm p K G IH) as H.
    assert (HP : forall o a p0 p'0 r, Good c p0 -> - overdraft p0 <= p_cash p0 -> a_stops a = None -> place c o a p0 = Ret p'0 r -> - overdraft p'0 <= p_cash p'0).
    { intros o a p0 p1 r G0 E0 _ E2. eapply place_overdraft; eauto. }
    specialize (H HP). destruct (exit_position c d s b sl sm p) as [q r|q []]; inversion E; subst; tauto.
  - pose proof (check_stops_ok c d sc sm p K G) as H. destruct (check_stops c d sc sm p) as [q r|q []]; inversion E; subst.
    + destruct H as [evs [H _]].
      destruct (so_trades _ _ _ _ _ _ _ H) as [new [Hn Hf]]. destruct (so_orders _ _ _ _ _ _ _ H) as [newo [Hno Hfo]].
      assert (OK : Forall trade_ok new).
      { pose proof (ld_trades _ _ _ (gd_led _ _ G')) as LT. rewrite Hn in LT. now apply Forall_app in LT. }
      assert (OV : overdraft p' == overdraft p + Qsum (map (fun o => Qmax 0 (o_fees o)) newo) + Qsum (map beyond_stake new)).
      { unfold overdraft. rewrite Hn, Hno, !map_app, !Qsum_app. lra. }
      assert (X : - Qsum (map (fun o => Qmax 0 (o_fees o)) newo) - Qsum (map beyond_stake new) <= Qsum (map (ev_cash c) evs)).
      { clear -Hf Hfo OK CL. revert newo Hfo. induction Hf as [|v t evs new T Hf IH]; intros newo Hfo; inversion Hfo as [|? y ? newo' O Hfo']; subst; cbn [map Qsum fold_right]; [lra|].
        inversion OK as [|? ? T1 OK']; subst. specialize (IH OK' newo' Hfo').
        assert (EV : - Qmax 0 (o_fees y) - beyond_stake t <= ev_cash c v); [|unfold Qsum in *; lra].
        unfold ev_cash. assert (Q2 : Qltb 1 (c_leverage c) = false) by (apply Qltb_nlt; lra). rewrite Q2.
        pose proof (max0_ge (o_fees y)) as F1. rewrite (oo_fees _ _ _ _ O) in F1 at 1. pose proof (stake_ge t T1) as SG.
        assert (Z : t_shares t * t_entry t + t_pnl t == e_shares (v_entry v) * e_price (v_entry v) + exit_pnl (v_sd v) (v_entry v) (e_shares (v_entry v)) (v_fill v)).
        { rewrite (to_pnl _ T1). unfold per_share, exit_pnl. destruct T. rewrite tt_type, tt_shares, tt_entry, tt_exit. destruct (v_sd v); lra. }
        lra. }
      rewrite (so_cash _ _ _ _ _ _ _ H). lra.
    + destruct H. congruence.
  - injection E as <-. pose proof (capture_ok c d bar p K G) as CA.
    assert (EO : overdraft (capture_bar c d bar p) = overdraft p).
    { unfold overdraft. rewrite (ca_trades _ _ _ _ _ CA), (ca_orders _ _ _ _ _ CA). reflexivity. }
    rewrite EO, capture_cash. pose proof (overdraft_nonneg p). destruct (interest_overdraft c p K); lra.
  - injection E as <-. now apply SAME.
  - injection E as <-. destruct (rs_acct _ _ (remove_stop_strips id p)). now apply SAME.
  - injection E as <-. destruct (rs_acct _ _ (remove_stops_strips v t p)). now apply SAME.
  - injection E as <-. now apply SAME.
Qed.

(** ** Orders that open, also after closing the other side *)
Lemma flip_open c p o a p' ord : cfg_ok c -> Good c p -> place c o a p = Ret p' (Some ord) -> 1 < c_leverage c -> fees_grow c ->
  let b := o_shares ord - Qmin (a_shares a) (shares_held p (closing o) (a_sym a)) in 0 < b ->
  exposure p' <= c_leverage c * (live_value c p' + o_fees ord - calculate_fees c (a_sym a) (a_fill a) b o).
Proof.
  intros K G E L FG b Hb. pose proof (place_good c o a p K G) as PG. rewrite E in PG.
  destruct (place_ret _ _ _ _ _ _ K G E) as [[X _]|[p2 [filled [bought [Hs [Hf [HL [HF [Hz [Ep Eo]]]]]]]]]]; [discriminate|].
  injection Eo as Eo. pose proof HF as HF'. destruct HF as [_ _ HLed F4 F5 F6 [rem [p1 [Ecl [HCl Hop]]]]].
  pose proof (cl_held _ _ _ _ _ _ _ _ HCl) as CH. pose proof (cl_rem _ _ _ _ _ _ _ _ HCl) as CR. pose proof (cl_sum _ _ _ _ _ _ _ _ HCl) as CS.
  change (closes o) with (closing o) in CH. change (shares_held p (closing o) (a_sym a)) with (held (closing o) p (a_sym a)) in b.
  assert (HH : 0 <= held (closing o) p1 (a_sym a)).
  { unfold held. destruct (aget (a_sym a) (poss (closing o) p1)) as [pos|] eqn:Eg; [|lra].
    pose proof (co_pos _ _ (cl_core _ _ _ _ _ _ _ _ HCl) _ _ _ Eg) as PO. rewrite (po_shares _ _ _ _ PO).
    assert (FA : forall e, In e (ps_entries pos) -> 0 <= e_shares e).
    { intros e I. pose proof (eo_pos _ _ _ _ (po_entries _ _ _ _ PO e I) (fun x => x)). lra. }
    clear -FA. induction (ps_entries pos) as [|e l IH]; cbn; [lra|]. pose proof (FA e (or_introl eq_refl)).
    assert (0 <= Qsum (map e_shares l)) by (apply IH; intros; apply FA; now right). unfold Qsum in *. lra. }
  assert (Es : o_shares ord = filled + bought) by (rewrite Eo; reflexivity).
  destruct Hop as [[B CO]|[[B0 B1 [q [o' [CO [B2 [Eo' HO]]]]]] _]].
  { exfalso. unfold b in Hb. rewrite Es, B in Hb. assert (filled <= Qmin (a_shares a) (held (closing o) p (a_sym a))) by (apply Q.min_glb; lra). lra. }
  subst o'. assert (GONE : held (closing o) p1 (a_sym a) == 0).
  { unfold held. change (closing o) with (closes o). rewrite (cl_gone _ _ _ _ _ _ _ _ HCl) by lra. reflexivity. }
  assert (Eb : b == bought).
  { unfold b. rewrite Es. assert (M : Qmin (a_shares a) (held (closing o) p (a_sym a)) == filled) by (rewrite Q.min_r; lra). rewrite M. lra. }
  assert (Ef : o_fees ord = calculate_fees c (a_sym a) (a_fill a) (filled + bought) o) by (rewrite Eo; reflexivity).
  set (bq := bought) in *. set (fe := o_fees ord) in *.
  assert (TC : total_cache_ok p1) by apply (ld_cache _ _ _ (cl_led _ _ _ _ _ _ _ _ HCl)).
  assert (CASH : p_cash p' == p_cash p2 - fe). { rewrite Ep. unfold the_order. rewrite add_order_cash, Ef. reflexivity. }
  assert (Bo : o = match opens o with Long => OBuy | Short => OSell end) by (destruct o; reflexivity).
  assert (B2' : b <= fst (clamp_shares c (a_sym a) (a_fill a) rem (match opens o with Long => OBuy | Short => OSell end) p1)) by (rewrite Eb; exact B2).
  pose proof (clamp_cost c (a_sym a) (a_fill a) rem _ p1 b K TC Hf Hb B2') as CC. rewrite <- Bo in CC.
  assert (Q0 : Qle_bool (c_leverage c) 1 = false) by (apply Qle_bool_nle; lra). rewrite Q0 in CC. specialize (CC FG).
  assert (Q1 : Qltb 1 (c_leverage c) = true) by (apply Qltb_lt; lra).
  assert (OC : p_cash p2 == p_cash p1 - bq * a_fill a / c_leverage c).
  { rewrite (op_cash _ _ _ _ _ _ _ _ _ HO), (sa_cash _ _ (cc_acct _ _ CO)), Q1. reflexivity. }
  assert (AC : p_accrued p' = p_accrued p1).
  { rewrite Ep. unfold the_order. rewrite add_order_accrued, (op_accrued _ _ _ _ _ _ _ _ _ HO). apply (sa_accrued _ _ (cc_acct _ _ CO)). }
  assert (EN : forall sd, en sd p' == en sd p1 + if side_eqb sd (opens o) then bq * a_fill a else 0).
  { intro sd. rewrite Ep. unfold the_order. rewrite add_order_en. destruct (side_dec sd (opens o)) as [->|Ns].
    - rewrite (op_en _ _ _ _ _ _ _ _ _ HO), (sa_en _ _ (cc_acct _ _ CO)). assert (X : side_eqb (opens o) (opens o) = true) by (destruct o; reflexivity). rewrite X. reflexivity.
    - rewrite (flip_neq _ _ Ns), (op_enf _ _ _ _ _ _ _ _ _ HO), (sa_en _ _ (cc_acct _ _ CO)).
      assert (X : side_eqb (flip (opens o)) (opens o) = false) by (destruct o; reflexivity). rewrite X. lra. }
  assert (TM : forall sd, total_marked (poss sd p') == total_marked (poss sd p1) + if side_eqb sd (opens o) then bq * a_fill a else 0).
  { intro sd. rewrite Ep. unfold the_order. rewrite add_order_poss. destruct (side_dec sd (opens o)) as [->|Ns].
    - rewrite (op_poss _ _ _ _ _ _ _ _ _ HO), total_marked_aset, opened_value.
      assert (X : side_eqb (opens o) (opens o) = true) by (destruct o; reflexivity). rewrite X, (cc_poss _ _ CO). lra.
    - rewrite (flip_neq _ _ Ns), (op_flip _ _ _ _ _ _ _ _ _ HO), (cc_poss _ _ CO).
      assert (X : side_eqb (flip (opens o)) (opens o) = false) by (destruct o; reflexivity). rewrite X. lra. }
  pose proof (EN Long) as EN1. pose proof (EN Short) as EN2. pose proof (TM Long) as TM1. pose proof (TM Short) as TM2.
  cbn [en poss] in EN1, EN2, TM1, TM2.
  assert (HE : exposure p' == exposure p1 + bq * a_fill a) by (unfold exposure; rewrite TM1, TM2; destruct o; cbn; lra).
  assert (HV : live_value c p' == live_value c p1 - fe).
  { unfold live_value, margin_loan. rewrite TM1, TM2, CASH, OC, Q0, AC, EN1, EN2. destruct o; cbn; field; lra. }
  rewrite HE, HV. assert (Z : b * a_fill a == bq * a_fill a) by now rewrite Eb. lra.
Qed.
Lemma leverage_slack c ops p o a p' ord : cfg_ok c -> run c ops = Some p -> 1 < c_leverage c -> fees_grow c ->
  send c o a p = Ret p' (Some ord) ->
  let b := o_shares ord - Qmin (a_shares a) (shares_held p (closing o) (a_sym a)) in 0 < b ->
  committed p' <= c_leverage c * (account_value c p' + o_fees ord - calculate_fees c (a_sym a) (a_fill a) b o).
Proof.
  intros K R L FG E b Hb. rewrite send_place in E. pose proof (run_good _ _ _ K R) as G.
  pose proof (place_good c o a p K G) as G'. rewrite E in G'. rewrite <- (live_account c p' G').
  exact (flip_open c p o a p' ord K G E L FG Hb).
Qed.
