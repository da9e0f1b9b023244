(** Buying power: what opening orders may commit, and the cash account. *)
From Verif Require Export PortfolioValue.
From Coq Require Import Permutation.

Lemma floor_le x : inject_Z (Qfloor x) <= x. Proof. apply Qfloor_le. Qed.
Lemma quantize_le x : quantize_down x <= x.
Proof.
  unfold quantize_down. apply Qle_shift_div_r; [reflexivity|]. apply floor_le.
Qed.
Lemma grow_builtin c : (forall f, c_fee_mode c <> Some (FeeFn f)) -> (forall x, c_fee_amount c = Some x -> 0 <= x) -> fees_grow c.
Proof.
  intros N A s fill a b o Hf Ha Hab. unfold calculate_fees.
  destruct (c_fee_mode c) as [[]|]; try lra; destruct (c_fee_amount c) as [x|]; try lra; specialize (A x eq_refl).
  - exfalso. now apply (N f).
  - assert (0 <= x / 100) by (apply Qle_shift_div_l; lra).
    assert (Hk : 0 <= x / 100 * fill) by (apply Qmult_le_0_compat; lra). set (k := x / 100 * fill) in *. clearbody k.
    assert (0 <= k * (b - a)) by (apply Qmult_le_0_compat; lra). lra.
  - assert (0 <= x * (b - a)) by (apply Qmult_le_0_compat; lra). lra.
Qed.

(** How much a clamped opening order may cost. *)
Lemma clamp_cost c s fill req o p b : cfg_ok c -> total_cache_ok p -> 0 < fill -> 0 < b ->
  b <= fst (clamp_shares c s fill req o p) ->
  if Qle_bool (c_leverage c) 1 then 0 <= p_cash p /\ b * fill <= p_cash p
  else fees_grow c -> b * fill + c_leverage c * calculate_fees c s fill b o <= live_value c p * c_leverage c - exposure p.
Proof.
  intros K TC Hf Hb. unfold clamp_shares. destruct (buying_power c p) as [bp p1] eqn:E.
  pose proof (buying_power_ok c p) as [C V]. rewrite E in C, V. cbn in C, V. specialize (V TC). unfold power in V.
  assert (ML : forall m, b <= (if c_fractional c then quantize_down (m / fill) else inject_Z (Qfloor (m / fill))) -> b * fill <= m).
  { intros m H. assert (b <= m / fill).
    { destruct (c_fractional c); [pose proof (quantize_le (m / fill))|pose proof (floor_le (m / fill))]; lra. }
    assert (E0 : m == (m / fill) * fill) by (field; lra). rewrite E0. apply Qmult_le_compat_r; lra. }
  assert (MN : forall x y, b <= Qmin x y -> b <= x /\ b <= y).
  { intros x y H. destruct (Qmin_cases x y) as [[M1 M2]|[M1 M2]]; lra. }
  destruct (lev_cases c K) as [[L1 [L2 L3]]|[L1 [L2 L3]]]; rewrite L2 in *.
  - cbn [andb]. assert (Q1 : Qltb 1 (c_leverage c) = true) by (apply Qltb_lt; lra). rewrite Q1.
    assert (POS : b * fill <= bp -> bp == live_value c p * c_leverage c - exposure p).
    { intro H. assert (0 < b * fill) by (apply Qmult_lt_0_compat; lra).
      destruct (Qmax_cases (live_value c p * c_leverage c - exposure p) 0) as [[M1 M2]|[M1 M2]]; lra. }
    intros H FG. cbn zeta in H.
    assert (AFF : b * fill <= bp -> b <= req -> b <= Qmin req (bp / fill)).
    { intros H1 H2. assert (b <= bp / fill) by (apply Qle_shift_div_l; lra).
      destruct (Qmin_cases req (bp / fill)) as [[M1 M2]|[M1 M2]]; lra. }
    pose proof (fun Z1 Z2 => FG s fill b (Qmin req (bp / fill)) o Hf Hb (AFF Z1 Z2)) as FG'.
    set (fe := calculate_fees c s fill (Qmin req (bp / fill)) o) in *.
    destruct (Qltb 0 fe) eqn:E1; qb.
    + destruct (Qle_bool (bp - fe * c_leverage c) 0) eqn:E2; [cbn in H; lra|]. cbn in H. apply MN in H. destruct H as [H1 H2].
      apply ML in H2. assert (0 <= fe * c_leverage c) by (apply Qmult_le_0_compat; lra).
      specialize (POS ltac:(lra)). specialize (FG' ltac:(lra) H1).
      assert (0 <= c_leverage c * (fe - calculate_fees c s fill b o)) by (apply Qmult_le_0_compat; lra). lra.
    + cbn in H. apply MN in H. destruct H as [H1 H2]. apply ML in H2. specialize (POS H2). specialize (FG' H2 H1).
      assert (0 <= c_leverage c * (- calculate_fees c s fill b o)) by (apply Qmult_le_0_compat; lra). lra.
  - assert (Q1 : Qltb 1 (c_leverage c) = false) by (apply Qltb_nlt; lra). rewrite Q1.
    cbn [andb]. destruct (Qltb (p_cash p1) 0) eqn:E3; [cbn; intro; lra|]. intro H. cbn in H. apply MN in H. destruct H as [_ H].
    apply ML in H. qb. rewrite (sa_cash _ _ (cc_acct _ _ C)) in E3. split; [lra|].
    destruct (Qmax_cases (p_cash p) 0) as [[M1 M2]|[M1 M2]]; lra.
Qed.

(** Adding an opening fill to a valuation. *)
Lemma opened_value sd s b fill e p :
  marked_value (opened sd s b fill e p) == match aget s (poss sd p) with Some pos => marked_value pos | None => 0 end + b * fill.
Proof.
  unfold opened, marked_value, add_unmarked, new_pos. destruct (aget s (poss sd p)) as [pos|]; cbn.
  - destruct (Qle_bool (ps_close pos) 0); [lra|].
    destruct (Qle_bool (ps_shares pos + b - (ps_un_shares pos + b)) 0) eqn:E1;
    destruct (Qle_bool (ps_shares pos - ps_un_shares pos) 0) eqn:E2; qb; try lra.
  - change (Qle_bool 0 0) with true. cbn. lra.
Qed.
Lemma total_marked_aset s pos d :
  total_marked (aset s pos d) == total_marked d - match aget s d with Some w => marked_value w | None => 0 end + marked_value pos.
Proof.
  change (total_marked (aset s pos d)) with (asum marked_value (aset s pos d)). change (total_marked d) with (asum marked_value d).
  destruct (aget s d) as [w|] eqn:E; [now apply asum_aset_in|]. rewrite asum_aset_new by auto. lra.
Qed.

(** A pure opening order (nothing to close on the other side). *)
Lemma pure_open c p o a p' ord : cfg_ok c -> Good c p -> place c o a p = Ret p' (Some ord) ->
  position_of p (closing o) (a_sym a) = None ->
  let b := o_shares ord in let fees := o_fees ord in
  0 < b /\ 0 < a_fill a /\ fees == calculate_fees c (a_sym a) (a_fill a) b o /\
  p_accrued p' = p_accrued p /\ total_cache_ok p' /\
  (if Qle_bool (c_leverage c) 1 then 0 <= p_cash p /\ b * a_fill a <= p_cash p /\ p_cash p' == p_cash p - b * a_fill a - fees
   else fees_grow c -> b * a_fill a + c_leverage c * fees <= live_value c p * c_leverage c - exposure p) /\
  exposure p' == exposure p + b * a_fill a /\ live_value c p' == live_value c p - fees.
Proof.
  intros K G E N. pose proof (place_good c o a p K G) as PG. rewrite E in PG.
  pose proof (place_frame _ _ _ _ _ _ K G E) as [_ [FA _]].
  destruct (place_ret _ _ _ _ _ _ K G E) as [[X _]|[p2 [filled [bought [Hs [Hf [HL [HF [Hz [-> Eo]]]]]]]]]]; [discriminate|].
  injection Eo as Eo. pose proof HF as HF'. destruct HF as [_ _ HLed F4 F5 F6 [rem [p1 [Ecl [HCl Hop]]]]].
  unfold close_existing in Ecl. change (closes o) with (closing o) in Ecl. unfold position_of in N. rewrite N in Ecl.
  injection Ecl as <- <- <-.
  destruct Hop as [[-> CO]|[[B0 B1 [q [o' [CO [B2 [-> HO]]]]]] _]]; [exfalso; apply Hz; lra|].
  set (bq := bought) in *.
  assert (Es : o_shares ord = 0 + bq) by (rewrite Eo; reflexivity).
  assert (Ef : o_fees ord = calculate_fees c (a_sym a) (a_fill a) (0 + bq) o) by (rewrite Eo; reflexivity).
  cbn zeta. rewrite Es, Ef. set (fe := calculate_fees c (a_sym a) (a_fill a) (0 + bq) o).
  assert (TC : total_cache_ok p) by apply (ld_cache _ _ _ (gd_led _ _ G)).
  assert (TP : total_cache_ok (fst (the_order c o a 0 bq p2))) by apply (ld_cache _ _ _ (gd_led _ _ PG)).
  assert (CASH : p_cash (fst (the_order c o a 0 bq p2)) == p_cash p2 - fe) by apply add_order_cash.
  assert (Bo : o = match opens o with Long => OBuy | Short => OSell end) by (destruct o; reflexivity).
  pose proof (clamp_cost c (a_sym a) (a_fill a) (a_shares a) _ p (0 + bq) K TC Hf ltac:(lra) ltac:(rewrite Qplus_0_l; exact B2)) as CC.
  rewrite <- Bo in CC. fold fe in CC.
  assert (OC : p_cash p2 == if Qltb 1 (c_leverage c) then p_cash p - bq * a_fill a / c_leverage c else p_cash p - bq * a_fill a).
  { rewrite (op_cash _ _ _ _ _ _ _ _ _ HO), (sa_cash _ _ (cc_acct _ _ CO)). reflexivity. }
  assert (EN : forall sd, en sd (fst (the_order c o a 0 bq p2)) == en sd p + if side_eqb sd (opens o) then bq * a_fill a else 0).
  { intro sd. unfold the_order. rewrite add_order_en. destruct (side_dec sd (opens o)) as [->|Ns].
    - rewrite (op_en _ _ _ _ _ _ _ _ _ HO), (sa_en _ _ (cc_acct _ _ CO)). assert (X : side_eqb (opens o) (opens o) = true) by (destruct o; reflexivity). rewrite X. reflexivity.
    - rewrite (flip_neq _ _ Ns), (op_enf _ _ _ _ _ _ _ _ _ HO), (sa_en _ _ (cc_acct _ _ CO)).
      assert (X : side_eqb (flip (opens o)) (opens o) = false) by (destruct o; reflexivity). rewrite X. lra. }
  assert (TM : forall sd, total_marked (poss sd (fst (the_order c o a 0 bq p2))) == total_marked (poss sd p) + if side_eqb sd (opens o) then bq * a_fill a else 0).
  { intro sd. unfold the_order. rewrite add_order_poss. destruct (side_dec sd (opens o)) as [->|Ns].
    - rewrite (op_poss _ _ _ _ _ _ _ _ _ HO), total_marked_aset, opened_value.
      assert (X : side_eqb (opens o) (opens o) = true) by (destruct o; reflexivity). rewrite X, (cc_poss _ _ CO). lra.
    - rewrite (flip_neq _ _ Ns), (op_flip _ _ _ _ _ _ _ _ _ HO), (cc_poss _ _ CO).
      assert (X : side_eqb (flip (opens o)) (opens o) = false) by (destruct o; reflexivity). rewrite X. lra. }
  pose proof (EN Long) as EN1. pose proof (EN Short) as EN2. pose proof (TM Long) as TM1. pose proof (TM Short) as TM2.
  cbn [en poss] in EN1, EN2, TM1, TM2.
  set (p3 := fst (the_order c o a 0 bq p2)) in *.
  split; [lra|]. split; [lra|]. split; [reflexivity|]. split; [exact FA|]. split; [exact TP|].
  split; [|split].
  - destruct (lev_cases c K) as [[L1 [L2 L3]]|[L1 [L2 L3]]]; rewrite L2 in *.
    + exact CC.
    + assert (Q1 : Qltb 1 (c_leverage c) = false) by (apply Qltb_nlt; lra). rewrite Q1 in OC. destruct CC as [C1 C2]. split; [exact C1|]. split; [exact C2|]. lra.
  - unfold exposure. rewrite TM1, TM2. destruct o; cbn; lra.
  - unfold live_value, margin_loan. rewrite TM1, TM2, CASH, OC.
    destruct (lev_cases c K) as [[L1 [L2 L3]]|[L1 [L2 L3]]]; rewrite L2.
    + assert (Q1 : Qltb 1 (c_leverage c) = true) by (apply Qltb_lt; lra). rewrite Q1, FA, EN1, EN2.
      destruct o; cbn; field; lra.
    + assert (Q1 : Qltb 1 (c_leverage c) = false) by (apply Qltb_nlt; lra). rewrite Q1, FA, EN2. destruct o; cbn; lra.
Qed.

(** ** Margin accounts *)
Lemma leverage_limit c ops p o a p' ord : cfg_ok c -> run c ops = Some p -> 1 < c_leverage c -> fees_grow c ->
  send c o a p = Ret p' (Some ord) -> position_of p (closing o) (a_sym a) = None ->
  committed p' <= c_leverage c * account_value c p'.
Proof.
  intros K R L FG E N. rewrite send_place in E. pose proof (run_good _ _ _ K R) as G.
  pose proof (place_good c o a p K G) as G'. rewrite E in G'.
  destruct (pure_open c p o a p' ord K G E N) as [B0 [F0 [_ [_ [TC [H [HE HV]]]]]]].
  assert (Q1 : Qle_bool (c_leverage c) 1 = false) by (apply Qle_bool_nle; lra). rewrite Q1 in H. specialize (H FG).
  rewrite <- (live_account c p' G').
  change (committed p') with (exposure p'). rewrite HE, HV. lra.
Qed.
Lemma leverage_new c ops p o a p' ord : cfg_ok c -> run c ops = Some p -> 1 < c_leverage c -> fees_grow c ->
  send c o a p = Ret p' (Some ord) -> position_of p (closing o) (a_sym a) = None ->
  committed p' == committed p + o_shares ord * a_fill a /\ account_value c p' == account_value c p - o_fees ord.
Proof.
  intros K R L FG E N. rewrite send_place in E. pose proof (run_good _ _ _ K R) as G.
  pose proof (place_good c o a p K G) as G'. rewrite E in G'.
  destruct (pure_open c p o a p' ord K G E N) as [B0 [F0 [_ [_ [TC [H [HE HV]]]]]]].
  rewrite <- (live_account c p' G'), <- (live_account c p G).
  split; auto.
Qed.

(** ** Cash accounts *)
Lemma cash_open c ops p o a p' ord : cfg_ok c -> run c ops = Some p -> c_leverage c == 1 ->
  send c o a p = Ret p' (Some ord) -> position_of p (closing o) (a_sym a) = None ->
  0 <= p_cash p /\ 0 <= p_cash p' + o_fees ord.
Proof.
  intros K R L E N. rewrite send_place in E. pose proof (run_good _ _ _ K R) as G.
  pose proof (place_good c o a p K G) as G'. rewrite E in G'.
  destruct (pure_open c p o a p' ord K G E N) as [B0 [F0 [_ [_ [TC [H [HE HV]]]]]]].
  assert (Q1 : Qle_bool (c_leverage c) 1 = true) by (apply Qle_bool_iff; lra). rewrite Q1 in H. destruct H as [H1 [H2 H3]].
  split; auto. lra.
Qed.

Lemma union_keys (A B : list nat) : exists U, NoDup U /\ incl A U /\ incl B U.
Proof.
  exists (nodup Nat.eq_dec (A ++ B)). split; [apply NoDup_nodup|].
  split; intros x I; apply nodup_In, in_app_iff; auto.
Qed.
(** Changing one position changes the total cost by the change of that position. *)
Lemma en_delta c p p' sd s : Good c p -> Good c p' ->
  (forall s', s' <> s -> position_of p' sd s' = position_of p sd s') ->
  en sd p' - en sd p == Qsum (map (fun e => e_shares e * e_price e) (queue p' sd s)) - Qsum (map (fun e => e_shares e * e_price e) (queue p sd s)).
Proof.
  intros G G' H. destruct (union_keys (s :: akeys (poss sd p)) (akeys (poss sd p'))) as [U [NU [I1 I2]]].
  assert (X : forall q, Good c q -> incl (akeys (poss sd q)) U ->
    en sd q == Qsum (map (fun k => Qsum (map (fun e => e_shares e * e_price e) (queue q sd k))) U)).
  { intros q Gq Iq. rewrite (co_en _ _ (gd_core _ _ Gq) sd). unfold asum.
    rewrite <- (sum_keys (fun _ pos => ps_notional pos) (poss sd q) (co_nodup _ _ (gd_core _ _ Gq) sd) U NU Iq).
    apply Qsum_map_ext. intros k _. unfold queue, position_of. destruct (aget k (poss sd q)) as [pos|] eqn:Ek; [|reflexivity].
    apply (po_notional _ _ _ _ (co_pos _ _ (gd_core _ _ Gq) _ _ _ Ek)). }
  assert (Is : In s U) by (apply I1; now left).
  assert (I1' : incl (akeys (poss sd p)) U) by (intros x Ix; apply I1; now right).
  rewrite (X p G I1'), (X p' G' I2), (filter_sum _ s U NU Is).
  rewrite (filter_sum (fun k => Qsum (map (fun e => e_shares e * e_price e) (queue p sd k))) s U NU Is).
  assert (Y : Qsum (map (fun k => Qsum (map (fun e => e_shares e * e_price e) (queue p' sd k))) (filter (fun x => negb (Nat.eqb x s)) U)) ==
    Qsum (map (fun k => Qsum (map (fun e => e_shares e * e_price e) (queue p sd k))) (filter (fun x => negb (Nat.eqb x s)) U))).
  { apply Qsum_map_ext. intros k Ik. apply filter_In in Ik. destruct Ik as [_ Ik]. apply negb_true_iff, Nat.eqb_neq in Ik.
    unfold queue. rewrite H by auto. reflexivity. }
  rewrite Y. lra.
Qed.
Lemma ce_cost sd date fill stp es ts : Forall2 (fun e t => closes_entry sd date fill stp e (e_shares e) t) es ts ->
  Qsum (map (fun e => e_shares e * e_price e) es) == Qsum (map (fun t => t_shares t * t_entry t) ts) /\
  Qsum (map t_pnl ts) == Qsum (map (fun t => t_shares t * gain sd (t_entry t) fill) ts).
Proof.
  induction 1 as [|e t es ts C F [IH1 IH2]]; cbn [map Qsum fold_right]; [lra|].
  destruct C. unfold Qsum in *. rewrite ce_shares, ce_entry, ce_pnl, IH1, IH2. split; lra.
Qed.
Lemma fifo_cost sd date fill n es es' ts : fifo_close sd date fill n es es' ts ->
  Qsum (map (fun e => e_shares e * e_price e) es) == Qsum (map (fun e => e_shares e * e_price e) es') + Qsum (map (fun t => t_shares t * t_entry t) ts) /\
  Qsum (map t_pnl ts) == Qsum (map (fun t => t_shares t * gain sd (t_entry t) fill) ts).
Proof.
  intros [full [rest [[E1 [E2 [F [L D]]]]|[e [q [ts0 [t [E1 [E2 [Q1 [Q2 [E3 [F [C S]]]]]]]]]]]]]]; subst.
  - destruct (ce_cost _ _ _ _ _ _ F) as [A1 A2]. split; auto. rewrite map_app, Qsum_app, A1. lra.
  - destruct (ce_cost _ _ _ _ _ _ F) as [A1 A2]. rewrite !map_app, !Qsum_app, A1, A2. cbn.
    destruct C. rewrite ce_shares, ce_entry, ce_pnl. split; lra.
Qed.
Lemma sum_exit_nonneg ts fill : 0 < fill -> Forall (fun t => 0 <= t_shares t) ts ->
  0 <= Qsum (map (fun t => t_shares t * gain Long (t_entry t) fill) ts) + Qsum (map (fun t => t_shares t * t_entry t) ts).
Proof.
  intros Hf. induction 1 as [|t ts H F IH]; cbn in *; [lra|]. unfold gain in *.
  assert (0 <= t_shares t * fill) by (apply Qmult_le_0_compat; lra). lra.
Qed.

Lemma no_fee c s f n o : c_fee_mode c = None -> calculate_fees c s f n o = 0.
Proof. intro H. unfold calculate_fees. now rewrite H. Qed.

(** Cash stays non-negative through one order. *)
Lemma place_cash c o a p p' r : cfg_ok c -> cash_cfg c -> Good c p -> poss Short p = [] -> 0 <= p_cash p ->
  place c o a p = Ret p' r -> 0 <= p_cash p' /\ poss Short p' = [].
Proof.
  intros K [CL [CM [CF _]]] G NS H0 E.
  assert (NS' : poss Short p' = []).
  { apply (place_bound c o a p p' r K G E); [|exact NS]. cbn. intro X. apply X. exact CM. }
  split; auto.
  destruct r as [ord|].
  2:{ destruct (place_ret _ _ _ _ _ _ K G E) as [[_ [CO _]]|[p2 [filled [bought [_ [_ [_ [_ [_ [_ X]]]]]]]]]]; [|discriminate].
      now rewrite (sa_cash _ _ (cc_acct _ _ CO)). }
  destruct o.
  - assert (N : position_of p (closing OBuy) (a_sym a) = None) by (unfold position_of; cbn [closing]; now rewrite NS).
    destruct (pure_open c p OBuy a p' ord K G E N) as [B0 [F0 [Fe [_ [_ [H _]]]]]].
    assert (Q1 : Qle_bool (c_leverage c) 1 = true) by (apply Qle_bool_iff; lra). rewrite Q1 in H. destruct H as [H1 [H2 H3]].
    rewrite no_fee in Fe by auto. lra.
  - pose proof (place_good c OSell a p K G) as G'. rewrite E in G'.
    destruct (place_fifo c p OSell a p' ord K G E) as [ts [closed [Ht [Hff [Hc [Hm [_ HO]]]]]]]. cbn [closing] in *.
    pose proof (place_frame _ _ _ _ _ _ K G E) as [FB [FA _]].
    pose proof (ld_money _ _ _ (gd_led _ _ G)) as M. pose proof (ld_money _ _ _ (gd_led _ _ G')) as M'.
    rewrite FB in M'. unfold net_cash, margin_loan in M, M'.
    assert (Q1 : Qle_bool (c_leverage c) 1 = true) by (apply Qle_bool_iff; lra). rewrite Q1, FA in M'. rewrite Q1 in M.
    assert (S0 : forall q, Good c q -> poss Short q = [] -> en Short q == 0).
    { intros q Gq Nq. rewrite (co_en _ _ (gd_core _ _ Gq) Short), Nq. reflexivity. }
    rewrite (S0 p G NS) in M. rewrite (S0 p' G' NS') in M'.
    assert (PN : p_pnl p' == p_pnl p + Qsum (map t_pnl ts)).
    { rewrite (ld_pnl _ _ _ (gd_led _ _ G')), (ld_pnl _ _ _ (gd_led _ _ G)), Ht, map_app, Qsum_app. reflexivity. }
    assert (FE : p_fees p' == p_fees p).
    { destruct (place_fill c p OSell a p' ord K G E) as [_ [_ [_ [_ [_ [_ [_ [_ [Eo Ef]]]]]]]]].
      rewrite (ld_fees _ _ _ (gd_led _ _ G')), (ld_fees _ _ _ (gd_led _ _ G)), Eo, map_app, Qsum_app. cbn.
      rewrite Ef, no_fee by auto. lra. }
    pose proof (en_delta c p p' Long (a_sym a) G G' (HO Long)) as ED.
    destruct (fifo_cost _ _ _ _ _ _ _ Hff) as [A1 A2].
    assert (HF0 : 0 < a_fill a).
    { destruct (place_ret _ _ _ _ _ _ K G E) as [[X _]|[p2 [f2 [b2 [_ [Hf _]]]]]]; [discriminate|auto]. }
    assert (NN : Forall (fun t => 0 <= t_shares t) ts).
    { apply Forall_forall. intros t It.
      assert (IT : In t (p_trades p')) by (rewrite Ht; apply in_app_iff; auto).
      pose proof (ld_trades _ _ _ (gd_led _ _ G')) as LT. rewrite Forall_forall in LT. destruct (LT t IT). lra. }
    pose proof (sum_exit_nonneg ts (a_fill a) HF0 NN) as SN. lra.
Qed.

Lemma interest_cash c p : 0 <= p_cash p -> p_accrued p == 0 -> c_leverage c == 1 -> cfg_ok c ->
  0 <= p_cash (apply_interest c p) /\ p_accrued (apply_interest c p) == 0.
Proof.
  intros H A L K. unfold apply_interest. destruct (c_bpy c) as [b|] eqn:Eb; auto.
  destruct (Qle_bool (c_rate c) 0) eqn:Er; auto.
  assert (S : sweep p = p).
  { unfold sweep. assert (E : Qle_bool (p_accrued p) 0 = true) by (apply Qle_bool_iff; lra). now rewrite E. }
  rewrite S.
  assert (N : net_cash c p == p_cash p).
  { unfold net_cash, margin_loan. assert (Q1 : Qle_bool (c_leverage c) 1 = true) by (apply Qle_bool_iff; lra). rewrite Q1. lra. }
  destruct (Qeq_bool (net_cash c p) 0); auto.
  destruct (Qltb (net_cash c p) 0) eqn:El; qb; [lra|]. cbn. split; auto.
  pose proof (ck_bpy _ K b Eb). assert (0 < c_rate c / 100 / b) by (apply Qlt_shift_div_l; auto; rewrite Qmult_0_l; apply Qlt_shift_div_l; lra).
  assert (0 <= Qabs (net_cash c p) * (c_rate c / 100 / b)) by (apply Qmult_le_0_compat; [apply Qabs_nonneg|lra]). lra.
Qed.
Lemma capture_cash c d bar p : p_cash (capture_bar c d bar p) = p_cash (apply_interest c p).
Proof.
  unfold capture_bar.
  assert (X : forall l st, p_cash (snd (fold_left (fun st s => capture_short s (bar s) (capture_long s (bar s) st)) l st)) = p_cash (snd st)).
  { induction l as [|s r IH]; intro st; [reflexivity|]. cbn [fold_left]. rewrite IH. destruct st as [a q].
    destruct (bar s) as [[[cl lo] hi]|]; unfold capture_long; destruct (aget s (p_longs q)) as [pos|];
    unfold capture_short; match goal with |- context [aget s (p_shorts ?x)] => destruct (aget s (p_shorts x)) end; reflexivity. }
  specialize (X (sort_nat (p_symbols (apply_interest c p)))
    (mkAcc (p_cash (apply_interest c p) - margin_loan c (apply_interest c p)) (p_cash (apply_interest c p) - margin_loan c (apply_interest c p)) 0 0, apply_interest c p)).
  destruct (fold_left _ _ _) as [a q]. cbn [snd] in X. exact X.
Qed.
Lemma trades_grow c o p p' : cfg_ok c -> Good c p -> exec c (Some p) o = Some p' -> exists ts, p_trades p' = p_trades p ++ ts.
Proof.
  intros K G E. assert (R0 : exists ts, p_trades p = p_trades p ++ ts) by (exists []; now rewrite app_nil_r).
  assert (PL : forall o a p0 p1 r, Good c p0 -> place c o a p0 = Ret p1 r -> exists ts, p_trades p1 = p_trades p0 ++ ts).
  { intros o0 a p0 p1 [ord|] G0 E0.
    - destruct (place_fifo c p0 o0 a p1 ord K G0 E0) as [ts [_ [Ht _]]]. eauto.
    - destruct (place_ret _ _ _ _ _ _ K G0 E0) as [[_ [CO _]]|[p2 [filled [bought [_ [_ [_ [_ [_ [_ X]]]]]]]]]]; [|discriminate].
      exists []. rewrite (sa_trades _ _ (cc_acct _ _ CO)). now rewrite app_nil_r. }
  unfold exec in E. destruct o as [a|a|d s b sl sm|d sc sm|d bar|hb|id|v t|ml ms]; cbn [step] in E.
  - rewrite buy_place in E. pose proof (place_good c OBuy a p K G) as H. destruct (place c OBuy a p) as [q r|q []] eqn:Ep; cbn in E; inversion E; subst; eauto.
  - rewrite sell_place in E. pose proof (place_good c OSell a p K G) as H. destruct (place c OSell a p) as [q r|q []] eqn:Ep; cbn in E; inversion E; subst; eauto.
  - pose proof (exit_cases (fun q => exists ts, p_trades q = p_trades p ++ ts) c d s b sl sm p K G R0) as H.
    assert (HP : forall o a p0 p'0 r, Good c p0 -> (exists ts, p_trades p0 = p_trades p ++ ts) -> a_stops a = None -> place c o a p0 = Ret p'0 r -> exists ts, p_trades p'0 = p_trades p ++ ts).
    { intros o a p0 p1 r G0 [t0 E0] _ E1. destruct (PL _ _ _ _ _ G0 E1) as [t1 E2]. exists (t0 ++ t1). now rewrite E2, E0, app_assoc. }
    specialize (H HP). destruct (exit_position c d s b sl sm p) as [q r|q []]; inversion E; subst; tauto.
  - pose proof (check_stops_ok c d sc sm p K G) as H. destruct (check_stops c d sc sm p) as [q r|q []]; inversion E; subst.
    + destruct H as [evs [H _]]. destruct (so_trades _ _ _ _ _ _ _ H) as [new [Hn _]]. eauto.
    + destruct H. congruence.
  - injection E as <-. pose proof (capture_ok c d bar p K G) as CA. rewrite (ca_trades _ _ _ _ _ CA). auto.
  - injection E as <-. auto.
  - injection E as <-. rewrite (sa_trades _ _ (rs_acct _ _ (remove_stop_strips id p))). auto.
  - injection E as <-. rewrite (sa_trades _ _ (rs_acct _ _ (remove_stops_strips v t p))). auto.
  - injection E as <-. auto.
Qed.

Lemma cash_account c ops p : cfg_ok c -> cash_cfg c -> run c ops = Some p ->
  Forall (fun t => 0 <= t_exit t) (p_trades p) -> 0 <= p_cash p /\ margin_loan c p == 0.
Proof.
  intros K CC R. assert (Q1 : Qle_bool (c_leverage c) 1 = true) by (apply Qle_bool_iff; destruct CC; lra).
  assert (NA : ~ side_allowed c Short) by (cbn; destruct CC as [_ [CM _]]; intro X; auto).
  enough (H : Forall (fun t => 0 <= t_exit t) (p_trades p) -> 0 <= p_cash p /\ p_accrued p == 0).
  { intro F. destruct (H F). split; auto. unfold margin_loan. now rewrite Q1. }
  revert R. revert ops p.
  refine (hist_ind c (fun _ p => Forall (fun t => 0 <= t_exit t) (p_trades p) -> 0 <= p_cash p /\ p_accrued p == 0) K _ _).
  { intros _. cbn. destruct CC as [_ [_ [_ C0]]]. split; auto. reflexivity. }
  intros ops p o p' R G IH E G' _ F.
  destruct (trades_grow c o p p' K G E) as [ts Ht].
  assert (F0 : Forall (fun t => 0 <= t_exit t) (p_trades p)) by (rewrite Ht in F; apply Forall_app in F; apply F).
  destruct (IH F0) as [C0 A0]. pose proof (mode_respected c ops p Short K R NA) as NS.
  pose proof (exec_accrued c o p p' K G E) as EA.
  unfold exec in E. destruct o as [a|a|d s b sl sm|d sc sm|d bar|hb|id|v t|ml ms]; cbn [step] in E.
  - split; [|now rewrite EA].
    rewrite buy_place in E. pose proof (place_good c OBuy a p K G) as H. destruct (place c OBuy a p) as [q r|q []] eqn:Ep; cbn in E; inversion E; subst; auto.
    now destruct (place_cash c OBuy a p p' r K CC G NS C0 Ep).
  - split; [|now rewrite EA].
    rewrite sell_place in E. pose proof (place_good c OSell a p K G) as H. destruct (place c OSell a p) as [q r|q []] eqn:Ep; cbn in E; inversion E; subst; auto.
    now destruct (place_cash c OSell a p p' r K CC G NS C0 Ep).
  - split; [|now rewrite EA].
    pose proof (exit_cases (fun q => 0 <= p_cash q /\ poss Short q = []) c d s b sl sm p K G (conj C0 NS)) as H.
    assert (HP : forall o a p0 p'0 r, Good c p0 -> 0 <= p_cash p0 /\ poss Short p0 = [] -> a_stops a = None -> place c o a p0 = Ret p'0 r -> 0 <= p_cash p'0 /\ poss Short p'0 = []).
    { intros o a p0 p1 r G0 [E0 E1] _ E2. eapply place_cash; eauto. }
    specialize (H HP). destruct (exit_position c d s b sl sm p) as [q r|q []]; inversion E; subst; tauto.
  - split; [|now rewrite EA].
    pose proof (check_stops_ok c d sc sm p K G) as H. destruct (check_stops c d sc sm p) as [q r|q []]; inversion E; subst.
    + destruct H as [evs [H _]]. rewrite (so_cash _ _ _ _ _ _ _ H).
      destruct (so_trades _ _ _ _ _ _ _ H) as [new [Hn Hf]]. rewrite Hn in F. apply Forall_app in F. destruct F as [_ F].
      pose proof (so_own _ _ _ _ _ _ _ H) as HO.
      assert (X : 0 <= Qsum (map (ev_cash c) evs)); [|lra].
      destruct CC as [CL [CM [CF _]]]. clear -Hf F HO CL CF G NS.
      induction Hf as [|v t evs new T Hf IH]; cbn [map Qsum fold_right]; [lra|].
      inversion F; subst. inversion HO; subst. specialize (IH H2 H4).
      assert (EV : 0 <= ev_cash c v); [|unfold Qsum in *; lra].
      unfold ev_cash. assert (Q2 : Qltb 1 (c_leverage c) = false) by (apply Qltb_nlt; lra). rewrite Q2, no_fee by auto.
      destruct H3 as [pos [Hg Hi]]. destruct (v_sd v) eqn:Es; [|rewrite NS in Hg; discriminate].
      pose proof (po_entries _ _ _ _ (co_pos _ _ (gd_core _ _ G) _ _ _ Hg) _ Hi) as Ok.
      pose proof (eo_pos _ _ _ _ Ok (fun x => x)) as Sp.
      unfold exit_pnl. rewrite (tt_exit _ _ _ T) in H1.
      assert (0 <= e_shares (v_entry v) * v_fill v) by (apply Qmult_le_0_compat; lra). lra.
    + destruct H. congruence.
  - injection E as <-. rewrite capture_cash, capture_accrued. apply interest_cash; auto. apply CC.
  - injection E as <-. split; auto.
  - injection E as <-. rewrite EA. rewrite (sa_cash _ _ (rs_acct _ _ (remove_stop_strips id p))). auto.
  - injection E as <-. rewrite EA. rewrite (sa_cash _ _ (rs_acct _ _ (remove_stops_strips v t p))). auto.
  - injection E as <-. split; auto.
Qed.
