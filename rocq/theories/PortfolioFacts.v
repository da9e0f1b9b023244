(** The account properties, proved. *)
From Verif Require Export PortfolioEvolve.

(** ** Traces *)
Lemma run_snoc c ops o : run c (ops ++ [o]) = exec c (run c ops) o.
Proof. unfold run. now rewrite fold_left_app. Qed.

Lemma trace_snoc c ops : forall p o q p',
  fold_left (exec c) ops (Some p) = Some q -> exec c (Some q) o = Some p' ->
  trace c p (ops ++ [o]) = trace c p ops ++ [(q, o, p')].
Proof.
  induction ops as [|x r IH]; intros p o q p' H E.
  - cbn [fold_left] in H. injection H as <-. cbn [app trace]. rewrite E. reflexivity.
  - cbn [fold_left] in H. cbn [app trace]. destruct (exec c (Some p) x) as [p1|] eqn:E1.
    + cbn [app]. f_equal. eapply IH; eauto.
    + rewrite fold_exec_none in H. discriminate.
Qed.
Lemma history_snoc c ops o q p' : run c ops = Some q -> exec c (Some q) o = Some p' ->
  history c (ops ++ [o]) = history c ops ++ [(q, o, p')].
Proof. intros. eapply trace_snoc; eauto. Qed.

(** Induction over histories with the invariant at hand. *)
Lemma hist_ind c (P : list op -> port -> Prop) : cfg_ok c ->
  P [] (init c) ->
  (forall ops p o p', run c ops = Some p -> Good c p -> P ops p -> exec c (Some p) o = Some p' ->
     Good c p' -> history c (ops ++ [o]) = history c ops ++ [(p, o, p')] -> P (ops ++ [o]) p') ->
  forall ops p, run c ops = Some p -> P ops p.
Proof.
  intros K H0 HS. apply run_ind; auto. intros ops p o p' R HP E.
  assert (R' : run c (ops ++ [o]) = Some p') by (rewrite run_snoc, R; exact E).
  eapply HS; eauto; [eapply run_good; eauto|exact (run_good _ _ _ K R')|eapply history_snoc; eauto].
Qed.

Lemma cache_same p p' : cache_only p p' -> same_account p p'.
Proof.
  intros [[] P S D A _]. unfold same_account. destruct p, p'. cbn in *. subst.
  pose proof (P Long). pose proof (P Short). pose proof (sa_en Long). pose proof (sa_en Short). cbn in *.
  unfold set_p_cshort, set_p_clong. cbn. congruence.
Qed.
Lemma same_poss p p' : same_account p p' -> (forall sd, poss sd p' = poss sd p).
Proof. unfold same_account. intros -> []; reflexivity. Qed.

Lemma rate_eq c : rate_per_bar c = bar_rate c. Proof. reflexivity. Qed.
Lemma net_eq c p : net_balance c p = net_cash c p. Proof. reflexivity. Qed.


(** ** Money *)
Lemma interest_bars c ops p : cfg_ok c -> run c ops = Some p ->
  interest_paid c ops == interest_total c (p_bars p).
Proof.
  intro K. apply (hist_ind c (fun ops p => interest_paid c ops == interest_total c (p_bars p)) K).
  - unfold interest_paid, interest_total. cbn. lra.
  - intros ops' q o p' R G IH E G' Hh. unfold interest_paid in *. rewrite Hh, map_app, Qsum_app, IH.
    pose proof (exec_bars c o q p' K G E) as B.
    destruct o; cbn [map Qsum fold_right]; try (rewrite B; lra).
    subst p'. pose proof (capture_ok c date bar q K G) as CA.
    destruct (ca_bars _ _ _ _ _ CA) as [b [Eb [_ [_ [_ [_ [_ [En _]]]]]]]].
    unfold interest_total. rewrite Eb, map_app, Qsum_app. cbn [map Qsum fold_right]. rewrite En.
    change (net_balance c) with (net_cash c).
    rewrite (ca_net _ _ _ _ _ CA). pose proof (bar_rate_nonneg c K). field. lra.
Qed.

Lemma open_cost_en c p : Good c p -> open_cost p == en Long p + en Short p.
Proof.
  intro G. unfold open_cost. pose proof (co_en _ _ (gd_core _ _ G)) as E. rewrite (E Long), (E Short). reflexivity.
Qed.

Lemma conservation c ops p : cfg_ok c -> run c ops = Some p ->
  net_balance c p + open_cost p == c_cash c + realized p - fees_paid p + interest_paid c ops.
Proof.
  intros K R. pose proof (run_good c ops p K R) as G. rewrite (interest_bars c ops p K R), (open_cost_en c p G).
  pose proof (ld_money _ _ _ (gd_led _ _ G)). unfold realized, fees_paid, net_balance.
  rewrite <- (ld_pnl _ _ _ (gd_led _ _ G)), <- (ld_fees _ _ _ (gd_led _ _ G)). lra.
Qed.

(** Every call on its own conserves money as well. *)
Definition wealth (c : cfg) (p : port) : Q := net_balance c p + open_cost p - realized p + fees_paid p.
Lemma step_conservation c ops p o p' : cfg_ok c -> run c ops = Some p -> exec c (Some p) o = Some p' ->
  wealth c p' - wealth c p == match o with OpCapture _ _ => net_balance c p * rate_per_bar c | _ => 0 end.
Proof.
  intros K R E. assert (R' : run c (ops ++ [o]) = Some p') by (rewrite run_snoc, R; exact E).
  pose proof (conservation _ _ _ K R). pose proof (conservation _ _ _ K R').
  pose proof (run_good c ops p K R) as G.
  unfold wealth. pose proof (history_snoc _ _ _ _ _ R E) as Hh.
  unfold interest_paid in H, H0. rewrite Hh, map_app, Qsum_app in H0.
  destruct o; cbn [map Qsum fold_right] in H0; try lra.
  pose proof (exec_bars c _ p p' K G E) as B. cbn in B. subst p'.
  pose proof (ca_net _ _ _ _ _ (capture_ok c date bar p K G)) as N. change (net_cash c) with (net_balance c) in N. rewrite rate_eq. lra.
Qed.

(** ** Positions *)
Lemma position_facts c ops p sd s pos : cfg_ok c -> run c ops = Some p -> position_of p sd s = Some pos ->
  ps_sym pos = s /\ ps_type pos = sd /\ ps_entries pos <> [] /\
  Forall (fun e => 0 < e_shares e /\ 0 < e_price e /\ e_sym e = s /\ e_type e = sd) (ps_entries pos) /\
  ps_shares pos == Qsum (map e_shares (ps_entries pos)) /\
  ps_notional pos == Qsum (map (fun e => e_shares e * e_price e) (ps_entries pos)).
Proof.
  intros K R Hp. pose proof (run_good c ops p K R) as G. pose proof (co_pos _ _ (gd_core _ _ G) _ _ _ Hp) as Ok.
  split; [apply Ok|]. split; [apply Ok|]. split; [eapply (gd_ne _ _ G); eauto; discriminate|].
  split; [|split; apply Ok]. apply Forall_forall. intros e I. pose proof (po_entries _ _ _ _ Ok e I) as E. destruct E. auto.
Qed.
Lemma position_shares_pos c ops p sd s pos : cfg_ok c -> run c ops = Some p -> position_of p sd s = Some pos -> 0 < ps_shares pos.
Proof.
  intros K R Hp. destruct (position_facts _ _ _ _ _ _ K R Hp) as [_ [_ [N [F [E _]]]]]. rewrite E. apply Qsum_pos.
  - intro X. apply map_eq_nil in X. auto.
  - apply Forall_forall. intros x I. apply in_map_iff in I. destruct I as [e [<- I]]. rewrite Forall_forall in F. now apply F.
Qed.

Lemma order_log c ops p s : cfg_ok c -> run c ops = Some p ->
  signed_volume s (p_orders p) == shares_held p Long s - shares_held p Short s.
Proof.
  intros K R. pose proof (run_good c ops p K R) as G. pose proof (ld_net _ _ _ (gd_led _ _ G) s) as H.
  unfold dzero in H. change (signed_volume s (p_orders p)) with (order_flow s (p_orders p)).
  change (shares_held p Long s - shares_held p Short s) with (net_held p s). lra.
Qed.

Lemma one_side c ops p s : cfg_ok c -> run c ops = Some p ->
  (position_of p Long s = None \/ position_of p Short s = None) /\
  NoDup (map fst (p_longs p)) /\ NoDup (map fst (p_shorts p)) /\ NoDup (p_symbols p) /\
  (In s (p_symbols p) <-> position_of p Long s <> None \/ position_of p Short s <> None).
Proof.
  intros K R. pose proof (run_good c ops p K R) as [HC _ _].
  assert (KS : forall sd, In s (akeys (poss sd p)) <-> position_of p sd s <> None).
  { intro sd. unfold position_of. split.
    - intro I. apply ahas_true in I. unfold ahas in I. destruct (aget s (poss sd p)); congruence.
    - intro N. destruct (aget s (poss sd p)) eqn:E; [|congruence]. eapply aget_Some_key; eauto. }
  split; [|split; [apply (co_nodup _ _ HC Long)|split; [apply (co_nodup _ _ HC Short)|split; [apply HC|]]]].
  - destruct (position_of p Long s) eqn:E1; auto. destruct (position_of p Short s) eqn:E2; auto. exfalso.
    apply (co_disj _ _ HC Long s); apply KS; [rewrite E1|change (flip Long) with Short; rewrite E2]; discriminate.
  - rewrite (co_syms _ _ HC s). split.
    + intros [[] I]; apply KS in I; auto.
    + intros [N|N]; [exists Long|exists Short]; now apply KS.
Qed.

(** ** Logs *)
Lemma logs c ops p : cfg_ok c -> run c ops = Some p ->
  map o_id (p_orders p) = seq 1 (length (p_orders p)) /\
  map t_id (p_trades p) = seq 1 (length (p_trades p)) /\
  p_pnl p == realized p /\ p_fees p == fees_paid p /\
  (forall l1 t l2, p_trades p = l1 ++ t :: l2 -> t_agg t == Qsum (map t_pnl (l1 ++ [t]))) /\
  p_wins p == inject_Z (Z.of_nat (length (filter (fun t => Qltb 0 (t_pnl t)) (p_trades p)))).
Proof.
  intros K R. pose proof (run_good c ops p K R) as [_ _ []].
  do 4 (split; [assumption|]). split; [|assumption].
  intros l1 t l2 E. rewrite map_app, Qsum_app. cbn. rewrite (ld_agg _ _ _ E). lra.
Qed.

(** ** Margin *)
Lemma asum_nonneg {A} (f : A -> Q) (d : list (nat * A)) : (forall k v, In (k, v) d -> 0 <= f v) -> 0 <= asum f d.
Proof.
  intro H. unfold asum. induction d as [|[k v] r IH]; cbn; [lra|].
  assert (0 <= f v) by (apply (H k v); now left).
  assert (0 <= Qsum (map (fun kv => f (snd kv)) r)); [|unfold avals in *; lra].
  apply IH. intros. eapply H. right. eauto.
Qed.
Lemma cost_nonneg c p sd : Good c p -> 0 <= en sd p.
Proof.
  intros G. pose proof (gd_core _ _ G) as HC. rewrite (co_en _ _ HC sd). apply asum_nonneg.
  intros k v I. apply (In_aget _ _ _ (co_nodup _ _ HC sd)) in I.
  pose proof (co_pos _ _ HC _ _ _ I) as Ok. rewrite (po_notional _ _ _ _ Ok).
  apply Qsum_nonneg. apply Forall_forall. intros x Ix. apply in_map_iff in Ix. destruct Ix as [e [<- Ie]].
  pose proof (po_entries _ _ _ _ Ok e Ie) as [_ _ Hp _ Hs _ _]. specialize (Hs (fun x => x)).
  apply Qmult_le_0_compat; lra.
Qed.
Lemma loan_eq c ops p : cfg_ok c -> run c ops = Some p ->
  margin_loan c p == p_accrued p + (1 - 1 / c_leverage c) * open_cost p.
Proof.
  intros K R. pose proof (run_good _ _ _ K R) as G. rewrite (open_cost_en c p G).
  destruct (lev_cases c K) as [[_ [E H]]|[_ [E H]]]; unfold margin_loan; rewrite E.
  - change (p_long_en p + p_short_en p) with (en Long p + en Short p). field. lra.
  - rewrite H. field.
Qed.
Lemma loan_nonneg c ops p : cfg_ok c -> run c ops = Some p -> 0 <= margin_loan c p.
Proof.
  intros K R. rewrite (loan_eq c ops p K R). pose proof (run_good _ _ _ K R) as G. rewrite (open_cost_en c p G).
  pose proof (ld_accrued _ _ _ (gd_led _ _ G)). pose proof (cost_nonneg c p Long G). pose proof (cost_nonneg c p Short G).
  assert (0 <= 1 - 1 / c_leverage c).
  { pose proof (ck_lev _ K). assert (1 / c_leverage c <= 1); [|lra]. apply Qle_shift_div_r; lra. }
  assert (0 <= (1 - 1 / c_leverage c) * (en Long p + en Short p)) by (apply Qmult_le_0_compat; lra). lra.
Qed.
Lemma no_open_cost c ops p : cfg_ok c -> run c ops = Some p -> p_symbols p = [] -> open_cost p == 0.
Proof.
  intros K R E. pose proof (run_good _ _ _ K R) as G. pose proof (gd_core _ _ G) as HC.
  assert (N : forall sd, poss sd p = []).
  { intro sd. destruct (poss sd p) as [|[k v] r] eqn:Ep; auto. exfalso.
    assert (I : In k (p_symbols p)). { apply (co_syms _ _ HC). exists sd. rewrite Ep. now left. }
    rewrite E in I. exact I. }
  unfold open_cost. pose proof (N Long) as N1. pose proof (N Short) as N2. cbn in N1, N2. rewrite N1, N2. cbn. lra.
Qed.
Lemma exec_accrued c o p p' : cfg_ok c -> Good c p -> exec c (Some p) o = Some p' ->
  match o with OpCapture d bar => True | _ => p_accrued p' = p_accrued p end.
Proof.
  intros K G E. unfold exec in E. destruct o as [a|a|d s b sl sm|d sc sm|d bar|hb|id|v t|ml ms]; cbn [step] in E.
  - rewrite buy_place in E. pose proof (place_good c OBuy a p K G) as H. destruct (place c OBuy a p) as [q r|q []] eqn:Ep; cbn in E; inversion E; subst; auto.
    now destruct (place_frame _ _ _ _ _ _ K G Ep) as [_ [? _]].
  - rewrite sell_place in E. pose proof (place_good c OSell a p K G) as H. destruct (place c OSell a p) as [q r|q []] eqn:Ep; cbn in E; inversion E; subst; auto.
    now destruct (place_frame _ _ _ _ _ _ K G Ep) as [_ [? _]].
  - pose proof (exit_cases (fun q => p_accrued q = p_accrued p) c d s b sl sm p K G eq_refl) as H.
    assert (HP : forall o a p0 p'0 r, Good c p0 -> p_accrued p0 = p_accrued p -> a_stops a = None -> place c o a p0 = Ret p'0 r -> p_accrued p'0 = p_accrued p).
    { intros o a p0 p1 r G0 E0 _ E1. destruct (place_frame _ _ _ _ _ _ K G0 E1) as [_ [? _]]. congruence. }
    specialize (H HP). destruct (exit_position c d s b sl sm p) as [q r|q []]; inversion E; subst; tauto.
  - pose proof (check_stops_ok c d sc sm p K G) as H. destruct (check_stops c d sc sm p) as [q r|q []]; inversion E; subst.
    + destruct H as [evs [H _]]. apply (so_frame _ _ _ _ _ _ _ H).
    + destruct H. congruence.
  - auto.
  - now injection E as <-.
  - injection E as <-. apply (rs_acct _ _ (remove_stop_strips id p)).
  - injection E as <-. apply (rs_acct _ _ (remove_stops_strips v t p)).
  - now injection E as <-.
Qed.
Lemma capture_accrued c d bar p : p_accrued (capture_bar c d bar p) = p_accrued (apply_interest c p).
Proof.
  unfold capture_bar.
  assert (X : forall l st, p_accrued (snd (fold_left (fun st s => capture_short s (bar s) (capture_long s (bar s) st)) l st)) = p_accrued (snd st)).
  { induction l as [|s r IH]; intro st; [reflexivity|]. cbn [fold_left]. rewrite IH. destruct st as [a q].
    destruct (bar s) as [[[cl lo] hi]|]; unfold capture_long; destruct (aget s (p_longs q)) as [pos|];
    unfold capture_short; match goal with |- context [aget s (p_shorts ?x)] => destruct (aget s (p_shorts x)) end; reflexivity. }
  specialize (X (sort_nat (p_symbols (apply_interest c p)))
    (mkAcc (p_cash (apply_interest c p) - margin_loan c (apply_interest c p)) (p_cash (apply_interest c p) - margin_loan c (apply_interest c p)) 0 0, apply_interest c p)).
  destruct (fold_left _ _ _) as [a q]. cbn [snd] in X. exact X.
Qed.
Lemma no_interest_accrued c ops p : cfg_ok c -> rate_per_bar c == 0 -> run c ops = Some p -> p_accrued p == 0.
Proof.
  intros K Z. apply (hist_ind c (fun _ p => p_accrued p == 0) K); [cbn; lra|].
  intros ops' q o p' _ G IH E G' _. pose proof (exec_accrued c o q p' K G E) as A.
  destruct o; try (now rewrite A).
  pose proof (exec_bars c _ q p' K G E) as B. cbn in B. subst p'. rewrite capture_accrued.
  unfold apply_interest, rate_per_bar in *. destruct (c_bpy c) as [b|] eqn:Eb; auto.
  destruct (Qle_bool (c_rate c) 0) eqn:Er; auto. exfalso. qb. pose proof (ck_bpy _ K b Eb).
  assert (0 < c_rate c / 100 / b); [|lra]. apply Qlt_shift_div_l; auto. rewrite Qmult_0_l. apply Qlt_shift_div_l; lra.
Qed.

(** ** Interest *)
Lemma capture_interest c ops p d bar : cfg_ok c -> run c ops = Some p ->
  net_balance c (capture_bar c d bar p) - net_balance c p == rate_per_bar c * net_balance c p.
Proof.
  intros K R. pose proof (run_good _ _ _ K R) as G.
  pose proof (ca_net _ _ _ _ _ (capture_ok c d bar p K G)) as N. change (net_cash c) with (net_balance c) in N. rewrite rate_eq. lra.
Qed.
Lemma sweep_neutral c ops p : cfg_ok c -> run c ops = Some p ->
  net_balance c (sweep p) == net_balance c p /\ p_cash (sweep p) <= p_cash p /\ 0 <= p_accrued (sweep p) <= p_accrued p.
Proof.
  intros K R. pose proof (run_good _ _ _ K R) as G. pose proof (ld_accrued _ _ _ (gd_led _ _ G)) as A.
  destruct (sweep_ok c p A) as [_ [N [A1 A2]]]. split; [exact N|]. split; [|split; auto].
  unfold sweep. destruct (Qle_bool (p_accrued p) 0 || Qle_bool (p_cash p) 0) eqn:E; [lra|].
  apply orb_false_iff in E. destruct E as [E1 E2]. qb. cbn.
  destruct (Qmin_cases (p_cash p) (p_accrued p)) as [[M1 M2]|[M1 M2]]; lra.
Qed.

Lemma capture_cash c d bar p : p_cash (capture_bar c d bar p) = p_cash (apply_interest c p).
Proof.
  unfold capture_bar.
  assert (X : forall l st, p_cash (snd (fold_left (fun st s => capture_short s (bar s) (capture_long s (bar s) st)) l st)) = p_cash (snd st)).
  { induction l as [|s r IH]; intro st; [reflexivity|]. cbn [fold_left]. rewrite IH. destruct st as [a q].
    destruct (bar s) as [[[cl lo] hi]|]; unfold capture_long; destruct (aget s (p_longs q)) as [pos|];
    unfold capture_short; match goal with |- context [aget s (p_shorts ?x)] => destruct (aget s (p_shorts x)) end; reflexivity. }
  specialize (X (sort_nat (p_symbols (apply_interest c p)))
    (mkAcc (p_cash (apply_interest c p) - margin_loan c (apply_interest c p)) (p_cash (apply_interest c p) - margin_loan c (apply_interest c p)) 0 0, apply_interest c p)).
  destruct (fold_left _ _ _) as [a q]. cbn [snd] in X. exact X.
Qed.
Lemma sweep_amount p : 0 <= p_accrued p ->
  p_cash (sweep p) == p_cash p - Qmax 0 (Qmin (p_cash p) (p_accrued p)) /\
  p_accrued (sweep p) == p_accrued p - Qmax 0 (Qmin (p_cash p) (p_accrued p)).
Proof.
  intro A. unfold sweep. destruct (Qmin_cases (p_cash p) (p_accrued p)) as [[M1 M2]|[M1 M2]];
    destruct (Qmax_cases 0 (Qmin (p_cash p) (p_accrued p))) as [[X1 X2]|[X1 X2]];
    destruct (Qle_bool (p_accrued p) 0) eqn:E1; destruct (Qle_bool (p_cash p) 0) eqn:E2; cbn [orb]; qb; cbn; split; lra.
Qed.
Lemma interest_placed c ops p d bar : cfg_ok c -> run c ops = Some p ->
  let p' := capture_bar c d bar p in
  let i := rate_per_bar c * net_balance c p in
  let pay := Qmax 0 (Qmin (p_cash p) (p_accrued p)) in
  (rate_per_bar c == 0 -> p_cash p' == p_cash p /\ p_accrued p' == p_accrued p) /\
  (0 < rate_per_bar c -> p_cash p' == p_cash p - pay + Qmax 0 i /\ p_accrued p' == p_accrued p - pay + Qmax 0 (- i)).
Proof.
  intros K R. cbv zeta. rewrite capture_cash, capture_accrued. pose proof (run_good _ _ _ K R) as G.
  pose proof (ld_accrued _ _ _ (gd_led _ _ G)) as A. destruct (sweep_ok c p A) as [_ [N _]]. destruct (sweep_amount p A) as [S1 S2].
  unfold apply_interest, rate_per_bar. destruct (c_bpy c) as [b|] eqn:Eb; [|split; [intros _; split; lra|intro; lra]].
  destruct (Qle_bool (c_rate c) 0) eqn:Er; [split; [intros _; split; lra|intro; lra]|].
  set (r := c_rate c / 100 / b). assert (P : 0 < r).
  { qb. pose proof (ck_bpy _ K b Eb). apply Qlt_shift_div_l; auto. rewrite Qmult_0_l. apply Qlt_shift_div_l; lra. }
  split; [intro; lra|]. intros _. change (net_cash c) with (net_balance c) in *. set (n := net_balance c p) in *.
  set (m := net_balance c (sweep p)) in *. clearbody m n.
  assert (RN : r * n == m * r) by (rewrite N; ring). rewrite RN.
  destruct (Qeq_bool m 0) eqn:E0.
  { apply Qeq_bool_eq in E0. assert (Z : m * r == 0) by (rewrite E0; ring).
    destruct (Qmax_cases 0 (m * r)) as [[X1 X2]|[X1 X2]]; destruct (Qmax_cases 0 (- (m * r))) as [[Y1 Y2]|[Y1 Y2]]; split; lra. }
  destruct (Qltb m 0) eqn:El; qb; cbn.
  - assert (Q : Qabs m * r == - (m * r)) by (rewrite (Qabs_neg m) by lra; ring).
    assert (NG : 0 <= (- m) * r) by (apply Qmult_le_0_compat; lra). assert (NG2 : m * r <= 0) by lra.
    destruct (Qmax_cases 0 (m * r)) as [[X1 X2]|[X1 X2]]; destruct (Qmax_cases 0 (- (m * r))) as [[Y1 Y2]|[Y1 Y2]]; split; lra.
  - assert (Q : Qabs m * r == m * r) by (rewrite (Qabs_pos m) by lra; ring).
    assert (NG : 0 <= m * r) by (apply Qmult_le_0_compat; lra).
    destruct (Qmax_cases 0 (m * r)) as [[X1 X2]|[X1 X2]]; destruct (Qmax_cases 0 (- (m * r))) as [[Y1 Y2]|[Y1 Y2]]; split; lra.
Qed.

(** ** Caps and modes *)
Lemma aset_keys_in {A} s (v : A) d : ahas s d = true -> length (aset s v d) = length d.
Proof.
  intro H. apply ahas_true in H. pose proof (akeys_aset_in s v d H) as E. apply (f_equal (@length nat)) in E.
  unfold akeys in E. now rewrite !map_length in E.
Qed.
Lemma aset_length {A} s (v : A) d : (length (aset s v d) <= S (length d))%nat.
Proof. induction d as [|[k x] r IH]; cbn; [lia|]. destruct (Nat.eqb s k); cbn; lia. Qed.
Lemma keys_length {A} (d d' : list (nat * A)) : NoDup (akeys d') -> incl (akeys d') (akeys d) -> (length d' <= length d)%nat.
Proof.
  intros N I. pose proof (NoDup_incl_length N I) as H. unfold akeys in H. now rewrite !map_length in H.
Qed.

(** One call grows a side only within its cap and only if the mode allows it. *)
Definition side_bound (c : cfg) (p p' : port) : Prop :=
  (forall sd, cap sd p' = cap sd p) /\
  (forall sd, ~ allows c sd -> poss sd p = [] -> poss sd p' = []) /\
  (forall sd m, cap sd p = Some m -> (n_positions p' sd <= Nat.max (n_positions p sd) m)%nat).
Lemma side_bound_refl c p : side_bound c p p.
Proof. split; [auto|]. split; [auto|]. intros. lia. Qed.
Lemma side_bound_trans c p q r : side_bound c p q -> side_bound c q r -> side_bound c p r.
Proof.
  intros [A1 [A2 A3]] [B1 [B2 B3]]. split; [intro; congruence|]. split; [auto|].
  intros sd m E. specialize (A3 sd m E). rewrite <- A1 in E. specialize (B3 sd m E). lia.
Qed.
Lemma side_bound_keys c p p' : (forall sd, cap sd p' = cap sd p) -> (forall sd, NoDup (akeys (poss sd p'))) ->
  (forall sd, incl (akeys (poss sd p')) (akeys (poss sd p))) -> side_bound c p p'.
Proof.
  intros C N I. split; auto. split.
  - intros sd _ E. specialize (I sd). rewrite E in I. cbn in I.
    destruct (poss sd p') as [|[k v] r]; auto. exfalso. apply (I k). now left.
  - intros sd m _. pose proof (keys_length _ _ (N sd) (I sd)). unfold n_positions. lia.
Qed.
Lemma place_bound c o a p p' r : cfg_ok c -> Good c p -> place c o a p = Ret p' r -> side_bound c p p'.
Proof.
  intros K G E. destruct (place_ret _ _ _ _ _ _ K G E) as [[_ [CO _]]|[p2 [filled [bought [_ [_ [_ [HF [_ [-> _]]]]]]]]]].
  - destruct (cc_acct _ _ CO). apply side_bound_keys.
    + intros []; cbn; auto.
    + intro sd. rewrite (cc_poss _ _ CO). apply (co_nodup _ _ (gd_core _ _ G)).
    + intro sd. rewrite (cc_poss _ _ CO). apply incl_refl.
  - assert (Gp := place_good c o a p K G). rewrite E in Gp. clear E.
    eapply side_bound_trans; [|apply (side_bound_keys c p2)].
    2:{ intros []; cbn [cap]; unfold the_order; apply add_order_caps. }
    2:{ intro sd. apply (co_nodup _ _ (gd_core _ _ Gp)). }
    2:{ intro sd. unfold the_order. rewrite add_order_poss. apply incl_refl. }
    clear Gp. destruct HF as [_ _ _ _ _ _ [rem [p1 [_ [HCl Hop]]]]].
    pose proof (cl_frame _ _ _ _ _ _ _ _ HCl) as F. pose proof (cl_core _ _ _ _ _ _ _ _ HCl) as HC1.
    assert (B1 : side_bound c p p1).
    { apply side_bound_keys.
      - intros []; cbn; apply F.
      - intro sd. apply (co_nodup _ _ HC1).
      - intro sd. destruct (side_dec sd (closes o)) as [->|N]; [intro; apply (cf_keys _ _ _ _ F)|].
        rewrite (flip_neq _ _ N), (cf_flip _ _ _ _ F). apply incl_refl. }
    eapply side_bound_trans; [exact B1|].
    destruct Hop as [[_ CO]|[[_ _ [q [o' [CO [_ [_ HO]]]]]] [HA Hcap]]].
    + destruct (cc_acct _ _ CO). apply side_bound_keys.
      * intros []; cbn; auto.
      * intro sd. rewrite (cc_poss _ _ CO). apply (co_nodup _ _ HC1).
      * intro sd. rewrite (cc_poss _ _ CO). apply incl_refl.
    + assert (P : poss (opens o) p2 = aset (a_sym a) (opened (opens o) (a_sym a) bought (a_fill a) (new_entry (opens o) (a_date a) (a_sym a) bought (a_fill a) (stops_of (a_stops a)) q) q) (poss (opens o) p1)).
      { rewrite (op_poss _ _ _ _ _ _ _ _ _ HO). now rewrite (cc_poss _ _ CO). }
      assert (PF : poss (flip (opens o)) p2 = poss (flip (opens o)) p1).
      { rewrite (op_flip _ _ _ _ _ _ _ _ _ HO). apply (cc_poss _ _ CO). }
      split; [|split].
      * destruct (cc_acct _ _ CO). intros []; cbn [cap]; [rewrite (op_ml _ _ _ _ _ _ _ _ _ HO)|rewrite (op_ms _ _ _ _ _ _ _ _ _ HO)]; auto.
      * intros sd NA Ep. destruct (side_dec sd (opens o)) as [->|N]; [contradiction|].
        rewrite (flip_neq _ _ N) in *. congruence.
      * intros sd m Em. destruct (side_dec sd (opens o)) as [->|N].
        -- unfold n_positions. rewrite P. unfold at_cap in Hcap. rewrite Em in Hcap.
           destruct (ahas (a_sym a) (poss (opens o) p1)) eqn:Eh.
           ++ rewrite aset_keys_in by auto. lia.
           ++ cbn in Hcap. apply Nat.leb_gt in Hcap. pose proof (aset_length (a_sym a) (opened (opens o) (a_sym a) bought (a_fill a) (new_entry (opens o) (a_date a) (a_sym a) bought (a_fill a) (stops_of (a_stops a)) q) q) (poss (opens o) p1)). lia.
        -- pose proof (flip_neq _ _ N) as ->. unfold n_positions. rewrite PF. lia.
Qed.
Lemma exec_bound c o p p' : cfg_ok c -> Good c p -> Good c p' -> exec c (Some p) o = Some p' ->
  match o with
  | OpSetCaps ml ms => p' = set_p_max_short ms (set_p_max_long ml p)
  | _ => side_bound c p p'
  end.
Proof.
  intros K G G' E. unfold exec in E. destruct o as [a|a|d s b sl sm|d sc sm|d bar|hb|id|v t|ml ms]; cbn [step] in E.
  - rewrite buy_place in E. pose proof (place_good c OBuy a p K G) as H. destruct (place c OBuy a p) as [q r|q []] eqn:Ep; cbn in E; inversion E; subst; auto using side_bound_refl.
    eapply place_bound; eauto.
  - rewrite sell_place in E. pose proof (place_good c OSell a p K G) as H. destruct (place c OSell a p) as [q r|q []] eqn:Ep; cbn in E; inversion E; subst; auto using side_bound_refl.
    eapply place_bound; eauto.
  - pose proof (exit_cases (side_bound c p) c d s b sl sm p K G (side_bound_refl c p)) as H.
    assert (HP : forall o a p0 p'0 r, Good c p0 -> side_bound c p p0 -> a_stops a = None -> place c o a p0 = Ret p'0 r -> side_bound c p p'0).
    { intros o a p0 p1 r G0 E0 _ E1. eapply side_bound_trans; eauto. eapply place_bound; eauto. }
    specialize (H HP). destruct (exit_position c d s b sl sm p) as [q r|q []]; inversion E; subst; tauto.
  - pose proof (check_stops_ok c d sc sm p K G) as H. destruct (check_stops c d sc sm p) as [q r|q []]; inversion E; subst.
    + destruct H as [evs [H _]]. apply side_bound_keys.
      * intros []; cbn; apply (so_frame _ _ _ _ _ _ _ H).
      * intro sd. apply (co_nodup _ _ (gd_core _ _ G')).
      * intros sd k I. destruct (key_aget _ _ I) as [pos Hg].
        destruct (ps_entries pos) as [|e es] eqn:Ee; [exfalso; eapply (gd_ne _ _ G'); eauto; discriminate|].
        assert (Ie : In e (entries_of p' sd k)) by (unfold entries_of; rewrite Hg, Ee; now left).
        rewrite (so_ent _ _ _ _ _ _ _ H) in Ie. apply filter_In in Ie. destruct Ie as [Ie _].
        apply owns_entries in Ie. destruct Ie as [pos0 [Hg0 _]]. eapply aget_Some_key; eauto.
    + destruct H. congruence.
  - injection E as <-. pose proof (capture_ok c d bar p K G) as CA. apply side_bound_keys.
    + intros []; cbn; apply CA.
    + intro sd. apply (co_nodup _ _ (gd_core _ _ G')).
    + intro sd. rewrite (ca_keys _ _ _ _ _ CA). apply incl_refl.
  - injection E as <-. apply side_bound_keys.
    + intros []; reflexivity.
    + intro sd. apply (co_nodup _ _ (gd_core _ _ G')).
    + intro sd. rewrite incr_poss, mapv_keys. apply incl_refl.
  - injection E as <-. pose proof (remove_stop_strips id p) as S. apply side_bound_keys.
    + intros []; cbn; apply (rs_acct _ _ S).
    + intro sd. apply (co_nodup _ _ (gd_core _ _ G')).
    + intros sd k I. destruct (key_aget _ _ I) as [pos Hg]. pose proof (rs_pos _ _ S sd k) as X.
      destruct (aget k (poss sd p)) eqn:Ek; [eapply aget_Some_key; eauto|congruence].
  - injection E as <-. pose proof (remove_stops_strips v t p) as S. apply side_bound_keys.
    + intros []; cbn; apply (rs_acct _ _ S).
    + intro sd. apply (co_nodup _ _ (gd_core _ _ G')).
    + intros sd k I. destruct (key_aget _ _ I) as [pos Hg]. pose proof (rs_pos _ _ S sd k) as X.
      destruct (aget k (poss sd p)) eqn:Ek; [eapply aget_Some_key; eauto|congruence].
  - now injection E as <-.
Qed.

Lemma mode_respected c ops p sd : cfg_ok c -> run c ops = Some p -> ~ side_allowed c sd -> poss sd p = [].
Proof.
  intros K R NA. revert ops p R. apply (hist_ind c (fun _ p => poss sd p = []) K); [destruct sd; reflexivity|].
  intros ops q o p' _ G IH E G' _. pose proof (exec_bound c o q p' K G G' E) as B.
  destruct o; try (apply B; auto; exact NA). subst p'. destruct sd; exact IH.
Qed.
Lemma caps_respected c ops p sd m : cfg_ok c -> run c ops = Some p -> Forall keeps_caps ops ->
  max_positions (init c) sd = Some m -> max_positions p sd = Some m /\ (n_positions p sd <= m)%nat.
Proof.
  intros K R F Hm. revert F. revert ops p R.
  apply (hist_ind c (fun ops p => Forall keeps_caps ops -> max_positions p sd = Some m /\ (n_positions p sd <= m)%nat) K).
  - intros _. split; auto. destruct sd; cbn; lia.
  - intros ops q o p' _ G IH E G' _ F. apply Forall_app in F. destruct F as [F1 F2]. inversion F2; subst.
    destruct (IH F1) as [H3 H4]. pose proof (exec_bound c o q p' K G G' E) as B.
    assert (B' : side_bound c q p') by (destruct o; cbn in *; tauto || exact B).
    destruct B' as [B1 [B2 B3]]. split.
    + specialize (B1 sd). destruct sd; cbn in *; congruence.
    + specialize (B3 sd m H3). lia.
Qed.
Lemma cap_one_step c ops p o p' sd m : cfg_ok c -> run c ops = Some p -> exec c (Some p) o = Some p' ->
  max_positions p' sd = Some m -> (n_positions p' sd <= Nat.max (n_positions p sd) m)%nat.
Proof.
  intros K R E Hm. pose proof (run_good _ _ _ K R) as G.
  assert (R' : run c (ops ++ [o]) = Some p') by (rewrite run_snoc, R; exact E).
  pose proof (run_good _ _ _ K R') as G'. pose proof (exec_bound c o p p' K G G' E) as B.
  destruct o; try (apply B; destruct B as [B1 _]; rewrite <- B1; exact Hm).
  subst p'. unfold n_positions. destruct sd; cbn; lia.
Qed.
