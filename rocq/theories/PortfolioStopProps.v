(** The stop theorems in terms of histories. *)
From Verif Require Export PortfolioRaise PortfolioSeen PortfolioMark.

Section Check.
Variables (c : cfg) (ops : list op) (p p' : port) (date : Z) (sc : scope) (sm : slip_model) (u : unit).
Hypothesis K : cfg_ok c.
Hypothesis R : run c ops = Some p.
Hypothesis W : stops_wf ops.
Hypothesis E : check_stops c date sc sm p = Ret p' u.

Lemma check_run : exists exits, check_did c date sc sm p exits p'.
Proof.
  eapply check_stops_did; eauto; [exact (run_good _ _ _ K R)|exact (proj1 (run_stop_all _ _ _ K R W))].
Qed.

Lemma stop_place : forall sd s e st, In e (queue p sd s) -> In st (e_stops e) -> st_sym st = s /\ st_pos st = sd.
Proof.
  intros sd s e st I1 I2. destruct (run_stop_all _ _ _ K R W) as [SI _]. apply (si_own _ SI sd s e st); auto. now apply owns_queue.
Qed.

Lemma price_stops : exists exits, check_did c date sc sm p exits p' /\
  (forall v, In v exits -> st_type (v_stop v) <> SBar ->
     exists x, level p (st_id (v_stop v)) = Some x /\ reached sc (v_stop v) x /\ v_market v = price_at sc (v_stop v) x /\
       (st_exit (v_stop v) = None -> sc_price sc (v_sym v) PTLow <= sc_price sc (v_sym v) PTHigh ->
        sc_price sc (v_sym v) PTLow <= v_market v <= sc_price sc (v_sym v) PTHigh)) /\
  (forall sd s e st x, In e (queue p sd s) -> sc_can_price sc s = true -> In st (e_stops e) -> st_type st <> SBar ->
     level p (st_id st) = Some x -> reached sc st x ->
     In (e_id e) (ids exits) \/ rejected st (slipped sm sd s (e_shares e) (price_at sc st x)) = true) /\
  (forall v l, In v exits -> st_limit (v_stop v) = Some l ->
     match v_sd v with Long => l <= v_fill v | Short => v_fill v <= l end).
Proof.
  destruct check_run as [exits D]. exists exits. split; auto. pose proof (cd_ok _ _ _ _ _ _ _ D) as OK.
  rewrite Forall_forall in OK. split; [|split].
  - intros v I NB. pose proof (OK v I) as X. pose proof (xk_due _ _ _ _ X) as Du. pose proof (xk_market _ _ _ _ X) as M.
    unfold due, stop_fills_at in *. destruct (st_type (v_stop v)); [contradiction|..];
    (destruct Du as [x [L1 Rc]]; destruct M as [y [L2 ->]]; assert (x = y) by congruence; subst y;
     exists x; split; [exact L1|]; split; [exact Rc|]; split; [reflexivity|]; intros EX LE; rewrite <- (xk_sym _ _ _ _ X) in LE |- *;
     apply price_in_bar; auto).
  - intros sd s e st x I PR IS NB L Rc. destruct (in_dec Nat.eq_dec (e_id e) (ids exits)) as [|N]; auto. right.
    assert (Du : due p sc e st) by (unfold due; destruct (st_type st); [contradiction|..]; eauto).
    destruct (cd_all _ _ _ _ _ _ _ D sd s e st I N PR IS Du) as [m [M RJ]].
    unfold stop_fills_at in M. destruct (st_type st); [contradiction|..];
    (destruct M as [y [L2 ->]]; assert (x = y) by congruence; subst y; exact RJ).
  - intros v l I L. pose proof (xk_limit _ _ _ _ (OK v I)) as RJ. unfold rejected in RJ.
    rewrite L, (xk_pos _ _ _ _ (OK v I)) in RJ. destruct (v_sd v); qb; exact RJ.
Qed.

Lemma bar_stops : exists exits, check_did c date sc sm p exits p' /\
  (forall v, In v exits -> st_type (v_stop v) = SBar ->
     exists n, st_bars (v_stop v) = Some n /\ (n <= bars_seen c ops (v_sd v) (v_sym v) (v_id v))%nat) /\
  (forall sd s e st n, In e (queue p sd s) -> sc_can_price sc s = true -> In st (e_stops e) -> st_type st = SBar ->
     st_bars st = Some n -> (n <= bars_seen c ops sd s (e_id e))%nat ->
     In (e_id e) (ids exits) \/
     rejected st (slipped sm sd s (e_shares e)
       (sc_fetch sc s (match st_fill st with Some f => f | None => FType PTMiddle end))) = true).
Proof.
  destruct check_run as [exits D]. exists exits. split; auto. pose proof (cd_ok _ _ _ _ _ _ _ D) as OK.
  rewrite Forall_forall in OK. split.
  - intros v I B. pose proof (OK v I) as X. pose proof (xk_due _ _ _ _ X) as Du. unfold due in Du. rewrite B in Du.
    destruct Du as [n [E1 E2]]. exists n. split; auto. unfold v_id.
    rewrite <- (symbol_bars c ops p (v_sd v) (v_sym v) (v_entry v) K R (xk_open _ _ _ _ X)). exact E2.
  - intros sd s e st n I PR IS B EN LE. destruct (in_dec Nat.eq_dec (e_id e) (ids exits)) as [|N]; auto. right.
    assert (Du : due p sc e st).
    { unfold due. rewrite B. exists n. split; auto. rewrite (symbol_bars c ops p sd s e K R I). exact LE. }
    destruct (cd_all _ _ _ _ _ _ _ D sd s e st I N PR IS Du) as [m [M RJ]].
    unfold stop_fills_at in M. rewrite B in M. destruct M as [-> _].
    destruct (stop_place sd s e st I IS) as [-> _] in RJ. exact RJ.
Qed.
End Check.

Lemma trail_level c ops p sd s e st : cfg_ok c -> run c ops = Some p -> stops_wf ops ->
  In e (queue p sd s) -> In st (e_stops e) -> st_type st = STrailing ->
  level p (st_id st) = Some (trailed st (e_price e) (trail_bars c ops st)).
Proof. intros K R W I1 I2 T. eapply stop_level; eauto. congruence. Qed.

Lemma remove_run c ops p v t : cfg_ok c -> run c ops = Some p -> stops_wf ops ->
  Forall (fun o => one_per_type (op_stops o)) ops ->
  let p' := remove_stops v t p in
  (forall sd s, queue p' sd s = map (fun e => if targeted v sd s e
      then set_e_stops (filter (fun st => negb (of_type t st)) (e_stops e)) e else e) (queue p sd s)) /\
  (forall sd s e st, In e (queue p sd s) -> In st (e_stops e) ->
      level p' (st_id st) = if targeted v sd s e && of_type t st then None else level p (st_id st)).
Proof.
  intros K R W O. apply remove_stops_spec.
  - exact (gd_core _ _ (run_good _ _ _ K R)).
  - exact (proj1 (run_stop_all _ _ _ K R W)).
  - exact (one_per_type_run c ops p K R O).
Qed.
Lemma remove_gone c ops p v t sd s e st : cfg_ok c -> run c ops = Some p -> stops_wf ops ->
  Forall (fun o => one_per_type (op_stops o)) ops ->
  In e (queue (remove_stops v t p) sd s) -> targeted v sd s e = true -> In st (e_stops e) -> of_type t st = false.
Proof.
  intros K R W O I T IS. destruct (remove_run c ops p v t K R W O) as [Hq _]. cbv zeta in Hq. rewrite Hq in I.
  apply in_map_iff in I. destruct I as [e0 [E0 I0]].
  assert (T0 : targeted v sd s e0 = true).
  { destruct (targeted v sd s e0) eqn:X; auto. subst e0. congruence. }
  rewrite T0 in E0. subst e. cbn in IS. apply filter_In in IS. destruct IS as [_ N].
  destruct (of_type t st); [discriminate|reflexivity].
Qed.
