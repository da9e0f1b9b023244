(** Opening fills, the order log, [buy] and [sell]. *)
From Verif Require Export PortfolioFill.

(** ** Opening fills *)
Lemma add_stops_loop_ok ss : forall e p e' p' r,
  add_stops_loop ss e p = (e', p', r) ->
  same_but_stops p p' /\ e' = set_e_stops (e_stops e') e.
Proof.
  induction ss as [|st ss IH]; cbn; intros e p e' p' r H.
  - injection H as <- <- <-. split; [apply sbs_refl|]. destruct e; reflexivity.
  - destruct (ahas (st_id st) (p_stop_data p)).
    { injection H as <- <- <-. split; [apply sbs_refl|]. destruct e; reflexivity. }
    assert (G : forall q, same_but_stops p q ->
       add_stops_loop ss (set_e_stops (e_stops e ++ [st]) e) q = (e', p', r) ->
       same_but_stops p p' /\ e' = set_e_stops (e_stops e') e).
    { intros q S H'. destruct (IH _ _ _ _ _ H') as [S' E']. split; [eapply sbs_trans; eauto|].
      rewrite E' at 1. destruct e; reflexivity. }
    destruct (st_type st); [apply (G p); [apply sbs_refl|exact H]| | |];
    (destruct (stop_amount st (e_price e));
      [|injection H as <- <- <-; split; [apply sbs_refl|destruct e; reflexivity]];
      eapply G; [|exact H];
      constructor; [constructor; try reflexivity; intros []; reflexivity|intros []; reflexivity|reflexivity..]).
Qed.

Lemma add_stops_loop_stops ss : forall e p e' p',
  add_stops_loop ss e p = (e', p', false) -> e_stops e' = e_stops e ++ ss.
Proof.
  induction ss as [|st ss IH]; cbn; intros e p e' p' H.
  - injection H as <- <-. now rewrite app_nil_r.
  - destruct (ahas (st_id st) (p_stop_data p)); [discriminate|].
    destruct (st_type st); [|destruct (stop_amount st (e_price e)); [|discriminate]..];
    apply IH in H; rewrite H; cbn; now rewrite <- app_assoc.
Qed.

Definition pos_or_new (sd : side) (s : sym) (p : port) : position :=
  match aget s (poss sd p) with Some pos => pos | None => new_pos s 0 sd end.

(** The position after an opening fill. *)
Definition opened (sd : side) (s : sym) (shares fill : Q) (e : entry) (p : port) : position :=
  let pos := match aget s (poss sd p) with
             | None => new_pos s shares sd
             | Some pos => set_ps_shares (ps_shares pos + shares) pos end in
  let pos := add_unmarked shares fill pos in
  let pos := set_ps_entries (ps_entries pos ++ [e]) pos in
  set_ps_notional (ps_notional pos + shares * fill) pos.

Definition new_entry (sd : side) (date : Z) (s : sym) (shares fill : Q) (stops : list stop) (p : port) : entry :=
  mkEntry (S (p_entry_id p)) date s shares fill sd 0 0 stops 0 0.

Record open_ok (c : cfg) (sd : side) (date : Z) (s : sym) (shares fill : Q) (stops : list stop)
    (p p' : port) : Prop := mkOpen {
  op_poss : poss sd p' = aset s (opened sd s shares fill (new_entry sd date s shares fill stops p) p) (poss sd p);
  op_flip : poss (flip sd) p' = poss (flip sd) p;
  op_syms : p_symbols p' = match aget s (poss sd p) with
              | Some _ => p_symbols p
              | None => if nmem s (p_symbols p) then p_symbols p else p_symbols p ++ [s] end;
  op_eid : p_entry_id p' = S (p_entry_id p);
  op_en : en sd p' = en sd p + shares * fill;
  op_enf : en (flip sd) p' = en (flip sd) p;
  op_cash : p_cash p' = if Qltb 1 (c_leverage c) then p_cash p - shares * fill / c_leverage c
                        else p_cash p - shares * fill;
  op_caches : p_clong p' = None /\ p_cshort p' = None;
  op_equity : p_equity p' = p_equity p; op_mv : p_mv p' = p_mv p; op_margin : p_margin p' = p_margin p;
  op_fees : p_fees p' = p_fees p; op_orders : p_orders p' = p_orders p;
  op_trades : p_trades p' = p_trades p; op_accrued : p_accrued p' = p_accrued p;
  op_pnl : p_pnl p' = p_pnl p; op_bars : p_bars p' = p_bars p; op_wins : p_wins p' = p_wins p;
  op_oid : p_order_id p' = p_order_id p; op_tid : p_trade_id p' = p_trade_id p;
  op_ml : p_max_long p' = p_max_long p; op_ms : p_max_short p' = p_max_short p;
  op_reg : exists q e' q', p_stop_data q = p_stop_data p /\ p_active q = p_active p /\
     add_stops_loop stops (new_entry sd date s shares fill [] p) q = (e', q', false) /\
     p_stop_data p' = p_stop_data q' /\ p_active p' = p_active q'
}.

(** The stops of an order, in the order in which they are attached. *)
Definition stops_of (stops : option (list stop)) : list stop :=
  match stops with Some l => sort_stops l | None => [] end.

Lemma open_fill_ok c sd date s shares fill stops p p' b :
  open_fill c sd date s shares fill stops p = Ret p' b ->
  b = shares /\ open_ok c sd date s shares fill (stops_of stops) p p'.
Proof.
  unfold open_fill. intro H.
  set (p1 := post_collateral c (shares * fill) p) in *.
  assert (Hp1 : poss sd p1 = poss sd p) by (destruct sd; reflexivity).
  rewrite Hp1 in H.
  set (p2 := set_p_symbols (if nmem s (p_symbols p1) then p_symbols p1 else p_symbols p1 ++ [s]) p1) in *.
  (* both branches give a position and a portfolio *)
  set (posn := match aget s (poss sd p) with
             | None => new_pos s shares sd
             | Some pos => set_ps_shares (ps_shares pos + shares) pos end) in *.
  set (q := match aget s (poss sd p) with None => p2 | Some _ => p1 end) in *.
  assert (Hpair : match aget s (poss sd p) with
            | Some pos => (set_ps_shares (ps_shares pos + shares) pos, p1)
            | None => (new_pos s shares sd, p2) end = (posn, q)).
  { unfold posn, q. destruct (aget s (poss sd p)); reflexivity. }
  rewrite Hpair in H. clear Hpair.
  assert (Hqe : p_entry_id q = p_entry_id p).
  { unfold q. destruct (aget s (poss sd p)); reflexivity. }
  rewrite Hqe in H.
  set (q1 := set_p_entry_id (S (p_entry_id p)) q) in *.
  set (e0 := mkEntry (S (p_entry_id p)) date s shares fill sd 0 0 [] 0 0) in *.
  assert (HS : exists e p3 r, match stops with
            | Some ss => add_stops_loop (sort_stops ss) e0 q1
            | None => (e0, q1, false) end = (e, p3, r) /\
            same_but_stops q1 p3 /\ e = set_e_stops (e_stops e) e0 /\
            add_stops_loop (stops_of stops) e0 q1 = (e, p3, r)).
  { destruct stops as [ss|].
    - destruct (add_stops_loop (sort_stops ss) e0 q1) as [[e p3] r] eqn:E.
      exists e, p3, r. split; auto. destruct (add_stops_loop_ok _ _ _ _ _ _ E). auto.
    - exists e0, q1, false. split; auto. split; [apply sbs_refl|split; reflexivity]. }
  destruct HS as [e [p3 [r [E [S [Ee Ereg]]]]]]. rewrite E in H.
  destruct r; [discriminate H|]. injection H as <- <-. split; auto.
  assert (Ereg' : add_stops_loop (e_stops e) e0 q1 = (e, p3, false)).
  { pose proof (add_stops_loop_stops _ _ _ _ _ Ereg) as ES. cbn in ES. rewrite ES. exact Ereg. }
  assert (ES : stops_of stops = e_stops e) by (symmetry; exact (add_stops_loop_stops _ _ _ _ _ Ereg)).
  rewrite ES.
  assert (Hq : poss sd q1 = poss sd p /\ poss (flip sd) q1 = poss (flip sd) p).
  { unfold q1, q. destruct (aget s (poss sd p)), sd; split; reflexivity. }
  destruct S as [SA SP SS SC1 SC2].
  assert (Hen : en sd q1 = en sd p /\ en (flip sd) q1 = en (flip sd) p).
  { unfold q1, q. destruct (aget s (poss sd p)), sd; split; reflexivity. }
  assert (Ene : new_entry sd date s shares fill (e_stops e) p = e).
  { rewrite Ee at 2. reflexivity. }
  constructor; rewrite ?Ene.
  - unfold invalidate.
    transitivity (aset s (set_ps_notional
        (ps_notional (set_ps_entries (ps_entries (add_unmarked shares fill posn) ++ [e]) (add_unmarked shares fill posn)) + shares * fill)
        (set_ps_entries (ps_entries (add_unmarked shares fill posn) ++ [e]) (add_unmarked shares fill posn)))
        (poss sd p3)); [destruct sd; reflexivity|].
    rewrite SP, (proj1 Hq). unfold opened, posn. reflexivity.
  - transitivity (poss (flip sd) p3); [destruct sd; reflexivity|]. rewrite SP. apply Hq.
  - transitivity (p_symbols p3); [destruct sd; reflexivity|]. rewrite SS.
    unfold q1, q. destruct (aget s (poss sd p)); reflexivity.
  - transitivity (p_entry_id p3); [destruct sd; reflexivity|]. rewrite (sa_entry_id _ _ SA). reflexivity.
  - transitivity (en sd p3 + shares * fill); [destruct sd; reflexivity|].
    rewrite (sa_en _ _ SA), (proj1 Hen). reflexivity.
  - transitivity (en (flip sd) p3); [destruct sd; reflexivity|].
    rewrite (sa_en _ _ SA). apply Hen.
  - transitivity (p_cash p3); [destruct sd; reflexivity|]. rewrite (sa_cash _ _ SA).
    unfold q1, q. destruct (aget s (poss sd p)); reflexivity.
  - split; reflexivity.
  - transitivity (p_equity p3); [destruct sd; reflexivity|]. rewrite (sa_equity _ _ SA).
    unfold q1, q. destruct (aget s (poss sd p)); reflexivity.
  - transitivity (p_mv p3); [destruct sd; reflexivity|]. rewrite (sa_mv _ _ SA).
    unfold q1, q. destruct (aget s (poss sd p)); reflexivity.
  - transitivity (p_margin p3); [destruct sd; reflexivity|]. rewrite (sa_margin _ _ SA).
    unfold q1, q. destruct (aget s (poss sd p)); reflexivity.
  - transitivity (p_fees p3); [destruct sd; reflexivity|]. rewrite (sa_fees _ _ SA).
    unfold q1, q. destruct (aget s (poss sd p)); reflexivity.
  - transitivity (p_orders p3); [destruct sd; reflexivity|]. rewrite (sa_orders _ _ SA).
    unfold q1, q. destruct (aget s (poss sd p)); reflexivity.
  - transitivity (p_trades p3); [destruct sd; reflexivity|]. rewrite (sa_trades _ _ SA).
    unfold q1, q. destruct (aget s (poss sd p)); reflexivity.
  - transitivity (p_accrued p3); [destruct sd; reflexivity|]. rewrite (sa_accrued _ _ SA).
    unfold q1, q. destruct (aget s (poss sd p)); reflexivity.
  - transitivity (p_pnl p3); [destruct sd; reflexivity|]. rewrite (sa_pnl _ _ SA).
    unfold q1, q. destruct (aget s (poss sd p)); reflexivity.
  - transitivity (p_bars p3); [destruct sd; reflexivity|]. rewrite (sa_bars _ _ SA).
    unfold q1, q. destruct (aget s (poss sd p)); reflexivity.
  - transitivity (p_wins p3); [destruct sd; reflexivity|]. rewrite (sa_wins _ _ SA).
    unfold q1, q. destruct (aget s (poss sd p)); reflexivity.
  - transitivity (p_order_id p3); [destruct sd; reflexivity|]. rewrite (sa_order_id _ _ SA).
    unfold q1, q. destruct (aget s (poss sd p)); reflexivity.
  - transitivity (p_trade_id p3); [destruct sd; reflexivity|]. rewrite (sa_trade_id _ _ SA).
    unfold q1, q. destruct (aget s (poss sd p)); reflexivity.
  - transitivity (p_max_long p3); [destruct sd; reflexivity|]. rewrite (sa_ml _ _ SA).
    unfold q1, q. destruct (aget s (poss sd p)); reflexivity.
  - transitivity (p_max_short p3); [destruct sd; reflexivity|]. rewrite (sa_ms _ _ SA).
    unfold q1, q. destruct (aget s (poss sd p)); reflexivity.
  - exists q1, e, p3.
    split; [unfold q1, q; destruct (aget s (poss sd p)); reflexivity|].
    split; [unfold q1, q; destruct (aget s (poss sd p)); reflexivity|].
    split; [exact Ereg'|]. destruct sd; split; reflexivity.
Qed.

Section Opened.
  Variables (c : cfg) (sd : side) (date : Z) (s : sym) (shares fill : Q) (stops : list stop) (p p' : port).
  Hypothesis HO : open_ok c sd date s shares fill stops p p'.
  Let e := new_entry sd date s shares fill stops p.
  Let pos' := opened sd s shares fill e p.

  Lemma opened_entries : ps_entries pos' =
    (match aget s (poss sd p) with Some pos => ps_entries pos | None => [] end) ++ [e].
  Proof. unfold pos', opened. destruct (aget s (poss sd p)); reflexivity. Qed.
  Lemma opened_shares : ps_shares pos' =
    match aget s (poss sd p) with Some pos => ps_shares pos + shares | None => shares end.
  Proof. unfold pos', opened. destruct (aget s (poss sd p)); reflexivity. Qed.
  Lemma opened_notional : ps_notional pos' =
    (match aget s (poss sd p) with Some pos => ps_notional pos | None => 0 end) + shares * fill.
  Proof. unfold pos', opened. destruct (aget s (poss sd p)); reflexivity. Qed.

  Lemma owns_open sd' s' x : owns p' sd' s' x ->
    owns p sd' s' x \/ (sd' = sd /\ s' = s /\ x = e).
  Proof.
    intros [q [Hq I]]. destruct (side_dec sd' sd) as [->|N].
    - rewrite (op_poss _ _ _ _ _ _ _ _ _ HO), aget_aset in Hq.
      destruct (Nat.eqb_spec s' s) as [->|Ns].
      + injection Hq as <-. fold e pos' in I. rewrite opened_entries in I.
        apply in_app_iff in I. destruct I as [I|[<-|[]]]; [|auto].
        left. unfold owns. destruct (aget s (poss sd p)) as [pos|]; [eauto|contradiction I].
      + left. exists q. auto.
    - pose proof (flip_neq _ _ N) as ->. left. exists q.
      rewrite (op_flip _ _ _ _ _ _ _ _ _ HO) in Hq. auto.
  Qed.

  Hypothesis Hsh : 0 < shares.
  Hypothesis Hfill : 0 < fill.
  Hypothesis HC : Core [] p.
  Hypothesis HF : aget s (poss (flip sd) p) = None.

  Lemma opened_ok : pos_ok [] sd s pos'.
  Proof.
    assert (He : entry_ok [] sd s e).
    { constructor; cbn; auto; try lra; try tauto. }
    pose proof opened_entries as EE. pose proof opened_shares as ES. pose proof opened_notional as EN.
    destruct (aget s (poss sd p)) as [pos|] eqn:Hg.
    - pose proof (co_pos _ _ HC _ _ _ Hg) as [A B C D E F].
      constructor; rewrite ?EE, ?ES, ?EN.
      + unfold pos', opened. rewrite Hg. exact A.
      + unfold pos', opened. rewrite Hg. exact B.
      + rewrite map_app, Qsum_app, C. cbn. lra.
      + rewrite map_app, Qsum_app, D. cbn. lra.
      + rewrite map_app.
        apply Permutation_NoDup with (l := e_id e :: map e_id (ps_entries pos)).
        * apply Permutation_cons_append.
        * constructor; auto. intro I. apply in_map_iff in I. destruct I as [x [Ex Ix]].
          assert (O : owns p sd s x) by (exists pos; auto).
          apply (co_bound _ _ HC) in O. rewrite Ex in O. cbn in O. lia.
      + intros x I. apply in_app_iff in I. destruct I as [I|[<-|[]]]; auto.
    - constructor; rewrite ?EE, ?ES, ?EN; cbn.
      + unfold pos', opened. now rewrite Hg.
      + unfold pos', opened. now rewrite Hg.
      + lra.
      + lra.
      + constructor; [auto|constructor].
      + intros x [<-|[]]. auto.
  Qed.

  Lemma open_core : Core [] p'.
  Proof.
    assert (Hk : forall sd' j, In j (akeys (poss sd' p')) <->
        In j (akeys (poss sd' p)) \/ (sd' = sd /\ j = s)).
    { intros sd' j. destruct (side_dec sd' sd) as [->|N].
      - rewrite (op_poss _ _ _ _ _ _ _ _ _ HO), In_akeys_aset. tauto.
      - pose proof (flip_neq _ _ N) as ->. rewrite (op_flip _ _ _ _ _ _ _ _ _ HO). intuition congruence. }
    assert (HFk : ~ In s (akeys (poss (flip sd) p))) by (now apply aget_None).
    constructor.
    - intro sd'. destruct (side_dec sd' sd) as [->|N].
      + rewrite (op_poss _ _ _ _ _ _ _ _ _ HO). apply NoDup_aset, (co_nodup _ _ HC).
      + pose proof (flip_neq _ _ N) as ->. rewrite (op_flip _ _ _ _ _ _ _ _ _ HO). apply (co_nodup _ _ HC).
    - intros sd' j q Hq. destruct (side_dec sd' sd) as [->|N].
      + rewrite (op_poss _ _ _ _ _ _ _ _ _ HO), aget_aset in Hq.
        destruct (Nat.eqb_spec j s) as [->|Ns].
        * injection Hq as <-. apply opened_ok.
        * now apply (co_pos _ _ HC).
      + pose proof (flip_neq _ _ N) as ->. rewrite (op_flip _ _ _ _ _ _ _ _ _ HO) in Hq.
        now apply (co_pos _ _ HC).
    - intros sd' j H1 H2. apply Hk in H1, H2.
      destruct H1 as [H1|[-> ->]], H2 as [H2|[H2 E2]].
      + exact (co_disj _ _ HC _ _ H1 H2).
      + apply HFk. rewrite <- H2, flip_flip, <- E2. exact H1.
      + exact (HFk H2).
      + destruct sd; discriminate H2.
    - rewrite (op_syms _ _ _ _ _ _ _ _ _ HO). destruct (aget s (poss sd p)); [apply (co_syms_nodup _ _ HC)|].
      destruct (nmem s (p_symbols p)) eqn:Em; [apply (co_syms_nodup _ _ HC)|].
      apply nmem_notIn in Em.
      apply Permutation_NoDup with (l := s :: p_symbols p); [apply Permutation_cons_append|].
      constructor; auto. apply (co_syms_nodup _ _ HC).
    - intro j. assert (Hs : In j (p_symbols p') <-> In j (p_symbols p) \/ j = s).
      { rewrite (op_syms _ _ _ _ _ _ _ _ _ HO). destruct (aget s (poss sd p)) as [pos|] eqn:Hg.
        - split; [auto|]. intros [H| ->]; auto. apply (co_syms _ _ HC). exists sd.
          eapply aget_Some_key; eauto.
        - destruct (nmem s (p_symbols p)) eqn:Em.
          + apply nmem_In in Em. split; [auto|]. intros [H| ->]; auto.
          + rewrite in_app_iff. cbn. intuition. }
      rewrite Hs, (co_syms _ _ HC j). split.
      + intros [[sd' H]| ->]; [exists sd'|exists sd]; apply Hk; auto.
      + intros [sd' H]. apply Hk in H. destruct H as [H|[_ H]]; eauto.
    - intros sd1 s1 e1 sd2 s2 e2 O1 O2 E.
      apply owns_open in O1, O2.
      destruct O1 as [O1|[-> [-> ->]]], O2 as [O2|[-> [-> ->]]].
      + eapply (co_ids _ _ HC); eauto.
      + apply (co_bound _ _ HC) in O1. rewrite E in O1. cbn in O1. lia.
      + apply (co_bound _ _ HC) in O2. rewrite <- E in O2. cbn in O2. lia.
      + auto.
    - intros sd' s' x O. apply owns_open in O. rewrite (op_eid _ _ _ _ _ _ _ _ _ HO).
      destruct O as [O|[-> [-> ->]]]; [apply (co_bound _ _ HC) in O; lia|cbn; lia].
    - intro sd'. destruct (side_dec sd' sd) as [->|N].
      + rewrite (op_en _ _ _ _ _ _ _ _ _ HO), (op_poss _ _ _ _ _ _ _ _ _ HO), (co_en _ _ HC).
        fold e pos'. destruct (aget s (poss sd p)) as [pos|] eqn:Hg.
        * rewrite (asum_aset_in _ _ _ _ _ Hg), opened_notional, Hg. lra.
        * rewrite (asum_aset_new _ _ _ _ Hg), opened_notional, Hg. lra.
      + pose proof (flip_neq _ _ N) as ->.
        rewrite (op_enf _ _ _ _ _ _ _ _ _ HO), (op_flip _ _ _ _ _ _ _ _ _ HO). apply (co_en _ _ HC).
  Qed.

  Lemma open_nonempty : nonempty_but None p -> nonempty_but None p'.
  Proof.
    intro H. eapply nonempty_update; [exact H|apply (op_poss _ _ _ _ _ _ _ _ _ HO)|
      apply (op_flip _ _ _ _ _ _ _ _ _ HO)|]. right. fold e pos'. rewrite opened_entries.
    intro E. apply app_eq_nil in E. destruct E; discriminate.
  Qed.

  Lemma open_held : held sd p' s == held sd p s + shares.
  Proof.
    rewrite (held_update sd s pos' p p') by apply (op_poss _ _ _ _ _ _ _ _ _ HO).
    rewrite Nat.eqb_refl, opened_shares. unfold held. destruct (aget s (poss sd p)); lra.
  Qed.

  Lemma open_led d : cfg_ok c -> Led c d p -> Led c (dadd s (sgn sd * shares) d) p'.
  Proof.
    intros K H. destruct HO. destruct H. constructor;
    rewrite ?op_orders0, ?op_oid0, ?op_trades0, ?op_tid0, ?op_pnl0, ?op_fees0, ?op_wins0, ?op_bars0, ?op_accrued0; auto.
    - intro x. rewrite (net_held_sd sd p').
      rewrite (held_same (flip sd) p p') by auto.
      specialize (ld_net x). rewrite (net_held_sd sd p) in ld_net.
      unfold dadd. destruct (Nat.eqb_spec x s) as [->|N].
      + rewrite open_held. destruct sd; cbn [sgn] in *; lra.
      + rewrite (held_update sd s pos' p p') by auto.
        destruct (Nat.eqb_spec x s); [congruence|]. exact ld_net.
    - pose proof (Qsum_en sd p) as E1. pose proof (Qsum_en sd p') as E2.
      rewrite op_cash0. unfold margin_loan in *. rewrite op_accrued0.
      change (p_long_en p' + p_short_en p') with (en Long p' + en Short p').
      change (p_long_en p + p_short_en p) with (en Long p + en Short p) in ld_money.
      rewrite op_en0, op_enf0 in E2. set (X := shares * fill) in *.
      destruct (lev_cases c K) as [[A [B L]]|[A [B L]]]; rewrite A, B in *.
      + assert (E3 : en Long p' + en Short p' == en Long p + en Short p + X) by lra.
        rewrite <- Qplus_assoc, E3. rewrite <- ld_money. field. lra.
      + lra.
    - apply total_cache_none; apply op_caches0.
  Qed.
End Opened.

(** ** Clamping only fills the two caches *)
Record cache_only (p p' : port) : Prop := mkCO {
  cc_acct : same_acct p p'; cc_poss : forall sd, poss sd p' = poss sd p;
  cc_syms : p_symbols p' = p_symbols p;
  cc_sd : p_stop_data p' = p_stop_data p; cc_act : p_active p' = p_active p;
  cc_ok : total_cache_ok p -> total_cache_ok p'
}.
Lemma cache_only_refl p : cache_only p p.
Proof. constructor; auto. apply same_acct_refl. Qed.
Lemma cache_only_trans p q r : cache_only p q -> cache_only q r -> cache_only p r.
Proof.
  intros [] []. constructor; try congruence; auto. eapply same_acct_trans; eauto.
Qed.
Lemma long_mv_ok p : cache_only p (snd (long_mv p)) /\
  (total_cache_ok p -> fst (long_mv p) == total_marked (p_longs p)).
Proof.
  unfold long_mv. destruct (p_clong p) as [v|] eqn:E; cbn.
  - split; [apply cache_only_refl|]. intros [H _]. now apply H.
  - split; [|intros; reflexivity]. constructor;
      [|intros []; reflexivity|reflexivity|reflexivity|reflexivity|].
    + constructor; try reflexivity; intros []; reflexivity.
    + intros [A B]. split; cbn; intros v H; [injection H as <-; reflexivity|auto].
Qed.
Lemma short_mv_ok p : cache_only p (snd (short_mv p)) /\
  (total_cache_ok p -> fst (short_mv p) == total_marked (p_shorts p)).
Proof.
  unfold short_mv. destruct (p_cshort p) as [v|] eqn:E; cbn.
  - split; [apply cache_only_refl|]. intros [_ H]. now apply H.
  - split; [|intros; reflexivity]. constructor;
      [|intros []; reflexivity|reflexivity|reflexivity|reflexivity|].
    + constructor; try reflexivity; intros []; reflexivity.
    + intros [A B]. split; cbn; intros v H; [auto|injection H as <-; reflexivity].
Qed.
Lemma cache_only_longs p p' : cache_only p p' -> p_longs p' = p_longs p.
Proof. intros H. apply (cc_poss _ _ H Long). Qed.
Lemma cache_only_shorts p p' : cache_only p p' -> p_shorts p' = p_shorts p.
Proof. intros H. apply (cc_poss _ _ H Short). Qed.

(** The live account value, from the positions. *)
Definition live_value (c : cfg) (p : port) : Q :=
  p_cash p - margin_loan c p + total_marked (p_longs p) + 2 * p_short_en p - total_marked (p_shorts p).
Definition exposure (p : port) : Q := total_marked (p_longs p) + total_marked (p_shorts p).

Lemma live_mv_ok c p : cache_only p (snd (live_mv c p)) /\
  (total_cache_ok p -> fst (live_mv c p) == live_value c p).
Proof.
  unfold live_mv.
  destruct (long_mv p) as [l p1] eqn:E1. destruct (short_mv p1) as [sv p2] eqn:E2. cbn.
  pose proof (long_mv_ok p) as [C1 V1]. rewrite E1 in C1, V1. cbn in C1, V1.
  pose proof (short_mv_ok p1) as [C2 V2]. rewrite E2 in C2, V2. cbn in C2, V2.
  pose proof (cache_only_trans _ _ _ C1 C2) as C. split; auto.
  intro H. unfold live_value. pose proof (V1 H) as W1. pose proof (V2 (cc_ok _ _ C1 H)) as W2.
  rewrite (cache_only_shorts _ _ C1) in W2. rewrite W1, W2.
  pose proof (cc_acct _ _ C) as A. rewrite (sa_cash _ _ A).
  rewrite (money_ext c p p2); [|now rewrite (sa_accrued _ _ A)|now rewrite !(sa_en _ _ A)].
  change (p_short_en p2) with (en Short p2). rewrite (sa_en _ _ A). cbn. lra.
Qed.

Definition power (c : cfg) (p : port) : Q :=
  if Qle_bool (c_leverage c) 1 then Qmax (p_cash p) 0
  else Qmax (live_value c p * c_leverage c - exposure p) 0.

Lemma Qmax_proper a b : a == b -> Qmax a 0 == Qmax b 0.
Proof. intro E. now rewrite E. Qed.

Lemma buying_power_ok c p : cache_only p (snd (buying_power c p)) /\
  (total_cache_ok p -> fst (buying_power c p) == power c p).
Proof.
  unfold buying_power, power. destruct (Qle_bool (c_leverage c) 1); cbn.
  - split; [apply cache_only_refl|reflexivity].
  - destruct (long_mv p) as [l p1] eqn:E1. destruct (short_mv p1) as [sv p2] eqn:E2.
    destruct (live_mv c p2) as [lv p3] eqn:E3. cbn.
    pose proof (long_mv_ok p) as [C1 V1]. rewrite E1 in C1, V1. cbn in C1, V1.
    pose proof (short_mv_ok p1) as [C2 V2]. rewrite E2 in C2, V2. cbn in C2, V2.
    pose proof (live_mv_ok c p2) as [C3 V3]. rewrite E3 in C3, V3. cbn in C3, V3.
    pose proof (cache_only_trans _ _ _ C1 C2) as C12.
    split; [eapply cache_only_trans; eauto|].
    intro H. pose proof (V1 H) as W1. pose proof (V2 (cc_ok _ _ C1 H)) as W2.
    pose proof (V3 (cc_ok _ _ C12 H)) as W3.
    rewrite (cache_only_shorts _ _ C1) in W2.
    apply Qmax_proper. rewrite W1, W2, W3. unfold exposure.
    assert (LV : live_value c p2 == live_value c p).
    { unfold live_value. pose proof (cc_acct _ _ C12) as A.
      rewrite (cache_only_longs _ _ C12), (cache_only_shorts _ _ C12), (sa_cash _ _ A).
      rewrite (money_ext c p p2); [|now rewrite (sa_accrued _ _ A)|now rewrite !(sa_en _ _ A)].
      change (p_short_en p2) with (en Short p2). rewrite (sa_en _ _ A). cbn. lra. }
    rewrite LV. lra.
Qed.

Lemma clamp_shares_ok c s fill shares o p :
  cache_only p (snd (clamp_shares c s fill shares o p)) /\
  fst (clamp_shares c s fill shares o p) <= Qmax shares 0.
Proof.
  unfold clamp_shares. destruct (buying_power c p) as [bp p1] eqn:E.
  pose proof (buying_power_ok c p) as [C V]. rewrite E in C, V. cbn in C.
  assert (M : forall m, Qmin shares m <= Qmax shares 0).
  { intro m. destruct (Qmin_cases shares m) as [[M1 M2]|[M1 M2]];
    destruct (Qmax_cases shares 0) as [[N1 N2]|[N1 N2]]; lra. }
  assert (Z : 0 <= Qmax shares 0) by (destruct (Qmax_cases shares 0) as [[N1 N2]|[N1 N2]]; lra).
  repeat match goal with |- context [if ?b then _ else _] => destruct b end; cbn; auto.
Qed.

(** ** Reservation of an opening fill: what [long_]/[short_] do *)
Definition open_unchanged (p p' : port) : Prop := cache_only p p'.

Lemma ifmin_pos a b : 0 < (if Qltb a b then a else b) -> (if Qltb a b then a else b) <= b.
Proof. destruct (Qltb a b) eqn:E; qb; lra. Qed.

Record opening (c : cfg) (sd : side) (date : Z) (s : sym) (req fill : Q) (stops : option (list stop)) (b : Q) (p p' : port) : Prop := mkOpening {
  og_shares : 0 < b; og_le : b <= req;
  og_clamp : exists q o, cache_only p q /\
     b <= fst (clamp_shares c s fill req o p) /\ o = (match sd with Long => OBuy | Short => OSell end) /\
     open_ok c sd date s b fill (stops_of stops) q p'
}.

Lemma long_cases c date s req fill stops p :
  match long_ c date s req fill stops p with
  | Ret p' b => (b = 0 /\ cache_only p p') \/
                (opening c Long date s req fill stops b p p' /\ c_mode c <> PMShortOnly /\
                 at_cap (p_max_long p) s (p_longs p) = false)
  | Raise _ e => e = EStop
  end.
Proof.
  unfold long_. destruct (c_mode c) eqn:Em; try (left; split; [reflexivity|apply cache_only_refl]).
  all: destruct (clamp_shares c s fill req OBuy p) as [cl q] eqn:Ec;
    pose proof (clamp_shares_ok c s fill req OBuy p) as [CO LE]; rewrite Ec in CO, LE; cbn in CO, LE;
    destruct (Qle_bool (if Qltb cl req then cl else req) 0) eqn:E0;
    [left; auto|]; qb;
    destruct (at_cap (p_max_long q) s (p_longs q)) eqn:Ecap; [left; auto|];
    destruct (open_fill c Long date s (if Qltb cl req then cl else req) fill stops q) as [p' b|p' e] eqn:Eo;
    [ destruct (open_fill_ok _ _ _ _ _ _ _ _ _ _ Eo) as [-> Ho]; right; split;
      [ constructor;
        [ exact E0 | now apply ifmin_pos
        | exists q, OBuy; split; [exact CO|]; split; [|split; [reflexivity|exact Ho]];
          rewrite Ec; cbn; destruct (Qltb cl req) eqn:El; qb; lra ]
      | split; [discriminate|]; rewrite <- Ecap, (sa_ml _ _ (cc_acct _ _ CO)), (cache_only_longs _ _ CO); reflexivity ]
    | unfold open_fill in Eo;
      repeat match type of Eo with context [let '(_, _) := ?x in _] => destruct x end;
      repeat match type of Eo with context [match ?x with _ => _ end] => destruct x end;
      inversion Eo; reflexivity ].
Qed.

Lemma short_cases c date s req fill stops p :
  match short_ c date s req fill stops p with
  | Ret p' b => (b = 0 /\ cache_only p p') \/
                (opening c Short date s req fill stops b p p' /\ c_mode c <> PMLongOnly /\
                 at_cap (p_max_short p) s (p_shorts p) = false)
  | Raise _ e => e = EStop
  end.
Proof.
  unfold short_. destruct (Qle_bool req 0) eqn:Er; [left; split; [reflexivity|apply cache_only_refl]|].
  destruct (at_cap (p_max_short p) s (p_shorts p)) eqn:Ecap; [left; split; [reflexivity|apply cache_only_refl]|].
  destruct (c_mode c) eqn:Em; try (left; split; [reflexivity|apply cache_only_refl]).
  all: destruct (clamp_shares c s fill req OSell p) as [cl q] eqn:Ec;
    pose proof (clamp_shares_ok c s fill req OSell p) as [CO LE]; rewrite Ec in CO, LE; cbn in CO, LE;
    destruct (Qle_bool (if Qltb cl req then cl else req) 0) eqn:E0;
    [left; auto|]; qb;
    destruct (open_fill c Short date s (if Qltb cl req then cl else req) fill stops q) as [p' b|p' e] eqn:Eo;
    [ destruct (open_fill_ok _ _ _ _ _ _ _ _ _ _ Eo) as [-> Ho]; right; split;
      [ constructor;
        [ exact E0 | now apply ifmin_pos
        | exists q, OSell; split; [exact CO|]; split; [|split; [reflexivity|exact Ho]];
          rewrite Ec; cbn; destruct (Qltb cl req) eqn:El; qb; lra ]
      | split; [discriminate|reflexivity] ]
    | unfold open_fill in Eo;
      repeat match type of Eo with context [let '(_, _) := ?x in _] => destruct x end;
      repeat match type of Eo with context [match ?x with _ => _ end] => destruct x end;
      inversion Eo; reflexivity ].
Qed.
