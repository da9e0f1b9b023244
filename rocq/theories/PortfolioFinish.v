(** [check_stops]: removal of the executed entries, and the whole call. *)
From Verif Require Export PortfolioStops.

Lemma remove_entry_split eid es e : find_entry eid es = Some e ->
  exists es1 es2, es = es1 ++ e :: es2 /\ remove_entry eid es = es1 ++ es2 /\ e_id e = eid.
Proof.
  unfold find_entry. induction es as [|x es IH]; cbn; [discriminate|].
  destruct (Nat.eqb_spec (e_id x) eid) as [E|N].
  - intro H. injection H as <-. exists [], es. auto.
  - intro H. destruct (IH H) as [es1 [es2 [-> [-> E]]]]. exists (x :: es1), es2. auto.
Qed.

Lemma remove_entry_filter eid es : NoDup (map e_id es) ->
  remove_entry eid es = filter (fun x => negb (Nat.eqb (e_id x) eid)) es.
Proof.
  induction es as [|x es IH]; cbn; auto. intro ND. inversion ND as [|? ? Hn Hr]; subst.
  destruct (Nat.eqb_spec (e_id x) eid) as [E|N]; cbn.
  - clear - Hn E. induction es as [|y es IH]; cbn; auto. cbn in Hn.
    destruct (Nat.eqb_spec (e_id y) eid) as [E'|N]; cbn; [exfalso; apply Hn; left; congruence|].
    f_equal. apply IH. intuition.
  - now rewrite IH.
Qed.

Lemma find_entry_NoDup eid es e : NoDup (map e_id es) -> In e es -> e_id e = eid -> find_entry eid es = Some e.
Proof.
  unfold find_entry. induction es as [|x es IH]; cbn; [tauto|]. intros ND I E. inversion ND as [|? ? Hn Hr]; subst.
  destruct (Nat.eqb_spec (e_id x) (e_id e)) as [E|N].
  - destruct I as [->|I]; auto. exfalso. apply Hn. rewrite E. now apply in_map.
  - destruct I as [->|I]; [congruence|auto].
Qed.

Record fin (c : cfg) (z : list nat) (q : port) : Prop := mkFin {
  fn_core : Core z q; fn_ne : nonempty_but None q; fn_led : Led c dzero q;
  fn_c1 : p_clong q = None; fn_c2 : p_cshort q = None
}.

Lemma update_position_stops sd pos p :
  p_stop_data (update_position sd pos p) = p_stop_data p /\ p_active (update_position sd pos p) = p_active p /\
  p_clong (update_position sd pos p) = p_clong p /\ p_cshort (update_position sd pos p) = p_cshort p.
Proof.
  unfold update_position. destruct (ps_entries pos); [|auto].
  match goal with |- context [if ?b then _ else _] => destruct b end;
  destruct sd; repeat split; reflexivity.
Qed.

Lemma finish_step c sd s eid z q e :
  fin c (eid :: z) q -> ~ In eid z -> owns q sd s e -> e_id e = eid ->
  let q' := finish_exit q (sd, s, eid) in
  fin c z q' /\ same_acct q q' /\
  (forall sd1 s1, entries_of q' sd1 s1 = filter (fun x => negb (Nat.eqb (e_id x) eid)) (entries_of q sd1 s1)) /\
  (StopInv q -> StopInv q' /\
     forall id, aget id (p_stop_data q') =
       if nmem id (map st_id (e_stops e)) then None else aget id (p_stop_data q)).
Proof.
  intros [HC HN HL C1 C2] Nz Ho Eid q'.
  destruct Ho as [pos [Hg Ie]]. pose proof (co_pos _ _ HC _ _ _ Hg) as Hok.
  pose proof (po_nodup _ _ _ _ Hok) as ND.
  pose proof (find_entry_NoDup eid _ _ ND Ie Eid) as Hf.
  assert (Eq : q' = let pos' := set_ps_entries (remove_entry eid (ps_entries pos)) pos in
     update_position sd pos' (remove_stop_data (e_stops e) (set_poss sd (aset s pos' (poss sd q)) q))).
  { unfold q', finish_exit. now rewrite Hg, Hf. }
  cbn zeta in Eq.
  destruct (remove_entry_split _ _ _ Hf) as [es1 [es2 [Es [Er _]]]].
  set (pos' := set_ps_entries (remove_entry eid (ps_entries pos)) pos) in *.
  set (q1 := set_poss sd (aset s pos' (poss sd q)) q) in *.
  set (q2 := remove_stop_data (e_stops e) q1) in *.
  pose proof (remove_stop_data_sbs (e_stops e) q1) as SB. fold q2 in SB.
  assert (P1 : poss sd q1 = aset s pos' (poss sd q)) by apply poss_set_poss.
  assert (P1f : poss (flip sd) q1 = poss (flip sd) q) by apply poss_set_poss_flip.
  assert (HC1 : Core z q1).
  { unfold q1, pos'. rewrite Er. apply (pop_core z sd s pos e es1 es2 q); auto; rewrite Eid; auto. }
  assert (HC2 : Core z q2) by (eapply core_sbs; eauto).
  assert (N2 : nonempty_but (Some (sd, s)) q2).
  { intros sd' s' r Hr N. rewrite (sb_poss _ _ SB) in Hr. destruct (side_dec sd' sd) as [->|Ns].
    - rewrite P1, aget_aset in Hr. destruct (Nat.eqb_spec s' s) as [->|]; [congruence|].
      eapply HN; eauto. congruence.
    - pose proof (flip_neq _ _ Ns) as ->. rewrite P1f in Hr. eapply HN; eauto. congruence. }
  assert (G2 : aget s (poss sd q2) = Some pos').
  { rewrite (sb_poss _ _ SB), P1. apply aget_aset_eq. }
  destruct (update_position_core z sd s pos' q2 HC2 N2 G2) as [U1 [U2 [U3 [U4 U5]]]].
  destruct (update_position_stops sd pos' q2) as [V1 [V2 [V3 V4]]].
  pose proof (update_position_same sd pos' q2) as US.
  rewrite <- Eq in *.
  assert (SA : same_acct q q').
  { eapply same_acct_trans; [apply (set_poss_same sd (aset s pos' (poss sd q)))|].
    eapply same_acct_trans; [apply (sb_acct _ _ SB)|exact US]. }
  assert (K1 : p_clong q' = None).
  { rewrite V3, (sb_clong _ _ SB). unfold q1. now rewrite set_poss_clong. }
  assert (K2 : p_cshort q' = None).
  { rewrite V4, (sb_cshort _ _ SB). unfold q1. now rewrite set_poss_cshort. }
  assert (EN : forall sd1 s1, entries_of q' sd1 s1 = filter (fun x => negb (Nat.eqb (e_id x) eid)) (entries_of q sd1 s1)).
  { intros sd1 s1.
    assert (OTH : (sd1, s1) <> (sd, s) ->
       filter (fun x => negb (Nat.eqb (e_id x) eid)) (entries_of q sd1 s1) = entries_of q sd1 s1).
    { intro N. rewrite <- (map_id (entries_of q sd1 s1)) at 2.
      assert (H : forall x, In x (entries_of q sd1 s1) -> e_id x <> eid).
      { intros x Ix Ex. apply owns_entries in Ix. apply N.
        assert (Ho : owns q sd s e) by (exists pos; auto).
        destruct (co_ids _ _ HC _ _ _ _ _ _ Ix Ho) as [-> ->]; congruence. }
      induction (entries_of q sd1 s1) as [|x r IH]; cbn; auto.
      destruct (Nat.eqb_spec (e_id x) eid) as [Ex|Nx]; cbn.
      - exfalso. apply (H x); cbn; auto.
      - f_equal. apply IH. intros y Iy. apply H. cbn; auto. }
    destruct (side_dec sd1 sd) as [->|Nsd]; [destruct (Nat.eq_dec s1 s) as [->|Nss]|].
    - unfold entries_of at 1. rewrite U5. unfold entries_of. rewrite Hg.
      rewrite <- (remove_entry_filter eid _ ND). cbn.
      destruct (remove_entry eid (ps_entries pos)) eqn:E; cbn; auto.
    - rewrite OTH by congruence. unfold entries_of. rewrite U4 by auto. rewrite (sb_poss _ _ SB), P1, aget_aset_neq by auto.
      reflexivity.
    - rewrite OTH by congruence. pose proof (flip_neq _ _ Nsd) as ->.
      unfold entries_of. now rewrite U3, (sb_poss _ _ SB), P1f. }
  split; [|split; [exact SA|split; [exact EN|]]].
  - constructor; auto.
    apply (led_ext c dzero q); auto.
    + intro x. rewrite !(net_held_sd sd).
      assert (F : held (flip sd) q' x == held (flip sd) q x).
      { rewrite (held_same _ q q'); [reflexivity|]. now rewrite U3, (sb_poss _ _ SB). }
      assert (G : held sd q' x == held sd q x).
      { unfold held. destruct (Nat.eq_dec x s) as [->|Nx].
        - rewrite U5, Hg. destruct (ps_entries pos') eqn:E.
          + pose proof (co_pos _ _ HC1 sd s pos') as O1. rewrite P1, aget_aset_eq in O1.
            specialize (O1 eq_refl). pose proof (po_shares _ _ _ _ O1) as X. rewrite E in X. cbn in X.
            change (ps_shares pos') with (ps_shares pos) in X. rewrite X. reflexivity.
          + reflexivity.
        - rewrite U4 by auto. rewrite (sb_poss _ _ SB), P1, aget_aset_neq by auto. reflexivity. }
      rewrite F, G. reflexivity.
    + now apply total_cache_none.
  - intro HS.
    assert (OW : forall sd1 s1 x, owns q' sd1 s1 x <-> owns q sd1 s1 x /\ e_id x <> e_id e).
    { intros. rewrite !owns_entries, EN, filter_In, negb_true_iff, Nat.eqb_neq, Eid. tauto. }
    eapply (stop_drop (eid :: z) q q' q1 sd s e); eauto.
    + exists pos. auto.
    + intros sd1 s1 x Hx. apply OW in Hx. exists x. split; [tauto|]. split; [tauto|]. split; reflexivity.
    + intros sd1 s1 x Hx N. exists x. split; [apply OW; auto|]. split; reflexivity.
    + apply set_poss_stop_data.
    + apply set_poss_active.
Qed.

Definition kept (z : list nat) (x : entry) : bool := negb (nmem (e_id x) z).

Lemma kept_cons i z es :
  filter (kept z) (filter (fun x => negb (Nat.eqb (e_id x) i)) es) = filter (kept (i :: z)) es.
Proof.
  induction es as [|x r IH]; auto. cbn [filter].
  assert (E : kept (i :: z) x = negb (Nat.eqb (e_id x) i) && kept z x).
  { unfold kept, nmem. cbn. apply negb_orb. }
  rewrite E. destruct (Nat.eqb (e_id x) i); cbn [negb andb filter]; auto.
  destruct (kept z x); cbn; congruence.
Qed.

Lemma finish_all c : forall evs q,
  fin c (ids evs) q -> NoDup (ids evs) ->
  (forall v, In v evs -> exists e, owns q (v_sd v) (v_sym v) e /\ e_id e = v_id v) ->
  let q' := fold_left finish_exit (map trip evs) q in
  fin c [] q' /\ same_acct q q' /\
  (forall sd1 s1, entries_of q' sd1 s1 = filter (kept (ids evs)) (entries_of q sd1 s1)) /\
  (StopInv q -> StopInv q' /\
     forall id, (forall v e, In v evs -> owns q (v_sd v) (v_sym v) e -> e_id e = v_id v -> ~ In id (map st_id (e_stops e))) ->
       aget id (p_stop_data q') = aget id (p_stop_data q)).
Proof.
  induction evs as [|v evs IH]; intros q HF ND HO; cbn [map fold_left].
  - split; auto. split; [apply same_acct_refl|]. split; [|auto].
    intros sd1 s1. unfold kept. cbn. clear. induction (entries_of q sd1 s1); cbn; congruence.
  - cbn [ids map] in ND. inversion ND as [|? ? Hn Hr]; subst.
    destruct (HO v) as [e [Ho Eid]]; [cbn; auto|].
    destruct (finish_step c (v_sd v) (v_sym v) (v_id v) (ids evs) q e HF Hn Ho Eid) as [F1 [S1 [E1 I1]]].
    unfold trip at 1 3 5 7 9.
    set (q1 := finish_exit q (v_sd v, v_sym v, v_id v)) in *.
    destruct (IH q1 F1 Hr) as [F2 [S2 [E2 I2]]].
    { intros w Iw. destruct (HO w) as [x [Hx Ex]]; [cbn; auto|]. exists x. split; auto.
      apply owns_entries. rewrite E1, filter_In. split; [now apply owns_entries|].
      apply negb_true_iff, Nat.eqb_neq. intro E. apply Hn. rewrite <- E, Ex. now apply in_map. }
    set (q2 := fold_left finish_exit (map trip evs) q1) in *.
    split; auto. split; [eapply same_acct_trans; eauto|]. split.
    + intros sd1 s1. rewrite E2, E1. apply kept_cons.
    + intro HS. destruct (I1 HS) as [HS1 V1]. destruct (I2 HS1) as [HS2 V2]. split; auto.
      intros id Hid. rewrite V2.
      * rewrite V1. destruct (nmem id (map st_id (e_stops e))) eqn:Em; auto.
        apply nmem_In in Em. exfalso. eapply Hid; eauto. cbn; auto.
      * intros w x Iw Ox Ex. eapply Hid; eauto; [cbn; auto|].
        apply owns_entries. apply owns_entries in Ox. rewrite E1, filter_In in Ox. tauto.
Qed.

Lemma map_kept_zero z es : map (zero_if z) (filter (kept z) es) = filter (kept z) es.
Proof.
  induction es as [|x r IH]; cbn; auto. destruct (kept z x) eqn:E; cbn; auto. rewrite IH. f_equal.
  apply zero_if_out. unfold kept in E. apply negb_true_iff in E. now apply nmem_notIn.
Qed.
Lemma filter_zero z es : filter (kept z) (map (zero_if z) es) = filter (kept z) es.
Proof.
  rewrite <- (map_kept_zero z es). induction es as [|x r IH]; cbn; auto.
  unfold kept at 1. rewrite zero_if_id. fold (kept z x). destruct (kept z x); cbn; congruence.
Qed.

(** What one [check_stops] call did. *)
Record stops_ok (c : cfg) (date : Z) (sc : scope) (sm : slip_model) (p : port) (evs : list ev) (p' : port) : Prop := mkSO {
  so_good : Good c p';
  so_ent : forall sd s, entries_of p' sd s = filter (kept (ids evs)) (entries_of p sd s);
  so_frame : quiet_frame p p';
  so_orders : exists new, p_orders p' = p_orders p ++ new /\ Forall2 (order_of c date) evs new;
  so_trades : exists new, p_trades p' = p_trades p ++ new /\ Forall2 (trade_of date) evs new;
  so_nd : NoDup (ids evs);
  so_own : Forall (fun v => owns p (v_sd v) (v_sym v) (v_entry v)) evs;
  so_cash : p_cash p' == p_cash p + Qsum (map (ev_cash c) evs)
}.

Record stops_full (sc : scope) (sm : slip_model) (p : port) (evs : list ev) (p' : port) : Prop := mkSF {
  sf_inv : StopInv p';
  sf_fires : Forall (fires sc sm p) evs;
  sf_all : forall sd s e st, owns p sd s e -> ~ In (e_id e) (ids evs) -> sc_can_price sc s = true ->
     In st (e_stops e) -> held_back sc sm e st (level p (st_id st));
  sf_level : forall sd s e st, owns p sd s e -> ~ In (e_id e) (ids evs) ->
     In st (e_stops e) -> st_type st <> SBar ->
     exists v v', level p (st_id st) = Some v /\ level p' (st_id st) = Some v' /\
       (if sc_can_price sc s then next_level sc st v = Some v' else v' = v)
}.

Theorem check_stops_ok c date sc sm p : cfg_ok c -> Good c p ->
  match check_stops c date sc sm p with
  | Ret p' _ => exists evs, stops_ok c date sc sm p evs p' /\ (StopInv p -> stops_full sc sm p evs p')
  | Raise _ x => x <> EInput /\ (StopInv p -> x <> EModel)
  end.
Proof.
  intros K HG.
  pose proof (loops_LI c date sc sm p (StopInv p) K (gd_core _ _ HG) (fun x => x) (gd_ne _ _ HG) (gd_led _ _ HG)) as HL.
  unfold check_stops. cbn zeta in *.
  destruct (match
        match price_loop c date sc sm (p_active p) (Ret p []) with
        | Ret p1 _ => bar_loop c date sc sm Long (p_longs p1) (price_loop c date sc sm (p_active p) (Ret p []))
        | Raise _ _ => price_loop c date sc sm (p_active p) (Ret p [])
        end
      with
      | Ret p2 _ => bar_loop c date sc sm Short (p_shorts p2)
          match price_loop c date sc sm (p_active p) (Ret p []) with
          | Ret p1 _ => bar_loop c date sc sm Long (p_longs p1) (price_loop c date sc sm (p_active p) (Ret p []))
          | Raise _ _ => price_loop c date sc sm (p_active p) (Ret p [])
          end
      | Raise _ _ => match price_loop c date sc sm (p_active p) (Ret p []) with
        | Ret p1 _ => bar_loop c date sc sm Long (p_longs p1) (price_loop c date sc sm (p_active p) (Ret p []))
        | Raise _ _ => price_loop c date sc sm (p_active p) (Ret p [])
        end
      end) as [q ex|q x]; [|exact HL].
  destruct HL as [evs [done [doneb [-> [HI [HD HB]]]]]].
  exists evs.
  assert (OWN : forall v, In v evs -> owns p (v_sd v) (v_sym v) (v_entry v)).
  { intros v Iv. pose proof (li_own _ _ _ _ _ _ _ _ _ _ HI) as F. rewrite Forall_forall in F. auto. }
  assert (OQ : forall sd s e, owns p sd s e -> exists e', owns q sd s e' /\ same_stops e e').
  { intros sd s e Ho. exists (zero_if (ids evs) e). split.
    - apply owns_entries. rewrite (li_ent _ _ _ _ _ _ _ _ _ _ HI). apply in_map. now apply owns_entries.
    - split; [apply zero_if_id|apply zero_if_stops]. }
  assert (QO : forall sd s e', owns q sd s e' -> exists e, owns p sd s e /\ same_stops e e').
  { intros sd s e' Ho. apply owns_entries in Ho. rewrite (li_ent _ _ _ _ _ _ _ _ _ _ HI) in Ho.
    apply in_map_iff in Ho. destruct Ho as [e [<- I]]. exists e. split; [now apply owns_entries|].
    split; [apply zero_if_id|apply zero_if_stops]. }
  assert (CC : p_clong q = None /\ p_cshort q = None \/ evs = []).
  { destruct evs as [|v r]; auto. left. apply (li_caches _ _ _ _ _ _ _ _ _ _ HI). discriminate. }
  assert (FIN : let p' := fold_left finish_exit (map trip evs) q in
     Good c p' /\ same_acct q p' /\
     (forall sd1 s1, entries_of p' sd1 s1 = filter (kept (ids evs)) (entries_of q sd1 s1)) /\
     (StopInv q -> StopInv p' /\
        forall id, (forall v e, In v evs -> owns q (v_sd v) (v_sym v) e -> e_id e = v_id v -> ~ In id (map st_id (e_stops e))) ->
          aget id (p_stop_data p') = aget id (p_stop_data q))).
  { destruct CC as [[C1 C2]|E].
    - destruct (finish_all c evs q) as [F1 [F2 [F3 F4]]].
      + destruct HI. constructor; auto.
      + apply (li_nd _ _ _ _ _ _ _ _ _ _ HI).
      + intros v Iv. destruct (OQ _ _ _ (OWN v Iv)) as [e' [O' [E' _]]]. exists e'. split; auto.
      + cbn zeta. split; [|auto]. destruct F1. constructor; auto.
    - subst evs. cbn. split; [|split; [apply same_acct_refl|]].
      + destruct HI. constructor; auto.
      + split; [|auto]. intros sd1 s1. unfold kept. cbn. clear. induction (entries_of q sd1 s1); cbn; congruence. }
  cbn zeta in FIN. set (p' := fold_left finish_exit (map trip evs) q) in *.
  destruct FIN as [FG [FS [FE FR]]].
  assert (ENT : forall sd s, entries_of p' sd s = filter (kept (ids evs)) (entries_of p sd s)).
  { intros sd s. rewrite FE, (li_ent _ _ _ _ _ _ _ _ _ _ HI). apply filter_zero. }
  split.
  - constructor; auto.
    + eapply qf_trans; [apply (li_frame _ _ _ _ _ _ _ _ _ _ HI)|].
      constructor; [apply (sa_bars _ _ FS)|apply (sa_accrued _ _ FS)|apply (sa_entry_id _ _ FS)|apply (sa_ml _ _ FS)
        |apply (sa_ms _ _ FS)|apply (sa_equity _ _ FS)|apply (sa_mv _ _ FS)|apply (sa_margin _ _ FS)].
    + rewrite (sa_orders _ _ FS). apply (li_orders _ _ _ _ _ _ _ _ _ _ HI).
    + rewrite (sa_trades _ _ FS). apply (li_trades _ _ _ _ _ _ _ _ _ _ HI).
    + apply (li_nd _ _ _ _ _ _ _ _ _ _ HI).
    + apply (li_own _ _ _ _ _ _ _ _ _ _ HI).
    + rewrite (sa_cash _ _ FS). apply (li_cash _ _ _ _ _ _ _ _ _ _ HI).
  - intro HS.
    assert (HSq : StopInv q).
    { apply (stop_pointwise p); auto.
      - apply (li_act _ _ _ _ _ _ _ _ _ _ HI).
      - apply (li_sdk _ _ _ _ _ _ _ _ _ _ HI).
      - intros id d E. destruct (li_sds _ _ _ _ _ _ _ _ _ _ HI id d E) as [v Hv]. eauto. }
    destruct (FR HSq) as [HS' HV].
    assert (LV : forall sd s e st, owns p sd s e -> ~ In (e_id e) (ids evs) -> In st (e_stops e) ->
       level p' (st_id st) = level q (st_id st)).
    { intros sd s e st Ho N I. unfold level. rewrite HV; auto.
      intros v e' Iv Ov Ev J. apply in_map_iff in J. destruct J as [st' [Ej Ij]].
      destruct (QO _ _ _ Ov) as [e0 [O0 [E0 S0]]]. rewrite S0 in Ij.
      pose proof (si_uniq _ HS _ _ _ _ _ _ _ _ O0 Ij Ho I Ej) as Eq.
      apply N. rewrite <- Eq, <- E0, Ev. unfold ids. now apply in_map. }
    assert (DN : forall sd s e st, owns p sd s e -> In st (e_stops e) -> st_type st <> SBar ->
       exists d, aget (st_id st) (p_stop_data p) = Some d /\ sd_stop d = st /\ sd_entry d = e_id e /\
         st_sym st = s /\ st_pos st = sd).
    { intros sd s e st Ho I T. destruct (si_has _ HS _ _ _ _ Ho I T) as [d [D1 [D2 D3]]].
      destruct (si_own _ HS _ _ _ _ Ho I) as [D4 D5]. eauto 10. }
    assert (DD : forall sd s e st, owns p sd s e -> ~ In (e_id e) (ids evs) -> sc_can_price sc s = true ->
       In st (e_stops e) -> st_type st <> SBar ->
       exists v v', level p (st_id st) = Some v /\ level q (st_id st) = Some v' /\
         next_level sc st v = Some v' /\ held_back sc sm e st (Some v)).
    { intros sd s e st Ho N Hcan I T. destruct (DN _ _ _ _ Ho I T) as [d [D1 [D2 [D3 [D4 D5]]]]].
      assert (J : In (st_id st) done).
      { apply (HD HS _ _ D1). now rewrite D2, D4. }
      destruct (li_done _ _ _ _ _ _ _ _ _ _ HI HS _ _ J D1) as [L|[x [X1 [X2 [X3 [v' [X4 X5]]]]]]].
      { exfalso. apply N. now rewrite <- D3. }
      rewrite D2, D4, D5 in X1. rewrite D2 in X3, X4.
      assert (x = e) as -> by (eapply core_owns_inj; [apply (gd_core _ _ HG)|exact X1|exact Ho|congruence]).
      exists (sd_value d), v'. unfold level at 1. rewrite D1. auto. }
    constructor; auto.
    + apply (li_fires _ _ _ _ _ _ _ _ _ _ HI HS).
    + intros sd s e st Ho N Hcan I.
      assert (HP : st_type st <> SBar -> held_back sc sm e st (level p (st_id st))).
      { intro T. destruct (DD _ _ _ _ Ho N Hcan I T) as [v [v' [L1 [L2 [L3 L4]]]]]. now rewrite L1. }
      destruct (st_type st) eqn:T; try (apply HP; discriminate).
      destruct (li_doneb _ _ _ _ _ _ _ _ _ _ HI HS _ _ _ Ho (HB _ _ _ Ho Hcan)) as [L|L]; [tauto|].
      pose proof (L st I T) as X. unfold held_back, decides in *. rewrite T in *. exact X.
    + intros sd s e st Ho N I T. rewrite (LV _ _ _ _ Ho N I).
      destruct (sc_can_price sc s) eqn:Hcan.
      * destruct (DD _ _ _ _ Ho N Hcan I T) as [v [v' [L1 [L2 [L3 L4]]]]]. eauto.
      * destruct (DN _ _ _ _ Ho I T) as [d [D1 [D2 [D3 [D4 D5]]]]].
        exists (sd_value d), (sd_value d). unfold level.
        rewrite (li_vals _ _ _ _ _ _ _ _ _ _ HI HS), D1; [auto|].
        intro J. apply (HD HS _ _ D1) in J. rewrite D2, D4 in J. congruence.
Qed.
