(** What one order does to an account: fill facts, FIFO closing, and exits. *)
From Verif Require Export PortfolioEvolve.
From Verif Require Export PortfolioFacts.

(** ** Orders *)
Lemma send_place c o a p : send c o a p = place c o a p. Proof. reflexivity. Qed.
Lemma beyond_rejects o fill l : limit_rejects o fill l = true <-> beyond_limit o fill l.
Proof.
  unfold limit_rejects, beyond_limit. destruct l as [l|]; [|split; [discriminate|tauto]].
  destruct o; apply Qltb_lt.
Qed.
Lemma bad_verify a : verify_input_raises (a_shares a) (a_fill a) (a_limit a) = true <-> bad_arguments a.
Proof.
  unfold verify_input_raises, bad_arguments. rewrite !orb_true_iff. split.
  - intros [[H|H]|H]; qb; auto. destruct (a_limit a) as [l|]; [|discriminate]. qb. eauto.
  - intros [H|[H|[l [E H]]]].
    + left. left. now apply Qltb_lt.
    + left. right. now apply Qle_bool_iff.
    + right. rewrite E. now apply Qle_bool_iff.
Qed.

Lemma place_fill c p o a p' ord : cfg_ok c -> Good c p -> place c o a p = Ret p' (Some ord) ->
  o_side ord = o /\ o_sym ord = a_sym a /\ o_date ord = a_date a /\ o_fill ord = a_fill a /\ o_limit ord = a_limit a /\
  ~ beyond_limit o (a_fill a) (a_limit a) /\ 0 < o_shares ord /\ o_shares ord <= a_shares a /\
  p_orders p' = p_orders p ++ [ord] /\ o_fees ord = calculate_fees c (a_sym a) (a_fill a) (o_shares ord) o.
Proof.
  intros K G E.
  destruct (place_ret _ _ _ _ _ _ K G E) as [[X _]|[p2 [filled [bought [Hs [Hf [HL [HF [Hz [-> Eo]]]]]]]]]]; [discriminate|].
  injection Eo as ->. pose proof HF as HF'. destruct HF as [_ _ _ F4 F5 F6 [rem [p1 [_ [HCl Hop]]]]].
  split; [reflexivity|]. split; [reflexivity|]. split; [reflexivity|]. split; [reflexivity|]. split; [reflexivity|].
  split; [rewrite <- beyond_rejects; congruence|].
  assert (S0 : 0 < filled + bought).
  { destruct (Qlt_le_dec 0 (filled + bought)); auto. exfalso. apply Hz. lra. }
  split; [exact S0|]. split; [exact F6|].
  split; [|reflexivity]. unfold the_order. rewrite add_order_orders. f_equal.
  pose proof (cf_orders _ _ _ _ (cl_frame _ _ _ _ _ _ _ _ HCl)) as E1.
  destruct Hop as [[_ CO]|[[_ _ [q [o' [CO [_ [_ HO]]]]]] _]].
  - rewrite (sa_orders _ _ (cc_acct _ _ CO)). auto.
  - rewrite (op_orders _ _ _ _ _ _ _ _ _ HO), (sa_orders _ _ (cc_acct _ _ CO)). auto.
Qed.
Lemma order_fill c ops p o a p' ord : cfg_ok c -> run c ops = Some p -> send c o a p = Ret p' (Some ord) ->
  o_side ord = o /\ o_sym ord = a_sym a /\ o_date ord = a_date a /\ o_fill ord = a_fill a /\ o_limit ord = a_limit a /\
  ~ beyond_limit o (a_fill a) (a_limit a) /\ 0 < o_shares ord /\ o_shares ord <= a_shares a /\
  p_orders p' = p_orders p ++ [ord] /\ o_fees ord = calculate_fees c (a_sym a) (a_fill a) (o_shares ord) o.
Proof. intros K R E. rewrite send_place in E. exact (place_fill c p o a p' ord K (run_good _ _ _ K R) E). Qed.

Lemma order_unfilled c ops p o a p' : cfg_ok c -> run c ops = Some p -> send c o a p = Ret p' None -> same_account p p'.
Proof.
  intros K R E. rewrite send_place in E. pose proof (run_good _ _ _ K R) as G.
  destruct (place_ret _ _ _ _ _ _ K G E) as [[_ [CO _]]|[p2 [filled [bought [_ [_ [_ [_ [_ [_ X]]]]]]]]]]; [|discriminate].
  now apply cache_same.
Qed.
Lemma order_rejected c ops p o a p' : cfg_ok c -> run c ops = Some p -> send c o a p = Raise p' EInput -> p' = p.
Proof.
  intros K R E. rewrite send_place in E. pose proof (run_good _ _ _ K R) as G.
  pose proof (place_good c o a p K G) as H. rewrite E in H. exact H.
Qed.
Lemma order_raises_iff c p o a :
  (exists p', send c o a p = Raise p' EInput) <-> bad_arguments a.
Proof.
  rewrite send_place, place_unfold. rewrite <- bad_verify.
  destruct (verify_input_raises (a_shares a) (a_fill a) (a_limit a)); [split; eauto|].
  split; [|discriminate]. intros [p' H]. exfalso.
  destruct (limit_rejects o (a_fill a) (a_limit a)); [discriminate|].
  destruct (Qeq_bool (a_shares a) 0); [discriminate|].
  destruct (close_existing c (closes o) (a_date a) (a_sym a) (a_shares a) (a_fill a) p) as [[filled rem] p1].
  pose proof (open_cases c o (a_date a) (a_sym a) rem (a_fill a) (a_stops a) p1) as HOp.
  destruct (open_side c o (a_date a) (a_sym a) rem (a_fill a) (a_stops a) p1) as [p2 b|p2 e].
  - destruct (Qis0 filled && Qis0 b); [discriminate|]. destruct (the_order c o a filled b p2). discriminate.
  - subst e. discriminate.
Qed.

(** ** First in, first out *)
Lemma ce_sum sd date fill stp es ts : Forall2 (fun e t => closes_entry sd date fill stp e (e_shares e) t) es ts ->
  Qsum (map t_shares ts) == Qsum (map e_shares es).
Proof.
  induction 1 as [|e t es ts C F IH]; cbn; [lra|]. rewrite (ce_shares _ _ _ _ _ _ _ C). lra.
Qed.
Lemma fifo_min sd date fill n es es' ts : Forall (fun e => 0 < e_shares e) es -> fifo_close sd date fill n es es' ts ->
  Qsum (map t_shares ts) == Qmin n (Qsum (map e_shares es)).
Proof.
  intros P [full [rest [[E1 [E2 [F [L D]]]]|[e [q [ts0 [t [E1 [E2 [Q1 [Q2 [E3 [F [C S]]]]]]]]]]]]]]; subst.
  - rewrite (ce_sum _ _ _ _ _ _ F), map_app, Qsum_app.
    apply Forall_app in P. destruct P as [_ P].
    assert (0 <= Qsum (map e_shares rest)).
    { apply Qsum_nonneg. apply Forall_forall. intros x I. apply in_map_iff in I. destruct I as [y [<- I]]. rewrite Forall_forall in P. specialize (P y I). lra. }
    destruct D as [->|D].
    + cbn. destruct (Qmin_cases n (Qsum (map e_shares full) + 0)) as [[M1 M2]|[M1 M2]]; lra.
    + destruct (Qmin_cases n (Qsum (map e_shares full) + Qsum (map e_shares rest))) as [[M1 M2]|[M1 M2]]; lra.
  - rewrite map_app, Qsum_app, (ce_sum _ _ _ _ _ _ F), map_app, Qsum_app. cbn.
    rewrite (ce_shares _ _ _ _ _ _ _ C).
    apply Forall_app in P. destruct P as [_ P]. inversion P; subst.
    assert (0 <= Qsum (map e_shares rest)).
    { apply Qsum_nonneg. apply Forall_forall. intros x I. apply in_map_iff in I. destruct I as [y [<- I]]. rewrite Forall_forall in H2. specialize (H2 y I). lra. }
    destruct (Qmin_cases n (Qsum (map e_shares full) + (e_shares e + Qsum (map e_shares rest)))) as [[M1 M2]|[M1 M2]]; lra.
Qed.
Lemma queue_pos c p sd s : Good c p -> Forall (fun e => 0 < e_shares e) (queue p sd s).
Proof.
  intro G. unfold queue, position_of. destruct (aget s (poss sd p)) as [pos|] eqn:Hg; [|constructor].
  apply Forall_forall. intros e I. pose proof (po_entries _ _ _ _ (co_pos _ _ (gd_core _ _ G) _ _ _ Hg) e I) as Ok. apply (eo_pos _ _ _ _ Ok). auto.
Qed.
Lemma queue_sum c p sd s : Good c p -> shares_held p sd s == Qsum (map e_shares (queue p sd s)).
Proof.
  intro G. unfold shares_held, queue, position_of. destruct (aget s (poss sd p)) as [pos|] eqn:Hg; [|cbn; lra].
  apply (po_shares _ _ _ _ (co_pos _ _ (gd_core _ _ G) _ _ _ Hg)).
Qed.

Lemma place_fifo c p o a p' ord : cfg_ok c -> Good c p -> place c o a p = Ret p' (Some ord) ->
  exists ts closed, p_trades p' = p_trades p ++ ts /\
    fifo_close (closing o) (a_date a) (a_fill a) (a_shares a) (queue p (closing o) (a_sym a)) (queue p' (closing o) (a_sym a)) ts /\
    closed == Qsum (map t_shares ts) /\ closed == Qmin (a_shares a) (shares_held p (closing o) (a_sym a)) /\
    (queue p' (opening_side o) (a_sym a) = queue p (opening_side o) (a_sym a) /\ o_shares ord == closed \/
     exists e, queue p' (opening_side o) (a_sym a) = queue p (opening_side o) (a_sym a) ++ [e] /\
       opened_entry o a (o_shares ord - closed) e /\ closed < o_shares ord) /\
    (forall sd s, s <> a_sym a -> position_of p' sd s = position_of p sd s).
Proof.
  intros K G E.
  pose proof (place_frame _ _ _ _ _ _ K G E) as [_ [_ [_ [_ FR]]]].
  destruct (place_ret _ _ _ _ _ _ K G E) as [[X _]|[p2 [filled [bought [Hs [Hf [HL [HF [Hz [-> Eo]]]]]]]]]]; [discriminate|].
  injection Eo as ->. destruct (fill_effect _ _ _ _ _ _ _ (gd_core _ _ G) Hs HF) as [[p1 [[H1 [ts [Ht H2]] _] [Et H3]]]].
  change (closes o) with (closing o) in *.
  assert (Q2 : forall sd s, queue (fst (the_order c o a filled bought p2)) sd s = entries_of p2 sd s).
  { intros sd s. rewrite <- entries_queue. apply add_order_entries. }
  exists ts, filled.
  assert (NE : closing o <> opening_side o) by (destruct o; discriminate).
  assert (CL : entries_of p2 (closing o) (a_sym a) = entries_of p1 (closing o) (a_sym a)).
  { destruct H3 as [[_ H3]|[_ [e [_ [_ [_ [_ [_ [_ [_ [_ [_ [_ [_ H3]]]]]]]]]]]]]]; [apply H3|]. rewrite H3.
    destruct (side_eqb (closing o) (opens o)) eqn:Es; [|reflexivity]. apply side_eqb_eq in Es. exfalso. apply NE. exact Es. }
  pose proof (fifo_min _ _ _ _ _ _ _ (queue_pos c p (closing o) (a_sym a) G) H2) as HM.
  assert (HFi : filled == Qsum (map t_shares ts)).
  { rewrite HM. rewrite <- (queue_sum c p _ _ G).
    destruct HF as [_ _ _ F4 F5 F6 [rem [p1' [_ [HCl Hop]]]]].
    destruct HCl. change (held (closes o) p (a_sym a)) with (shares_held p (closing o) (a_sym a)) in cl_held.
    assert (Hge : 0 <= held (closes o) p1' (a_sym a)).
    { unfold held. destruct (aget (a_sym a) (poss (closes o) p1')) as [pos|] eqn:Eg; [|lra].
      pose proof (co_pos _ _ cl_core _ _ _ Eg) as Ok. rewrite (po_shares _ _ _ _ Ok).
      apply Qsum_nonneg. apply Forall_forall. intros x Ix. apply in_map_iff in Ix. destruct Ix as [y [<- Iy]].
      pose proof (po_entries _ _ _ _ Ok y Iy) as Oy. pose proof (eo_pos _ _ _ _ Oy (fun x => x)). lra. }
    destruct (Qlt_le_dec 0 rem) as [Hr|Hr].
    - specialize (cl_gone Hr). unfold held in cl_held at 1. rewrite cl_gone in cl_held.
      destruct (Qmin_cases (a_shares a) (shares_held p (closing o) (a_sym a))) as [[M1 M2]|[M1 M2]]; lra.
    - destruct (Qmin_cases (a_shares a) (shares_held p (closing o) (a_sym a))) as [[M1 M2]|[M1 M2]]; lra. }
  split; [|split; [|split; [exact HFi|split; [|split]]]].
  - unfold the_order. rewrite add_order_trades, Et, Ht. reflexivity.
  - rewrite Q2, CL, <- entries_queue. exact H2.
  - rewrite HFi, HM, <- (queue_sum c p _ _ G). reflexivity.
  - assert (OP : entries_of p1 (opening_side o) (a_sym a) = queue p (opening_side o) (a_sym a)).
    { rewrite H1, entries_queue; auto. }
    rewrite Q2. destruct H3 as [[Hb H3]|[Hb [e [D1 [D2 [D3 [D4 [D5 [D6 [D7 [D8 [D9 [_ [_ H3]]]]]]]]]]]]]].
    + left. rewrite H3, OP. split; auto. cbn. lra.
    + right. exists e. rewrite H3. change (opens o) with (opening_side o). rewrite Nat.eqb_refl.
      assert (Es : side_eqb (opening_side o) (opening_side o) = true) by (destruct o; reflexivity). rewrite Es, OP. cbn.
      split; auto. split; [|lra]. constructor; auto. rewrite D3. lra.
  - exact FR.
Qed.

Lemma order_fifo c ops p o a p' ord : cfg_ok c -> run c ops = Some p -> send c o a p = Ret p' (Some ord) ->
  exists ts closed, p_trades p' = p_trades p ++ ts /\
    fifo_close (closing o) (a_date a) (a_fill a) (a_shares a) (queue p (closing o) (a_sym a)) (queue p' (closing o) (a_sym a)) ts /\
    closed == Qsum (map t_shares ts) /\ closed == Qmin (a_shares a) (shares_held p (closing o) (a_sym a)) /\
    (queue p' (opening_side o) (a_sym a) = queue p (opening_side o) (a_sym a) /\ o_shares ord == closed \/
     exists e, queue p' (opening_side o) (a_sym a) = queue p (opening_side o) (a_sym a) ++ [e] /\
       opened_entry o a (o_shares ord - closed) e /\ closed < o_shares ord) /\
    (forall sd s, s <> a_sym a -> position_of p' sd s = position_of p sd s).
Proof. intros K R E. rewrite send_place in E. exact (place_fifo c p o a p' ord K (run_good _ _ _ K R) E). Qed.

(** ** [exit_position] *)
Lemma leg_flat c date s o price sm p : cfg_ok c -> Good c p ->
  match leg c date s o price sm p with
  | Ret p' _ =>
      match position_of p (closing o) s with
      | None => p' = p
      | Some pos => position_of p' (closing o) s = None /\ position_of p' (opening_side o) s = position_of p (opening_side o) s /\
          (forall sd s', s' <> s -> position_of p' sd s' = position_of p sd s') /\
          exists ord, p_orders p' = p_orders p ++ [ord] /\ o_sym ord = s /\ o_side ord = o /\ o_shares ord == ps_shares pos /\
             o_date ord = date /\ o_market ord = price /\ slip_price sm o s (ps_shares pos) price = Some (o_fill ord)
      end
  | Raise p' EInput => p' = p
  | Raise _ e => e = EStop
  end.
Proof.
  intros K G. unfold leg, position_of. change (closes o) with (closing o).
  destruct (aget s (poss (closing o) p)) as [pos|] eqn:Hg; [|reflexivity].
  destruct (slip_price sm o s (ps_shares pos) price) as [f|] eqn:SLP; [|reflexivity].
  set (a := exit_args date s (ps_shares pos) f price).
  pose proof (place_good c o a p K G) as H. destruct (place c o a p) as [p' r|p' []] eqn:E; cbn; auto.
  pose proof (place_frame _ _ _ _ _ _ K G E) as [_ [_ [_ [_ FR]]]]. cbn in FR.
  assert (SP : 0 < ps_shares pos).
  { rewrite (po_shares _ _ _ _ (co_pos _ _ (gd_core _ _ G) _ _ _ Hg)). apply Qsum_pos.
    - intro X. apply map_eq_nil in X. revert X. eapply (gd_ne _ _ G); eauto. discriminate.
    - apply Forall_forall. intros x I. apply in_map_iff in I. destruct I as [e [<- I]].
      apply (eo_pos _ _ _ _ (po_entries _ _ _ _ (co_pos _ _ (gd_core _ _ G) _ _ _ Hg) e I)). auto. }
  assert (X : forall p2 filled bought, fill_ok c o a p filled bought p2 ->
     filled == ps_shares pos /\ bought = 0 /\ aget s (poss (closing o) p2) = None /\
     aget s (poss (opening_side o) p2) = aget s (poss (opening_side o) p) /\ p_orders p2 = p_orders p).
  { intros p2 filled bought [_ _ _ F4 F5 F6 [rem [p1 [_ [HCl Hop]]]]]. cbn in HCl, Hop. change (closes o) with (closing o) in *.
    destruct HCl. unfold held in cl_held at 2. rewrite Hg in cl_held.
    assert (Hr : rem == 0).
    { destruct (Qlt_le_dec 0 rem) as [Hr|Hr]; [|lra]. specialize (cl_gone Hr). unfold held in cl_held. rewrite cl_gone in cl_held. lra. }
    assert (Hgone : aget s (poss (closing o) p1) = None).
    { destruct (aget s (poss (closing o) p1)) as [pos1|] eqn:Eg; auto. exfalso.
      unfold held in cl_held. rewrite Eg in cl_held.
      assert (0 < ps_shares pos1); [|lra].
      rewrite (po_shares _ _ _ _ (co_pos _ _ cl_core _ _ _ Eg)). apply Qsum_pos.
      - intro X. apply map_eq_nil in X. revert X. eapply cl_ne; eauto. discriminate.
      - apply Forall_forall. intros x I. apply in_map_iff in I. destruct I as [e [<- I]].
        apply (eo_pos _ _ _ _ (po_entries _ _ _ _ (co_pos _ _ cl_core _ _ _ Eg) e I)). auto. }
    destruct Hop as [[Hb CO]|[[B0 B1 _] _]]; [|lra].
    split; [lra|]. split; auto. rewrite !(cc_poss _ _ CO). split; auto.
    rewrite (sa_orders _ _ (cc_acct _ _ CO)). split; [|apply cl_frame].
    replace (opening_side o) with (flip (closing o)) by (destruct o; reflexivity). now rewrite (cf_flip _ _ _ _ cl_frame). }
  destruct (place_ret _ _ _ _ _ _ K G E) as [[_ [_ [Y|[Y|[filled [bought [_ [HF [Z _]]]]]]]]]|[p2 [filled [bought [_ [_ [_ [HF [_ [-> ->]]]]]]]]]].
  - cbn in Y. discriminate.
  - cbn in Y. lra.
  - destruct (X _ _ _ HF) as [Z1 _]. lra.
  - destruct (X _ _ _ HF) as [Z1 [Z2 [Z3 [Z4 Z5]]]].
    split; [unfold the_order; rewrite add_order_poss; exact Z3|].
    split; [unfold the_order; rewrite add_order_poss; exact Z4|]. split; [exact FR|].
    exists (snd (the_order c o a filled bought p2)). unfold the_order at 1. rewrite add_order_orders, Z5.
    split; [reflexivity|]. split; [reflexivity|]. split; [reflexivity|]. split; [cbn; rewrite Z2, Z1; lra|]. split; [reflexivity|]. split; reflexivity.
Qed.
Lemma exit_flat c ops p date s bf sf sm : cfg_ok c -> run c ops = Some p ->
  match exit_position c date s bf sf sm p with
  | Ret p' _ =>
      (forall sd, position_of p' sd s = None) /\
      (forall sd s', s' <> s -> position_of p' sd s' = position_of p sd s') /\
      (forall sd pos, position_of p sd s = Some pos ->
         exists ord, p_orders p' = p_orders p ++ [ord] /\ o_sym ord = s /\ o_side ord = exit_oside sd /\
           o_shares ord == ps_shares pos /\ o_date ord = date /\ o_market ord = exit_price sd bf sf /\
           slip_price sm (exit_oside sd) s (ps_shares pos) (exit_price sd bf sf) = Some (o_fill ord)) /\
      ((forall sd, position_of p sd s = None) -> p' = p)
  | Raise p' EInput => p' = p
  | Raise _ e => e = EStop
  end.
Proof.
  intros K R. pose proof (run_good _ _ _ K R) as G. rewrite exit_position_legs.
  destruct (one_side c ops p s K R) as [D _].
  pose proof (leg_flat c date s OSell sf sm p K G) as H1.
  pose proof (leg_cases (fun _ => True) c date s OSell sf sm p K G I (fun _ _ _ _ _ => I)) as GG.
  destruct (leg c date s OSell sf sm p) as [p1 u|p1 []]; auto. destruct GG as [_ G1].
  cbn [closing opening_side] in H1.
  destruct (position_of p Long s) as [pos|] eqn:EL.
  - destruct D as [D|D]; [discriminate|]. destruct H1 as [A1 [A2 [A3 [ord [A4 A5]]]]]. rewrite D in A2.
    unfold leg. change (aget s (poss (closes OBuy) p1)) with (position_of p1 Short s). rewrite A2.
    split; [intros []; auto|]. split; auto. split.
    + intros [] pos' E'; [|congruence]. assert (pos' = pos) by congruence. subst. exists ord. cbn. tauto.
    + intro X. specialize (X Long). congruence.
  - subst p1. pose proof (leg_flat c date s OBuy bf sm p K G) as H2.
    destruct (leg c date s OBuy bf sm p) as [p2 u2|p2 []]; auto. cbn [closing opening_side] in H2.
    destruct (position_of p Short s) as [pos|] eqn:ES.
    + destruct H2 as [A1 [A2 [A3 [ord [A4 A5]]]]]. rewrite EL in A2.
      split; [intros []; auto|]. split; auto. split.
      * intros [] pos' E'; [congruence|]. assert (pos' = pos) by congruence. subst. exists ord. cbn. tauto.
      * intro X. specialize (X Short). congruence.
    + subst p2. split; [intros []; auto|]. split; auto. split; [|auto]. intros [] pos E'; congruence.
Qed.
