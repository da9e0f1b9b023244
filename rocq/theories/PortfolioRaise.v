(** When [buy], [sell] and [exit_position] raise. *)
From Verif Require Export PortfolioSend PortfolioLevels.

Lemma add_stops_total ss : forall e p,
  NoDup (map st_id ss) -> (forall st, In st ss -> aget (st_id st) (p_stop_data p) = None) ->
  (forall st, In st ss -> st_type st <> SBar -> stop_amount st (e_price e) <> None) ->
  snd (add_stops_loop ss e p) = false.
Proof.
  induction ss as [|st ss IH]; intros e p ND FR AM; [reflexivity|]. cbn [add_stops_loop].
  inversion ND as [|? ? Hn Hr]; subst.
  assert (F0 : aget (st_id st) (p_stop_data p) = None) by (apply FR; now left).
  assert (Eh : ahas (st_id st) (p_stop_data p) = false) by now apply ahas_false.
  rewrite Eh.
  assert (A' : forall x, In x ss -> st_type x <> SBar -> stop_amount x (e_price (set_e_stops (e_stops e ++ [st]) e)) <> None).
  { intros x I. apply AM. now right. }
  assert (F' : forall v q, p_stop_data q = aset (st_id st) v (p_stop_data p) -> forall x, In x ss -> aget (st_id x) (p_stop_data q) = None).
  { intros v q Eq x I. rewrite Eq, aget_aset_neq; [apply FR; now right|]. intro X. apply Hn. rewrite <- X. now apply in_map. }
  destruct (st_type st) eqn:Et; [apply IH; auto; intros x I; apply FR; now right|..];
  (cbv zeta; change (e_price (set_e_stops (e_stops e ++ [st]) e)) with (e_price e); destruct (stop_amount st (e_price e)) as [am|] eqn:Ea; [|exfalso; apply (AM st); [now left|congruence|exact Ea]];
   apply IH; [auto|intros x I; eapply F'; [reflexivity|exact I]|exact A']).
Qed.

Definition stops_fit (stops : option (list stop)) (p : port) : Prop :=
  NoDup (map st_id (stops_of stops)) /\
  (forall st, In st (stops_of stops) -> aget (st_id st) (p_stop_data p) = None) /\
  (forall st x, In st (stops_of stops) -> st_type st <> SBar -> stop_amount st x <> None).
Lemma open_fill_total c sd date s shares fill stops p : stops_fit stops p ->
  exists p' b, open_fill c sd date s shares fill stops p = Ret p' b.
Proof.
  intros [ND [FR AM]]. unfold open_fill.
  set (p1 := post_collateral c (shares * fill) p).
  assert (D1 : p_stop_data p1 = p_stop_data p) by reflexivity.
  match goal with |- context [let '(pos, p0) := ?m in _] => set (mm := m) end.
  assert (D2 : p_stop_data (snd mm) = p_stop_data p).
  { unfold mm. destruct (aget s (poss sd p1)); reflexivity. }
  destruct mm as [pos p2]. cbn [snd] in D2.
  destruct stops as [ss|]; [|eauto].
  match goal with |- context [add_stops_loop ?l ?e ?q] =>
    pose proof (add_stops_total l e q ND) as T; destruct (add_stops_loop l e q) as [[e' p3] r] end.
  cbn [snd] in T. rewrite T; eauto. intros st I. change (aget (st_id st) (p_stop_data p2) = None). rewrite D2. auto.
Qed.
Lemma open_side_total c o date s req fill stops p : stops_fit stops p ->
  exists p' b, open_side c o date s req fill stops p = Ret p' b.
Proof.
  intro F. assert (F' : forall side0 sh, stops_fit stops (snd (clamp_shares c s fill sh side0 p))).
  { intros o0 sh. destruct (clamp_shares_ok c s fill sh o0 p) as [CO _]. destruct F as [A [B D]]. split; auto. split; auto.
    intros st I. rewrite (cc_sd _ _ CO). auto. }
  destruct o; cbn [open_side]; [unfold long_|unfold short_].
  - specialize (F' OBuy req). destruct (c_mode c); eauto; destruct (clamp_shares c s fill req OBuy p) as [cl q]; cbn [snd] in F';
    (match goal with |- context [if ?b then _ else _] => destruct b end; eauto;
     match goal with |- context [if ?b then _ else _] => destruct b end; eauto; now apply open_fill_total).
  - specialize (F' OSell req). destruct (Qle_bool req 0); eauto. destruct (at_cap _ _ _); eauto.
    destruct (c_mode c); eauto; destruct (clamp_shares c s fill req OSell p) as [cl q]; cbn [snd] in F';
    (match goal with |- context [if Qle_bool ?b 0 then _ else _] => destruct (Qle_bool b 0) end; eauto; now apply open_fill_total).
Qed.

(** A stop other than a BAR stop has a distance. *)
Lemma sized_amount st x : stop_sized st -> st_type st <> SBar -> stop_amount st x <> None.
Proof.
  intros [E|[[q E]|[q E]]] N; unfold stop_amount; [contradiction|rewrite E; discriminate|].
  destruct (st_percent st); [discriminate|rewrite E; discriminate].
Qed.

Lemma place_total c o a p : cfg_ok c -> Good c p -> StopInv p -> stops_fresh o a p ->
  (forall st, In st (order_stops a) -> stop_sized st) -> ~ bad_arguments a ->
  exists p' r, place c o a p = Ret p' r.
Proof.
  intros K G SI [F1 F2 F3] SZ NB. rewrite place_unfold. rewrite <- bad_verify in NB.
  destruct (verify_input_raises (a_shares a) (a_fill a) (a_limit a)) eqn:Ev; [tauto|].
  destruct (limit_rejects o (a_fill a) (a_limit a)); [eauto|].
  destruct (verify_ok _ _ _ Ev) as [Hs0 [Hf _]].
  destruct (Qeq_bool (a_shares a) 0) eqn:E0; [eauto|]. qb.
  assert (Hs : 0 < a_shares a).
  { destruct (Qlt_le_dec 0 (a_shares a)); auto. exfalso. apply E0. lra. }
  pose proof (close_fifo c (closes o) (a_date a) (a_sym a) (a_shares a) (a_fill a) p (gd_core _ _ G) Hs) as FF.
  destruct (close_existing c (closes o) (a_date a) (a_sym a) (a_shares a) (a_fill a) p) as [[filled rem] p1].
  cbn [snd] in FF.
  destruct (open_side_total c o (a_date a) (a_sym a) rem (a_fill a) (a_stops a) p1) as [p2 [b ->]].
  { split; [now apply stops_of_nd|]. split.
    - intros st I. apply stops_of_In in I. destruct (aget (st_id st) (p_stop_data p1)) as [d|] eqn:E; auto. exfalso.
      apply (ff_sub _ _ _ _ _ _ _ FF SI) in E. destruct (si_reg _ SI _ _ E) as [E1 [_ [e [O [_ I2]]]]].
      exact (F3 _ _ _ _ _ O I2 I E1).
    - intros st x I. apply stops_of_In in I. apply sized_amount. auto. }
  destruct (Qis0 filled && Qis0 b); eauto. destruct (the_order c o a filled b p2). eauto.
Qed.

Lemma order_total c ops p o a : cfg_ok c -> run c ops = Some p -> stops_wf (ops ++ [send_op o a]) ->
  (forall st, In st (op_stops (send_op o a)) -> stop_sized st) -> ~ bad_arguments a ->
  exists p' r, send c o a p = Ret p' r.
Proof.
  intros K R W SZ NB. destruct (run_stop_all _ _ _ K R (wf_snoc _ _ W)) as [SI HA].
  pose proof (wf_fresh _ _ _ W HA) as OF. rewrite send_place.
  apply place_total; auto; [exact (run_good _ _ _ K R)|..]; destruct o; auto.
Qed.

(** The stop-free orders of [exit_position]. *)
Lemma nostop_total c o a p : cfg_ok c -> Good c p -> a_stops a = None -> ~ bad_arguments a ->
  exists p' r, place c o a p = Ret p' r.
Proof.
  intros K G E NB. rewrite place_unfold. rewrite <- bad_verify in NB.
  destruct (verify_input_raises (a_shares a) (a_fill a) (a_limit a)) eqn:Ev; [tauto|].
  destruct (limit_rejects o (a_fill a) (a_limit a)); [eauto|].
  destruct (Qeq_bool (a_shares a) 0) eqn:E0; [eauto|].
  destruct (close_existing c (closes o) (a_date a) (a_sym a) (a_shares a) (a_fill a) p) as [[filled rem] p1].
  rewrite E.
  destruct (open_side_total c o (a_date a) (a_sym a) rem (a_fill a) None p1) as [p2 [b ->]].
  { split; [constructor|split; [intros st I|intros st x I]; destruct I]. }
  destruct (Qis0 filled && Qis0 b); eauto. destruct (the_order c o a filled b p2). eauto.
Qed.
Lemma leg_total c date s o price sm p : cfg_ok c -> Good c p ->
  match leg c date s o price sm p with Raise _ e => e = EInput | Ret _ _ => True end.
Proof.
  intros K G. unfold leg. destruct (aget s (poss (closes o) p)) as [pos|]; auto.
  destruct (slip_price sm o s (ps_shares pos) price) as [f|]; auto.
  set (a := exit_args date s (ps_shares pos) f price).
  destruct (verify_input_raises (a_shares a) (a_fill a) (a_limit a)) eqn:Ev.
  - rewrite place_unfold, Ev. reflexivity.
  - destruct (nostop_total c o a p K G eq_refl) as [p' [r ->]]; [|exact I].
    rewrite <- bad_verify, Ev. discriminate.
Qed.
Lemma exit_total c ops p date s bf sf sm : cfg_ok c -> run c ops = Some p ->
  match exit_position c date s bf sf sm p with
  | Ret p' _ => True
  | Raise p' e => e = EInput /\ p' = p
  end.
Proof.
  intros K R. pose proof (run_good _ _ _ K R) as G.
  pose proof (exit_flat c ops p date s bf sf sm K R) as X. rewrite exit_position_legs in *.
  pose proof (leg_total c date s OSell sf sm p K G) as T1.
  pose proof (leg_cases (fun _ => True) c date s OSell sf sm p K G I (fun _ _ _ _ _ => I)) as GG.
  destruct (leg c date s OSell sf sm p) as [p1 u|p1 e1]; [|subst e1; auto].
  destruct GG as [_ G1]. pose proof (leg_total c date s OBuy bf sm p1 K G1) as T2.
  destruct (leg c date s OBuy bf sm p1) as [p2 u2|p2 e2]; [exact I|subst e2; auto].
Qed.
(** With a positive fill price for the side that is open, [exit_position] returns. *)
Lemma exit_returns c ops p date s bf sf : cfg_ok c -> run c ops = Some p -> 0 < bf -> 0 < sf ->
  exists p', exit_position c date s bf sf None p = Ret p' tt.
Proof.
  intros K R B S. pose proof (run_good _ _ _ K R) as G. rewrite exit_position_legs.
  assert (L : forall o price q, Good c q -> 0 < price -> exists q', leg c date s o price None q = Ret q' tt).
  { intros o price q Gq Hp. unfold leg. destruct (aget s (poss (closes o) q)) as [pos|] eqn:E; [|eauto].
    cbn [slip_price]. set (a := exit_args date s (ps_shares pos) price price).
    destruct (nostop_total c o a q K Gq eq_refl) as [p' [r ->]]; [|cbn; eauto].
    intros [X|[X|[l [X _]]]]; cbn in X; [|lra|discriminate].
    pose proof (po_shares _ _ _ _ (co_pos _ _ (gd_core _ _ Gq) _ _ _ E)) as Es.
    assert (0 <= Qsum (map e_shares (ps_entries pos))); [|lra]. apply Qsum_nonneg, Forall_forall. intros x Ix.
    apply in_map_iff in Ix. destruct Ix as [e [<- Ie]].
    apply Qlt_le_weak, (eo_pos _ _ _ _ (po_entries _ _ _ _ (co_pos _ _ (gd_core _ _ Gq) _ _ _ E) e Ie)). auto. }
  destruct (L OSell sf p G S) as [p1 E1]. rewrite E1.
  pose proof (leg_cases (fun _ => True) c date s OSell sf None p K G I (fun _ _ _ _ _ => I)) as GG. rewrite E1 in GG.
  apply L; tauto.
Qed.
Lemma exit_flat_total c ops p date s bf sf sm : cfg_ok c -> run c ops = Some p ->
  match exit_position c date s bf sf sm p with
  | Ret p' _ =>
      (forall sd, position_of p' sd s = None) /\
      (forall sd s', s' <> s -> position_of p' sd s' = position_of p sd s') /\
      (forall sd pos, position_of p sd s = Some pos ->
         exists ord, p_orders p' = p_orders p ++ [ord] /\ o_sym ord = s /\ o_side ord = exit_oside sd /\
           o_shares ord == ps_shares pos /\ o_date ord = date /\ o_market ord = exit_price sd bf sf /\
           slip_price sm (exit_oside sd) s (ps_shares pos) (exit_price sd bf sf) = Some (o_fill ord)) /\
      ((forall sd, position_of p sd s = None) -> p' = p)
  | Raise p' e => e = EInput /\ p' = p
  end.
Proof.
  intros K R. pose proof (exit_flat c ops p date s bf sf sm K R) as X. pose proof (exit_total c ops p date s bf sf sm K R) as T.
  destruct (exit_position c date s bf sf sm p) as [p' u|p' e]; auto.
Qed.
