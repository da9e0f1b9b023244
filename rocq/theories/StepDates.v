(** Everything recorded of a symbol is dated on one of its bars. *)
From Verif Require Export LoopSteps MarketLogs PortfolioStopProps.

Section Dated.
Variable own : sym -> Z -> Prop.
Variable c : cfg.
Hypothesis K : cfg_ok c.
Record dated (p : port) : Prop := mkDated {
  dt_orders : forall o, In o (p_orders p) -> own (o_sym o) (o_date o);
  dt_trades : forall t, In t (p_trades p) -> own (t_sym t) (t_entry_date t) /\ own (t_sym t) (t_exit_date t);
  dt_queue : forall sd s e, In e (queue p sd s) -> own s (e_date e)
}.
(** The calls that can record something of a symbol do it on its bars. *)
Definition call_dated (o : op) : Prop :=
  match o with
  | OpBuy a | OpSell a => own (a_sym a) (a_date a)
  | OpExit d s _ _ _ => own s d
  | OpCheckStops d sc _ => forall s, sc_can_price sc s = true -> own s d
  | _ => True
  end.
Lemma same_dated p p' : MarketLogs.logs p' = MarketLogs.logs p -> (forall sd s e', In e' (queue p' sd s) -> exists e, In e (queue p sd s) /\ e_date e' = e_date e) -> dated p -> dated p'.
Proof.
  unfold MarketLogs.logs. intros [= E1 E2 _] H [A B C]. constructor.
  - intros o I. apply A. congruence.
  - intros t I. apply B. congruence.
  - intros sd s e' I. destruct (H _ _ _ I) as [e [I2 ->]]. eauto.
Qed.
Lemma queue_syms ops p sd s e : run c ops = Some p -> In e (queue p sd s) -> e_sym e = s.
Proof.
  intros R I. unfold queue in I. destruct (position_of p sd s) as [pos|] eqn:E; [|destruct I]. destruct (position_facts c ops p sd s pos K R E) as [_ [_ [_ [F _]]]].
  rewrite Forall_forall in F. apply (F e I).
Qed.
Lemma send_dated ops p o a p' x : run c ops = Some p -> own (a_sym a) (a_date a) -> dated p -> send c o a p = Ret p' x -> dated p'.
Proof.
  intros R OA D E. destruct x as [ord|].
  - destruct (order_fill c ops p o a p' ord K R E) as [_ [S [DT [_ [_ [_ [_ [_ [PO _]]]]]]]]].
    destruct (order_fifo c ops p o a p' ord K R E) as [ts [closed [PT [FF [_ [_ [OP OT]]]]]]].
    assert (X : forall full ts0, incl full (queue p (closing o) (a_sym a)) -> Forall2 (fun e t => closes_entry (closing o) (a_date a) (a_fill a) None e (e_shares e) t) full ts0 ->
      forall t, In t ts0 -> own (t_sym t) (t_entry_date t) /\ own (t_sym t) (t_exit_date t)).
    { intros full ts0 IN F2. induction F2 as [|e t full ts0 CE F2 IH]; [intros t []|]. intros u [<-|I].
      - assert (Ie : In e (queue p (closing o) (a_sym a))) by (apply IN; now left). rewrite (ce_sym _ _ _ _ _ _ _ CE), (ce_in _ _ _ _ _ _ _ CE), (ce_out _ _ _ _ _ _ _ CE).
        rewrite (queue_syms ops p _ _ _ R Ie). split; auto. exact (dt_queue _ D _ _ _ Ie).
      - apply IH; auto. intros y J. apply IN. now right. }
    assert (Y : forall e q t, In e (queue p (closing o) (a_sym a)) -> closes_entry (closing o) (a_date a) (a_fill a) None e q t -> own (t_sym t) (t_entry_date t) /\ own (t_sym t) (t_exit_date t)).
    { intros e q t Ie CE. rewrite (ce_sym _ _ _ _ _ _ _ CE), (ce_in _ _ _ _ _ _ _ CE), (ce_out _ _ _ _ _ _ _ CE).
      rewrite (queue_syms ops p _ _ _ R Ie). split; auto. exact (dt_queue _ D _ _ _ Ie). }
    constructor.
    + intros u I. rewrite PO in I. apply in_app_iff in I. destruct I as [I|[<-|[]]]; [now apply (dt_orders _ D)|]. now rewrite S, DT.
    + intros t I. rewrite PT in I. apply in_app_iff in I. destruct I as [I|I]; [now apply (dt_trades _ D)|].
      destruct FF as [full [rest [[E1 [_ [F2 _]]]|[e [q [ts0 [t0 [E1 [_ [_ [_ [E2 [F2 [CE _]]]]]]]]]]]]]].
      * apply (X full ts); auto. rewrite E1. intros y J. apply in_app_iff. auto.
      * subst ts. apply in_app_iff in I. destruct I as [I|[<-|[]]].
        -- apply (X full ts0); auto. rewrite E1. intros y J. apply in_app_iff. auto.
        -- apply (Y e q); auto. rewrite E1. apply in_app_iff. right. now left.
    + intros sd s e I. destruct (Nat.eq_dec s (a_sym a)) as [->|N].
      * destruct (side_dec sd (closing o)) as [->|N2].
        -- destruct (fifo_shrinks _ _ _ _ _ _ _ _ FF I) as [e0 [I0 SH]]. rewrite (sh_date _ _ SH). exact (dt_queue _ D _ _ _ I0).
        -- assert (SO : sd = opening_side o) by (destruct sd, o; cbn in *; congruence). subst sd. destruct OP as [[Q _]|[e0 [Q [OE _]]]]; rewrite Q in I.
           ++ exact (dt_queue _ D _ _ _ I).
           ++ apply in_app_iff in I. destruct I as [I|[<-|[]]]; [exact (dt_queue _ D _ _ _ I)|]. now rewrite (oe_date _ _ _ _ OE).
      * unfold queue in I. rewrite (OT sd s N) in I. exact (dt_queue _ D sd s e I).
  - rewrite (order_unfilled c ops p o a p' K R E). apply (same_dated p); auto. intros sd s e I. exists e. destruct sd; auto.
Qed.
Lemma send_exec ops p o a p' : run c ops = Some p -> exec c (Some p) (send_op o a) = Some p' -> own (a_sym a) (a_date a) -> dated p -> dated p'.
Proof.
  intros R E OA D. assert (X : p' = p \/ exists x, send c o a p = Ret p' x).
  { pose proof (order_rejected c ops p o a) as J. unfold exec in E. destruct o; cbn [send_op step send] in *.
    - destruct (buy c a p) as [q x|q []]; cbn in E; try discriminate; injection E as <-; [eauto|left; apply (J q); auto].
    - destruct (sell c a p) as [q x|q []]; cbn in E; try discriminate; injection E as <-; [eauto|left; apply (J q); auto]. }
  destruct X as [->|[x X]]; auto. eapply send_dated; eauto.
Qed.
Lemma exit_dated ops p d s bf sf sm p' u : run c ops = Some p -> own s d -> dated p -> exit_position c d s bf sf sm p = Ret p' u -> dated p'.
Proof.
  intros R OA D E. unfold exit_position in E. set (r1 := match aget s (p_longs p) with Some pos => _ | None => _ end) in E.
  assert (X : match r1 with Ret q _ => dated q /\ exists ops', run c ops' = Some q | Raise _ _ => True end).
  { unfold r1. destruct (aget s (p_longs p)) as [pos|]; [|split; eauto]. destruct (slip_price _ _ _ _ _) as [fi|]; [|exact I].
    match goal with |- context [sell c ?a p] => set (a1 := a); destruct (sell c a1 p) as [q x|q e] eqn:S end; [|exact I].
    split; [exact (send_dated ops p OSell a1 q x R OA D S)|]. exists (ops ++ [OpSell a1]). rewrite PortfolioFacts.run_snoc, R. unfold exec. cbn [step]. now rewrite S. }
  destruct r1 as [q []|q e]; [|discriminate]. destruct X as [D1 [ops' R']]. destruct (aget s (p_shorts q)) as [pos|]; [|injection E as <- <-; exact D1].
  destruct (slip_price _ _ _ _ _) as [fi|]; [|discriminate].
  match type of E with context [buy c ?a q] => set (a1 := a) in E; destruct (buy c a1 q) as [q2 x|q2 e] eqn:S end; [|discriminate].
  injection E as <- <-. exact (send_dated ops' q OBuy a1 q2 x R' OA D1 S).
Qed.
Lemma exec_dated ops o p p' : run c ops = Some p -> stops_wf ops -> call_dated o -> dated p -> exec c (Some p) o = Some p' -> dated p'.
Proof.
  intros R W CD D E. pose proof (run_good c ops p K R) as G.
  destruct o as [a|a|d s b sl sm|d sc sm|d bar|hb|id|v t|ml ms]; cbn [call_dated] in CD.
  - exact (send_exec ops p OBuy a p' R E CD D).
  - exact (send_exec ops p OSell a p' R E CD D).
  - unfold exec in E. cbn [step] in E. pose proof (exit_flat_total c ops p d s b sl sm K R) as T. destruct (exit_position c d s b sl sm p) as [q u|q e] eqn:X.
    + injection E as <-. eapply exit_dated; eauto.
    + destruct T as [-> ->]. now injection E as <-.
  - unfold exec in E. cbn [step] in E. destruct (check_stops c d sc sm p) as [q u|q e] eqn:X.
    + injection E as <-. destruct (check_run c ops p q d sc sm u K R W X) as [exits [OK _ [no [O1 O2]] [nt [T1 T2]] QU _ _ _]].
      rewrite Forall_forall in OK. constructor.
      * intros o I. rewrite O1 in I. apply in_app_iff in I. destruct I as [I|I]; [now apply (dt_orders _ D)|].
        clear - I O2 OK CD. induction O2 as [|v o0 exits no OO O2 IH]; [destruct I|]. destruct I as [->|I].
        -- rewrite (oo_sym _ _ _ _ OO), (oo_date _ _ _ _ OO). apply CD. apply (xk_price _ _ _ _ (OK v (or_introl eq_refl))).
        -- apply IH; auto. intros y J. apply OK. now right.
      * intros t I. rewrite T1 in I. apply in_app_iff in I. destruct I as [I|I]; [now apply (dt_trades _ D)|].
        clear - I T2 OK CD D. induction T2 as [|v t0 exits nt TT T2 IH]; [destruct I|]. destruct I as [->|I].
        -- rewrite (tt_sym _ _ _ TT), (tt_date _ _ _ TT), (tt_edate _ _ _ TT). pose proof (OK v (or_introl eq_refl)) as XK.
           split; [exact (dt_queue _ D _ _ _ (xk_open _ _ _ _ XK))|apply CD, (xk_price _ _ _ _ XK)].
        -- apply IH; auto. intros y J. apply OK. now right.
      * intros sd s e I. rewrite QU in I. apply filter_In in I. exact (dt_queue _ D _ _ _ (proj1 I)).
    + pose proof (check_stops_ok c d sc sm p K G) as H. rewrite X in H. destruct e; try discriminate. destruct H. congruence.
  - unfold exec in E. cbn [step] in E. injection E as <-. constructor.
    + intros o I. apply (dt_orders _ D). revert I. rewrite (ca_orders _ _ _ _ _ (capture_ok c d bar p K G)). auto.
    + intros t I. apply (dt_trades _ D). revert I. rewrite (ca_trades _ _ _ _ _ (capture_ok c d bar p K G)). auto.
    + intros sd s e' I. rewrite <- entries_queue, (capture_entries c d bar p sd s K G) in I. apply in_map_iff in I. destruct I as [e [<- I]]. rewrite entries_queue in I.
      assert (X : e_date (mark_entry bar sd s e) = e_date e); [|rewrite X; exact (dt_queue _ D _ _ _ I)].
      unfold mark_entry. destruct (bar s) as [[[cl lo] hi]|]; auto. apply (entry_mark_same sd lo hi e).
  - unfold exec in E. cbn [step] in E. injection E as <-. apply (same_dated p); [reflexivity| |exact D].
    intros sd s e' I. rewrite <- entries_queue, (incr_entries hb p sd s (gd_core _ _ G)) in I. apply in_map_iff in I. destruct I as [e [<- I]]. rewrite entries_queue in I.
    exists e. split; auto. unfold incr_entry. now destruct (hb s).
  - unfold exec in E. cbn [step] in E. injection E as <-. pose proof (remove_stop_strips id p) as S. apply (same_dated p); [exact (acct_logs _ _ (rs_acct _ _ S))| |exact D].
    intros sd s e' I. rewrite <- entries_queue in I. apply owns_entries in I. destruct (strips_owns _ _ _ _ _ S I) as [e [Oe Se]]. exists e. apply owns_entries in Oe. rewrite entries_queue in Oe.
    split; auto. destruct Se as [-> _]. reflexivity.
  - unfold exec in E. cbn [step] in E. injection E as <-. pose proof (remove_stops_strips v t p) as S. apply (same_dated p); [exact (acct_logs _ _ (rs_acct _ _ S))| |exact D].
    intros sd s e' I. rewrite <- entries_queue in I. apply owns_entries in I. destruct (strips_owns _ _ _ _ _ S I) as [e [Oe Se]]. exists e. apply owns_entries in Oe. rewrite entries_queue in Oe.
    split; auto. destruct Se as [-> _]. reflexivity.
  - unfold exec in E. cbn [step] in E. injection E as <-. apply (same_dated p); [reflexivity| |exact D]. intros sd s e I. exists e. destruct sd; auto.
Qed.
Lemma run_dated ops : forall p, run c ops = Some p -> stops_wf ops -> Forall call_dated ops -> dated p.
Proof.
  induction ops as [|o ops IH] using rev_ind; intros p R W F.
  - injection R as <-. constructor; [intros o []|intros t []|]. intros sd s e I. destruct sd; destruct I.
  - rewrite PortfolioFacts.run_snoc in R. destruct (run c ops) as [q|] eqn:Q; [|discriminate]. apply Forall_app in F. destruct F as [F1 F2]. inversion F2; subst.
    eapply exec_dated; eauto; [now apply wf_snoc in W|]. apply IH; auto. now apply wf_snoc in W.
Qed.
End Dated.
