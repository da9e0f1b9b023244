(** Preservation of the structural and ledger invariants by closing and opening
    fills, [buy] and [sell]. *)
From Verif Require Export PortfolioLedger.

(** ** The FIFO loop *)
Definition full_step (c : cfg) (sd : side) (date : Z) (s : sym) (fill : Q) (pos : position)
    (e : entry) (p : port) : port :=
  let p2 := remove_stop_data (e_stops e)
              (snd (exit_entry c sd date pos e (e_shares e) fill None p)) in
  set_poss sd (aset s (set_ps_entries (tl (ps_entries pos)) (exit_pos pos e (e_shares e)))
                 (poss sd p2)) p2.
Definition part_step (c : cfg) (sd : side) (date : Z) (fill : Q) (pos : position) (e : entry)
    (rem : Q) (p : port) : port :=
  snd (exit_entry c sd date pos e rem fill None p).

Lemma tl_exit_entries pos e es sh :
  NoDup (map e_id (ps_entries pos)) -> ps_entries pos = e :: es ->
  tl (ps_entries (exit_pos pos e sh)) = es.
Proof.
  intros ND E. rewrite exit_pos_entries, E. cbn. rewrite E in ND. cbn in ND.
  inversion ND; subst. now apply upd_entry_notin.
Qed.

Lemma poss_full_step c sd date s fill pos e p :
  ps_sym pos = s ->
  poss sd (full_step c sd date s fill pos e p) =
  aset s (set_ps_entries (tl (ps_entries pos)) (exit_pos pos e (e_shares e))) (poss sd p).
Proof.
  intro Hs. unfold full_step. rewrite poss_set_poss, (sb_poss _ _ (remove_stop_data_sbs _ _)), exit_poss.
  rewrite Hs. set (q := set_ps_entries _ _). set (r := exit_pos _ _ _). clearbody q r.
  induction (poss sd p) as [|[k v] l IH]; cbn.
  - now rewrite Nat.eqb_refl.
  - destruct (Nat.eqb_spec s k) as [->|N]; cbn.
    + now rewrite Nat.eqb_refl.
    + destruct (Nat.eqb_spec s k); [congruence|]. f_equal. auto.
Qed.
Lemma poss_full_step_flip c sd date s fill pos e p :
  poss (flip sd) (full_step c sd date s fill pos e p) = poss (flip sd) p.
Proof.
  unfold full_step. rewrite poss_set_poss_flip, (sb_poss _ _ (remove_stop_data_sbs _ _)).
  apply exit_poss_other.
Qed.

Lemma fifo_principle c sd date fill s (I : Q -> port -> Prop) :
  (forall rem p, I rem p -> Core [] p) ->
  (forall rem p pos e es, I rem p -> aget s (poss sd p) = Some pos -> ps_entries pos = e :: es ->
     0 < rem -> e_shares e <= rem -> I (rem - e_shares e) (full_step c sd date s fill pos e p)) ->
  (forall rem p pos e es, I rem p -> aget s (poss sd p) = Some pos -> ps_entries pos = e :: es ->
     0 < rem -> rem < e_shares e -> I 0 (part_step c sd date fill pos e rem p)) ->
  forall es rem pos p, I rem p -> aget s (poss sd p) = Some pos -> ps_entries pos = es ->
  let '(rem', pos', p') := fifo_loop c sd date fill es rem pos p in
  I rem' p' /\ aget s (poss sd p') = Some pos' /\ (ps_entries pos' = [] \/ rem' <= 0).
Proof.
  intros HC Hfull Hpart. induction es as [|e es IH]; intros rem pos p HI Hg He.
  - cbn. auto.
  - cbn [fifo_loop]. destruct (Qltb 0 rem) eqn:Hr; qb; [|auto].
    pose proof (co_pos _ _ (HC _ _ HI) _ _ _ Hg) as Hok.
    destruct (Qle_bool (e_shares e) rem) eqn:Hle; qb.
    + destruct (exit_entry c sd date pos e (e_shares e) fill None p) as [pos1 p1] eqn:Ex.
      assert (E1 : pos1 = exit_pos pos e (e_shares e)).
      { change pos1 with (fst (pos1, p1)). rewrite <- Ex. apply exit_fst. }
      assert (E2 : p1 = snd (exit_entry c sd date pos e (e_shares e) fill None p))
        by (now rewrite Ex).
      assert (ET : tl (ps_entries pos1) = tl (ps_entries pos)).
      { rewrite E1, (tl_exit_entries pos e es), He; auto. apply Hok. }
      assert (ES : ps_sym (set_ps_entries (tl (ps_entries pos1)) pos1) = s).
      { cbn. rewrite E1, exit_sym. apply Hok. }
      rewrite ES. rewrite ET, E1, E2.
      specialize (Hfull rem p pos e es HI Hg He Hr Hle). unfold full_step in Hfull.
      apply IH; auto.
      * rewrite poss_set_poss. apply aget_aset_eq.
      * cbn. now rewrite He.
    + specialize (Hpart rem p pos e es HI Hg He Hr Hle). unfold part_step in Hpart.
      destruct (exit_entry c sd date pos e rem fill None p) as [pos1 p1] eqn:Ex.
      assert (E1 : pos1 = exit_pos pos e rem).
      { change pos1 with (fst (pos1, p1)). rewrite <- Ex. apply exit_fst. }
      cbn in Hpart. split; [exact Hpart|]. split; [|right; lra].
      assert (E2 : p1 = snd (exit_entry c sd date pos e rem fill None p)) by (now rewrite Ex).
      rewrite E2, exit_poss, (po_sym _ _ _ _ Hok), E1. apply aget_aset_eq.
Qed.

(** What closing fills leave alone. *)
Record close_frame (sd : side) (s : sym) (p p' : port) : Prop := mkCF {
  cf_flip : poss (flip sd) p' = poss (flip sd) p;
  cf_other : forall s', s' <> s -> aget s' (poss sd p') = aget s' (poss sd p);
  cf_keys : forall s', In s' (akeys (poss sd p')) -> In s' (akeys (poss sd p));
  cf_orders : p_orders p' = p_orders p; cf_order_id : p_order_id p' = p_order_id p;
  cf_fees : p_fees p' = p_fees p; cf_bars : p_bars p' = p_bars p;
  cf_accrued : p_accrued p' = p_accrued p; cf_entry_id : p_entry_id p' = p_entry_id p;
  cf_ml : p_max_long p' = p_max_long p; cf_ms : p_max_short p' = p_max_short p;
  cf_equity : p_equity p' = p_equity p; cf_mv : p_mv p' = p_mv p; cf_margin : p_margin p' = p_margin p
}.
Lemma cf_refl sd s p : close_frame sd s p p.
Proof. constructor; auto. Qed.
Lemma cf_trans sd s p q r : close_frame sd s p q -> close_frame sd s q r -> close_frame sd s p r.
Proof.
  intros [] []. constructor; try congruence; auto.
  intros s' N. rewrite cf_other1; auto.
Qed.

Lemma exit_frame c sd date pos e sh fill stp s p :
  aget s (poss sd p) = Some pos -> ps_sym pos = s ->
  close_frame sd s p (snd (exit_entry c sd date pos e sh fill stp p)).
Proof.
  intros Hg Hs. constructor.
  - apply exit_poss_other.
  - intros s' N. rewrite exit_poss, Hs. now apply aget_aset_neq.
  - intros s'. rewrite exit_poss, Hs. rewrite akeys_aset_in; auto. eapply aget_Some_key; eauto.
  - apply exit_orders.
  - apply exit_order_id.
  - apply exit_fees.
  - apply exit_bars.
  - apply exit_accrued.
  - apply exit_entry_id.
  - apply exit_caps.
  - apply exit_caps.
  - apply exit_equity.
  - apply exit_mv.
  - apply exit_margin.
Qed.
Lemma acct_frame sd s p p' : same_acct p p' -> poss (flip sd) p' = poss (flip sd) p ->
  (forall s', s' <> s -> aget s' (poss sd p') = aget s' (poss sd p)) ->
  (forall s', In s' (akeys (poss sd p')) -> In s' (akeys (poss sd p))) ->
  close_frame sd s p p'.
Proof. intros [] A B C. constructor; auto. Qed.
Lemma sbs_frame sd s p p' : same_but_stops p p' -> close_frame sd s p p'.
Proof.
  intros S. apply acct_frame; try apply S; intros s'; rewrite (sb_poss _ _ S); auto.
Qed.

Lemma full_step_frame c sd date s fill pos e p :
  aget s (poss sd p) = Some pos -> ps_sym pos = s ->
  close_frame sd s p (full_step c sd date s fill pos e p).
Proof.
  intros Hg Hs. eapply cf_trans; [apply (exit_frame c sd date pos e (e_shares e) fill None); eauto|].
  eapply cf_trans; [apply sbs_frame, (remove_stop_data_sbs (e_stops e))|].
  apply acct_frame.
  - apply set_poss_same.
  - apply poss_set_poss_flip.
  - intros s' N. unfold full_step. rewrite poss_set_poss. now apply aget_aset_neq.
  - intros s'. unfold full_step. rewrite poss_set_poss.
    rewrite akeys_aset_in; auto. rewrite (sb_poss _ _ (remove_stop_data_sbs _ _)), exit_poss, Hs.
    apply In_akeys_aset. auto.
Qed.

Lemma full_step_core c sd date s fill pos e es p :
  Core [] p -> aget s (poss sd p) = Some pos -> ps_entries pos = e :: es ->
  Core [] (full_step c sd date s fill pos e p).
Proof.
  intros HC Hg He. pose proof (co_pos _ _ HC _ _ _ Hg) as Hok.
  assert (I : In e (ps_entries pos)) by (rewrite He; cbn; auto).
  pose proof (exit_core_full c [] sd date pos e fill None s p HC Hg I) as H1.
  pose proof (core_sbs _ _ _ (remove_stop_data_sbs (e_stops e) _) H1) as H2.
  set (p2 := remove_stop_data (e_stops e) (snd (exit_entry c sd date pos e (e_shares e) fill None p))) in *.
  assert (Hg2 : aget s (poss sd p2) = Some (exit_pos pos e (e_shares e))).
  { unfold p2. rewrite (sb_poss _ _ (remove_stop_data_sbs _ _)), exit_poss, (po_sym _ _ _ _ Hok).
    apply aget_aset_eq. }
  assert (He2 : ps_entries (exit_pos pos e (e_shares e)) =
                [] ++ set_e_shares (e_shares e - e_shares e) e :: es).
  { rewrite exit_pos_entries, He. cbn. rewrite Nat.eqb_refl. f_equal.
    apply upd_entry_notin. pose proof (po_nodup _ _ _ _ Hok) as ND. rewrite He in ND.
    now inversion ND. }
  pose proof (pop_core [] sd s _ (set_e_shares (e_shares e - e_shares e) e) [] es p2 H2
                (fun x => x) Hg2 He2) as H3.
  unfold full_step. rewrite He. exact H3.
Qed.

Lemma total_cache_none p : p_clong p = None -> p_cshort p = None -> total_cache_ok p.
Proof. intros A B. split; intros v; [rewrite A|rewrite B]; discriminate. Qed.

Lemma full_step_caches c sd date s fill pos e p :
  p_clong (full_step c sd date s fill pos e p) = None /\ p_cshort (full_step c sd date s fill pos e p) = None.
Proof.
  unfold full_step. rewrite set_poss_clong, set_poss_cshort.
  destruct (remove_stop_data_sbs (e_stops e) (snd (exit_entry c sd date pos e (e_shares e) fill None p)))
    as [_ _ _ C1 C2]. rewrite C1, C2. apply exit_caches.
Qed.

Lemma full_step_led c d sd date s fill pos e es p :
  cfg_ok c -> Led c d p -> Core [] p -> aget s (poss sd p) = Some pos -> ps_entries pos = e :: es ->
  Led c (dadd s (- sgn sd * e_shares e) d) (full_step c sd date s fill pos e p).
Proof.
  intros K HL HC Hg He. pose proof (co_pos _ _ HC _ _ _ Hg) as Hok.
  assert (I : In e (ps_entries pos)) by (rewrite He; cbn; auto).
  pose proof (po_entries _ _ _ _ Hok e I) as Heo.
  pose proof (exit_led c d [] sd date pos e (e_shares e) fill None s p K HL Hg
                (po_sym _ _ _ _ Hok) Heo (eo_pos _ _ _ _ Heo (fun x => x))) as H1.
  pose proof (led_sbs _ _ _ _ (remove_stop_data_sbs (e_stops e) _) H1) as H2.
  eapply led_ext; [exact H2|apply set_poss_same| |].
  - intro s'. rewrite !(net_held_sd sd). fold (full_step c sd date s fill pos e p).
    rewrite !(held_same (flip sd) p (full_step c sd date s fill pos e p)) by apply poss_full_step_flip.
    rewrite (held_same (flip sd) p (remove_stop_data _ _))
      by (rewrite (sb_poss _ _ (remove_stop_data_sbs _ _)); apply exit_poss_other).
    rewrite (held_update sd s _ p (full_step c sd date s fill pos e p) s')
      by (now apply poss_full_step, Hok).
    rewrite (held_update sd s (exit_pos pos e (e_shares e)) p (remove_stop_data _ _) s')
      by (rewrite (sb_poss _ _ (remove_stop_data_sbs _ _)), exit_poss; now rewrite (po_sym _ _ _ _ Hok)).
    reflexivity.
  - apply total_cache_none; apply full_step_caches.
Qed.

(** Closing fills: invariants, filled and remaining shares. *)
Record closed_ok (c : cfg) (sd : side) (s : sym) (shares : Q) (p0 : port)
    (filled rem : Q) (p : port) : Prop := mkClosed {
  cl_core : Core [] p; cl_ne : nonempty_but None p;
  cl_led : Led c (dadd s (- sgn sd * filled) dzero) p;
  cl_rem : 0 <= rem; cl_filled : 0 <= filled; cl_sum : filled + rem == shares;
  cl_gone : 0 < rem -> aget s (poss sd p) = None;
  cl_held : held sd p s == held sd p0 s - filled;
  cl_frame : close_frame sd s p0 p
}.

Lemma dadd_dadd s a b d x : dadd s a (dadd s b d) x == dadd s (a + b) d x.
Proof. unfold dadd. destruct (Nat.eqb x s); lra. Qed.
Lemma dadd_proper s a b d x : a == b -> dadd s a d x == dadd s b d x.
Proof. unfold dadd. intros E. destruct (Nat.eqb x s); lra. Qed.

Lemma close_existing_ok c sd date s shares fill p :
  cfg_ok c -> Core [] p -> nonempty_but None p -> Led c dzero p -> 0 < shares ->
  let '(filled, rem, p') := close_existing c sd date s shares fill p in
  closed_ok c sd s shares p filled rem p'.
Proof.
  intros K HC HN HL Hsh. unfold close_existing.
  assert (Hno : aget s (poss sd p) = None -> closed_ok c sd s shares p 0 shares p).
  { intro Hg. constructor; auto; try lra.
    - apply (led_delta c dzero); auto. intro x. unfold dadd, dzero. destruct (Nat.eqb x s); lra.
    - apply cf_refl. }
  destruct (aget s (poss sd p)) as [pos|] eqn:Hg; [|now apply Hno].
  assert (Hb : match sd with Long => false | Short => Qle_bool shares 0 end = false).
  { destruct sd; auto. now apply Qle_bool_nle. }
  rewrite Hb.
  pose (I := fun rem q =>
     Core [] q /\ nonempty_but (Some (sd, s)) q /\
     Led c (dadd s (- sgn sd * (shares - rem)) dzero) q /\ 0 <= rem <= shares /\
     held sd q s == held sd p s - (shares - rem) /\ close_frame sd s p q /\
     (q = p \/ (p_clong q = None /\ p_cshort q = None))).
  assert (HI0 : I shares p).
  { unfold I. split; [auto|]. split; [|split; [|split; [lra|split; [lra|split; [apply cf_refl|auto]]]]].
    - intros sd' s' q Hq _. eapply HN; eauto. congruence.
    - apply (led_delta c dzero); auto.
      intro x. unfold dadd, dzero. destruct (Nat.eqb x s); lra. }
  pose proof (fifo_principle c sd date fill s I) as FP.
  assert (HICore : forall rem q, I rem q -> Core [] q) by (intros rem q Hq; apply Hq).
  specialize (FP HICore).
  assert (Hfull : forall rem q pos0 e es, I rem q -> aget s (poss sd q) = Some pos0 ->
     ps_entries pos0 = e :: es -> 0 < rem -> e_shares e <= rem ->
     I (rem - e_shares e) (full_step c sd date s fill pos0 e q)).
  { intros rem q pos0 e es [H1 [H2 [H3 [H4 [H5 [H6 H7]]]]]] Hq He Hr Hle.
    pose proof (co_pos _ _ H1 _ _ _ Hq) as Hok.
    assert (Ie : In e (ps_entries pos0)) by (rewrite He; cbn; auto).
    pose proof (eo_pos _ _ _ _ (po_entries _ _ _ _ Hok e Ie) (fun x => x)) as Hpos.
    unfold I. split; [eapply full_step_core; eauto|]. split; [|split; [|split; [lra|split; [|split]]]].
    - eapply nonempty_update; [exact H2|apply poss_full_step, Hok|apply poss_full_step_flip|left; auto].
    - eapply led_delta; [|eapply full_step_led; eauto].
      intro x. cbn. rewrite dadd_dadd. apply dadd_proper. lra.
    - rewrite (held_update sd s _ q (full_step c sd date s fill pos0 e q))
        by (apply poss_full_step, Hok). rewrite Nat.eqb_refl.
      change (ps_shares (set_ps_entries ?a ?b)) with (ps_shares b). rewrite exit_pos_shares.
      unfold held at 1 in H5. rewrite Hq in H5. lra.
    - eapply cf_trans; [exact H6|]. apply full_step_frame; auto. apply Hok.
    - right. apply full_step_caches. }
  assert (Hpart : forall rem q pos0 e es, I rem q -> aget s (poss sd q) = Some pos0 ->
     ps_entries pos0 = e :: es -> 0 < rem -> rem < e_shares e ->
     I 0 (part_step c sd date fill pos0 e rem q)).
  { intros rem q pos0 e es [H1 [H2 [H3 [H4 [H5 [H6 H7]]]]]] Hq He Hr Hlt.
    pose proof (co_pos _ _ H1 _ _ _ Hq) as Hok.
    assert (Ie : In e (ps_entries pos0)) by (rewrite He; cbn; auto).
    unfold I, part_step. split; [eapply exit_core_partial; eauto|]. split; [|split; [|split; [lra|split; [|split]]]].
    - eapply nonempty_update; [exact H2|apply exit_poss|apply exit_poss_other|].
      left. now rewrite (po_sym _ _ _ _ Hok).
    - eapply led_delta; [|eapply exit_led; eauto; try apply Hok; auto].
      intro x. cbn. rewrite dadd_dadd. apply dadd_proper. lra.
    - rewrite (held_update sd s (exit_pos pos0 e rem) q)
        by (rewrite exit_poss, (po_sym _ _ _ _ Hok); reflexivity). rewrite Nat.eqb_refl.
      rewrite exit_pos_shares. unfold held at 1 in H5. rewrite Hq in H5. lra.
    - eapply cf_trans; [exact H6|]. apply exit_frame; auto. apply Hok.
    - right. apply exit_caches. }
  specialize (FP Hfull Hpart (ps_entries pos) shares pos p HI0 Hg eq_refl).
  destruct (fifo_loop c sd date fill (ps_entries pos) shares pos p) as [[rem pos'] p'].
  destruct FP as [[H1 [H2 [H3 [H4 [H5 [H6 H7]]]]]] [Hg' Hend]].
  destruct (update_position_core [] sd s pos' p' H1 H2 Hg') as [U1 [U2 [U3 [U4 U5]]]].
  pose proof (co_pos _ _ H1 _ _ _ Hg') as Hok'.
  pose proof (update_position_same sd pos' p') as US.
  set (p'' := update_position sd pos' p') in *.
  assert (Hh : held sd p'' s == held sd p' s).
  { unfold held. rewrite U5, Hg'. destruct (ps_entries pos') as [|e es] eqn:Ee; [|reflexivity].
    rewrite (po_shares _ _ _ _ Hok'), Ee. cbn. lra. }
  constructor; auto.
  - eapply led_ext; [exact H3|exact US| |].
    + intro x. rewrite !(net_held_sd sd).
      rewrite (held_same (flip sd) p' p'') by auto.
      destruct (Nat.eq_dec x s) as [->|N]; [rewrite Hh; lra|].
      unfold held at 1 3. rewrite U4 by auto. lra.
    + pose proof (ld_cache _ _ _ H3) as [CA CB].
      unfold p'', update_position. destruct (ps_entries pos') as [|e es] eqn:Ee; [|split; auto].
      destruct H7 as [->|[N1 N2]].
      { exfalso. rewrite Hg in Hg'. injection Hg' as <-. apply (HN _ _ _ Hg); auto. discriminate. }
      apply total_cache_none;
        match goal with |- context [if ?b then _ else _] => destruct b end;
        cbn; rewrite ?set_poss_clong, ?set_poss_cshort; auto.
  - destruct H4; lra.
  - lra.
  - lra.
  - intro Hr. rewrite U5. destruct Hend as [->|Hle]; [reflexivity|lra].
  - rewrite Hh, H5. lra.
  - eapply cf_trans; [exact H6|]. apply acct_frame; auto.
    intros s' Hin. destruct (Nat.eq_dec s' s) as [->|N].
    + eapply aget_Some_key; eauto.
    + apply key_aget in Hin. destruct Hin as [v Hv]. rewrite U4 in Hv by auto.
      eapply aget_Some_key; eauto.
Qed.
