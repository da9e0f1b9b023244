(** Orders close first-in first-out, the stop registries stay consistent under
    every operation, and both invariants hold after every history. *)
From Verif Require Export PortfolioKeep PortfolioSpec.

Lemma entries_queue p sd s : entries_of p sd s = queue p sd s.
Proof. reflexivity. Qed.

Lemma entries_aset p p' sd s pos' : poss sd p' = aset s pos' (poss sd p) -> entries_of p' sd s = ps_entries pos'.
Proof. intro H. unfold entries_of. rewrite H, aget_aset_eq. reflexivity. Qed.
Lemma entries_other p p' sd s pos' sd1 s1 : poss sd p' = aset s pos' (poss sd p) -> poss (flip sd) p' = poss (flip sd) p ->
  sd1 <> sd \/ s1 <> s -> entries_of p' sd1 s1 = entries_of p sd1 s1.
Proof.
  intros H F N. unfold entries_of. destruct (side_dec sd1 sd) as [->|Ns].
  - destruct N as [N|N]; [congruence|]. rewrite H, aget_aset_neq; auto.
  - rewrite (flip_neq _ _ Ns), F. reflexivity.
Qed.

Lemma exit_trade_closes sd date e q fill stp p : e_type e = sd ->
  closes_entry sd date fill stp e q (exit_trade sd date e q fill stp p).
Proof.
  intro T. constructor; try reflexivity; auto. unfold exit_trade, exit_pnl, gain. cbn. destruct sd; lra.
Qed.

Lemma upd_entry_head (f : entry -> entry) e es : NoDup (map e_id (e :: es)) -> upd_entry (e_id e) f (e :: es) = f e :: es.
Proof.
  cbn. intro ND. inversion ND; subst. rewrite Nat.eqb_refl. f_equal. now apply upd_entry_notin.
Qed.

(** Every registration of [q] is one of [p]. *)
Definition sub_data (p q : port) : Prop := forall id d, aget id (p_stop_data q) = Some d -> aget id (p_stop_data p) = Some d.
(** State of a FIFO close: [rem] shares still to close. *)
Definition FI (sd : side) (date : Z) (fill : Q) (s : sym) (n : Q) (p : port) (rem : Q) (q : port) : Prop :=
  Core [] q /\ (StopInv p -> StopInv q /\ sub_data p q) /\
  (forall sd1 s1, sd1 <> sd \/ s1 <> s -> entries_of q sd1 s1 = entries_of p sd1 s1) /\
  0 <= rem /\
  exists ts, p_trades q = p_trades p ++ ts /\
  exists full rest,
   (entries_of p sd s = full ++ rest /\ entries_of q sd s = rest /\
    Forall2 (fun e t => closes_entry sd date fill None e (e_shares e) t) full ts /\
    Qsum (map e_shares full) + rem == n)
   \/
   (rem == 0 /\ exists e x ts0 t,
       entries_of p sd s = full ++ e :: rest /\ entries_of q sd s = set_e_shares (e_shares e - x) e :: rest /\
       0 < x /\ x < e_shares e /\ ts = ts0 ++ [t] /\
       Forall2 (fun e t => closes_entry sd date fill None e (e_shares e) t) full ts0 /\
       closes_entry sd date fill None e x t /\
       Qsum (map e_shares full) + x == n).

Lemma FI_full c sd date fill s n p rem q pos e es :
  FI sd date fill s n p rem q -> aget s (poss sd q) = Some pos -> ps_entries pos = e :: es ->
  0 < rem -> e_shares e <= rem -> FI sd date fill s n p (rem - e_shares e) (full_step c sd date s fill pos e q).
Proof.
  intros [HC [HS [HO [H0 [ts [HT [full [rest [[E1 [E2 [E3 E4]]]|[R0 _]]]]]]]]]] Hg He Hr Hle; [|lra].
  pose proof (co_pos _ _ HC _ _ _ Hg) as Hok.
  assert (Ie : In e (ps_entries pos)) by (rewrite He; now left).
  assert (Er : rest = e :: es) by (rewrite <- E2; unfold entries_of; now rewrite Hg).
  set (q' := full_step c sd date s fill pos e q).
  pose proof (poss_full_step c sd date s fill pos e q (po_sym _ _ _ _ Hok)) as P1. fold q' in P1.
  pose proof (poss_full_step_flip c sd date s fill pos e q) as P2. fold q' in P2.
  assert (EQ : entries_of q' sd s = es).
  { rewrite (entries_aset q q' sd s _ P1). cbn. now rewrite He. }
  assert (EO : forall sd1 s1, sd1 <> sd \/ s1 <> s -> entries_of q' sd1 s1 = entries_of q sd1 s1).
  { intros. eapply entries_other; eauto. }
  split; [eapply full_step_core; eauto|]. split; [|split; [|split; [lra|]]].
  - intro S. destruct (HS S) as [HS1 HSD]. clear HS. rename HS1 into HS.
    assert (Oe : owns q sd s e) by (exists pos; auto).
    assert (ND : NoDup (map e_id (e :: es))) by (rewrite <- He; apply Hok).
    assert (X : StopInv q' /\ forall id, aget id (p_stop_data q') = if nmem id (map st_id (e_stops e)) then None else aget id (p_stop_data q)).
    2:{ destruct X as [X1 X2]. split; auto. intros id d. rewrite X2. destruct (nmem id _); [discriminate|]. apply HSD. }
    eapply (stop_drop [] q q' (snd (exit_entry c sd date pos e (e_shares e) fill None q)) sd s e HC HS Oe).
    + intros sd1 s1 e1 O1. exists e1. apply owns_entries in O1.
      destruct (side_dec sd1 sd) as [->|Ns]; [destruct (Nat.eq_dec s1 s) as [->|Ns]|].
      * rewrite EQ in O1. split; [exists pos; split; auto; rewrite He; now right|].
        split; [|split; reflexivity]. cbn in ND. inversion ND as [|? ? Hn _]. intro Eq. apply Hn. rewrite <- Eq. now apply in_map.
      * rewrite EO in O1 by auto. apply owns_entries in O1. split; auto. split; [|split; reflexivity].
        intro Eq. now destruct (co_ids _ _ HC _ _ _ _ _ _ O1 Oe Eq).
      * rewrite EO in O1 by auto. apply owns_entries in O1. split; auto. split; [|split; reflexivity].
        intro Eq. now destruct (co_ids _ _ HC _ _ _ _ _ _ O1 Oe Eq).
    + intros sd1 s1 e1 O1 Ne. exists e1. split; [|split; reflexivity]. apply owns_entries.
      destruct (side_dec sd1 sd) as [->|Ns]; [destruct (Nat.eq_dec s1 s) as [->|Ns]|].
      * rewrite EQ. apply owns_entries in O1. unfold entries_of in O1. rewrite Hg, He in O1.
        destruct O1 as [<-|O1]; [congruence|auto].
      * rewrite EO by auto. now apply owns_entries.
      * rewrite EO by auto. now apply owns_entries.
    + apply exit_stop_data.
    + apply exit_active.
    + unfold q', full_step. now rewrite set_poss_stop_data.
    + unfold q', full_step. now rewrite set_poss_active.
  - intros sd1 s1 N. rewrite EO by auto. auto.
  - exists (ts ++ [exit_trade sd date e (e_shares e) fill None q]). split.
    + unfold q', full_step. rewrite (sa_trades _ _ (set_poss_same sd _ _)).
      rewrite (sa_trades _ _ (sb_acct _ _ (remove_stop_data_sbs _ _))), exit_trades, HT. now rewrite app_assoc.
    + exists (full ++ [e]), es. left. split; [rewrite E1, Er; now rewrite <- app_assoc|]. split; auto. split.
      * apply Forall2_app; auto. constructor; [|constructor]. apply exit_trade_closes.
        apply (eo_type _ _ _ _ (po_entries _ _ _ _ Hok e Ie)).
      * rewrite map_app, Qsum_app. cbn. lra.
Qed.

Lemma FI_part c sd date fill s n p rem q pos e es :
  FI sd date fill s n p rem q -> aget s (poss sd q) = Some pos -> ps_entries pos = e :: es ->
  0 < rem -> rem < e_shares e -> FI sd date fill s n p 0 (part_step c sd date fill pos e rem q).
Proof.
  intros [HC [HS [HO [H0 [ts [HT [full [rest [[E1 [E2 [E3 E4]]]|[R0 _]]]]]]]]]] Hg He Hr Hlt; [|lra].
  pose proof (co_pos _ _ HC _ _ _ Hg) as Hok.
  assert (Ie : In e (ps_entries pos)) by (rewrite He; now left).
  assert (Er : rest = e :: es) by (rewrite <- E2; unfold entries_of; now rewrite Hg).
  unfold part_step. set (q' := snd (exit_entry c sd date pos e rem fill None q)).
  pose proof (exit_poss c sd date pos e rem fill None q) as P1. fold q' in P1.
  rewrite (po_sym _ _ _ _ Hok) in P1.
  pose proof (exit_poss_other c sd date pos e rem fill None q) as P2. fold q' in P2.
  assert (EQ : entries_of q' sd s = set_e_shares (e_shares e - rem) e :: es).
  { rewrite (entries_aset q q' sd s _ P1), exit_pos_entries, He. rewrite upd_entry_head; auto.
    rewrite <- He. apply Hok. }
  assert (EO : forall sd1 s1, sd1 <> sd \/ s1 <> s -> entries_of q' sd1 s1 = entries_of q sd1 s1).
  { intros. eapply entries_other; eauto. }
  split; [eapply exit_core_partial; eauto|]. split; [|split; [|split; [lra|]]].
  - intro S. destruct (HS S) as [HS1 HSD]. clear HS. rename HS1 into HS.
    split; [|intros id d; unfold q'; rewrite exit_stop_data; apply HSD]. apply (stop_pointwise q); auto.
    + intros sd1 s1 e1 O1. apply owns_entries in O1.
      destruct (side_dec sd1 sd) as [->|Ns]; [destruct (Nat.eq_dec s1 s) as [->|Ns]|].
      * rewrite EQ in O1. destruct O1 as [<-|O1].
        -- exists e. split; [exists pos; auto|split; reflexivity].
        -- exists e1. split; [exists pos; split; auto; rewrite He; now right|split; reflexivity].
      * rewrite EO in O1 by auto. exists e1. split; [now apply owns_entries|split; reflexivity].
      * rewrite EO in O1 by auto. exists e1. split; [now apply owns_entries|split; reflexivity].
    + intros sd1 s1 e1 O1. apply owns_entries in O1.
      destruct (side_dec sd1 sd) as [->|Ns]; [destruct (Nat.eq_dec s1 s) as [->|Ns]|].
      * unfold entries_of in O1. rewrite Hg, He in O1. destruct O1 as [<-|O1].
        -- exists (set_e_shares (e_shares e - rem) e). split; [apply owns_entries; rewrite EQ; now left|split; reflexivity].
        -- exists e1. split; [apply owns_entries; rewrite EQ; now right|split; reflexivity].
      * exists e1. split; [apply owns_entries; now rewrite EO by auto|split; reflexivity].
      * exists e1. split; [apply owns_entries; now rewrite EO by auto|split; reflexivity].
    + apply exit_active.
    + unfold q'. now rewrite exit_stop_data.
    + intros id d E. exists d. unfold q'. rewrite exit_stop_data. auto.
  - intros sd1 s1 N. rewrite EO by auto. auto.
  - exists (ts ++ [exit_trade sd date e rem fill None q]). split.
    + unfold q'. rewrite exit_trades, HT. now rewrite app_assoc.
    + exists full, es. right. split; [lra|].
      exists e, rem, ts, (exit_trade sd date e rem fill None q).
      split; [congruence|]. split; auto. split; auto. split; auto. split; auto. split; auto. split; [|lra].
      apply exit_trade_closes. apply (eo_type _ _ _ _ (po_entries _ _ _ _ Hok e Ie)).
Qed.

(** What a close did to the queues, the trades and the stops. *)
Record fifo_ok (sd : side) (date : Z) (s : sym) (n fill : Q) (p p' : port) : Prop := mkFifo {
  ff_other : forall sd1 s1, sd1 <> sd \/ s1 <> s -> entries_of p' sd1 s1 = entries_of p sd1 s1;
  ff_fifo : exists ts, p_trades p' = p_trades p ++ ts /\
     fifo_close sd date fill n (entries_of p sd s) (entries_of p' sd s) ts;
  ff_stop : StopInv p -> StopInv p';
  ff_sub : StopInv p -> sub_data p p'
}.

Lemma close_fifo c sd date s n fill p : Core [] p -> 0 < n ->
  fifo_ok sd date s n fill p (snd (close_existing c sd date s n fill p)).
Proof.
  intros HC Hn. unfold close_existing. destruct (aget s (poss sd p)) as [pos|] eqn:Hg.
  2:{ cbn. constructor; auto; [|intros S id d E; exact E]. exists []. rewrite app_nil_r. split; auto.
      unfold entries_of. rewrite Hg. exists [], []. left. cbn. split; auto. split; auto. split; [constructor|].
      split; [lra|auto]. }
  replace (match sd with Short => Qle_bool n 0 | Long => false end) with false.
  2:{ destruct sd; auto. symmetry. now apply Qle_bool_nle. }
  pose proof (fifo_principle c sd date fill s (FI sd date fill s n p)) as FP.
  assert (HICore : forall rem q, FI sd date fill s n p rem q -> Core [] q) by (intros rem q Hq; apply Hq).
  specialize (FP HICore).
  assert (F0 : FI sd date fill s n p n p).
  { split; auto. split; [intro S; split; auto; intros id d E; exact E|]. split; auto. split; [lra|]. exists []. rewrite app_nil_r. split; auto.
    exists [], (entries_of p sd s). left. cbn. split; auto. split; auto. split; [constructor|lra]. }
  assert (Hf : forall rem q pos0 e es, FI sd date fill s n p rem q -> aget s (poss sd q) = Some pos0 ->
     ps_entries pos0 = e :: es -> 0 < rem -> e_shares e <= rem ->
     FI sd date fill s n p (rem - e_shares e) (full_step c sd date s fill pos0 e q)).
  { intros. eapply FI_full; eauto. }
  assert (Hp : forall rem q pos0 e es, FI sd date fill s n p rem q -> aget s (poss sd q) = Some pos0 ->
     ps_entries pos0 = e :: es -> 0 < rem -> rem < e_shares e ->
     FI sd date fill s n p 0 (part_step c sd date fill pos0 e rem q)).
  { intros. eapply FI_part; eauto. }
  specialize (FP Hf Hp (ps_entries pos) n pos p F0 Hg eq_refl).
  destruct (fifo_loop c sd date fill (ps_entries pos) n pos p) as [[rem pos'] q].
  destruct FP as [[HC' [HS [HO [H0 [ts [HT HX]]]]]] [Hg' Hend]]. cbn [snd].
  pose proof (update_position_same sd pos' q) as US.
  assert (UE : forall sd1 s1, entries_of (update_position sd pos' q) sd1 s1 = entries_of q sd1 s1).
  { intros sd1 s1. unfold update_position. destruct (ps_entries pos') as [|x r] eqn:Ee; auto.
    unfold entries_of. rewrite (po_sym _ _ _ _ (co_pos _ _ HC' _ _ _ Hg')).
    set (r := if _ && _ && _ then _ else _).
    assert (R : poss sd1 r = poss sd1 (set_poss sd (adel s (poss sd q)) q)).
    { unfold r. destruct (_ && _ && _); destruct sd1; reflexivity. }
    rewrite R. destruct (side_dec sd1 sd) as [->|Ns].
    - rewrite poss_set_poss, aget_adel by apply (co_nodup _ _ HC').
      destruct (Nat.eqb_spec s1 s) as [->|]; auto. now rewrite Hg', Ee.
    - rewrite (flip_neq _ _ Ns), poss_set_poss_flip. reflexivity. }
  assert (UD : p_stop_data (update_position sd pos' q) = p_stop_data q /\ p_active (update_position sd pos' q) = p_active q).
  { unfold update_position. destruct (ps_entries pos'); auto.
    destruct (_ && _ && _); destruct sd; auto. }
  constructor.
  - intros. rewrite UE. auto.
  - exists ts. split; [rewrite (sa_trades _ _ US); auto|]. rewrite UE.
    destruct HX as [full [rest [[E1 [E2 [E3 E4]]]|[R0 [e [x [ts0 [t [E1 [E2 [E3 [E4 [E5 [E6 [E7 E8]]]]]]]]]]]]]]].
    + exists full, rest. left. rewrite E2. split; auto. split; auto. split; auto. split; [lra|].
      destruct Hend as [He|Hle]; [left|right; lra]. rewrite <- E2. unfold entries_of. now rewrite Hg'.
    + exists full, rest. right. exists e, x, ts0, t. rewrite E2. auto 12.
  - intro S. apply (stop_pointwise q); auto; try apply UD; [apply HS; auto|..].
    + intros sd1 s1 e1 O1. exists e1. split; [|split; reflexivity]. apply owns_entries in O1. rewrite UE in O1. now apply owns_entries.
    + intros sd1 s1 e1 O1. exists e1. split; [|split; reflexivity]. apply owns_entries in O1. apply owns_entries. now rewrite UE.
    + now rewrite (proj1 UD).
    + intros id d E. rewrite (proj1 UD). eauto.
  - intros S id d. rewrite (proj1 UD). apply (HS S).
Qed.

(** ** Stops under orders *)
Definition order_stops (a : oargs) : list stop := match a_stops a with Some l => l | None => [] end.
Record stops_fresh (o : oside) (a : oargs) (p : port) : Prop := mkSF {
  sfr_nd : NoDup (map st_id (order_stops a));
  sfr_match : forall st, In st (order_stops a) -> st_sym st = a_sym a /\ st_pos st = opens o;
  sfr_fresh : fresh (order_stops a) p
}.

(** Every stop attached to an open entry satisfies [P]. *)
Definition all_stops (P : stop -> Prop) (p : port) : Prop :=
  forall sd s e st, owns p sd s e -> In st (e_stops e) -> P st.

Lemma fifo_stops sd date fill n es es' ts e' : fifo_close sd date fill n es es' ts -> In e' es' ->
  exists e, In e es /\ e_stops e' = e_stops e /\ e_id e' = e_id e.
Proof.
  intros [full [rest [[E1 [E2 _]]|[e [q [ts0 [t [E1 [E2 _]]]]]]]]] I; subst.
  - exists e'. split; auto. apply in_app_iff. auto.
  - destruct I as [<-|I].
    + exists e. split; auto. apply in_app_iff. right. now left.
    + exists e'. split; auto. apply in_app_iff. right. now right.
Qed.
Lemma fifo_all_stops P sd date s n fill p p' : fifo_ok sd date s n fill p p' -> all_stops P p -> all_stops P p'.
Proof.
  intros [HO [ts [_ HF]] _ _] H sd1 s1 e st Ho I. apply owns_entries in Ho.
  destruct (side_dec sd1 sd) as [->|Ns]; [destruct (Nat.eq_dec s1 s) as [->|Ns]|].
  - destruct (fifo_stops _ _ _ _ _ _ _ _ HF Ho) as [e0 [I0 [E0 _]]]. rewrite E0 in I. apply (H sd s e0); auto. now apply owns_entries.
  - rewrite HO in Ho by auto. apply (H sd s1 e); auto. now apply owns_entries.
  - rewrite HO in Ho by auto. apply (H sd1 s1 e); auto. now apply owns_entries.
Qed.

Lemma stops_of_In a st : In st (stops_of (a_stops a)) <-> In st (order_stops a).
Proof.
  unfold stops_of, order_stops. destruct (a_stops a) as [l|]; [|tauto].
  split; apply Permutation_in; [apply Permutation_sym|]; apply sort_stops_perm.
Qed.
Lemma stops_of_nd a : NoDup (map st_id (order_stops a)) -> NoDup (map st_id (stops_of (a_stops a))).
Proof.
  unfold stops_of, order_stops. destruct (a_stops a) as [l|]; auto.
  apply Permutation_NoDup. apply Permutation_map, sort_stops_perm.
Qed.

(** Everything an order does to the entries: FIFO on the closing side, one new
    entry on the opening side. *)
Record order_effect (o : oside) (a : oargs) (p : port) (filled bought : Q) (p' : port) : Prop := mkOE {
  oe_p1 : exists p1, fifo_ok (closes o) (a_date a) (a_sym a) (a_shares a) (a_fill a) p p1 /\
    p_trades p' = p_trades p1 /\
    ((bought == 0 /\ (forall sd s, entries_of p' sd s = entries_of p1 sd s)) \/
     (0 < bought /\ exists e, e_date e = a_date a /\ e_sym e = a_sym a /\ e_shares e = bought /\ e_price e = a_fill a /\
        e_type e = opens o /\ e_bars e = 0%nat /\ e_symbars e = 0%nat /\ e_mae e = 0 /\ e_mfe e = 0 /\
        e_stops e = stops_of (a_stops a) /\
        e_id e = S (p_entry_id p) /\
        forall sd s, entries_of p' sd s =
          if side_eqb sd (opens o) && Nat.eqb s (a_sym a) then entries_of p1 sd s ++ [e] else entries_of p1 sd s))
}.

Lemma entries_cache p q sd s : cache_only p q -> entries_of q sd s = entries_of p sd s.
Proof. intro H. unfold entries_of. now rewrite (cc_poss _ _ H). Qed.

Lemma fill_effect c o a p filled bought p2 :
  Core [] p -> 0 < a_shares a -> fill_ok c o a p filled bought p2 -> order_effect o a p filled bought p2.
Proof.
  intros HC Hs [F1 F2 F3 F4 F5 F6 [rem [p1 [Ecl [HCl Hop]]]]].
  pose proof (close_fifo c (closes o) (a_date a) (a_sym a) (a_shares a) (a_fill a) p HC Hs) as HF.
  rewrite Ecl in HF. cbn in HF. constructor. exists p1. split; auto.
  destruct Hop as [[Hb CO]|[[B0 B1 [q [o' [CO [_ [_ HO]]]]]] _]].
  - split; [apply (sa_trades _ _ (cc_acct _ _ CO))|]. left. split; [rewrite Hb; lra|]. intros. now apply entries_cache.
  - split.
    + rewrite (op_trades _ _ _ _ _ _ _ _ _ HO). apply (sa_trades _ _ (cc_acct _ _ CO)).
    + right. split; auto. exists (new_entry (opens o) (a_date a) (a_sym a) bought (a_fill a) (stops_of (a_stops a)) q).
      do 10 (split; [reflexivity|]).
      split; [cbn; f_equal; rewrite (sa_entry_id _ _ (cc_acct _ _ CO)); apply (cf_entry_id _ _ _ _ (cl_frame _ _ _ _ _ _ _ _ HCl))|].
      intros sd s. rewrite (open_entries _ _ _ _ _ _ _ _ _ _ _ HO).
      destruct (side_eqb sd (opens o) && Nat.eqb s (a_sym a)) eqn:E.
      * apply andb_true_iff in E. destruct E as [E1 E2]. apply side_eqb_eq in E1. apply Nat.eqb_eq in E2. subst.
        now rewrite (entries_cache _ _ _ _ CO).
      * now apply entries_cache.
Qed.

Lemma fill_stop c o a p filled bought p2 :
  Core [] p -> 0 < a_shares a -> fill_ok c o a p filled bought p2 -> StopInv p -> stops_fresh o a p -> StopInv p2.
Proof.
  intros HC Hs [F1 F2 F3 F4 F5 F6 [rem [p1 [Ecl [HCl Hop]]]]] HS [S1 S2 S3].
  pose proof (close_fifo c (closes o) (a_date a) (a_sym a) (a_shares a) (a_fill a) p HC Hs) as HF.
  rewrite Ecl in HF. cbn in HF. pose proof (ff_stop _ _ _ _ _ _ _ HF HS) as HS1.
  assert (EXT : forall q, cache_only p1 q -> StopInv q).
  { intros q CO. apply (stop_ext p1); auto; apply CO. }
  destruct Hop as [[Hb CO]|[[B0 B1 [q [o' [CO [_ [_ HO]]]]]] _]]; [auto|].
  eapply stop_open; [| |exact HO|..].
  - eapply core_cache; [exact CO|apply HCl].
  - auto.
  - now apply stops_of_nd.
  - intros st I. apply S2. now apply stops_of_In.
  - intros sd s e st st' Ho I I'. apply stops_of_In in I'.
    assert (X : all_stops (fun st => st_id st <> st_id st') p1).
    { eapply fifo_all_stops; [exact HF|]. intros sd1 s1 e1 st1 O1 I1. eapply S3; eauto. }
    assert (O1 : owns p1 sd s e) by (apply owns_entries; rewrite <- (entries_cache _ _ _ _ CO); now apply owns_entries).
    eapply X; eauto.
Qed.

Lemma add_order_entries c o a filled bought p2 sd s :
  entries_of (fst (the_order c o a filled bought p2)) sd s = entries_of p2 sd s.
Proof.
  unfold the_order, add_order, entries_of. destruct (c_fee_mode c); destruct sd; reflexivity.
Qed.
Lemma add_order_stop c o a filled bought p2 : StopInv p2 -> StopInv (fst (the_order c o a filled bought p2)).
Proof.
  intro H. apply (stop_ext p2); auto; unfold the_order, add_order; destruct (c_fee_mode c); try reflexivity;
  intros []; reflexivity.
Qed.

Lemma place_stop c o a p p' r : cfg_ok c -> Good c p -> StopInv p -> stops_fresh o a p ->
  place c o a p = Ret p' r -> StopInv p'.
Proof.
  intros K G HS HF E. pose proof (place_ok c o a p K G) as H. rewrite E in H. inversion H; subst; auto.
  - eapply fill_stop; eauto. apply G.
  - apply add_order_stop. eapply fill_stop; eauto. apply G.
Qed.

(** The stops on the entries after an order come from before or from the order. *)
Lemma place_all_stops c o a p p' r P : cfg_ok c -> Good c p -> all_stops P p ->
  (forall st, In st (order_stops a) -> P st) -> place c o a p = Ret p' r -> all_stops P p'.
Proof.
  intros K G HP HA E. pose proof (place_ok c o a p K G) as H. rewrite E in H.
  assert (X : forall p2 filled bought, 0 < a_shares a -> fill_ok c o a p filled bought p2 -> all_stops P p2).
  { intros p2 filled bought Hs HF. destruct (fill_effect _ _ _ _ _ _ _ (gd_core _ _ G) Hs HF) as [[p1 [H1 [_ H2]]]].
    pose proof (fifo_all_stops P _ _ _ _ _ _ _ H1 HP) as HP1.
    intros sd s e st Ho I. apply owns_entries in Ho.
    destruct H2 as [[_ H2]|[_ [e0 [_ [_ [_ [_ [_ [_ [_ [_ [_ [Es [_ H2]]]]]]]]]]]]]].
    - rewrite H2 in Ho. apply (HP1 sd s e); auto; now apply owns_entries.
    - rewrite H2 in Ho. destruct (side_eqb sd (opens o) && Nat.eqb s (a_sym a)).
      + apply in_app_iff in Ho. destruct Ho as [Ho|[<-|[]]].
        * apply (HP1 sd s e); auto; now apply owns_entries.
        * rewrite Es in I. apply stops_of_In in I. auto.
      + apply (HP1 sd s e); auto; now apply owns_entries. }
  inversion H; subst; auto.
  - eapply X; eauto.
  - intros sd s e st Ho I. apply owns_entries in Ho.
    change (In e (entries_of (fst (the_order c o a filled bought p2)) sd s)) in Ho. rewrite add_order_entries in Ho.
    eapply X; [eauto|eauto|apply owns_entries; exact Ho|exact I].
Qed.

(** ** [exit_position] *)
Definition exit_args (date : Z) (s : sym) (shares fill : Q) (market : Q) : oargs :=
  mkOArgs date s shares fill None None None OMarket (Some market).

Lemma no_stops_fresh o a p : a_stops a = None -> stops_fresh o a p.
Proof.
  intro E. constructor; unfold order_stops; rewrite E; cbn.
  - constructor.
  - tauto.
  - intros sd s e st st' _ _ [].
Qed.

(** One leg of [exit_position]: everything held on side [sd] is closed. *)
Definition leg (c : cfg) (date : Z) (s : sym) (o : oside) (price : Q) (sm : slip_model) (p : port) : res unit :=
  match aget s (poss (closes o) p) with
  | None => Ret p tt
  | Some pos =>
      match slip_price sm o s (ps_shares pos) price with
      | None => Raise p EInput
      | Some fill => drop (place c o (exit_args date s (ps_shares pos) fill price) p)
      end
  end.
Lemma exit_position_legs c date s bf sf sm p :
  exit_position c date s bf sf sm p =
  match leg c date s OSell sf sm p with
  | Raise p e => Raise p e
  | Ret p _ => leg c date s OBuy bf sm p
  end.
Proof.
  unfold exit_position, leg, exit_args, closes, poss.
  destruct (aget s (p_longs p)) as [pos|].
  - destruct (slip_price sm OSell s (ps_shares pos) sf) as [f|]; [|reflexivity].
    change (place c OSell) with (sell c).
    destruct (sell c _ p) as [p1 r|p1 e]; [|reflexivity]. cbn [drop].
    destruct (aget s (p_shorts p1)); [|reflexivity].
    destruct (slip_price sm OBuy s _ bf); [|reflexivity].
    change (place c OBuy) with (buy c). destruct (buy c _ p1); reflexivity.
  - destruct (aget s (p_shorts p)); [|reflexivity].
    destruct (slip_price sm OBuy s _ bf); [|reflexivity].
    change (place c OBuy) with (buy c). destruct (buy c _ p); reflexivity.
Qed.

Lemma leg_cases (P : port -> Prop) c date s o price sm p :
  cfg_ok c -> Good c p -> P p ->
  (forall a p' r, a_stops a = None -> place c o a p = Ret p' r -> P p') ->
  match leg c date s o price sm p with
  | Ret p' _ => P p' /\ Good c p'
  | Raise p' EInput => P p' /\ Good c p'
  | Raise _ e => e = EStop
  end.
Proof.
  intros K G Hp HP. unfold leg. destruct (aget s (poss (closes o) p)) as [pos|]; auto.
  destruct (slip_price sm o s (ps_shares pos) price) as [f|]; auto.
  set (a := exit_args date s (ps_shares pos) f price).
  pose proof (place_good c o a p K G) as H. destruct (place c o a p) as [p' r|p' []] eqn:E; cbn; auto.
  - split; auto. eapply (HP a); eauto.
  - subst. auto.
Qed.

Lemma exit_cases (P : port -> Prop) c date s bf sf sm p :
  cfg_ok c -> Good c p -> P p ->
  (forall o a p p' r, Good c p -> P p -> a_stops a = None -> place c o a p = Ret p' r -> P p') ->
  match exit_position c date s bf sf sm p with
  | Ret p' _ => P p' /\ Good c p'
  | Raise p' EInput => P p' /\ Good c p'
  | Raise _ e => e = EStop
  end.
Proof.
  intros K G Hp HP. rewrite exit_position_legs.
  pose proof (leg_cases P c date s OSell sf sm p K G Hp) as H1.
  destruct (leg c date s OSell sf sm p) as [p1 u|p1 []].
  - destruct H1 as [H1 G1]; [intros; eapply HP; eauto|].
    apply leg_cases; auto. intros. eapply HP; eauto.
  - apply H1. intros; eapply HP; eauto.
  - apply H1. intros; eapply HP; eauto.
  - apply H1. intros; eapply HP; eauto.
  - apply H1. intros; eapply HP; eauto.
Qed.

(** ** Histories *)
Lemma step_good c o p : cfg_ok c -> Good c p ->
  match step c o p with
  | Ret p' _ => Good c p'
  | Raise p' EInput => Good c p'
  | Raise _ _ => True
  end.
Proof.
  intros K G. destruct o as [a|a|d s b sl sm|d sc sm|d bar|hb|id|v t|ml ms]; cbn [step].
  - rewrite buy_place. pose proof (place_good c OBuy a p K G) as H. destruct (place c OBuy a p) as [p' r|p' []]; cbn; auto. now subst.
  - rewrite sell_place. pose proof (place_good c OSell a p K G) as H. destruct (place c OSell a p) as [p' r|p' []]; cbn; auto. now subst.
  - pose proof (exit_position_good c d s b sl sm p K G) as H. destruct (exit_position c d s b sl sm p) as [p' r|p' []]; auto.
  - pose proof (check_stops_ok c d sc sm p K G) as H. destruct (check_stops c d sc sm p) as [p' r|p' []]; auto.
    + destruct H as [evs [H _]]. apply H.
    + destruct H as [H _]. congruence.
  - now apply capture_good.
  - now apply incr_good.
  - now apply remove_stop_good.
  - now apply remove_stops_good.
  - destruct G as [HC HN HL]. constructor.
    + apply (core_pointwise [] p); auto; try (intros []; reflexivity).
      intros sd s pos' E. exists pos'. assert (E' : aget s (poss sd p) = Some pos') by (destruct sd; exact E).
      split; auto. split; [eapply co_pos; eauto|]. split; [reflexivity|lra].
    + intros sd s pos Hg. assert (E' : aget s (poss sd p) = Some pos) by (destruct sd; exact Hg). eauto.
    + destruct HL. constructor; auto.
Qed.

Lemma fold_exec_none c ops : fold_left (exec c) ops None = None.
Proof. induction ops; cbn; auto. Qed.

(** Induction over histories, from the left. *)
Lemma run_ind c (P : list op -> port -> Prop) :
  P [] (init c) ->
  (forall ops p o p', run c ops = Some p -> P ops p -> exec c (Some p) o = Some p' -> P (ops ++ [o]) p') ->
  forall ops p, run c ops = Some p -> P ops p.
Proof.
  intros H0 HS ops. induction ops as [|o ops IH] using rev_ind; intros p H.
  - cbn in H. injection H as <-. auto.
  - unfold run in *. rewrite fold_left_app in H. cbn in H.
    destruct (fold_left (exec c) ops (Some (init c))) as [q|] eqn:E; [|discriminate].
    eapply HS; eauto.
Qed.

Theorem run_good c ops p : cfg_ok c -> run c ops = Some p -> Good c p.
Proof.
  intros K. apply (run_ind c (fun _ p => Good c p)); [now apply init_good|].
  intros ops' q o p' _ G E. pose proof (step_good c o q K G) as H. unfold exec in E.
  destruct (step c o q) as [p1 u|p1 []]; try discriminate; injection E as <-; auto.
Qed.

(** Stops under one operation. *)
Definition op_fresh (o : op) (p : port) : Prop :=
  match o with OpBuy a => stops_fresh OBuy a p | OpSell a => stops_fresh OSell a p | _ => True end.

Lemma step_stop c o p : cfg_ok c -> Good c p -> StopInv p -> op_fresh o p ->
  match step c o p with
  | Ret p' _ => StopInv p'
  | Raise p' EInput => StopInv p'
  | Raise _ _ => True
  end.
Proof.
  intros K G HS HF. destruct o as [a|a|d s b sl sm|d sc sm|d bar|hb|id|v t|ml ms]; cbn [step op_fresh] in *.
  - rewrite buy_place. pose proof (place_good c OBuy a p K G) as H.
    destruct (place c OBuy a p) as [p' r|p' []] eqn:E; cbn; auto; [exact (place_stop c _ a p p' r K G HS HF E)|now subst].
  - rewrite sell_place. pose proof (place_good c OSell a p K G) as H.
    destruct (place c OSell a p) as [p' r|p' []] eqn:E; cbn; auto; [exact (place_stop c _ a p p' r K G HS HF E)|now subst].
  - pose proof (exit_cases StopInv c d s b sl sm p K G HS) as H.
    assert (X : forall o a p0 p' r, Good c p0 -> StopInv p0 -> a_stops a = None -> place c o a p0 = Ret p' r -> StopInv p').
    { intros o a p0 p' r G0 S0 E0 E. eapply place_stop; eauto. now apply no_stops_fresh. }
    specialize (H X). destruct (exit_position c d s b sl sm p) as [p' r|p' []]; auto; apply H.
  - pose proof (check_stops_ok c d sc sm p K G) as H. destruct (check_stops c d sc sm p) as [p' r|p' []]; auto.
    + destruct H as [evs [_ H]]. apply (H HS).
    + destruct H as [H _]. congruence.
  - now apply capture_stop.
  - apply incr_stop; auto. apply G.
  - apply remove_stop_stop; auto. apply G.
  - apply (remove_stops_effect p v t (gd_core _ _ G) HS).
  - apply (stop_ext p); auto; intros []; reflexivity.
Qed.

Lemma step_all_stops c o p P : cfg_ok c -> Good c p -> all_stops P p -> (forall st, In st (op_stops o) -> P st) ->
  match step c o p with
  | Ret p' _ => all_stops P p'
  | Raise p' EInput => all_stops P p'
  | Raise _ _ => True
  end.
Proof.
  assert (SUB : forall q q', all_stops P q -> (forall sd s e' st, In e' (entries_of q' sd s) -> In st (e_stops e') ->
     exists e, In e (entries_of q sd s) /\ In st (e_stops e)) -> all_stops P q').
  { intros q q' H HH sd s e st Ho I. apply owns_entries in Ho. destruct (HH _ _ _ _ Ho I) as [e0 [A B]].
    apply (H sd s e0); auto. now apply owns_entries. }
  assert (MAP : forall q f, all_stops P q -> (forall e st, In st (e_stops (f e)) -> In st (e_stops e)) -> all_stops P (map_entries f q)).
  { intros q f H HH. apply (SUB q); auto. intros sd s e' st I J. rewrite map_entries_of in I.
    apply in_map_iff in I. destruct I as [e [<- I]]. eauto. }
  assert (SBS : forall q q', same_but_stops q q' -> all_stops P q -> all_stops P q').
  { intros q q' S H. apply (SUB q); auto. intros sd s e' st I J. exists e'. split; auto.
    unfold entries_of in *. now rewrite <- (sb_poss _ _ S). }
  assert (CUT : forall id l st, In st (remove_stop_id id l) -> In st l).
  { intros id l st. induction l as [|x r IH]; cbn; auto. destruct (Nat.eqb (st_id x) id); cbn; auto. intros [|]; auto. }
  assert (RS : forall id q, all_stops P q -> all_stops P (fst (remove_stop id q))).
  { intros id q H. unfold remove_stop. destruct (aget id (p_stop_data q)) as [d|]; cbn.
    - apply MAP; [eapply SBS; [apply pop_stop_sbs|auto]|]. intros e st. destruct (Nat.eqb (e_id e) (sd_entry d)); cbn; eauto.
    - destruct (find _ (all_entries q)) as [e0|]; auto. cbn. apply MAP; auto.
      intros e st. destruct (Nat.eqb (e_id e) (e_id e0)); cbn; eauto. }
  assert (RE : forall e t q, all_stops P q -> all_stops P (remove_entry_stops e t q)).
  { intros e t q H. unfold remove_entry_stops. destruct t as [t|].
    - destruct (find _ (e_stops e)); auto.
    - apply MAP; [eapply SBS; [apply remove_stop_data_sbs|auto]|]. intros x st. destruct (Nat.eqb (e_id x) (e_id e)); cbn; tauto. }
  assert (RP : forall pos t q, all_stops P q -> all_stops P (remove_position_stops pos t q)).
  { intros pos t q. unfold remove_position_stops. revert q. induction (ps_entries pos); cbn; auto. }
  intros K G HP HF. destruct o as [a|a|d s b sl sm|d sc sm|d bar|hb|id|v t|ml ms]; cbn [step op_stops] in *.
  - rewrite buy_place. pose proof (place_good c OBuy a p K G) as H.
    destruct (place c OBuy a p) as [p' r|p' []] eqn:E; cbn; auto; [exact (place_all_stops c _ a p p' r P K G HP HF E)|now subst].
  - rewrite sell_place. pose proof (place_good c OSell a p K G) as H.
    destruct (place c OSell a p) as [p' r|p' []] eqn:E; cbn; auto; [exact (place_all_stops c _ a p p' r P K G HP HF E)|now subst].
  - pose proof (exit_cases (all_stops P) c d s b sl sm p K G HP) as H.
    assert (X : forall o a p0 p' r, Good c p0 -> all_stops P p0 -> a_stops a = None -> place c o a p0 = Ret p' r -> all_stops P p').
    { intros o a p0 p' r G0 S0 E0 E. eapply place_all_stops; eauto. unfold order_stops. rewrite E0. intros st []. }
    specialize (H X). destruct (exit_position c d s b sl sm p) as [p' r|p' []]; auto; apply H.
  - pose proof (check_stops_ok c d sc sm p K G) as H. destruct (check_stops c d sc sm p) as [p' r|p' []]; auto.
    + destruct H as [evs [H _]]. apply (SUB p); auto. intros sd s e' st I J. rewrite (so_ent _ _ _ _ _ _ _ H) in I.
      apply filter_In in I. destruct I. eauto.
    + destruct H as [H _]. congruence.
  - apply (SUB p); auto. intros sd s e' st I J. rewrite (capture_entries c d bar p sd s K G) in I.
    apply in_map_iff in I. destruct I as [e [<- I]]. exists e. split; auto.
    unfold mark_entry in J. destruct (bar s) as [[[close low] high]|]; auto.
    destruct (entry_mark_same sd low high e) as [_ [_ [_ [E _]]]]. now rewrite E in J.
  - apply (SUB p); auto. intros sd s e' st I J. rewrite incr_entries in I by apply G.
    apply in_map_iff in I. destruct I as [e [<- I]]. exists e. split; auto. now rewrite incr_entry_stops in J.
  - auto.
  - unfold remove_stops. destruct v as [s|sd s|eid].
    + assert (Y : forall sd q, all_stops P q -> all_stops P match aget s (poss sd q) with Some pos => remove_position_stops pos t q | None => q end).
      { intros sd q Hq. destruct (aget s (poss sd q)); auto. }
      apply (Y Short), (Y Long). auto.
    + destruct (aget s (poss sd p)); auto.
    + destruct (find _ (all_entries p)); auto.
  - apply (SUB p); auto. intros sd s e' st I J. exists e'. split; auto; destruct sd; exact I.
Qed.

Lemma wf_snoc ops o : stops_wf (ops ++ [o]) -> stops_wf ops.
Proof.
  intros [ND FA]. rewrite flat_map_app, map_app in ND. apply Forall_app in FA. split; [eapply NoDup_app_left; eauto|apply FA].
Qed.
Lemma wf_fresh ops o q : stops_wf (ops ++ [o]) ->
  all_stops (fun st => In (st_id st) (map st_id (flat_map op_stops ops))) q -> op_fresh o q.
Proof.
  intros [ND FA] HA.
  rewrite flat_map_app, map_app in ND. cbn in ND. rewrite app_nil_r in ND.
  apply Forall_app in FA. destruct FA as [FA1 FA2]. inversion FA2 as [|? ? Hm _]; subst.
  assert (ND2 : NoDup (map st_id (op_stops o))) by (eapply NoDup_app_right; eauto).
  assert (DJ : forall x, In x (map st_id (flat_map op_stops ops)) -> In x (map st_id (op_stops o)) -> False).
  { clear - ND. induction (map st_id (flat_map op_stops ops)) as [|y r IH]; cbn in *; [tauto|].
    inversion ND as [|? ? Hn Hr]; subst. intros x [->|I] J; eauto. apply Hn. apply in_app_iff. auto. }
  destruct o; cbn in *; auto; constructor; auto;
  intros sd s e st st' Ho I I' Eq; apply (DJ (st_id st')); [rewrite <- Eq; eapply HA; eauto|now apply in_map|rewrite <- Eq; eapply HA; eauto|now apply in_map].
Qed.
Lemma run_stop_all c ops p : cfg_ok c -> run c ops = Some p -> stops_wf ops ->
  StopInv p /\ all_stops (fun st => In (st_id st) (map st_id (flat_map op_stops ops))) p.
Proof.
  intros K H. revert ops p H. apply (run_ind c (fun ops p => stops_wf ops -> StopInv p /\ all_stops (fun st => In (st_id st) (map st_id (flat_map op_stops ops))) p)).
  - intros _. split; [apply init_stop|]. intros sd s e st [q [E _]]. destruct sd; discriminate.
  - intros ops q o p' Hq IH E W. destruct (IH (wf_snoc _ _ W)) as [HS HA]. pose proof (run_good c ops q K Hq) as G.
    pose proof (wf_fresh _ _ _ W HA) as OF.
    pose proof (step_stop c o q K G HS OF) as H1.
    pose proof (step_all_stops c o q (fun st => In (st_id st) (map st_id (flat_map op_stops (ops ++ [o])))) K G) as H2.
    assert (A1 : all_stops (fun st => In (st_id st) (map st_id (flat_map op_stops (ops ++ [o])))) q).
    { intros sd s e st Ho I. rewrite flat_map_app, map_app. apply in_app_iff. left. eapply HA; eauto. }
    assert (A2 : forall st, In st (op_stops o) -> In (st_id st) (map st_id (flat_map op_stops (ops ++ [o])))).
    { intros st I. rewrite flat_map_app, map_app. apply in_app_iff. right. apply in_map. cbn. rewrite app_nil_r. auto. }
    specialize (H2 A1 A2). unfold exec in E.
    destruct (step c o q) as [p1 u|p1 []]; try discriminate; injection E as <-; auto.
Qed.
Theorem run_stop c ops p : cfg_ok c -> stops_wf ops -> run c ops = Some p -> StopInv p.
Proof. intros K W H. now destruct (run_stop_all c ops p K H W). Qed.
