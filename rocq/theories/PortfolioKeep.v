(** Operations that change no money: [capture_bar], [incr_bars], [remove_stop],
    [remove_stops] and the caps keep the invariants. *)
From Verif Require Export PortfolioFinish PortfolioCapture.

(** ** Position-wise maps *)
Record alike (e e' : entry) : Prop := mkAlike {
  ak_id : e_id e' = e_id e; ak_sym : e_sym e' = e_sym e; ak_type : e_type e' = e_type e;
  ak_price : e_price e' = e_price e; ak_shares : e_shares e' = e_shares e;
  ak_mae : e_mae e' = e_mae e; ak_mfe : e_mfe e' = e_mfe e; ak_date : e_date e' = e_date e
}.
Lemma alike_refl e : alike e e.
Proof. constructor; reflexivity. Qed.

(** Same position up to its entries and bar count. *)
Record pos_alike (pos pos' : position) : Prop := mkPA {
  pa_sym : ps_sym pos' = ps_sym pos; pa_type : ps_type pos' = ps_type pos;
  pa_shares : ps_shares pos' = ps_shares pos; pa_notional : ps_notional pos' = ps_notional pos;
  pa_marked : marked_value pos' = marked_value pos;
  pa_entries : Forall2 alike (ps_entries pos) (ps_entries pos')
}.

Lemma Forall2_map_eq {A B} (R : A -> A -> Prop) (f : A -> B) l l' :
  (forall a a', R a a' -> f a' = f a) -> Forall2 R l l' -> map f l' = map f l.
Proof. intros H. induction 1; cbn; f_equal; auto. Qed.

Lemma pos_alike_ok z sd s pos pos' : pos_alike pos pos' -> pos_ok z sd s pos -> pos_ok z sd s pos'.
Proof.
  intros [a1 a2 a3 a4 a5 a6] [h1 h2 h3 h4 h5 h6].
  constructor; try congruence.
  - rewrite a3, h3. rewrite (Forall2_map_eq alike e_shares _ _ ak_shares a6). reflexivity.
  - rewrite a4, h4. rewrite (Forall2_map_eq alike (fun e => e_shares e * e_price e) _ _) with (2 := a6); [reflexivity|].
    intros x y []. congruence.
  - rewrite (Forall2_map_eq alike e_id _ _ ak_id a6). exact h5.
  - intros e' I'. clear - a6 h6 I'. induction a6 as [|x y l l' Hxy Hl IH]; [destruct I'|].
    destruct I' as [<-|I'].
    + destruct (h6 x (or_introl eq_refl)) as [f1 f2 f3 f4 f5 f6 f7]. destruct Hxy.
      constructor; rewrite ?ak_id0, ?ak_sym0, ?ak_type0, ?ak_price0, ?ak_shares0, ?ak_mae0, ?ak_mfe0; auto.
    + apply IH; auto. intros e I. apply h6. now right.
Qed.

Definition mapv (g : position -> position) (d : list (sym * position)) : list (sym * position) :=
  map (fun kv => (fst kv, g (snd kv))) d.
Lemma mapv_keys g d : akeys (mapv g d) = akeys d.
Proof. unfold akeys, mapv. rewrite map_map. reflexivity. Qed.
Lemma mapv_get g d s : aget s (mapv g d) = option_map g (aget s d).
Proof. unfold mapv. induction d as [|[k v] r IH]; cbn; auto. destruct (Nat.eqb s k); auto. Qed.
Lemma mapv_marked g d : (forall s pos, aget s d = Some pos -> marked_value (g pos) = marked_value pos) ->
  NoDup (akeys d) -> total_marked (mapv g d) = total_marked d.
Proof.
  unfold total_marked, avals, mapv. intros H ND. rewrite !map_map. cbn. f_equal.
  apply map_ext_in. intros [k v] I. cbn. apply (H k). now apply In_aget.
Qed.

Lemma good_mapv c g p p' :
  Good c p -> same_acct p p' -> (forall sd, poss sd p' = mapv g (poss sd p)) ->
  p_symbols p' = p_symbols p -> p_clong p' = p_clong p -> p_cshort p' = p_cshort p ->
  (forall sd s pos, aget s (poss sd p) = Some pos -> pos_alike pos (g pos)) -> Good c p'.
Proof.
  intros [HC HN HL] S P Y C1 C2 A.
  assert (X : forall sd s pos', aget s (poss sd p') = Some pos' ->
     exists pos, aget s (poss sd p) = Some pos /\ pos_ok [] sd s pos' /\
       map e_id (ps_entries pos') = map e_id (ps_entries pos) /\
       ps_notional pos' == ps_notional pos).
  { intros sd s pos' E. rewrite P, mapv_get in E. destruct (aget s (poss sd p)) as [pos|] eqn:Hg; [|discriminate].
    injection E as <-. exists pos. pose proof (A _ _ _ Hg) as Ha. split; auto. split.
    - eapply pos_alike_ok; eauto. eapply co_pos; eauto.
    - split; [apply (Forall2_map_eq alike e_id _ _ ak_id), Ha|]. rewrite (pa_notional _ _ Ha). lra. }
  constructor.
  - apply (core_pointwise [] p); auto.
    + intro sd. rewrite P. apply mapv_keys.
    + apply (sa_entry_id _ _ S).
    + apply (sa_en _ _ S).
  - apply (nonempty_pointwise None p); auto. intros sd s pos' E. destruct (X _ _ _ E) as [pos [E1 [_ [E2 _]]]]. eauto.
  - apply (led_ext c dzero p); auto.
    + assert (HH : forall sd s, held sd p' s = held sd p s).
      { intros sd s. unfold held. rewrite P, mapv_get. destruct (aget s (poss sd p)) as [pos|] eqn:Hg; auto. cbn.
        apply (pa_shares _ _ (A _ _ _ Hg)). }
      intro s. unfold net_held. rewrite !HH. lra.
    + destruct (ld_cache _ _ _ HL) as [K1 K2].
      assert (T : forall sd, total_marked (poss sd p') = total_marked (poss sd p)).
      { intro sd. rewrite P. apply mapv_marked; [|apply (co_nodup _ _ HC)].
        intros s pos Hg. apply (pa_marked _ _ (A _ _ _ Hg)). }
      split; intros v Hv; [rewrite C1 in Hv|rewrite C2 in Hv].
      * pose proof (T Long) as TL. cbn [poss] in TL. rewrite TL. auto.
      * pose proof (T Short) as TS. cbn [poss] in TS. rewrite TS. auto.
Qed.

Lemma Forall2_map_r {A} (R : A -> A -> Prop) f (l : list A) :
  (forall x, In x l -> R x (f x)) -> Forall2 R l (map f l).
Proof. induction l as [|x r IH]; cbn; intro H; constructor; auto. Qed.

(** ** [incr_bars] *)
Lemma incr_entry_alike hb e : alike e (incr_entry hb e).
Proof. unfold incr_entry. destruct hb; constructor; reflexivity. Qed.
Lemma incr_entry_stops hb e : e_stops (incr_entry hb e) = e_stops e.
Proof. unfold incr_entry. destruct hb; reflexivity. Qed.

Lemma incr_poss hb p sd : poss sd (incr_bars hb p) = mapv (incr_pos hb) (poss sd p).
Proof. destruct sd; reflexivity. Qed.
Lemma incr_acct hb p : same_acct p (incr_bars hb p).
Proof. constructor; try reflexivity; intros []; reflexivity. Qed.

Lemma incr_good c hb p : Good c p -> Good c (incr_bars hb p).
Proof.
  intro G. apply (good_mapv c (incr_pos hb) p); auto.
  - apply incr_acct.
  - apply incr_poss.
  - intros sd s pos Hg. constructor; try reflexivity. cbn. apply Forall2_map_r. intros. apply incr_entry_alike.
Qed.

Lemma incr_entries hb p sd s : Core [] p ->
  entries_of (incr_bars hb p) sd s = map (incr_entry (hb s)) (entries_of p sd s).
Proof.
  intro HC. unfold entries_of. rewrite incr_poss, mapv_get. destruct (aget s (poss sd p)) as [pos|] eqn:Hg; auto.
  cbn. now rewrite (po_sym _ _ _ _ (co_pos _ _ HC _ _ _ Hg)).
Qed.

Lemma stop_map p p' (f : side -> sym -> entry -> entry) :
  (forall sd s, entries_of p' sd s = map (f sd s) (entries_of p sd s)) ->
  (forall sd s e, In e (entries_of p sd s) -> same_stops e (f sd s e)) ->
  p_active p' = p_active p -> p_stop_data p' = p_stop_data p -> StopInv p -> StopInv p'.
Proof.
  intros E F A D H. apply (stop_pointwise p); auto.
  - intros sd s e' Ho. apply owns_entries in Ho. rewrite E in Ho. apply in_map_iff in Ho.
    destruct Ho as [e [<- I]]. exists e. split; [now apply owns_entries|auto].
  - intros sd s e Ho. apply owns_entries in Ho. exists (f sd s e). split; [|auto].
    apply owns_entries. rewrite E. now apply in_map.
  - now rewrite D.
  - intros id d Hd. rewrite D. eauto.
Qed.

Lemma incr_stop hb p : Core [] p -> StopInv p -> StopInv (incr_bars hb p).
Proof.
  intros HC. apply (stop_map p _ (fun sd s => incr_entry (hb s))); try reflexivity.
  - intros. now apply incr_entries.
  - intros sd s e _. split; [apply incr_entry_alike|apply incr_entry_stops].
Qed.

(** ** [capture_bar] *)
Lemma capture_good c date bar p : cfg_ok c -> Good c p -> Good c (capture_bar c date bar p).
Proof.
  intros K G. pose proof (capture_ok c date bar p K G) as H. destruct G as [HC HN HL].
  set (p' := capture_bar c date bar p) in *. clearbody p'.
  assert (X : forall sd s pos', aget s (poss sd p') = Some pos' ->
     exists pos, aget s (poss sd p) = Some pos /\ pos_ok [] sd s pos' /\
       map e_id (ps_entries pos') = map e_id (ps_entries pos) /\
       ps_notional pos' == ps_notional pos).
  { intros sd s pos' E. rewrite (ca_pos _ _ _ _ _ H) in E. destruct (aget s (poss sd p)) as [pos|] eqn:Hg; [|discriminate].
    injection E as <-. exists pos. destruct (mark_pos_ok sd s (bar s) pos (co_pos _ _ HC _ _ _ Hg)) as [A1 [A2 [A3 A4]]].
    split; auto. split; auto. split; auto. rewrite A3. lra. }
  constructor.
  - apply (core_pointwise [] p); auto; apply H.
  - apply (nonempty_pointwise None p); auto. intros sd s pos' E. destruct (X _ _ _ E) as [pos [E1 [_ [E2 _]]]]. eauto.
  - destruct H, HL. constructor; rewrite ?ca_orders, ?ca_oid, ?ca_trades, ?ca_tid, ?ca_pnl, ?ca_fees, ?ca_wins; auto.
    + intro s. rewrite ld_net. assert (HH : forall sd, held sd p' s = held sd p s).
      { intros sd. unfold held. rewrite ca_pos. destruct (aget s (poss sd p)) as [pos|] eqn:Hg; auto. cbn.
        apply (mark_pos_ok sd s (bar s) pos (co_pos _ _ HC _ _ _ Hg)). }
      unfold net_held. rewrite !HH. lra.
    + rewrite !ca_en. destruct ca_bars as [b [B1 [B2 [B3 [B4 [B5 [B6 [B7 B8]]]]]]]].
      unfold interest_total. rewrite B1, map_app, Qsum_app. cbn [map Qsum]. fold (interest_total c (p_bars p)).
      rewrite B7. change (p_cash p' - margin_loan c p') with (net_cash c p').
      change (p_cash p - margin_loan c p) with (net_cash c p) in ld_money.
      pose proof (bar_rate_nonneg c K) as R0. rewrite ca_net.
      assert (E : bar_rate c / (1 + bar_rate c) * (net_cash c p * (1 + bar_rate c)) == bar_rate c * net_cash c p)
        by (field; lra). rewrite E. lra.
    + apply total_cache_none; auto.
Qed.

Lemma mark_entries sd bar pos :
  ps_entries (mark sd bar pos) = match bar with
    | Some (close, low, high) => map (entry_mark (ps_type pos) low high) (ps_entries pos)
    | None => ps_entries pos end.
Proof. destruct bar as [[[close low] high]|]; destruct sd; reflexivity. Qed.

Definition mark_entry (bar : bar_fn) (sd : side) (s : sym) (e : entry) : entry :=
  match bar s with Some (_, low, high) => entry_mark sd low high e | None => e end.

Lemma capture_entries c date bar p sd s : cfg_ok c -> Good c p ->
  entries_of (capture_bar c date bar p) sd s = map (mark_entry bar sd s) (entries_of p sd s).
Proof.
  intros K G. pose proof (capture_ok c date bar p K G) as H.
  unfold entries_of, mark_entry. rewrite (ca_pos _ _ _ _ _ H). destruct (aget s (poss sd p)) as [pos|] eqn:Hg; auto.
  cbn [option_map]. rewrite mark_entries. destruct (bar s) as [[[close low] high]|]; [|now rewrite map_id].
  now rewrite (po_type _ _ _ _ (co_pos _ _ (gd_core _ _ G) _ _ _ Hg)).
Qed.

Lemma capture_stop c date bar p : cfg_ok c -> Good c p -> StopInv p -> StopInv (capture_bar c date bar p).
Proof.
  intros K G. pose proof (capture_ok c date bar p K G) as H.
  apply (stop_map p _ (mark_entry bar)); [|..|apply H|apply H].
  - intros. now apply capture_entries.
  - intros sd s e _. unfold mark_entry. destruct (bar s) as [[[close low] high]|]; [|split; reflexivity].
    split; apply entry_mark_same.
Qed.

(** ** Removing stops *)
Lemma map_entries_poss f p sd :
  poss sd (map_entries f p) = mapv (fun pos => set_ps_entries (map f (ps_entries pos)) pos) (poss sd p).
Proof. destruct sd; reflexivity. Qed.
Lemma map_entries_of f p sd s : entries_of (map_entries f p) sd s = map f (entries_of p sd s).
Proof.
  unfold entries_of. rewrite map_entries_poss, mapv_get. destruct (aget s (poss sd p)); reflexivity.
Qed.
Lemma map_entries_acct f p : same_acct p (map_entries f p).
Proof. constructor; try reflexivity; intros []; reflexivity. Qed.
Lemma map_entries_good c f p : (forall e, alike e (f e)) -> Good c p -> Good c (map_entries f p).
Proof.
  intros F G. eapply good_mapv; [exact G|apply map_entries_acct|intro; apply map_entries_poss|reflexivity..|].
  intros sd s pos _. constructor; try reflexivity. cbn. apply Forall2_map_r. auto.
Qed.
Lemma good_sbs c p p' : same_but_stops p p' -> Good c p -> Good c p'.
Proof.
  intros S [HC HN HL]. constructor.
  - eapply core_sbs; eauto.
  - intros sd s pos Hg. rewrite (sb_poss _ _ S) in Hg. eauto.
  - eapply led_sbs; eauto.
Qed.

Lemma set_stops_alike (b : entry -> bool) (f : entry -> list stop) e :
  alike e (if b e then set_e_stops (f e) e else e).
Proof. destruct (b e); constructor; reflexivity. Qed.

Lemma remove_stop_good c id p : Good c p -> Good c (fst (remove_stop id p)).
Proof.
  intro G. unfold remove_stop. destruct (aget id (p_stop_data p)) as [d|]; cbn.
  - apply map_entries_good; [apply (fun e => set_stops_alike (fun e => Nat.eqb (e_id e) _) (fun e => remove_stop_id id (e_stops e)) e)|].
    eapply good_sbs; [apply pop_stop_sbs|auto].
  - destruct (find _ (all_entries p)) as [e0|]; auto. cbn.
    apply map_entries_good; [apply (fun e => set_stops_alike (fun e => Nat.eqb (e_id e) _) (fun e => remove_stop_id id (e_stops e)) e)|auto].
Qed.
Lemma remove_entry_stops_good c e t p : Good c p -> Good c (remove_entry_stops e t p).
Proof.
  intro G. unfold remove_entry_stops. destruct t as [t|].
  - destruct (find _ (e_stops e)); auto. now apply remove_stop_good.
  - apply map_entries_good; [apply (fun x => set_stops_alike (fun e => Nat.eqb (e_id e) _) (fun _ => []) x)|].
    eapply good_sbs; [apply remove_stop_data_sbs|auto].
Qed.
Lemma remove_position_stops_good c pos t p : Good c p -> Good c (remove_position_stops pos t p).
Proof.
  unfold remove_position_stops. revert p. induction (ps_entries pos) as [|e r IH]; cbn; auto.
  intros p G. apply IH. now apply remove_entry_stops_good.
Qed.
Lemma remove_stops_good c v t p : Good c p -> Good c (remove_stops v t p).
Proof.
  intro G. unfold remove_stops.
  assert (P : forall sd s q, Good c q -> Good c match aget s (poss sd q) with
       | Some pos => remove_position_stops pos t q | None => q end).
  { intros sd s q Gq. destruct (aget s (poss sd q)); auto. now apply remove_position_stops_good. }
  destruct v as [s|sd s|eid].
  - now apply P, P.
  - now apply P.
  - destruct (find _ (all_entries p)); auto. now apply remove_entry_stops_good.
Qed.

(** Some stops vanish from entries and registries alike. *)
Lemma stop_filter p p' f (rm : nat -> bool) :
  StopInv p -> (forall sd s, entries_of p' sd s = map f (entries_of p sd s)) ->
  (forall sd s e, owns p sd s e -> e_id (f e) = e_id e /\ NoDup (map st_id (e_stops (f e))) /\
     forall st, In st (e_stops (f e)) <-> In st (e_stops e) /\ rm (st_id st) = false) ->
  RegInv p' ->
  (forall id, aget id (p_stop_data p') = if rm id then None else aget id (p_stop_data p)) ->
  StopInv p'.
Proof.
  intros [R O N U G H] E F R' D.
  assert (OB : forall sd s e', owns p' sd s e' -> exists e, owns p sd s e /\ e' = f e).
  { intros sd s e' Ho. apply owns_entries in Ho. rewrite E in Ho. apply in_map_iff in Ho.
    destruct Ho as [e [<- I]]. exists e. split; [now apply owns_entries|auto]. }
  assert (OF : forall sd s e, owns p sd s e -> owns p' sd s (f e)).
  { intros sd s e Ho. apply owns_entries. rewrite E. apply in_map. now apply owns_entries. }
  constructor; auto.
  - intros sd s e' st Ho I. destruct (OB _ _ _ Ho) as [e [Oe ->]]. destruct (F _ _ _ Oe) as [F1 [F2 F3]].
    apply F3 in I. destruct I as [I _]. eauto.
  - intros sd s e' Ho. destruct (OB _ _ _ Ho) as [e [Oe ->]]. now destruct (F _ _ _ Oe) as [F1 [F2 F3]].
  - intros sd1 s1 e1 st1 sd2 s2 e2 st2 O1 I1 O2 I2 Eq.
    destruct (OB _ _ _ O1) as [f1 [P1 ->]], (OB _ _ _ O2) as [f2 [P2 ->]].
    destruct (F _ _ _ P1) as [A1 [A2 A3]], (F _ _ _ P2) as [B1 [B2 B3]].
    apply A3 in I1. apply B3 in I2. rewrite A1, B1. destruct I1, I2. eauto.
  - intros id d Hd. rewrite D in Hd. destruct (rm id) eqn:Er; [discriminate|].
    destruct (G _ _ Hd) as [G1 [G2 [e [G3 [G4 G5]]]]]. split; auto. split; auto.
    exists (f e). split; auto. destruct (F _ _ _ G3) as [F1 [F2 F3]]. rewrite F1. split; auto.
    apply F3. split; auto. now rewrite G1.
  - intros sd s e' st Ho I T. destruct (OB _ _ _ Ho) as [e [Oe ->]]. destruct (F _ _ _ Oe) as [F1 [F2 F3]].
    apply F3 in I. destruct I as [I Er]. destruct (H _ _ _ _ Oe I T) as [d [H1 [H2 H3]]].
    exists d. rewrite D, Er, F1. auto.
Qed.

Lemma remove_stop_id_In id l st : NoDup (map st_id l) ->
  (In st (remove_stop_id id l) <-> In st l /\ st_id st <> id).
Proof.
  induction l as [|x r IH]; cbn; intro ND; [tauto|]. inversion ND as [|? ? Hn Hr]; subst.
  destruct (Nat.eqb_spec (st_id x) id) as [<-|Ne].
  - split; [|intros [[<-|I] N]; [congruence|auto]].
    intro I. split; auto. intro Eq. apply Hn. rewrite <- Eq. now apply in_map.
  - cbn. rewrite IH by auto. split; [intros [<-|[I N]]; auto|intros [[<-|I] N]; auto].
Qed.
Lemma remove_stop_id_nd id l : NoDup (map st_id l) -> NoDup (map st_id (remove_stop_id id l)).
Proof.
  intro ND. induction l as [|x r IH]; cbn; auto. cbn in ND. inversion ND as [|? ? Hn Hr]; subst.
  destruct (Nat.eqb (st_id x) id); auto. cbn. constructor; auto.
  intro I. apply in_map_iff in I. destruct I as [y [Ey Iy]]. apply remove_stop_id_In in Iy; auto.
  apply Hn. rewrite <- Ey. apply in_map. tauto.
Qed.
Lemma remove_stop_id_notin id l : ~ In id (map st_id l) -> remove_stop_id id l = l.
Proof.
  induction l as [|x r IH]; cbn; intro N; auto. destruct (Nat.eqb_spec (st_id x) id); [tauto|].
  rewrite IH; auto.
Qed.
Lemma has_stop_id_true id l : has_stop_id id l = true <-> In id (map st_id l).
Proof.
  unfold has_stop_id. rewrite existsb_exists, in_map_iff. split; intros [x [A B]]; exists x.
  - apply Nat.eqb_eq in B. auto.
  - split; auto. now apply Nat.eqb_eq.
Qed.

Lemma all_entries_owns z p e : Core z p -> (In e (all_entries p) <-> exists sd s, owns p sd s e).
Proof.
  intro HC. unfold all_entries. rewrite in_concat. setoid_rewrite in_map_iff. split.
  - intros [x [[[k pos] [<- I]] Ie]]. cbn in Ie. apply in_app_iff in I. destruct I as [I|I].
    + exists Long, k, pos. split; auto. apply In_aget; auto. apply (co_nodup _ _ HC Long).
    + exists Short, k, pos. split; auto. apply In_aget; auto. apply (co_nodup _ _ HC Short).
  - intros [sd [s [pos [Hg Ie]]]]. exists (ps_entries pos). split; auto. exists (s, pos). split; auto.
    apply in_app_iff. apply aget_In in Hg. destruct sd; auto.
Qed.

Definition cut_stop (eid id : nat) (x : entry) : entry :=
  if Nat.eqb (e_id x) eid then set_e_stops (remove_stop_id id (e_stops x)) x else x.

(** Removing an attached stop by its id. *)
Lemma remove_stop_effect p sd s e st :
  Core [] p -> StopInv p -> owns p sd s e -> In st (e_stops e) ->
  let p' := fst (remove_stop (st_id st) p) in
  snd (remove_stop (st_id st) p) = true /\
  (forall sd' s', entries_of p' sd' s' = map (cut_stop (e_id e) (st_id st)) (entries_of p sd' s')) /\
  (forall id, aget id (p_stop_data p') = if Nat.eqb id (st_id st) then None else aget id (p_stop_data p)) /\
  Core [] p' /\ StopInv p'.
Proof.
  intros HC HS Ho I. cbn zeta.
  assert (CoreMap : forall eid q, Core [] q -> Core [] (map_entries (cut_stop eid (st_id st)) q)).
  { intros eid q HCq. apply (core_pointwise [] q); auto.
    - intro sd'. rewrite map_entries_poss. apply mapv_keys.
    - intros sd' s' pos' E. rewrite map_entries_poss, mapv_get in E.
      destruct (aget s' (poss sd' q)) as [pos|] eqn:Hg; [|discriminate]. injection E as <-.
      exists pos. split; auto.
      assert (PA : pos_alike pos (set_ps_entries (map (cut_stop eid (st_id st)) (ps_entries pos)) pos)).
      { constructor; try reflexivity. cbn. apply Forall2_map_r. intros x _.
        apply (set_stops_alike (fun e => Nat.eqb (e_id e) eid) (fun e => remove_stop_id (st_id st) (e_stops e)) x). }
      split; [eapply pos_alike_ok; eauto; eapply co_pos; eauto|].
      split; [apply (Forall2_map_eq alike e_id _ _ ak_id), PA|reflexivity]. }
  assert (Cut : forall sd0 s0 x, owns p sd0 s0 x -> e_id (cut_stop (e_id e) (st_id st) x) = e_id x /\
     NoDup (map st_id (e_stops (cut_stop (e_id e) (st_id st) x))) /\
     forall t, In t (e_stops (cut_stop (e_id e) (st_id st) x)) <-> In t (e_stops x) /\ Nat.eqb (st_id t) (st_id st) = false).
  { intros sd0 s0 x Hx. pose proof (si_nd _ HS _ _ _ Hx) as ND. unfold cut_stop.
    destruct (Nat.eqb_spec (e_id x) (e_id e)) as [Eq|Ne].
    - cbn. split; auto. split; [now apply remove_stop_id_nd|]. intro t.
      rewrite remove_stop_id_In, Nat.eqb_neq by auto. tauto.
    - split; auto. split; auto. intro t. rewrite Nat.eqb_neq. split; [|tauto]. intro It. split; auto.
      intro Eq. apply Ne. eapply si_uniq; [exact HS|exact Hx|exact It|exact Ho|exact I|exact Eq]. }
  unfold remove_stop. destruct (aget (st_id st) (p_stop_data p)) as [d|] eqn:Hd.
  - destruct (si_reg _ HS _ _ Hd) as [G1 [G2 [e0 [G3 [G4 G5]]]]].
    assert (Ee : sd_entry d = e_id e).
    { rewrite <- G4. eapply si_uniq; [exact HS|exact G3|exact G5|exact Ho|exact I|auto]. }
    cbn [fst snd]. rewrite Ee. change (fun x : entry => if e_id x =? e_id e then set_e_stops (remove_stop_id (st_id st) (e_stops x)) x else x)
      with (cut_stop (e_id e) (st_id st)).
    set (q := pop_stop (st_id st) (st_sym (sd_stop d)) p).
    assert (Q : same_but_stops p q) by apply pop_stop_sbs.
    assert (EN : forall sd' s', entries_of (map_entries (cut_stop (e_id e) (st_id st)) q) sd' s' =
       map (cut_stop (e_id e) (st_id st)) (entries_of p sd' s')).
    { intros. rewrite map_entries_of. unfold entries_of. now rewrite (sb_poss _ _ Q). }
    assert (DD : forall id, aget id (p_stop_data (map_entries (cut_stop (e_id e) (st_id st)) q)) =
       if Nat.eqb id (st_id st) then None else aget id (p_stop_data p)).
    { intro id. change (p_stop_data (map_entries (cut_stop (e_id e) (st_id st)) q)) with (p_stop_data q).
      unfold q. rewrite pop_stop_sd, aget_adel by apply HS. reflexivity. }
    split; auto. split; auto. split; auto. split; [apply CoreMap; eapply core_sbs; eauto|].
    eapply stop_filter with (rm := fun id => Nat.eqb id (st_id st)); eauto.
    eapply reg_ext with (p := q); try reflexivity. unfold q. eapply pop_stop_reg; eauto. apply HS.
  - assert (FE : exists e0, find (fun x => has_stop_id (st_id st) (e_stops x)) (all_entries p) = Some e0 /\ e_id e0 = e_id e).
    { destruct (find (fun x => has_stop_id (st_id st) (e_stops x)) (all_entries p)) as [e0|] eqn:Ef.
      - exists e0. split; auto. apply find_some in Ef. destruct Ef as [I0 H0].
        apply (all_entries_owns [] p) in I0; auto. destruct I0 as [sd0 [s0 O0]].
        apply has_stop_id_true, in_map_iff in H0. destruct H0 as [st0 [E0 J0]].
        eapply si_uniq; [exact HS|exact O0|exact J0|exact Ho|exact I|auto].
      - exfalso. assert (X : has_stop_id (st_id st) (e_stops e) = false).
        { apply (find_none _ _ Ef). apply (all_entries_owns [] p); eauto. }
        assert (Y : has_stop_id (st_id st) (e_stops e) = true) by (apply has_stop_id_true; now apply in_map).
        congruence. }
    destruct FE as [e0 [-> Ee]]. cbn [fst snd]. rewrite Ee.
    change (fun x : entry => if e_id x =? e_id e then set_e_stops (remove_stop_id (st_id st) (e_stops x)) x else x)
      with (cut_stop (e_id e) (st_id st)).
    split; auto. split; [apply map_entries_of|]. 
    assert (DD : forall id, aget id (p_stop_data (map_entries (cut_stop (e_id e) (st_id st)) p)) =
       if Nat.eqb id (st_id st) then None else aget id (p_stop_data p)).
    { intro id. change (p_stop_data (map_entries (cut_stop (e_id e) (st_id st)) p)) with (p_stop_data p).
      destruct (Nat.eqb_spec id (st_id st)) as [->|]; auto. }
    split; auto. split; [now apply CoreMap|].
    eapply stop_filter with (rm := fun id => Nat.eqb id (st_id st)); eauto.
    + intros. apply map_entries_of.
    + eapply reg_ext with (p := p); try reflexivity. apply HS.
Qed.

(** An id carried by no open entry. *)
Lemma remove_stop_absent p id : Core [] p -> StopInv p ->
  (forall sd s e st, owns p sd s e -> In st (e_stops e) -> st_id st <> id) -> remove_stop id p = (p, false).
Proof.
  intros HC HS N. unfold remove_stop. destruct (aget id (p_stop_data p)) as [d|] eqn:Hd.
  - destruct (si_reg _ HS _ _ Hd) as [G1 [G2 [e0 [G3 [G4 G5]]]]]. exfalso. eapply N; eauto.
  - destruct (find _ (all_entries p)) as [e0|] eqn:Ef; auto. exfalso.
    apply find_some in Ef. destruct Ef as [I0 H0]. apply (all_entries_owns [] p) in I0; auto.
    destruct I0 as [sd0 [s0 O0]]. apply has_stop_id_true, in_map_iff in H0. destruct H0 as [st0 [E0 J0]].
    eapply N; eauto.
Qed.

Lemma remove_stop_stop id p : Core [] p -> StopInv p -> StopInv (fst (remove_stop id p)).
Proof.
  intros HC HS.
  destruct (find (fun x => has_stop_id id (e_stops x)) (all_entries p)) as [e|] eqn:Ef.
  - apply find_some in Ef. destruct Ef as [I0 H0]. apply (all_entries_owns [] p) in I0; auto.
    destruct I0 as [sd0 [s0 O0]]. apply has_stop_id_true, in_map_iff in H0. destruct H0 as [st0 [E0 J0]].
    subst id. now destruct (remove_stop_effect p sd0 s0 e st0 HC HS O0 J0) as [_ [_ [_ [_ H]]]].
  - rewrite remove_stop_absent; auto. intros sd s e st Ho I E.
    assert (X : has_stop_id id (e_stops e) = false).
    { apply (find_none _ _ Ef). apply (all_entries_owns [] p); eauto. }
    assert (Y : has_stop_id id (e_stops e) = true) by (apply has_stop_id_true; rewrite <- E; now apply in_map).
    congruence.
Qed.

(** What [remove_stops] with an optional type takes from an entry. *)
Fixpoint cut_type (t : stop_type) (l : list stop) : list stop :=
  match l with
  | [] => []
  | st :: r => if stop_type_eqb (st_type st) t then r else st :: cut_type t r
  end.
Definition left_stops (t : option stop_type) (l : list stop) : list stop :=
  match t with None => [] | Some t => cut_type t l end.
Definition gone_ids (t : option stop_type) (l : list stop) : list nat :=
  match t with
  | None => map st_id l
  | Some t => match find (fun st => stop_type_eqb (st_type st) t) l with Some st => [st_id st] | None => [] end
  end.
Definition strip (t : option stop_type) (eids : list nat) (x : entry) : entry :=
  if nmem (e_id x) eids then set_e_stops (left_stops t (e_stops x)) x else x.

Lemma cut_type_find t l st : NoDup (map st_id l) ->
  find (fun st => stop_type_eqb (st_type st) t) l = Some st -> remove_stop_id (st_id st) l = cut_type t l.
Proof.
  induction l as [|x r IH]; cbn; [discriminate|]. intros ND. inversion ND as [|? ? Hn Hr]; subst.
  destruct (stop_type_eqb (st_type x) t) eqn:E.
  - intro H. injection H as <-. now rewrite Nat.eqb_refl.
  - intro H. destruct (Nat.eqb_spec (st_id x) (st_id st)) as [Eq|Ne]; [|f_equal; auto].
    exfalso. apply Hn. rewrite Eq. apply in_map. now apply find_some in H.
Qed.
Lemma cut_type_none t l : find (fun st => stop_type_eqb (st_type st) t) l = None -> cut_type t l = l.
Proof.
  induction l as [|x r IH]; cbn; auto. destruct (stop_type_eqb (st_type x) t); [discriminate|].
  intro H. f_equal; auto.
Qed.

Lemma set_stops_same x : set_e_stops (e_stops x) x = x.
Proof. destruct x; reflexivity. Qed.

Lemma remove_entry_stops_effect p sd s e t :
  Core [] p -> StopInv p -> owns p sd s e ->
  let p' := remove_entry_stops e t p in
  (forall sd' s', entries_of p' sd' s' = map (strip t [e_id e]) (entries_of p sd' s')) /\
  (forall id, aget id (p_stop_data p') = if nmem id (gone_ids t (e_stops e)) then None else aget id (p_stop_data p)) /\
  Core [] p' /\ StopInv p'.
Proof.
  intros HC HS Ho. cbn zeta. unfold remove_entry_stops. destruct t as [t|].
  - cbn [gone_ids]. destruct (find (fun st => stop_type_eqb (st_type st) t) (e_stops e)) as [st|] eqn:Ef.
    + assert (I : In st (e_stops e)) by now apply find_some in Ef.
      destruct (remove_stop_effect p sd s e st HC HS Ho I) as [_ [A [B [C D]]]].
      split; [|split; [|split; auto]].
      * intros sd' s'. rewrite A. apply map_ext_in. intros x Ix. unfold cut_stop, strip, nmem. cbn [existsb].
        rewrite orb_false_r. destruct (Nat.eqb_spec (e_id x) (e_id e)) as [Eq|]; auto.
        assert (x = e) as ->.
        { apply owns_entries in Ix. now destruct (core_owns_inj _ _ _ _ _ _ _ _ HC Ix Ho Eq) as [_ [_ ?]]. }
        cbn [left_stops]. rewrite (cut_type_find t); auto. apply (si_nd _ HS _ _ _ Ho).
      * intro id. rewrite B. unfold nmem. cbn [existsb]. now rewrite orb_false_r.
    + split; [|split; [|split; auto]]; auto.
      intros sd' s'. symmetry. rewrite <- (map_id (entries_of p sd' s')) at 2. apply map_ext_in. intros x Ix.
      unfold strip, nmem. cbn [existsb]. rewrite orb_false_r. destruct (Nat.eqb_spec (e_id x) (e_id e)) as [Eq|]; auto.
      assert (x = e) as ->.
      { apply owns_entries in Ix. now destruct (core_owns_inj _ _ _ _ _ _ _ _ HC Ix Ho Eq) as [_ [_ ?]]. }
      cbn [left_stops]. rewrite cut_type_none by auto. apply set_stops_same.
  - set (q := remove_stop_data (e_stops e) p).
    set (f := fun x : entry => if e_id x =? e_id e then set_e_stops [] x else x).
    assert (Q : same_but_stops p q) by apply remove_stop_data_sbs.
    assert (SQ : stops_syms (e_stops e) p).
    { intros st d I E. destruct (si_reg _ HS _ _ E) as [G1 [G2 [e0 [G3 [G4 G5]]]]].
      pose proof (si_uniq _ HS _ _ _ _ _ _ _ _ Ho I G3 G5 (eq_sym G1)) as Ei.
      destruct (core_owns_inj _ _ _ _ _ _ _ _ HC Ho G3 Ei) as [_ [_ <-]].
      now rewrite (st_id_inj _ _ _ (si_nd _ HS _ _ _ Ho) I G5 (eq_sym G1)). }
    destruct (remove_stop_data_reg (e_stops e) p (si_ri _ HS) SQ) as [RQ DQ]. fold q in RQ, DQ.
    assert (EN : forall sd' s', entries_of (map_entries f q) sd' s' = map f (entries_of p sd' s')).
    { intros. rewrite map_entries_of. unfold entries_of. now rewrite (sb_poss _ _ Q). }
    assert (FS : forall x, f x = strip None [e_id e] x).
    { intro x. unfold f, strip, nmem. cbn. now rewrite orb_false_r. }
    split; [intros; rewrite EN; apply map_ext; auto|]. split; [exact DQ|].
    split.
    + assert (CoreQ : Core [] q) by (eapply core_sbs; eauto).
      apply (core_pointwise [] q); auto.
      * intro sd'. rewrite map_entries_poss. apply mapv_keys.
      * intros sd' s' pos' E. rewrite map_entries_poss, mapv_get in E.
        destruct (aget s' (poss sd' q)) as [pos|] eqn:Hg; [|discriminate]. injection E as <-.
        exists pos. split; auto.
        assert (PA : pos_alike pos (set_ps_entries (map f (ps_entries pos)) pos)).
        { constructor; try reflexivity. cbn. apply Forall2_map_r. intros x _.
          apply (set_stops_alike (fun x => Nat.eqb (e_id x) (e_id e)) (fun _ => []) x). }
        split; [eapply pos_alike_ok; eauto; eapply co_pos; eauto|].
        split; [apply (Forall2_map_eq alike e_id _ _ ak_id), PA|reflexivity].
    + apply (stop_filter p _ f (fun id => nmem id (map st_id (e_stops e)))); auto;
        [|eapply reg_ext with (p := q); try reflexivity; exact RQ].
      intros sd0 s0 x Hx. unfold f. destruct (Nat.eqb_spec (e_id x) (e_id e)) as [Eq|Ne].
      * cbn. split; auto. split; [constructor|]. intro st. split; [tauto|].
        destruct (core_owns_inj _ _ _ _ _ _ _ _ HC Hx Ho Eq) as [_ [_ ->]].
        intros [I N]. apply nmem_notIn in N. apply N. now apply in_map.
      * split; auto. split; [apply (si_nd _ HS _ _ _ Hx)|]. intro st. split; [|tauto]. intro I. split; auto.
        apply nmem_notIn. intro J. apply in_map_iff in J. destruct J as [st' [E' I']].
        apply Ne. eapply si_uniq; [exact HS|exact Hx|exact I|exact Ho|exact I'|auto].
Qed.

(** ... from a list of entries, one after another. *)
Lemma remove_list_effect t sd s : forall es p,
  Core [] p -> StopInv p -> NoDup (map e_id es) -> (forall e, In e es -> owns p sd s e) ->
  let p' := fold_left (fun p e => remove_entry_stops e t p) es p in
  (forall sd' s', entries_of p' sd' s' = map (strip t (map e_id es)) (entries_of p sd' s')) /\
  (forall id, aget id (p_stop_data p') =
     if nmem id (flat_map (fun e => gone_ids t (e_stops e)) es) then None else aget id (p_stop_data p)) /\
  Core [] p' /\ StopInv p'.
Proof.
  induction es as [|e es IH]; intros p HC HS ND HO; cbn [fold_left map].
  - cbn zeta. split; [|auto]. intros. unfold strip. cbn. now rewrite map_id.
  - inversion ND as [|? ? Hn Hr]; subst.
    destruct (remove_entry_stops_effect p sd s e t HC HS (HO e (or_introl eq_refl))) as [A [B [C D]]].
    set (q := remove_entry_stops e t p) in *.
    destruct (IH q C D Hr) as [A' [B' [C' D']]].
    { intros x Ix. apply owns_entries. rewrite A.
      replace x with (strip t [e_id e] x).
      - apply in_map, owns_entries. apply HO. now right.
      - unfold strip, nmem. cbn. rewrite orb_false_r. destruct (Nat.eqb_spec (e_id x) (e_id e)) as [Eq|]; auto.
        exfalso. apply Hn. rewrite <- Eq. now apply in_map. }
    cbn zeta in *. split; [|split; [|split; auto]].
    + intros sd' s'. rewrite A', A, map_map. apply map_ext. intro x. unfold strip, nmem. cbn [existsb map].
      rewrite orb_false_r. destruct (Nat.eqb_spec (e_id x) (e_id e)) as [Eq|Ne]; cbn.
      * rewrite Eq. apply nmem_notIn in Hn. unfold nmem in Hn. now rewrite Hn.
      * reflexivity.
    + intro id. rewrite B', B. cbn [flat_map]. unfold nmem. rewrite existsb_app.
      destruct (existsb (Nat.eqb id) (gone_ids t (e_stops e))); cbn; auto.
      destruct (existsb (Nat.eqb id) (flat_map _ es)); auto.
Qed.

(** The entries [remove_stops] is about. *)
Definition rm_entries (v : rm_target) (p : port) : list entry :=
  match v with
  | RSym s => entries_of p Long s ++ entries_of p Short s
  | RPos sd s => entries_of p sd s
  | REntry eid => filter (fun e => Nat.eqb (e_id e) eid) (all_entries p)
  end.

Lemma strip_app t l1 l2 x : strip t l2 (strip t l1 x) = strip t (l1 ++ l2) x \/ (In (e_id x) l1 /\ In (e_id x) l2).
Proof.
  unfold strip at 2 3. unfold nmem. rewrite existsb_app. fold (nmem (e_id x) l1). fold (nmem (e_id x) l2).
  destruct (nmem (e_id x) l1) eqn:E1; cbn [orb].
  - destruct (nmem (e_id x) l2) eqn:E2.
    + right. split; now apply nmem_In.
    + left. unfold strip. cbn. now rewrite E2.
  - left. unfold strip. reflexivity.
Qed.

Lemma remove_pos_effect p sd s t : Core [] p -> StopInv p ->
  let p' := match aget s (poss sd p) with Some pos => remove_position_stops pos t p | None => p end in
  (forall sd' s', entries_of p' sd' s' = map (strip t (map e_id (entries_of p sd s))) (entries_of p sd' s')) /\
  (forall id, aget id (p_stop_data p') =
     if nmem id (flat_map (fun e => gone_ids t (e_stops e)) (entries_of p sd s)) then None else aget id (p_stop_data p)) /\
  Core [] p' /\ StopInv p'.
Proof.
  intros HC HS. cbn zeta. unfold entries_of at 2 4. destruct (aget s (poss sd p)) as [pos|] eqn:Hg.
  - unfold remove_position_stops. apply (remove_list_effect t sd s); auto.
    + apply (po_nodup _ _ _ _ (co_pos _ _ HC _ _ _ Hg)).
    + intros e I. exists pos. auto.
  - split; [|auto]. intros. unfold strip. cbn. now rewrite map_id.
Qed.

Lemma remove_stops_effect p v t : Core [] p -> StopInv p ->
  let p' := remove_stops v t p in
  (forall sd' s', entries_of p' sd' s' = map (strip t (map e_id (rm_entries v p))) (entries_of p sd' s')) /\
  (forall id, aget id (p_stop_data p') =
     if nmem id (flat_map (fun e => gone_ids t (e_stops e)) (rm_entries v p)) then None else aget id (p_stop_data p)) /\
  Core [] p' /\ StopInv p'.
Proof.
  intros HC HS. unfold remove_stops. destruct v as [s|sd s|eid]; cbn [rm_entries].
  - destruct (remove_pos_effect p Long s t HC HS) as [A [B [C D]]]. cbn zeta in *.
    set (q := match aget s (poss Long p) with Some pos => remove_position_stops pos t p | None => p end) in *.
    destruct (remove_pos_effect q Short s t C D) as [A' [B' [C' D']]].
    set (r := match aget s (poss Short q) with Some pos => remove_position_stops pos t q | None => q end) in *.
    assert (Disj : entries_of p Long s = [] \/ entries_of p Short s = []).
    { unfold entries_of. destruct (aget s (poss Long p)) eqn:E1; auto. destruct (aget s (poss Short p)) eqn:E2; auto.
      exfalso. apply aget_Some_key in E1. apply aget_Some_key in E2. apply (co_disj _ _ HC Long s E1 E2). }
    assert (ES : entries_of q Short s = entries_of p Short s).
    { rewrite A. destruct Disj as [->| ->]; auto. cbn. unfold strip. cbn. now rewrite map_id. }
    rewrite ES in A', B'. split; [|split; [|split; auto]].
    + intros sd' s'. rewrite A', A, map_map, map_app. apply map_ext. intro x.
      destruct (strip_app t (map e_id (entries_of p Long s)) (map e_id (entries_of p Short s)) x) as [->|[X Y]]; auto.
      destruct Disj as [Z|Z]; rewrite Z in *; [destruct X|destruct Y].
    + intro id. rewrite B', B, flat_map_app. unfold nmem. rewrite existsb_app.
      destruct (existsb (Nat.eqb id) (flat_map _ (entries_of p Long s))); cbn; auto.
      destruct (existsb (Nat.eqb id) (flat_map _ (entries_of p Short s))); auto.
  - now apply remove_pos_effect.
  - destruct (find (fun e => Nat.eqb (e_id e) eid) (all_entries p)) as [e|] eqn:Ef.
    + apply find_some in Ef. destruct Ef as [I E]. apply Nat.eqb_eq in E.
      pose proof I as I2. apply (all_entries_owns [] p) in I; auto. destruct I as [sd [s Ho]].
      destruct (remove_entry_stops_effect p sd s e t HC HS Ho) as [A [B [C D]]].
      assert (FE : forall x, In x (filter (fun e0 => Nat.eqb (e_id e0) eid) (all_entries p)) <-> x = e).
      { intro x. rewrite filter_In, (all_entries_owns [] p), Nat.eqb_eq by auto. split.
        - intros [[sd' [s' Hx]] Ex]. subst eid. now destruct (core_owns_inj _ _ _ _ _ _ _ _ HC Hx Ho Ex) as [_ [_ ?]].
        - intros ->. split; eauto. }
      cbn zeta in *. split; [|split; [|split; auto]].
      * intros sd' s'. rewrite A. apply map_ext. intro x. unfold strip.
        replace (nmem (e_id x) (map e_id (filter (fun e0 => Nat.eqb (e_id e0) eid) (all_entries p)))) with (nmem (e_id x) [e_id e]); auto.
        apply eq_true_iff_eq. rewrite !nmem_In, in_map_iff. cbn. split.
        -- intros [Q|[]]. exists e. split; auto. now apply FE.
        -- intros [y [Ey Iy]]. apply FE in Iy. subst. auto.
      * intro id. rewrite B.
        replace (nmem id (flat_map (fun e0 => gone_ids t (e_stops e0)) (filter (fun e0 => Nat.eqb (e_id e0) eid) (all_entries p))))
          with (nmem id (gone_ids t (e_stops e))); auto.
        apply eq_true_iff_eq. rewrite !nmem_In, in_flat_map. split.
        -- intro J. exists e. split; auto. now apply FE.
        -- intros [y [Iy Jy]]. apply FE in Iy. now subst.
    + assert (filter (fun e0 => Nat.eqb (e_id e0) eid) (all_entries p) = []) as ->.
      { destruct (filter (fun e0 => Nat.eqb (e_id e0) eid) (all_entries p)) as [|x r] eqn:Er; auto.
        assert (J : In x (filter (fun e0 => Nat.eqb (e_id e0) eid) (all_entries p))) by (rewrite Er; now left).
        apply filter_In in J. destruct J as [J1 J2]. pose proof (find_none _ _ Ef x J1). cbn in *. congruence. }
      cbn. split; [|auto]. intros. unfold strip. cbn. now rewrite map_id.
Qed.
