(** How the entries of an account evolve under one call. *)
From Verif Require Export PortfolioRun.

(** ** Frames of one call *)
Lemma place_ret c o a p p' r : cfg_ok c -> Good c p -> place c o a p = Ret p' r ->
  (r = None /\ cache_only p p' /\
     (limit_rejects o (a_fill a) (a_limit a) = true \/ a_shares a == 0 \/
      exists filled bought, 0 < a_shares a /\ fill_ok c o a p filled bought p' /\ filled == 0 /\ bought == 0)) \/
  (exists p2 filled bought, 0 < a_shares a /\ 0 < a_fill a /\ limit_rejects o (a_fill a) (a_limit a) = false /\
     fill_ok c o a p filled bought p2 /\ ~ (filled == 0 /\ bought == 0) /\
     p' = fst (the_order c o a filled bought p2) /\ r = Some (snd (the_order c o a filled bought p2))).
Proof.
  intros K G E. pose proof (place_ok c o a p K G) as H. rewrite E in H.
  inversion H as [|A B|q A|p2 f b A1 A2 A3 A4 A5 A6|p2 f b A1 A2 A3 A4 A5]; subst.
  - left. split; auto. split; [apply cache_only_refl|]. tauto.
  - left. split; auto. split; [eapply fill_none_cache; eauto|]. right. right. exists f, b. auto.
  - right. exists p2, f, b. auto 10.
Qed.

Lemma place_frame c o a p p' r : cfg_ok c -> Good c p -> place c o a p = Ret p' r ->
  p_bars p' = p_bars p /\ p_accrued p' = p_accrued p /\ cap Long p' = cap Long p /\ cap Short p' = cap Short p /\
  (forall sd s, s <> a_sym a -> aget s (poss sd p') = aget s (poss sd p)).
Proof.
  intros K G E. destruct (place_ret _ _ _ _ _ _ K G E) as [[_ [CO _]]|[p2 [filled [bought [_ [_ [_ [HF [_ [-> _]]]]]]]]]].
  - destruct (cc_acct _ _ CO). cbn. repeat split; auto. intros sd s _. now rewrite (cc_poss _ _ CO).
  - destruct HF as [_ _ _ _ _ _ [rem [p1 [_ [HCl Hop]]]]].
    pose proof (cl_frame _ _ _ _ _ _ _ _ HCl) as F.
    assert (X : p_bars p2 = p_bars p1 /\ p_accrued p2 = p_accrued p1 /\ cap Long p2 = cap Long p1 /\ cap Short p2 = cap Short p1 /\
      (forall sd s, s <> a_sym a -> aget s (poss sd p2) = aget s (poss sd p1))).
    { destruct Hop as [[_ CO]|[[_ _ [q [o' [CO [_ [_ HO]]]]]] _]].
      - destruct (cc_acct _ _ CO). cbn. repeat split; auto. intros sd s _. now rewrite (cc_poss _ _ CO).
      - destruct (cc_acct _ _ CO). destruct HO. cbn. repeat split; try congruence.
        intros sd s N. destruct (side_dec sd (opens o)) as [->|Ns].
        + rewrite op_poss, aget_aset_neq by auto. now rewrite (cc_poss _ _ CO).
        + rewrite (flip_neq _ _ Ns), op_flip. now rewrite (cc_poss _ _ CO). }
    destruct X as [X1 [X2 [X3 [X4 X5]]]]. destruct F.
    assert (A := add_order_caps c (a_date a) (a_sym a) o (a_created a) (a_otype a)
      (match o with OBuy => if Qis0 bought then BuyToClose else BuyToOpen
       | OSell => if Qis0 bought then SellToClose else SellToOpen end) (filled + bought) (a_limit a) (a_market a) (a_fill a) p2).
    repeat split.
    + unfold the_order. rewrite add_order_bars. congruence.
    + unfold the_order. rewrite add_order_accrued. congruence.
    + cbn [cap]. unfold the_order. rewrite (proj1 A). cbn in X3. congruence.
    + cbn [cap]. unfold the_order. rewrite (proj2 A). cbn in X4. congruence.
    + intros sd s N. unfold the_order. rewrite add_order_poss. rewrite X5 by auto.
      destruct (side_dec sd (closes o)) as [->|Ns]; [auto|]. rewrite (flip_neq _ _ Ns). now rewrite cf_flip.
Qed.


(** ** Removing stops *)
Definition stripped (e e' : entry) : Prop := e' = set_e_stops (e_stops e') e /\ incl (e_stops e') (e_stops e).
Lemma stripped_refl e : stripped e e.
Proof. split; [now destruct e|apply incl_refl]. Qed.
Lemma stripped_trans a b d : stripped a b -> stripped b d -> stripped a d.
Proof.
  intros [A1 A2] [B1 B2]. split; [|eapply incl_tran; eauto]. rewrite B1, A1. reflexivity.
Qed.
Lemma Forall2_refl' {A} (R : A -> A -> Prop) l : (forall x, R x x) -> Forall2 R l l.
Proof. intro H. induction l; constructor; auto. Qed.
Lemma Forall2_trans' {A} (R : A -> A -> Prop) l1 : (forall x y z, R x y -> R y z -> R x z) ->
  forall l2 l3, Forall2 R l1 l2 -> Forall2 R l2 l3 -> Forall2 R l1 l3.
Proof.
  intro H. induction l1 as [|x r IH]; intros l2 l3 F1 F2; inversion F1; subst; inversion F2; subst; constructor; eauto.
Qed.

Record strips (p p' : port) : Prop := mkStrips {
  rs_acct : same_acct p p'; rs_syms : p_symbols p' = p_symbols p;
  rs_pos : forall sd s, match aget s (poss sd p) with
    | None => aget s (poss sd p') = None
    | Some a => exists es, aget s (poss sd p') = Some (set_ps_entries es a) /\ Forall2 stripped (ps_entries a) es
    end
}.
Lemma set_entries_id a : set_ps_entries (ps_entries a) a = a. Proof. now destruct a. Qed.
Lemma strips_sbs p p' : same_but_stops p p' -> strips p p'.
Proof.
  intros []. constructor; auto. intros sd s. rewrite sb_poss. destruct (aget s (poss sd p)) as [a|] eqn:E; auto.
  exists (ps_entries a). rewrite set_entries_id. split; auto. apply Forall2_refl', stripped_refl.
Qed.
Lemma strips_refl p : strips p p.
Proof. apply strips_sbs, sbs_refl. Qed.
Lemma strips_trans p q r : strips p q -> strips q r -> strips p r.
Proof.
  intros [A1 A2 A3] [B1 B2 B3]. constructor; [eapply same_acct_trans; eauto|congruence|].
  intros sd s. specialize (A3 sd s). specialize (B3 sd s). destruct (aget s (poss sd p)) as [a|].
  - destruct A3 as [es [E1 F1]]. rewrite E1 in B3. destruct B3 as [es2 [E2 F2]].
    exists es2. split; [rewrite E2; reflexivity|]. cbn in F2.
    eapply Forall2_trans'; eauto. apply stripped_trans.
  - rewrite A3 in B3. auto.
Qed.
Lemma strips_map f p : (forall e, stripped e (f e)) -> strips p (map_entries f p).
Proof.
  intro F. constructor; [apply map_entries_acct|reflexivity|].
  intros sd s. rewrite map_entries_poss. rewrite mapv_get. destruct (aget s (poss sd p)) as [a|]; auto.
  exists (map f (ps_entries a)). split; auto. apply Forall2_map_r. auto.
Qed.
Lemma stripped_if b e l : (b = true -> incl l (e_stops e)) -> stripped e (if b then set_e_stops l e else e).
Proof. intro H. destruct b; [|apply stripped_refl]. split; [reflexivity|]. cbn. auto. Qed.
Lemma remove_id_incl id l : incl (remove_stop_id id l) l.
Proof.
  induction l as [|x r IH]; cbn; [apply incl_refl|]. destruct (Nat.eqb (st_id x) id); [now apply incl_tl, incl_refl|].
  apply incl_cons; [now left|now apply incl_tl].
Qed.
Lemma remove_stop_strips id p : strips p (fst (remove_stop id p)).
Proof.
  unfold remove_stop. destruct (aget id (p_stop_data p)) as [d|]; cbn.
  - eapply strips_trans; [apply strips_sbs, pop_stop_sbs|apply strips_map].
    intro e. apply stripped_if. intros _. apply remove_id_incl.
  - destruct (find _ (all_entries p)) as [e0|]; cbn; [|apply strips_refl].
    apply strips_map. intro e. apply stripped_if. intros _. apply remove_id_incl.
Qed.
Lemma remove_entry_stops_strips e t p : strips p (remove_entry_stops e t p).
Proof.
  unfold remove_entry_stops. destruct t as [t|].
  - destruct (find _ (e_stops e)); [apply remove_stop_strips|apply strips_refl].
  - eapply strips_trans; [apply strips_sbs, remove_stop_data_sbs|apply strips_map].
    intro x. apply stripped_if. intros _ y [].
Qed.
Lemma remove_position_stops_strips pos t p : strips p (remove_position_stops pos t p).
Proof.
  unfold remove_position_stops. revert p. induction (ps_entries pos) as [|e r IH]; cbn; intro p; [apply strips_refl|].
  eapply strips_trans; [apply remove_entry_stops_strips|apply IH].
Qed.
Lemma remove_stops_strips v t p : strips p (remove_stops v t p).
Proof.
  unfold remove_stops.
  assert (P : forall sd s q, strips q match aget s (poss sd q) with
       | Some pos => remove_position_stops pos t q | None => q end).
  { intros sd s q. destruct (aget s (poss sd q)); [apply remove_position_stops_strips|apply strips_refl]. }
  destruct v as [s|sd s|eid].
  - eapply strips_trans; apply P.
  - apply P.
  - destruct (find _ (all_entries p)); [apply remove_entry_stops_strips|apply strips_refl].
Qed.
Lemma strips_owns p p' sd s e' : strips p p' -> owns p' sd s e' -> exists e, owns p sd s e /\ stripped e e'.
Proof.
  intros [_ _ H] [pos' [Hg I]]. specialize (H sd s). destruct (aget s (poss sd p)) as [a|] eqn:Ea; [|congruence].
  destruct H as [es [E F]]. rewrite E in Hg. injection Hg as <-. cbn in I.
  destruct (In_nth_error _ _ I) as [n Hn]. revert es E F I Hn.
  intros es E F I Hn. clear E I.
  assert (X : exists e, nth_error (ps_entries a) n = Some e /\ stripped e e').
  { revert n Hn. induction F as [|x y l l' R F IH]; intros n Hn; destruct n; cbn in *; try discriminate; eauto.
    injection Hn as <-. eauto. }
  destruct X as [e [He R]]. exists e. split; auto. exists a. split; auto. eapply nth_error_In; eauto.
Qed.

(** A call other than a capture records no bar. *)
Lemma exec_bars c o p p' : cfg_ok c -> Good c p -> exec c (Some p) o = Some p' ->
  match o with OpCapture d bar => p' = capture_bar c d bar p | _ => p_bars p' = p_bars p end.
Proof.
  intros K G E. unfold exec in E. destruct o as [a|a|d s b sl sm|d sc sm|d bar|hb|id|v t|ml ms]; cbn [step] in E.
  - rewrite buy_place in E. pose proof (place_good c OBuy a p K G) as H. destruct (place c OBuy a p) as [q r|q []] eqn:Ep; cbn in E; inversion E; subst; auto.
    now destruct (place_frame _ _ _ _ _ _ K G Ep).
  - rewrite sell_place in E. pose proof (place_good c OSell a p K G) as H. destruct (place c OSell a p) as [q r|q []] eqn:Ep; cbn in E; inversion E; subst; auto.
    now destruct (place_frame _ _ _ _ _ _ K G Ep).
  - pose proof (exit_cases (fun q => p_bars q = p_bars p) c d s b sl sm p K G eq_refl) as H.
    assert (HP : forall o a p0 p'0 r, Good c p0 -> p_bars p0 = p_bars p -> a_stops a = None -> place c o a p0 = Ret p'0 r -> p_bars p'0 = p_bars p).
    { intros o a p0 p1 r G0 E0 _ E1. destruct (place_frame _ _ _ _ _ _ K G0 E1). congruence. }
    specialize (H HP). destruct (exit_position c d s b sl sm p) as [q r|q []]; inversion E; subst; tauto.
  - pose proof (check_stops_ok c d sc sm p K G) as H. destruct (check_stops c d sc sm p) as [q r|q []]; inversion E; subst.
    + destruct H as [evs [H _]]. apply (so_frame _ _ _ _ _ _ _ H).
    + destruct H. congruence.
  - now injection E as <-.
  - now injection E as <-.
  - injection E as <-. apply (rs_acct _ _ (remove_stop_strips id p)).
  - injection E as <-. apply (rs_acct _ _ (remove_stops_strips v t p)).
  - now injection E as <-.
Qed.

(** ** Entries *)
(** The call [o] turns entry [e] of symbol [s] into [e']. *)
Record evolves (o : op) (sd : side) (s : sym) (e e' : entry) : Prop := mkEvo {
  vo_id : e_id e' = e_id e; vo_date : e_date e' = e_date e; vo_sym : e_sym e' = e_sym e;
  vo_price : e_price e' = e_price e; vo_type : e_type e' = e_type e; vo_shares : e_shares e' <= e_shares e;
  vo_bars : e_bars e' = match o with OpIncr _ => S (e_bars e) | _ => e_bars e end;
  vo_symbars : e_symbars e' = match o with OpIncr hb => if hb s then S (e_symbars e) else e_symbars e | _ => e_symbars e end;
  vo_mae : e_mae e' = match o with OpCapture _ bar => e_mae (mark_entry bar sd s e) | _ => e_mae e end;
  vo_mfe : e_mfe e' = match o with OpCapture _ bar => e_mfe (mark_entry bar sd s e) | _ => e_mfe e end;
  vo_stops : incl (e_stops e') (e_stops e)
}.
(** Entry [e'] was opened by the call. *)
Record born (o : op) (p : port) (e' : entry) : Prop := mkBorn {
  bo_id : (p_entry_id p < e_id e')%nat; bo_bars : e_bars e' = 0%nat; bo_symbars : e_symbars e' = 0%nat;
  bo_mae : e_mae e' = 0; bo_mfe : e_mfe e' = 0; bo_stops : incl (e_stops e') (op_stops o);
  bo_pos : 0 < e_shares e'
}.
(** The part of [evolves] shared by the calls that neither count nor mark. *)
Record shrinks (e e' : entry) : Prop := mkShr {
  sh_id : e_id e' = e_id e; sh_date : e_date e' = e_date e; sh_sym : e_sym e' = e_sym e;
  sh_price : e_price e' = e_price e; sh_type : e_type e' = e_type e; sh_shares : e_shares e' <= e_shares e;
  sh_bars : e_bars e' = e_bars e; sh_symbars : e_symbars e' = e_symbars e;
  sh_mae : e_mae e' = e_mae e; sh_mfe : e_mfe e' = e_mfe e; sh_stops : incl (e_stops e') (e_stops e)
}.
Lemma shrinks_refl e : shrinks e e.
Proof. constructor; auto; [lra|apply incl_refl]. Qed.
Lemma shrinks_trans a b d : shrinks a b -> shrinks b d -> shrinks a d.
Proof. intros [] []. constructor; try congruence; [lra|eapply incl_tran; eauto]. Qed.
Lemma stripped_shrinks e e' : stripped e e' -> shrinks e e'.
Proof. intros [A B]. rewrite A. constructor; try reflexivity; [cbn; lra|]. cbn. auto. Qed.
Definition quiet_op (o : op) : Prop := match o with OpIncr _ | OpCapture _ _ => False | _ => True end.
Lemma shrinks_evolves o sd s e e' : quiet_op o -> shrinks e e' -> evolves o sd s e e'.
Proof. intros H []. constructor; auto; destruct o; cbn in *; tauto || auto. Qed.

Lemma fifo_shrinks sd date fill n es es' ts e' : fifo_close sd date fill n es es' ts -> In e' es' ->
  exists e, In e es /\ shrinks e e'.
Proof.
  intros [full [rest [[E1 [E2 _]]|[e [q [ts0 [t [E1 [E2 [Q1 _]]]]]]]]]] I; subst.
  - exists e'. split; [apply in_app_iff; auto|apply shrinks_refl].
  - destruct I as [<-|I].
    + exists e. split; [apply in_app_iff; right; now left|]. constructor; try reflexivity; [cbn; lra|apply incl_refl].
    + exists e'. split; [|apply shrinks_refl]. apply in_app_iff. right. now right.
Qed.
Lemma fifo_owns sd date s n fill p p1 sd1 s1 e1 : fifo_ok sd date s n fill p p1 -> owns p1 sd1 s1 e1 ->
  exists e, owns p sd1 s1 e /\ shrinks e e1.
Proof.
  intros [HO [ts [_ HF]] _] Ho. apply owns_entries in Ho.
  destruct (side_dec sd1 sd) as [->|Ns]; [destruct (Nat.eq_dec s1 s) as [->|Ns]|].
  - destruct (fifo_shrinks _ _ _ _ _ _ _ _ HF Ho) as [e0 [I0 E0]]. exists e0. split; auto. now apply owns_entries.
  - rewrite HO in Ho by auto. exists e1. split; [now apply owns_entries|apply shrinks_refl].
  - rewrite HO in Ho by auto. exists e1. split; [now apply owns_entries|apply shrinks_refl].
Qed.

Record born_of (o : oside) (a : oargs) (p : port) (sd : side) (s : sym) (e' : entry) : Prop := mkBornOf {
  bf_id : e_id e' = S (p_entry_id p); bf_bars : e_bars e' = 0%nat; bf_symbars : e_symbars e' = 0%nat;
  bf_mae : e_mae e' = 0; bf_mfe : e_mfe e' = 0; bf_stops : e_stops e' = stops_of (a_stops a);
  bf_pos : 0 < e_shares e'; bf_price : e_price e' = a_fill a; bf_side : sd = opens o; bf_sym : s = a_sym a
}.
Lemma place_entry c o a p p' r sd s e' : cfg_ok c -> Good c p -> place c o a p = Ret p' r -> owns p' sd s e' ->
  (exists e, owns p sd s e /\ shrinks e e') \/ born_of o a p sd s e'.
Proof.
  intros K G E Ho.
  assert (X : forall p2 filled bought, 0 < a_shares a -> fill_ok c o a p filled bought p2 ->
    owns p2 sd s e' -> (exists e, owns p sd s e /\ shrinks e e') \/ born_of o a p sd s e').
  { intros p2 filled bought Hs HF O2. destruct (fill_effect _ _ _ _ _ _ _ (gd_core _ _ G) Hs HF) as [[p1 [H1 [_ H2]]]].
    apply owns_entries in O2.
    destruct H2 as [[_ H2]|[B0 [e0 [_ [_ [Esh [Epr [_ [Eb [Esb [Em [Ef [Es [Eid H2]]]]]]]]]]]]]].
    - rewrite H2 in O2. left. eapply fifo_owns; eauto. now apply owns_entries.
    - rewrite H2 in O2. destruct (side_eqb sd (opens o) && Nat.eqb s (a_sym a)) eqn:Eo.
      + apply in_app_iff in O2. destruct O2 as [O2|[<-|[]]].
        * left. eapply fifo_owns; eauto. now apply owns_entries.
        * right. apply andb_true_iff in Eo. destruct Eo as [E1 E2]. apply side_eqb_eq in E1. apply Nat.eqb_eq in E2.
          constructor; auto. now rewrite Esh.
      + left. eapply fifo_owns; eauto. now apply owns_entries. }
  destruct (place_ret _ _ _ _ _ _ K G E) as [[_ [CO _]]|[p2 [filled [bought [Hs [_ [_ [HF [_ [-> _]]]]]]]]]].
  - left. exists e'. split; [|apply shrinks_refl]. apply owns_entries. apply owns_entries in Ho. now rewrite (entries_cache _ _ _ _ CO) in Ho.
  - eapply X; eauto. apply owns_entries. apply owns_entries in Ho. now rewrite add_order_entries in Ho.
Qed.
Lemma place_eid c o a p p' r : cfg_ok c -> Good c p -> place c o a p = Ret p' r -> (p_entry_id p <= p_entry_id p')%nat.
Proof.
  intros K G E. destruct (place_ret _ _ _ _ _ _ K G E) as [[_ [CO _]]|[p2 [filled [bought [_ [_ [_ [HF [_ [-> _]]]]]]]]]].
  - rewrite (sa_entry_id _ _ (cc_acct _ _ CO)). auto.
  - destruct HF as [_ _ _ _ _ _ [rem [p1 [_ [HCl Hop]]]]].
    unfold the_order. rewrite add_order_eid.
    pose proof (cf_entry_id _ _ _ _ (cl_frame _ _ _ _ _ _ _ _ HCl)) as F.
    destruct Hop as [[_ CO]|[[_ _ [q [o' [CO [_ [_ HO]]]]]] _]].
    + rewrite (sa_entry_id _ _ (cc_acct _ _ CO)). lia.
    + rewrite (op_eid _ _ _ _ _ _ _ _ _ HO), (sa_entry_id _ _ (cc_acct _ _ CO)). lia.
Qed.

Theorem step_entry c o p p' : cfg_ok c -> Good c p -> exec c (Some p) o = Some p' ->
  (p_entry_id p <= p_entry_id p')%nat /\
  forall sd s e', owns p' sd s e' -> (exists e, owns p sd s e /\ evolves o sd s e e') \/ born o p e'.
Proof.
  intros K G E. unfold exec in E.
  assert (PL : forall od a, (o = OpBuy a /\ od = OBuy) \/ (o = OpSell a /\ od = OSell) ->
    match drop (place c od a p) with Ret p' _ => Some p' | Raise p' EInput => Some p' | Raise _ _ => None end = Some p' ->
    (p_entry_id p <= p_entry_id p')%nat /\
    forall sd s e', owns p' sd s e' -> (exists e, owns p sd s e /\ evolves o sd s e e') \/ born o p e').
  { intros od a Ho E1.
    assert (Hq : quiet_op o) by (destruct Ho as [[-> _]|[-> _]]; exact I).
    pose proof (place_good c od a p K G) as H. destruct (place c od a p) as [q r|q []] eqn:Ep; cbn in E1; inversion E1; subst.
    - split; [eapply place_eid; eauto|]. intros sd s e' O'. destruct (place_entry _ _ _ _ _ _ _ _ _ K G Ep O') as [[e [Oe Se]]|B].
      + left. exists e. split; auto. now apply shrinks_evolves.
      + right. destruct B. constructor; auto; [lia|]. rewrite bf_stops0. intros st I. apply stops_of_In in I.
        destruct Ho as [[-> _]|[-> _]]; exact I.
    - split; auto. intros sd s e' O'. left. exists e'. split; auto. apply shrinks_evolves; auto. apply shrinks_refl. }
  assert (SM : forall q, quiet_op o -> p_entry_id q = p_entry_id p ->
     (forall sd s e', owns q sd s e' -> exists e, owns p sd s e /\ shrinks e e') ->
     (p_entry_id p <= p_entry_id q)%nat /\
     forall sd s e', owns q sd s e' -> (exists e, owns p sd s e /\ evolves o sd s e e') \/ born o p e').
  { intros q Hq Hi Hs. split; [lia|]. intros sd s e' O'. destruct (Hs _ _ _ O') as [e [Oe Se]]. left. exists e. split; auto.
    now apply shrinks_evolves. }
  destruct o as [a|a|d s b sl sm|d sc sm|d bar|hb|id|v t|ml ms]; cbn [step] in E.
  - apply (PL OBuy a); auto.
  - apply (PL OSell a); auto.
  - set (P := fun q => (p_entry_id p <= p_entry_id q)%nat /\
      forall sd x e', owns q sd x e' -> (exists e, owns p sd x e /\ shrinks e e') \/ born (OpExit d s b sl sm) p e').
    pose proof (exit_cases P c d s b sl sm p K G) as H.
    assert (P0 : P p). { split; auto. intros sd s1 e' O'. left. exists e'. split; auto. apply shrinks_refl. }
    assert (HP : forall o a p0 p'0 r, Good c p0 -> P p0 -> a_stops a = None -> place c o a p0 = Ret p'0 r -> P p'0).
    { intros o a p0 p1 r G0 [I0 E0] Hst E1. split; [pose proof (place_eid _ _ _ _ _ _ K G0 E1); lia|].
      intros sd s1 e' O'. destruct (place_entry _ _ _ _ _ _ _ _ _ K G0 E1 O') as [[e [Oe Se]]|B].
      - destruct (E0 _ _ _ Oe) as [[e0 [O0 S0]]|B0].
        + left. exists e0. split; auto. eapply shrinks_trans; eauto.
        + right. assert (Pos : 0 < e_shares e').
          { pose proof (place_good c o a p0 K G0) as G1. rewrite E1 in G1. destruct O' as [pos [Hg I]].
            pose proof (po_entries _ _ _ _ (co_pos _ _ (gd_core _ _ G1) _ _ _ Hg) e' I) as Ok. apply (eo_pos _ _ _ _ Ok). auto. }
          destruct Se, B0. constructor; try congruence. eapply incl_tran; eauto.
      - right. destruct B. constructor; auto; [lia|]. rewrite bf_stops0, Hst. intros ? []. }
    specialize (H P0 HP).
    assert (X : P p') by (destruct (exit_position c d s b sl sm p) as [q r|q []]; inversion E; subst; tauto).
    destruct X as [X1 X2]. split; auto. intros sd s1 e' O'. destruct (X2 _ _ _ O') as [[e [Oe Se]]|B]; auto.
    left. exists e. split; auto. apply shrinks_evolves; auto. exact I.
  - pose proof (check_stops_ok c d sc sm p K G) as H. destruct (check_stops c d sc sm p) as [q r|q []]; inversion E; subst.
    + destruct H as [evs [H _]]. apply SM; [exact I|apply (so_frame _ _ _ _ _ _ _ H)|].
      intros sd s e' O'. apply owns_entries in O'. rewrite (so_ent _ _ _ _ _ _ _ H) in O'. apply filter_In in O'.
      exists e'. split; [now apply owns_entries|apply shrinks_refl].
    + destruct H. congruence.
  - injection E as <-. pose proof (capture_ok c d bar p K G) as CA. split; [rewrite (ca_eid _ _ _ _ _ CA); auto|].
    intros sd s e' O'. apply owns_entries in O'. rewrite (capture_entries c d bar p sd s K G) in O'.
    apply in_map_iff in O'. destruct O' as [e [<- I]]. left. exists e. split; [now apply owns_entries|].
    unfold mark_entry. destruct (bar s) as [[[cl lo] hi]|] eqn:Eb.
    + pose proof (entry_mark_same sd lo hi e) as [M1 [M2 [M3 [M4 [M5 [M6 [M7 [M8 [M9 _]]]]]]]]].
      constructor; auto; unfold mark_entry; rewrite ?Eb; auto; [rewrite M2; lra|rewrite M4; apply incl_refl].
    + constructor; auto; unfold mark_entry; rewrite ?Eb; auto; [lra|apply incl_refl].
  - injection E as <-. split; [auto|].
    intros sd s e' O'. apply owns_entries in O'. rewrite (incr_entries hb p sd s (gd_core _ _ G)) in O'.
    apply in_map_iff in O'. destruct O' as [e [<- I]]. left. exists e. split; [now apply owns_entries|].
    unfold incr_entry. destruct (hb s) eqn:Eh; constructor; cbn; rewrite ?Eh; auto; try lra; apply incl_refl.
  - injection E as <-. pose proof (remove_stop_strips id p) as S. apply SM; [exact I|apply (rs_acct _ _ S)|].
    intros sd s e' O'. destruct (strips_owns _ _ _ _ _ S O') as [e [Oe Se]]. exists e. split; auto. now apply stripped_shrinks.
  - injection E as <-. pose proof (remove_stops_strips v t p) as S. apply SM; [exact I|apply (rs_acct _ _ S)|].
    intros sd s e' O'. destruct (strips_owns _ _ _ _ _ S O') as [e [Oe Se]]. exists e. split; auto. now apply stripped_shrinks.
  - injection E as <-. apply SM; [exact I|reflexivity|]. intros sd s e' [pos [Hg I]]. exists e'. split; [|apply shrinks_refl].
    exists pos. split; [destruct sd; exact Hg|auto].
Qed.
