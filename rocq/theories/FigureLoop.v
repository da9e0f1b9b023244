(** Proofs for C14 on histories of the bar loop. *)
From Verif Require Import PortfolioMark FigureSpec FigureProofs.

Definition Ids (sd : side) (s : sym) (p p' : port) : Prop :=
  forall e, In e (queue p' sd s) -> In (e_id e) (map e_id (queue p sd s)).
Lemma Ids_refl sd s p : Ids sd s p p.
Proof. intros e H. now apply in_map. Qed.
Lemma Ids_same sd s p p' : aget s (poss sd p') = aget s (poss sd p) -> Ids sd s p p'.
Proof. intros E e H. unfold queue, position_of in *. rewrite E in H. now apply in_map. Qed.
Lemma Ids_strips sd s p p' : strips p p' -> Ids sd s p p'.
Proof.
  intros [A _ P] e He. unfold queue, position_of in *. specialize (P sd s).
  destruct (aget s (poss sd p)) as [a|] eqn:Ga; [|rewrite P in He; contradiction].
  destruct P as [es [E F]]. rewrite E in He. cbn in He. destruct (Forall2_sums 0 _ _ F) as [<- _]. now apply in_map.
Qed.
Lemma no_new_ids c ops p o p' sd s : cfg_ok c -> run c ops = Some p -> exec c (Some p) o = Some p' -> ~ captures o ->
  places o <> Some s -> Ids sd s p p'.
Proof.
  intros K R E NC NP. pose proof (run_good _ _ _ K R) as G. pose proof (Ids_refl sd s p) as RF.
  unfold exec in E. destruct o as [a|a|d x b sl sm|d sc sm|d bar|hb|id|v t|ml ms]; cbn [step places] in *.
  - rewrite buy_place in E. pose proof (place_good c OBuy a p K G) as H. destruct (place c OBuy a p) as [q r|q []] eqn:Ep; cbn in E; inversion E; subst; auto.
    destruct (place_frame _ _ _ _ _ _ K G Ep) as [_ [_ [_ [_ F]]]]. apply Ids_same, F. congruence.
  - rewrite sell_place in E. pose proof (place_good c OSell a p K G) as H. destruct (place c OSell a p) as [q r|q []] eqn:Ep; cbn in E; inversion E; subst; auto.
    destruct (place_frame _ _ _ _ _ _ K G Ep) as [_ [_ [_ [_ F]]]]. apply Ids_same, F. congruence.
  - pose proof (exit_flat c ops p d x b sl sm K R) as H.
    destruct (exit_position c d x b sl sm p) as [q r|q []]; inversion E; subst; auto.
    destruct H as [H1 [H2 _]]. destruct (Nat.eq_dec s x) as [->|Ns]; [|apply Ids_same, H2; auto].
    intros e He. unfold queue in He. rewrite H1 in He. contradiction.
  - pose proof (check_stops_ok c d sc sm p K G) as H. pose proof (check_keeps c d sc sm p (gd_core _ _ G)) as KI.
    destruct (check_stops c d sc sm p) as [q r|q []] eqn:Ec; inversion E; subst; [|destruct H; congruence].
    destruct H as [evs [H _]]. pose proof (so_ent _ _ _ _ _ _ _ H sd s) as Ent. intros e He.
    unfold entries_of in Ent. unfold queue, position_of in *. destruct (aget s (poss sd p')) as [b|] eqn:Gb; [|contradiction].
    destruct (ki_pos _ _ KI _ _ _ Gb) as [_ [a [Ga _]]]. rewrite Ga in *. rewrite Ent in He. apply filter_In in He. now apply in_map.
  - exfalso. apply NC. exact I.
  - injection E as <-. intros e He. unfold queue, position_of in *. rewrite incr_poss, mapv_get in He.
    destruct (aget s (poss sd p)) as [a|]; cbn in *; [|contradiction].
    apply in_map_iff in He. destruct He as [e0 [<- He]].
    replace (e_id (incr_entry (hb (ps_sym a)) e0)) with (e_id e0) by (unfold incr_entry; destruct (hb (ps_sym a)); reflexivity).
    now apply in_map.
  - injection E as <-. apply Ids_strips, remove_stop_strips.
  - injection E as <-. apply Ids_strips, remove_stops_strips.
  - injection E as <-. apply Ids_same. destruct sd; reflexivity.
Qed.

(** Marked in full, for the symbols in [D]. *)
Definition Full (c : cfg) (D : sym -> Prop) (ops : list op) : Prop := forall q, run c ops = Some q ->
  forall sd s e x n, D s -> last_mark c ops sd s = Some (x, n) -> In e (queue q sd s) -> (e_id e <= n)%nat.
Lemma run_split c ops o p' : run c (ops ++ [o]) = Some p' -> exists p, run c ops = Some p /\ exec c (Some p) o = Some p'.
Proof.
  unfold run. rewrite fold_left_app. cbn. destruct (fold_left (exec c) ops (Some (init c))) as [p|] eqn:E; [|discriminate].
  intros H. exists p. auto.
Qed.
Lemma full_step c (D : sym -> Prop) ops o : cfg_ok c -> Full c D ops -> ~ captures o -> (forall s, D s -> places o <> Some s) ->
  Full c D (ops ++ [o]).
Proof.
  intros K F NC NP p' R' sd s e x n Ds L He. destruct (run_split _ _ _ _ R') as [p [R E]].
  pose proof (history_snoc _ _ _ _ _ R E) as Hh. rewrite (last_mark_snoc _ _ _ _ _ Hh) in L.
  destruct (position_of p' sd s); [|discriminate].
  assert (L' : last_mark c ops sd s = Some (x, n)) by (destruct o; try exact L; exfalso; apply NC; exact I).
  pose proof (no_new_ids c ops p o p' sd s K R E NC (NP s Ds) e He) as I.
  apply in_map_iff in I. destruct I as [e0 [<- I]]. exact (F p R sd s e0 x n Ds L' I).
Qed.
Lemma full_capture c ops d bar : cfg_ok c -> Full c (fun s => close_of bar s = None) ops ->
  Full c (fun _ => True) (ops ++ [OpCapture d bar]).
Proof.
  intros K F p' R' sd s e x n _ L He. destruct (run_split _ _ _ _ R') as [p [R E]].
  pose proof (history_snoc _ _ _ _ _ R E) as Hh. rewrite (last_mark_snoc _ _ _ _ _ Hh) in L.
  destruct (position_of p' sd s) eqn:Hp; [|discriminate]. pose proof (run_good _ _ _ K R) as G.
  cbn in E. injection E as <-. pose proof (capture_ok c d bar p K G) as CA.
  unfold queue in He. rewrite Hp in He. unfold position_of in Hp. rewrite (ca_pos _ _ _ _ _ CA) in Hp.
  destruct (aget s (poss sd p)) as [a|] eqn:Ga; [|discriminate]. cbn in Hp. injection Hp as <-.
  assert (Ei : map e_id (ps_entries (mark sd (bar s) a)) = map e_id (ps_entries a)).
  { unfold mark. destruct (bar s) as [[[cl lo] hi]|]; auto.
    unfold calculate_pnl_mae_mfe. destruct sd; cbn; rewrite map_map; apply map_ext; intro e'; apply entry_mark_same. }
  assert (I : In (e_id e) (map e_id (ps_entries a))) by (rewrite <- Ei; now apply in_map).
  apply in_map_iff in I. destruct I as [e0 [I1 I]]. rewrite <- I1.
  destruct (close_of bar s) as [y|] eqn:C.
  - injection L as _ <-. eapply (co_bound _ _ (gd_core _ _ G)). exists a. eauto.
  - apply (F p R sd s e0 x n C L). unfold queue, position_of. now rewrite Ga.
Qed.
Lemma marked_snoc c ops o : checks_marked c ops -> (checks o -> Full c (fun _ => True) ops) -> checks_marked c (ops ++ [o]).
Proof.
  intros M F l1 d sc sm l2 q E R. destruct l2 as [|z l2 _] using rev_ind.
  - apply app_inj_tail in E. destruct E as [<- ->]. intros sd s e x n. apply (F I q R sd s e x n). exact I.
  - change (l1 ++ OpCheckStops d sc sm :: l2 ++ [z]) with (l1 ++ (OpCheckStops d sc sm :: l2) ++ [z]) in E.
    rewrite app_assoc in E. apply app_inj_tail in E. destruct E as [-> _]. apply (M l1 d sc sm l2 q eq_refl R).
Qed.

Lemma before_ok c (K : cfg_ok c) l : forall ops, checks_marked c ops -> Full c (fun _ => True) ops ->
  (forall o, In o l -> places o = None /\ ~ captures o) ->
  checks_marked c (ops ++ l) /\ Full c (fun _ => True) (ops ++ l).
Proof.
  induction l as [|o l IH]; intros ops M F H; [rewrite app_nil_r; auto|].
  replace (ops ++ o :: l) with ((ops ++ [o]) ++ l) by now rewrite <- app_assoc.
  destruct (H o (or_introl eq_refl)) as [P C]. apply IH.
  - apply marked_snoc; auto.
  - apply full_step; auto. intros s _. congruence.
  - intros x Hx. apply H. now right.
Qed.
Lemma fills_ok c (K : cfg_ok c) bar l : forall ops, checks_marked c ops -> Full c (fun s => close_of bar s = None) ops ->
  (forall o, In o l -> ~ checks o /\ ~ captures o /\ forall s, places o = Some s -> close_of bar s <> None) ->
  checks_marked c (ops ++ l) /\ Full c (fun s => close_of bar s = None) (ops ++ l).
Proof.
  induction l as [|o l IH]; intros ops M F H; [rewrite app_nil_r; auto|].
  replace (ops ++ o :: l) with ((ops ++ [o]) ++ l) by now rewrite <- app_assoc.
  destruct (H o (or_introl eq_refl)) as [P [C N]]. apply IH.
  - apply marked_snoc; auto. contradiction.
  - apply full_step; auto. intros s Hs E. now apply (N s).
  - intros x Hx. apply H. now right.
Qed.
Lemma bar_ok c (K : cfg_ok c) ops l : checks_marked c ops -> Full c (fun _ => True) ops -> loop_bar l ->
  checks_marked c (ops ++ l) /\ Full c (fun _ => True) (ops ++ l).
Proof.
  intros M F [before [fills [d [bar [after [-> [HB [HF HA]]]]]]]].
  destruct (before_ok c K before ops M F HB) as [M1 F1].
  destruct (fills_ok c K bar fills (ops ++ before) M1) as [M2 F2]; [|exact HF|].
  { intros q R sd s e x n _. now apply F1. }
  pose proof (full_capture c _ d bar K F2) as F3.
  assert (M3 : checks_marked c (((ops ++ before) ++ fills) ++ [OpCapture d bar])) by (apply marked_snoc; auto; contradiction).
  destruct (before_ok c K after _ M3 F3) as [M4 F4].
  { intros o Ho. destruct (HA o Ho) as [A [B _]]. auto. }
  replace (ops ++ before ++ fills ++ OpCapture d bar :: after) with ((((ops ++ before) ++ fills) ++ [OpCapture d bar]) ++ after)
    by (rewrite <- !app_assoc; reflexivity).
  auto.
Qed.
Lemma bars_ok c (K : cfg_ok c) bars : Forall loop_bar bars -> forall ops, checks_marked c ops -> Full c (fun _ => True) ops ->
  checks_marked c (ops ++ concat bars).
Proof.
  induction 1 as [|l bars B _ IH]; intros ops M F; cbn [concat]; [now rewrite app_nil_r|].
  rewrite app_assoc. destruct (bar_ok c K ops l M F B). now apply IH.
Qed.
Theorem loop_marked c bars ops rest : cfg_ok c -> Forall loop_bar bars -> concat bars = ops ++ rest -> checks_marked c ops.
Proof.
  intros K B E. assert (M : checks_marked c ([] ++ concat bars)).
  { apply bars_ok; auto.
    - intros l1 d sc sm l2 q X. destruct l1; discriminate.
    - intros q R sd s e x n _ L. discriminate. }
  cbn in M. rewrite E in M. intros l1 d sc sm l2 q X. apply (M l1 d sc sm (l2 ++ rest) q). rewrite X, <- app_assoc. reflexivity.
Qed.
