(** Position rows add up to the portfolio row; histories with their records. *)
From Coq Require Import List Bool Arith Lia ZArith QArith Lqa.
From Verif Require Export RecordLog.
From Verif Require Import Prelude Lemmas PortfolioFacts PortfolioRun PortfolioCapture PortfolioEvolve.
Import ListNotations.
Open Scope list_scope.
Open Scope Q_scope.

Lemma sum_sort (g : sym -> Q) l : Qsum (map g (sort_nat l)) == Qsum (map g l).
Proof. symmetry. apply perm_Qsum, sort_nat_perm. Qed.
Lemma sum_sub {A} (f g : A -> Q) l : Qsum (map (fun x => f x - g x) l) == Qsum (map f l) - Qsum (map g l).
Proof. induction l as [|x l IH]; cbn [map Qsum]; [lra|]. rewrite IH. lra. Qed.
Lemma sum_add {A} (f g : A -> Q) l : Qsum (map (fun x => f x + g x) l) == Qsum (map f l) + Qsum (map g l).
Proof. induction l as [|x l IH]; cbn [map Qsum]; [lra|]. rewrite IH. lra. Qed.
Section Totals.
Variables (c : cfg) (p : port) (bar : bar_fn) (d : Z).
Hypothesis K : cfg_ok c.
Hypothesis G : Good c p.
Hypothesis A : all_closes bar p.
Let C := gd_core _ _ G.
Lemma parts s : is_held p s -> forall x, close_of bar s = Some x ->
  long_part bar p s == shares_held p Long s * x /\ short_eq p s == cost_of p Short s /\
  short_mkt bar p s == cost_of p Short s + gain_of p Short s x /\ short_margin bar p s == shares_held p Short s * x.
Proof.
  intros _ x CL. unfold close_of in CL. destruct (bar s) as [[[x' lo] hi]|] eqn:B; [|discriminate]. injection CL as ->.
  unfold long_part, short_eq, short_mkt, short_margin, shares_held, position_of, cost_of, gain_of, queue, position_of. change (p_longs p) with (poss Long p). change (p_shorts p) with (poss Short p).
  rewrite B. split; [destruct (aget s (poss Long p)); lra|]. destruct (aget s (poss Short p)) as [pos|] eqn:E; cbn [map Qsum]; [|repeat split; lra].
  pose proof (co_pos _ _ C Short s pos E) as OK. rewrite (po_notional _ _ _ _ OK), (po_type _ _ _ _ OK), upnl_gain. repeat split; lra.
Qed.
Lemma totals b : (exists p', captured c d bar p p' /\ p_bars p' = p_bars p ++ [b]) -> adds_up (rows_at d bar p (sort_nat (p_symbols p))) b.
Proof.
  intros [p' [CA PB]]. destruct (ca_bars _ _ _ _ _ CA) as [b' [PB' [_ [_ [E1 [E2 [_ [E4 [E5 [_ [E6 [_ E7]]]]]]]]]]]].
  rewrite PB in PB'. apply app_inj_tail in PB' as [_ <-].
  assert (HELD : forall s, In s (sort_nat (p_symbols p)) -> is_held p s).
  { intros s I. apply (symbols_held c p G). eapply Permutation_in; [apply Permutation_sym, sort_nat_perm|exact I]. }
  set (ws := rows_at d bar p (sort_nat (p_symbols p))).
  assert (SUM : forall f g, (forall w, describes p d bar w -> is_held p (w_sym w) -> f w == g (w_sym w)) -> Qsum (map f ws) == Qsum (map g (p_symbols p))).
  { intros f g H. rewrite <- sum_sort.
    assert (X : Qsum (map f ws) == Qsum (map (fun w => g (w_sym w)) ws)).
    { assert (DS : Forall (fun w => describes p d bar w /\ is_held p (w_sym w)) ws).
      { apply Forall_forall. intros w I. split; [eapply Forall_forall in I; [exact I|apply (rows_describe c p bar G)]|].
        apply HELD. apply (in_map w_sym) in I. unfold ws in I. rewrite row_syms in I. apply filter_In in I. apply I. }
      induction DS as [|w l [D1 D2] F IH]; [reflexivity|]. cbn [map Qsum]. now rewrite IH, (H w D1 D2). }
    rewrite X. apply (rows_sum c p bar G d); auto. intros w _. reflexivity. }
  assert (HM : Qsum (map w_mv ws) == Qsum (map (fun s => long_part bar p s + short_eq p s) (p_symbols p))).
  { apply SUM. intros w D H. destruct (parts _ H _ (ds_close _ _ _ _ D)) as [P1 [P2 [P3 P4]]]. rewrite (ds_mv _ _ _ _ D), P1, P2. reflexivity. }
  assert (HQ : Qsum (map w_equity ws) == Qsum (map (fun s => long_part bar p s + short_mkt bar p s) (p_symbols p))).
  { apply SUM. intros w D H. destruct (parts _ H _ (ds_close _ _ _ _ D)) as [P1 [P2 [P3 P4]]]. rewrite (ds_equity _ _ _ _ D), P1, P3. reflexivity. }
  assert (HG : Qsum (map w_margin ws) == Qsum (map (short_margin bar p) (p_symbols p))).
  { apply SUM. intros w D H. destruct (parts _ H _ (ds_close _ _ _ _ D)) as [P1 [P2 [P3 P4]]]. rewrite (ds_margin _ _ _ _ D), P4. reflexivity. }
  assert (HN : Qsum (map (fun w => (w_long w + w_short w) * w_close w) ws) == Qsum (map (fun s => long_part bar p s + short_margin bar p s) (p_symbols p))).
  { apply SUM. intros w D H. destruct (parts _ H _ (ds_close _ _ _ _ D)) as [P1 [P2 [P3 P4]]]. rewrite P1, P4, (ds_long _ _ _ _ D), (ds_short _ _ _ _ D). ring. }
  rewrite sum_add in HN. pose proof (ca_eq _ _ _ _ _ CA) as Q1. pose proof (ca_mv _ _ _ _ _ CA) as Q2. pose proof (ca_margin _ _ _ _ _ CA) as Q3.
  constructor.
  - rewrite E1, E4, HM. exact Q1.
  - rewrite E5, E4, HQ. exact Q2.
  - rewrite E2, HG. exact Q3.
  - rewrite E7, HN, Q3. reflexivity.
  - rewrite sum_sub, E6, HM, HQ, Q1, Q2. lra.
Qed.
End Totals.

(** Histories. *)
Lemma rec_snoc c f ops o : run_rec c f (ops ++ [o]) = exec_rec c f (run_rec c f ops) o.
Proof. unfold run_rec. now rewrite fold_left_app. Qed.
Lemma rec_port c f ops b : run_rec c f ops = Some b -> run c ops = Some (k_port b).
Proof. intro E. rewrite <- (run_erase c f ops), E. reflexivity. Qed.
Lemma rec_ind c f (P : list op -> books -> Prop) : P [] (books0 c) -> (forall ops b o b', run_rec c f ops = Some b -> P ops b -> exec_rec c f (Some b) o = Some b' -> P (ops ++ [o]) b') ->
  forall ops b, run_rec c f ops = Some b -> P ops b.
Proof.
  intros H0 H1 ops. induction ops as [|o ops IH] using rev_ind; intros b E; [injection E as <-; exact H0|].
  rewrite rec_snoc in E. destruct (run_rec c f ops) as [b0|] eqn:R; [|discriminate]. eapply H1; eauto.
Qed.
Lemma other_calls c f b o b' : exec_rec c f (Some b) o = Some b' ->
  (match o with OpCapture _ _ => False | _ => True end -> k_rows b' = k_rows b /\ k_bars b' = k_bars b) /\
  (match o with OpCheckStops _ _ _ => f_stops f = false | _ => True end -> k_stops b' = k_stops b).
Proof.
  unfold exec_rec. destruct o; try (destruct (step c _ (k_port b)) as [q u|q [| | |]]; try discriminate; intros [= <-]; auto).
  - destruct (check_stops_rec c (f_stops f) date sc sm (k_port b) (k_stops b)) as [q lg|q [| | |]] eqn:E; try discriminate; intros [= <-]; cbn; auto.
    split; auto. intros F. rewrite F in E. revert E. clear. 
    assert (OFF : forall r : res (executed * list srec), forall log, match r with Ret _ (_, g) => g = log | Raise _ _ => True end ->
       forall s id, match check_price_stop_rec c false date sc sm s id r with Ret _ (_, g) => g = log | Raise _ _ => True end).
    { intros [p [ex g]|p x] log H s id; [|exact I]. cbn. destruct (aget id _); [|exact I]. destruct (is_triggered _ _); [exact H|]. destruct (aget s _); [|exact H].
      destruct (find_entry _ _); [|exact I]. destruct (negb _); [exact I|]. destruct (trigger_stop_rec _ _ _ _ _ _ _ _) as [? [? ?]|]; auto. }
    assert (PL : forall l (r : res (executed * list srec)) log, match r with Ret _ (_, g) => g = log | Raise _ _ => True end ->
       match price_loop_rec c false date sc sm l r with Ret _ (_, g) => g = log | Raise _ _ => True end).
    { induction l as [|[s ids] l IH]; intros r log H; [exact H|]. rewrite price_cons. apply IH. destruct (sc_can_price sc s); [|exact H].
      revert r H. induction ids as [|i ids IHi]; intros r H; [exact H|]. cbn [fold_left]. apply IHi. now apply OFF. }
    assert (SL : forall l sd s eid (r : res (executed * list srec)) log, match r with Ret _ (_, g) => g = log | Raise _ _ => True end ->
       match bar_stops_loop_rec c false date sc sm sd s eid l r with Ret _ (_, g) => g = log | Raise _ _ => True end).
    { induction l as [|t l IH]; intros sd s eid r log H; [destruct r as [? [? ?]|]; exact H|]. destruct r as [p [ex g]|]; [|exact I]. cbn [bar_stops_loop_rec].
      destruct (st_type t); try (apply IH; exact H). destruct (aget s _); [|exact I]. destruct (find_entry _ _); [|exact I]. destruct (negb _); [exact I|].
      destruct (trigger_stop_rec _ _ _ _ _ _ _ _) as [? [[|] ?]|]; auto. apply IH. exact H. }
    assert (EL : forall l sd s (r : res (executed * list srec)) log, match r with Ret _ (_, g) => g = log | Raise _ _ => True end ->
       match bar_entries_loop_rec c false date sc sm sd s l r with Ret _ (_, g) => g = log | Raise _ _ => True end).
    { induction l as [|e l IH]; intros sd s r log H; [exact H|]. unfold bar_entries_loop_rec. cbn [fold_left]. apply IH. destruct r as [p [ex g]|]; [|exact I].
      destruct (is_triggered _ _); [exact H|]. now apply SL. }
    assert (BL : forall l sd (r : res (executed * list srec)) log, match r with Ret _ (_, g) => g = log | Raise _ _ => True end ->
       match bar_loop_rec c false date sc sm sd l r with Ret _ (_, g) => g = log | Raise _ _ => True end).
    { induction l as [|kv l IH]; intros sd r log H; [exact H|]. rewrite bars_cons. apply IH. destruct (sc_can_price _ _); [|exact H]. now apply EL. }
    intro E. unfold check_stops_rec in E. cbn zeta in E.
    match type of E with context [price_loop_rec c false date sc sm ?a ?r] => pose proof (PL a r (k_stops b) eq_refl) as H1; destruct (price_loop_rec c false date sc sm a r) as [p1 [e1 g1]|]; [|discriminate] end.
    match type of E with context [bar_loop_rec c false date sc sm Long ?a ?r] => pose proof (BL a Long r (k_stops b) H1) as H2; destruct (bar_loop_rec c false date sc sm Long a r) as [p2 [e2 g2]|]; [|discriminate] end.
    match type of E with context [bar_loop_rec c false date sc sm Short ?a ?r] => pose proof (BL a Short r (k_stops b) H2) as H3; destruct (bar_loop_rec c false date sc sm Short a r) as [p3 [e3 g3]|]; [|discriminate] end.
    injection E as _ <-. exact H3.
  - destruct (capture_bar_rec c (f_rows f) (f_bars f) date bar (k_port b) (k_rows b) (k_bars b)) as [[q rows] bars]. intros [= <-]. cbn. split; [intros []|auto].
Qed.
Lemma rows_off c recb d bar p rows bars : snd (fst (capture_bar_rec c false recb d bar p rows bars)) = rows.
Proof.
  unfold capture_bar_rec. cbn zeta. assert (X : forall l st, snd (fold_left (capture_sym false d bar) l st) = snd st).
  { induction l as [|s l IH]; intro st; [reflexivity|]. cbn [fold_left]. rewrite IH. destruct st. reflexivity. }
  match goal with |- context [fold_left (capture_sym false d bar) ?l ?st] => specialize (X l st); destruct (fold_left (capture_sym false d bar) l st) as [[a q] r] end. cbn [snd] in X. cbn. exact X.
Qed.
Lemma capture_step c f ops b d bar b' : cfg_ok c -> run_rec c f ops = Some b -> exec_rec c f (Some b) (OpCapture d bar) = Some b' ->
  exists ws pb, p_bars (k_port b') = p_bars (k_port b) ++ [pb] /\ k_bars b' = k_bars b ++ (if f_bars f then [pb] else []) /\
    k_rows b' = k_rows b ++ (if f_rows f then ws else []) /\
    one_row_each (k_port b) bar ws /\ Forall (describes (k_port b) d bar) ws /\ (all_closes bar (k_port b) -> adds_up ws pb).
Proof.
  intros K R E. pose proof (run_good _ _ _ K (rec_port _ _ _ _ R)) as G. unfold exec_rec in E.
  destruct (capture_bar_rec c (f_rows f) (f_bars f) d bar (k_port b) (k_rows b) (k_bars b)) as [[q rows] bars] eqn:CE. injection E as <-. cbn [k_port k_rows k_bars].
  destruct (capture_rec_bars _ _ _ _ _ _ _ _ _ _ _ CE) as [pb [B1 B2]]. pose proof (capture_rec_port c (f_rows f) (f_bars f) d bar (k_port b) (k_rows b) (k_bars b)) as CP. rewrite CE in CP. cbn [fst] in CP.
  exists (rows_at d bar (k_port b) (sort_nat (p_symbols (k_port b)))), pb. split; auto. split; [rewrite B2; destruct (f_bars f); [reflexivity|now rewrite app_nil_r]|].
  split.
  { destruct (f_rows f); [eapply capture_rows; [apply (co_syms_nodup _ _ (gd_core _ _ G))|exact CE]|].
    pose proof (rows_off c (f_bars f) d bar (k_port b) (k_rows b) (k_bars b)) as X. rewrite CE in X. cbn in X. now rewrite app_nil_r. }
  split; [apply (rows_each c (k_port b) bar G)|]. split; [apply (rows_describe c (k_port b) bar G)|].
  intro AC. apply (totals c (k_port b) bar d G AC). exists q. split; auto. rewrite CP. now apply capture_ok.
Qed.
Lemma bars_recorded c f ops b : cfg_ok c -> run_rec c f ops = Some b -> k_bars b = if f_bars f then p_bars (k_port b) else [].
Proof.
  intro K. apply (rec_ind c f (fun _ b => k_bars b = if f_bars f then p_bars (k_port b) else [])); [destruct (f_bars f); reflexivity|].
  intros ops0 b0 o b' R IH E.
  destruct (match o with OpCapture _ _ => true | _ => false end) eqn:OC.
  - destruct o; try discriminate. unfold exec_rec in E. destruct (capture_bar_rec c (f_rows f) (f_bars f) date bar (k_port b0) (k_rows b0) (k_bars b0)) as [[q rows] bars] eqn:CE. injection E as <-.
    destruct (capture_rec_bars _ _ _ _ _ _ _ _ _ _ _ CE) as [pb [B1 B2]]. cbn. rewrite B2, B1, IH. destruct (f_bars f); reflexivity.
  - destruct (other_calls _ _ _ _ _ E) as [H _]. destruct H as [_ ->]; [destruct o; auto; discriminate|]. rewrite IH. destruct (f_bars f); [|reflexivity].
    pose proof (exec_erase c f b0 o) as X. rewrite E in X. cbn [option_map] in X.
    pose proof (exec_bars c o (k_port b0) (k_port b') K (run_good _ _ _ K (rec_port _ _ _ _ R)) (eq_sym X)) as Y. destruct o; try discriminate; symmetry; exact Y.
Qed.
