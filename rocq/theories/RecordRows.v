(** Position rows and portfolio rows of a captured bar. *)
From Coq Require Import List Bool Arith Lia ZArith QArith Lqa Sorting.Permutation Sorting.Sorted.
From Verif Require Export RecordSpec.
From Verif Require Import Prelude Lemmas PortfolioFacts PortfolioRun PortfolioCapture.
Import ListNotations.
Open Scope list_scope.
Open Scope Q_scope.

(** ** Recording changes nothing *)
Lemma capture_fold rec d bar l : forall ap rows, fst (fold_left (capture_sym rec d bar) l (ap, rows)) = fold_left (cap_step bar) l ap.
Proof. induction l as [|s l IH]; intros ap rows; [reflexivity|]. cbn [fold_left]. unfold capture_sym at 2. now rewrite IH. Qed.
Lemma capture_rec_port c rec recb d bar p rows bars : fst (fst (capture_bar_rec c rec recb d bar p rows bars)) = capture_bar c d bar p.
Proof.
  unfold capture_bar_rec, capture_bar. set (p0 := apply_interest c p). set (nc := p_cash p0 - margin_loan c p0).
  pose proof (capture_fold rec d bar (sort_nat (p_symbols p0)) (mkAcc nc nc 0 0, p0) rows) as X. unfold cap_step in X.
  destruct (fold_left (capture_sym rec d bar) _ _) as [[a q] rows']. cbn [fst] in X. rewrite <- X. reflexivity.
Qed.
Lemma cap_bars bar l : forall st, p_bars (snd (fold_left (cap_step bar) l st)) = p_bars (snd st).
Proof.
  induction l as [|s l IH]; intros [a r]; cbn [fold_left]; auto. rewrite IH. unfold cap_step, capture_long, capture_short.
  destruct (aget s (p_longs r)); destruct (bar s) as [[[? ?] ?]|]; cbn; destruct (aget s (p_shorts r)); reflexivity.
Qed.
Lemma capture_rec_bars c rec recb d bar p rows bars p' rows' bars' : capture_bar_rec c rec recb d bar p rows bars = (p', rows', bars') ->
  exists b, p_bars p' = p_bars p ++ [b] /\ bars' = if recb then bars ++ [b] else bars.
Proof.
  intro E. pose proof (capture_rec_port c rec recb d bar p rows bars) as P. rewrite E in P. cbn [fst] in P.
  unfold capture_bar_rec in E. set (p0 := apply_interest c p) in *. set (nc := p_cash p0 - margin_loan c p0) in *.
  pose proof (capture_fold rec d bar (sort_nat (p_symbols p0)) (mkAcc nc nc 0 0, p0) rows) as X.
  destruct (fold_left (capture_sym rec d bar) _ _) as [[a q] rows'']. cbn [fst] in X.
  match type of E with (set_p_bars (_ ++ [?b]) _, _, _) = _ => exists b end. injection E as E1 _ E2. split; [|now subst].
  rewrite <- E1. cbn [p_bars set_p_bars invalidate set_p_margin set_p_mv set_p_equity].
  assert (Y : p_bars q = p_bars p0).
  { pose proof (cap_bars bar (sort_nat (p_symbols p0)) (mkAcc nc nc 0 0, p0)) as Y. rewrite <- X in Y. exact Y. }
  assert (Z : p_bars p0 = p_bars p).
  { unfold p0, apply_interest. destruct (c_bpy c); auto. destruct (Qle_bool _ _); auto. destruct (Qeq_bool _ _); [unfold sweep; destruct (_ || _); auto|].
    destruct (Qltb _ _); unfold sweep; destruct (_ || _); auto. }
  cbn. now rewrite Y, Z.
Qed.
(** ** The rows *)
Definition rows_at (d : Z) (bar : bar_fn) (p : port) (l : list sym) : list prow :=
  flat_map (fun s => row_of d s (bar s) (option_map (mark Long (bar s)) (aget s (p_longs p))) (option_map (mark Short (bar s)) (aget s (p_shorts p)))) l.
Lemma rows_fold d bar l : forall a p rows, NoDup l -> snd (fold_left (capture_sym true d bar) l (a, p, rows)) = rows ++ rows_at d bar p l.
Proof.
  induction l as [|s l IH]; intros a p rows ND; [cbn; now rewrite app_nil_r|]. apply NoDup_cons_iff in ND. destruct ND as [N ND].
  cbn [fold_left]. pose proof (cap_step_ok bar a p s) as ST. unfold capture_sym at 2. fold (cap_step bar (a, p) s).
  destruct (cap_step bar (a, p) s) as [a1 q1]. cbn [snd]. destruct ST as [_ [_ [G _]]]. rewrite IH by auto. rewrite <- app_assoc. f_equal.
  pose proof (G Long s) as G1. pose proof (G Short s) as G2. rewrite Nat.eqb_refl in G1, G2. cbn [poss] in G1, G2. rewrite G1, G2.
  unfold rows_at. cbn [flat_map]. f_equal. rewrite !flat_map_concat_map. f_equal. apply map_ext_in. intros s' I.
  assert (NE : Nat.eqb s' s = false) by (apply Nat.eqb_neq; intros ->; contradiction).
  pose proof (G Long s') as G3. pose proof (G Short s') as G4. rewrite NE in G3, G4. cbn [poss] in G3, G4. now rewrite G3, G4.
Qed.
Lemma interest_syms c p : p_symbols (apply_interest c p) = p_symbols p /\ p_longs (apply_interest c p) = p_longs p /\ p_shorts (apply_interest c p) = p_shorts p.
Proof.
  assert (S0 : p_symbols (sweep p) = p_symbols p /\ p_longs (sweep p) = p_longs p /\ p_shorts (sweep p) = p_shorts p) by (unfold sweep; destruct (_ || _); auto).
  unfold apply_interest. destruct (c_bpy c); auto. destruct (Qle_bool _ _); auto. destruct (Qeq_bool _ _); auto. destruct (Qltb _ _); exact S0.
Qed.
Lemma capture_rows c recb d bar p rows bars p' rows' bars' : NoDup (p_symbols p) -> capture_bar_rec c true recb d bar p rows bars = (p', rows', bars') ->
  rows' = rows ++ rows_at d bar p (sort_nat (p_symbols p)).
Proof.
  intros ND E. unfold capture_bar_rec in E. destruct (interest_syms c p) as [I1 [I2 I3]]. rewrite I1 in E.
  match type of E with context [fold_left ?F ?l (?a, ?q, ?r)] => pose proof (rows_fold d bar l a q r) as X end.
  assert (ND2 : NoDup (sort_nat (p_symbols p))) by (eapply Permutation_NoDup; [apply sort_nat_perm|exact ND]). specialize (X ND2).
  destruct (fold_left (capture_sym true d bar) _ _) as [[a q] rows'']. cbn [snd] in X. injection E as _ <- _. rewrite X. f_equal.
  unfold rows_at. now rewrite I2, I3.
Qed.
Lemma insert_sorted x l : StronglySorted lt l -> ~ In x l -> StronglySorted lt (insert_nat x l).
Proof.
  induction 1 as [|y r S IH F]; intros N; cbn; [repeat constructor|]. destruct (Nat.leb x y) eqn:E.
  - apply Nat.leb_le in E. assert (x <> y) by (intros ->; apply N; now left). constructor; [constructor; auto|]. constructor; [lia|].
    eapply Forall_impl; [|exact F]. intros; lia.
  - apply Nat.leb_gt in E. constructor; [apply IH; intro; apply N; now right|]. rewrite Forall_forall in *. intros z Iz.
    assert (P := insert_nat_perm x r). apply (Permutation_in _ (Permutation_sym P)) in Iz. destruct Iz as [<-|Iz]; auto.
Qed.
Lemma sort_sorted l : NoDup l -> StronglySorted lt (sort_nat l).
Proof.
  induction 1 as [|x l N D IH]; cbn; [constructor|]. fold (sort_nat l). apply insert_sorted; auto. intro I. apply N.
  eapply Permutation_in; [apply Permutation_sym, sort_nat_perm|exact I].
Qed.
Lemma row_syms d bar p l : map w_sym (rows_at d bar p l) = filter (fun s => match close_of bar s with Some _ => true | None => false end) l.
Proof.
  induction l as [|s l IH]; [reflexivity|]. unfold rows_at. cbn [flat_map filter]. fold (rows_at d bar p l). rewrite map_app, IH. unfold row_of, close_of.
  destruct (bar s) as [[[cl lo] hi]|]; [|reflexivity]. destruct (option_map _ (aget s (p_longs p))); destruct (option_map _ (aget s (p_shorts p))); reflexivity.
Qed.
Lemma sorted_filter {A} (R : A -> A -> Prop) f l : StronglySorted R l -> StronglySorted R (filter f l).
Proof.
  induction 1 as [|x l S IH F]; cbn; [constructor|]. destruct (f x); auto. constructor; auto. rewrite Forall_forall in *. intros y I. apply filter_In in I. apply F, I.
Qed.
Section At.
Variable c : cfg.
Variable p : port.
Variable bar : bar_fn.
Hypothesis G : Good c p.
Let C := gd_core _ _ G.
Lemma symbols_held s : In s (p_symbols p) <-> is_held p s.
Proof.
  rewrite (co_syms _ _ C s). unfold is_held, position_of. split.
  - intros [sd I]. exists sd. apply ahas_true in I. unfold ahas in I. destruct (aget s (poss sd p)); [discriminate|discriminate I].
  - intros [sd I]. exists sd. destruct (aget s (poss sd p)) as [pos|] eqn:E; [|congruence]. eapply aget_Some_key; eauto.
Qed.
Lemma rows_each d : one_row_each p bar (rows_at d bar p (sort_nat (p_symbols p))).
Proof.
  unfold one_row_each. rewrite row_syms. split; [apply sorted_filter, sort_sorted, (co_syms_nodup _ _ C)|]. intro s. rewrite filter_In.
  rewrite <- symbols_held. assert (P := sort_nat_perm (p_symbols p)). split.
  - intros [I F]. split; [eapply Permutation_in; [apply Permutation_sym, P|exact I]|]. destruct (close_of bar s); [discriminate|discriminate F].
  - intros [I F]. split; [eapply Permutation_in; [exact P|exact I]|]. destruct (close_of bar s); [reflexivity|congruence].
Qed.
Lemma upnl_gain sd es x : Qsum (map (entry_upnl sd x) es) == Qsum (map (fun e => e_shares e * gain sd (e_price e) x) es).
Proof. induction es as [|e r IH]; cbn [map Qsum]; [reflexivity|]. rewrite IH. destruct sd; cbn; lra. Qed.
Lemma notional_cost sd s pos : aget s (poss sd p) = Some pos -> ps_notional pos == cost_of p sd s.
Proof. intro E. unfold cost_of, queue, position_of. rewrite E. apply (po_notional _ _ _ _ (co_pos _ _ C sd s pos E)). Qed.
Lemma margin_back s pos x : aget s (poss Short p) = Some pos -> x * ps_shares pos + Qsum (map (entry_upnl Short x) (ps_entries pos)) == cost_of p Short s.
Proof.
  intro E. unfold cost_of, queue, position_of. rewrite E. rewrite (po_shares _ _ _ _ (co_pos _ _ C Short s pos E)).
  induction (ps_entries pos) as [|e r IH]; cbn [map Qsum entry_upnl]; [lra|]. rewrite Qmult_plus_distr_r. lra.
Qed.
Lemma row_describes d s w : In w (row_of d s (bar s) (option_map (mark Long (bar s)) (aget s (p_longs p))) (option_map (mark Short (bar s)) (aget s (p_shorts p)))) ->
  describes p d bar w /\ w_sym w = s.
Proof.
  unfold row_of. destruct (bar s) as [[[x lo] hi]|] eqn:B; [|intros []].
  assert (CL : close_of bar s = Some x) by (unfold close_of; now rewrite B).
  assert (L : forall pos, aget s (poss Long p) = Some pos -> ps_type pos = Long) by (intros pos E; apply (po_type _ _ _ _ (co_pos _ _ C Long s pos E))).
  assert (S : forall pos, aget s (poss Short p) = Some pos -> ps_type pos = Short) by (intros pos E; apply (po_type _ _ _ _ (co_pos _ _ C Short s pos E))).
  destruct (aget s (p_longs p)) as [l|] eqn:EL; destruct (aget s (p_shorts p)) as [h|] eqn:ES; cbn [option_map]; intros [<-|[]]; (split; [|reflexivity]).
  - exfalso. apply (co_disj _ _ C Long s); eapply aget_Some_key; [exact EL|exact ES].
  - constructor; cbn [w_date w_sym w_close w_long w_short w_upnl w_margin w_equity w_mv]; auto;
    unfold shares_held, gain_of, cost_of, queue, position_of; cbn [poss]; rewrite ?EL, ?ES; cbn [map Qsum]; cbn -[Qplus Qmult Qsum entry_upnl gain].
    + lra.
    + lra.
    + rewrite (L l EL), upnl_gain. lra.
    + lra.
    + lra.
    + lra.
  - constructor; cbn [w_date w_sym w_close w_long w_short w_upnl w_margin w_equity w_mv]; auto;
    unfold shares_held, gain_of, queue, position_of; cbn [poss]; rewrite ?EL, ?ES; cbn [map Qsum]; cbn -[Qplus Qmult Qsum entry_upnl gain].
    + lra.
    + lra.
    + rewrite (S h ES), upnl_gain. lra.
    + lra.
    + rewrite (S h ES), upnl_gain, (notional_cost Short s h ES). lra.
    + rewrite (S h ES). pose proof (margin_back s h x ES). lra.
  - constructor; cbn [w_date w_sym w_close w_long w_short w_upnl w_margin w_equity w_mv]; auto;
    unfold shares_held, gain_of, cost_of, queue, position_of; cbn [poss]; rewrite ?EL, ?ES; cbn [map Qsum]; lra.
Qed.
Lemma rows_describe d : Forall (describes p d bar) (rows_at d bar p (sort_nat (p_symbols p))).
Proof. apply Forall_forall. intros w I. apply in_flat_map in I. destruct I as [s [_ I]]. exact (proj1 (row_describes d s w I)). Qed.
(** Sums over the rows are sums over the symbols. *)
Lemma rows_sum d (f : prow -> Q) (g : sym -> Q) l : (forall s, In s l -> is_held p s) -> all_closes bar p ->
  (forall w, describes p d bar w -> f w == g (w_sym w)) -> Qsum (map f (rows_at d bar p l)) == Qsum (map g l).
Proof.
  intros H A E. induction l as [|s l IH]; [reflexivity|]. unfold rows_at. cbn [flat_map]. fold (rows_at d bar p l). rewrite map_app.
  assert (QA : forall a b, Qsum (a ++ b) == Qsum a + Qsum b) by (induction a as [|z a IHa]; intro b; cbn [app Qsum]; [lra|rewrite IHa; lra]).
  rewrite QA, IH by (intros; apply H; now right). cbn [map Qsum]. pose proof (row_describes d s) as RD. pose proof (row_syms d bar p [s]) as RS.
  unfold rows_at in RS. cbn [flat_map filter] in RS. rewrite app_nil_r in RS.
  destruct (H s (or_introl eq_refl)) as [sd HS]. specialize (A sd s HS). destruct (close_of bar s) as [x|]; [|congruence].
  destruct (row_of d s (bar s) _ _) as [|w [|w2 r]]; cbn [map] in RS; [discriminate| |discriminate]. destruct (RD w (or_introl eq_refl)) as [D1 D2].
  cbn [map Qsum]. rewrite (E w D1), D2. lra.
Qed.
End At.
