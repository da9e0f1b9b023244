From Coq Require Import List Bool Arith Lia ZArith QArith Lqa.
From Verif Require Import PortfolioSpec PortfolioFacts PortfolioCapture PortfolioValue EvalModel EvalSpec.
Import ListNotations.
Open Scope list_scope.
Open Scope Q_scope.

Lemma no_capture_no_bars c : cfg_ok c -> forall ops p, run c ops = Some p -> Forall (fun o => ~ captures o) ops -> p_bars p = [].
Proof.
  intros K ops p R. revert ops p R. apply (hist_ind c (fun ops p => Forall (fun o => ~ captures o) ops -> p_bars p = []) K); [reflexivity|].
  intros ops p o p' R G IH E G' _ F. apply Forall_app in F. destruct F as [F F2]. inversion F2 as [|x y N _]; subst.
  pose proof (exec_bars c o p p' K G E) as B. destruct o; cbn in N; try (rewrite B; now apply IH). tauto.
Qed.
Lemma run_app_some c a b p : run c (a ++ b) = Some p -> exists q, run c a = Some q.
Proof.
  unfold run. rewrite fold_left_app. intro H. destruct (fold_left (exec c) a (Some (init c))) as [q|]; [now exists q|].
  rewrite fold_exec_none in H. discriminate.
Qed.
Lemma bars_grow c a : cfg_ok c -> forall b p q, run c a = Some q -> run c (a ++ b) = Some p -> exists r, p_bars p = p_bars q ++ r.
Proof.
  intros K b. induction b as [|o b IH] using rev_ind; intros p q Rq Rp.
  - rewrite app_nil_r in Rp. exists []. rewrite app_nil_r. congruence.
  - rewrite app_assoc in Rp. destruct (run_app_some _ _ _ _ Rp) as [p1 R1].
    destruct (IH p1 q Rq R1) as [r E]. rewrite run_snoc, R1 in Rp.
    pose proof (run_good c _ _ K R1) as G. pose proof (exec_bars c o p1 p K G Rp) as B.
    destruct o; try (exists r; now rewrite B).
    destruct (ca_bars _ _ _ _ _ (capture_ok c date bar p1 K G)) as [bb [Eb _]].
    exists (r ++ [bb]). rewrite B, Eb, E. now rewrite app_assoc.
Qed.
Lemma fold_qsum l : fold_left Qplus l 0 == Qsum l.
Proof.
  assert (H : forall a, fold_left Qplus l a == a + Qsum l); [|rewrite H; lra].
  induction l as [|x l IH]; intro a; cbn; [lra|]. rewrite IH. unfold Qsum. lra.
Qed.

Theorem metric_exact c ops0 d0 bar0 p0 ops1 p d bar : cfg_ok c ->
  Forall (fun o => ~ captures o) ops0 -> run c ops0 = Some p0 -> run c (ops0 ++ OpCapture d0 bar0 :: ops1) = Some p ->
  all_closes bar0 p0 -> all_closes bar p ->
  unrealized_metric (capture_bar c d bar p) ==
    (unrealized bar p Long + unrealized bar p Short) - (realized p0 + unrealized bar0 p0 Long + unrealized bar0 p0 Short)
    + (interest_paid c (ops0 ++ OpCapture d0 bar0 :: ops1 ++ [OpCapture d bar]) - interest_paid c (ops0 ++ [OpCapture d0 bar0])).
Proof.
  intros K N R0 R A0 A.
  destruct (captured_value c ops0 p0 d0 bar0 K R0 A0) as [M0 [_ [b0 [B0 [_ [V0 [_ [_ [F0 _]]]]]]]]].
  destruct (captured_value c _ p d bar K R A) as [M [_ [b [B [_ [V [_ [_ [F _]]]]]]]]].
  rewrite (no_capture_no_bars c K ops0 p0 R0 N) in B0. cbn [app] in B0.
  assert (R1 : run c (ops0 ++ [OpCapture d0 bar0]) = Some (capture_bar c d0 bar0 p0)) by (rewrite run_snoc, R0; reflexivity).
  assert (R' : run c ((ops0 ++ [OpCapture d0 bar0]) ++ ops1) = Some p) by (rewrite <- app_assoc; exact R).
  destruct (bars_grow c _ K ops1 p _ R1 R') as [r E]. rewrite B0 in E. cbn [app] in E.
  assert (MET : unrealized_metric (capture_bar c d bar p) ==
                b_mv b - b_mv b0 - realized p + (b_fees b - b_fees b0)).
  { unfold unrealized_metric. rewrite B, E. cbn [app].
    assert (T : p_trades (capture_bar c d bar p) = p_trades p) by apply (ca_trades _ _ _ _ _ (capture_ok c d bar p K (run_good c _ _ K R))).
    rewrite T. destruct (r ++ [b]) as [|x y] eqn:X; [destruct r; discriminate|].
    rewrite <- X, last_last, fold_qsum. reflexivity. }
  assert (G0 := run_good c _ _ K R0). assert (G := run_good c _ _ K R).
  assert (P0 : b_fees b0 == fees_paid p0).
  { rewrite F0, (ca_fees _ _ _ _ _ (capture_ok c d0 bar0 p0 K G0)). apply (ld_fees _ _ _ (gd_led _ _ G0)). }
  assert (P : b_fees b == fees_paid p).
  { rewrite F, (ca_fees _ _ _ _ _ (capture_ok c d bar p K G)). apply (ld_fees _ _ _ (gd_led _ _ G)). }
  rewrite MET, P, P0, V, V0, M, M0. rewrite <- app_assoc. cbn [app]. lra.
Qed.
Lemma no_rate_no_interest c : cfg_ok c -> rate_per_bar c == 0 -> forall ops p, run c ops = Some p -> interest_paid c ops == 0.
Proof.
  intros K Z ops p R. rewrite (interest_bars c ops p K R). unfold interest_total. rewrite rate_eq in Z.
  induction (p_bars p) as [|b l IH]; [reflexivity|]. cbn [map Qsum fold_right] in *. rewrite IH.
  unfold Qdiv. rewrite Z. lra.
Qed.
