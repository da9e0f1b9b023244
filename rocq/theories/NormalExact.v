(** The distance of [normal_cdf] from the normal law (C97). *)
From Coq Require Import Lra Lia QArith Qreals List Machin Ratan.
From Verif Require Import NormalPoly NormalBounds.
From Verif Require Export NormalProofs NormalSpec.
Import ListNotations.
Open Scope R_scope.

Definition c0 : R := 2316419 / 10000000.
Definition t_of (z : R) : R := 1 / (1 + z * c0).

(** [c0] times the error of the slope, as a polynomial in [t]. *)
Definition slope_error : list Q :=
  [(-8773963) # 100000000; 21123291 # 31250000; (-21551790835027909702833) # 10000000000000000000000;
   91024972307951350993851 # 25000000000000000000000; (-343830187521905219580971) # 100000000000000000000000;
   21514675279022419488829 # 12500000000000000000000; (-7137982518436531661669) # 20000000000000000000000]%Q.
Definition g (z : R) : R := 1 - z * poly_at (t_of z) - c0 * t_of z ^ 2 * poly_slope (t_of z).

Lemma t_range z : 0 <= z -> 0 < t_of z <= 1.
Proof.
  intro Z. unfold t_of. assert (0 < c0) by (unfold c0; lra). assert (D : 1 <= 1 + z * c0) by nra. split; [apply Rdiv_lt_0_compat; lra|].
  apply (Rmult_le_reg_r (1 + z * c0)); [lra|]. unfold Rdiv. rewrite Rmult_assoc, Rinv_l; lra.
Qed.

Lemma g_poly z : 0 <= z -> peval slope_error (t_of z) = c0 * g z.
Proof.
  intro Z. destruct (t_range z Z) as [T _]. assert (C : 0 < c0) by (unfold c0; lra).
  assert (E : z * t_of z * c0 = 1 - t_of z) by (unfold t_of; field; nra).
  unfold g. set (t := t_of z) in *. transitivity (c0 - (z * t * c0) * ((((1330274429 / 1000000000) * t - (1821255978 / 1000000000)) * t + (1781477937 / 1000000000)) * t * t - (356563782 / 1000000000) * t + (319381530 / 1000000000)) - c0 ^ 2 * t ^ 2 * poly_slope t).
  - rewrite E. unfold slope_error, peval, poly_slope, c0, Q2R. cbn [Qnum Qden]. field.
  - unfold poly_at. ring.
Qed.

Lemma pdf_bell z : pdf_at z = bell z.
Proof. unfold pdf_at, bell. f_equal. f_equal. field. Qed.

Lemma bell_derives z : derivable_pt_lim pdf_at z (- z * pdf_at z).
Proof.
  unfold pdf_at. pose proof pi_lower as P. assert (S1 : 0 < sqrt (2 * PI)) by (apply sqrt_lt_R0; lra).
  replace (- z * (exp (- (5 / 10) * z * z) / sqrt (2 * PI))) with ((exp (- (5 / 10) * z * z) * (- z)) * / sqrt (2 * PI)) by (field; lra).
  unfold Rdiv at 2.
  assert (H : derivable_pt_lim (fun zz => exp (- (5 / 10) * zz * zz)) z (exp (- (5 / 10) * z * z) * (- z))).
  { apply (derivable_pt_lim_comp (fun zz => - (5 / 10) * zz * zz) exp); [|apply derivable_pt_lim_exp].
    replace (- z) with ((- (5 / 10) * 1) * z + (- (5 / 10) * z) * 1) by field.
    apply (derivable_pt_lim_mult (fun zz => - (5 / 10) * zz) (fun zz => zz)); [|apply derivable_pt_lim_id].
    apply (derivable_pt_lim_scal (fun zz => zz)), derivable_pt_lim_id. }
  pose proof (derivable_pt_lim_mult _ (fun _ => / sqrt (2 * PI)) z _ 0 H (derivable_pt_lim_const _ _)) as K.
  unfold mult_fct in K. rewrite Rmult_0_r, Rplus_0_r in K. exact K.
Qed.

Lemma t_derives z : 0 <= z -> derivable_pt_lim t_of z (- (c0 * t_of z ^ 2)).
Proof.
  intro Z. assert (C : 0 < c0) by (unfold c0; lra). assert (D : 1 + z * c0 <> 0) by nra.
  assert (H : derivable_pt_lim (fun y => 1 + y * c0) z c0).
  { assert (H : derivable_pt_lim (fun y => 1 + y * c0) z (0 + (1 * c0 + z * 0))).
    { apply (derivable_pt_lim_plus (fun _ => 1) (fun y => y * c0)); [apply derivable_pt_lim_const|].
      apply (derivable_pt_lim_mult (fun y => y) (fun _ => c0)); [apply derivable_pt_lim_id|apply derivable_pt_lim_const]. }
    now replace (0 + (1 * c0 + z * 0)) with c0 in H by ring. }
  pose proof (derivable_pt_lim_div (fun _ => 1) (fun y => 1 + y * c0) z 0 c0 (derivable_pt_lim_const _ _) H D) as K.
  unfold div_fct in K. replace ((0 * (1 + z * c0) - c0 * 1) / Rsqr (1 + z * c0)) with (- (c0 * t_of z ^ 2)) in K; [exact K|].
  unfold t_of, Rsqr. now field.
Qed.

Lemma tail_derives z : 0 <= z -> derivable_pt_lim tail z (bell z * (g z - 1)).
Proof.
  intro Z. pose proof (derivable_pt_lim_comp _ _ z _ _ (t_derives z Z) (poly_derives (t_of z))) as P.
  pose proof (derivable_pt_lim_mult _ _ z _ _ (bell_derives z) P) as K. unfold mult_fct, comp in K.
  match type of K with derivable_pt_lim _ _ ?d => replace d with (bell z * (g z - 1)) in K; [exact K|] end.
  rewrite pdf_bell. unfold g. ring.
Qed.

Section Law.
Context (F : R -> R) (LAW : normal_law F).
Definition err (z : R) : R := tail z - (1 - F z).

Lemma err_derives k z : 0 <= z -> derivable_pt_lim (fun y => err y - k * F y) z (bell z * (g z - k)).
Proof.
  intro Z. unfold err. replace (bell z * (g z - k)) with (bell z * (g z - 1) - (0 - bell z) - k * bell z) by ring.
  destruct LAW as [D _]. apply (derivable_pt_lim_minus (fun y => tail y - (1 - F y)) (fun y => k * F y)).
  - apply (derivable_pt_lim_minus tail (fun y => 1 - F y)); [now apply tail_derives|].
    apply (derivable_pt_lim_minus (fun _ => 1) F); [apply derivable_pt_lim_const|apply D].
  - apply (derivable_pt_lim_scal F), D.
Qed.

Lemma segment a b e : 0 <= a -> a <= b -> 0 <= e < 1 -> (forall z, a <= z <= b -> Rabs (g z) <= e) ->
  Rabs (err b - err a) <= e / (1 - e) * tail a.
Proof.
  intros A [L|<-] [E0 E1] G.
  2:{ rewrite Rminus_diag_eq, Rabs_R0 by reflexivity. apply Rmult_le_pos; [apply Rmult_le_pos; [lra|left; apply Rinv_0_lt_compat; lra]|left; now apply tail_pos]. }
  assert (B : forall z, 0 < bell z) by (intro z; rewrite <- pdf_bell; apply pdf_pos).
  destruct (MVT_cor2 (fun y => err y - e * F y) (fun z => bell z * (g z - e)) a b L) as (u & U & I); [intros; apply err_derives; lra|].
  destruct (MVT_cor2 (fun y => err y - (- e) * F y) (fun z => bell z * (g z - (- e))) a b L) as (v & V & J); [intros; apply err_derives; lra|].
  pose proof (G u ltac:(lra)) as GU.
  assert (GU1 : g u - e <= 0) by (pose proof (Rle_abs (g u)); lra).
  assert (GV1 : 0 <= g v - - e) by (pose proof (G v ltac:(lra)) as GV; pose proof (Rle_abs (- g v)) as Q; rewrite Rabs_Ropp in Q; lra).
  assert (H1 : bell u * (g u - e) * (b - a) <= 0) by (pose proof (B u); apply Ropp_le_cancel; rewrite Ropp_0; replace (- (bell u * (g u - e) * (b - a))) with (bell u * (e - g u) * (b - a)) by ring; apply Rmult_le_pos; [apply Rmult_le_pos|]; lra).
  assert (H2 : 0 <= bell v * (g v - - e) * (b - a)) by (pose proof (B v); apply Rmult_le_pos; [apply Rmult_le_pos|]; lra).
  rewrite <- U in H1. rewrite <- V in H2.
  pose proof (tail_pos b ltac:(lra)) as TB. set (d := F b - F a).
  assert (X1 : err b - err a <= e * d) by (unfold d; lra). assert (X2 : - (e * d) <= err b - err a) by (unfold d; lra).
  assert (X3 : d = tail a - tail b + (err b - err a)) by (unfold d, err; lra).
  assert (X4 : d * (1 - e) <= tail a) by lra.
  assert (X5 : e * d <= e / (1 - e) * tail a).
  { apply (Rmult_le_reg_r (1 - e)); [lra|]. replace (e / (1 - e) * tail a * (1 - e)) with (e * tail a) by (field; lra).
    rewrite Rmult_assoc. apply Rmult_le_compat_l; lra. }
  apply Rabs_le. lra.
Qed.
End Law.

Lemma pi_upper : PI < 3141592655 / 1000000000.
Proof.
  destruct (PI_2_3_7_ineq 4) as [_ L]. cbn [Nat.mul Nat.add sum_f_R0] in L. unfold tg_alt, PI_2_3_7_tg, Ratan_seq in L.
  cbn [Nat.mul Nat.add pow INR] in L. lra.
Qed.

Lemma tail_zero_low : 1 / 2 - 1 / 100000000 <= tail 0.
Proof.
  unfold tail. replace (1 / (1 + 0 * (2316419 / 10000000))) with 1 by field. unfold pdf_at. replace (- (5 / 10) * 0 * 0) with 0 by ring. rewrite exp_0.
  pose proof pi_lower as P. pose proof pi_upper as U. assert (S1 : 0 < sqrt (2 * PI)) by (apply sqrt_lt_R0; lra).
  apply (Rmult_le_reg_r (sqrt (2 * PI))); auto.
  replace (1 / sqrt (2 * PI) * poly_at 1 * sqrt (2 * PI)) with (poly_at 1) by (field; lra).
  assert (Q : sqrt (2 * PI) * sqrt (2 * PI) = 2 * PI) by (apply sqrt_sqrt; lra). assert (sqrt (2 * PI) <= 250662828 / 100000000) by nra.
  unfold poly_at. nra.
Qed.

Lemma g_by_cells w e lo n z : (0 <= w)%Q -> cells slope_error w (e * (2316419 # 10000000)) lo n = true ->
  0 <= z -> Q2R lo <= t_of z -> t_of z < Q2R lo + 2 * Q2R w * INR n -> Rabs (g z) <= Q2R e.
Proof.
  intros W C Z L U. pose proof (cells_ok _ _ _ _ _ _ W C L U) as H. rewrite (g_poly z Z), Rabs_mult, Q2R_mult in H.
  replace (Q2R (2316419 # 10000000)) with c0 in H by (unfold c0, Q2R; cbn; lra). assert (P : 0 < c0) by (unfold c0; lra).
  rewrite (Rabs_pos_eq c0) in H by lra. nra.
Qed.

Lemma t_above z m : 0 <= z -> z <= m -> t_of m <= t_of z.
Proof.
  intros Z L. unfold t_of. assert (0 < c0) by (unfold c0; lra). unfold Rdiv. rewrite !Rmult_1_l. apply Rinv_le_contravar; nra.
Qed.

Lemma g_small z : 0 <= z <= 3 -> Rabs (g z) <= 14 / 1000000.
Proof.
  intros [Z L]. pose proof (t_above z 3 Z L) as T. destruct (t_range z Z) as [_ T1]. unfold t_of at 1 in T. unfold c0 in T.
  replace (14 / 1000000) with (Q2R (14 # 1000000)) by (unfold Q2R; cbn; lra).
  apply (g_by_cells (1 # 400) _ (5899 # 10000) 83); [discriminate|vm_compute; reflexivity|exact Z| |]; unfold Q2R; cbn [Qnum Qden]; [lra|].
  rewrite INR_IZR_INZ. cbn -[IZR]. lra.
Qed.

Lemma g_middle z : 3 <= z <= 4 -> Rabs (g z) <= 3 / 10000.
Proof.
  intros [Z L]. pose proof (t_above z 4 ltac:(lra) L) as T. pose proof (t_above 3 z ltac:(lra) Z) as T1. unfold t_of at 1 in T. unfold t_of at 2 in T1. unfold c0 in T, T1.
  replace (3 / 10000) with (Q2R (3 # 10000)) by (unfold Q2R; cbn; lra).
  apply (g_by_cells (1 # 200) _ (519 # 1000) 8); [discriminate|vm_compute; reflexivity|lra| |]; unfold Q2R; cbn [Qnum Qden]; [lra|].
  rewrite INR_IZR_INZ. cbn -[IZR]. lra.
Qed.

Lemma g_outer z : 4 <= z <= 5 -> Rabs (g z) <= 13 / 10000.
Proof.
  intros [Z L]. pose proof (t_above z 5 ltac:(lra) L) as T. pose proof (t_above 4 z ltac:(lra) Z) as T1. unfold t_of at 1 in T. unfold t_of at 2 in T1. unfold c0 in T, T1.
  replace (13 / 10000) with (Q2R (13 # 10000)) by (unfold Q2R; cbn; lra).
  apply (g_by_cells (1 # 200) _ (463 # 1000) 6); [discriminate|vm_compute; reflexivity|lra| |]; unfold Q2R; cbn [Qnum Qden]; [lra|].
  rewrite INR_IZR_INZ. cbn -[IZR]. lra.
Qed.

Lemma g_far z : 5 <= z -> Rabs (g z) <= 38 / 100.
Proof.
  intros Z. destruct (t_range z ltac:(lra)) as [T _]. pose proof (t_above 5 z ltac:(lra) Z) as T1. unfold t_of at 2 in T1. unfold c0 in T1.
  replace (38 / 100) with (Q2R (38 # 100)) by (unfold Q2R; cbn; lra).
  apply (g_by_cells (1 # 100) _ 0 25); [discriminate|vm_compute; reflexivity|lra| |]; unfold Q2R; cbn [Qnum Qden]; [lra|].
  rewrite INR_IZR_INZ. cbn -[IZR]. lra.
Qed.

Ltac esum_goal := repeat match goal with |- context [zfact ?k] => let v := eval vm_compute in (zfact k) in change (zfact k) with v end.

Lemma exp_inv y k e : 0 <= y -> 0 < e -> e <= esum y k -> exp (- y) <= / e.
Proof. intros Y E L. rewrite exp_Ropp. apply Rinv_le_contravar; auto. eapply Rle_trans; [exact L|]. now apply exp_esum. Qed.

Lemma pdf_below z y b : z * z / 2 = y -> exp (- y) <= b -> pdf_at z <= b * (4 / 10).
Proof.
  intros Y B. unfold pdf_at. replace (- (5 / 10) * z * z) with (- y) by (rewrite <- Y; field).
  pose proof pi_lower as P. assert (S1 : 0 < sqrt (2 * PI)) by (apply sqrt_lt_R0; lra).
  assert (Q : sqrt (2 * PI) * sqrt (2 * PI) = 2 * PI) by (apply sqrt_sqrt; lra). assert (5 / 2 <= sqrt (2 * PI)) by nra.
  pose proof (exp_pos (- y)). unfold Rdiv at 1. apply Rmult_le_compat; try lra; [left; now apply Rinv_0_lt_compat|].
  replace (4 / 10) with (/ (5 / 2)) by field. apply Rinv_le_contravar; lra.
Qed.

Lemma tail_below z b t e : 0 <= z -> pdf_at z <= b * (4 / 10) -> t_of z <= t -> poly_at t <= e -> tail z <= b * (4 / 10) * e.
Proof.
  intros Z B T E. unfold tail. fold c0. fold (t_of z). destruct (t_range z Z) as [T0 _]. pose proof (pdf_pos z). pose proof (poly_pos _ T0).
  assert (poly_at (t_of z) <= poly_at t) by (destruct T as [T| ->]; [left; now apply poly_increasing|lra]).
  apply Rmult_le_compat; lra.
Qed.

Lemma tail_3 : tail 3 <= 2 / 1000.
Proof.
  assert (E : exp (- (9 / 2)) <= / 80) by (apply (exp_inv _ 8); [lra|lra|]; cbn [esum]; esum_goal; lra).
  pose proof (tail_below 3 (/ 80) (6 / 10) (4 / 10) ltac:(lra) (pdf_below 3 (9 / 2) _ ltac:(field) E)) as H. unfold t_of, c0, poly_at in H. lra.
Qed.

Lemma tail_4 : tail 4 <= 1 / 10000.
Proof.
  assert (E : exp (- (16 / 2)) <= / 2000) by (apply (exp_inv _ 14); [lra|lra|]; cbn [esum]; esum_goal; lra).
  pose proof (tail_below 4 (/ 2000) (6 / 10) (4 / 10) ltac:(lra) (pdf_below 4 (16 / 2) _ ltac:(field) E)) as H. unfold t_of, c0, poly_at in H. lra.
Qed.

Lemma tail_5 : tail 5 <= 1 / 1000000.
Proof.
  assert (E : exp (- (25 / 2)) <= / 200000) by (apply (exp_inv _ 20); [lra|lra|]; cbn [esum]; esum_goal; lra).
  pose proof (tail_below 5 (/ 200000) (6 / 10) (4 / 10) ltac:(lra) (pdf_below 5 (25 / 2) _ ltac:(field) E)) as H. unfold t_of, c0, poly_at in H. lra.
Qed.

(** ** Above zero *)
Lemma err_small F z : normal_law F -> 0 <= z -> Rabs (err F z) <= 1 / 100000.
Proof.
  intros LAW Z.
  assert (E0 : Rabs (err F 0) <= 1 / 100000000).
  { unfold err. rewrite (proj2 LAW). pose proof tail_zero. pose proof tail_zero_low. apply Rabs_le. lra. }
  pose proof tail_zero as T0. pose proof tail_3 as T3. pose proof tail_4 as T4. pose proof tail_5 as T5.
  pose proof (tail_pos 0 ltac:(lra)). pose proof (tail_pos 3 ltac:(lra)). pose proof (tail_pos 4 ltac:(lra)). pose proof (tail_pos 5 ltac:(lra)).
  assert (A : forall y, 0 <= y <= 3 -> Rabs (err F y - err F 0) <= 71 / 10000000).
  { intros y Y. eapply Rle_trans; [apply (segment F LAW 0 y (14 / 1000000)); try lra; intros; apply g_small; lra|]. nra. }
  assert (B : forall y, 3 <= y <= 4 -> Rabs (err F y - err F 3) <= 7 / 10000000).
  { intros y Y. eapply Rle_trans; [apply (segment F LAW 3 y (3 / 10000)); try lra; intros; apply g_middle; lra|]. nra. }
  assert (C : forall y, 4 <= y <= 5 -> Rabs (err F y - err F 4) <= 2 / 10000000).
  { intros y Y. eapply Rle_trans; [apply (segment F LAW 4 y (13 / 10000)); try lra; intros; apply g_outer; lra|]. nra. }
  assert (D : forall y, 5 <= y -> Rabs (err F y - err F 5) <= 7 / 10000000).
  { intros y Y. eapply Rle_trans; [apply (segment F LAW 5 y (38 / 100)); try lra; intros; apply g_far; lra|]. nra. }
  assert (TR : forall a b c u v, Rabs (a - b) <= u -> Rabs b <= v -> c = u + v -> Rabs a <= c).
  { intros a b c u v X Y ->. replace a with ((a - b) + b) by ring. eapply Rle_trans; [apply Rabs_triang|]. lra. }
  assert (A' : forall y, 0 <= y <= 3 -> Rabs (err F y) <= 72 / 10000000) by (intros y Y; eapply Rle_trans; [apply (TR _ _ _ _ _ (A y Y) E0 eq_refl)|lra]).
  assert (B' : forall y, 3 <= y <= 4 -> Rabs (err F y) <= 79 / 10000000) by (intros y Y; eapply Rle_trans; [apply (TR _ _ _ _ _ (B y Y) (A' 3 ltac:(lra)) eq_refl)|lra]).
  assert (C' : forall y, 4 <= y <= 5 -> Rabs (err F y) <= 81 / 10000000) by (intros y Y; eapply Rle_trans; [apply (TR _ _ _ _ _ (C y Y) (B' 4 ltac:(lra)) eq_refl)|lra]).
  assert (D' : forall y, 5 <= y -> Rabs (err F y) <= 88 / 10000000) by (intros y Y; eapply Rle_trans; [apply (TR _ _ _ _ _ (D y Y) (C' 5 ltac:(lra)) eq_refl)|lra]).
  destruct (Rle_dec z 3) as [L|L]; [eapply Rle_trans; [apply A'; lra|lra]|].
  destruct (Rle_dec z 4) as [L4|L4]; [eapply Rle_trans; [apply B'; lra|lra]|].
  destruct (Rle_dec z 5) as [L5|L5]; [eapply Rle_trans; [apply C'; lra|lra]|]. eapply Rle_trans; [apply D'; lra|lra].
Qed.

Lemma law_symmetric F z : normal_law F -> F (- z) = 1 - F z.
Proof.
  intros [D H]. assert (K : forall y, derivable_pt_lim (fun x => F x + F (- x)) y 0).
  { intro y. replace 0 with (bell y + bell (- y) * - (1)) by (unfold bell; replace ((- y) ^ 2) with (y ^ 2) by ring; ring).
    apply derivable_pt_lim_plus; [apply D|]. apply (derivable_pt_lim_comp (fun x => - x) F); [|apply D].
    apply (derivable_pt_lim_opp (fun x => x)), derivable_pt_lim_id. }
  assert (E : forall y, 0 < y -> F y + F (- y) = 1).
  { intros y Y. destruct (MVT_cor2 (fun x => F x + F (- x)) (fun _ => 0) 0 y Y) as (c & C & _); [intros; apply K|]. rewrite Ropp_0 in C. lra. }
  destruct (Rtotal_order z 0) as [L|[->|L]].
  - specialize (E (- z) ltac:(lra)). rewrite Ropp_involutive in E. lra.
  - rewrite Ropp_0. lra.
  - specialize (E z L). lra.
Qed.

Lemma cdf_close F z : normal_law F -> Rabs (normal_cdf z - F z) <= 1 / 100000.
Proof.
  intro LAW. destruct (Rlt_dec 0 z) as [P|P].
  - rewrite cdf_pos by auto. rewrite Rabs_minus_sym. replace (F z - (1 - tail z)) with (err F z) by (unfold err; ring). apply err_small; [auto|lra].
  - rewrite cdf_neg by lra. pose proof (law_symmetric F z LAW) as S. replace (F z) with (1 - F (- z)) by lra. fold (err F (- z)). apply err_small; [auto|lra].
Qed.
