(** The normal distribution functions (C97): proofs. *)
From Coq Require Import Lra Lia Machin Ratan.
From Verif Require Export NormalModel.
Open Scope R_scope.

(** ** The polynomial grows on [0, 1] *)
Definition poly_slope (t : R) : R :=
  5 * (1330274429 / 1000000000) * t ^ 4 - 4 * (1821255978 / 1000000000) * t ^ 3 + 3 * (1781477937 / 1000000000) * t ^ 2 - 2 * (356563782 / 1000000000) * t + (319381530 / 1000000000).

Lemma poly_derives t : derivable_pt_lim poly_at t (poly_slope t).
Proof.
  assert (H : derivable_pt_lim (fun t => (1330274429 / 1000000000) * t ^ 5 + - (1821255978 / 1000000000) * t ^ 4 + (1781477937 / 1000000000) * t ^ 3 + - (356563782 / 1000000000) * t ^ 2 + (319381530 / 1000000000) * t ^ 1) t
    ((1330274429 / 1000000000) * (INR 5 * t ^ 4) + - (1821255978 / 1000000000) * (INR 4 * t ^ 3) + (1781477937 / 1000000000) * (INR 3 * t ^ 2) + - (356563782 / 1000000000) * (INR 2 * t ^ 1) + (319381530 / 1000000000) * (INR 1 * t ^ 0))).
  { repeat apply derivable_pt_lim_plus; apply (derivable_pt_lim_scal (fun t => t ^ _)); apply derivable_pt_lim_pow. }
  match type of H with derivable_pt_lim _ _ ?d => assert (E : d = poly_slope t) by (unfold poly_slope; cbn [INR]; field) end.
  rewrite E in H. clear E.
  intros eps E. destruct (H eps E) as [d D]. exists d. intros h N L. specialize (D h N L).
  replace (poly_at (t + h) - poly_at t) with
    (((1330274429 / 1000000000) * (t + h) ^ 5 + - (1821255978 / 1000000000) * (t + h) ^ 4 + (1781477937 / 1000000000) * (t + h) ^ 3 + - (356563782 / 1000000000) * (t + h) ^ 2 + (319381530 / 1000000000) * (t + h) ^ 1) -
     ((1330274429 / 1000000000) * t ^ 5 + - (1821255978 / 1000000000) * t ^ 4 + (1781477937 / 1000000000) * t ^ 3 + - (356563782 / 1000000000) * t ^ 2 + (319381530 / 1000000000) * t ^ 1)) by (unfold poly_at; ring).
  exact D.
Qed.

Lemma slope_pos t : 0 < poly_slope t.
Proof.
  unfold poly_slope.
  assert (A0 : 0 <= 66 / 10 * t ^ 2 - 4 * (1821255978 / 1000000000) * t + 25 / 10).
  { pose proof (pow2_ge_0 (t - 55 / 100)). nra. }
  assert (A : 0 <= t ^ 2 * (66 / 10 * t ^ 2 - 4 * (1821255978 / 1000000000) * t + 25 / 10)) by (apply Rmult_le_pos; [apply pow2_ge_0|exact A0]).
  assert (B : 0 < (3 * (1781477937 / 1000000000) - 25 / 10) * t ^ 2 - 2 * (356563782 / 1000000000) * t + 319381530 / 1000000000).
  { pose proof (pow2_ge_0 (t - 1 / 8)). nra. }
  assert (C : 0 <= (5 * (1330274429 / 1000000000) - 66 / 10) * t ^ 4).
  { apply Rmult_le_pos; [lra|]. replace (t ^ 4) with ((t ^ 2) ^ 2) by ring. apply pow2_ge_0. }
  lra.
Qed.

Lemma poly_increasing s t : s < t -> poly_at s < poly_at t.
Proof.
  intro L. destruct (MVT_cor2 poly_at poly_slope s t L) as (c & E & _); [intros; apply poly_derives|].
  pose proof (slope_pos c). nra.
Qed.

Lemma poly_pos t : 0 < t -> 0 < poly_at t.
Proof. intro P. replace 0 with (poly_at 0) by (unfold poly_at; ring). now apply poly_increasing. Qed.

(** ** The constant *)
Lemma pi_lower : 3141592653 / 1000000000 < PI.
Proof.
  destruct (PI_2_3_7_ineq 4) as [L _]. cbn [Nat.mul Nat.add sum_f_R0] in L. unfold tg_alt, PI_2_3_7_tg, Ratan_seq in L.
  cbn [Nat.mul Nat.add pow INR] in L. lra.
Qed.

Lemma at_zero : pdf_at 0 * poly_at 1 < 1 / 2.
Proof.
  unfold pdf_at. replace (- (5 / 10) * 0 * 0) with 0 by ring. rewrite exp_0.
  pose proof pi_lower as P. assert (S1 : 0 < sqrt (2 * PI)) by (apply sqrt_lt_R0; lra).
  apply (Rmult_lt_reg_r (sqrt (2 * PI))); auto.
  replace (1 / sqrt (2 * PI) * poly_at 1 * sqrt (2 * PI)) with (poly_at 1) by (field; lra).
  assert (Q : sqrt (2 * PI) * sqrt (2 * PI) = 2 * PI) by (apply sqrt_sqrt; lra).
  unfold poly_at. nra.
Qed.

(** ** The tail *)
Definition tail (zz : R) : R := pdf_at zz * poly_at (1 / (1 + zz * (2316419 / 10000000))).

Lemma pdf_pos zz : 0 < pdf_at zz.
Proof. unfold pdf_at. pose proof pi_lower. apply Rdiv_lt_0_compat; [apply exp_pos|apply sqrt_lt_R0; lra]. Qed.

Lemma tail_pos zz : 0 <= zz -> 0 < tail zz.
Proof. intro Z. unfold tail. apply Rmult_lt_0_compat; [apply pdf_pos|apply poly_pos, Rdiv_lt_0_compat; lra]. Qed.

Lemma tail_decreasing a b : 0 <= a -> a < b -> tail b < tail a.
Proof.
  intros A L. unfold tail. pose proof pi_lower as P. assert (S1 : 0 < sqrt (2 * PI)) by (apply sqrt_lt_R0; lra).
  assert (H1 : pdf_at b < pdf_at a).
  { unfold pdf_at. unfold Rdiv at 1 3. apply Rmult_lt_compat_r; [now apply Rinv_0_lt_compat|]. apply exp_increasing. nra. }
  assert (H2 : poly_at (1 / (1 + b * (2316419 / 10000000))) < poly_at (1 / (1 + a * (2316419 / 10000000)))).
  { apply poly_increasing. unfold Rdiv. rewrite !Rmult_1_l. apply Rinv_lt_contravar; [apply Rmult_lt_0_compat; lra|lra]. }
  apply Rmult_gt_0_lt_compat; auto; [apply poly_pos, Rdiv_lt_0_compat; lra|apply pdf_pos].
Qed.

Lemma tail_zero : tail 0 < 1 / 2.
Proof. unfold tail. replace (1 / (1 + 0 * (2316419 / 10000000))) with 1 by field. apply at_zero. Qed.

Lemma tail_half zz : 0 <= zz -> tail zz < 1 / 2.
Proof. intros [L|<-]; [|apply tail_zero]. pose proof (tail_decreasing 0 zz (Rle_refl 0) L). pose proof tail_zero. lra. Qed.

(** ** The distribution function *)
Lemma cdf_pos z : 0 < z -> normal_cdf z = 1 - tail z.
Proof. intro P. unfold normal_cdf. cbv zeta. destruct (Rlt_dec 0 z); [|lra]. rewrite Rabs_pos_eq by lra. reflexivity. Qed.

Lemma cdf_neg z : z <= 0 -> normal_cdf z = tail (- z).
Proof. intro P. unfold normal_cdf. cbv zeta. destruct (Rlt_dec 0 z); [lra|]. rewrite Rabs_left1 by lra. reflexivity. Qed.

Lemma cdf_range z : 0 < normal_cdf z < 1.
Proof.
  destruct (Rlt_dec 0 z) as [P|P]; [rewrite cdf_pos by auto|rewrite cdf_neg by lra].
  - pose proof (tail_pos z ltac:(lra)). pose proof (tail_half z ltac:(lra)). lra.
  - pose proof (tail_pos (- z) ltac:(lra)). pose proof (tail_half (- z) ltac:(lra)). lra.
Qed.

Lemma cdf_increasing a b : a < b -> normal_cdf a < normal_cdf b.
Proof.
  intro L. destruct (Rlt_dec 0 a) as [A|A]; [|destruct (Rlt_dec 0 b) as [B|B]].
  - rewrite !cdf_pos by lra. pose proof (tail_decreasing a b ltac:(lra) L). lra.
  - rewrite (cdf_neg a), (cdf_pos b) by lra. pose proof (tail_half (- a) ltac:(lra)). pose proof (tail_half b ltac:(lra)). lra.
  - rewrite !cdf_neg by lra. apply tail_decreasing; lra.
Qed.

Lemma cdf_symmetric z : z <> 0 -> normal_cdf (- z) = 1 - normal_cdf z.
Proof.
  intro N. destruct (Rlt_dec 0 z) as [P|P].
  - rewrite (cdf_pos z), cdf_neg by lra. rewrite Ropp_involutive. lra.
  - rewrite (cdf_neg z), cdf_pos by lra. lra.
Qed.

(** ** The inverse *)
Definition quantile_at (t : R) : R := t - numer_at t / denom_at t.
Definition depth (p : R) : R := sqrt (ln (1 / (p * p))).

Lemma denom_pos t : 0 <= t -> 1 <= denom_at t.
Proof. intro T. unfold denom_at. nra. Qed.

Lemma quotient_decreasing s t : 0 <= s -> s < t -> numer_at t / denom_at t < numer_at s / denom_at s.
Proof.
  intros P L. pose proof (denom_pos s P) as DS. pose proof (denom_pos t ltac:(lra)) as DT.
  apply (Rmult_lt_reg_r (denom_at t * denom_at s)); [nra|].
  replace (numer_at t / denom_at t * (denom_at t * denom_at s)) with (numer_at t * denom_at s) by (field; lra).
  replace (numer_at s / denom_at s * (denom_at t * denom_at s)) with (numer_at s * denom_at t) by (field; lra).
  set (d := t - s). assert (D : 0 < d) by (unfold d; lra). replace t with (s + d) by (unfold d; lra).
  assert (E : numer_at s * denom_at (s + d) - numer_at (s + d) * denom_at s =
    ((2515517 / 1000000) * (1432788 / 1000000) - (802853 / 1000000)) * d +
    ((2515517 / 1000000) * (189269 / 1000000) - (10328 / 1000000)) * (2 * s * d + d ^ 2) +
    (2515517 / 1000000) * (1308 / 1000000) * (3 * s ^ 2 * d + 3 * s * d ^ 2 + d ^ 3) +
    ((802853 / 1000000) * (189269 / 1000000) - (10328 / 1000000) * (1432788 / 1000000)) * (s * (s * d + d ^ 2)) +
    (802853 / 1000000) * (1308 / 1000000) * (s * ((s + d) * (2 * s * d + d ^ 2))) +
    (10328 / 1000000) * (1308 / 1000000) * (s ^ 2 * (s + d) ^ 2 * d)) by (unfold numer_at, denom_at; ring).
  assert (0 <= s * d) by nra. assert (0 <= d ^ 2) by nra. assert (0 <= s ^ 2) by nra. assert (0 <= d ^ 3) by nra.
  assert (0 <= s ^ 2 * d) by nra. assert (0 <= s * d ^ 2) by nra.
  assert (0 <= s * (s * d + d ^ 2)) by nra. assert (0 <= s * ((s + d) * (2 * s * d + d ^ 2))).
  { apply Rmult_le_pos; auto. apply Rmult_le_pos; lra. }
  assert (0 <= s ^ 2 * (s + d) ^ 2 * d).
  { apply Rmult_le_pos; [|lra]. apply Rmult_le_pos; nra. }
  lra.
Qed.

Lemma quantile_increasing s t : 0 <= s -> s < t -> quantile_at s < quantile_at t.
Proof. intros P L. pose proof (quotient_decreasing s t P L). unfold quantile_at. lra. Qed.

Lemma depth_arg p : 0 < p -> p < 1 -> 0 < ln (1 / (p * p)).
Proof.
  intros P Q. rewrite <- ln_1. apply ln_increasing; [lra|]. unfold Rdiv. rewrite Rmult_1_l. rewrite <- Rinv_1 at 1.
  apply Rinv_lt_contravar; nra.
Qed.

Lemma depth_decreasing p q : 0 < p -> p < q -> q < 1 -> depth q < depth p.
Proof.
  intros P L Q. unfold depth. apply sqrt_lt_1; [left; apply depth_arg; lra|left; apply depth_arg; lra|].
  apply ln_increasing; unfold Rdiv; rewrite ?Rmult_1_l; [apply Rinv_0_lt_compat; nra|]. apply Rinv_lt_contravar; [apply Rmult_lt_0_compat; nra|nra].
Qed.

Lemma depth_nonneg p : 0 <= depth p.
Proof. apply sqrt_pos. Qed.

Lemma inverse_low p : 0 < p -> p <= 1 / 2 -> inverse_normal_cdf p = - quantile_at (depth p).
Proof.
  intros P L. unfold inverse_normal_cdf. cbv zeta. destruct (Rle_dec p (5 / 10)); [|lra]. destruct (Req_EM_T p 0); [lra|]. reflexivity.
Qed.

Lemma inverse_high p : 1 / 2 < p -> p < 1 -> inverse_normal_cdf p = quantile_at (depth (1 - p)).
Proof.
  intros P L. unfold inverse_normal_cdf. cbv zeta. destruct (Rle_dec p (5 / 10)); [lra|]. destruct (Req_EM_T (1 - p) 0); [lra|]. reflexivity.
Qed.

Lemma inverse_symmetric p : 0 < p < 1 -> p <> 1 / 2 -> inverse_normal_cdf (1 - p) = - inverse_normal_cdf p.
Proof.
  intros [P Q] N. destruct (Rlt_dec p (1 / 2)).
  - rewrite (inverse_low p), inverse_high by lra. replace (1 - (1 - p)) with p by ring. ring.
  - rewrite (inverse_high p), inverse_low by lra. reflexivity.
Qed.

Lemma inverse_increasing_low p q : 0 < p -> p < q -> q <= 1 / 2 -> inverse_normal_cdf p < inverse_normal_cdf q.
Proof.
  intros P L Q. rewrite !inverse_low by lra. apply Ropp_lt_contravar, quantile_increasing; [apply depth_nonneg|apply depth_decreasing; lra].
Qed.

Lemma inverse_increasing_high p q : 1 / 2 < p -> p < q -> q < 1 -> inverse_normal_cdf p < inverse_normal_cdf q.
Proof.
  intros P L Q. rewrite !inverse_high by lra. apply quantile_increasing; [apply depth_nonneg|apply depth_decreasing; lra].
Qed.
