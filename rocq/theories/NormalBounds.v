(** Numeric bounds on the inverse of the normal distribution function. *)
From Coq Require Import Lra Lia.
From Verif Require Export NormalProofs.
Open Scope R_scope.

(** Partial sums of the exponential series are below it. *)
Lemma exp_series x n : 0 <= x -> sum_f_R0 (fun i => / INR (fact i) * x ^ i) n <= exp x.
Proof.
  intro X. unfold exp. destruct (exist_exp x) as [l H]. cbn. apply sum_incr; [exact H|].
  intro i. apply Rmult_le_pos; [left; apply Rinv_0_lt_compat, INR_fact_lt_0|now apply pow_le].
Qed.

(** The same with factorials in binary. *)
Fixpoint zfact (n : nat) : Z := match n with O => 1%Z | S m => (Z.of_nat n * zfact m)%Z end.
Fixpoint esum (x : R) (n : nat) : R := match n with O => 1 | S m => esum x m + x ^ n / IZR (zfact n) end.

Lemma zfact_fact n : IZR (zfact n) = INR (fact n).
Proof.
  rewrite INR_IZR_INZ. f_equal. induction n as [|n IH]; [reflexivity|]. change (fact (S n)) with (S n * fact n)%nat.
  rewrite Nat2Z.inj_mul, <- IH. reflexivity.
Qed.

Lemma exp_esum x n : 0 <= x -> esum x n <= exp x.
Proof.
  intro X. apply Rle_trans with (2 := exp_series x n X). right. induction n as [|n IH]; [cbn; field|].
  change (esum x (S n)) with (esum x n + x ^ S n / IZR (zfact (S n))). cbn [sum_f_R0]. rewrite <- IH, zfact_fact. unfold Rdiv. ring.
Qed.

Ltac esum_in H :=
  cbn [esum] in H;
  repeat match type of H with context [zfact ?k] => let v := eval vm_compute in (zfact k) in change (zfact k) with v in H end.

Lemma exp_one : 2718 / 1000 <= exp 1.
Proof. pose proof (exp_esum 1 8 ltac:(lra)) as H. esum_in H. lra. Qed.

Lemma exp_nat x n : exp (INR n * x) = exp x ^ n.
Proof.
  induction n as [|n IH]; [rewrite Rmult_0_l; apply exp_0|]. rewrite S_INR. replace ((INR n + 1) * x) with (INR n * x + x) by ring.
  rewrite exp_plus, IH. cbn [pow]. ring.
Qed.

(** A depth below [T] and above [T]. *)
Lemma depth_below p T y : 0 < p -> 0 <= T -> 0 <= y -> y <= T * T -> 1 / (p * p) <= exp y -> depth p <= T.
Proof.
  intros P T0 Y0 Y E. unfold depth. rewrite <- (sqrt_square T T0). assert (L : ln (1 / (p * p)) <= y).
  { rewrite <- (ln_exp y). destruct E as [E|E]; [left; apply ln_increasing; auto; apply Rdiv_lt_0_compat; nra|rewrite E; lra]. }
  apply sqrt_le_1_alt. lra.
Qed.

Lemma depth_above p T y : 0 < p -> 0 <= T -> T * T <= y -> exp y <= 1 / (p * p) -> T <= depth p.
Proof.
  intros P T0 Y E. unfold depth. rewrite <- (sqrt_square T T0). apply sqrt_le_1_alt.
  apply Rle_trans with y; auto. rewrite <- (ln_exp y). destruct E as [E|E]; [left; apply ln_increasing; auto; apply exp_pos|rewrite E; lra].
Qed.

Lemma quantile_le s t : 0 <= s -> s <= t -> quantile_at s <= quantile_at t.
Proof. intros P [L|<-]; [left; now apply quantile_increasing|lra]. Qed.

Lemma quantile_value t lo hi : 0 <= t -> (t - hi) * denom_at t <= numer_at t <= (t - lo) * denom_at t -> lo <= quantile_at t <= hi.
Proof.
  intros T [A B]. pose proof (denom_pos t T) as D. unfold quantile_at.
  assert (E : numer_at t / denom_at t * denom_at t = numer_at t) by (field; lra).
  split.
  - assert (numer_at t / denom_at t <= t - lo); [|lra]. apply (Rmult_le_reg_r (denom_at t)); lra.
  - assert (t - hi <= numer_at t / denom_at t); [|lra]. apply (Rmult_le_reg_r (denom_at t)); lra.
Qed.

(** 2.5%: at most 1.97 below the middle. *)
Lemma depth_40 : depth (1 / 40) <= 272 / 100.
Proof.
  apply (depth_below _ _ (739 / 100)); try lra.
  replace (739 / 100) with (INR 7 * 1 + 39 / 100) by (cbn [INR]; lra). rewrite exp_plus, exp_nat.
  pose proof exp_one as E. pose proof (exp_esum (39 / 100) 4 ltac:(lra)) as H. esum_in H.
  assert (P : (2718 / 1000) ^ 7 <= exp 1 ^ 7) by (apply pow_incr; lra).
  apply Rle_trans with ((2718 / 1000) ^ 7 * (1476 / 1000)); [lra|]. apply Rmult_le_compat; lra.
Qed.

(** 1/30000: at most 4 below the middle. *)
Lemma depth_30000 : depth (1 / 30000) <= 4545 / 1000.
Proof.
  apply (depth_below _ _ (2065 / 100)); try lra.
  replace (2065 / 100) with (INR 20 * 1 + 65 / 100) by (cbn [INR]; lra). rewrite exp_plus, exp_nat.
  pose proof exp_one as E. pose proof (exp_esum (65 / 100) 5 ltac:(lra)) as H. esum_in H.
  assert (P : (2718 / 1000) ^ 20 <= exp 1 ^ 20) by (apply pow_incr; lra).
  apply Rle_trans with ((2718 / 1000) ^ 20 * (1915 / 1000)); [lra|]. apply Rmult_le_compat; lra.
Qed.

Lemma depth_half : 1 <= depth (1 / 2).
Proof. apply (depth_above _ _ 1); try lra. pose proof exp_le_3. lra. Qed.

Lemma depth_tenth : 2 <= depth (1 / 10).
Proof.
  apply (depth_above _ _ 4); try lra. replace 4 with (INR 4 * 1) by (cbn [INR]; lra). rewrite exp_nat.
  pose proof exp_le_3. pose proof (exp_pos 1). assert (exp 1 ^ 4 <= 3 ^ 4) by (apply pow_incr; lra). lra.
Qed.

Lemma quantile_272 : quantile_at (272 / 100) <= 1965 / 1000.
Proof. apply (quantile_value _ 0); [lra|]. unfold numer_at, denom_at. lra. Qed.
Lemma quantile_4545 : quantile_at (4545 / 1000) <= 3997 / 1000.
Proof. apply (quantile_value _ 0); [lra|]. unfold numer_at, denom_at. lra. Qed.
Lemma quantile_one : - (3 / 10) <= quantile_at 1.
Proof. apply (quantile_value _ _ 1); [lra|]. unfold numer_at, denom_at. lra. Qed.
Lemma quantile_two : 1 <= quantile_at 2.
Proof. apply (quantile_value _ _ 2); [lra|]. unfold numer_at, denom_at. lra. Qed.

Lemma depth_le p q : 0 < p -> p <= q -> q < 1 -> depth q <= depth p.
Proof. intros P [L|<-] Q; [left; now apply depth_decreasing|lra]. Qed.

(** Any value between 1/30000 and 29999/30000. *)
Lemma inverse_bound p : 1 / 30000 <= p -> p <= 1 - 1 / 30000 -> Rabs (inverse_normal_cdf p) <= 3997 / 1000.
Proof.
  intros L H.
  assert (M : forall q, 1 / 30000 <= q -> q <= 1 / 2 -> - (3997 / 1000) <= quantile_at (depth q) <= 3997 / 1000).
  { intros q A B. pose proof (depth_le (1 / 30000) q ltac:(lra) A ltac:(lra)) as D1. pose proof (depth_le q (1 / 2) ltac:(lra) B ltac:(lra)) as D2.
    pose proof depth_30000. pose proof depth_half. pose proof quantile_4545. pose proof quantile_one.
    pose proof (quantile_le (depth q) (4545 / 1000) (depth_nonneg q) ltac:(lra)).
    pose proof (quantile_le 1 (depth q) ltac:(lra) ltac:(lra)). lra. }
  apply Rabs_le. destruct (Rle_dec p (1 / 2)).
  - rewrite inverse_low by lra. specialize (M p L r). lra.
  - rewrite inverse_high by lra. specialize (M (1 - p) ltac:(lra) ltac:(lra)). lra.
Qed.

Lemma inverse_025 : - (1965 / 1000) <= inverse_normal_cdf (25 / 1000).
Proof.
  rewrite inverse_low by lra. replace (25 / 1000) with (1 / 40) by lra. pose proof depth_40. pose proof quantile_272.
  pose proof (quantile_le (depth (1 / 40)) (272 / 100) (depth_nonneg _) H). lra.
Qed.

Lemma inverse_tenth : inverse_normal_cdf (1 / 10) <= - 1.
Proof.
  rewrite inverse_low by lra. pose proof depth_tenth. pose proof quantile_two.
  pose proof (quantile_le 2 (depth (1 / 10)) ltac:(lra) H). lra.
Qed.

(** ** Around one half *)
(** Powers of a lower bound of [exp (- h)], rounded down. *)
Lemma exp_double h a b : 0 <= b -> b <= a * a -> 0 <= a -> a <= exp (- h) -> b <= exp (- (2 * h)).
Proof. intros B L A E. replace (- (2 * h)) with (- h + - h) by ring. rewrite exp_plus. nra. Qed.

Lemma exp_13924 : exp (13924 / 10000) <= 416 / 100.
Proof.
  assert (H0 : 98912 / 100000 <= exp (- (13924 / 1280000))).
  { pose proof (exp_ineq1_le (- (13924 / 1280000))). lra. }
  assert (H1 : 97835 / 100000 <= exp (- (13924 / 640000))).
  { replace (13924 / 640000) with (2 * (13924 / 1280000)) by lra. apply (exp_double _ (98912 / 100000)); lra. }
  assert (H2 : 95716 / 100000 <= exp (- (13924 / 320000))).
  { replace (13924 / 320000) with (2 * (13924 / 640000)) by lra. apply (exp_double _ (97835 / 100000)); lra. }
  assert (H3 : 91615 / 100000 <= exp (- (13924 / 160000))).
  { replace (13924 / 160000) with (2 * (13924 / 320000)) by lra. apply (exp_double _ (95716 / 100000)); lra. }
  assert (H4 : 83933 / 100000 <= exp (- (13924 / 80000))).
  { replace (13924 / 80000) with (2 * (13924 / 160000)) by lra. apply (exp_double _ (91615 / 100000)); lra. }
  assert (H5 : 70447 / 100000 <= exp (- (13924 / 40000))).
  { replace (13924 / 40000) with (2 * (13924 / 80000)) by lra. apply (exp_double _ (83933 / 100000)); lra. }
  assert (H6 : 49627 / 100000 <= exp (- (13924 / 20000))).
  { replace (13924 / 20000) with (2 * (13924 / 40000)) by lra. apply (exp_double _ (70447 / 100000)); lra. }
  assert (H7 : 24628 / 100000 <= exp (- (13924 / 10000))).
  { replace (13924 / 10000) with (2 * (13924 / 20000)) by lra. apply (exp_double _ (49627 / 100000)); lra. }
  rewrite exp_Ropp in H7. pose proof (exp_pos (13924 / 10000)) as P.
  apply (Rmult_le_compat_r (exp (13924 / 10000))) in H7; [|lra]. rewrite Rinv_l in H7 by lra. lra.
Qed.

Lemma inverse_049 p : 0 < p -> p <= 49 / 100 -> inverse_normal_cdf p < 0.
Proof.
  intros P L. rewrite inverse_low by lra.
  assert (D : 118 / 100 <= depth p).
  { apply (depth_above _ _ (13924 / 10000)); try lra. pose proof exp_13924 as E. apply Rle_trans with (416 / 100); auto.
    unfold Rdiv at 2. rewrite Rmult_1_l. replace (416 / 100) with (/ (100 / 416)) by field.
    apply Rinv_le_contravar; nra. }
  assert (P1 : 0 <= 118 / 100) by lra. pose proof (quantile_le _ _ P1 D). assert (0 < quantile_at (118 / 100)); [|lra].
  assert (Q : 1 / 1000 <= quantile_at (118 / 100)); [|lra]. apply (quantile_value _ _ 2); [lra|]. unfold numer_at, denom_at. lra.
Qed.

Lemma inverse_increasing p q : 0 < p -> p < q -> q < 1 -> (q <= 1 / 2 \/ 1 / 2 < p \/ p <= 49 / 100 /\ 51 / 100 <= q) ->
  inverse_normal_cdf p < inverse_normal_cdf q.
Proof.
  intros P L Q [H|[H|[A B]]]; [now apply inverse_increasing_low|now apply inverse_increasing_high|].
  pose proof (inverse_049 p P A). pose proof (inverse_049 (1 - q) ltac:(lra) ltac:(lra)).
  rewrite inverse_symmetric in H0 by lra. lra.
Qed.

(** At one half it is above 0, just above one half below 0. *)
Lemma inverse_drops : inverse_normal_cdf (1 / 2 + 1 / 100000000) < 0 < inverse_normal_cdf (1 / 2).
Proof.
  set (T := 117741005 / 100000000). set (y := 1386294424 / 1000000000).
  assert (E : 1 / ((1 / 2 - 1 / 100000000) * (1 / 2 - 1 / 100000000)) <= exp y).
  { pose proof (exp_esum y 14 ltac:(unfold y; lra)) as H. esum_in H.
    apply Rle_trans with (2 := H). unfold y. lra. }
  assert (D : depth (1 / 2 - 1 / 100000000) <= T) by (apply (depth_below _ _ y); unfold T, y in *; lra).
  assert (Q : quantile_at T < 0).
  { assert (X : -1 <= quantile_at T <= - (1 / 100000000)); [|lra]. apply quantile_value; [unfold T; lra|]. unfold numer_at, denom_at, T. lra. }
  assert (D2 : depth (1 / 2) < depth (1 / 2 - 1 / 100000000)) by (apply depth_decreasing; lra).
  rewrite inverse_high, inverse_low by lra. replace (1 - (1 / 2 + 1 / 100000000)) with (1 / 2 - 1 / 100000000) by lra.
  pose proof (quantile_le _ _ (depth_nonneg _) D). pose proof (quantile_increasing _ _ (depth_nonneg (1 / 2)) D2). lra.
Qed.
