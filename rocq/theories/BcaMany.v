(** A million resamples whose bounds are the wrong way round (C98). *)
From Coq Require Import Lra Lia.
From Verif Require Import BootProofs NormalBounds NormalExact.
From Verif Require Export BcaProofs.
Open Scope list_scope.
Open Scope R_scope.

(** ** Quantiles *)
Lemma exp_one_upper : exp 1 <= 274 / 100.
Proof.
  assert (H : (63 / 64) ^ 64 <= exp (- (1))).
  { replace (- (1)) with (INR 64 * - (1 / 64)) by (rewrite INR_IZR_INZ; cbn -[IZR]; lra). rewrite exp_nat. apply pow_incr.
    pose proof (exp_ineq1_le (- (1 / 64))). lra. }
  rewrite exp_Ropp in H. pose proof (exp_pos 1) as P. 
  assert (Q : 36496 / 100000 <= (63 / 64) ^ 64).
  { replace ((63 / 64) ^ 64) with (((63 / 64) ^ 8) ^ 8) by (rewrite <- pow_mult; reflexivity).
    apply Rle_trans with ((88162 / 100000) ^ 8); [lra|]. apply pow_incr. lra. }
  assert (K : 36496 / 100000 <= / exp 1) by lra. assert (E : exp 1 * / exp 1 = 1) by (apply Rinv_r; lra). nra.
Qed.

Lemma z0_high : inverse_normal_cdf (1 / 1000000) <= - (468 / 100).
Proof.
  rewrite inverse_low by lra. assert (D : 519 / 100 <= depth (1 / 1000000)).
  { apply (depth_above _ _ 27); try lra. replace 27 with (INR 27 * 1) by (rewrite INR_IZR_INZ; cbn -[IZR]; lra). rewrite exp_nat.
    pose proof exp_one_upper. pose proof (exp_pos 1). assert (exp 1 ^ 27 <= (274 / 100) ^ 27) by (apply pow_incr; lra). lra. }
  assert (Q : 468 / 100 <= quantile_at (519 / 100)) by (apply (quantile_value _ _ 6); [lra|]; unfold numer_at, denom_at; lra).
  pose proof (quantile_le (519 / 100) _ ltac:(lra) D). lra.
Qed.

Lemma z0_low : - (49 / 10) <= inverse_normal_cdf (1 / 1000000).
Proof.
  rewrite inverse_low by lra. assert (D : depth (1 / 1000000) <= 53 / 10).
  { apply (depth_below _ _ 28); try lra. replace 28 with (INR 28 * 1) by (rewrite INR_IZR_INZ; cbn -[IZR]; lra). rewrite exp_nat.
    pose proof exp_one. assert ((2718 / 1000) ^ 28 <= exp 1 ^ 28) by (apply pow_incr; lra). lra. }
  assert (Q : quantile_at (53 / 10) <= 49 / 10) by (apply (quantile_value _ 0); [lra|]; unfold numer_at, denom_at; lra).
  pose proof (quantile_le _ (53 / 10) (depth_nonneg _) D). lra.
Qed.

Lemma z1_high : inverse_normal_cdf (25 / 1000) <= - (187 / 100).
Proof.
  rewrite inverse_low by lra. assert (D : 264 / 100 <= depth (25 / 1000)).
  { apply (depth_above _ _ 7); try lra. replace 7 with (INR 7 * 1) by (rewrite INR_IZR_INZ; cbn -[IZR]; lra). rewrite exp_nat.
    pose proof exp_one_upper. pose proof (exp_pos 1). assert (exp 1 ^ 7 <= (274 / 100) ^ 7) by (apply pow_incr; lra). lra. }
  assert (Q : 187 / 100 <= quantile_at (264 / 100)) by (apply (quantile_value _ _ 6); [lra|]; unfold numer_at, denom_at; lra).
  pose proof (quantile_le (264 / 100) _ ltac:(lra) D). lra.
Qed.

Lemma tail_9 : NormalProofs.tail 9 <= 1 / 10000000.
Proof.
  assert (E : exp (- (81 / 2)) <= / 10000000).
  { rewrite exp_Ropp. apply Rinv_le_contravar; [lra|]. apply Rle_trans with (exp 1 ^ 40).
    - pose proof exp_one. assert (2 ^ 40 <= exp 1 ^ 40) by (apply pow_incr; lra). lra.
    - rewrite <- exp_nat. apply exp_mono. rewrite INR_IZR_INZ. cbn -[IZR]. lra. }
  pose proof (tail_below 9 (/ 10000000) (6 / 10) (4 / 10) ltac:(lra) (pdf_below 9 (81 / 2) _ ltac:(field) E)) as H. unfold t_of, c0, poly_at in H. lra.
Qed.

(** ** The two levels *)
Lemma level_low z0 z1 a : - (49 / 10) <= z0 <= - (468 / 100) -> - (1965 / 1000) <= z1 <= - (187 / 100) -> - (1 / 6) < a <= - (16 / 100) -> 9 < level z0 a z1.
Proof.
  intros Z0 Z1 A. unfold level. set (y := z0 + z1). assert (Y : - (6865 / 1000) <= y <= - (655 / 100)) by (unfold y; lra).
  assert (D : - (15 / 100) < 1 - a * y < 0) by nra.
  assert (H : 40 < y / (1 - a * y)); [|lra]. replace (y / (1 - a * y)) with ((- y) / (- (1 - a * y))) by (field; lra).
  apply (Rmult_lt_reg_r (- (1 - a * y))); [lra|]. unfold Rdiv. rewrite Rmult_assoc, Rinv_l by lra. lra.
Qed.

Lemma level_high z0 z1 a : - (49 / 10) <= z0 <= - (468 / 100) -> - (1965 / 1000) <= z1 <= - (187 / 100) -> - (1 / 6) < a <= - (16 / 100) -> level z0 a (- z1) < - 9.
Proof.
  intros Z0 Z1 A. unfold level. set (y := z0 + - z1). assert (Y : - (303 / 100) <= y <= - (2715 / 1000)) by (unfold y; lra).
  assert (D : 0 < 1 - a * y <= 57 / 100) by nra.
  assert (H : y / (1 - a * y) < - (46 / 10)); [|lra].
  apply (Rmult_lt_reg_r (1 - a * y)); [lra|]. unfold Rdiv. rewrite Rmult_assoc, Rinv_l by lra. nra.
Qed.

Lemma beyond_nine z : 9 < z -> 1 - 1 / 10000000 <= normal_cdf z.
Proof. intro Z. rewrite cdf_pos by lra. pose proof (tail_decreasing 9 z ltac:(lra) Z). pose proof tail_9. lra. Qed.
Lemma before_nine z : z < - 9 -> normal_cdf z <= 1 / 10000000.
Proof. intro Z. rewrite cdf_neg by lra. pose proof (tail_decreasing 9 (- z) ltac:(lra) ltac:(lra)). pose proof tail_9. lra. Qed.

(** ** The data: 64 bars, one of them bad *)
Definition bars : list R := - (63) :: repeat 1 63.

Lemma total_repeat v k : total (repeat v k) = INR k * v.
Proof. induction k as [|k IH]; [cbn; ring|]. rewrite S_INR. unfold total in *. cbn [repeat fold_right]. rewrite IH. ring. Qed.
Lemma total_more v l : total (v :: l) = v + total l.
Proof. reflexivity. Qed.
Lemma total_bars : total bars = 0.
Proof. unfold bars. unfold total. cbn [fold_right]. fold (total (repeat 1 63)). rewrite total_repeat, INR_IZR_INZ. cbn -[IZR]. lra. Qed.
Lemma total_without i : forall l, (i < length l)%nat -> total (firstn i l ++ skipn (S i) l) = total l - nth i l 0.
Proof.
  induction i as [|i IH]; intros [|v l] L; cbn in L; try lia; [unfold total; cbn; lra|]. specialize (IH l ltac:(lia)).
  unfold total in *. cbn [firstn app fold_right nth]. change (skipn (S (S i)) (v :: l)) with (skipn (S i) l). rewrite IH. ring.
Qed.
Lemma map_repeat {A B} (f : A -> B) v k : map f (repeat v k) = repeat (f v) k.
Proof. induction k; cbn; congruence. Qed.
Lemma nth_all (l : list R) : map (fun i => nth i l 0) (seq 0 (length l)) = l.
Proof.
  induction l as [|v l IH]; [reflexivity|]. cbn [length seq map nth]. f_equal. rewrite <- seq_shift, map_map. cbn [nth]. exact IH.
Qed.
Lemma jack_bars : jackknife total bars = 63 :: repeat (- (1)) 63.
Proof.
  unfold jackknife. replace (Nat.leb (length bars) 1) with false by reflexivity.
  transitivity (map (fun v => - v) (map (fun i => nth i bars 0) (seq 0 (length bars)))).
  - rewrite map_map. apply map_ext_in. intros i I. apply in_seq in I. rewrite total_without by lia. rewrite total_bars. ring.
  - rewrite nth_all. unfold bars. cbn [map]. rewrite map_repeat. f_equal. ring.
Qed.

Lemma accel_bars : - (1 / 6) < acceleration (63 :: repeat (- (1)) 63) <= - (16 / 100).
Proof.
  split; [pose proof (acceleration_small (63 :: repeat (- (1)) 63)) as H; apply Rabs_def2 in H; lra|].
  assert (I63 : INR 63 = 63) by (rewrite INR_IZR_INZ; reflexivity).
  unfold acceleration. assert (M : average (63 :: repeat (- (1)) 63) = 0).
  { unfold average. unfold total. cbn [fold_right]. fold (total (repeat (- (1)) 63)). rewrite total_repeat, I63. lra. }
  rewrite M. cbn [map]. rewrite !map_repeat. rewrite !total_more, !total_repeat, I63.
  replace ((0 - 63) ^ 3 + 63 * (0 - - (1)) ^ 3) with (- (249984)) by ring. replace ((0 - 63) ^ 2 + 63 * (0 - - (1)) ^ 2) with 4032 by ring.
  assert (S0 : 0 <= sqrt 4032) by apply sqrt_pos. assert (SS : sqrt 4032 * sqrt 4032 = 4032) by (apply sqrt_sqrt; lra).
  assert (S1 : sqrt 4032 <= 635 / 10) by nra. assert (S3 : sqrt 4032 ^ 3 <= (635 / 10) ^ 3) by (apply pow_incr; lra).
  assert (T : 0 < / 10 ^ 60) by (apply Rinv_0_lt_compat, pow_lt; lra). assert (T1 : / 10 ^ 60 <= 1) by (rewrite <- Rinv_1; apply Rinv_le_contravar; [lra|apply pow_R1_Rle; lra]).
  assert (P : 0 <= sqrt 4032 ^ 3) by (apply pow_le; auto).
  apply (Rmult_le_reg_r (6 * sqrt 4032 ^ 3 + / 10 ^ 60)); [lra|]. unfold Rdiv at 1. rewrite Rmult_assoc, Rinv_l by lra. lra.
Qed.

(** ** The draws: 64 times the first bar, then always the second *)
Definition first_then_second (n s : nat) : nat * nat :=
  if Nat.leb n 1 then (0%nat, s) else match s with O => (1%nat, O) | S k => (0%nat, k) end.

Lemma row_first k n m : (1 < n)%nat -> fill_row first_then_second k n (k + m)%nat = (repeat 0%nat k, m).
Proof.
  intro N. induction k as [|k IH]; [reflexivity|]. cbn [fill_row Nat.add]. unfold first_then_second at 1.
  destruct (Nat.leb_spec n 1); [lia|]. rewrite IH. reflexivity.
Qed.
Lemma row_second k n : (1 < n)%nat -> fill_row first_then_second k n 0%nat = (repeat 1%nat k, 0%nat).
Proof.
  intro N. induction k as [|k IH]; [reflexivity|]. cbn [fill_row]. unfold first_then_second at 1.
  destruct (Nat.leb_spec n 1); [lia|]. rewrite IH. reflexivity.
Qed.

Lemma bars_length : length bars = 64%nat.
Proof. reflexivity. Qed.

Lemma sample_first : total (resample bars (repeat 0%nat 64)) = - (4032).
Proof. unfold resample. rewrite map_repeat, total_repeat, INR_IZR_INZ. cbn -[IZR]. lra. Qed.
Lemma sample_second : total (resample bars (repeat 1%nat 64)) = 64.
Proof. unfold resample. rewrite map_repeat, total_repeat, INR_IZR_INZ. cbn -[IZR]. lra. Qed.

Lemma later_rows k : boot_loop first_then_second total 0 bars k 0%nat = (repeat 64 k, 0%nat, 0%nat).
Proof.
  induction k as [|k IH]; [reflexivity|]. cbn [boot_loop]. rewrite bars_length, row_second by lia. rewrite sample_second, IH.
  unfold ltb. destruct (Rlt_dec 64 0); [lra|]. reflexivity.
Qed.
Lemma all_rows k : boot_loop first_then_second total 0 bars (S k) 64%nat = (- (4032) :: repeat 64 k, 1%nat, 0%nat).
Proof.
  cbn [boot_loop]. rewrite bars_length. change 64%nat with (64 + 0)%nat at 3. rewrite row_first by lia. rewrite sample_first, later_rows.
  unfold ltb. destruct (Rlt_dec (- (4032)) 0); [reflexivity|lra].
Qed.

Lemma sort_repeat v k : sort (repeat v k) = repeat v k.
Proof.
  induction k as [|k IH]; [reflexivity|]. unfold sort in *. cbn [repeat fold_right]. rewrite IH. destruct k; [reflexivity|].
  cbn [repeat insert]. unfold ltb. destruct (Rlt_dec v v); [lra|reflexivity].
Qed.
Lemma sort_rows k : sort (- (4032) :: repeat 64 k) = - (4032) :: repeat 64 k.
Proof.
  unfold sort. cbn [fold_right]. fold (sort (repeat 64 k)). rewrite sort_repeat. destruct k; [reflexivity|].
  cbn [repeat insert]. unfold ltb. destruct (Rlt_dec 64 (- (4032))); [lra|reflexivity].
Qed.

Lemma trunc_near x k : (0 <= k)%Z -> IZR k <= x < IZR k + 1 -> trunc x = k.
Proof.
  intros K B. assert (0 <= IZR k) by (now apply IZR_le). pose proof (trunc_bounds x ltac:(lra)) as T.
  assert (A1 : (trunc x < k + 1)%Z) by (apply lt_IZR; rewrite plus_IZR; lra). assert (A2 : (k < trunc x + 1)%Z) by (apply lt_IZR; rewrite plus_IZR; lra). lia.
Qed.

Lemma reversed m : Z.of_nat m = 999999%Z -> exists i,
  bca_boot_conf inverse_normal_cdf normal_cdf first_then_second bars (S m) (UserFn total) 64%nat = Some i /\
  low_2p5 i = Some 64 /\ high_2p5 i = Some (- (4032)).
Proof.
  intro M. cbn [bca_boot_conf]. unfold bca_generic, bca_with. cbn [Nat.eqb]. rewrite total_bars, all_rows. unfold bars at 1. fold bars.
  eexists. split; [reflexivity|]. assert (N : INR (S m) = 1000000) by (rewrite S_INR, INR_IZR_INZ, M; lra).
  unfold bca_intervals. cbv zeta. rewrite accel_ok by (rewrite jack_bars, bars_length; cbn [length]; now rewrite repeat_length).
  rewrite jack_bars, sort_rows. replace (length (- (4032) :: repeat 64 m)) with (S m) by (cbn [length]; now rewrite repeat_length).
  replace (Nat.max (Nat.min 1 (S m - 1)) 1) with 1%nat by lia. change (INR 1) with 1. rewrite N.
  unfold bounds. cbv zeta. cbn [low_2p5 high_2p5].
  rewrite (inverse_symmetric (25 / 1000)) by lra.
  set (z0 := inverse_normal_cdf (1 / 1000000)). set (z1 := inverse_normal_cdf (25 / 1000)). set (a := acceleration (63 :: repeat (- (1)) 63)).
  fold (level z0 a z1). fold (level z0 a (- z1)).
  replace (length (- (4032) :: repeat 64 m)) with (S m) by (cbn [length]; now rewrite repeat_length). rewrite N.
  pose proof z0_low. pose proof z0_high. pose proof z1_high. pose proof inverse_025. pose proof accel_bars as A. fold z0 in H, H0. fold z1 in H1, H2. fold a in A.
  pose proof (beyond_nine _ (level_low z0 z1 a (conj H H0) (conj H2 H1) A)) as LO. pose proof (before_nine _ (level_high z0 z1 a (conj H H0) (conj H2 H1) A)) as HI.
  pose proof (cdf_range (level z0 a z1)) as RL. pose proof (cdf_range (level z0 a (- z1))) as RH.
  rewrite (trunc_near (normal_cdf (level z0 a z1) * (1000000 + 1)) 1000000) by (lia || lra).
  rewrite (trunc_near ((1 - normal_cdf (level z0 a (- z1))) * (1000000 + 1)) 1000000) by (lia || lra).
  unfold clamp, at_. replace (Z.to_nat (Z.min (Z.max (1000000 - 1) 0) (Z.of_nat (S m) - 1))) with m by lia.
  replace (Z.to_nat (Z.of_nat (S m) - 1 - Z.min (Z.max (1000000 - 1) 0) (Z.of_nat (S m) - 1))) with 0%nat by lia.
  split; [|reflexivity]. destruct m as [|k]; [discriminate|]. cbn [nth_error].
  rewrite (nth_error_nth' _ 0) by (rewrite repeat_length; lia). f_equal. apply (repeat_spec (S k) 64). apply nth_In. rewrite repeat_length. lia.
Qed.
