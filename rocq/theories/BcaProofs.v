(** Proofs of C98. *)
From Coq Require Import Lra Lia Sorted.
From Verif Require Import BootProofs NormalBounds.
From Verif Require Export BcaSpec.
Open Scope list_scope.
Open Scope R_scope.

(** ** The acceleration is below 1/6 *)
Lemma total_nonneg l : Forall (fun v => 0 <= v) l -> 0 <= total l.
Proof. unfold total. induction 1; cbn; lra. Qed.

Lemma square_in l v : In v l -> v ^ 2 <= total (map (fun u => u ^ 2) l).
Proof.
  unfold total. induction l as [|u l IH]; [easy|]. intros [->|I]; cbn [map fold_right].
  - assert (0 <= fold_right Rplus 0 (map (fun u => u ^ 2) l)); [|lra].
    apply total_nonneg, Forall_forall. intros w W. apply in_map_iff in W as (t & <- & _). apply pow2_ge_0.
  - specialize (IH I). pose proof (pow2_ge_0 u). lra.
Qed.

Lemma cubes l s : (forall v, In v l -> Rabs v <= s) -> Rabs (total (map (fun v => v ^ 3) l)) <= s * total (map (fun v => v ^ 2) l).
Proof.
  unfold total. induction l as [|v l IH]; intro H; cbn [map fold_right]; [rewrite Rabs_R0; lra|].
  specialize (IH (fun u U => H u (or_intror U))). pose proof (H v (or_introl eq_refl)) as V.
  eapply Rle_trans; [apply Rabs_triang|]. rewrite Rmult_plus_distr_l. apply Rplus_le_compat; auto.
  replace (v ^ 3) with (v * v ^ 2) by ring. rewrite Rabs_mult, (Rabs_pos_eq (v ^ 2)) by apply pow2_ge_0.
  apply Rmult_le_compat_r; [apply pow2_ge_0|exact V].
Qed.

Lemma acceleration_small js : Rabs (acceleration js) < 1 / 6.
Proof.
  unfold acceleration. set (m := average js). set (ds := map (fun j => m - j) js).
  replace (map (fun j => (m - j) ^ 3) js) with (map (fun v => v ^ 3) ds) by (unfold ds; now rewrite map_map).
  replace (map (fun j => (m - j) ^ 2) js) with (map (fun v => v ^ 2) ds) by (unfold ds; now rewrite map_map).
  set (q := total (map (fun v => v ^ 2) ds)).
  assert (Q : 0 <= q) by (apply total_nonneg, Forall_forall; intros w W; apply in_map_iff in W as (t & <- & _); apply pow2_ge_0).
  set (s := sqrt q). assert (S0 : 0 <= s) by apply sqrt_pos. assert (SS : s * s = q) by (apply sqrt_sqrt; auto).
  assert (C : Rabs (total (map (fun v => v ^ 3) ds)) <= s ^ 3).
  { eapply Rle_trans; [apply (cubes ds s)|fold q; rewrite <- SS; right; ring].
    intros v I. rewrite <- (Rabs_pos_eq s S0). apply Rsqr_le_abs_0. unfold Rsqr. rewrite SS. pose proof (square_in ds v I). fold q in H. lra. }
  assert (T : 0 < / 10 ^ 60) by (apply Rinv_0_lt_compat, pow_lt; lra).
  assert (S3 : 0 <= s ^ 3) by (apply pow_le; auto).
  unfold Rdiv. rewrite Rabs_mult, (Rabs_pos_eq (/ _)) by (left; apply Rinv_0_lt_compat; lra).
  apply (Rmult_lt_reg_r (6 * s ^ 3 + / 10 ^ 60)); [lra|]. rewrite Rmult_assoc, Rinv_l by lra. lra.
Qed.

(** ** The levels are ordered *)
Definition level (z0 a z : R) : R := z0 + (z0 + z) / (1 - a * (z0 + z)).

Lemma level_denom a y : Rabs a < 1 / 6 -> Rabs y <= 6 -> 0 < 1 - a * y.
Proof.
  intros A Y. assert (H : Rabs (a * y) < 1).
  { rewrite Rabs_mult. apply Rle_lt_trans with (Rabs a * 6); [apply Rmult_le_compat_l; auto; apply Rabs_pos|lra]. }
  apply Rabs_def2 in H. lra.
Qed.

Lemma level_mono z0 a z z' : Rabs a < 1 / 6 -> Rabs (z0 + z) <= 6 -> Rabs (z0 + z') <= 6 -> z <= z' -> level z0 a z <= level z0 a z'.
Proof.
  intros A Y Y' L. unfold level. pose proof (level_denom a _ A Y) as D. pose proof (level_denom a _ A Y') as D'.
  apply Rplus_le_compat_l. set (y := z0 + z) in *. set (y' := z0 + z') in *.
  apply (Rmult_le_reg_r ((1 - a * y) * (1 - a * y'))); [apply Rmult_lt_0_compat; auto|].
  replace (y / (1 - a * y) * ((1 - a * y) * (1 - a * y'))) with (y * (1 - a * y')) by (field; lra).
  replace (y' / (1 - a * y') * ((1 - a * y) * (1 - a * y'))) with (y' * (1 - a * y)) by (field; lra).
  unfold y, y'. nra.
Qed.

Lemma cdf_mono a b : a <= b -> normal_cdf a <= normal_cdf b.
Proof. intros [L|<-]; [left; now apply cdf_increasing|lra]. Qed.

(** ** Positions in the sorted values *)
Lemma trunc_mono x y : 0 <= x -> x <= y -> (trunc x <= trunc y)%Z.
Proof.
  intros X L. unfold trunc, ltb. destruct (Rlt_dec x 0); [lra|]. destruct (Rlt_dec y 0); [lra|].
  destruct (base_Int_part x) as [A B]. destruct (base_Int_part y) as [C D].
  apply Z.lt_succ_r. apply lt_IZR. rewrite succ_IZR. lra.
Qed.

Lemma trunc_bounds x : 0 <= x -> IZR (trunc x) <= x < IZR (trunc x) + 1.
Proof. intro X. unfold trunc, ltb. destruct (Rlt_dec x 0); [lra|]. destruct (base_Int_part x). lra. Qed.

Definition low_index (n : nat) (q : R) : Z := clamp (trunc (q * (INR n + 1)) - 1) n.
Definition high_index (n : nat) (q : R) : Z := (Z.of_nat n - 1 - clamp (trunc ((1 - q) * (INR n + 1)) - 1) n)%Z.

Lemma low_index_mono n q r : 0 <= q -> q <= r -> (low_index n q <= low_index n r)%Z.
Proof.
  intros Q L. unfold low_index, clamp. pose proof (pos_INR n). pose proof (trunc_mono (q * (INR n + 1)) (r * (INR n + 1)) ltac:(nra) ltac:(nra)). lia.
Qed.

Lemma high_index_mono n q r : r <= 1 -> q <= r -> (high_index n q <= high_index n r)%Z.
Proof.
  intros Q L. unfold high_index, clamp. pose proof (pos_INR n). pose proof (trunc_mono ((1 - r) * (INR n + 1)) ((1 - q) * (INR n + 1)) ltac:(nra) ltac:(nra)). lia.
Qed.

Lemma low_high n q r : (0 < n)%nat -> 0 < q -> q <= r -> r < 1 -> (low_index n q <= high_index n r)%Z.
Proof.
  intros N Q L R1. unfold low_index, high_index, clamp. pose proof (pos_INR n) as P.
  assert (A1 : 0 <= q * (INR n + 1)) by nra. assert (A2 : 0 <= (1 - r) * (INR n + 1)) by nra.
  pose proof (trunc_bounds _ A1) as B1. pose proof (trunc_bounds _ A2) as B2.
  set (i := trunc (q * (INR n + 1))) in *. set (j := trunc ((1 - r) * (INR n + 1))) in *.
  assert (S1 : (i + j <= Z.of_nat n + 1)%Z).
  { apply le_IZR. rewrite !plus_IZR, <- INR_IZR_INZ. nra. }
  assert (I : (i < Z.of_nat n + 1)%Z) by (apply lt_IZR; rewrite plus_IZR, <- INR_IZR_INZ; nra).
  assert (J : (j < Z.of_nat n + 1)%Z) by (apply lt_IZR; rewrite plus_IZR, <- INR_IZR_INZ; nra).
  lia.
Qed.

Lemma sorted_at l i j a b : StronglySorted Rle l -> (0 <= i)%Z -> (i <= j)%Z -> at_ l i = Some a -> at_ l j = Some b -> a <= b.
Proof.
  intros S1 I L A B. unfold at_ in *. destruct (nth_error_split _ _ A) as (u & v & -> & E).
  destruct (sorted_split _ _ _ S1) as [_ F]. assert (LN : (Z.to_nat i <= Z.to_nat j)%nat) by lia.
  rewrite nth_error_app2 in B by lia. destruct (Z.to_nat j - length u)%nat as [|k] eqn:K; cbn in B; [injection B as ->; lra|].
  apply F. now apply nth_error_In in B.
Qed.

Lemma index_range n q : (0 < n)%nat -> (0 <= low_index n q < Z.of_nat n)%Z /\ (0 <= high_index n q < Z.of_nat n)%Z.
Proof.
  intro N. unfold low_index, high_index. pose proof (clamp_range (trunc (q * (INR n + 1)) - 1) n N).
  pose proof (clamp_range (trunc ((1 - q) * (INR n + 1)) - 1) n N). lia.
Qed.

(** ** Intervals of any values *)
Lemma levels_nested boot q1 q2 q3 r3 r2 r1 i : boot <> [] -> StronglySorted Rle boot -> let n := length boot in
  0 < q1 -> q1 <= q2 -> q2 <= q3 -> q3 <= r3 -> r3 <= r2 -> r2 <= r1 -> r1 < 1 ->
  i = mk_intervals (at_ boot (low_index n q1)) (at_ boot (high_index n r1)) (at_ boot (low_index n q2)) (at_ boot (high_index n r2))
        (at_ boot (low_index n q3)) (at_ boot (high_index n r3)) -> nested i.
Proof.
  intros NE S1 n Q1 L1 L2 L3 L4 L5 R1 ->. assert (N : (0 < n)%nat) by (unfold n; destruct boot; [congruence|cbn; lia]).
  assert (G : forall k, (0 <= k < Z.of_nat n)%Z -> exists v, at_ boot k = Some v) by (intros k K; destruct (at_in boot k K) as (v & V & _); eauto).
  destruct (G _ (proj1 (index_range n q1 N))) as [l1 A1]. destruct (G _ (proj1 (index_range n q2 N))) as [l2 A2].
  destruct (G _ (proj1 (index_range n q3 N))) as [l3 A3]. destruct (G _ (proj2 (index_range n r3 N))) as [h3 B3].
  destruct (G _ (proj2 (index_range n r2 N))) as [h2 B2]. destruct (G _ (proj2 (index_range n r1 N))) as [h1 B1].
  exists l1, l2, l3, h3, h2, h1. cbn. do 6 (split; [assumption|]).
  pose proof (index_range n q1 N). pose proof (index_range n q2 N). pose proof (index_range n q3 N).
  pose proof (index_range n r1 N). pose proof (index_range n r2 N). pose proof (index_range n r3 N).
  split; [split|split; [|split]].
  - apply (sorted_at boot (low_index n q1) (low_index n q2)); auto; [lia|apply low_index_mono; lra].
  - apply (sorted_at boot (low_index n q2) (low_index n q3)); auto; [lia|apply low_index_mono; lra].
  - apply (sorted_at boot (low_index n q3) (high_index n r3)); auto; [lia|apply low_high; auto; lra].
  - apply (sorted_at boot (high_index n r3) (high_index n r2)); auto; [lia|apply high_index_mono; lra].
  - apply (sorted_at boot (high_index n r2) (high_index n r1)); auto; [lia|apply high_index_mono; lra].
Qed.

Lemma single_nested v i : Forall (fun b => b = Some v) (six i) -> nested i.
Proof.
  intro F. unfold six in F. repeat match goal with H : Forall _ (_ :: _) |- _ => inversion H; clear H; subst end.
  exists v, v, v, v, v, v. repeat split; auto; lra.
Qed.

Lemma share_bounds k n : (1 <= k)%nat -> (k <= n - 1)%nat -> (2 <= n)%nat -> (Z.of_nat n <= 30000)%Z ->
  1 / 30000 <= INR k / INR n <= 1 - 1 / 30000.
Proof.
  intros K1 K2 N M. assert (P : 0 < INR n) by (apply lt_0_INR; lia).
  assert (U : INR n <= 30000) by (rewrite INR_IZR_INZ; apply IZR_le in M; exact M).
  apply le_INR in K1. assert (K3 : INR k <= INR n - 1) by (apply le_INR in K2; rewrite (minus_INR n 1) in K2 by lia; exact K2). change (INR 1) with 1 in K1.
  split; apply (Rmult_le_reg_r (INR n)); auto; unfold Rdiv; rewrite ?Rmult_assoc, ?Rinv_l by lra; lra.
Qed.

Lemma intervals_nested boot z0_count jack n : length jack = n -> (0 < length boot)%nat -> (Z.of_nat (length boot) <= 30000)%Z ->
  nested (bca_intervals inverse_normal_cdf normal_cdf boot z0_count jack n).
Proof.
  intros J N M. destruct (Nat.eq_dec (length boot) 1) as [O|O].
  { destruct boot as [|v [|w r]]; try discriminate O. apply (single_nested v). apply Forall_forall. intros b I.
    apply bca_in in I as (u & -> & [->|[]]); [reflexivity|discriminate]. }
  unfold bca_intervals. cbv zeta. rewrite accel_ok by auto. set (k := Nat.max (Nat.min z0_count (length boot - 1)) 1).
  set (z0 := inverse_normal_cdf (INR k / INR (length boot))). set (a := acceleration jack).
  assert (A : Rabs a < 1 / 6) by apply acceleration_small.
  assert (Z0 : Rabs z0 <= 3997 / 1000).
  { destruct (share_bounds k (length boot)) as [P1 P2]; try (unfold k; lia). now apply inverse_bound. }
  pose proof inverse_025 as I1. pose proof (inverse_increasing (25 / 1000) (5 / 100) ltac:(lra) ltac:(lra) ltac:(lra) ltac:(lra)) as I2.
  pose proof (inverse_increasing (5 / 100) (1 / 10) ltac:(lra) ltac:(lra) ltac:(lra) ltac:(lra)) as I3. pose proof inverse_tenth as I4.
  pose proof (inverse_symmetric (25 / 1000) ltac:(lra) ltac:(lra)) as S1. pose proof (inverse_symmetric (5 / 100) ltac:(lra) ltac:(lra)) as S2.
  pose proof (inverse_symmetric (1 / 10) ltac:(lra) ltac:(lra)) as S3.
  unfold bounds. cbv zeta. rewrite S1, S2, S3.
  set (z1 := inverse_normal_cdf (25 / 1000)) in *. set (z2 := inverse_normal_cdf (5 / 100)) in *. set (z3 := inverse_normal_cdf (1 / 10)) in *.
  assert (Y : forall z, - (1965 / 1000) <= z <= 1965 / 1000 -> Rabs (z0 + z) <= 6).
  { intros z Z. eapply Rle_trans; [apply Rabs_triang|]. assert (Rabs z <= 1965 / 1000) by (apply Rabs_le; lra). lra. }
  assert (LM : forall z z', - (1965 / 1000) <= z -> z <= z' -> z' <= 1965 / 1000 -> normal_cdf (level z0 a z) <= normal_cdf (level z0 a z')).
  { intros z z' B1 B2 B3. apply cdf_mono, level_mono; auto; apply Y; lra. }
  pose proof (cdf_range (level z0 a z1)) as R1. pose proof (cdf_range (level z0 a (- z1))) as R2.
  rewrite sort_length.
  apply (levels_nested (sort boot) (normal_cdf (level z0 a z1)) (normal_cdf (level z0 a z2)) (normal_cdf (level z0 a z3))
           (normal_cdf (level z0 a (- z3))) (normal_cdf (level z0 a (- z2))) (normal_cdf (level z0 a (- z1)))).
  - intro E. apply (f_equal (@length R)) in E. rewrite sort_length in E. cbn in E. lia.
  - apply sort_sorted.
  - lra.
  - apply LM; lra.
  - apply LM; lra.
  - apply LM; lra.
  - apply LM; lra.
  - apply LM; lra.
  - lra.
  - rewrite sort_length. reflexivity.
Qed.

(** ** What the bootstrap reports *)
Lemma zero_nested : nested zero_intervals.
Proof. exists 0, 0, 0, 0, 0, 0. cbn. repeat split; auto; lra. Qed.

Lemma map_nested f i : (forall a b, a <= b -> f a <= f b) -> nested i -> nested (map_intervals f i).
Proof.
  intros M (l1 & l2 & l3 & h3 & h2 & h1 & E1 & E2 & E3 & E4 & E5 & E6 & L & K & H).
  exists (f l1), (f l2), (f l3), (f h3), (f h2), (f h1). cbn. rewrite E1, E2, E3, E4, E5, E6. cbn.
  do 6 (split; [reflexivity|]). repeat split; apply M; lra.
Qed.

Lemma exp_mono a b : a <= b -> exp a <= exp b.
Proof. intros [L|<-]; [left; now apply exp_increasing|lra]. Qed.

Lemma rows_length {S} (randint : nat -> S -> nat * S) n k : forall s, length (fst (rows randint n k s)) = k.
Proof.
  induction k as [|k IH]; intro s; [reflexivity|]. cbn [rows]. destruct (fill_row randint n n s) as [r s1]. specialize (IH s1).
  destruct (rows randint n k s1). cbn in *. now rewrite IH.
Qed.

Lemma jackknife_length fn x : length (jackknife fn x) = length x.
Proof. unfold jackknife. destruct (Nat.leb _ _); now rewrite map_length, ?seq_length. Qed.
Lemma jack_pf_length u x : length (jackknife_profit_factor u x) = length x.
Proof. unfold jackknife_profit_factor. destruct (fold_left _ x _). apply map_length. Qed.
Lemma jack_sharpe_length x : length (jackknife_sharpe x) = length x.
Proof. rewrite jack_sharpe. apply jackknife_length. Qed.

Section Reports.
Context {S : Type} (randint : nat -> S -> nat * S).

Lemma with_nested fn jack x n_boot s i : (forall y, length (jack y) = length y) -> (Z.of_nat n_boot <= 30000)%Z ->
  bca_with inverse_normal_cdf normal_cdf randint fn jack x n_boot s = Some i -> nested i.
Proof.
  intros J M H. unfold bca_with in H. destruct (Nat.eqb_spec n_boot 0) as [|N]; [discriminate|].
  destruct x as [|v x]; [injection H as <-; apply zero_nested|]. rewrite boot_loop_rows in H.
  pose proof (rows_length randint (length (v :: x)) n_boot s) as L. destruct (rows randint (length (v :: x)) n_boot s) as [rs s']. cbn [fst] in L.
  cbv zeta in H. injection H as <-. apply intervals_nested; [apply J|rewrite map_length; lia|rewrite map_length; lia].
Qed.

Lemma conf_nested x n_boot f s i : (Z.of_nat n_boot <= 30000)%Z ->
  bca_boot_conf inverse_normal_cdf normal_cdf randint x n_boot f s = Some i -> nested i.
Proof.
  intros M H. destruct f; cbn [bca_boot_conf] in H; apply with_nested in H; auto using jack_pf_length, jack_sharpe_length, jackknife_length.
Qed.

Lemma profit_nested x n_boot s i : (Z.of_nat n_boot <= 30000)%Z ->
  conf_profit_factor inverse_normal_cdf normal_cdf randint x n_boot s = Some i -> nested i.
Proof.
  intros M H. unfold conf_profit_factor in H. destruct (bca_boot_conf _ _ _ _ _ _ _) as [j|] eqn:E; [|discriminate]. injection H as <-.
  apply map_nested; [apply exp_mono|]. eapply conf_nested; eauto.
Qed.

Lemma sharpe_nested x n_boot obs s i : (Z.of_nat n_boot <= 30000)%Z ->
  conf_sharpe_ratio inverse_normal_cdf normal_cdf randint x n_boot obs s = Some i -> nested i.
Proof.
  intros M H. unfold conf_sharpe_ratio in H. destruct (bca_boot_conf _ _ _ _ _ _ _) as [j|] eqn:E; [|discriminate]. injection H as <-.
  apply conf_nested in E; auto. destruct obs; auto. apply map_nested; auto. intros a b L. apply Rmult_le_compat_r; auto. apply sqrt_pos.
Qed.

Lemma dd_deeper boot : boot <> [] -> deeper (dd_confs_of boot).
Proof.
  intro NE. unfold dd_confs_of. set (b := sort boot).
  assert (NB : b <> []) by (intro E; apply (f_equal (@length R)) in E; unfold b in E; rewrite sort_length in E; destruct boot; [congruence|discriminate]).
  destruct (dd_conf_in (1 / 1000) b NB ltac:(lra)) as (v1 & V1 & _). destruct (dd_conf_in (1 / 100) b NB ltac:(lra)) as (v2 & V2 & _).
  destruct (dd_conf_in (5 / 100) b NB ltac:(lra)) as (v3 & V3 & _). destruct (dd_conf_in (1 / 10) b NB ltac:(lra)) as (v4 & V4 & _).
  exists v1, v2, v3, v4. cbn. do 4 (split; [assumption|]). unfold dd_conf in *. pose proof (pos_INR (length b)) as P.
  assert (M : forall q r, q <= r -> (Z.max (trunc (q * (INR (length b) + 1) - 1)) 0 <= Z.max (trunc (r * (INR (length b) + 1) - 1)) 0)%Z).
  { intros q r L. set (x := q * (INR (length b) + 1) - 1). set (y := r * (INR (length b) + 1) - 1). assert (XY : x <= y) by (unfold x, y; nra).
    destruct (Rle_dec 0 x) as [X|X]; [pose proof (trunc_mono x y X XY); lia|].
    assert (T : (trunc x <= 0)%Z).
    { unfold trunc, ltb. destruct (Rlt_dec x 0); [|lra]. destruct (base_Int_part (- x)) as [_ B].
      assert (-1 < IZR (Int_part (- x))) by lra. apply (lt_IZR (-1)) in H. lia. }
    lia. }
  assert (K : forall q r u v, q <= r -> at_ b (Z.max (trunc (q * (INR (length b) + 1) - 1)) 0) = Some u ->
    at_ b (Z.max (trunc (r * (INR (length b) + 1) - 1)) 0) = Some v -> u <= v).
  { intros q r u v L U V. apply (sorted_at b _ _ u v (sort_sorted boot)) with (4 := V) (3 := U); [lia|now apply M]. }
  split; [split|].
  - apply (K (1 / 1000) (1 / 100)); auto; lra.
  - apply (K (1 / 100) (5 / 100)); auto; lra.
  - apply (K (5 / 100) (1 / 10)); auto; lra.
Qed.

Lemma evaluate_nested changes returns n_boot bpy s pf sr dd pct : (Z.of_nat n_boot <= 30000)%Z ->
  evaluate_bootstrap inverse_normal_cdf normal_cdf randint changes returns n_boot bpy s = Some (pf, sr, (dd, pct)) ->
  nested pf /\ nested sr /\ deeper dd /\ deeper pct.
Proof.
  intros M H. unfold evaluate_bootstrap, bootstrap_eval_all in H. destruct (Nat.eqb_spec n_boot 0) as [|N]; [discriminate|].
  destruct (Nat.eqb_spec (length changes) (length returns)) as [L|L]; [|discriminate]. cbn [negb] in H.
  destruct changes as [|c changes].
  { injection H as <- <- <- <-. split; [apply map_nested; [apply exp_mono|apply zero_nested]|]. split; [apply zero_nested|].
    assert (Z : deeper zero_dd) by (exists 0, 0, 0, 0; cbn; repeat split; auto; lra). auto. }
  rewrite all_loop_rows in H. pose proof (rows_length randint (length (c :: changes)) n_boot s) as LR.
  destruct (rows randint (length (c :: changes)) n_boot s) as [rs s']. cbn [fst] in LR. cbv zeta in H.
  cbn [a_log_pf a_sharpe a_dd a_dd_pct a_z0_log_pf a_z0_sharpe option_map] in H. injection H as <- <- <- <-.
  assert (NE : forall f : list nat -> R, map f rs <> []) by (intros f E; apply map_eq_nil in E; subst rs; cbn in LR; lia).
  split; [|split; [|split]].
  - apply map_nested; [apply exp_mono|]. apply intervals_nested; [apply jack_pf_length|rewrite map_length; lia|rewrite map_length; lia].
  - assert (K : nested (bca_intervals inverse_normal_cdf normal_cdf (map (fun r => sharpe (resample returns r)) rs)
      (below_count (sharpe returns) (map (fun r => sharpe (resample returns r)) rs)) (jackknife_sharpe returns) (length (c :: changes)))).
    { apply intervals_nested; [now rewrite jack_sharpe_length|rewrite map_length; lia|rewrite map_length; lia]. }
    destruct (Nat.ltb _ _); auto. apply map_nested; auto. intros a b A. apply Rmult_le_compat_r; auto. apply sqrt_pos.
  - apply dd_deeper, NE.
  - apply dd_deeper, NE.
Qed.
End Reports.
