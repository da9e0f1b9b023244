(** Proofs about R-squared and the annual return, for C89. *)
From Verif Require Import RatioSpec RatioProofs RatioCurve.
From Coq Require Import Lia Lra Psatz.
Open Scope list_scope.
Open Scope R_scope.

Section Line.
  Context {A : Type} (I : list A) (X Y : A -> R) (NE : I <> []).
  Let sum (f : A -> R) : R := total (map f I).
  Let n : R := INR (length I).
  Let mx : R := sum X / n.
  Let my : R := sum Y / n.
  Let sxx : R := sum (fun i => (X i - mx) ^ 2).
  Let sxy : R := sum (fun i => (X i - mx) * (Y i - my)).
  Let syy : R := sum (fun i => (Y i - my) ^ 2).
  Lemma n_pos : 0 < n.
  Proof. now apply length_pos. Qed.
  Lemma centered (f : A -> R) : sum (fun i => f i - sum f / n) = 0.
  Proof.
    unfold sum at 1. rewrite (total_ext _ (fun i => f i + - (sum f / n))) by (intros; ring). rewrite total_plus, total_const. fold n. fold (sum f).
    assert (P := n_pos). field. lra.
  Qed.
  Lemma residual a b : sum (fun i => (Y i - (a + b * X i)) ^ 2) = syy - 2 * b * sxy + b ^ 2 * sxx + n * (my - a - b * mx) ^ 2.
  Proof.
    set (c := my - a - b * mx). unfold sum.
    rewrite (total_ext _ (fun i => (Y i - my) ^ 2 + (-2 * b * ((X i - mx) * (Y i - my)) + (b ^ 2 * (X i - mx) ^ 2 + (2 * c * (Y i - my) + (-2 * b * c * (X i - mx) + c ^ 2))))))
      by (intros; unfold c; ring).
    rewrite (total_plus (fun i => (Y i - my) ^ 2)), (total_plus (fun i => -2 * b * ((X i - mx) * (Y i - my)))), (total_plus (fun i => b ^ 2 * (X i - mx) ^ 2)),
      (total_plus (fun i => 2 * c * (Y i - my))), (total_plus (fun i => -2 * b * c * (X i - mx))).
    rewrite !total_scale, total_const. assert (Cx := centered X). assert (Cy := centered Y). fold mx in Cx. fold my in Cy. unfold sum in Cx, Cy. rewrite Cx, Cy.
    unfold syy, sxy, sxx, sum, n. ring.
  Qed.
  Lemma best_line : 0 < sxx -> forall a b,
    sum (fun i => (Y i - (my - sxy / sxx * mx + sxy / sxx * X i)) ^ 2) = syy - sxy ^ 2 / sxx /\
    syy - sxy ^ 2 / sxx <= sum (fun i => (Y i - (a + b * X i)) ^ 2).
  Proof.
    intros P a b. rewrite !residual. assert (N := n_pos). split; [field; lra|].
    assert (0 <= n * (my - a - b * mx) ^ 2) by (apply Rmult_le_pos; [lra|apply pow2_ge_0]).
    assert (E : syy - 2 * b * sxy + b ^ 2 * sxx - (syy - sxy ^ 2 / sxx) = sxx * (b - sxy / sxx) ^ 2) by (field; lra).
    assert (0 <= sxx * (b - sxy / sxx) ^ 2) by (apply Rmult_le_pos; [lra|apply pow2_ge_0]). lra.
  Qed.
End Line.

Lemma values_seq l : l = map (value_at l) (seq 0 (length l)).
Proof.
  induction l as [|x l IH] using rev_ind; [reflexivity|]. rewrite app_length. cbn [length]. rewrite Nat.add_1_r, seq_S, map_app. cbn [map Nat.add]. rewrite value_at_snoc. f_equal.
  rewrite IH at 1. apply map_ext_in. intros k K. apply in_seq in K. symmetry. apply value_at_app. lia.
Qed.
Lemma total_values f l : total (map f l) = total (map (fun k => f (value_at l k)) (seq 0 (length l))).
Proof. rewrite (values_seq l) at 1. now rewrite map_map. Qed.
Lemma combine_map {A B C} (f : A -> B) (g : A -> C) l : combine (map f l) (map g l) = map (fun x => (f x, g x)) l.
Proof. induction l; cbn; congruence. Qed.
Lemma total_sxx_pos m : 0 < total (map (fun k => (INR k - total (map INR (seq 0 (S (S m)))) / INR (length (seq 0 (S (S m))))) ^ 2) (seq 0 (S (S m)))).
Proof.
  set (mx := total _ / _). assert (H := total_nonneg (fun k => (INR k - mx) ^ 2) (seq 0 (S (S m))) (fun x _ => pow2_ge_0 _)).
  destruct (Req_dec (total (map (fun k => (INR k - mx) ^ 2) (seq 0 (S (S m))))) 0) as [E|E]; [|lra]. exfalso.
  assert (Z := total_zero (fun k => (INR k - mx) ^ 2) (seq 0 (S (S m))) (fun x _ => pow2_ge_0 _) E).
  assert (A := Z 0%nat ltac:(apply in_seq; lia)). assert (B := Z 1%nat ltac:(apply in_seq; lia)). cbn [INR] in A, B. nra.
Qed.
Lemma r_squared_ok l : l <> [] -> spread l <> 0 ->
  (exists a b, misses l a b = (1 - r_squared l) * spread l) /\ (forall a b, (1 - r_squared l) * spread l <= misses l a b).
Proof.
  intros NE S0. set (J := seq 0 (length l)). assert (NJ : J <> []) by (unfold J; destruct l; easy). assert (LJ : length J = length l) by apply seq_length.
  set (Y := value_at l). assert (EY : l = map Y J) by apply values_seq.
  set (mx := total (map INR J) / INR (length J)). set (my := total (map Y J) / INR (length J)).
  set (sxx := total (map (fun k => (INR k - mx) ^ 2) J)). set (sxy := total (map (fun k => (INR k - mx) * (Y k - my)) J)). set (syy := total (map (fun k => (Y k - my) ^ 2) J)).
  assert (My : average l = my) by (unfold average, my; rewrite <- EY, LJ; reflexivity).
  assert (Sp : spread l = syy) by (unfold spread; rewrite My; exact (total_values (fun v => (v - my) ^ 2) l)).
  assert (Px : 0 < sxx).
  { unfold sxx, mx, J. destruct l as [|x [|y l']]; [easy| |exact (total_sxx_pos (length l'))]. exfalso. apply S0. unfold spread, average. cbn. field. }
  assert (R : r_squared l = 1 - (syy - sxy ^ 2 / sxx) / syy).
  { unfold r_squared. destruct l as [|x0 l0]; [easy|]. set (l := x0 :: l0) in *. unfold polyfit, rmean. rewrite !rsum_total.
    assert (Ex : xs l = map INR J) by reflexivity. rewrite Ex, map_length. assert (Ec : combine (map INR J) l = map (fun k => (INR k, Y k)) J) by (rewrite EY at 1; apply combine_map). rewrite Ec, !map_map. cbn [fst snd].
    fold mx. assert (My' : total l / INR (length l) = my) by exact My. rewrite My'.
    assert (Sl : total (map (fun a => (INR a - mx) * (INR a - mx)) J) = sxx) by (apply total_ext; intros; ring). rewrite Sl. fold sxy.
    assert (Sr : total (map (fun x => (Y x - (sxy / sxx * INR x + (my - sxy / sxx * mx))) ^ 2) J) = syy - sxy ^ 2 / sxx).
    { rewrite (total_ext _ (fun x => (Y x - (my - sxy / sxx * mx + sxy / sxx * INR x)) ^ 2)) by (intros; ring). exact (proj1 (best_line J INR Y NJ Px 0 0)). }
    rewrite Sr. assert (St : total (map (fun v => (v - my) ^ 2) l) = syy) by (exact (total_values (fun v => (v - my) ^ 2) l)). rewrite St.
    replace (eqb syy 0) with false; [reflexivity|]. symmetry. apply eqb_false. congruence. }
  rewrite Sp in *. replace ((1 - r_squared l) * syy) with (syy - sxy ^ 2 / sxx) by (rewrite R; field; lra).
  split.
  - exists (my - sxy / sxx * mx), (sxy / sxx). exact (proj1 (best_line J INR Y NJ Px 0 0)).
  - intros a b. exact (proj2 (best_line J INR Y NJ Px a b)).
Qed.
Lemma spread_zero l : spread l = 0 <-> constant l.
Proof.
  rewrite <- deviation_zero. unfold spread, deviation, average at 2. rewrite map_length. split; intro H.
  - rewrite H. unfold Rdiv. rewrite Rmult_0_l. apply sqrt_0.
  - destruct l as [|x l]; [reflexivity|]. assert (P := length_pos (x :: l) ltac:(easy)). apply sqrt_eq_0 in H.
    + apply (f_equal (fun z => z * INR (length (x :: l)))) in H. unfold Rdiv in H. rewrite Rmult_assoc, Rinv_l in H by lra. lra.
    + apply Rmult_le_pos; [apply total_nonneg; intros; apply pow2_ge_0|]. left. now apply Rinv_0_lt_compat.
Qed.
Lemma r_squared_flat l : constant l -> r_squared l = 0.
Proof.
  intro C. unfold r_squared. destruct l as [|x l]; [reflexivity|]. destruct (polyfit _ _) as [s i]. cbv zeta.
  replace (eqb (rsum (map (fun v => (v - rmean (x :: l)) ^ 2) (x :: l))) 0) with true; [reflexivity|]. symmetry. apply eqb_iff. rewrite rsum_total.
  replace (rmean (x :: l)) with (average (x :: l)) by (unfold rmean, average; now rewrite rsum_total). now apply spread_zero.
Qed.
Lemma misses_nonneg l a b : 0 <= misses l a b.
Proof. apply total_nonneg. intros. apply pow2_ge_0. Qed.
Lemma misses_flat l : misses l (average l) 0 = spread l.
Proof.
  unfold misses, spread. rewrite (total_values (fun v => (v - average l) ^ 2)). apply total_ext. intros k _. ring.
Qed.
Lemma r_squared_range l : ~ constant l -> 0 < spread l /\ 0 <= r_squared l <= 1.
Proof.
  intro C. assert (S0 : spread l <> 0) by (intro E; apply C; now apply spread_zero). assert (NE : l <> []) by (intros ->; apply C; now intros x y []).
  assert (P : 0 < spread l). { assert (0 <= spread l) by (apply total_nonneg; intros; apply pow2_ge_0). lra. }
  destruct (r_squared_ok l NE S0) as [(a & b & E) H]. split; [easy|]. assert (M := misses_nonneg l a b). assert (F := H (average l) 0). rewrite misses_flat in F. split; nra.
Qed.
(** ** Powers *)
Lemma Rpower_root x a b : 0 < x -> a <> 0 -> b <> 0 -> Rpower (Rpower x (a / b)) (b / a) = x.
Proof. intros X A B. rewrite Rpower_mult. replace (a / b * (b / a)) with 1 by (field; auto). now apply Rpower_1. Qed.
Lemma Rpower_pos x y : 0 < Rpower x y.
Proof. unfold Rpower. apply exp_pos. Qed.
Lemma Rpower_gain x y : 0 < x -> 0 < y -> (1 < Rpower x y <-> 1 < x).
Proof.
  intros X Y. unfold Rpower. rewrite <- exp_0. split.
  - intro H. apply exp_lt_inv in H. rewrite exp_0. assert (0 < ln x) by nra. rewrite <- ln_1 in H0. apply ln_lt_inv; lra.
  - intro H. rewrite exp_0 in H. apply exp_increasing. assert (0 < ln x) by (rewrite <- ln_1; apply ln_increasing; lra). nra.
Qed.
