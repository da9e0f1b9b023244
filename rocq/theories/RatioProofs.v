(** Proofs about the ratio metrics, for C87-C89. *)
From Verif Require Import RatioSpec.
From Coq Require Import Lia Lra Psatz.
Open Scope list_scope.
Open Scope R_scope.

Lemma ltb_iff a b : ltb a b = true <-> a < b.
Proof. unfold ltb. destruct (Rlt_dec a b); intuition (try easy; try lra). Qed.
Lemma ltb_false a b : ltb a b = false <-> b <= a.
Proof. unfold ltb. destruct (Rlt_dec a b); split; try easy; lra. Qed.
Lemma eqb_iff a b : eqb a b = true <-> a = b.
Proof. unfold eqb. destruct (Req_EM_T a b); intuition easy. Qed.
Lemma eqb_false a b : eqb a b = false <-> a <> b.
Proof. unfold eqb. destruct (Req_EM_T a b); intuition easy. Qed.

(** ** Sums *)
Lemma total_cons x l : total (x :: l) = x + total l.
Proof. reflexivity. Qed.
Lemma total_app a b : total (a ++ b) = total a + total b.
Proof. induction a as [|x a IH]; cbn [app]; rewrite ?total_cons; [cbn; lra|rewrite IH; lra]. Qed.
Lemma fold_plus l : forall a, fold_left Rplus l a = a + total l.
Proof. induction l as [|x l IH]; intros a; cbn [fold_left]; [cbn; lra|]. rewrite IH, total_cons. lra. Qed.
Lemma rsum_total l : rsum l = total l.
Proof. unfold rsum. rewrite fold_plus. lra. Qed.
Lemma total_ext {A} (f g : A -> R) l : (forall x, In x l -> f x = g x) -> total (map f l) = total (map g l).
Proof. intro H. f_equal. now apply map_ext_in. Qed.
Lemma total_plus {A} (f g : A -> R) l : total (map (fun x => f x + g x) l) = total (map f l) + total (map g l).
Proof. induction l as [|x l IH]; cbn [map]; rewrite ?total_cons; [cbn; lra|rewrite IH; lra]. Qed.
Lemma total_scale {A} k (f : A -> R) l : total (map (fun x => k * f x) l) = k * total (map f l).
Proof. induction l as [|x l IH]; cbn [map]; rewrite ?total_cons; [cbn; lra|rewrite IH; lra]. Qed.
Lemma total_const {A} k (l : list A) : total (map (fun _ => k) l) = k * INR (length l).
Proof. induction l as [|x l IH]; [cbn; lra|]. cbn [map length]. rewrite total_cons, IH, S_INR. lra. Qed.
Lemma total_id l : total (map (fun x => x) l) = total l.
Proof. now rewrite map_id. Qed.
Lemma total_le {A} (f g : A -> R) l : (forall x, In x l -> f x <= g x) -> total (map f l) <= total (map g l).
Proof.
  induction l as [|x l IH]; intro H; cbn [map]; rewrite ?total_cons; [lra|]. assert (f x <= g x) by (apply H; now left).
  assert (total (map f l) <= total (map g l)) by (apply IH; intros; apply H; now right). lra.
Qed.
Lemma total_nonneg {A} (f : A -> R) l : (forall x, In x l -> 0 <= f x) -> 0 <= total (map f l).
Proof. intro H. assert (K := total_le (fun _ => 0) f l H). rewrite total_const in K. lra. Qed.
Lemma total_zero {A} (f : A -> R) l : (forall x, In x l -> 0 <= f x) -> total (map f l) = 0 -> forall x, In x l -> f x = 0.
Proof.
  induction l as [|y l IH]; intros H E x I; [easy|]. cbn [map] in E. rewrite total_cons in E.
  assert (0 <= f y) by (apply H; now left). assert (0 <= total (map f l)) by (apply total_nonneg; intros; apply H; now right).
  destruct I as [<-|I]; [lra|]. apply IH; [intros; apply H; now right|lra|easy].
Qed.
Lemma length_pos {A} (l : list A) : l <> [] -> 0 < INR (length l).
Proof. intro H. apply lt_0_INR. destruct l; [easy|cbn; lia]. Qed.
Lemma average_total l : l <> [] -> total l = INR (length l) * average l.
Proof. intro H. unfold average. assert (P := length_pos l H). field. lra. Qed.
Lemma average_pos {A} (f : A -> R) l : (forall x, In x l -> 0 <= f x) -> 0 <= average (map f l).
Proof.
  intro H. unfold average. rewrite map_length. assert (P := total_nonneg f l H). destruct l as [|x l]; [cbn; unfold Rdiv; rewrite Rmult_0_l; lra|].
  apply Rmult_le_pos; [exact P|]. left. apply Rinv_0_lt_compat, length_pos. easy.
Qed.
Lemma average_scale k l : average (map (Rmult k) l) = k * average l.
Proof. unfold average. rewrite map_length. change (map (Rmult k) l) with (map (fun x => k * x) l). rewrite (total_scale k (fun x => x) l), total_id. lra. Qed.

(** ** Arithmetic with NaN *)
Lemma fold_none f l : fold_left (lift2 f) l None = None.
Proof. induction l; cbn; auto. Qed.
Lemma fold_in_none f l : In None l -> forall a, fold_left (lift2 f) l a = None.
Proof.
  induction l as [|x l IH]; intros H a; [easy|]. destruct H as [->|H]; cbn [fold_left]; [|now apply IH].
  replace (lift2 f a None) with (@None R) by (now destruct a). apply fold_none.
Qed.
Lemma nsum_some l : nsum (map Some l) = Some (total l).
Proof.
  unfold nsum. assert (H : forall a, fold_left (lift2 Rplus) (map Some l) (Some a) = Some (a + total l)).
  { induction l as [|x l IH]; intros a; cbn [map fold_left]; [cbn; f_equal; lra|]. cbn [lift2]. rewrite IH, total_cons. f_equal. lra. }
  rewrite H. f_equal. lra.
Qed.
Lemma nmean_some l : nmean (map Some l) = Some (average l).
Proof. unfold nmean. rewrite nsum_some, map_length. reflexivity. Qed.
Lemma nmean_none l : In None l -> nmean l = None.
Proof. intro H. unfold nmean, nsum. now rewrite fold_in_none. Qed.
Lemma all_some (l : list num) : ~ In None l -> exists r, l = map Some r.
Proof.
  induction l as [|[x|] l IH]; intro H; [now exists []| |exfalso; apply H; now left].
  destruct IH as [r ->]; [intro K; apply H; now right|]. now exists (x :: r).
Qed.
Lemma no_none (l : list R) : ~ In None (map Some l).
Proof. intro H. apply in_map_iff in H as (x & E & _). easy. Qed.
Lemma none_dec (l : list num) : {In None l} + {~ In None l}.
Proof. induction l as [|[x|] l [H|H]]; [right; easy|left; now right|right; intros [E|E]; [easy|auto]|left; now left|left; now left]. Qed.
Lemma nstd_some l : nstd (map Some l) = Some (deviation l).
Proof.
  unfold nstd, deviation. rewrite nmean_some, map_map. cbn [lift2].
  rewrite <- (map_map (fun x => (x - average l) * (x - average l)) Some), nmean_some. cbn. do 2 f_equal. f_equal. apply map_ext. intro x. ring.
Qed.
Lemma nstd_none l : In None l -> nstd l = None.
Proof.
  intro H. unfold nstd. rewrite nmean_none; [reflexivity|]. apply in_map_iff. exists None. split; [|exact H]. reflexivity.
Qed.

(** ** Deviation *)
Lemma deviation_nonneg l : 0 <= deviation l.
Proof. apply sqrt_pos. Qed.
Lemma sqrt_zero x : 0 <= x -> sqrt x = 0 -> x = 0.
Proof. intros H E. now apply sqrt_eq_0. Qed.
Lemma average_zero {A} (f : A -> R) l : (forall x, In x l -> 0 <= f x) -> average (map f l) = 0 -> forall x, In x l -> f x = 0.
Proof.
  intros H E. apply total_zero; [exact H|]. destruct l as [|y l]; [reflexivity|].
  assert (N : map f (y :: l) <> []) by easy. rewrite (average_total _ N), E. ring.
Qed.
Lemma deviation_zero l : deviation l = 0 <-> constant l.
Proof.
  unfold deviation. split.
  - intro E. apply sqrt_zero in E; [|apply average_pos; intros; apply pow2_ge_0]. intros x y X Y.
    assert (H := average_zero (fun x => (x - average l) ^ 2) l (fun x _ => pow2_ge_0 _) E).
    assert (A := H x X). assert (B := H y Y). cbn beta in A, B.
    assert (x - average l = 0) by nra. assert (y - average l = 0) by nra. lra.
  - intro C. destruct l as [|a l]; [cbn; unfold average; cbn; unfold Rdiv; rewrite Rmult_0_l; apply sqrt_0|].
    assert (T : total (a :: l) = a * INR (length (a :: l))).
    { rewrite <- total_const, <- total_id. apply total_ext. intros x I. apply C; [easy|now left]. }
    assert (M : average (a :: l) = a). { unfold average. rewrite T. assert (P := length_pos (a :: l) ltac:(easy)). field. lra. }
    replace (average (map (fun x => (x - average (a :: l)) ^ 2) (a :: l))) with 0; [apply sqrt_0|].
    unfold average at 1. rewrite (total_ext _ (fun _ => 0)); [rewrite total_const; unfold Rdiv; ring|]. intros x I. rewrite M, (C x a I (or_introl eq_refl)). ring.
Qed.
Lemma deviation_scale k l : deviation (map (Rmult k) l) = Rabs k * deviation l.
Proof.
  unfold deviation. rewrite average_scale, map_map.
  replace (map (fun x => (k * x - k * average l) ^ 2) l) with (map (Rmult (k ^ 2)) (map (fun x => (x - average l) ^ 2) l)) by (rewrite map_map; apply map_ext; intro; ring).
  rewrite average_scale, sqrt_mult_alt by apply pow2_ge_0. f_equal. rewrite <- Rsqr_pow2. apply sqrt_Rsqr_abs.
Qed.
Lemma yearly_ok sr obs : annualize sr obs = sr * yearly obs.
Proof. destruct obs; cbn; lra. Qed.
Lemma yearly_nonneg obs : 0 <= yearly obs.
Proof. destruct obs; cbn; [apply sqrt_pos|lra]. Qed.

Lemma sharpe_ok l obs : sharpe_ratio (map Some l) obs = Some (if eqb (deviation l) 0 then 0 else average l / deviation l * yearly obs).
Proof.
  unfold sharpe_ratio. destruct l as [|x l].
  - cbn [map]. replace (eqb (deviation []) 0) with true; [reflexivity|]. symmetry. apply eqb_iff, deviation_zero. now intros a b [].
  - cbn [map]. change (Some x :: map Some l) with (map Some (x :: l)). rewrite nstd_some, nmean_some. cbn [neq0 lift2 option_map]. rewrite yearly_ok. now destruct (eqb (deviation (x :: l)) 0).
Qed.
Lemma sharpe_none returns obs : In None returns -> sharpe_ratio returns obs = None.
Proof. intro H. unfold sharpe_ratio. destruct returns as [|x l]; [easy|]. rewrite nstd_none, nmean_none by easy. reflexivity. Qed.

(** ** Downside *)
Lemma downside_fold l : forall s, fold_left (fun s (r : num) => match r with Some x => if ltb x 0 then s + x * x else s | None => s end) (map Some l) s =
  s + total (map (fun x => Rmin x 0 ^ 2) l).
Proof.
  induction l as [|x l IH]; intros s; cbn [map fold_left]; [cbn; lra|]. rewrite IH, total_cons. destruct (ltb x 0) eqn:E.
  - apply ltb_iff in E. rewrite Rmin_left by lra. ring.
  - apply ltb_false in E. rewrite Rmin_right by lra. ring.
Qed.
Lemma downside_ok l : downside_deviation (map Some l) = downside l.
Proof.
  unfold downside_deviation, downside. destruct l as [|x l]; [cbn; unfold average; cbn; unfold Rdiv; rewrite Rmult_0_l; symmetry; apply sqrt_0|].
  change (map Some (x :: l)) with (Some x :: map Some l) at 1. cbv iota beta. change (Some x :: map Some l) with (map Some (x :: l)).
  rewrite downside_fold. unfold average. rewrite !map_length. f_equal. lra.
Qed.
Lemma downside_nonneg l : 0 <= downside l.
Proof. apply sqrt_pos. Qed.
Lemma downside_zero l : downside l = 0 <-> forall x, In x l -> 0 <= x.
Proof.
  unfold downside. split.
  - intros E x I. apply sqrt_zero in E; [|apply average_pos; intros; apply pow2_ge_0].
    assert (H := average_zero (fun x => Rmin x 0 ^ 2) l (fun x _ => pow2_ge_0 _) E x I). cbn beta in H.
    assert (Rmin x 0 = 0) by nra. destruct (Rle_dec 0 x) as [|N]; [easy|]. rewrite Rmin_left in H0 by lra. lra.
  - intro H. replace (average (map (fun x => Rmin x 0 ^ 2) l)) with 0; [apply sqrt_0|]. unfold average.
    rewrite (total_ext _ (fun _ => 0)); [rewrite total_const; unfold Rdiv; ring|]. intros x I. rewrite Rmin_right by (apply H; easy). ring.
Qed.
Lemma sortino_ok l obs : sortino_ratio (map Some l) obs =
  if eqb (downside l) 0 then (if ltb 0 (average l) then PInf else Fin 0) else Fin (average l / downside l * yearly obs).
Proof.
  unfold sortino_ratio. destruct l as [|x l].
  - cbn [map]. replace (eqb (downside []) 0) with true; [|symmetry; apply eqb_iff, downside_zero; now intros a []].
    replace (ltb 0 (average [])) with false; [reflexivity|]. symmetry. apply ltb_false. unfold average. cbn. unfold Rdiv. lra.
  - cbn [map]. change (Some x :: map Some l) with (map Some (x :: l)). rewrite nmean_some, downside_ok, yearly_ok. reflexivity.
Qed.
Lemma average_gain l : (forall x, In x l -> 0 <= x) -> (0 < average l <-> exists x, In x l /\ 0 < x).
Proof.
  intro H. split.
  - intro P. destruct l as [|a l]; [unfold average in P; cbn in P; unfold Rdiv in P; lra|].
    assert (T : 0 < total (a :: l)) by (rewrite average_total by easy; apply Rmult_lt_0_compat; [apply length_pos; easy|easy]).
    clear P. induction (a :: l) as [|y r IH]; [cbn in T; lra|]. rewrite total_cons in T. destruct (Rlt_dec 0 y) as [Y|Y]; [exists y; split; [now left|easy]|].
    destruct IH as (x & I & X); [intros; apply H; now right|lra|]. exists x. split; [now right|easy].
  - intros (x & I & X). assert (N : l <> []) by (intros ->; easy). assert (P := length_pos l N). unfold average. apply Rdiv_lt_0_compat; [|easy].
    assert (Q := total_nonneg (fun x => x) l H). rewrite total_id in Q. destruct (Req_dec (total l) 0) as [E|E]; [|lra].
    assert (Z := total_zero (fun x => x) l H). rewrite total_id in Z. specialize (Z E x I). cbn in Z. lra.
Qed.

(** A gain with less downside than deviation. *)
Lemma square_sum l : total (map (fun x => (x - average l) ^ 2) l) = total (map (fun x => x ^ 2) l) - INR (length l) * average l ^ 2.
Proof.
  destruct l as [|a l]; [cbn; ring|]. set (m := average (a :: l)).
  rewrite (total_ext _ (fun x => x ^ 2 + (-2 * m * x + m ^ 2))) by (intros; ring).
  rewrite total_plus, (total_plus (fun x => -2 * m * x)), (total_scale (-2 * m) (fun x => x)), total_id, total_const, (average_total (a :: l)) by easy. fold m. ring.
Qed.
Lemma power_mean l : l <> [] -> INR (length l) * average l ^ 2 <= total (map (fun x => x ^ 2) l).
Proof. intro N. assert (H := square_sum l). assert (P := total_nonneg (fun x => (x - average l) ^ 2) l (fun x _ => pow2_ge_0 _)). lra. Qed.
Lemma downside_deviation_le l : 0 <= average l -> downside l <= deviation l.
Proof.
  intro M. destruct l as [|a l]; [unfold downside, deviation; cbn; lra|]. unfold downside, deviation. apply sqrt_le_1_alt. unfold average at 1 2. rewrite !map_length.
  assert (P := length_pos (a :: l) ltac:(easy)). apply Rmult_le_compat_r; [left; now apply Rinv_0_lt_compat|]. rewrite square_sum.
  set (L := a :: l) in *. set (pos := map (fun x => Rmax x 0) L).
  assert (N : pos <> []) by (unfold pos, L; easy). assert (Q := power_mean pos N). assert (Len : length pos = length L) by (unfold pos; apply map_length). rewrite Len in Q.
  assert (S2 : total (map (fun x => x ^ 2) L) = total (map (fun x => Rmin x 0 ^ 2) L) + total (map (fun x => x ^ 2) pos)).
  { unfold pos. rewrite map_map, <- total_plus. apply total_ext. intros x _. unfold Rmin, Rmax. destruct (Rle_dec x 0); ring. }
  assert (G : average L <= average pos).
  { unfold average. rewrite Len. apply Rmult_le_compat_r; [left; now apply Rinv_0_lt_compat|]. rewrite <- (total_id L). unfold pos. apply total_le. intros x _. apply Rmax_l. }
  assert (average L ^ 2 <= average pos ^ 2) by (apply pow_incr; lra). nra.
Qed.
