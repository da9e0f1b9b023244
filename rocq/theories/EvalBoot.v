From Coq Require Import List Bool Arith Lia ZArith QArith Qminmax Qround Lqa Psatz Sorting.Sorted Sorting.Permutation.
From Verif Require Import Lemmas EvalModel EvalSpec WalkSpec.
Import ListNotations.
Open Scope list_scope.
Open Scope Q_scope.

(** ** Sorting *)
Lemma insert_q_perm x l : Permutation (insert_q x l) (x :: l).
Proof.
  induction l as [|y l IH]; [reflexivity|]. cbn. destruct (Qle_bool x y); [reflexivity|].
  rewrite IH. constructor.
Qed.
Lemma sort_q_perm l : Permutation (sort_q l) l.
Proof. induction l as [|x l IH]; [reflexivity|]. cbn. rewrite insert_q_perm. now constructor. Qed.
Lemma insert_q_sorted x l : StronglySorted Qle l -> StronglySorted Qle (insert_q x l).
Proof.
  induction 1 as [|y l S IH F]; cbn; [repeat constructor|]. destruct (Qle_bool x y) eqn:E; qb.
  - constructor; [now constructor|]. constructor; [exact E|]. eapply Forall_impl; [|exact F]. cbn. intros. lra.
  - constructor; [exact IH|]. rewrite Forall_forall in *. intros z I. apply (Permutation_in _ (insert_q_perm x l)) in I.
    destruct I as [<-|I]; [lra|auto].
Qed.
Lemma sort_q_sorted l : StronglySorted Qle (sort_q l).
Proof. induction l as [|x l IH]; cbn; [constructor|now apply insert_q_sorted]. Qed.
Lemma sort_q_length l : length (sort_q l) = length l.
Proof. apply Permutation_length, sort_q_perm. Qed.
Lemma sorted_nth l : StronglySorted Qle l -> forall i j x y, (i <= j)%nat -> nth_error l i = Some x -> nth_error l j = Some y -> x <= y.
Proof.
  induction 1 as [|a l S IH F]; intros i j x y H X Y; [destruct i; discriminate|].
  destruct i as [|i].
  - injection X as <-. destruct j as [|j]; [injection Y as <-; lra|]. rewrite Forall_forall in F. apply F. eapply nth_error_In, Y.
  - destruct j as [|j]; [lia|]. apply (IH i j x y); [lia|exact X|exact Y].
Qed.
Lemma nth_in_range {A} (l : list A) k : (k < length l)%nat -> exists x, nth_error l k = Some x.
Proof. intro H. destruct (nth_error l k) as [x|] eqn:E; [now exists x|]. apply nth_error_None in E. lia. Qed.
Lemma filter_length_perm {A} (f : A -> bool) l m : Permutation l m -> length (filter f l) = length (filter f m).
Proof. intro P. apply Permutation_length. induction P; cbn; repeat match goal with |- context [f ?x] => destruct (f x) end; eauto using perm_trans, perm_swap. Qed.
Lemma sorted_rank l : StronglySorted Qle l -> forall k x, nth_error l k = Some x ->
  (length (filter (fun y => Qltb y x) l) <= k)%nat /\ (k < length (filter (fun y => Qle_bool y x) l))%nat.
Proof.
  induction 1 as [|a l S IH F]; intros k x X; [destruct k; discriminate|].
  destruct k as [|k].
  - injection X as <-. cbn [filter]. split.
    + assert (E : Qltb a a = false) by (unfold Qltb; rewrite (proj2 (Qle_bool_iff a a)); [reflexivity|lra]). rewrite E.
      assert (N : filter (fun y => Qltb y a) l = []); [|rewrite N; cbn; lia].
      clear -F. induction F as [|b l H F IH]; [reflexivity|]. cbn [filter]. destruct (Qltb b a) eqn:B; qb; [lra|exact IH].
    + assert (E : Qle_bool a a = true) by (apply Qle_bool_iff; lra). rewrite E. cbn [length]. lia.
  - cbn [nth_error] in X. destruct (IH k x X) as [A B]. cbn [filter].
    assert (L : a <= x) by (rewrite Forall_forall in F; apply F; eapply nth_error_In, X).
    apply Qle_bool_iff in L. rewrite L. split; [|cbn [length]; lia]. destruct (Qltb a x); cbn [length]; lia.
Qed.
Lemma sort_nth_smallest l k x : nth_error (sort_q l) k = Some x -> nth_smallest l k x.
Proof.
  intro X. destruct (sorted_rank _ (sort_q_sorted l) k x X) as [A B]. split; [|split].
  - apply (Permutation_in _ (sort_q_perm l)). eapply nth_error_In, X.
  - rewrite <- (filter_length_perm _ _ _ (sort_q_perm l)). exact A.
  - rewrite <- (filter_length_perm _ _ _ (sort_q_perm l)). exact B.
Qed.

(** ** Indices *)
Lemma inject_le a b : (a <= b)%Z -> inject_Z a <= inject_Z b.
Proof. intro H. now rewrite <- Zle_Qle. Qed.
Lemma inject_pred z : inject_Z (z - 1) == inject_Z z - 1.
Proof. unfold Z.sub. rewrite inject_Z_plus. reflexivity. Qed.
Lemma truncate_mono x y : x <= y -> (truncate x <= truncate y)%Z.
Proof.
  intro H. unfold truncate. destruct (Qle_bool 0 x) eqn:A, (Qle_bool 0 y) eqn:B; qb; try lra.
  - now apply Qfloor_resp_le.
  - transitivity 0%Z; [|change 0%Z with (Qfloor 0); now apply Qfloor_resp_le].
    change 0%Z with (Qceiling 0). apply Qceiling_resp_le. lra.
  - now apply Qceiling_resp_le.
Qed.
Lemma truncate_int z : truncate (inject_Z z) = z.
Proof. unfold truncate. destruct (Qle_bool 0 (inject_Z z)); [apply Qfloor_Z|apply Qceiling_Z]. Qed.
Lemma truncate_le x z : x <= inject_Z z -> (truncate x <= z)%Z.
Proof. intro H. apply truncate_mono in H. now rewrite truncate_int in H. Qed.
Definition ddk (fl : Q -> Q) (q : Q) (n : nat) : Z := Z.max (truncate (fl (fl (q * inject_Z (Z.of_nat n + 1)) - 1))) 0.
Lemma ddk_range fl q n : float_rounding fl -> 0 <= q <= 1 # 2 -> (1 <= n)%nat -> (Z.of_nat n <= 2 ^ 53)%Z -> (0 <= ddk fl q n < Z.of_nat n)%Z.
Proof.
  intros F Hq Hn Hb. unfold ddk. split; [lia|].
  assert (A : q * inject_Z (Z.of_nat n + 1) <= inject_Z (Z.of_nat n)).
  { rewrite inject_Z_plus. change (inject_Z 1) with 1. assert (1 <= inject_Z (Z.of_nat n)) by (change 1 with (inject_Z 1); apply inject_le; lia). nra. }
  apply (fr_mono fl F) in A. rewrite (fr_int fl F (Z.of_nat n)) in A by lia.
  assert (B : fl (q * inject_Z (Z.of_nat n + 1)) - 1 <= inject_Z (Z.of_nat n - 1)).
  { rewrite inject_pred. lra. }
  apply (fr_mono fl F) in B. rewrite (fr_int fl F (Z.of_nat n - 1)) in B by lia.
  apply truncate_le in B. lia.
Qed.
Lemma ddk_mono fl q q' n : float_rounding fl -> q <= q' -> (ddk fl q n <= ddk fl q' n)%Z.
Proof.
  intros F H. unfold ddk. apply Z.max_le_compat_r, truncate_mono, (fr_mono fl F).
  assert (A : fl (q * inject_Z (Z.of_nat n + 1)) <= fl (q' * inject_Z (Z.of_nat n + 1))); [|lra].
  apply (fr_mono fl F). assert (0 <= inject_Z (Z.of_nat n + 1)) by (change 0 with (inject_Z 0); apply inject_le; lia). nra.
Qed.
Lemma dd_conf_nth fl q l : dd_conf fl q (sort_q l) = nth_error (sort_q l) (Z.to_nat (ddk fl q (length l))).
Proof. unfold dd_conf, ddk. now rewrite sort_q_length. Qed.
Lemma dd_conf_some fl q l : float_rounding fl -> 0 <= q <= 1 # 2 -> l <> [] -> (Z.of_nat (length l) <= 2 ^ 53)%Z ->
  exists x, dd_conf fl q (sort_q l) = Some x.
Proof.
  intros F Hq Hl Hb. rewrite dd_conf_nth. apply nth_in_range. rewrite sort_q_length.
  assert (1 <= length l)%nat by (destruct l; [congruence|cbn; lia]).
  pose proof (ddk_range fl q (length l) F Hq H Hb). lia.
Qed.
Lemma dd_conf_order fl q q' l x y : float_rounding fl -> q <= q' -> dd_conf fl q (sort_q l) = Some x -> dd_conf fl q' (sort_q l) = Some y -> x <= y.
Proof.
  intros F H X Y. rewrite dd_conf_nth in X, Y. eapply sorted_nth; [apply sort_q_sorted| |exact X|exact Y].
  pose proof (ddk_mono fl q q' (length l) F H). apply Z2Nat.inj_le; unfold ddk in *; lia.
Qed.
Theorem dd_confs_ok fl l : float_rounding fl -> l <> [] -> (Z.of_nat (length l) <= 2 ^ 53)%Z ->
  exists a b c d, dd_confs fl l = (Some a, Some b, Some c, Some d) /\ a <= b /\ b <= c /\ c <= d /\ In a l /\ In b l /\ In c l /\ In d l.
Proof.
  intros F Hl Hb. unfold dd_confs.
  assert (IN : forall q x, dd_conf fl q (sort_q l) = Some x -> In x l).
  { intros q x X. rewrite dd_conf_nth in X. apply sort_nth_smallest in X. apply X. }
  destruct (dd_conf_some fl (1152921504606847 # 1152921504606846976) l F) as [a A]; [split; vm_compute; discriminate|exact Hl|exact Hb|].
  destruct (dd_conf_some fl (5764607523034235 # 576460752303423488) l F) as [b B]; [split; vm_compute; discriminate|exact Hl|exact Hb|].
  destruct (dd_conf_some fl (3602879701896397 # 72057594037927936) l F) as [c C]; [split; vm_compute; discriminate|exact Hl|exact Hb|].
  destruct (dd_conf_some fl (3602879701896397 # 36028797018963968) l F) as [d D]; [split; vm_compute; discriminate|exact Hl|exact Hb|].
  exists a, b, c, d. rewrite A, B, C, D. split; [reflexivity|].
  split; [eapply dd_conf_order; [exact F| |exact A|exact B]; vm_compute; discriminate|].
  split; [eapply dd_conf_order; [exact F| |exact B|exact C]; vm_compute; discriminate|].
  split; [eapply dd_conf_order; [exact F| |exact C|exact D]; vm_compute; discriminate|]. eauto 8.
Qed.
Lemma floor_between x : 0 <= x -> inject_Z (Qfloor x) <= x /\ x < inject_Z (Qfloor x) + 1.
Proof. intro H. split; [apply Qfloor_le|]. pose proof (Qlt_floor x) as L. rewrite inject_Z_plus in L. exact L. Qed.
(** With exact arithmetic the bound at [q] has at most [q(n+1) - 1] samples below it
    (none if that is negative) and more than [q(n+1) - 1] at or below it. *)
Theorem dd_conf_quantile q l x : dd_conf (fun x => x) q (sort_q l) = Some x ->
  let n := inject_Z (Z.of_nat (length l)) in
  inject_Z (Z.of_nat (length (filter (fun y => Qltb y x) l))) <= Qmax 0 (q * (n + 1) - 1) /\
  q * (n + 1) - 1 < inject_Z (Z.of_nat (length (filter (fun y => Qle_bool y x) l))).
Proof.
  intros X n. rewrite dd_conf_nth in X. apply sort_nth_smallest in X. destruct X as [_ [A B]].
  unfold ddk in A, B. rewrite inject_Z_plus in A, B. change (inject_Z 1) with 1 in A, B. fold n in A, B.
  set (y := q * (n + 1) - 1) in *.
  apply Nat2Z.inj_le in A. apply inj_lt in B. rewrite Z2Nat.id in A, B by lia.
  apply inject_le in A. assert (B' : inject_Z (Z.max (truncate y) 0 + 1) <= inject_Z (Z.of_nat (length (filter (fun y => Qle_bool y x) l)))) by (apply inject_le; lia).
  rewrite inject_Z_plus in B'. change (inject_Z 1) with 1 in B'.
  unfold truncate in *. destruct (Qle_bool 0 y) eqn:P; qb.
  - destruct (floor_between y P) as [F1 F2]. assert (F0 : (0 <= Qfloor y)%Z) by (change 0%Z with (Qfloor 0); now apply Qfloor_resp_le).
    rewrite Z.max_l in A, B' by exact F0. split; [|lra]. pose proof (Q.le_max_r 0 y). lra.
  - assert (C0 : (Qceiling y <= 0)%Z) by (change 0%Z with (Qceiling 0); apply Qceiling_resp_le; lra).
    rewrite Z.max_r in A, B' by exact C0. change (inject_Z 0) with 0 in *. split; [|lra]. pose proof (Q.le_max_l 0 y). lra.
Qed.

(** ** BCa bounds *)
Theorem bca_ok fl l alo ahi : l <> [] -> exists lo hi, bca_bounds fl l (alo, ahi) = (Some lo, Some hi) /\ In lo l /\ In hi l.
Proof.
  intro Hl. unfold bca_bounds. rewrite sort_q_length. set (n := length l).
  assert (N : (0 < n)%nat) by (destruct l; [congruence|cbn; lia]).
  set (k1 := bca_clamp _ _). set (k2 := bca_clamp (truncate (fl (fl (1 - ahi) * inject_Z (Z.of_nat n + 1))) - 1) (Z.of_nat n)).
  assert (R : forall k, (0 <= bca_clamp k (Z.of_nat n) < Z.of_nat n)%Z) by (intro k; unfold bca_clamp; lia).
  assert (R1 : (0 <= k1 < Z.of_nat n)%Z) by apply R. assert (R2 : (0 <= k2 < Z.of_nat n)%Z) by apply R.
  destruct (nth_in_range (sort_q l) (Z.to_nat k1)) as [lo L]; [rewrite sort_q_length; unfold n in *; lia|].
  destruct (nth_in_range (sort_q l) (Z.to_nat (Z.of_nat n - 1 - k2))) as [hi H]; [rewrite sort_q_length; unfold n in *; lia|].
  exists lo, hi. rewrite L, H. split; [reflexivity|]. split; [apply sort_nth_smallest in L; apply L|apply sort_nth_smallest in H; apply H].
Qed.
Theorem bca_order l alo ahi lo hi : 0 <= alo -> alo <= ahi -> ahi <= 1 -> l <> [] ->
  bca_bounds (fun x => x) l (alo, ahi) = (Some lo, Some hi) -> lo <= hi.
Proof.
  intros H0 H1 H2 Hl. unfold bca_bounds. rewrite sort_q_length. set (n := length l).
  assert (N : (0 < n)%nat) by (destruct l; [congruence|cbn; lia]).
  set (a := alo * inject_Z (Z.of_nat n + 1)). set (b := (1 - ahi) * inject_Z (Z.of_nat n + 1)).
  assert (P : 0 <= inject_Z (Z.of_nat n + 1)) by (change 0 with (inject_Z 0); apply inject_le; lia).
  assert (A : 0 <= a) by (unfold a; nra). assert (B : 0 <= b) by (unfold b; nra).
  assert (S : a + b <= inject_Z (Z.of_nat n + 1)) by (unfold a, b; nra).
  assert (TA : truncate a = Qfloor a) by (unfold truncate; apply Qle_bool_iff in A; now rewrite A).
  assert (TB : truncate b = Qfloor b) by (unfold truncate; apply Qle_bool_iff in B; now rewrite B).
  rewrite TA, TB.
  assert (T : (Qfloor a + Qfloor b <= Z.of_nat n + 1)%Z).
  { rewrite Zle_Qle, inject_Z_plus. pose proof (Qfloor_le a). pose proof (Qfloor_le b). lra. }
  set (k1 := bca_clamp (Qfloor a - 1) (Z.of_nat n)). set (k2 := bca_clamp (Qfloor b - 1) (Z.of_nat n)).
  intros E. pose proof (f_equal fst E) as L. pose proof (f_equal snd E) as H. cbn [fst snd] in L, H.
  eapply sorted_nth; [apply sort_q_sorted| |exact L|exact H].
  apply Z2Nat.inj_le; unfold k1, k2, bca_clamp; lia.
Qed.

(** ** Interquartile range *)
Lemma percentile_mid fl l q : float_rounding fl -> (q == 25 \/ q == 75) -> l <> [] -> (Z.of_nat (length l) <= 2 ^ 53)%Z ->
  exists v a b i j, percentile_midpoint fl l q = Some v /\ nth_error l i = Some a /\ nth_error l j = Some b /\ v == (1 # 2) * (a + b) /\
  i = Z.to_nat (Qfloor (fl (fl (q / 100) * inject_Z (Z.of_nat (length l) - 1)))) /\
  j = Z.to_nat (Qceiling (fl (fl (q / 100) * inject_Z (Z.of_nat (length l) - 1)))).
Proof.
  intros F Hq Hl Hb. destruct l as [|x r]; [congruence|]. set (l := x :: r) in *. unfold percentile_midpoint. fold l.
  change (match l with [] => Some 0 | _ :: _ => ?a end) with a.
  set (rank := fl (fl (q / 100) * inject_Z (Z.of_nat (length l) - 1))).
  assert (N : (1 <= length l)%nat) by (cbn; lia).
  assert (P : 0 <= inject_Z (Z.of_nat (length l) - 1)) by (change 0 with (inject_Z 0); apply inject_le; lia).
  assert (QR : 0 <= q / 100 <= 1). { destruct Hq as [E|E]; rewrite E; split; vm_compute; discriminate. }
  assert (Z0 : fl 0 == 0) by (change 0 with (inject_Z 0); apply (fr_int fl F 0); lia).
  assert (Z1 : fl 1 == 1) by (change 1 with (inject_Z 1); apply (fr_int fl F 1); lia).
  destruct QR as [Q0 Q1]. apply (fr_mono fl F) in Q0. apply (fr_mono fl F) in Q1. rewrite Z0 in Q0. rewrite Z1 in Q1.
  assert (R0 : 0 <= rank). { rewrite <- Z0. apply (fr_mono fl F). nra. }
  assert (R1 : rank <= inject_Z (Z.of_nat (length l) - 1)).
  { rewrite <- (fr_int fl F (Z.of_nat (length l) - 1)) by lia. apply (fr_mono fl F). nra. }
  assert (F0 : (0 <= Qfloor rank)%Z) by (change 0%Z with (Qfloor 0); now apply Qfloor_resp_le).
  assert (C1 : (Qceiling rank <= Z.of_nat (length l) - 1)%Z) by (rewrite <- (Qceiling_Z (Z.of_nat (length l) - 1)); now apply Qceiling_resp_le).
  assert (FC : (Qfloor rank <= Qceiling rank)%Z).
  { rewrite Zle_Qle. pose proof (Qfloor_le rank). pose proof (Qle_ceiling rank). lra. }
  destruct (nth_in_range l (Z.to_nat (Qfloor rank))) as [a A]; [lia|].
  destruct (nth_in_range l (Z.to_nat (Qceiling rank))) as [b B]; [lia|].
  destruct (Z.eqb (Qfloor rank) (Qceiling rank)) eqn:E.
  - apply Z.eqb_eq in E. exists a, a, b, (Z.to_nat (Qfloor rank)), (Z.to_nat (Qceiling rank)).
    split; [exact A|]. split; [exact A|]. split; [exact B|]. split; [|auto].
    rewrite <- E, A in B. injection B as <-. lra.
  - exists ((1 # 2) * (a + b)), a, b, (Z.to_nat (Qfloor rank)), (Z.to_nat (Qceiling rank)).
    rewrite A, B. split; [reflexivity|]. split; [reflexivity|]. split; [reflexivity|]. split; [reflexivity|auto].
Qed.
Theorem iqr_ok fl l : float_rounding fl -> l <> [] -> (Z.of_nat (length l) <= 2 ^ 53)%Z ->
  exists r, iqr fl l = Some r /\ 0 <= r /\ forall lo hi, (forall x, In x l -> lo <= x <= hi) -> r <= hi - lo.
Proof.
  intros F Hl Hb.
  assert (Hs : sort_q l <> []). { intro E. apply Hl. apply length_zero_iff_nil. rewrite <- sort_q_length, E. reflexivity. }
  assert (Hb' : (Z.of_nat (length (sort_q l)) <= 2 ^ 53)%Z) by (rewrite sort_q_length; exact Hb).
  destruct (percentile_mid fl (sort_q l) 75 F (or_intror (Qeq_refl 75)) Hs Hb') as [v [a [b [i [j [V [A [B [EV [EI EJ]]]]]]]]]].
  destruct (percentile_mid fl (sort_q l) 25 F (or_introl (Qeq_refl 25)) Hs Hb') as [v' [a' [b' [i' [j' [V' [A' [B' [EV' [EI' EJ']]]]]]]]]].
  exists (v - v'). split.
  { unfold iqr. destruct l as [|x r]; [congruence|]. now rewrite V, V'. }
  assert (P : 0 <= inject_Z (Z.of_nat (length (sort_q l)) - 1)).
  { change 0 with (inject_Z 0); apply inject_le. destruct (sort_q l); [congruence|cbn [length]; lia]. }
  assert (M : fl (fl (25 / 100) * inject_Z (Z.of_nat (length (sort_q l)) - 1)) <= fl (fl (75 / 100) * inject_Z (Z.of_nat (length (sort_q l)) - 1))).
  { apply (fr_mono fl F). assert (fl (25 / 100) <= fl (75 / 100)) by (apply (fr_mono fl F); vm_compute; discriminate). nra. }
  assert (I : (i' <= i)%nat). { rewrite EI, EI'. pose proof (Qfloor_resp_le _ _ M). lia. }
  assert (J : (j' <= j)%nat). { rewrite EJ, EJ'. pose proof (Qceiling_resp_le _ _ M). lia. }
  pose proof (sorted_nth _ (sort_q_sorted l) _ _ _ _ I A' A). pose proof (sorted_nth _ (sort_q_sorted l) _ _ _ _ J B' B).
  split; [lra|]. intros lo hi H1.
  assert (IN : forall k x, nth_error (sort_q l) k = Some x -> lo <= x <= hi).
  { intros k x X. apply H1. apply (Permutation_in _ (sort_q_perm l)). eapply nth_error_In, X. }
  pose proof (IN _ _ A). pose proof (IN _ _ B). pose proof (IN _ _ A'). pose proof (IN _ _ B'). lra.
Qed.

(** ** Profit factors *)
Definition plus_part (l : list Q) : Q := fold_right (fun x a => (if Qltb 0 x then x else 0) + a) 0 l.
Definition minus_part (l : list Q) : Q := fold_right (fun x a => (if Qltb x 0 then x else 0) + a) 0 l.
Lemma win_sum_eq l : win_sum l == plus_part l.
Proof.
  unfold win_sum. assert (forall a, fold_left (fun a x => if Qltb 0 x then a + x else a) l a == a + plus_part l) as H; [|rewrite H; lra].
  induction l as [|x l IH]; intro a; cbn [fold_left plus_part fold_right]; [lra|]. rewrite IH. unfold plus_part. destruct (Qltb 0 x); lra.
Qed.
Lemma loss_sum_eq l : loss_sum l == minus_part l.
Proof.
  unfold loss_sum. assert (forall a, fold_left (fun a x => if Qltb 0 x then a else if Qltb x 0 then a + x else a) l a == a + minus_part l) as H; [|rewrite H; lra].
  induction l as [|x l IH]; intro a; cbn [fold_left minus_part fold_right]; [lra|]. rewrite IH. unfold minus_part.
  destruct (Qltb 0 x) eqn:A, (Qltb x 0) eqn:B; qb; lra.
Qed.
Lemma plus_app a b : plus_part (a ++ b) == plus_part a + plus_part b.
Proof. unfold plus_part in *. induction a as [|x a IH]; cbn [app fold_right]; [lra|]. rewrite IH. lra. Qed.
Lemma minus_app a b : minus_part (a ++ b) == minus_part a + minus_part b.
Proof. unfold minus_part in *. induction a as [|x a IH]; cbn [app fold_right]; [lra|]. rewrite IH. lra. Qed.
Lemma plus_nonneg l : 0 <= plus_part l.
Proof. unfold plus_part in *. induction l as [|x l IH]; cbn [fold_right]; [lra|]. destruct (Qltb 0 x) eqn:E; qb; lra. Qed.
Lemma minus_nonpos l : minus_part l <= 0.
Proof. unfold minus_part in *. induction l as [|x l IH]; cbn [fold_right]; [lra|]. destruct (Qltb x 0) eqn:E; qb; lra. Qed.
Lemma pf_flat l : (forall x, In x l -> x == 0) -> profit_factor l = 0.
Proof.
  intro H. unfold profit_factor.
  assert (A : existsb (fun x => Qltb 0 x) l = false).
  { apply not_true_iff_false. intro E. apply existsb_exists in E. destruct E as [x [I E]]. apply H in I. qb. lra. }
  assert (B : existsb (fun x => negb (Qltb 0 x) && Qltb x 0) l = false).
  { apply not_true_iff_false. intro E. apply existsb_exists in E. destruct E as [x [I E]]. apply H in I. apply andb_true_iff in E. destruct E as [_ E]. qb. lra. }
  rewrite A, B. reflexivity.
Qed.
Lemma pf_value l : ~ (forall x, In x l -> x == 0) -> profit_factor l == (tiny + plus_part l) / (tiny - minus_part l).
Proof.
  intro H. unfold profit_factor.
  destruct (existsb (fun x => Qltb 0 x) l) eqn:A; cbn [negb andb]; [now rewrite win_sum_eq, loss_sum_eq|].
  destruct (existsb (fun x => negb (Qltb 0 x) && Qltb x 0) l) eqn:B; cbn [negb]; [now rewrite win_sum_eq, loss_sum_eq|].
  exfalso. apply H. intros x I.
  assert (X : Qltb 0 x = false).
  { apply not_true_iff_false. intro E. apply (proj2 (not_true_iff_false _) A). apply existsb_exists. eauto. }
  assert (Y : negb (Qltb 0 x) && Qltb x 0 = false).
  { apply not_true_iff_false. intro E. apply (proj2 (not_true_iff_false _) B). apply existsb_exists. eauto. }
  rewrite X in Y. cbn in Y. qb. lra.
Qed.
Lemma jack_value a x b : nth_error (jackknife_profit_factor (a ++ x :: b)) (length a) <> None /\
  forall v, nth_error (jackknife_profit_factor (a ++ x :: b)) (length a) = Some v -> v == (tiny + plus_part (a ++ b)) / (tiny - minus_part (a ++ b)).
Proof.
  unfold jackknife_profit_factor. rewrite map_app. cbn [map]. rewrite nth_error_app2; rewrite map_length; [|lia]. rewrite Nat.sub_diag. cbn [nth_error].
  split; [discriminate|]. intros v [= <-].
  pose proof (win_sum_eq (a ++ x :: b)) as W. pose proof (loss_sum_eq (a ++ x :: b)) as L.
  rewrite plus_app in W. rewrite minus_app in L. cbn [plus_part minus_part fold_right] in W, L. fold (plus_part b) in W. fold (minus_part b) in L.
  assert (EW : (if Qltb 0 x then win_sum (a ++ x :: b) - x else win_sum (a ++ x :: b)) == plus_part (a ++ b)).
  { rewrite plus_app. destruct (Qltb 0 x); rewrite W; lra. }
  assert (EL : (if Qltb 0 x then loss_sum (a ++ x :: b) else if Qltb x 0 then loss_sum (a ++ x :: b) - x else loss_sum (a ++ x :: b)) == minus_part (a ++ b)).
  { rewrite minus_app. destruct (Qltb 0 x) eqn:A, (Qltb x 0) eqn:B; qb; try lra; rewrite L; lra. }
  rewrite EW, EL. reflexivity.
Qed.
Theorem jackknife_leaves_one_out a x b v : nth_error (jackknife_profit_factor (a ++ x :: b)) (length a) = Some v ->
  ~ (forall y, In y (a ++ b) -> y == 0) -> v == profit_factor (a ++ b).
Proof. intros H N. rewrite pf_value by exact N. now apply (jack_value a x b). Qed.
Lemma those_plus l w : those (fun x => 0 < x) l w -> plus_part l == fold_right Qplus 0 w.
Proof.
  induction 1 as [|x l m P T IH|x l m P T IH]; unfold plus_part in *; cbn [fold_right]; [reflexivity| |]; destruct (Qltb 0 x) eqn:E; qb; rewrite IH; try lra; tauto.
Qed.
Lemma those_minus l w : those (fun x => x < 0) l w -> minus_part l == fold_right Qplus 0 w.
Proof.
  induction 1 as [|x l m P T IH|x l m P T IH]; unfold minus_part in *; cbn [fold_right]; [reflexivity| |]; destruct (Qltb x 0) eqn:E; qb; rewrite IH; try lra; tauto.
Qed.
Lemma tiny_pos : 0 < tiny. Proof. reflexivity. Qed.
Theorem profit_factor_spec l w o : those (fun x => 0 < x) l w -> those (fun x => x < 0) l o ->
  let gains := fold_right Qplus 0 w in let losses := - fold_right Qplus 0 o in
  ((forall x, In x l -> x == 0) -> profit_factor l = 0) /\
  (~ (forall x, In x l -> x == 0) -> 0 < profit_factor l /\ profit_factor l == (tiny + gains) / (tiny + losses) /\
     (1 < profit_factor l <-> losses < gains) /\ (profit_factor l < 1 <-> gains < losses)).
Proof.
  intros TW TO gains losses. split; [apply pf_flat|]. intro N. pose proof (pf_value l N) as V.
  pose proof (plus_nonneg l) as PL. pose proof (minus_nonpos l) as MN. pose proof tiny_pos as TP.
  rewrite (those_plus _ _ TW) in V, PL. rewrite (those_minus _ _ TO) in V, MN. fold gains in V, PL.
  assert (D : tiny - fold_right Qplus 0 o == tiny + losses) by (unfold losses; lra). rewrite D in V.
  assert (0 <= losses) by (unfold losses; lra).
  set (d := tiny + losses) in *. assert (DP : 0 < d) by (unfold d; lra).
  rewrite V.
  split; [apply Qlt_shift_div_l; [exact DP|lra]|]. split; [reflexivity|]. split; split; intro H1.
  - assert (d < tiny + gains); [|unfold d in *; lra].
    apply (Qmult_lt_r _ _ d DP) in H1. setoid_replace ((tiny + gains) / d * d) with (tiny + gains) in H1 by (field; lra). lra.
  - apply Qlt_shift_div_l; [exact DP|unfold d; lra].
  - assert (tiny + gains < d); [|unfold d in *; lra].
    apply (Qmult_lt_r _ _ d DP) in H1. setoid_replace ((tiny + gains) / d * d) with (tiny + gains) in H1 by (field; lra). lra.
  - apply Qlt_shift_div_r; [exact DP|unfold d; lra].
Qed.
