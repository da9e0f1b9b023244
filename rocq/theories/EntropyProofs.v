(** Proofs of C96. *)
From Coq Require Import Lra Lia.
From Verif Require Export EntropySpec.
Open Scope list_scope.
Open Scope R_scope.

(** ** Entropy of shares *)
Definition total (l : list R) : R := fold_right Rplus 0 l.

Lemma total_app l r : total (l ++ r) = total l + total r.
Proof. unfold total. induction l; cbn in *; lra. Qed.

Lemma ln_le_sub x : 0 < x -> ln x <= x - 1.
Proof.
  intro P. destruct (Req_dec x 1) as [->|N]; [rewrite ln_1; lra|].
  assert (ln x <> 0) by (intro Z; apply N; rewrite <- (exp_ln x P), Z; apply exp_0).
  pose proof (exp_ineq1 (ln x) H). rewrite exp_ln in H0 by lra. lra.
Qed.

Lemma ln_lt_sub x : 0 < x -> x <> 1 -> ln x < x - 1.
Proof.
  intros P N. assert (ln x <> 0) by (intro Z; apply N; rewrite <- (exp_ln x P), Z; apply exp_0).
  pose proof (exp_ineq1 (ln x) H). rewrite exp_ln in H0 by lra. lra.
Qed.

Lemma plogp_nonpos p : 0 <= p <= 1 -> p * ln p <= 0.
Proof.
  intros [A B]. destruct (Req_dec p 0) as [->|N]; [lra|]. assert (ln p <= 0).
  { destruct (Req_dec p 1) as [->|M]; [rewrite ln_1; lra|]. rewrite <- ln_1. left. apply ln_increasing; lra. }
  nra.
Qed.

Lemma plogp_neg p : 0 < p < 1 -> p * ln p < 0.
Proof. intros [A B]. assert (ln p < 0) by (rewrite <- ln_1; apply ln_increasing; lra). nra. Qed.

Lemma shannon_nonneg l : Forall (fun p => 0 <= p <= 1) l -> 0 <= shannon l.
Proof.
  unfold shannon. induction 1 as [|p l P _ IH]; cbn; [lra|]. pose proof (plogp_nonpos p P). lra.
Qed.

Lemma shannon_pos l p : Forall (fun p => 0 <= p <= 1) l -> In p l -> 0 < p < 1 -> 0 < shannon l.
Proof.
  intros F I P. unfold shannon. induction F as [|q l Q F IH]; [destruct I|]. cbn.
  pose proof (plogp_nonpos q Q). pose proof (shannon_nonneg l F) as SN. unfold shannon in SN.
  destruct I as [->|I]; [pose proof (plogp_neg p P); lra|]. specialize (IH I). lra.
Qed.

(** One term of Gibbs' inequality against the uniform share [u]. *)
Lemma gibbs_term u p : 0 < u -> 0 <= p -> - (p * ln p) + p * ln u <= u - p.
Proof.
  intros U P. destruct (Req_dec p 0) as [->|N]; [lra|]. assert (0 < p) by lra.
  assert (Q : 0 < u / p) by (apply Rdiv_lt_0_compat; lra). pose proof (ln_le_sub _ Q) as L.
  unfold Rdiv in L. rewrite ln_mult, ln_Rinv in L by (try apply Rinv_0_lt_compat; lra).
  apply (Rmult_le_compat_l p) in L; [|lra]. replace (p * (u * / p - 1)) with (u - p) in L by (field; lra). lra.
Qed.

Lemma gibbs_term_strict u p : 0 < u -> 0 <= p -> p <> u -> - (p * ln p) + p * ln u < u - p.
Proof.
  intros U P D. destruct (Req_dec p 0) as [->|N]; [lra|]. assert (0 < p) by lra.
  assert (Q : 0 < u / p) by (apply Rdiv_lt_0_compat; lra).
  assert (u / p <> 1) by (intro E; apply D; apply (Rmult_eq_compat_r p) in E; unfold Rdiv in E; rewrite Rmult_assoc, Rinv_l in E; lra).
  pose proof (ln_lt_sub _ Q H0) as L.
  unfold Rdiv in L. rewrite ln_mult, ln_Rinv in L by (try apply Rinv_0_lt_compat; lra).
  apply (Rmult_lt_compat_l p) in L; [|lra]. replace (p * (u * / p - 1)) with (u - p) in L by (field; lra). lra.
Qed.

Lemma gibbs u l : 0 < u -> Forall (fun p => 0 <= p <= 1) l -> shannon l + total l * ln u <= INR (length l) * u - total l.
Proof.
  intros U F. induction F as [|p l P F IH]; [unfold shannon; cbn; lra|].
  unfold shannon in *. cbn [map fold_right total length] in *. rewrite S_INR. fold (total l) in *.
  pose proof (gibbs_term u p U (proj1 P)). lra.
Qed.

Lemma gibbs_strict u l q : 0 < u -> Forall (fun p => 0 <= p <= 1) l -> In q l -> q <> u ->
  shannon l + total l * ln u < INR (length l) * u - total l.
Proof.
  intros U F I D. induction F as [|p l P F IH]; [destruct I|].
  pose proof (gibbs u l U F) as G. pose proof (gibbs_term u p U (proj1 P)) as T.
  unfold shannon in *. cbn [map fold_right total length] in *. rewrite S_INR. fold (total l) in *.
  destruct I as [->|I]; [pose proof (gibbs_term_strict u q U (proj1 P) D); lra|]. specialize (IH I). lra.
Qed.

Lemma uniform_total u l : Forall (fun p => p = u) l -> shannon l = - (INR (length l) * (u * ln u)).
Proof.
  unfold shannon. induction 1 as [|p l -> F IH]; [cbn; lra|]. cbn [map fold_right length]. rewrite S_INR. lra.
Qed.

Lemma shannon_max l : l <> [] -> Forall (fun p => 0 <= p <= 1) l -> total l = 1 ->
  shannon l <= ln (INR (length l)) /\ (shannon l = ln (INR (length l)) <-> Forall (fun p => p = / INR (length l)) l).
Proof.
  intros NE F T. assert (B : 0 < INR (length l)) by (destruct l; [congruence|apply lt_0_INR; cbn; lia]).
  pose proof (Rinv_0_lt_compat _ B) as U.
  assert (E : ln (/ INR (length l)) = - ln (INR (length l))) by (apply ln_Rinv; lra).
  assert (O : INR (length l) * / INR (length l) = 1) by (apply Rinv_r; lra).
  pose proof (gibbs _ l U F) as G. rewrite T, E, O in G. split; [lra|]. split; intro H.
  - apply Forall_forall. intros q I. destruct (Req_dec q (/ INR (length l))) as [|D]; auto.
    pose proof (gibbs_strict _ l q U F I D) as S1. rewrite T, E, O in S1. lra.
  - rewrite (uniform_total _ l H), E. rewrite <- Rmult_assoc, O. lra.
Qed.

(** ** The histogram *)
Lemma finite_numbers values : finite_values values = numbers values.
Proof. unfold finite_values. induction values as [|[x| | |] r IH]; cbn in *; congruence. Qed.

Lemma bump_length k c : length (bump k c) = length c.
Proof. revert k. induction c as [|x c IH]; intros [|k]; cbn; auto. Qed.

Lemma bump_nth k c j : (k < length c)%nat -> nth j (bump k c) 0%nat = (nth j c 0 + if Nat.eqb j k then 1 else 0)%nat.
Proof.
  revert k j. induction c as [|x c IH]; cbn [length]; intros k j L; [lia|]. destruct k, j; cbn [bump nth Nat.eqb]; try lia.
  apply IH. lia.
Qed.

Lemma bump_sum c : forall k, (k < length c)%nat -> list_sum (bump k c) = S (list_sum c).
Proof.
  induction c as [|x c IH]; intros k L; cbn in L; [lia|]. destruct k; cbn; [reflexivity|]. fold (list_sum (bump k c)). fold (list_sum c). rewrite IH by lia. lia.
Qed.

Section Fold.
Variables (g : R -> nat) (b : nat).
Hypothesis inside : forall v, (g v < b)%nat.
Let step := fun count v => bump (g v) count.
Definition hits (k : nat) (x : list R) : nat := length (filter (fun v => Nat.eqb (g v) k) x).

Lemma fold_bump x : forall c, length c = b -> length (fold_left step x c) = b /\
  forall k, nth k (fold_left step x c) 0%nat = (nth k c 0 + hits k x)%nat.
Proof.
  induction x as [|v x IH]; intros c L; cbn; [split; auto; intro; unfold hits; cbn; lia|].
  destruct (IH (step c v)) as [L' N]; [unfold step; now rewrite bump_length|]. split; auto. intro k.
  rewrite N. unfold step. rewrite bump_nth by (rewrite L; apply inside). unfold hits. cbn.
  rewrite (Nat.eqb_sym k). destruct (Nat.eqb (g v) k); cbn; lia.
Qed.

Lemma fold_sum x : forall c, length c = b -> list_sum (fold_left step x c) = (list_sum c + length x)%nat.
Proof.
  induction x as [|v x IH]; intros c L; cbn [fold_left length]; [lia|].
  rewrite IH by (unfold step; now rewrite bump_length). unfold step. rewrite bump_sum by (rewrite L; apply inside). lia.
Qed.
End Fold.

Lemma n_bins_for n : bins_for (Z.of_nat n) (n_bins n).
Proof.
  unfold n_bins, bins_for. destruct (N.ltb_spec (N.of_nat n) 100); [lia|].
  destruct (N.ltb_spec (N.of_nat n) 1000); [lia|]. destruct (N.ltb_spec (N.of_nat n) 10000); lia.
Qed.

Lemma bins_large n b : bins_for n b -> (3 <= b)%nat.
Proof. unfold bins_for. lia. Qed.

Lemma bins_unique n b b' : bins_for n b -> bins_for n b' -> b = b'.
Proof. unfold bins_for. lia. Qed.

Lemma bin_inside fl b f lo v : (3 <= b)%nat -> (bin_of fl b f lo v < b)%nat.
Proof.
  intro B. unfold bin_of. cbv zeta. destruct (Z.ltb_spec (trunc (fl (f * fl (v - lo)))) 0); [lia|].
  destruct (Z.leb_spec (Z.of_nat b) (trunc (fl (f * fl (v - lo))))); lia.
Qed.

(** The histogram of values, bin by bin. *)
Lemma histogram_facts fl b lo hi x : (3 <= b)%nat ->
  let h := histogram fl b lo hi x in
  length h = b /\ list_sum h = length x /\
  forall k, nth k h 0%nat = hits (bin_of fl b (bin_factor fl b lo hi) lo) k x.
Proof.
  intros B h. set (g := bin_of fl b (bin_factor fl b lo hi) lo).
  assert (I : forall v, (g v < b)%nat) by (intro v; apply bin_inside; auto).
  destruct (fold_bump g b I x (repeat 0%nat b) (repeat_length _ _)) as [L N].
  pose proof (fold_sum g b I x (repeat 0%nat b) (repeat_length _ _)) as S1.
  assert (Z : list_sum (repeat 0%nat b) = 0%nat) by (clear; induction b; cbn; auto).
  split; [exact L|split].
  - unfold h, histogram. etransitivity; [exact S1|]. lia.
  - intro k. unfold h, histogram. etransitivity; [apply N|]. rewrite nth_repeat. reflexivity.
Qed.

(** ** The sum *)
Definition shares_in (n : nat) (count : list nat) : list R := map (fun c => INR c / INR n) count.

Lemma sum_plogp_shares n count : - sum_plogp n count = shannon (shares_in n count).
Proof.
  unfold sum_plogp, shannon, shares_in. f_equal.
  assert (E : forall l a, fold_left (fun acc c => match c with O => acc | _ => let p := INR c / INR n in acc + p * ln p end) l a =
    a + fold_right Rplus 0 (map (fun p => p * ln p) (map (fun c => INR c / INR n) l))).
  { induction l as [|c l IH]; intro a; cbn [fold_left map fold_right]; [lra|]. rewrite IH. destruct c; [cbn; unfold Rdiv; lra|]. cbv zeta. lra. }
  rewrite E. lra.
Qed.

Lemma list_sum_in l c : In c l -> (c <= list_sum l)%nat.
Proof. induction l as [|x l IH]; [easy|]. intros [->|I]; cbn; fold (list_sum l); [lia|]. specialize (IH I). lia. Qed.

Lemma shares_ok n count : (0 < n)%nat -> list_sum count = n ->
  Forall (fun p => 0 <= p <= 1) (shares_in n count) /\ total (shares_in n count) = 1.
Proof.
  intros P S1. assert (N : 0 < INR n) by (apply lt_0_INR; lia). split.
  - apply Forall_forall. intros p I. apply in_map_iff in I as (c & <- & I). apply list_sum_in in I. rewrite S1 in I.
    split; [unfold Rdiv; apply Rmult_le_pos; [apply pos_INR|left; now apply Rinv_0_lt_compat]|].
    apply (Rmult_le_reg_r (INR n)); auto. unfold Rdiv. rewrite Rmult_assoc, Rinv_l by lra. apply le_INR in I. lra.
  - assert (E : forall l, total (shares_in n l) = INR (list_sum l) / INR n).
    { unfold total, shares_in. induction l as [|c l IH]; cbn [map fold_right]; [cbn; unfold Rdiv; lra|]. rewrite IH.
      cbn [list_sum fold_right]. fold (list_sum l). change (list_sum (c :: l)) with (c + list_sum l)%nat. rewrite plus_INR. unfold Rdiv. lra. }
    rewrite E, S1. unfold Rdiv. apply Rinv_r. lra.
Qed.

Lemma ln_bins b : (3 <= b)%nat -> 0 < ln (INR b).
Proof. intro B. rewrite <- ln_1. apply ln_increasing; [lra|]. change 1 with (INR 1). apply lt_INR. lia. Qed.

(** ** Unfolded *)
Lemma entropy_unfold fl values v r : numbers values = v :: r ->
  let x := v :: r in let b := n_bins (length x) in
  relative_entropy fl values = shannon (shares_in (length x) (histogram fl b (np_min v r) (np_max v r) x)) / ln (INR b).
Proof. intros E x b. unfold relative_entropy. rewrite finite_numbers, E. cbv zeta. rewrite <- sum_plogp_shares. reflexivity. Qed.

Lemma entropy_none fl values : numbers values = [] -> relative_entropy fl values = 0.
Proof. intro E. unfold relative_entropy. now rewrite finite_numbers, E. Qed.

Lemma div_between a c : 0 < c -> 0 <= a <= c -> 0 <= a / c <= 1.
Proof.
  intros C [A B]. split; [unfold Rdiv; apply Rmult_le_pos; [lra|left; now apply Rinv_0_lt_compat]|].
  apply (Rmult_le_reg_r c); auto. unfold Rdiv. rewrite Rmult_assoc, Rinv_l by lra. lra.
Qed.

Lemma entropy_range fl values : 0 <= relative_entropy fl values <= 1.
Proof.
  destruct (numbers values) as [|v r] eqn:E; [rewrite entropy_none by auto; lra|].
  rewrite (entropy_unfold fl _ v r E). set (x := v :: r). set (b := n_bins (length x)). cbv zeta. fold x b.
  assert (B : (3 <= b)%nat) by (eapply bins_large, n_bins_for).
  destruct (histogram_facts fl b (np_min v r) (np_max v r) x B) as (L & T & _). cbv zeta in L, T.
  destruct (shares_ok (length x) _ ltac:(cbn; lia) T) as [F O].
  assert (LS : length (shares_in (length x) (histogram fl b (np_min v r) (np_max v r) x)) = b) by (unfold shares_in; now rewrite map_length).
  destruct (shannon_max _ ltac:(intro H; rewrite H in LS; cbn in LS; lia) F O) as [M _]. rewrite LS in M.
  apply div_between; [now apply ln_bins|]. split; [now apply shannon_nonneg|exact M].
Qed.

(** ** Order *)
Lemma fold_min_spec r : forall v, In (fold_left Rmin r v) (v :: r) /\ forall x, In x (v :: r) -> fold_left Rmin r v <= x.
Proof.
  induction r as [|y r IH]; intro v; cbn; [split; auto; intros x [->|[]]; lra|].
  destruct (IH (Rmin v y)) as [I M]. split.
  - destruct I as [E|I]; [|auto]. unfold Rmin in E at 1. destruct (Rle_dec v y); rewrite <- E; auto.
  - intros x [->|[->|I']]; [..|apply M; now right];
      (eapply Rle_trans; [apply M; left; reflexivity|]); [apply Rmin_l|apply Rmin_r].
Qed.

Lemma fold_max_spec r : forall v, In (fold_left Rmax r v) (v :: r) /\ forall x, In x (v :: r) -> x <= fold_left Rmax r v.
Proof.
  induction r as [|y r IH]; intro v; cbn; [split; auto; intros x [->|[]]; lra|].
  destruct (IH (Rmax v y)) as [I M]. split.
  - destruct I as [E|I]; [|auto]. unfold Rmax in E at 1. destruct (Rle_dec v y); rewrite <- E; auto.
  - intros x [->|[->|I']]; [..|apply M; now right];
      (eapply Rle_trans; [|apply M; left; reflexivity]); [apply Rmax_l|apply Rmax_r].
Qed.

Lemma least_min v r lo : least (v :: r) lo <-> lo = np_min v r.
Proof.
  destruct (fold_min_spec r v) as [I M]. split; [|intros ->; split; auto].
  intros [I' M']. apply Rle_antisym; [apply M'; exact I|apply M; exact I'].
Qed.

Lemma greatest_max v r hi : greatest (v :: r) hi <-> hi = np_max v r.
Proof.
  destruct (fold_max_spec r v) as [I M]. split; [|intros ->; split; auto].
  intros [I' M']. apply Rle_antisym; [apply M; exact I'|apply M'; exact I].
Qed.

Lemma hits_perm g k x y : Permutation x y -> hits g k x = hits g k y.
Proof.
  unfold hits. induction 1; cbn; auto; [destruct (Nat.eqb (g x) k); cbn; auto| |congruence].
  destruct (Nat.eqb (g x) k), (Nat.eqb (g y) k); reflexivity.
Qed.

Lemma counts_eq (a b : list nat) : length a = length b -> (forall k, nth k a 0%nat = nth k b 0%nat) -> a = b.
Proof. intros L N. apply (nth_ext a b 0%nat 0%nat L). intros; apply N. Qed.

Lemma entropy_order fl vs vs' : Permutation (numbers vs) (numbers vs') -> relative_entropy fl vs = relative_entropy fl vs'.
Proof.
  intro P. destruct (numbers vs) as [|v r] eqn:E.
  - rewrite (entropy_none fl vs E), entropy_none; auto. now apply Permutation_nil.
  - destruct (numbers vs') as [|v' r'] eqn:E'; [apply Permutation_sym, Permutation_nil in P; discriminate|].
    rewrite (entropy_unfold fl _ _ _ E), (entropy_unfold fl _ _ _ E'). cbv zeta.
    rewrite <- (Permutation_length P). set (n := length (v :: r)). set (b := n_bins n).
    assert (B : (3 <= b)%nat) by (eapply bins_large, n_bins_for).
    assert (EL : np_min v r = np_min v' r').
    { apply least_min. destruct (fold_min_spec r v) as [I M]. split; [eapply Permutation_in; eauto|].
      intros x I'. apply M. eapply Permutation_in; [apply Permutation_sym|]; eauto. }
    assert (EH : np_max v r = np_max v' r').
    { apply greatest_max. destruct (fold_max_spec r v) as [I M]. split; [eapply Permutation_in; eauto|].
      intros x I'. apply M. eapply Permutation_in; [apply Permutation_sym|]; eauto. }
    rewrite <- EL, <- EH. do 3 f_equal.
    destruct (histogram_facts fl b (np_min v r) (np_max v r) (v :: r) B) as (L & _ & N).
    destruct (histogram_facts fl b (np_min v r) (np_max v r) (v' :: r') B) as (L' & _ & N').
    apply counts_eq; [congruence|]. intro k. rewrite N, N'. now apply hits_perm.
Qed.
