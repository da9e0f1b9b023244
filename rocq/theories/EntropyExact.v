(** C96 in exact arithmetic. *)
From Coq Require Import Lra Lia.
From Verif Require Export EntropyProofs.
Open Scope list_scope.
Open Scope R_scope.

Definition exact (x : R) : R := x.

Lemma e10_small : 0 < e10 < / 2.
Proof. unfold e10. split; [apply Rinv_0_lt_compat; lra|apply Rinv_lt_contravar; lra]. Qed.
Lemma e60_pos : 0 < e60.
Proof. unfold e60. apply Rinv_0_lt_compat, pow_lt. lra. Qed.

Section Bins.
Variables (b : nat) (lo hi : R).
Hypothesis B : (3 <= b)%nat.
Hypothesis LH : lo <= hi.
Let f := bin_factor exact b lo hi.

Lemma b_real : 3 <= INR b.
Proof. apply le_INR in B. cbn in B. lra. Qed.

Lemma width_pos : 0 < width b lo hi.
Proof.
  pose proof b_real. pose proof e10_small. pose proof e60_pos. unfold width. fold e10 e60. apply Rdiv_lt_0_compat; lra.
Qed.

Lemma factor_width : f * width b lo hi = 1.
Proof.
  pose proof b_real. pose proof e10_small. pose proof e60_pos. unfold f, bin_factor, width, exact. fold e10 e60. field. lra.
Qed.

Lemma factor_pos : 0 < f.
Proof. pose proof width_pos. pose proof factor_width. destruct (Rlt_dec 0 f); auto. nra. Qed.

Lemma scaled v : lo <= v <= hi -> 0 <= f * (v - lo) < INR b.
Proof.
  intros [L H]. pose proof factor_pos as FP. split; [apply Rmult_le_pos; lra|].
  pose proof factor_width as FW. pose proof width_pos as W. pose proof e10_small. pose proof e60_pos. pose proof b_real.
  assert (R : INR b * width b lo hi > v - lo).
  { unfold width. fold e10 e60. apply Rlt_le_trans with (hi - lo + e60); [lra|].
    apply (Rmult_le_reg_r (INR b - e10)); [lra|]. unfold Rdiv. rewrite <- Rmult_assoc, Rmult_assoc, Rinv_l by lra.
    nra. }
  apply Rlt_le_trans with (f * (INR b * width b lo hi)); [apply Rmult_lt_compat_l; lra|].
  right. transitivity (INR b * (f * width b lo hi)); [ring|]. rewrite FW. ring.
Qed.

Lemma in_bin_scaled k v : in_bin b lo hi k v <-> INR k <= f * (v - lo) < INR (S k).
Proof.
  pose proof factor_pos as FP. pose proof factor_width as FW. unfold in_bin.
  set (w := width b lo hi) in *.
  assert (E : forall a, f * (a * w) = a) by (intro a; transitivity (a * (f * w)); [ring|rewrite FW; ring]).
  split; intros [L H].
  - split; [rewrite <- (E (INR k)) at 1|rewrite <- (E (INR (S k)))];
      [apply Rmult_le_compat_l|apply Rmult_lt_compat_l]; lra.
  - rewrite <- (E (INR k)) in L. rewrite <- (E (INR (S k))) in H.
    apply Rmult_le_reg_l in L; auto. apply Rmult_lt_reg_l in H; auto. lra.
Qed.

Lemma trunc_pos y : 0 <= y -> (0 <= trunc y)%Z /\ IZR (trunc y) <= y < IZR (trunc y) + 1.
Proof.
  intro P. unfold trunc. destruct (Rlt_dec y 0); [lra|]. destruct (base_Int_part y) as [A C]. split; [|lra].
  apply Z.lt_succ_r. apply lt_IZR. rewrite succ_IZR. lra.
Qed.

Lemma bin_iff k v : lo <= v <= hi -> (k < b)%nat -> (bin_of exact b f lo v = k <-> in_bin b lo hi k v).
Proof.
  intros V K. rewrite in_bin_scaled. destruct (scaled v V) as [P U]. destruct (trunc_pos _ P) as [TP [T1 T2]].
  unfold bin_of. cbv zeta. change (exact (f * exact (v - lo))) with (f * (v - lo)).
  set (y := f * (v - lo)) in *. destruct (Z.ltb_spec (trunc y) 0); [lia|].
  destruct (Z.leb_spec (Z.of_nat b) (trunc y)) as [H0|H0].
  { apply IZR_le in H0. rewrite <- INR_IZR_INZ in H0. lra. }
  assert (I : INR (Z.to_nat (trunc y)) = IZR (trunc y)) by (rewrite INR_IZR_INZ, Z2Nat.id; auto).
  rewrite S_INR. split.
  - intros <-. rewrite I. lra.
  - intros [A C]. rewrite <- I in T1, T2. rewrite <- S_INR in T2, C.
    assert (Z.to_nat (trunc y) < S k)%nat by (apply INR_lt; lra). assert (k < S (Z.to_nat (trunc y)))%nat by (apply INR_lt; lra). lia.
Qed.
End Bins.

Lemma hits_app g k x y : hits g k (x ++ y) = (hits g k x + hits g k y)%nat.
Proof. unfold hits. now rewrite filter_app, app_length. Qed.

Lemma hits_all g k x : (forall v, In v x -> g v = k) -> hits g k x = length x.
Proof.
  unfold hits. induction x as [|v x IH]; cbn; intro H; auto. rewrite (H v) by auto. rewrite Nat.eqb_refl. cbn. f_equal. apply IH. auto.
Qed.

Lemma hits_none g k x : (forall v, In v x -> g v <> k) -> hits g k x = 0%nat.
Proof.
  unfold hits. induction x as [|v x IH]; cbn; intro H; auto. destruct (Nat.eqb_spec (g v) k) as [E|_]; [destruct (H v); auto|]. apply IH. auto.
Qed.

Lemma filter_split {A} (p : A -> bool) l : Permutation l (filter p l ++ filter (fun x => negb (p x)) l).
Proof.
  induction l as [|a l IH]; cbn; auto. destruct (p a); cbn; [now constructor|]. now apply Permutation_cons_app.
Qed.

(** The tally of a bin is its count. *)
Lemma tally_iff (P : R -> Prop) g k l c : (forall v, In v l -> (g v = k <-> P v)) -> (tally P l c <-> c = hits g k l).
Proof.
  intro H. split.
  - intros (yes & no & PE & Y & N & ->). rewrite (hits_perm g k _ _ PE), hits_app.
    rewrite Forall_forall in Y, N. rewrite hits_all, hits_none; [lia|..]; intros v I.
    + intro E. apply (N v I). apply H; auto. eapply Permutation_in; [apply Permutation_sym; eauto|]. apply in_or_app; auto.
    + apply H; auto. eapply Permutation_in; [apply Permutation_sym; eauto|]. apply in_or_app; auto.
  - intros ->. exists (filter (fun v => Nat.eqb (g v) k) l), (filter (fun v => negb (Nat.eqb (g v) k)) l).
    split; [apply filter_split|]. split; [|split; [|reflexivity]]; apply Forall_forall; intros v I; apply filter_In in I as [I E].
    + apply Nat.eqb_eq in E. now apply H.
    + intro PV. apply H in PV; auto. rewrite PV, Nat.eqb_refl in E. discriminate.
Qed.

Lemma between v r x : In x (v :: r) -> np_min v r <= x <= np_max v r.
Proof. intro I. split; [now apply fold_min_spec|now apply fold_max_spec]. Qed.

Lemma min_max v r : np_min v r <= np_max v r.
Proof. destruct (fold_min_spec r v) as [I _]. now apply fold_max_spec. Qed.

(** Every value lies in exactly one bin. *)
Lemma one_bin l b lo hi x : (3 <= b)%nat -> least l lo -> greatest l hi -> In x l ->
  exists k, (k < b)%nat /\ in_bin b lo hi k x /\ forall k', (k' < b)%nat -> in_bin b lo hi k' x -> k' = k.
Proof.
  intros B L H I. assert (LX : lo <= x <= hi) by (split; [now apply L|now apply H]).
  assert (LH : lo <= hi) by lra.
  exists (bin_of exact b (bin_factor exact b lo hi) lo x). split; [now apply bin_inside|].
  split; [apply bin_iff; auto; now apply bin_inside|].
  intros k' K' IN. symmetry. now apply bin_iff in IN.
Qed.

(** The count of the model's histogram is the tally. *)
Lemma histogram_tally v r k c : let l := v :: r in let b := n_bins (length l) in (k < b)%nat ->
  (tally (in_bin b (np_min v r) (np_max v r) k) l c <-> c = nth k (histogram exact b (np_min v r) (np_max v r) l) 0%nat).
Proof.
  intros l b K. assert (B : (3 <= b)%nat) by (eapply bins_large, n_bins_for).
  destruct (histogram_facts exact b (np_min v r) (np_max v r) l B) as (_ & _ & N). rewrite N.
  apply tally_iff. intros x I. apply bin_iff; auto; [apply min_max|now apply between].
Qed.

Lemma entropy_value values b : numbers values <> [] -> bins_for (Z.of_nat (length (numbers values))) b ->
  exists shares, shares_of b (numbers values) shares /\ relative_entropy exact values = shannon shares / ln (INR b).
Proof.
  intros NE BF. destruct (numbers values) as [|v r] eqn:E; [congruence|].
  pose proof (bins_unique _ _ _ BF (n_bins_for _)) as ->. set (l := v :: r) in *. set (b := n_bins (length l)).
  assert (B : (3 <= b)%nat) by (eapply bins_large, n_bins_for).
  exists (shares_in (length l) (histogram exact b (np_min v r) (np_max v r) l)). split; [|now apply entropy_unfold].
  destruct (histogram_facts exact b (np_min v r) (np_max v r) l B) as (L & _ & _). cbv zeta in L.
  split; [unfold shares_in; now rewrite map_length|]. intros lo hi k c LO HI K T.
  apply least_min in LO. apply greatest_max in HI. subst lo hi. apply histogram_tally in T; auto. fold b l in T. subst c.
  unfold shares_in. rewrite nth_error_map, (nth_error_nth' _ 0%nat) by lia. reflexivity.
Qed.

Lemma tally_exists values b lo hi k : least (numbers values) lo -> greatest (numbers values) hi ->
  bins_for (Z.of_nat (length (numbers values))) b -> (k < b)%nat -> exists c, tally (in_bin b lo hi k) (numbers values) c.
Proof.
  intros L H BF K. destruct (numbers values) as [|v r]; [destruct L as [[] _]|].
  apply least_min in L. apply greatest_max in H. subst lo hi. pose proof (bins_unique _ _ _ BF (n_bins_for _)) as ->.
  eexists. apply histogram_tally; auto.
Qed.

Lemma entropy_one values b : bins_for (Z.of_nat (length (numbers values))) b ->
  (relative_entropy exact values = 1 <->
   numbers values <> [] /\ forall lo hi k c, least (numbers values) lo -> greatest (numbers values) hi -> (k < b)%nat ->
     tally (in_bin b lo hi k) (numbers values) c -> (c * b = length (numbers values))%nat).
Proof.
  intro BF. destruct (numbers values) as [|v r] eqn:E.
  { rewrite entropy_none by auto. split; [lra|]. intros [X _]. congruence. }
  pose proof (bins_unique _ _ _ BF (n_bins_for _)) as ->. rewrite (entropy_unfold exact _ v r E). cbv zeta.
  set (l := v :: r) in *. set (b := n_bins (length l)). assert (B : (3 <= b)%nat) by (eapply bins_large, n_bins_for).
  set (h := histogram exact b (np_min v r) (np_max v r) l).
  destruct (histogram_facts exact b (np_min v r) (np_max v r) l B) as (L & T & _). cbv zeta in L, T. fold h in L, T.
  destruct (shares_ok (length l) h ltac:(cbn; lia) T) as [F O].
  assert (LS : length (shares_in (length l) h) = b) by (unfold shares_in; now rewrite map_length).
  destruct (shannon_max _ ltac:(intro H; rewrite H in LS; cbn in LS; lia) F O) as [_ M]. rewrite LS in M.
  pose proof (ln_bins b B) as LB. assert (NB : 0 < INR b) by (apply lt_0_INR; lia).
  assert (NL : 0 < INR (length l)) by (apply lt_0_INR; cbn; lia).
  assert (Q : shannon (shares_in (length l) h) / ln (INR b) = 1 <-> shannon (shares_in (length l) h) = ln (INR b)).
  { split; intro H; [|rewrite H; unfold Rdiv; apply Rinv_r; lra].
    apply (Rmult_eq_compat_r (ln (INR b))) in H. unfold Rdiv in H. rewrite Rmult_assoc, Rinv_l in H; lra. }
  assert (EQ : forall c, INR c / INR (length l) = / INR b <-> (c * b = length l)%nat).
  { intro c. split; intro H.
    - apply INR_eq. rewrite mult_INR. apply (Rmult_eq_compat_r (INR (length l) * INR b)) in H.
      unfold Rdiv in H. replace (INR c * / INR (length l) * (INR (length l) * INR b)) with (INR c * INR b) in H by (field; lra).
      rewrite H. field. lra.
    - rewrite <- H, mult_INR. assert (INR c <> 0) by (intro Z; rewrite <- H, mult_INR, Z in NL; lra). field. lra. }
  rewrite Q, M, Forall_forall. split.
  - intro H. split; [discriminate|]. intros lo hi k c LO HI K TL. apply least_min in LO. apply greatest_max in HI. subst lo hi.
    apply histogram_tally in TL; auto. fold b l h in TL. apply EQ, H. unfold shares_in. apply in_map_iff. exists c. split; auto.
    rewrite TL. apply nth_In. lia.
  - intros [_ H] p I. apply in_map_iff in I as (c & <- & I). apply EQ.
    apply (In_nth _ _ 0%nat) in I as (k & K & <-). apply (H (np_min v r) (np_max v r) k); [now apply least_min|now apply greatest_max|lia|].
    apply histogram_tally; [fold l b; lia|reflexivity].
Qed.

Lemma entropy_same fl values : fl 0 = 0 -> same (numbers values) -> relative_entropy fl values = 0.
Proof.
  intros Z S1. destruct (numbers values) as [|v r] eqn:E; [now apply entropy_none|].
  rewrite (entropy_unfold fl _ v r E). cbv zeta. set (l := v :: r) in *. set (b := n_bins (length l)).
  assert (B : (3 <= b)%nat) by (eapply bins_large, n_bins_for).
  set (h := histogram fl b (np_min v r) (np_max v r) l).
  destruct (histogram_facts fl b (np_min v r) (np_max v r) l B) as (L & T & N). cbv zeta in L, T, N. fold h in L, T, N.
  assert (ZB : forall x, In x l -> bin_of fl b (bin_factor fl b (np_min v r) (np_max v r)) (np_min v r) x = 0%nat).
  { intros x I. assert (X : x - np_min v r = 0) by (rewrite (S1 x (np_min v r) I); [lra|apply fold_min_spec]).
    unfold bin_of. cbv zeta. rewrite X, Z, Rmult_0_r, Z.
    assert (TZ : trunc 0 = 0%Z).
    { destruct (trunc_pos 0) as [A [C D]]; [lra|]. apply le_IZR in C. lia. }
    rewrite TZ. cbn. destruct (Z.leb_spec (Z.of_nat b) 0); [lia|reflexivity]. }
  assert (SH : forall p, In p (shares_in (length l) h) -> p * ln p = 0).
  { intros p I. apply in_map_iff in I as (c & <- & I). apply (In_nth _ _ 0%nat) in I as (k & K & <-). rewrite N.
    destruct k; [rewrite hits_all by auto|rewrite hits_none by (intros x I; rewrite ZB by auto; lia)].
    - unfold Rdiv. rewrite Rinv_r, ln_1; [lra|]. apply not_0_INR. discriminate.
    - cbn [INR]. unfold Rdiv. rewrite !Rmult_0_l. reflexivity. }
  assert (SZ : shannon (shares_in (length l) h) = 0).
  { unfold shannon. rewrite (map_ext_in _ (fun _ => 0)) by auto. generalize (shares_in (length l) h). induction l0; cbn; lra. }
  rewrite SZ. unfold Rdiv. ring.
Qed.

Lemma entropy_spread values x y : In x (numbers values) -> In y (numbers values) -> x + / 10 ^ 60 <= y -> 0 < relative_entropy exact values.
Proof.
  intros IX IY D. destruct (numbers values) as [|v r] eqn:E; [destruct IX|].
  rewrite (entropy_unfold exact _ v r E). cbv zeta. set (l := v :: r) in *. set (b := n_bins (length l)).
  assert (B : (3 <= b)%nat) by (eapply bins_large, n_bins_for).
  set (h := histogram exact b (np_min v r) (np_max v r) l).
  destruct (histogram_facts exact b (np_min v r) (np_max v r) l B) as (L & T & N). cbv zeta in L, T, N. fold h in L, T, N.
  destruct (shares_ok (length l) h ltac:(cbn; lia) T) as [F O].
  unfold Rdiv. apply Rmult_lt_0_compat; [|apply Rinv_0_lt_compat, ln_bins; auto].
  assert (NL : 0 < INR (length l)) by (apply lt_0_INR; cbn; lia).
  set (lo := np_min v r) in *. set (hi := np_max v r) in *. set (g := bin_of exact b (bin_factor exact b lo hi) lo) in *.
  destruct (fold_min_spec r v) as [IL ML]. destruct (fold_max_spec r v) as [IH MH]. fold (np_min v r) in IL, ML. fold (np_max v r) in IH, MH. fold lo in IL, ML. fold hi in IH, MH.
  assert (LH : lo <= hi) by (apply min_max). fold e60 in D. pose proof e60_pos as EP. pose proof e10_small as TP. pose proof (b_real b B) as BR.
  assert (SP : e60 <= hi - lo) by (pose proof (ML x IX); pose proof (MH y IY); lra).
  assert (G0 : g lo = 0%nat).
  { apply bin_iff; [exact B|exact LH|split; [apply Rle_refl|exact LH]|lia|]. pose proof (width_pos b lo hi B LH). unfold in_bin. change (INR 0) with 0. change (INR 1) with 1. lra. }
  assert (G1 : g hi <> 0%nat).
  { intro G. apply bin_iff in G; [|exact B|exact LH|split; [exact LH|apply Rle_refl]|lia]. destruct G as [_ G]. cbn [INR] in G. rewrite Rmult_1_l in G.
    unfold width in G. fold e60 e10 in G. assert (U : (hi - lo + e60) / (INR b - e10) <= hi - lo); [|lra].
    apply (Rmult_le_reg_r (INR b - e10)); [lra|]. unfold Rdiv. rewrite Rmult_assoc, Rinv_l by lra. nra. }
  assert (H1 : (0 < hits g 0 l)%nat).
  { unfold hits. destruct (filter (fun u => Nat.eqb (g u) 0) l) eqn:FE; [|cbn; lia].
    assert (I : In lo (filter (fun u => Nat.eqb (g u) 0) l)) by (apply filter_In; split; auto; now rewrite G0).
    rewrite FE in I. destruct I. }
  assert (H2 : (hits g 0 l < length l)%nat).
  { assert (P := Permutation_length (filter_split (fun u => Nat.eqb (g u) 0) l)). rewrite app_length in P. unfold hits.
    destruct (filter (fun u => negb (Nat.eqb (g u) 0)) l) eqn:FE; [|cbn in P |- *; lia].
    assert (I : In hi (filter (fun u => negb (Nat.eqb (g u) 0)) l)) by (apply filter_In; split; auto; apply Bool.negb_true_iff; now apply Nat.eqb_neq).
    rewrite FE in I. destruct I. }
  apply (shannon_pos _ (INR (hits g 0 l) / INR (length l))); auto.
  - unfold shares_in. apply in_map_iff. exists (hits g 0 l). split; auto. rewrite <- N. apply nth_In. lia.
  - apply lt_INR in H1, H2. change (INR 0) with 0 in H1. split; [apply Rdiv_lt_0_compat; lra|].
    apply (Rmult_lt_reg_r (INR (length l))); auto. unfold Rdiv. rewrite Rmult_assoc, Rinv_l by lra. lra.
Qed.

(** Adding a constant to every value changes nothing. *)
Definition shift (c : R) (v : float) : float := match v with Num x => Num (x + c) | _ => v end.

Lemma numbers_shift c values : numbers (map (shift c) values) = map (fun x => x + c) (numbers values).
Proof. induction values as [|[x| | |] r IH]; cbn; congruence. Qed.

Lemma min_shift c r : forall v, np_min (v + c) (map (fun x => x + c) r) = np_min v r + c.
Proof.
  unfold np_min. induction r as [|y r IH]; intro v; cbn; [reflexivity|]. rewrite <- IH. f_equal.
  unfold Rmin. destruct (Rle_dec (v + c) (y + c)), (Rle_dec v y); lra.
Qed.

Lemma max_shift c r : forall v, np_max (v + c) (map (fun x => x + c) r) = np_max v r + c.
Proof.
  unfold np_max. induction r as [|y r IH]; intro v; cbn; [reflexivity|]. rewrite <- IH. f_equal.
  unfold Rmax. destruct (Rle_dec (v + c) (y + c)), (Rle_dec v y); lra.
Qed.

Lemma entropy_shift c values : relative_entropy exact (map (shift c) values) = relative_entropy exact values.
Proof.
  destruct (numbers values) as [|v r] eqn:E.
  { rewrite (entropy_none exact values E), entropy_none; auto. now rewrite numbers_shift, E. }
  assert (E' : numbers (map (shift c) values) = (v + c) :: map (fun x => x + c) r) by now rewrite numbers_shift, E.
  rewrite (entropy_unfold exact _ _ _ E), (entropy_unfold exact _ _ _ E'). cbv zeta. cbn [length]. rewrite map_length, min_shift, max_shift.
  set (b := n_bins (S (length r))). assert (B : (3 <= b)%nat) by (eapply bins_large, n_bins_for).
  do 3 f_equal. set (lo := np_min v r). set (hi := np_max v r).
  destruct (histogram_facts exact b lo hi (v :: r) B) as (L & _ & N).
  destruct (histogram_facts exact b (lo + c) (hi + c) (v + c :: map (fun x => x + c) r) B) as (L' & _ & N').
  apply counts_eq; [congruence|]. intro k. rewrite N, N'.
  change (v + c :: map (fun x => x + c) r) with (map (fun x => x + c) (v :: r)).
  replace (bin_factor exact b (lo + c) (hi + c)) with (bin_factor exact b lo hi)
    by (unfold bin_factor, exact; now replace (hi + c - (lo + c)) with (hi - lo) by ring).
  unfold hits. generalize (v :: r). induction l as [|x l IH]; [reflexivity|]. cbn [map filter].
  replace (bin_of exact b (bin_factor exact b lo hi) (lo + c) (x + c)) with (bin_of exact b (bin_factor exact b lo hi) lo x)
    by (unfold bin_of, exact; now replace (x + c - (lo + c)) with (x - lo) by ring).
  destruct (Nat.eqb _ k); cbn; congruence.
Qed.
