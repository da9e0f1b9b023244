(** Proofs about [walkforward_split]. *)
From Verif Require Import Lemmas.
From Verif Require Export WalkSpec.
From Coq Require Import Sorting.Sorted.

(** ** Sorted distinct dates *)
Lemma zinsert_in x l y : In y (zinsert x l) <-> y = x \/ In y l.
Proof.
  induction l as [|z r IH]; cbn; [intuition|].
  destruct (Z.ltb x z) eqn:E; [cbn; intuition|].
  destruct (Z.eqb x z) eqn:E2; [apply Z.eqb_eq in E2; subst; cbn; intuition|].
  cbn. rewrite IH. intuition.
Qed.
Lemma zinsert_sorted x l : StronglySorted Z.lt l -> StronglySorted Z.lt (zinsert x l).
Proof.
  induction 1 as [|z r S IH F]; cbn; [repeat constructor|].
  destruct (Z.ltb x z) eqn:E.
  - apply Z.ltb_lt in E. constructor; [constructor; auto|]. constructor; [exact E|].
    eapply Forall_impl; [|exact F]. cbn; intros; lia.
  - apply Z.ltb_ge in E. destruct (Z.eqb x z) eqn:E2; [constructor; auto|].
    apply Z.eqb_neq in E2. constructor; [exact IH|].
    apply Forall_forall. intros y Hy. apply zinsert_in in Hy. rewrite Forall_forall in F.
    destruct Hy as [->|Hy]; [lia|auto].
Qed.
Lemma unique_sorted_in l y : In y (unique_sorted l) <-> In y l.
Proof. induction l; cbn; [tauto|]. rewrite zinsert_in, IHl. intuition. Qed.
Lemma unique_sorted_sorted l : StronglySorted Z.lt (unique_sorted l).
Proof. induction l; cbn; [constructor|]. now apply zinsert_sorted. Qed.
Lemma sorted_nodup l : StronglySorted Z.lt l -> NoDup l.
Proof.
  induction 1 as [|z r S IH F]; constructor; auto. intros H. rewrite Forall_forall in F. apply F in H. lia.
Qed.
Lemma unique_perm dates : Permutation (bars_of dates) (unique_sorted dates).
Proof.
  apply NoDup_Permutation; [apply NoDup_nodup|apply sorted_nodup, unique_sorted_sorted|].
  intros x. unfold bars_of. rewrite nodup_In, unique_sorted_in. tauto.
Qed.
Lemma filter_perm_length {A} (f : A -> bool) l l' : Permutation l l' -> length (filter f l) = length (filter f l').
Proof. induction 1; cbn; repeat match goal with |- context[if ?b then _ else _] => destruct b end; cbn; congruence. Qed.
Lemma n_bars_unique dates : n_bars dates = Z.of_nat (length (unique_sorted dates)).
Proof. unfold n_bars. f_equal. apply Permutation_length, unique_perm. Qed.
Lemma bars_after_unique dates d : bars_after dates d = Z.of_nat (length (filter (fun x => Z.ltb d x) (unique_sorted dates))).
Proof. unfold bars_after. f_equal. apply filter_perm_length, unique_perm. Qed.

Lemma filter_all {A} (f : A -> bool) l : (forall x, In x l -> f x = true) -> filter f l = l.
Proof. induction l; cbn; intros H; auto. rewrite H by auto. f_equal. auto. Qed.
Lemma count_above l : StronglySorted Z.lt l -> forall j d, nth_error l j = Some d ->
  Z.of_nat (length (filter (fun x => Z.ltb d x) l)) = (Z.of_nat (length l) - 1 - Z.of_nat j)%Z.
Proof.
  induction 1 as [|z r S IH F]; intros j d E; [destruct j; discriminate|].
  rewrite Forall_forall in F. destruct j as [|j]; cbn [nth_error] in E.
  - injection E as ->. cbn [filter length]. rewrite Z.ltb_irrefl, filter_all; [lia|]. intros x Hx. apply Z.ltb_lt. auto.
  - pose proof (nth_error_In _ _ E) as Hi. apply F in Hi. cbn [filter].
    replace (Z.ltb d z) with false by (symmetry; apply Z.ltb_ge; lia). rewrite (IH _ _ E). cbn [length]. lia.
Qed.
Lemma after_nth dates j d : nth_error (unique_sorted dates) j = Some d ->
  bars_after dates d = (n_bars dates - 1 - Z.of_nat j)%Z.
Proof. intros H. rewrite bars_after_unique, n_bars_unique. apply count_above; [apply unique_sorted_sorted|exact H]. Qed.
Lemma filter_split d d' l : (d <= d')%Z ->
  (length (filter (fun x => Z.ltb d x && Z.leb x d') l) + length (filter (fun x => Z.ltb d' x) l))%nat =
  length (filter (fun x => Z.ltb d x) l).
Proof.
  intros H. induction l as [|x l IH]; cbn; [reflexivity|].
  destruct (Z.ltb_spec d x), (Z.leb_spec x d'), (Z.ltb_spec d' x); cbn; lia.
Qed.
Lemma from_to_after dates d d' : (d <= d')%Z -> bars_from_to dates d d' = (bars_after dates d - bars_after dates d')%Z.
Proof. intros H. unfold bars_from_to, bars_after. pose proof (filter_split d d' (bars_of dates) H). lia. Qed.
Lemma filter_imp {A} (f g : A -> bool) l : (forall x, f x = true -> g x = true) -> (length (filter f l) <= length (filter g l))%nat.
Proof.
  intros H. induction l as [|x l IH]; cbn; [lia|]. specialize (H x).
  destruct (f x); [rewrite H by auto; cbn; lia|]. destruct (g x); cbn; lia.
Qed.
Lemma after_mono dates d d' : (d <= d')%Z -> (bars_after dates d' <= bars_after dates d)%Z.
Proof.
  intros H. unfold bars_after. apply inj_le, filter_imp. intros x Hx. apply Z.ltb_lt in Hx. apply Z.ltb_lt. lia.
Qed.
Lemma after_lt dates d d' : In d' dates -> (d < d')%Z -> (bars_after dates d' < bars_after dates d)%Z.
Proof.
  intros Hi H. assert (E : bars_from_to dates d d' = (bars_after dates d - bars_after dates d')%Z) by (apply from_to_after; lia).
  assert (0 < bars_from_to dates d d')%Z; [|lia]. unfold bars_from_to.
  destruct (filter _ _) eqn:F; cbn; [|lia]. exfalso.
  assert (In d' []); [|auto]. rewrite <- F. apply filter_In. split; [apply nodup_In, Hi|].
  apply andb_true_intro. split; [apply Z.ltb_lt|apply Z.leb_le]; lia.
Qed.
Lemma after_lt_iff dates d d' : In d dates -> In d' dates -> (bars_after dates d' < bars_after dates d <-> d < d')%Z.
Proof.
  intros H H'. split; [|now apply after_lt]. intros A. destruct (Z.lt_ge_cases d d') as [|B]; auto.
  apply (after_mono dates) in B. lia.
Qed.
Lemma after_le_iff dates d d' : In d dates -> In d' dates -> (bars_after dates d' <= bars_after dates d <-> d <= d')%Z.
Proof.
  intros H H'. split; [|now apply after_mono]. intros A. destruct (Z.lt_ge_cases d' d) as [B|]; [|lia].
  apply (after_lt dates) in B; auto. lia.
Qed.
Lemma row_in dates i d : row_date dates i d -> In d dates.
Proof. apply nth_error_In. Qed.

(** ** Row masks *)
Lemma combine_seq_in {A} (l : list A) k i x : In (i, x) (combine (seq k (length l)) l) <-> (k <= i)%nat /\ nth_error l (i - k) = Some x.
Proof.
  revert k. induction l as [|y l IH]; intros k; cbn.
  - split; [tauto|]. intros [_ H]. destruct (i - k)%nat; discriminate.
  - rewrite IH. split.
    + intros [E|[H1 H2]]; [injection E as -> ->; split; [lia|]; now rewrite Nat.sub_diag|].
      split; [lia|]. replace (i - k)%nat with (S (i - S k)) by lia. exact H2.
    + intros [H1 H2]. destruct (Nat.eq_dec i k) as [->|N].
      * left. rewrite Nat.sub_diag in H2. cbn in H2. congruence.
      * right. split; [lia|]. replace (i - k)%nat with (S (i - S k)) in H2 by lia. exact H2.
Qed.
Lemma row_mask_in dates lo hi b i : In i (row_mask dates lo hi b) <->
  exists d, row_date dates i d /\ (if b then lo < d else lo <= d)%Z /\ (d <= hi)%Z.
Proof.
  unfold row_mask. rewrite in_map_iff. split.
  - intros ((i' & d) & <- & H). apply filter_In in H. destruct H as [H1 H2].
    apply combine_seq_in in H1. cbn [fst snd] in *. exists d. destruct H1 as [_ H1]. rewrite Nat.sub_0_r in H1.
    apply andb_prop in H2. destruct H2 as [H2 H3]. apply Z.leb_le in H3.
    split; [exact H1|]. split; [|exact H3]. destruct b; [now apply Z.ltb_lt|now apply Z.leb_le].
  - intros (d & H1 & H2 & H3). exists (i, d). split; [reflexivity|]. apply filter_In. split.
    + apply combine_seq_in. split; [lia|]. now rewrite Nat.sub_0_r.
    + cbn. apply andb_true_intro. split; [destruct b; [now apply Z.ltb_lt|now apply Z.leb_le]|now apply Z.leb_le].
Qed.
Lemma filter_fst_nodup {A} (f : nat * A -> bool) l : NoDup (map fst l) -> NoDup (map fst (filter f l)).
Proof.
  induction l as [|x l IH]; cbn; [auto|]. intros H. inversion H; subst. destruct (f x); cbn; auto.
  constructor; auto. rewrite in_map_iff in *. intros (y & E & Hy). apply filter_In in Hy. apply H2. exists y. tauto.
Qed.
Lemma combine_fst_seq {A} (l : list A) k : map fst (combine (seq k (length l)) l) = seq k (length l).
Proof. revert k. induction l; intros k; cbn; f_equal; auto. Qed.
Lemma row_mask_nodup dates lo hi b : NoDup (row_mask dates lo hi b).
Proof. apply filter_fst_nodup. rewrite combine_fst_seq. apply seq_NoDup. Qed.

Lemma py_get_in {A} (l : list A) i : (0 <= i < Z.of_nat (length l))%Z -> exists x, py_get l i = Some x /\ nth_error l (Z.to_nat i) = Some x.
Proof.
  intros H. unfold py_get. replace (Z.leb 0 i) with true by (symmetry; apply Z.leb_le; lia).
  destruct (nth_error l (Z.to_nat i)) eqn:E; [eauto|]. apply nth_error_None in E. lia.
Qed.
Lemma nth_error_rev {A} (l : list A) j x : nth_error (rev l) j = Some x -> nth_error l (length l - 1 - j) = Some x.
Proof.
  intros H. assert (L : (j < length l)%nat) by (rewrite <- rev_length; apply nth_error_Some; congruence).
  pose proof (nth_error_nth _ _ x H) as E. rewrite (nth_error_nth' _ x) by lia. f_equal.
  rewrite rev_nth in E by exact L. replace (length l - 1 - j)%nat with (length l - S j)%nat by lia. exact E.
Qed.
(** Positions in the sorted dates, oldest first and newest first. *)
Lemma rows_forward dates lo hi : (0 <= lo < n_bars dates)%Z -> (0 <= hi < n_bars dates)%Z ->
  exists rows, rows_between dates (unique_sorted dates) lo hi false = Some rows /\ NoDup rows /\
    rows_aged dates rows (n_bars dates - 1 - hi) (n_bars dates - lo).
Proof.
  intros H1 H2. pose proof (n_bars_unique dates) as N.
  destruct (py_get_in (unique_sorted dates) lo) as (l & E1 & F1); [lia|].
  destruct (py_get_in (unique_sorted dates) hi) as (h & E2 & F2); [lia|].
  unfold rows_between. rewrite E1, E2. eexists. split; [reflexivity|]. split; [apply row_mask_nodup|].
  assert (I1 : In l dates) by (apply unique_sorted_in; eapply nth_error_In; eauto).
  assert (I2 : In h dates) by (apply unique_sorted_in; eapply nth_error_In; eauto).
  pose proof (after_nth _ _ _ F1) as A1. pose proof (after_nth _ _ _ F2) as A2.
  intros i. rewrite row_mask_in. split; intros (d & R & Hd); exists d; (split; [exact R|]); pose proof (row_in _ _ _ R) as Id.
  - destruct Hd as [G1 G2]. apply (after_le_iff dates) in G1; auto. apply (after_le_iff dates) in G2; auto. lia.
  - split; apply (after_le_iff dates); auto; lia.
Qed.
Lemma rows_backward dates lo hi : (0 <= lo < n_bars dates)%Z -> (0 <= hi < n_bars dates)%Z ->
  exists rows, rows_between dates (rev (unique_sorted dates)) lo hi true = Some rows /\ NoDup rows /\
    rows_aged dates rows hi lo.
Proof.
  intros H1 H2. pose proof (n_bars_unique dates) as N.
  destruct (py_get_in (rev (unique_sorted dates)) lo) as (l & E1 & F1); [rewrite rev_length; lia|].
  destruct (py_get_in (rev (unique_sorted dates)) hi) as (h & E2 & F2); [rewrite rev_length; lia|].
  unfold rows_between. rewrite E1, E2. eexists. split; [reflexivity|]. split; [apply row_mask_nodup|].
  apply nth_error_rev in F1, F2.
  assert (I1 : In l dates) by (apply unique_sorted_in; eapply nth_error_In; eauto).
  assert (I2 : In h dates) by (apply unique_sorted_in; eapply nth_error_In; eauto).
  pose proof (after_nth _ _ _ F1) as A1. pose proof (after_nth _ _ _ F2) as A2.
  assert (B1 : bars_after dates l = lo) by lia. assert (B2 : bars_after dates h = hi) by lia.
  intros i. rewrite row_mask_in. split; intros (d & R & Hd); exists d; (split; [exact R|]); pose proof (row_in _ _ _ R) as Id.
  - destruct Hd as [G1 G2]. apply (after_lt_iff dates) in G1; auto. apply (after_le_iff dates) in G2; auto. lia.
  - split; [apply (after_lt_iff dates)|apply (after_le_iff dates)]; auto; lia.
Qed.

(** ** Sizes *)
Lemma py_int_nonneg q : 0 <= q -> (0 <= py_int q)%Z /\ inject_Z (py_int q) <= q /\ q < inject_Z (py_int q + 1).
Proof.
  intros H. unfold py_int. replace (Qle_bool 0 q) with true by (symmetry; now apply Qle_bool_iff).
  split; [|split; [apply Qfloor_le|apply Qlt_floor]].
  change 0%Z with (Qfloor 0). now apply Qfloor_resp_le.
Qed.
Lemma py_int_nonpos q : q <= 0 -> (py_int q <= 0)%Z.
Proof.
  intros H. unfold py_int. destruct (Qle_bool 0 q).
  - rewrite <- (Qfloor_Z 0). now apply Qfloor_resp_le.
  - rewrite <- (Qceiling_Z 0). now apply Qceiling_resp_le.
Qed.
Lemma py_int_eq q q' : q == q' -> py_int q = py_int q'.
Proof.
  intros H. unfold py_int. assert (E : Qle_bool 0 q = Qle_bool 0 q') by now rewrite H.
  rewrite E. destruct (Qle_bool 0 q'); now rewrite H.
Qed.
Lemma py_int_zero q : 0 <= q -> (py_int q = 0%Z <-> q < 1).
Proof.
  intros H. destruct (py_int_nonneg q H) as (A & B & C). split; intros D.
  - rewrite D in C. exact C.
  - assert (inject_Z (py_int q) < inject_Z 1) by (change (inject_Z 1) with 1; lra).
    rewrite <- Zlt_Qlt in H0. lia.
Qed.

Lemma qmul_le a b c : 0 <= a -> b <= c -> a * b <= a * c.
Proof. intros H1 H2. rewrite (Qmult_comm a b), (Qmult_comm a c). now apply Qmult_le_compat_r. Qed.
Lemma qmul_pos a b : 0 <= a -> 0 <= b -> 0 <= a * b.
Proof. intros H1 H2. setoid_replace 0 with (a * 0) by ring. now apply qmul_le. Qed.

Section Float.
Variable fl : Q -> Q.
Hypothesis F : float_rounding fl.
Let u : Q := two_to (-53).

Lemma fl_ext x y : x == y -> fl x == fl y.
Proof. intros E. apply Qle_antisym; apply (fr_mono _ F); rewrite E; apply Qle_refl. Qed.
Lemma fl_zero : fl 0 == 0.
Proof. exact (fr_int _ F 0%Z ltac:(cbn; lia)). Qed.
Lemma fl_nonneg x : 0 <= x -> 0 <= fl x.
Proof. intros H. rewrite <- fl_zero. now apply (fr_mono _ F). Qed.
Lemma fl_nonpos x : x <= 0 -> fl x <= 0.
Proof. intros H. setoid_replace 0 with (fl 0) by (symmetry; apply fl_zero). now apply (fr_mono _ F). Qed.
Lemma fl_upper x : 0 <= x -> x <= two_to 60 -> fl x <= x * (1 + u) + u.
Proof.
  intros H0 H1. pose proof (fr_error _ F x) as E.
  rewrite (Qabs_pos x) in E by exact H0.
  assert (A : x <= two_to 1000) by (eapply Qle_trans; [exact H1|]; vm_compute; discriminate).
  specialize (E A). apply Qabs_Qle_condition in E. destruct E as [_ E].
  assert (B : two_to (-1074) <= u) by (vm_compute; discriminate). fold u in E. lra.
Qed.
Lemma u_val : u == 1 # 9007199254740992.
Proof. vm_compute. reflexivity. Qed.
Lemma p60_val : two_to 60 == 1152921504606846976.
Proof. vm_compute. reflexivity. Qed.

(** The lengths cut from [S] dates over [W] windows, as linear facts: [r], [R]
    and [G] are the exact training length of a window, of all windows, and the
    exact test length of all windows. *)
Lemma shares_core S W ts : (0 <= S <= 2 ^ 50)%Z -> (1 <= W <= 2 ^ 50)%Z -> 0 < ts -> ts < 1 ->
  let x := fl (inject_Z S / inject_Z W) in
  let l := py_int (fl (x * ts)) in
  let t := py_int (fl (x * fl (1 - ts))) in
  let w := inject_Z W in let s := inject_Z S in
  exists r R G, (0 <= l)%Z /\ (0 <= t)%Z /\ 0 <= r /\ R == w * r /\ 0 <= G /\
    inject_Z l <= r * (1 + u) + u /\ w * inject_Z t <= (G * (1 + u) + (R + G) * u) * (1 + u) + w * u /\
    R + G <= s * (1 + u) + w * u /\ R == (R + G) * ts /\ r <= 2251799813685249 /\ r <= R.
Proof.
  intros HS HW H0 H1 x l t w s.
  assert (QS0 : 0 <= s) by (change 0 with (inject_Z 0); unfold s; rewrite <- Zle_Qle; lia).
  assert (QS1 : s <= inject_Z (2 ^ 50)) by (unfold s; rewrite <- Zle_Qle; lia).
  assert (QW0 : 1 <= w) by (change 1 with (inject_Z 1); unfold w; rewrite <- Zle_Qle; lia).
  assert (QW1 : w <= inject_Z (2 ^ 50)) by (unfold w; rewrite <- Zle_Qle; lia).
  change (inject_Z (2 ^ 50)) with 1125899906842624 in QS1, QW1. fold s w in x.
  assert (Hq0 : 0 <= s / w) by (apply Qle_shift_div_l; lra).
  assert (Hq1 : s / w <= s) by (apply Qle_shift_div_r; [lra|]; rewrite <- (Qmult_1_r s) at 1; apply qmul_le; lra).
  assert (Hqw : w * (s / w) == s) by (field; lra).
  pose proof p60_val as P60. pose proof u_val as U.
  assert (U0 : 0 <= u) by lra. assert (U1 : u <= 1) by lra.
  pose proof (fl_nonneg _ Hq0) as X0. fold x in X0.
  assert (X1 : x <= s / w * (1 + u) + u) by (apply fl_upper; lra).
  set (b := fl (1 - ts)) in *.
  assert (B0 : 0 <= b) by (apply fl_nonneg; lra).
  assert (B1 : b <= (1 - ts) * (1 + u) + u) by (apply fl_upper; lra).
  set (q := s / w) in *.
  set (r := x * ts). set (g := x * (1 - ts)).
  assert (RG : r + g == x) by (unfold r, g; ring).
  assert (R0 : 0 <= r) by (apply qmul_pos; lra). assert (G0 : 0 <= g) by (apply qmul_pos; lra).
  assert (qu : q * u <= q * 1) by (apply qmul_le; lra).
  assert (Xs : x <= 2251799813685249) by lra.
  assert (XB0 : 0 <= x * b) by (apply qmul_pos; lra).
  assert (XB1 : x * b <= g * (1 + u) + x * u).
  { unfold g. setoid_replace (x * (1 - ts) * (1 + u) + x * u) with (x * ((1 - ts) * (1 + u) + u)) by ring. now apply qmul_le. }
  assert (A1 : fl r <= r * (1 + u) + u) by (apply fl_upper; [exact R0|]; lra).
  assert (Gu : g * u <= g * 1) by (apply qmul_le; lra). assert (Xu : x * u <= x * 1) by (apply qmul_le; lra).
  assert (C1 : fl (x * b) <= x * b * (1 + u) + u) by (apply fl_upper; [exact XB0|]; lra).
  pose proof (fl_nonneg _ R0) as A0. pose proof (fl_nonneg _ XB0) as C0.
  destruct (py_int_nonneg _ A0) as (L0 & L1 & _). destruct (py_int_nonneg _ C0) as (T0 & T1 & _).
  fold r in l. fold l in L0, L1. fold t in T0, T1.
  exists r, (w * r), (w * g). split; [exact L0|]. split; [exact T0|]. split; [exact R0|]. split; [reflexivity|].
  split; [apply qmul_pos; lra|]. split; [lra|]. split; [|split; [|split; [|split]]].
  - apply Qle_trans with (w * (x * b * (1 + u) + u)); [apply qmul_le; lra|].
    setoid_replace (w * (x * b * (1 + u) + u)) with (w * (x * b) * (1 + u) + w * u) by ring.
    assert (w * (x * b) * (1 + u) <= (w * g * (1 + u) + (w * r + w * g) * u) * (1 + u)); [|lra].
    apply Qmult_le_compat_r; [|lra]. apply Qle_trans with (w * (g * (1 + u) + x * u)); [apply qmul_le; lra|].
    rewrite <- RG. apply Qle_lteq. right. ring.
  - setoid_replace (w * r + w * g) with (w * x) by (rewrite <- RG; ring).
    setoid_replace (s * (1 + u) + w * u) with (w * (q * (1 + u) + u)) by (rewrite <- Hqw; ring). apply qmul_le; lra.
  - unfold r, g. ring.
  - lra.
  - setoid_replace (w * r) with (r * w) by ring. rewrite <- (Qmult_1_r r) at 1. apply qmul_le; lra.
Qed.
Lemma shares_fit S W ts : (0 <= S <= 2 ^ 50)%Z -> (1 <= W <= 2 ^ 50)%Z -> 0 < ts -> ts < 1 ->
  let x := fl (inject_Z S / inject_Z W) in
  let l := py_int (fl (x * ts)) in
  let t := py_int (fl (x * fl (1 - ts))) in
  (0 <= l)%Z /\ (0 <= t)%Z /\ (l + t * W <= S)%Z /\ ((1 <= S)%Z -> (2 <= W)%Z -> two_to (-40) <= ts -> (l + t * W < S)%Z).
Proof.
  intros HS HW H0 H1 x l t.
  destruct (shares_core S W ts HS HW H0 H1) as (r & R & G & L0 & T0 & r0 & ER & G0 & A & B & C & D & E & rR).
  fold x in L0, T0, A, B. fold l in L0, A. fold t in T0, B. pose proof u_val as U.
  assert (QS1 : inject_Z S <= inject_Z (2 ^ 50)) by (rewrite <- Zle_Qle; lia).
  assert (QS0 : 0 <= inject_Z S) by (change 0 with (inject_Z 0); rewrite <- Zle_Qle; lia).
  assert (QW1 : inject_Z W <= inject_Z (2 ^ 50)) by (rewrite <- Zle_Qle; lia).
  assert (QW0 : 1 <= inject_Z W) by (change 1 with (inject_Z 1); rewrite <- Zle_Qle; lia).
  change (inject_Z (2 ^ 50)) with 1125899906842624 in QS1, QW1.
  split; [exact L0|]. split; [exact T0|]. split.
  - assert (Lt : (l + t * W < S + 1)%Z); [|lia]. rewrite Zlt_Qlt, !inject_Z_plus, inject_Z_mult. change (inject_Z 1) with 1.
    setoid_replace (inject_Z t * inject_Z W) with (inject_Z W * inject_Z t) by ring.
    set (tw := inject_Z W * inject_Z t) in *. clearbody tw. rewrite U in *. lra.
  - intros S1 W2 Hts. rewrite Zlt_Qlt, inject_Z_plus, inject_Z_mult.
    assert (QW2 : 2 <= inject_Z W) by (change 2 with (inject_Z 2); rewrite <- Zle_Qle; lia).
    assert (R2 : 2 * r <= R) by (rewrite ER; apply Qmult_le_compat_r; lra).
    assert (V40 : two_to (-40) == 1 # 1099511627776) by (vm_compute; reflexivity).
    assert (RT : (R + G) * (1 # 1099511627776) <= R).
    { assert (RT' : (R + G) * (1 # 1099511627776) <= (R + G) * ts) by (apply qmul_le; lra). lra. }
    setoid_replace (inject_Z t * inject_Z W) with (inject_Z W * inject_Z t) by ring.
    assert (Q1 : 1 <= inject_Z S) by (change 1 with (inject_Z 1); rewrite <- Zle_Qle; lia).
    destruct (Z.eq_dec l 0) as [El|Nl].
    + rewrite El in *. change (inject_Z 0) with 0 in *.
      destruct (Z.eq_dec t 0) as [Et|Nt]; [rewrite Et; change (inject_Z 0) with 0; lra|].
      assert (wt : inject_Z W * 1 <= inject_Z W * inject_Z t).
      { apply qmul_le; [lra|]. change 1 with (inject_Z 1). rewrite <- Zle_Qle. lia. }
      set (tw := inject_Z W * inject_Z t) in *. clearbody tw. clear D ER. rewrite U in *. lra.
    + assert (l1 : 1 <= inject_Z l) by (change 1 with (inject_Z 1); rewrite <- Zle_Qle; lia).
      set (tw := inject_Z W * inject_Z t) in *. clearbody tw. clear D ER. rewrite U in *. lra.
Qed.

Lemma grow_fits W ts : (1 <= W <= 2 ^ 50)%Z -> 0 < ts -> ts < 1 -> forall fuel res L T,
  (0 <= L)%Z -> (0 <= T)%Z -> (0 <= res - (L + T * W))%Z -> (res <= 2 ^ 50)%Z -> (res - (L + T * W) < Z.of_nat fuel)%Z ->
  exists L' T', grow fl fuel res W ts L T = Some (L', T') /\ (L <= L')%Z /\ (T <= T')%Z /\ (L' + T' * W <= res)%Z /\
    ((L + T * W < res)%Z -> (2 <= W)%Z -> two_to (-40) <= ts -> (L' + T' * W < res)%Z).
Proof.
  intros HW H0 H1. induction fuel as [|fuel IH]; intros res L T HL HT HS HR HF; [lia|].
  cbn [grow].
  assert (TW0 : (0 <= T * W)%Z) by (apply Z.mul_nonneg_nonneg; lia).
  destruct (shares_fit (res - (L + T * W)) W ts) as (A & B & C & D); try lia; try assumption.
  set (li := py_int _) in *. set (ti := py_int (fl (_ * fl _))) in *.
  destruct (Z.eqb li 0) eqn:E1; [exists L, T; cbn; repeat split; lia|].
  destruct (Z.eqb ti 0) eqn:E2; [exists L, T; cbn; repeat split; lia|].
  apply Z.eqb_neq in E1, E2. cbn [orb].
  assert (TW1 : (0 <= ti * W)%Z) by (apply Z.mul_nonneg_nonneg; lia).
  destruct (IH res (L + li)%Z (T + ti)%Z) as (L' & T' & G1 & G2 & G3 & G4 & G5); try lia.
  exists L', T'. rewrite G1. split; [reflexivity|]. split; [lia|]. split; [lia|]. split; [lia|].
  intros K1 K2 K3. apply G5; auto. assert (li + ti * W < res - (L + T * W))%Z by (apply D; auto; lia). lia.
Qed.
End Float.

(** ** The windows *)
Lemma all_some_map {A B} (f : A -> option B) (g : A -> B) l :
  (forall x, In x l -> f x = Some (g x)) -> all_some (map f l) = Some (map g l).
Proof. induction l; cbn; intros H; auto. rewrite H, IHl; auto. Qed.
(** Each element of the list is built; what holds of what it is built from. *)
Lemma yield_all_spec {A} (f : A -> option window) (P : A -> window -> Prop) l :
  (forall x, In x l -> exists w, f x = Some w /\ P x w) ->
  exists ws, yield_all (map f l) = SWindows ws /\ Forall2 P l ws.
Proof.
  unfold yield_all. induction l as [|x l IH]; intros H; [exists []; split; [reflexivity|constructor]|].
  destruct (H x) as (w & E & Pw); [now left|].
  destruct IH as (ws & E2 & F2); [intros y Hy; apply H; now right|].
  cbn. rewrite E. destruct (all_some (map f l)); [|discriminate]. injection E2 as ->.
  exists (w :: ws). split; [reflexivity|now constructor].
Qed.
Lemma Forall2_len {A B} {P : A -> B -> Prop} {l l'} : Forall2 P l l' -> length l = length l'.
Proof. induction 1; cbn; congruence. Qed.
Lemma Forall2_nth {A B} (P : A -> B -> Prop) l l' : Forall2 P l l' -> forall a y, nth_error l' a = Some y ->
  exists x, nth_error l a = Some x /\ P x y.
Proof.
  induction 1; intros a y0 E; [destruct a; discriminate|]. destruct a; cbn in *; [injection E as <-; eauto|eauto].
Qed.

Lemma aged_perm dates l l' a b : Permutation l' l -> rows_aged dates l a b -> rows_aged dates l' a b.
Proof. intros P H i. rewrite <- (H i). split; intros; [|apply Permutation_sym in P]; eapply Permutation_in; eauto. Qed.
Lemma aged_whole dates l a b : NoDup l -> rows_aged dates l a b -> whole_bars dates l.
Proof.
  intros N H. split; [exact N|]. split.
  - intros i Hi. apply H in Hi. destruct Hi as (d & R & _). eauto.
  - intros i j d Ri Rj Hi. apply H in Hi. destruct Hi as (d' & R' & A). apply H. exists d. split; [exact Rj|].
    unfold row_date in *. congruence.
Qed.
Lemma aged_nil dates a : rows_aged dates [] a a.
Proof. intros i. split; [intros []|]. intros (d & _ & H). lia. Qed.

Section Split.
Variable fl : Q -> Q.
Variable shuf : nat -> list nat -> list nat.
Variables (dates : list Z) (W la : Z) (ts : Q).
Hypothesis F : float_rounding fl.
Hypothesis P : shuffles shuf.
Hypothesis HN : (n_bars dates <= 2 ^ 50)%Z.
Hypothesis HW : (1 <= W <= 2 ^ 50)%Z.
Hypothesis HL : (1 <= la)%Z.
Hypothesis H0 : 0 <= ts.
Hypothesis H1 : ts <= 1.
Notation n := (n_bars dates).

Definition good (L T : Z) (a : nat) (w : window) : Prop :=
  window_at dates la ts L T (W - 1 - Z.of_nat a) w /\ whole_bars dates (w_train w) /\ whole_bars dates (w_test w).
Definition outcome_ok (bad : Prop) (r : split_result) : Prop :=
  (bad -> r = SValueError) /\
  (~ bad -> (r = SIndexError /\ 0 < ts /\ ts < two_to (-40)) \/
     exists ws L T, r = SWindows ws /\ Z.of_nat (length ws) = W /\ (0 <= L)%Z /\ (0 <= T)%Z /\ (0 < L \/ 0 < T)%Z /\
     (T * W <= n)%Z /\ (0 < L -> ~ ts == 1 -> T * W + la - 1 + L <= n)%Z /\ (ts == 1 -> L * W <= n)%Z /\
     forall a w, nth_error ws a = Some w -> good L T a w).

Lemma whole_nil : whole_bars dates [].
Proof. eapply aged_whole; [constructor|apply (aged_nil dates 0)]. Qed.
Lemma n_pos : dates <> [] -> (1 <= n)%Z.
Proof.
  intros H. destruct dates as [|d r] eqn:E; [congruence|]. unfold n_bars.
  destruct (bars_of (d :: r)) eqn:B; cbn [length]; [|lia].
  exfalso. assert (I : In d (bars_of (d :: r))) by (apply nodup_In; now left). rewrite B in I. exact I.
Qed.

Lemma len_fits : (0 <= n)%Z -> let len := py_int (fl (inject_Z n / inject_Z W)) in
  (0 <= len)%Z /\ (len * W <= n)%Z /\ (len = 0 <-> n < W)%Z.
Proof.
  intros Hn len.
  assert (Q1 : 1 <= inject_Z W) by (change 1 with (inject_Z 1); rewrite <- Zle_Qle; lia).
  assert (Q0 : 0 <= inject_Z n) by (change 0 with (inject_Z 0); rewrite <- Zle_Qle; lia).
  assert (Q2 : inject_Z n <= inject_Z (2 ^ 50)) by (rewrite <- Zle_Qle; lia).
  assert (Q3 : inject_Z W <= inject_Z (2 ^ 50)) by (rewrite <- Zle_Qle; lia).
  change (inject_Z (2 ^ 50)) with 1125899906842624 in Q2, Q3.
  set (w := inject_Z W) in *. set (s := inject_Z n) in *.
  assert (D0 : 0 <= s / w) by (apply Qle_shift_div_l; lra).
  assert (D1 : s / w <= s) by (apply Qle_shift_div_r; [lra|]; rewrite <- (Qmult_1_r s) at 1; apply qmul_le; lra).
  assert (Dw : w * (s / w) == s) by (field; lra).
  pose proof u_val as U. pose proof p60_val as P60.
  pose proof (fl_upper fl F (s / w) D0 ltac:(lra)) as X1.
  pose proof (fl_nonneg fl F _ D0) as X0. destruct (py_int_nonneg _ X0) as (A & B & C). fold len in A, B, C.
  assert (E : (len * W <= n)%Z).
  { assert (Lt : (len * W < n + 1)%Z); [|lia]. rewrite Zlt_Qlt, inject_Z_plus, inject_Z_mult. fold w s. change (inject_Z 1) with 1.
    assert (G : w * inject_Z len <= w * (s / w * (1 + two_to (-53)) + two_to (-53))) by (apply qmul_le; lra).
    assert (G2 : w * (s / w * (1 + two_to (-53)) + two_to (-53)) == s * (1 + two_to (-53)) + w * two_to (-53)) by (rewrite <- Dw at 2; ring).
    rewrite G2 in G. rewrite Qmult_comm. rewrite U in G. lra. }
  split; [exact A|]. split; [exact E|]. split; intros G.
  - rewrite G in C. change (inject_Z (0 + 1)) with 1 in C.
    destruct (Z.lt_ge_cases n W) as [|K]; [assumption|]. exfalso.
    assert (Kq : 1 <= s / w) by (apply Qle_shift_div_l; [lra|]; rewrite Qmult_1_l; unfold w, s; rewrite <- Zle_Qle; lia).
    pose proof (fr_mono _ F _ _ Kq) as M. pose proof (fr_int _ F 1%Z ltac:(cbn; lia)) as I1. change (inject_Z 1) with 1 in I1. lra.
  - destruct (Z.eq_dec len 0); auto. exfalso. assert (1 * W <= len * W)%Z by (apply Z.mul_le_mono_nonneg_r; lia). lia.
Qed.

Lemma one_kind_ok : dates <> [] -> ts == 0 \/ ts == 1 ->
  outcome_ok (n < W)%Z (split_one_kind fl shuf dates (unique_sorted dates) W ts).
Proof.
  intros Hd Hts. pose proof (n_pos Hd) as Hn. destruct len_fits as (A & B & C); [lia|].
  unfold split_one_kind. rewrite <- n_bars_unique. set (len := py_int _) in *.
  destruct (Z.eqb len 0) eqn:E0.
  { apply Z.eqb_eq in E0. split; [reflexivity|]. intros K. tauto. }
  apply Z.eqb_neq in E0. split; [tauto|]. intros _. right.
  pose (L := if Qeq_bool ts 0 then 0%Z else len). pose (T := if Qeq_bool ts 0 then len else 0%Z).
  destruct (yield_all_spec (fun i => match rows_between dates (unique_sorted dates) (n - len * W + Z.of_nat i * len) (n - len * W + Z.of_nat i * len + len - 1) false with
      | None => None
      | Some rows => Some (if Qeq_bool ts 0 then mkWindow [] rows else mkWindow (shuf i rows) [])
      end) (good L T) (seq 0 (Z.to_nat W))) as (ws & Y & FW).
  { intros i Hi. apply in_seq in Hi.
    assert (I0 : (0 <= Z.of_nat i * len)%Z) by (apply Z.mul_nonneg_nonneg; lia).
    assert (I1 : ((Z.of_nat i + 1) * len <= W * len)%Z) by (apply Z.mul_le_mono_nonneg_r; lia).
    destruct (rows_forward dates (n - len * W + Z.of_nat i * len) (n - len * W + Z.of_nat i * len + len - 1)) as (rows & R & N & G); try lia.
    rewrite R. eexists. split; [reflexivity|].
    assert (G' : rows_aged dates rows ((W - 1 - Z.of_nat i) * len) ((W - 1 - Z.of_nat i + 1) * len)).
    { replace ((W - 1 - Z.of_nat i) * len)%Z with (n - 1 - (n - len * W + Z.of_nat i * len + len - 1))%Z by lia.
      replace ((W - 1 - Z.of_nat i + 1) * len)%Z with (n - (n - len * W + Z.of_nat i * len))%Z by lia. exact G. }
    unfold good, L, T. destruct (Qeq_bool ts 0) eqn:E; cbn [w_train w_test].
    - apply Qeq_bool_true in E. split; [split|split].
      + intros _. split; [exact G'|]. replace (_ + 0)%Z with ((W - 1 - Z.of_nat i + 1) * len + la - 1)%Z by lia. apply aged_nil.
      + intros K. rewrite E in K. discriminate.
      + apply whole_nil.
      + eapply aged_whole; [exact N|exact G].
    - apply Qeq_bool_false in E. split; [split|split].
      + intros K. tauto.
      + intros _. split; [reflexivity|]. eapply aged_perm; [apply P|exact G'].
      + eapply aged_whole; [eapply Permutation_NoDup; [apply Permutation_sym, P|exact N]|eapply aged_perm; [apply P|exact G]].
      + apply whole_nil. }
  exists ws, L, T. split; [exact Y|]. pose proof (Forall2_len FW) as FL. rewrite seq_length in FL.
  assert (Pos : forall a w, nth_error ws a = Some w -> good L T a w).
  { intros a w Ha. destruct (Forall2_nth _ _ _ FW _ _ Ha) as (i & Hi & Gi).
    assert (i = a); [|now subst]. apply nth_error_nth with (d := 0%nat) in Hi as Hj.
    rewrite seq_nth in Hj; [lia|]. rewrite <- (seq_length (Z.to_nat W) 0). apply nth_error_Some. congruence. }
  split; [lia|]. unfold L, T in *. clear L T. destruct (Qeq_bool ts 0) eqn:E.
  - apply Qeq_bool_true in E. split; [lia|]. split; [lia|]. split; [lia|]. split; [lia|]. split; [lia|].
    split; [intros K; rewrite E in K; discriminate|]. exact Pos.
  - apply Qeq_bool_false in E. split; [lia|]. split; [lia|]. split; [lia|]. split; [lia|]. split; [tauto|].
    split; [lia|]. exact Pos.
Qed.

Lemma one_window_ok : W = 1%Z -> 0 < ts -> ts < 1 ->
  outcome_ok (n <= la + 1)%Z (split_one_window fl shuf dates (unique_sorted dates) la ts).
Proof.
  intros EW G0 G1. unfold split_one_window. rewrite <- n_bars_unique.
  destruct (Z.leb (n - 1 - la) 0) eqn:E0.
  { apply Z.leb_le in E0. split; [reflexivity|]. intros. lia. }
  apply Z.leb_gt in E0. split; [lia|]. intros _. right.
  destruct (shares_fit fl F (n - 1 - la) 1 ts) as (A & B & C & _); try lia; try assumption.
  assert (X : fl (inject_Z (n - 1 - la) / inject_Z 1) == inject_Z (n - 1 - la)).
  { rewrite (fl_ext fl F _ (inject_Z (n - 1 - la))); [apply (fr_int _ F); cbn; lia|]. change (inject_Z 1) with 1. field. }
  rewrite (py_int_eq _ (fl (inject_Z (n - 1 - la) * ts))) in A, C by (apply (fl_ext fl F); now rewrite X).
  rewrite (py_int_eq (fl (fl (inject_Z (n - 1 - la) / inject_Z 1) * fl (1 - ts))) (fl (inject_Z (n - 1 - la) * fl (1 - ts)))) in B, C by (apply (fl_ext fl F); now rewrite X).
  set (l := py_int (fl (inject_Z (n - 1 - la) * ts))) in *. set (t := py_int (fl (inject_Z (n - 1 - la) * fl (1 - ts)))) in *.
  rewrite Z.mul_1_r in C.
  replace (Z.leb n _) with false by (symmetry; apply Z.leb_gt; lia).
  destruct (rows_forward dates (n - la - l - t - 1) (n - la - l - t - 1 + l)) as (tr & R1 & N1 & A1); try lia.
  destruct (rows_forward dates (n - la - l - t - 1 + l + la) (n - 1)) as (te & R2 & N2 & A2); try lia.
  rewrite R1, R2. exists [mkWindow (shuf 0%nat tr) te], (l + 1)%Z, (t + 1)%Z.
  split; [reflexivity|]. split; [cbn; lia|]. split; [lia|]. split; [lia|]. split; [lia|]. split; [lia|]. split; [lia|].
  split; [intros K; rewrite K in G1; lra|].
  intros a w Ha. destruct a as [|a]; [|destruct a; discriminate]. injection Ha as <-. cbn [w_train w_test].
  split; [split|split]; cbn [w_train w_test].
  - intros _. rewrite EW. split.
    + replace (_ * (t + 1))%Z with (n - 1 - (n - 1))%Z by lia.
      replace ((1 - 1 - Z.of_nat 0 + 1) * (t + 1))%Z with (n - (n - la - l - t - 1 + l + la))%Z by lia. exact A2.
    + eapply aged_perm; [apply P|].
      replace (_ + (l + 1))%Z with (n - (n - la - l - t - 1))%Z by lia.
      replace (_ + la - 1)%Z with (n - 1 - (n - la - l - t - 1 + l))%Z by lia. exact A1.
  - intros K. rewrite K in G1. lra.
  - eapply aged_whole; [eapply Permutation_NoDup; [apply Permutation_sym, P|exact N1]|eapply aged_perm; [apply P|exact A1]].
  - eapply aged_whole; eauto.
Qed.

(** The lengths both vanish. *)
Definition too_short : Prop :=
  let avg := fl (inject_Z (n - (la - 1) * W) / inject_Z W) in fl (avg * ts) < 1 /\ fl (avg * fl (1 - ts)) < 1.

Lemma nth_rev_seq k a i : nth_error (rev (seq 0 k)) a = Some i -> i = (k - 1 - a)%nat /\ (a < k)%nat.
Proof.
  intros H. assert (L : (a < k)%nat) by (rewrite <- (seq_length k 0), <- rev_length; apply nth_error_Some; congruence).
  apply nth_error_rev in H. rewrite seq_length in H. apply nth_error_nth with (d := 0%nat) in H.
  rewrite seq_nth in H by lia. lia.
Qed.

Lemma windows_ok : dates <> [] -> (2 <= W)%Z -> 0 < ts -> ts < 1 ->
  outcome_ok too_short (split_windows fl shuf dates (unique_sorted dates) W la ts).
Proof.
  intros Hd H2 G0 G1. pose proof (n_pos Hd) as Hn. unfold split_windows, too_short. rewrite <- n_bars_unique.
  set (res := (n - (la - 1) * W)%Z).
  assert (Hres : (res <= n)%Z) by (unfold res; assert (0 <= (la - 1) * W)%Z by (apply Z.mul_nonneg_nonneg; lia); lia).
  set (avg := fl (inject_Z res / inject_Z W)).
  set (l := py_int (fl (avg * ts))). set (t := py_int (fl (avg * fl (1 - ts)))).
  assert (B0 : 0 <= fl (1 - ts)) by (apply (fl_nonneg fl F); lra).
  destruct (Z.lt_ge_cases res 0) as [Neg|Pos].
  - (* nothing to cut *)
    assert (Av : avg <= 0).
    { apply (fl_nonpos fl F). apply Qle_shift_div_r; [change 0 with (inject_Z 0); rewrite <- Zlt_Qlt; lia|].
      rewrite Qmult_0_l. change 0 with (inject_Z 0). rewrite <- Zle_Qle. lia. }
    assert (S1 : fl (avg * ts) <= 0).
    { apply (fl_nonpos fl F). setoid_replace (avg * ts) with (- (ts * - avg)) by ring. assert (0 <= ts * - avg) by (apply qmul_pos; lra). lra. }
    assert (S2 : fl (avg * fl (1 - ts)) <= 0).
    { apply (fl_nonpos fl F). setoid_replace (avg * fl (1 - ts)) with (- (fl (1 - ts) * - avg)) by ring.
      assert (0 <= fl (1 - ts) * - avg) by (apply qmul_pos; lra). lra. }
    split; [intros _|intros K; exfalso; apply K; lra].
    pose proof (py_int_nonpos _ S1) as I1. pose proof (py_int_nonpos _ S2) as I2. fold l in I1. fold t in I2.
    destruct (Z.ltb l 0) eqn:E1; [reflexivity|]. destruct (Z.ltb t 0) eqn:E2; [reflexivity|]. cbn [orb].
    apply Z.ltb_ge in E1, E2. assert (Zl : l = 0%Z) by lia. assert (Zt : t = 0%Z) by lia.
    rewrite Zl, Zt. cbn [grow]. replace (res - (0 + 0 * W))%Z with res by lia. fold avg. fold l. rewrite Zl. cbn. reflexivity.
  - destruct (shares_fit fl F res W ts) as (A & B & C & CS); try lia; try assumption. fold avg in A, B, C, CS. fold l in A, C, CS. fold t in B, C, CS.
    assert (Av : 0 <= avg).
    { apply (fl_nonneg fl F). apply Qle_shift_div_l; [change 0 with (inject_Z 0); rewrite <- Zlt_Qlt; lia|].
      rewrite Qmult_0_l. change 0 with (inject_Z 0). rewrite <- Zle_Qle. lia. }
    assert (S1 : 0 <= fl (avg * ts)) by (apply (fl_nonneg fl F), qmul_pos; lra).
    assert (S2 : 0 <= fl (avg * fl (1 - ts))) by (apply (fl_nonneg fl F), qmul_pos; lra).
    pose proof (py_int_zero _ S1) as Z1. pose proof (py_int_zero _ S2) as Z2. fold l in Z1. fold t in Z2.
    replace (Z.ltb l 0) with false by (symmetry; apply Z.ltb_ge; lia). replace (Z.ltb t 0) with false by (symmetry; apply Z.ltb_ge; lia).
    cbn [orb]. split.
    + intros [K1 K2]. apply Z1 in K1. apply Z2 in K2. rewrite K1, K2. cbn [grow]. replace (res - (0 + 0 * W))%Z with res by lia.
      fold avg. fold l. rewrite K1. cbn. reflexivity.
    + intros K. assert (NZ : (0 < l \/ 0 < t)%Z).
      { destruct (Z.eq_dec l 0) as [El|]; [|lia]. destruct (Z.eq_dec t 0) as [Et|]; [|lia]. exfalso. apply K. tauto. }
      destruct (grow_fits fl F W ts HW G0 G1 (S (length (unique_sorted dates))) res l t) as (L & T & Gr & GL & GT & GF & GS); try lia.
      { rewrite Nat2Z.inj_succ, <- n_bars_unique. assert (0 <= t * W)%Z by (apply Z.mul_nonneg_nonneg; lia). lia. }
      rewrite Gr. replace (Z.eqb L 0 && Z.eqb T 0) with false by (symmetry; apply andb_false_iff; rewrite !Z.eqb_neq; lia).
      assert (TW0 : (0 <= T * W)%Z) by (apply Z.mul_nonneg_nonneg; lia).
      assert (LAW : (la - 1 <= (la - 1) * W)%Z) by (rewrite <- (Z.mul_1_r (la - 1)) at 1; apply Z.mul_le_mono_nonneg_l; lia).
      destruct (Z.lt_ge_cases (T * W + la - 1 + L) n) as [Idx|Out].
      * (* all lookups succeed *)
        right. pose (idx := fun i => let test_end := (Z.of_nat i * T)%Z in
            let test_start := (test_end + T)%Z in
            let train_end := (test_start + la - 1)%Z in
            let train_start := (train_end + L)%Z in
            (train_start, train_end, test_start, test_end)).
        destruct (yield_all_spec (fun i =>
            let '(train_start, train_end, test_start, test_end) := idx i in
            match rows_between dates (rev (unique_sorted dates)) train_start train_end true, rows_between dates (rev (unique_sorted dates)) test_start test_end true with
            | Some tr, Some te => Some (mkWindow (shuf (Z.to_nat W - 1 - i)%nat tr) te)
            | _, _ => None
            end) (fun i => good L T (Z.to_nat W - 1 - i)) (rev (seq 0 (Z.to_nat W)))) as (ws & Y & FW).
        { intros i Hi. apply in_rev, in_seq in Hi. unfold idx.
          assert (I0 : (0 <= Z.of_nat i * T)%Z) by (apply Z.mul_nonneg_nonneg; lia).
          assert (I1 : ((Z.of_nat i + 1) * T <= W * T)%Z) by (apply Z.mul_le_mono_nonneg_r; lia).
          destruct (rows_backward dates (Z.of_nat i * T + T + la - 1 + L) (Z.of_nat i * T + T + la - 1)) as (tr & R1 & N1 & A1); try lia.
          destruct (rows_backward dates (Z.of_nat i * T + T) (Z.of_nat i * T)) as (te & R2 & N2 & A2); try lia.
          rewrite R1, R2. eexists. split; [reflexivity|].
          replace (W - 1 - Z.of_nat (Z.to_nat W - 1 - i))%Z with (Z.of_nat i) by lia.
          split; [split|split]; cbn [w_train w_test].
          - intros _. replace (W - 1 - Z.of_nat (Z.to_nat W - 1 - i))%Z with (Z.of_nat i) by lia. split.
            + replace ((Z.of_nat i + 1) * T)%Z with (Z.of_nat i * T + T)%Z by lia. exact A2.
            + eapply aged_perm; [apply P|]. replace ((Z.of_nat i + 1) * T)%Z with (Z.of_nat i * T + T)%Z by lia. exact A1.
          - intros Q. rewrite Q in G1. lra.
          - eapply aged_whole; [eapply Permutation_NoDup; [apply Permutation_sym, P|exact N1]|eapply aged_perm; [apply P|exact A1]].
          - eapply aged_whole; eauto. }
        exists ws, L, T. split; [exact Y|]. pose proof (Forall2_len FW) as FL. rewrite rev_length, seq_length in FL.
        split; [lia|]. split; [lia|]. split; [lia|]. split; [lia|]. split; [lia|]. split; [lia|]. split; [intros Q; rewrite Q in G1; lra|].
        intros a w Ha. destruct (Forall2_nth _ _ _ FW _ _ Ha) as (i & Hi & Gi).
        apply nth_rev_seq in Hi. replace (Z.to_nat W - 1 - i)%nat with a in Gi by lia. exact Gi.
      * (* the first lookup fails *)
        left. split.
        { unfold yield_all. replace (Z.to_nat W) with (S (Z.to_nat W - 1)) by lia.
          rewrite seq_S, rev_app_distr. cbn [rev app map all_some].
          replace (rows_between dates (rev (unique_sorted dates)) _ _ true) with (@None (list nat)); [reflexivity|].
          symmetry. unfold rows_between, py_get. rewrite rev_length, <- n_bars_unique.
          replace (Z.leb 0 _) with true by (symmetry; apply Z.leb_le; lia).
          replace (nth_error (rev (unique_sorted dates)) _) with (@None Z); [reflexivity|].
          symmetry. apply nth_error_None. rewrite rev_length. pose proof (n_bars_unique dates). lia. }
        { split; [exact G0|]. destruct (Qlt_le_dec ts (two_to (-40))) as [|Big]; [assumption|]. exfalso.
          assert (Res1 : (1 <= res)%Z) by (assert (0 <= t * W)%Z by (apply Z.mul_nonneg_nonneg; lia); nia).
          assert (L + T * W < res)%Z by (apply GS; auto; apply CS; auto; lia). unfold res in *. lia. }
Qed.
End Split.

Lemma split_outcome fl shuf dates W la ts : split_domain fl shuf dates W ts ->
  (split_rejected fl dates W la ts /\ walkforward_split fl shuf dates W la ts = SValueError) \/
  (~ split_rejected fl dates W la ts /\ (1 <= la)%Z /\ 0 <= ts /\
   outcome_ok dates W la ts False (walkforward_split fl shuf dates W la ts)).
Proof.
  intros (F & P & HN & HW & H1). unfold walkforward_split, split_rejected.
  destruct (Z.leb W 0) eqn:E1; [apply Z.leb_le in E1; tauto|]. apply Z.leb_gt in E1.
  destruct (Z.leb la 0) eqn:E2; [apply Z.leb_le in E2; tauto|]. apply Z.leb_gt in E2.
  destruct (Qltb ts 0) eqn:E3; [apply Qltb_true in E3; tauto|]. apply Qltb_false in E3.
  assert (HW' : (1 <= W <= 2 ^ 50)%Z) by lia. assert (HL : (1 <= la)%Z) by lia.
  destruct dates as [|d0 dr] eqn:Ed; [tauto|]. rewrite <- Ed in *. assert (Hd : dates <> []) by (rewrite Ed; discriminate). clear Ed d0 dr.
  destruct (Qeq_bool ts 0 || Qeq_bool ts 1) eqn:E4.
  - apply orb_prop in E4. assert (K : ts == 0 \/ ts == 1) by (destruct E4 as [E|E]; apply Qeq_bool_true in E; tauto).
    destruct (one_kind_ok fl shuf dates W la ts F P HN HW' Hd K) as [A B].
    destruct (Z.lt_ge_cases (n_bars dates) W) as [L|G]; [left; tauto|]. right.
    split; [|split; [lia|split; [exact E3|split; [tauto|intros _; apply B; lia]]]].
    intros [X|[X|[X|[X|[[_ X]|[X|X]]]]]]; try lia; try lra; try tauto.
  - apply orb_false_elim in E4. destruct E4 as [E4 E5]. apply Qeq_bool_false in E4, E5.
    assert (G0 : 0 < ts) by (destruct (Qlt_le_dec 0 ts); auto; exfalso; apply E4; lra).
    assert (G1 : ts < 1) by (destruct (Qlt_le_dec ts 1); auto; exfalso; apply E5; lra).
    destruct (Z.eqb W 1) eqn:E6.
    + apply Z.eqb_eq in E6. destruct (one_window_ok fl shuf dates W la ts F P HN HW' HL E6 G0 G1) as [A B].
      destruct (Z.le_gt_cases (n_bars dates) (la + 1)) as [L|G]; [left; split; [tauto|now apply A]|]. right.
      split; [|split; [lia|split; [exact E3|split; [tauto|intros _; apply B; lia]]]].
      intros [X|[X|[X|[X|[[X _]|[X|X]]]]]]; try lia; try lra; try tauto.
    + apply Z.eqb_neq in E6. assert (W2 : (2 <= W)%Z) by lia.
      destruct (windows_ok fl shuf dates W la ts F P HN HW' HL E3 H1 Hd W2 G0 G1) as [A B].
      set (avg := fl (inject_Z (n_bars dates - (la - 1) * W) / inject_Z W)) in *.
      destruct (Qlt_le_dec (fl (avg * ts)) 1) as [L1|M1].
      * destruct (Qlt_le_dec (fl (avg * fl (1 - ts))) 1) as [L2|M2].
        { left. split; [tauto|]. apply A. unfold too_short. tauto. }
        right. split; [|split; [lia|split; [exact E3|split; [tauto|]]]].
        -- intros [X|[X|[X|[X|[[X _]|[X|X]]]]]]; try lia; try lra; try tauto.
        -- intros _. apply B. unfold too_short. fold avg. lra.
      * right. split; [|split; [lia|split; [exact E3|split; [tauto|]]]].
        -- intros [X|[X|[X|[X|[[X _]|[X|X]]]]]]; try lia; try lra; try tauto.
        -- intros _. apply B. unfold too_short. fold avg. lra.
Qed.

Lemma split_layout fl shuf dates W la ts ws : split_domain fl shuf dates W ts ->
  walkforward_split fl shuf dates W la ts = SWindows ws ->
  Z.of_nat (length ws) = W /\ exists L T, (0 <= L)%Z /\ (0 <= T)%Z /\ (0 < L \/ 0 < T)%Z /\
    (T * W <= n_bars dates)%Z /\ (0 < L -> ~ ts == 1 -> T * W + la - 1 + L <= n_bars dates)%Z /\ (ts == 1 -> L * W <= n_bars dates)%Z /\
    forall a w, nth_error ws a = Some w ->
      window_at dates la ts L T (W - 1 - Z.of_nat a) w /\ whole_bars dates (w_train w) /\ whole_bars dates (w_test w).
Proof.
  intros D E. destruct (split_outcome fl shuf dates W la ts D) as [[_ H]|(_ & _ & _ & _ & H)]; [congruence|].
  destruct (H (fun x => x)) as [[K _]|(ws' & L & T & K & N & R)]; [congruence|].
  assert (ws' = ws) by congruence. subst ws'. split; [exact N|]. exists L, T. exact R.
Qed.
Lemma split_la fl shuf dates W la ts ws : split_domain fl shuf dates W ts ->
  walkforward_split fl shuf dates W la ts = SWindows ws -> (1 <= la)%Z.
Proof.
  intros D E. destruct (split_outcome fl shuf dates W la ts D) as [[_ H]|(_ & H & _)]; [congruence|exact H].
Qed.
Lemma split_no_leak fl shuf dates W la ts ws : split_domain fl shuf dates W ts ->
  walkforward_split fl shuf dates W la ts = SWindows ws ->
  forall w, In w ws -> whole_bars dates (w_train w) /\ whole_bars dates (w_test w) /\
    forall i j d d', In i (w_train w) -> In j (w_test w) -> row_date dates i d -> row_date dates j d' ->
      (d < d')%Z /\ (la <= bars_from_to dates d d')%Z.
Proof.
  intros D E w Hw. pose proof (split_la _ _ _ _ _ _ _ D E) as La.
  destruct (split_layout _ _ _ _ _ _ _ D E) as (_ & L & T & L0 & T0 & _ & _ & _ & _ & H).
  destruct (In_nth_error _ _ Hw) as (a & Ha). destruct (H _ _ Ha) as ([A B] & W1 & W2).
  split; [exact W1|]. split; [exact W2|]. intros i j d d' Hi Hj Ri Rj.
  destruct (Qeq_dec ts 1) as [Eq|Ne]; [destruct (B Eq) as [C _]; rewrite C in Hj; destruct Hj|].
  destruct (A Ne) as [Te Tr]. apply Te in Hj. apply Tr in Hi.
  destruct Hi as (x & Rx & Ax). destruct Hj as (y & Ry & Ay). unfold row_date in *.
  assert (x = d) by congruence. assert (y = d') by congruence. subst x y.
  assert (Lt : (d < d')%Z) by (apply (after_lt_iff dates); [eapply row_in; exact Ri|eapply row_in; exact Rj|lia]).
  split; [exact Lt|]. rewrite from_to_after by lia. lia.
Qed.
Lemma split_advances fl shuf dates W la ts ws : split_domain fl shuf dates W ts ->
  walkforward_split fl shuf dates W la ts = SWindows ws ->
  forall a b w w', (a < b)%nat -> nth_error ws a = Some w -> nth_error ws b = Some w' ->
    forall i j d d', In i (w_test w) -> In j (w_test w') -> row_date dates i d -> row_date dates j d' -> (d < d')%Z.
Proof.
  intros D E a b w w' Hab Ha Hb i j d d' Hi Hj Ri Rj.
  destruct (split_layout _ _ _ _ _ _ _ D E) as (LW & L & T & L0 & T0 & _ & _ & _ & _ & H).
  destruct (H _ _ Ha) as ([A B] & _ & _). destruct (H _ _ Hb) as ([A' B'] & _ & _).
  destruct (Qeq_dec ts 1) as [Eq|Ne]; [destruct (B Eq) as [C _]; rewrite C in Hi; destruct Hi|].
  destruct (A Ne) as [Te _]. destruct (A' Ne) as [Te' _]. apply Te in Hi. apply Te' in Hj.
  destruct Hi as (x & Rx & Ax). destruct Hj as (y & Ry & Ay). unfold row_date in *.
  assert (x = d) by congruence. assert (y = d') by congruence. subst x y.
  apply (after_lt_iff dates); [eapply row_in; exact Ri|eapply row_in; exact Rj|].
  assert (((W - 1 - Z.of_nat b) + 1) * T <= (W - 1 - Z.of_nat a) * T)%Z by (apply Z.mul_le_mono_nonneg_r; lia). lia.
Qed.
Lemma split_raises fl shuf dates W la ts : split_domain fl shuf dates W ts -> ts <= 0 \/ two_to (-40) <= ts ->
  (split_rejected fl dates W la ts -> walkforward_split fl shuf dates W la ts = SValueError) /\
  (~ split_rejected fl dates W la ts -> exists ws, walkforward_split fl shuf dates W la ts = SWindows ws).
Proof.
  intros D Hts. destruct (split_outcome fl shuf dates W la ts D) as [[A B]|(A & _ & T0 & _ & H)]; [tauto|].
  split; [tauto|]. intros _. destruct (H (fun x => x)) as [(K & Pos & Small)|(ws & L & T & K & _)]; [|eauto].
  exfalso. lra.
Qed.
