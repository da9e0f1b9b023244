(** Windows of two markets with the same past. *)
From Verif Require Export SelectFacts MarketLogs.

Lemma head_past T (l : list Z) d : ascending l -> (match l with [] => None | x :: _ => Some x end = Some d /\ (d <= T)%Z <->
  match filter (fun d => Z.leb d T) l with [] => None | x :: _ => Some x end = Some d).
Proof.
  destruct l as [|a l]; cbn [filter]; [split; [intros [E _]; discriminate|discriminate]|]. intros [F _]. destruct (Z.leb_spec a T) as [LA|LA].
  - split; [tauto|]. intro E. split; auto. congruence.
  - split; [intros [E L]; exfalso; assert (a = d) by congruence; lia|]. rewrite filter_nil; [discriminate|]. rewrite Forall_forall in F. intros x I. specialize (F x I). lia.
Qed.
Lemma firstn_le {A} (l l' : list A) k n : (k <= n)%nat -> firstn n l = firstn n l' -> firstn k l = firstn k l'.
Proof. intros L E. rewrite <- (Nat.min_l k n L), <- !firstn_firstn. now rewrite E. Qed.
Lemma next_fewer {R} k n T (m m' : market R) : (k <= n)%nat -> same_next_dates n T m m' -> same_next_dates k T m m'.
Proof. intros L H s. eapply firstn_le; [exact L|]. apply H. Qed.

Section Two.
Context {U R : Type}.
Variable all : list sym.
Variable order : list sym -> list sym.
Variable stitched : bool.
Variables m m' : market R.
Variable T : Z.
Hypothesis WF : well_formed m.
Hypothesis WF' : well_formed m'.
Hypothesis PAST : same_past T m m'.

Lemma row_same s d : (d <= T)%Z -> (row_on m s d <-> row_on m' s d).
Proof. intro L. unfold row_on. split; intros [r I]; exists r; apply (PAST s (d, r)); auto. Qed.
Lemma begun_iff n w : begun all n T w = true <-> exists d s, In s all /\ row_on (R := R) n s d /\ within w d /\ (d <= T)%Z.
Proof.
  unfold begun. destruct (unique_sorted_ok (flat_map (window_dates n w) all)) as [A I].
  destruct (unique_sorted (flat_map (window_dates n w) all)) as [|d0 l].
  - split; [discriminate|]. intros (d & s & J & K & W & _). destruct (proj2 (I d)). apply in_flat_map. exists s. split; auto. now apply window_dates_in.
  - rewrite Z.leb_le. split.
    + intro L. pose proof (proj1 (I d0) (or_introl eq_refl)) as J. apply in_flat_map in J. destruct J as [s [J K]]. apply window_dates_in in K. exists d0, s. tauto.
    + intros (d & s & J & K & W & L). assert (X : In d (d0 :: l)) by (apply I, in_flat_map; exists s; split; auto; now apply window_dates_in).
      destruct A as [A _]. rewrite Forall_forall in A. destruct X as [->|X]; [lia|]. specialize (A d X). lia.
Qed.
Lemma begun_same w : begun all m T w = begun all m' T w.
Proof.
  apply eq_iff_eq_true. rewrite !begun_iff. split; intros (d & s & J & K & W & L); exists d, s; (split; [exact J|]; split; [now apply (row_same s d)|auto]).
Qed.
Lemma first_date_le n w d0 : begun all n T w = true -> first_date (R := R) n all w d0 -> (d0 <= T)%Z.
Proof. intros B (_ & _ & F). apply begun_iff in B. destruct B as (d & s & J & K & W & L). specialize (F s d J K W). lia. Qed.

Variable y : strategy U R.
Variable w : window.
Hypothesis ALL : y_all y = all.
Hypothesis BEGUN : begun all m T w = true.
Lemma begun_first n : begun all n T w = true -> exists d0, first_date (R := R) n all w d0.
Proof.
  intro B. destruct (boundary y n w) as [d0|] eqn:E; [exists d0; apply boundary_ok in E; now rewrite ALL in E|]. exfalso.
  unfold boundary in E. unfold begun in B. unfold all_dates in E. rewrite ALL in E. destruct (unique_sorted _); discriminate.
Qed.
Lemma boundary_same d0 : first_date m all w d0 -> first_date m' all w d0.
Proof.
  intro F. pose proof (first_date_le m w d0 BEGUN F) as L. destruct F as (W & [s [I J]] & F). split; auto. split; [exists s; split; auto; now apply (row_same s d0)|].
  intros s' d I' J' W'. destruct (Z.leb_spec d T) as [LD|LD]; [|lia]. apply (F s'); auto. now apply (row_same s' d).
Qed.
Hypothesis AL : aligned m all w.
Hypothesis AL' : aligned m' all w.
Lemma first_bar_le n : well_formed n -> aligned n all w -> begun all n T w = true -> forall s d, first_bar (R := R) n w s = Some d -> (d <= T)%Z.
Proof.
  intros WN AN B s d E. destruct (begun_first n B) as [d0 F]. pose proof (first_date_le n w d0 B F) as L. apply (first_bar_ok n WN) in E. destruct E as (E1 & E2 & E3).
  pose proof (E3 d0 (AN s d d0 E1 E2 F) (proj1 F)). lia.
Qed.
Lemma window_dates_past s : filter (fun d => Z.leb d T) (window_dates m w s) = filter (fun d => Z.leb d T) (window_dates m' w s).
Proof. unfold window_dates. rewrite !(filter_comm (fun d => Z.leb d T)). f_equal. now apply past_cal. Qed.
Lemma first_bar_same s : first_bar m w s = first_bar m' w s.
Proof.
  assert (B' : begun all m' T w = true) by (rewrite <- begun_same; exact BEGUN).
  assert (X : forall d, first_bar m w s = Some d <-> first_bar m' w s = Some d).
  { intro d. assert (Y : forall n, well_formed n -> aligned n all w -> begun all n T w = true ->
      (first_bar (R := R) n w s = Some d <-> match filter (fun d => Z.leb d T) (window_dates n w s) with [] => None | x :: _ => Some x end = Some d)).
    { intros n WN AN B. rewrite <- (head_past T _ d (window_dates_asc n WN w s)). unfold first_bar at 1. split; [|tauto]. intro E. split; auto. eapply (first_bar_le n); eauto. }
    rewrite (Y m), (Y m'), window_dates_past by auto. tauto. }
  destruct (first_bar m w s) as [d|]; [symmetry; now apply X|]. destruct (first_bar m' w s) as [d|]; auto. now apply X.
Qed.
Lemma boundary_eq : exists d0, (d0 <= T)%Z /\ boundary y m w = Some d0 /\ boundary y m' w = Some d0.
Proof.
  destruct (begun_first m BEGUN) as [d0 F]. exists d0. split; [now apply (first_date_le m w)|]. split; apply boundary_ok; rewrite ALL; auto. now apply boundary_same.
Qed.
Lemma last_bar_same s : last_bar y m w s = last_bar y m' w s /\ forall d, last_bar y m w s = Some d -> (d <= T)%Z.
Proof.
  destruct boundary_eq as (d0 & L & B & B'). split.
  - unfold last_bar. rewrite B, B'. f_equal. unfold cal.
    assert (X : forall l : list (Z * R), filter (fun d => Z.leb d d0) (map fst l) = map fst (filter (fun r => Z.leb (fst r) d0) l)).
    { induction l as [|a l IH]; auto. cbn. destruct (Z.leb (fst a) d0); cbn; now rewrite IH. }
    now rewrite !X, (past_rows m m' T WF WF' PAST s d0 L).
  - intros d E. apply (last_bar_ok y m WF w s d d0 B) in E. lia.
Qed.
(** Exits. *)
Definition srel (x x' : option bstate) : Prop :=
  match x, x' with Some b, Some b' => strip b = strip b' | None, None => True | _, _ => False end.
Lemma exit_on_same bar s : (forall d, bar s = Some d -> (d <= T)%Z) -> forall x x', srel x x' -> srel (exit_on y m w bar x s) (exit_on y m' w bar x' s).
Proof.
  intros L [b|] [b'|]; cbn [srel exit_on]; try tauto. intro S. destruct (bar s) as [d|] eqn:B; [|exact S].
  rewrite <- (known_same y m m' T WF WF' PAST d (L d eq_refl)). destruct (strip_fields _ _ S) as (P & _). rewrite P. cbv zeta.
  destruct (step (y_cfg y) _ (b_port b)) as [p u|p e]; cbn [srel]; auto. revert S. same b b'. reflexivity.
Qed.
Lemma exits_same bar l : (forall s d, bar s = Some d -> (d <= T)%Z) -> forall x x', srel x x' -> srel (fold_left (exit_on y m w bar) l x) (fold_left (exit_on y m' w bar) l x').
Proof. intro L. induction l as [|s l IH]; intros x x' S; cbn [fold_left]; auto. apply IH. apply exit_on_same; [intros d; apply L|exact S]. Qed.
Lemma exits_ext n bar bar' l : (forall s, bar s = bar' s) -> forall x, fold_left (exit_on y n w bar) l x = fold_left (exit_on y n w bar') l x.
Proof. intro H. induction l as [|s l IH]; intro x; cbn [fold_left]; auto. rewrite IH. f_equal. unfold exit_on. now rewrite H. Qed.
Lemma removes_same l : forall b b', strip b = strip b' -> strip (fold_left (fun b s => set_pend (KRemoveAll (Some s)) b) l b) = strip (fold_left (fun b s => set_pend (KRemoveAll (Some s)) b) l b').
Proof. induction l as [|s l IH]; intros b b' S; cbn [fold_left]; auto. apply IH. now apply set_pend_same. Qed.
Lemma cancel_same b b' : strip b = strip b' -> strip (cancel_stale y b) = strip (cancel_stale y b').
Proof. intro S. unfold cancel_stale. destruct (strip_fields _ _ S) as (_ & P & _). rewrite P. now apply removes_same. Qed.
Lemma liquidate_same b b' : strip b = strip b' -> srel (liquidate y m order w b) (liquidate y m' order w b').
Proof.
  intro S. unfold liquidate. cbv zeta. pose proof (cancel_same b b' S) as S0. destruct (strip_fields _ _ S0) as (P & _). rewrite P.
  rewrite (filter_ext (fun s => match first_bar m' w s with Some _ => false | None => true end) (fun s => match first_bar m w s with Some _ => false | None => true end)) by (intro s; now rewrite first_bar_same).
  rewrite (exits_ext m' (last_bar y m' w) (last_bar y m w)) by (intro s; symmetry; apply last_bar_same).
  rewrite (exits_ext m' (first_bar m' w) (first_bar m w)) by (intro s; symmetry; apply first_bar_same).
  apply exits_same; [intros s; apply last_bar_same|]. apply exits_same; [intros s d; apply (first_bar_le m WF AL BEGUN)|]. exact S0.
Qed.
Lemma push_same b b' : strip b = strip b' -> strip (push_caps y stitched b) = strip (push_caps y stitched b').
Proof. intro S. unfold push_caps. destruct stitched; auto. destruct (strip_fields _ _ S) as (P & _). rewrite P. cbn [step]. revert S. same b b'. reflexivity. Qed.
Hypothesis YO : strategy_ok y.
Hypothesis NEXT : same_next_dates (longest_delay y) T m m'.
Lemma one_same b b' u : strip b = strip b' -> option_map strip2 (one_window order stitched m (Some T) y w (b, u)) = option_map strip2 (one_window order stitched m' (Some T) y w (b', u)).
Proof.
  intro S. unfold one_window. cbn [fst snd]. pose proof (liquidate_same b b' S) as L.
  destruct (liquidate y m order w b) as [c|], (liquidate y m' order w b') as [c'|]; cbn in L; try tauto. apply (window_same y m m' T YO WF WF' PAST NEXT w _ _ u). now apply push_same.
Qed.
End Two.

Section Plans.
Context {U R : Type}.
Variable all : list sym.
Variable order : list sym -> list sym.
Variable stitched : bool.
Variable plan : market R -> window -> option (strategy U R).
Variable n : nat.
Variables m m' : market R.
Variable T : Z.
Hypothesis WF : well_formed m.
Hypothesis WF' : well_formed m'.
Hypothesis PAST : same_past T m m'.
Hypothesis NEXT : same_next_dates n T m m'.
Hypothesis OK : forall train y, plan m train = Some y -> strategy_ok y /\ y_all y = all /\ (longest_delay y <= n)%nat.
Lemma plans_same splits : train_first splits ->
  (forall train w, In (train, w) splits -> (snd train < T)%Z -> plan m train = plan m' train) ->
  (forall train w, In (train, w) splits -> aligned m all w /\ aligned m' all w) ->
  forall b b' u, strip b = strip b' ->
  option_map strip2 (windows_until all order stitched plan m T splits (b, u)) = option_map strip2 (windows_until all order stitched plan m' T splits (b', u)).
Proof.
  induction splits as [|[train w] r IH]; intros TF PL AL b b' u S; cbn [windows_until]; [unfold strip2; cbn; now rewrite S|].
  apply Forall_cons_iff in TF. destruct TF as [TF TR]. cbn [fst snd] in TF.
  assert (IHR : forall b b' u, strip b = strip b' -> option_map strip2 (windows_until all order stitched plan m T r (b, u)) = option_map strip2 (windows_until all order stitched plan m' T r (b', u))).
  { apply IH; auto; intros t x I; [apply (PL t x)|apply (AL t x)]; now right. }
  rewrite <- (begun_same all order m m' T PAST w). destruct (begun all m T w) eqn:B; [|now apply IHR].
  assert (LT : (snd train < T)%Z). { apply (begun_iff all order) in B. destruct B as (d & s & _ & _ & W & L). unfold within in W. lia. }
  rewrite <- (PL train w (or_introl eq_refl) LT). destruct (plan m train) as [y|] eqn:P; auto. destruct (OK train y P) as (O1 & O2 & O3).
  destruct (AL train w (or_introl eq_refl)) as [A A'].
  pose proof (strip2_inv _ _ (one_same all order stitched m m' T WF WF' PAST y w O2 B A A' O1 (next_fewer _ n T m m' O3 NEXT) b b' u S)) as X.
  destruct (one_window order stitched m (Some T) y w (b, u)) as [[x u1]|], (one_window order stitched m' (Some T) y w (b', u)) as [[x' u1']|]; try tauto; auto.
  destruct X as [X <-]. now apply IHR.
Qed.
End Plans.
