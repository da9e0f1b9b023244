(** Natural ranges of the indicators that do not go through the normal distribution. *)
From Coq Require Import List Bool Arith Lia ZArith QArith Qabs Lqa.
From Verif Require Import VectModel VectSpec VectLemmas VectExact VectWindow VectSum VectBounds.
Import ListNotations.
Open Scope list_scope.
Open Scope Z_scope.

Lemma nonneg_add x y : nonneg x -> nonneg y -> nonneg (xadd x y).
Proof. destruct x, y; cbn; try easy. intros; lra. Qed.
Lemma xsigned_nn q : (0 <= q)%Q -> xsigned (Fin q) = NaN \/ xsigned (Fin q) = PInf.
Proof.
  intros H. unfold xsigned. cbn [xzero xpos]. destruct (Qeq_bool q 0) eqn:E; [now left|]. right.
  destruct (Qle_bool q 0) eqn:B; [|easy]. apply Qle_bool_iff in B.
  assert (q == 0)%Q by lra. apply Qeq_bool_iff in H0. congruence.
Qed.
Lemma nonneg_mul x y : nonneg x -> nonneg y -> nonneg (xmul x y).
Proof.
  destruct x as [p| | |], y as [q| | |]; cbn [nonneg xmul]; try easy; intros.
  - apply Qmult_le_0_compat; easy.
  - destruct (xsigned_nn p H) as [->| ->]; exact I.
  - destruct (xsigned_nn q H0) as [->| ->]; exact I.
Qed.
Lemma qdiv_nn p q : (0 <= p)%Q -> (0 <= q)%Q -> (0 <= p / q)%Q.
Proof. intros. unfold Qdiv. apply Qmult_le_0_compat; [easy|]. now apply Qinv_le_0_compat. Qed.
Lemma nonneg_div x y : nonneg x -> nonneg y -> nonneg (xdiv x y).
Proof.
  destruct x as [p| | |], y as [q| | |]; cbn [nonneg xdiv]; try easy; intros.
  - destruct (Qeq_bool q 0); [exact I|]. now apply qdiv_nn.
  - destruct (Qeq_bool q 0); [exact I|]. destruct (xsigned_nn q H0) as [->| ->]; exact I.
Qed.
Lemma nonneg_fin q : (0 <= q)%Q -> nonneg (Fin q).
Proof. easy. Qed.
(** A part of a sum of two such numbers. *)
Lemma ratio_range u d : nonneg u -> nonneg d -> in_range 0 1 (xdiv u (xadd u d)).
Proof.
  destruct u as [p| | |], d as [q| | |]; cbn [nonneg xadd xdiv in_range]; try easy; intros; try (split; lra).
  destruct (Qeq_bool (p + q) 0) eqn:E; [exact I|]. cbn. assert (0 < p + q)%Q.
  { assert (~ p + q == 0)%Q by (intros G; apply Qeq_bool_iff in G; congruence). lra. }
  split; [apply qdiv_nn; lra|apply Qle_shift_div_r; lra].
Qed.
Lemma range_add a b c d x y : in_range a b x -> in_range c d y -> in_range (a + c) (b + d) (xadd x y).
Proof. destruct x, y; cbn; try easy; intros; lra. Qed.
Lemma range_scale a b k x : (0 <= k)%Q -> in_range a b x -> in_range (k * a) (k * b) (xmul (Fin k) x).
Proof. intros Hk. destruct x as [q| | |]; cbn [in_range xmul]; try easy; intros [H1 H2]. split; nra. Qed.
Lemma range_scale_r a b k x : (0 <= k)%Q -> in_range a b x -> in_range (k * a) (k * b) (xmul x (Fin k)).
Proof. intros Hk. destruct x as [q| | |]; cbn [in_range xmul]; try easy; intros [H1 H2]. split; nra. Qed.
Lemma range_div a b k x : (0 < k)%Q -> in_range (k * a) (k * b) x -> in_range a b (xdiv x (Fin k)).
Proof.
  intros Hk. destruct x as [q| | |]; cbn [in_range xdiv]; try easy; intros [H1 H2].
  destruct (Qeq_bool k 0) eqn:E; [exact I|]. cbn [in_range]. split; [apply Qle_shift_div_l; [easy|lra]|apply Qle_shift_div_r; [easy|lra]].
Qed.
Lemma range_weak a b c d x : in_range a b x -> (c <= a)%Q -> (b <= d)%Q -> in_range c d x.
Proof. destruct x; cbn; try easy. intros; lra. Qed.
Lemma range_sub a b k x : in_range a b x -> in_range (a - k) (b - k) (xsub x (Fin k)).
Proof. destruct x; cbn; try easy. intros; lra. Qed.
Lemma range_nonneg b x : in_range 0 b x -> nonneg x.
Proof. destruct x; cbn; try easy. Qed.

Section Ranges.
Context (lg ex sq : xq -> xq) (pi : Q) (junk : list xq -> Z -> xq).
Notation A := (exact lg ex sq pi junk).
Notation rd := (rd A).

Ltac z0 := cbn; change (inject_Z 0) with 0%Q; change (inject_Z 50) with 50%Q; lra.
Lemma gt_nonneg x y : lt A y x = true -> nonneg y -> nonneg x.
Proof.
  cbn [lt exact]. unfold xlt. destruct x as [p| | |], y as [q| | |]; cbn; try easy. rewrite negb_true_iff. intros H H0.
  destruct (Qle_bool p q) eqn:E; [easy|]. assert (~ p <= q)%Q by (intros G; apply Qle_bool_iff in G; congruence). lra.
Qed.
Lemma gt_zero x : lt A (z_ A 0) x = true -> nonneg x.
Proof. intros H. apply (gt_nonneg _ _ H). z0. Qed.
Lemma zpos_q k : 0 < k -> (0 < inject_Z k)%Q.
Proof. intros H. change 0%Q with (inject_Z 0). now rewrite <- Zlt_Qlt. Qed.
Lemma znn_q k : 0 <= k -> (0 <= inject_Z k)%Q.
Proof. intros H. change 0%Q with (inject_Z 0). now rewrite <- Zle_Qle. Qed.
Lemma one_q k : 1 <= k -> (1 <= inject_Z k)%Q.
Proof. intros H. change 1%Q with (inject_Z 1). now rewrite <- Zle_Qle. Qed.
Lemma floop_inv {S} (I : S -> Prop) a b f (s : S) : I s -> (forall i s, a <= i < b -> I s -> I (f i s)) -> I (floop a b f s).
Proof.
  intros H0 H. unfold floop. assert (G : forall i, In i (zrange a b) -> a <= i < b) by (intros i; now rewrite zrange_in).
  revert s H0 G. induction (zrange a b) as [|i r IH]; intros s H0 G; [exact H0|]. cbn [fold_left]. apply IH; [|intros j Hj; apply G; now right].
  apply H; [apply G; now left|exact H0].
Qed.

(** ** Aroon *)
Lemma extreme_scan_bounds l better : forall steps j x best, (j < best -> True) ->
  extreme_scan A l better j steps x best = best \/ j - Z.of_nat steps < extreme_scan A l better j steps x best <= j.
Proof.
  induction steps as [|steps IH]; intros j x best _; [now left|]. cbn [extreme_scan].
  destruct (j <? 0); [now left|]. destruct (better _ _).
  - destruct (IH (j - 1) (rd l j) j ltac:(easy)) as [->|H]; right; lia.
  - destruct (IH (j - 1) x best ltac:(easy)) as [->|H]; [now left|]. right; lia.
Qed.
Lemma aroon_level lb i k : 0 < lb -> i - lb <= k <= i -> in_range 0 100 (div A (z_ A (100 * (lb - (i - k)))) (z_ A lb)).
Proof.
  intros Hl Hk. unfold z_. cbn [div exact num]. apply range_div; [now apply zpos_q|]. cbn [in_range].
  rewrite inject_Z_mult. pose proof (zpos_q lb Hl). assert (0 <= inject_Z (lb - (i - k)) <= inject_Z lb)%Q.
  { change 0%Q with (inject_Z 0). rewrite <- !Zle_Qle. lia. }
  change (inject_Z 100) with 100%Q. split; nra.
Qed.
Lemma aroon_ends l better lb i : 0 < lb ->
  i - lb <= extreme_scan A l better (i - 1) (Z.to_nat lb) (rd l i) i <= i.
Proof. intros Hl. destruct (extreme_scan_bounds l better (Z.to_nat lb) (i - 1) (rd l i) i ltac:(easy)) as [->|H]; lia. Qed.
Lemma aroon_range h l lb ty : all_between (match ty with AroonDiff => - (100) | _ => 0 end) 100 (aroon A h l lb ty).
Proof.
  intros r E. unfold aroon in E.
  destruct (same_len A h [l] && (0 <? lb) && (0 <? len h)) eqn:G; [|discriminate]. apply some_inj in E. subst r.
  apply andb_true_iff in G. destruct G as [G _]. apply andb_true_iff in G. destruct G as [_ G]. apply Z.ltb_lt in G.
  apply tab_forall. intros i Hi. destruct (i =? 0); [destruct ty; z0|]. cbv zeta.
  destruct ty; [apply aroon_level; [easy|now apply aroon_ends]|apply aroon_level; [easy|now apply aroon_ends]|].
  match goal with |- in_range _ _ (sub A ?x ?y) => assert (X : in_range 0 100 x) by (apply aroon_level; [easy|now apply aroon_ends]);
    assert (Y : in_range 0 100 y) by (apply aroon_level; [easy|now apply aroon_ends]); revert X Y; generalize x, y end.
  intros x y. cbn [sub exact]. destruct x, y; cbn; try easy; intros; lra.
Qed.

(** ** Laguerre *)
Lemma up_nonneg x y : nonneg (if le A y x then sub A x y else z_ A 0).
Proof.
  cbn [le sub exact]. destruct (xle y x) eqn:E; [|z0]. destruct x as [p| | |], y as [q| | |]; cbn in *; try easy.
  apply Qle_bool_iff in E. lra.
Qed.
Lemma down_nonneg x y : nonneg (if le A y x then z_ A 0 else sub A y x).
Proof.
  cbn [le sub exact]. destruct (xle y x) eqn:E; [z0|]. destruct x as [p| | |], y as [q| | |]; cbn in *; try easy.
  assert (~ q <= p)%Q by (intros G; apply Qle_bool_iff in G; congruence). lra.
Qed.
Ltac unlet E := match type of E with (let x := ?v in @?f x) = ?r => change (f v = r) in E; cbv beta in E end.
Ltac peel := match goal with |- in_range ?a ?b (snd (let x := ?v in @?f x)) => change (in_range a b (snd (f v))); generalize v; intro; cbv beta end.
Lemma laguerre_rsi_range o h l c n : all_between 0 100 (laguerre_rsi A o h l c n).
Proof.
  intros r E. cbv beta delta [laguerre_rsi] in E. match type of E with (if ?b then _ else _) = _ => destruct b; [|discriminate] end.
  unlet E. match type of E with (if ?b then _ else _) = _ => destruct b end; apply some_inj in E; subst r.
  - apply full_forall. z0.
  - apply Forall_app. split; [apply full_forall; z0|]. apply scan_forall. intros i [[[l0_1 l1_1] l2_1] l3_1].
    do 7 peel.
    match goal with |- in_range _ _ (snd (if ?b then _ else _)) => destruct b end; [z0|]. do 6 peel.
    match goal with |- in_range ?a ?b (snd (let x := ?v in @?f x)) => assert (U : nonneg v) by (repeat apply nonneg_add; apply up_nonneg);
      change (in_range a b (snd (f v))); revert U; generalize v; intros cu U; cbv beta end.
    match goal with |- in_range ?a ?b (snd (let x := ?v in @?f x)) => assert (D : nonneg v) by (repeat apply nonneg_add; apply down_nonneg);
      change (in_range a b (snd (f v))); revert D; generalize v; intros cd D; cbv beta end.
    cbv zeta. cbn [snd].
    pose proof (ratio_range cu cd U D) as R.
    match goal with |- context [negb ?b] => destruct b end; cbn [negb].
    + z0.
    + cbn [mul exact z_ num]. change (inject_Z 100) with 100%Q. apply (range_weak (100 * 0) (100 * 1)); [|lra|lra]. apply range_scale_r; [lra|exact R].
Qed.
End Ranges.
