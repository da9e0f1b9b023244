From Coq Require Import List Bool Arith Lia ZArith QArith Qminmax Lqa Psatz.
From Verif Require Import Lemmas EvalModel EvalSpec.
Import ListNotations.
Open Scope list_scope.
Open Scope Q_scope.

Lemma curve_app l x k : (k <= length l)%nat -> curve (l ++ [x]) k = curve l k.
Proof.
  revert k. induction l as [|y l IH]; intros [|k] H; cbn in *; try reflexivity; [lia|].
  rewrite IH; [reflexivity|lia].
Qed.
Lemma curve_end l x : curve (l ++ [x]) (S (length l)) == curve l (length l) + x.
Proof. induction l as [|y l IH]; cbn in *; [lra|]. rewrite IH. lra. Qed.
Lemma growth_app l x k : (k <= length l)%nat -> growth (l ++ [x]) k = growth l k.
Proof.
  revert k. induction l as [|y l IH]; intros [|k] H; cbn in *; try reflexivity; [lia|].
  rewrite IH; [reflexivity|lia].
Qed.
Lemma growth_end l x : growth (l ++ [x]) (S (length l)) == growth l (length l) * (1 + x).
Proof. induction l as [|y l IH]; cbn in *; [lra|]. rewrite IH. lra. Qed.

Lemma peak_unique f k m m' : peak f k m -> peak f k m' -> m == m'.
Proof. intros [[i [Hi E]] A] [[j [Hj E']] B]. specialize (A j Hj). specialize (B i Hi). lra. Qed.
Lemma peak_ext f g k m : (forall i, (i <= k)%nat -> f i == g i) -> peak f k m -> peak g k m.
Proof.
  intros X [[i [Hi E]] A]. split; [exists i; split; [exact Hi|rewrite <- X; auto]|].
  intros j Hj. rewrite <- X; auto.
Qed.
Lemma peak_step_new f k m : peak f k m -> m <= f (S k) -> peak f (S k) (f (S k)).
Proof.
  intros [[i [Hi E]] A] L. split; [exists (S k); split; [lia|reflexivity]|].
  intros j Hj. destruct (Nat.eq_dec j (S k)) as [->|N]; [lra|]. specialize (A j ltac:(lia)). lra.
Qed.
Lemma peak_step_old f k m : peak f k m -> f (S k) <= m -> peak f (S k) m.
Proof.
  intros [[i [Hi E]] A] L. split; [exists i; split; [lia|exact E]|].
  intros j Hj. destruct (Nat.eq_dec j (S k)) as [->|N]; [exact L|]. apply A. lia.
Qed.
Lemma peak_eq f k m m' : m == m' -> peak f k m -> peak f k m'.
Proof. intros E [[i [Hi X]] A]. split; [exists i; split; [exact Hi|lra]|]. intros j Hj. specialize (A j Hj). lra. Qed.
Lemma fall_unique f k d d' : pct_fall f k d -> pct_fall f k d' -> d == d'.
Proof. intros [m [P E]] [m' [P' E']]. rewrite E, E', (peak_unique f k m m' P P'). reflexivity. Qed.
Lemma fall_ext f g k d : (forall i, (i <= k)%nat -> f i == g i) -> pct_fall f k d -> pct_fall g k d.
Proof.
  intros X [m [P E]]. exists m. split; [now apply (peak_ext f)|]. rewrite E, X; [reflexivity|lia].
Qed.

(** ** max_drawdown *)
Definition dd_inv (l : list Q) (st : Q * Q * Q) : Prop :=
  let '(c, m, d) := st in
  c == curve l (length l) /\ peak (curve l) (length l) m /\ worst_fall (curve l) (length l) d.
Lemma worst_ext f g n d : (forall i, (i <= n)%nat -> f i == g i) -> worst_fall f n d -> worst_fall g n d.
Proof.
  intros X [[i [j [H E]]] A]. split.
  - exists i, j. split; [exact H|]. rewrite <- !X by lia. exact E.
  - intros a b Hab. rewrite <- !X by lia. auto.
Qed.
Lemma worst_step f n m d : peak f n m -> worst_fall f n d ->
  worst_fall f (S n) (if Qltb d (m - f (S n)) then m - f (S n) else d).
Proof.
  intros [[p [Hp Em]] A] [[i [j [H E]]] B].
  assert (D0 : 0 <= d) by (specialize (B 0%nat 0%nat ltac:(lia)); lra).
  assert (ALL : forall a b, (a <= b <= S n)%nat -> f a - f b <= d \/ f a - f b <= m - f (S n)).
  { intros a b Hab. destruct (Nat.eq_dec b (S n)) as [->|N].
    - destruct (Nat.eq_dec a (S n)) as [->|N']; [left; lra|right; specialize (A a ltac:(lia)); lra].
    - left. apply B. lia. }
  destruct (Qltb d (m - f (S n))) eqn:Q; qb; split.
  - exists p, (S n). split; [lia|]. rewrite Em. reflexivity.
  - intros a b Hab. destruct (ALL a b Hab); lra.
  - exists i, j. split; [lia|exact E].
  - intros a b Hab. destruct (ALL a b Hab); lra.
Qed.
Lemma worst_eq f n d d' : d == d' -> worst_fall f n d -> worst_fall f n d'.
Proof.
  intros E [[i [j [H X]]] A]. split; [exists i, j; split; [exact H|lra]|]. intros a b Hab. specialize (A a b Hab). lra.
Qed.
Lemma dd_fold l : dd_inv l (fold_left dd_step l (0, 0, 0)).
Proof.
  induction l as [|x l IH] using rev_ind.
  - split; [reflexivity|]. split.
    + split; [exists 0%nat; split; [lia|reflexivity]|]. intros [|i] H; [cbn; lra|cbn in H; lia].
    + split; [exists 0%nat, 0%nat; split; [lia|cbn; lra]|]. intros [|i] [|j] H; cbn in H; try lia. cbn; lra.
  - rewrite fold_left_app. cbn [fold_left]. destruct (fold_left dd_step l (0, 0, 0)) as [[c m] d].
    destruct IH as [C [P W]]. set (f := curve (l ++ [x])).
    assert (X : forall i, (i <= length l)%nat -> curve l i == f i).
    { intros i H. unfold f. rewrite curve_app; [reflexivity|exact H]. }
    assert (N : f (S (length l)) == c + x) by (unfold f; rewrite curve_end, C; reflexivity).
    apply (peak_ext _ f) in P; [|exact X]. apply (worst_ext _ f) in W; [|exact X].
    pose proof (worst_step f _ m d P W) as W'.
    cbn [dd_step].
    destruct (Qltb m (c + x)) eqn:B; unfold dd_inv; rewrite app_length; cbn [length]; rewrite Nat.add_1_r; fold f; qb.
    + split; [symmetry; exact N|]. split.
      * eapply peak_eq; [exact N|]. eapply peak_step_new; [exact P|lra].
      * destruct (Qltb d (m - f (S (length l)))) eqn:B'; qb; [|exact W'].
        destruct W as [_ W]. specialize (W 0%nat 0%nat ltac:(lia)). lra.
    + split; [symmetry; exact N|]. split; [apply peak_step_old; [exact P|lra]|].
      destruct (Qltb d (m - f (S (length l)))) eqn:B'; destruct (Qltb d (m - (c + x))) eqn:B''; qb; try lra; try exact W'.
      eapply worst_eq; [|exact W']. lra.
Qed.
Lemma dd_nil : max_drawdown [] = 0. Proof. reflexivity. Qed.
Theorem drawdown_worst l : worst_fall (curve l) (length l) (- max_drawdown l).
Proof.
  pose proof (dd_fold l) as H. unfold max_drawdown. destruct l as [|x l].
  - destruct H as [_ [_ H]]. exact H.
  - destruct (fold_left dd_step (x :: l) (0, 0, 0)) as [[c m] d]. destruct H as [_ [_ H]].
    eapply worst_eq; [|exact H]. lra.
Qed.

(** ** max_drawdown_percent *)
Definition ddp_inv (l : list Q) (st : Q * Q * Q * option nat) : Prop :=
  let '(c, m, d, idx) := st in
  c == growth l (length l) /\ peak (growth l) (length l) m /\ 1 <= m /\ d <= 0 /\
  worst_pct_fall (growth l) (length l) d (option_map S idx).
Lemma combine_seq_snoc {A} (l : list A) x a :
  combine (seq a (length (l ++ [x]))) (l ++ [x]) = combine (seq a (length l)) l ++ [((a + length l)%nat, x)].
Proof.
  revert a. induction l as [|y l IH]; intro a; cbn.
  - now rewrite Nat.add_0_r.
  - f_equal. rewrite IH. now rewrite Nat.add_succ_r.
Qed.
Lemma worst_pct_ext f g n d k : (forall i, (i <= n)%nat -> f i == g i) -> worst_pct_fall f n d k -> worst_pct_fall g n d k.
Proof.
  intros X [A B]. assert (X' : forall i, (i <= n)%nat -> g i == f i) by (intros; symmetry; auto). split.
  - intros j x H F. apply (A j x H). apply (fall_ext g); [intros i Hi; apply X'; lia|exact F].
  - destruct k as [k|]; [|exact B]. destruct B as [H [L [F B]]]. split; [exact H|]. split; [exact L|]. split.
    + apply (fall_ext f); [intros i Hi; apply X; lia|exact F].
    + intros j x Hj F'. apply (B j x Hj). apply (fall_ext g); [intros i Hi; apply X'; lia|exact F'].
Qed.
Lemma ddp_fold l : ddp_inv l (fold_left ddp_step (combine (seq 0 (length l)) l) (1, 1, 0, None)).
Proof.
  induction l as [|x l IH] using rev_ind.
  - assert (P : peak (growth []) 0 1).
    { split; [exists 0%nat; split; [lia|reflexivity]|]. intros [|i] H; [cbn; lra|lia]. }
    cbn. split; [reflexivity|]. split; [exact P|]. split; [lra|]. split; [lra|]. split; [|reflexivity].
    intros [|j] d H [m [P' E]]; [|lia]. rewrite (peak_unique _ _ _ _ P' P) in E. rewrite E. vm_compute. discriminate.
  - rewrite combine_seq_snoc, fold_left_app. cbn [fold_left].
    destruct (fold_left ddp_step (combine (seq 0 (length l)) l) (1, 1, 0, None)) as [[[c m] d] idx].
    destruct IH as [C [P [M [D W]]]]. set (f := growth (l ++ [x])).
    assert (X : forall i, (i <= length l)%nat -> growth l i == f i).
    { intros i H. unfold f. rewrite growth_app; [reflexivity|exact H]. }
    assert (N : f (S (length l)) == c * (x + 1)) by (unfold f; rewrite growth_end, C; lra).
    apply (peak_ext _ f) in P; [|exact X]. apply (worst_pct_ext _ f) in W; [|exact X].
    cbn [ddp_step]. rewrite Nat.add_0_l.
    assert (G : Qltb 0 m = true) by (unfold Qltb; destruct (Qle_bool m 0) eqn:Q; qb; [lra|reflexivity]).
    rewrite G.
    destruct (Qltb m (c * (x + 1))) eqn:B.
    { unfold ddp_inv. rewrite app_length; cbn [length]; rewrite Nat.add_1_r; fold f; qb.
      assert (P' : peak f (S (length l)) (c * (x + 1))).
      { eapply peak_eq; [exact N|]. eapply peak_step_new; [exact P|lra]. }
      split; [symmetry; exact N|]. split; [exact P'|]. split; [lra|]. split; [exact D|].
      assert (Z : forall z, pct_fall f (S (length l)) z -> z == 0).
      { intros z [m' [Pm E]]. rewrite E, N, (peak_unique _ _ _ _ Pm P').
        assert (U : forall q, 0 < q -> (q / q - 1) * 100 == 0) by (intros q Hq; field; lra). apply U. lra. }
      destruct W as [W1 W2]. split.
      - intros j z Hj F. destruct (Nat.eq_dec j (S (length l))) as [->|NE]; [apply Z in F; lra|]. apply (W1 j); [lia|exact F].
      - destruct (option_map S idx) as [k|]; [|exact W2]. destruct W2 as [H W2]. split; [lia|exact W2]. }
    set (loss := (c * (x + 1) / m - 1) * 100).
    assert (Z : forall z, pct_fall f (S (length l)) z -> z == loss).
    { qb. assert (P' : peak f (S (length l)) m) by (apply peak_step_old; [exact P|lra]).
      intros z [m' [Pm E]]. rewrite E, N, (peak_unique _ _ _ _ Pm P'). reflexivity. }
    assert (F' : pct_fall f (S (length l)) loss).
    { exists m. split; [qb; apply peak_step_old; [exact P|lra]|]. unfold loss. rewrite N. reflexivity. }
    destruct W as [W1 W2].
    destruct (Qltb loss d) eqn:B2; unfold ddp_inv; rewrite app_length; cbn [length]; rewrite Nat.add_1_r; fold f; qb;
      (split; [symmetry; exact N|]; split; [apply peak_step_old; [exact P|lra]|]; split; [exact M|]).
    + split; [lra|]. split.
      * intros j z Hj F. destruct (Nat.eq_dec j (S (length l))) as [->|NE]; [apply Z in F; lra|].
        specialize (W1 j z ltac:(lia) F). lra.
      * cbn [option_map]. split; [lia|]. split; [lra|]. split; [exact F'|].
        intros j z Hj F. specialize (W1 j z ltac:(lia) F). lra.
    + split; [exact D|]. split.
      * intros j z Hj F. destruct (Nat.eq_dec j (S (length l))) as [->|NE]; [apply Z in F; lra|].
        apply (W1 j z); [lia|exact F].
      * destruct (option_map S idx) as [k|]; [|exact W2]. destruct W2 as [H W2]. split; [lia|exact W2].
Qed.
Theorem drawdown_pct_worst l : let '(d, idx) := max_drawdown_percent l in
  d <= 0 /\ worst_pct_fall (growth l) (length l) d (option_map S idx).
Proof.
  pose proof (ddp_fold l) as H. unfold max_drawdown_percent. destruct l as [|x l].
  - destruct H as [_ [_ [_ H]]]. exact H.
  - destruct (fold_left ddp_step (combine (seq 0 (length (x :: l))) (x :: l)) (1, 1, 0, None)) as [[[c m] d] idx].
    destruct H as [_ [_ [_ H]]]. exact H.
Qed.
Lemma growth_nonneg l : Forall (fun r => -1 <= r) l -> forall k, 0 <= growth l k.
Proof.
  induction 1 as [|x l Hx _ IH]; intros [|k]; cbn; try lra. specialize (IH k). nra.
Qed.
Lemma peak_exists f k : exists m, peak f k m.
Proof.
  induction k as [|k [m P]].
  - exists (f 0%nat). split; [exists 0%nat; split; [lia|reflexivity]|]. intros [|i] H; [lra|lia].
  - destruct (Qlt_le_dec m (f (S k))) as [L|L].
    + exists (f (S k)). eapply peak_step_new; [exact P|lra].
    + exists m. now apply peak_step_old.
Qed.
Theorem drawdown_pct_range l : Forall (fun r => -1 <= r) l -> -(100) <= fst (max_drawdown_percent l) <= 0.
Proof.
  intro H. pose proof (drawdown_pct_worst l) as W. destruct (max_drawdown_percent l) as [d idx]. destruct W as [D [W1 W2]].
  split; [|exact D]. cbn [fst]. destruct (option_map S idx) as [k|]; [|lra].
  destruct W2 as [Hk [_ [[m [P E]] _]]]. rewrite E.
  assert (1 <= m). { destruct P as [_ P]. specialize (P 0%nat ltac:(lia)). destruct l; exact P. }
  pose proof (growth_nonneg l H k) as G.
  assert (0 <= growth l k / m).
  { apply Qle_shift_div_l; lra. }
  lra.
Qed.

(** ** From market values *)
Lemma curve_changes mv : forall k v0 v, nth_error mv 0 = Some v0 -> nth_error mv k = Some v -> curve (bar_changes mv) k == v - v0.
Proof.
  induction mv as [|a mv IH]; intros k v0 v H0 Hk; [discriminate|]. cbn in H0. injection H0 as <-.
  destruct k as [|k]; [cbn in Hk; injection Hk as <-; destruct mv; cbn; lra|].
  destruct mv as [|b mv]; [destruct k; discriminate|]. cbn [bar_changes curve].
  cbn [nth_error] in Hk. rewrite (IH k b v eq_refl Hk). lra.
Qed.
Lemma changes_length mv : length (bar_changes mv) = Nat.pred (length mv).
Proof. induction mv as [|a [|b mv] IH]; [reflexivity|reflexivity|]. cbn [bar_changes length] in *. rewrite IH. reflexivity. Qed.
Lemma returns_length mv : length (bar_returns mv) = Nat.pred (length mv).
Proof. induction mv as [|a [|b mv] IH]; [reflexivity|reflexivity|]. cbn [bar_returns length] in *. rewrite IH. reflexivity. Qed.
Lemma growth_returns mv : Forall (fun v => 0 < v) mv -> forall k v0 v, nth_error mv 0 = Some v0 -> nth_error mv k = Some v ->
  growth (bar_returns mv) k == v / v0.
Proof.
  induction 1 as [|a mv Ha F IH]; intros k v0 v H0 Hk; [discriminate|]. cbn in H0. injection H0 as <-.
  destruct k as [|k]; [cbn in Hk; injection Hk as <-; destruct mv; cbn; field; lra|].
  destruct mv as [|b mv]; [destruct k; discriminate|]. cbn [bar_returns growth].
  cbn [nth_error] in Hk. rewrite (IH k b v eq_refl Hk).
  pose proof (Forall_inv F) as Hb. cbn in Hb.
  destruct (Qeq_bool a 0) eqn:E; qb; [lra|]. field. split; lra.
Qed.
