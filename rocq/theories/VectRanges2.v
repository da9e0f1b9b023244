(** Natural ranges, continued: stochastic oscillators, directional movement, money flow. *)
From Coq Require Import List Bool Arith Lia ZArith QArith Qabs Lqa.
From Verif Require Import VectModel VectSpec VectLemmas VectExact VectWindow VectSum VectBounds VectRanges VectCausal4.
Import ListNotations.
Open Scope list_scope.
Open Scope Z_scope.

(** At no bar is the first series above the second. *)
Definition never_above (l h : list xq) : Prop :=
  forall i x y, nth_error l i = Some x -> nth_error h i = Some y -> xlt y x = false.
(** All values are numbers. *)
Definition finite (l : list xq) : Prop := Forall (fun x => exists q, x = Fin q) l.

Lemma ratio_range_k k u d : (0 < k)%Q -> nonneg u -> nonneg d -> in_range 0 k (xdiv (xmul (Fin k) u) (xadd u d)).
Proof.
  intros Hk. destruct u as [p| | |], d as [q| | |]; cbn [nonneg xadd xmul]; try easy; intros; cbn [xdiv in_range]; try (split; lra); try exact I.
  1: { destruct (Qeq_bool (p + q) 0) eqn:E; [exact I|]. cbn. assert (0 < p + q)%Q.
    { assert (~ p + q == 0)%Q by (intros G; apply Qeq_bool_iff in G; congruence). lra. }
    split; [apply qdiv_nn; nra|apply Qle_shift_div_r; [lra|nra]]. }
  all: unfold xsigned; cbn [xzero xpos]; destruct (Qeq_bool k 0); [exact I|]; destruct (negb _); exact I.
Qed.
Lemma xlt_fin p q : xlt (Fin p) (Fin q) = true <-> (p < q)%Q.
Proof.
  unfold xlt. cbn. rewrite negb_true_iff. split.
  - intros H. assert (~ q <= p)%Q by (intros G; apply Qle_bool_iff in G; congruence). lra.
  - intros H. destruct (Qle_bool q p) eqn:E; [|easy]. apply Qle_bool_iff in E. lra.
Qed.
Lemma xlt_fin_false p q : xlt (Fin p) (Fin q) = false <-> (q <= p)%Q.
Proof. rewrite <- not_true_iff_false, xlt_fin. split; intros; [lra|intros G; lra]. Qed.

Section Ranges.
Context (lg ex sq : xq -> xq) (pi : Q) (junk : list xq -> Z -> xq).
Notation A := (exact lg ex sq pi junk).
Notation rd := (rd A).
Ltac z0 := cbn; change (inject_Z 0) with 0%Q; lra.

Ltac lx := change (VectModel.F A) with xq in *; lia.
Lemma rd_forall (P : xq -> Prop) l k : Forall P l -> 0 <= k < len l -> P (rd l k).
Proof. intros H Hk. rewrite Forall_forall in H. apply H. apply (nth_error_In l (Z.to_nat k)). exact (rd_in A l k Hk). Qed.
Lemma first_volume_nn v : 0 < len v -> 0 <= first_volume A v.
Proof.
  intros H. unfold first_volume. assert (G : forall l k, 0 <= k -> 0 < len l \/ 0 < k -> 0 <= first_positive A l k).
  { induction l as [|x l IH]; intros k Hk Hl; cbn [first_positive].
    - destruct Hl as [Hl|Hl]; [cbn in Hl; lx|lx].
    - destruct (lt _ _ _); [easy|]. apply IH; lx. }
  apply G; [lx|now left].
Qed.

(** ** Relative strength and its stochastic *)
Lemma z_sub_one n : 1 <= n -> nonneg (sub A (z_ A n) (z_ A 1)).
Proof. intros H. cbn. change (inject_Z 1) with 1%Q. pose proof (one_q n H). lra. Qed.
Lemma z_nn n : 0 <= n -> nonneg (z_ A n).
Proof. intros H. cbn. now apply znn_q. Qed.
Lemma rest_nonneg x d : nonneg x -> lt A (z_ A 0) d = false -> nonneg (sub A x d).
Proof.
  cbn [lt exact sub z_ num]. change (inject_Z 0) with 0%Q. destruct x as [p| | |], d as [q| | |]; cbn; try easy.
  intros Hp H. change (xlt (Fin 0) (Fin q) = false) in H. apply xlt_fin_false in H. lra.
Qed.
Definition rsi_inv (s : xq * xq) : Prop := nonneg (fst s) /\ nonneg (snd s).
Lemma rsi_step_inv v n i s : 1 <= n -> rsi_inv s -> rsi_inv (rsi_step A v n i s).
Proof.
  intros Hn [Hu Hd]. destruct s as [u d]. cbn [fst snd] in *. cbv beta delta [rsi_step] iota zeta. generalize (sub A (rd v i) (rd v (i - 1))). intros f.
  pose proof (z_sub_one n Hn) as S. pose proof (z_nn n ltac:(lx)) as N.
  destruct (lt A (z_ A 0) f) eqn:E; split; cbn [fst snd].
  - apply nonneg_div; [|exact N]. apply nonneg_add; [now apply nonneg_mul|]. exact (gt_zero lg ex sq pi junk f E).
  - apply nonneg_mul; [easy|]. now apply nonneg_div.
  - apply nonneg_mul; [easy|]. now apply nonneg_div.
  - apply nonneg_div; [|exact N]. apply rest_nonneg; [now apply nonneg_mul|exact E].
Qed.
Lemma rsi_seed_inv v n : 1 <= n -> rsi_inv (rsi_seed A v n).
Proof.
  intros Hn. unfold rsi_seed.
  match goal with |- context [floop 1 n ?f ?s] => assert (G : rsi_inv (floop 1 n f s)) end.
  { apply floop_inv.
    - split; cbn [fst snd]; unfold e60, q_; cbn [num exact nonneg]; discriminate.
    - intros i [u d] _ [Hu Hd]. cbn [fst snd] in *. generalize (sub A (rd v i) (rd v (i - 1))). intros f.
      destruct (lt A (z_ A 0) f) eqn:E; split; cbn [fst snd]; [|easy|easy|now apply rest_nonneg].
      apply nonneg_add; [easy|]. exact (gt_zero lg ex sq pi junk f E). }
  destruct (floop _ _ _ _) as [u d]. destruct G as [Gu Gd]. split; cbn [fst snd] in *; (apply nonneg_div; [easy|apply z_nn; lx]).
Qed.
Lemma rsi_range v n : 1 <= n -> Forall (in_range 0 100) (rsi A v n (z_ A 0) (fun w => w)).
Proof.
  intros Hn. unfold rsi. apply Forall_app. split; [apply full_forall; z0|].
  match goal with |- Forall _ (snd (scan ?f ?s ?l)) => pose proof (scan_both (S := xq * xq) (T := xq) rsi_inv (in_range 0 100) f l) as G end.
  refine (proj2 (G _ _ _)); [|now apply rsi_seed_inv].
  intros i s _ Hs. pose proof (rsi_step_inv v n i s Hn Hs) as [H1 H2]. destruct (rsi_step A v n i s) as [u d]. cbn [fst snd] in *.
  split; [now split|]. apply (ratio_range_k 100); [lra|easy|easy].
Qed.
Lemma sto_rsi_bar_range w sl i : Forall (in_range 0 100) w -> 1 <= sl -> sl - 1 <= i < len w -> in_range (-50) 50 (sto_rsi_bar A w sl i).
Proof.
  intros Hw Hs Hi. unfold sto_rsi_bar. pose proof (rd_forall _ w i Hw ltac:(lx)) as Hx.
  destruct (rd w i) as [x| | |] eqn:Ex; try easy.
  2: { match goal with |- in_range _ _ (let '(_, _) := ?p in _) => destruct p as [mn mx] end. exact I. }
  cbn [in_range] in Hx.
  match goal with |- context [floop 0 sl ?f ?s] => assert (G : exists a b, floop 0 sl f s = (Fin a, Fin b) /\ (a <= x <= b)%Q) end.
  { unfold floop. rewrite (zrange_split 0 1 sl) by lx. change (zrange 0 1) with [0]. cbn [app fold_left].
    replace (i - 0) with i by lx. rewrite Ex.
    match goal with |- context [fold_left ?f ?r ?s0] => change (fold_left f r s0) with (floop 1 sl (fun i s => f s i) s0) end.
    apply (floop_inv (fun s => exists a b, s = (Fin a, Fin b) /\ (a <= x <= b)%Q)).
    - exists x, x. split; [|lra]. unfold q_. cbn [num exact lt].
      replace (xlt (Fin (inject_Z (- 10 ^ 60))) (Fin x)) with true by (symmetry; apply xlt_fin; apply (Qlt_le_trans _ 0); [reflexivity|lra]).
      replace (xlt (Fin x) (Fin (inject_Z (10 ^ 60)))) with true by (symmetry; apply xlt_fin; apply (Qle_lt_trans _ 100); [lra|reflexivity]). reflexivity.
    - intros j s Hj (a & b & -> & Hab). cbv zeta. pose proof (rd_forall _ w (i - j) Hw ltac:(lx)) as Hy.
      destruct (rd w (i - j)) as [y| | |] eqn:Ey; try easy.
      + cbn [lt exact]. destruct (xlt (Fin b) (Fin y)) eqn:E1, (xlt (Fin y) (Fin a)) eqn:E2; cbn [lt exact];
          try apply xlt_fin in E1; try apply xlt_fin in E2; eexists _, _; (split; [reflexivity|lra]).
      + exists a, b. split; [reflexivity|easy]. }
  destruct G as (a & b & -> & Hab). cbn [sub mul div add exact z_ num xsub xneg xadd xmul e60 q_].
  set (d := (b + - a + (1 # 10 ^ 60))%Q). assert (Hd : (0 < d)%Q) by (unfold d; assert (0 < 1 # 10 ^ 60)%Q by reflexivity; lra).
  cbn [xdiv]. destruct (Qeq_bool d 0) eqn:E; [exact I|]. cbn [xneg xadd in_range].
  change (inject_Z 100) with 100%Q. change (inject_Z 50) with 50%Q.
  assert (0 <= 100 * (x + - a) / d <= 100)%Q.
  { split; [apply Qle_shift_div_l; [easy|lra]|apply Qle_shift_div_r; [easy|]]. unfold d. assert (0 < 1 # 10 ^ 60)%Q by reflexivity. lra. }
  cbn [xsub xneg xadd in_range]. lra.
Qed.
(** Exponential smoothing stays in a range that contains what it smooths. *)
Lemma alpha_range s : lt A (z_ A 1) s = true -> exists q, div A (z_ A 2) (add A s (z_ A 1)) = Fin q /\ (0 <= q <= 1)%Q.
Proof.
  cbn [lt exact z_ num div add]. change (inject_Z 1) with 1%Q. change (inject_Z 2) with 2%Q. intros H. destruct s as [q| | |]; try easy.
  - apply xlt_fin in H. cbn [xadd xdiv]. destruct (Qeq_bool (q + 1) 0) eqn:E; [apply Qeq_bool_iff in E; lra|].
    eexists. split; [reflexivity|]. split; [apply Qle_shift_div_l; lra|apply Qle_shift_div_r; lra].
  - exists 0%Q. split; [reflexivity|lra].
Qed.
Lemma blend_range lo hi a x y : (0 <= a <= 1)%Q -> in_range lo hi x -> in_range lo hi y ->
  in_range lo hi (add A (mul A (Fin a) x) (mul A (sub A (z_ A 1) (Fin a)) y)).
Proof.
  intros Ha. cbn [add mul sub exact z_ num xsub xneg xadd]. change (inject_Z 1) with 1%Q.
  destruct x as [x| | |], y as [y| | |]; cbn; try easy. intros. nra.
Qed.
Lemma smooth_range lo hi a q o : 0 <= a < len o -> (0 <= q <= 1)%Q -> Forall (in_range lo hi) o ->
  Forall (in_range lo hi) (smooth A a (Fin q) (fun _ s => s) o).
Proof.
  intros Ha Hq Ho. unfold smooth. apply Forall_app. split.
  - apply Forall_forall. intros x Hx. rewrite Forall_forall in Ho. apply Ho. rewrite <- (firstn_skipn (Z.to_nat (a + 1)) o). apply in_or_app. now left.
  - match goal with |- Forall _ (snd (scan ?f ?s ?l)) => pose proof (scan_both (S := xq) (T := xq) (in_range lo hi) (in_range lo hi) f l) as G end.
    refine (proj2 (G _ _ _)); [|now apply rd_forall].
    intros i s Hi Hs. apply zrange_in in Hi. cbn [fst snd]. assert (in_range lo hi (add A (mul A (Fin q) (rd o i)) (mul A (sub A (z_ A 1) (Fin q)) s))); [|easy].
    apply blend_range; [easy|apply rd_forall; [easy|lx]|easy].
Qed.
Lemma stochastic_rsi_range v rl sl sm : all_between (-50) 50 (stochastic_rsi A v rl sl sm).
Proof.
  intros r E. unfold stochastic_rsi in E. destruct (_ && _) eqn:G in E; [|discriminate].
  apply andb_true_iff in G. destruct G as [G _]. apply andb_true_iff in G. destruct G as [G1 G2]. apply Z.ltb_lt in G1, G2.
  destruct (Z.leb_spec (len v) rl) as [L|L]; [apply some_inj in E; subst r; apply full_forall; z0|].
  assert (R : Forall (in_range (-50) 50) (tab_from A (Z.min (rl + sl - 1) (len v)) (len v)
           (sto_rsi_bar A (rsi A v rl (z_ A 0) (fun w => w)) sl))).
  { apply tab_from_forall; [z0|]. intros i Hi Hf. apply sto_rsi_bar_range; [apply rsi_range; lx|lx|].
    assert (Ll : len (rsi A v rl (z_ A 0) (fun w => w)) = len v).
    { unfold rsi. rewrite len_app, len_full by lx. rewrite len_scan. lx. }
    change (VectModel.F A) with xq in *. rewrite Ll. lia. }
  destruct (lt A (z_ A 1) sm && _) eqn:S in E; apply some_inj in E; subst r; [|exact R].
  apply andb_true_iff in S. destruct S as [S1 S2]. apply Z.ltb_lt in S2. destruct (alpha_range sm S1) as (q & -> & Hq).
  apply smooth_range; [|easy|exact R]. match goal with |- context [tab_from A ?a ?n ?f] => pose proof (len_tab_from A a n f ltac:(lx)) end. lx.
Qed.

(** ** Directional movement *)
Definition adx_inv (P : xq -> Prop) (s : xq * xq * xq * xq) : Prop :=
  let '(p, m, a, x) := s in nonneg p /\ nonneg m /\ nonneg a /\ P x.
Lemma dm_nonneg h l c i : xlt (rd h i) (rd l i) = false -> let '(p, m, t) := dm A h l c i in nonneg p /\ nonneg m /\ nonneg t.
Proof.
  intros H. unfold dm. cbv zeta. split; [|split].
  - destruct (_ && _) eqn:E; [|z0]. apply andb_true_iff in E. destruct E as [_ E]. exact (gt_zero lg ex sq pi junk _ E).
  - destruct (_ && _) eqn:E; [|z0]. apply andb_true_iff in E. destruct E as [_ E]. exact (gt_zero lg ex sq pi junk _ E).
  - assert (G : nonneg (sub A (rd h i) (rd l i))).
    { cbn [sub exact]. destruct (rd h i) as [p| | |], (rd l i) as [q| | |]; cbn; try easy. apply xlt_fin_false in H. lra. }
    assert (G1 : nonneg (if lt A (sub A (rd h i) (rd l i)) (sub A (rd h i) (rd c (i - 1))) then sub A (rd h i) (rd c (i - 1)) else sub A (rd h i) (rd l i))).
    { destruct (lt A _ _) eqn:E; [|easy]. exact (gt_nonneg lg ex sq pi junk _ _ E G). }
    match goal with |- nonneg (if ?b then _ else _) => destruct b eqn:E end; [|easy]. exact (gt_nonneg lg ex sq pi junk _ _ E G1).
Qed.
Lemma dx_range p m a : nonneg p -> nonneg m -> nonneg a -> in_range 0 1 (dx A p m a).
Proof.
  intros Hp Hm Ha. unfold dx. cbv zeta. set (eps := q_ A (1 # (10 ^ 10)%positive)).
  assert (E : nonneg (add A a eps)) by (apply nonneg_add; [easy|unfold eps; cbn; discriminate]).
  pose proof (nonneg_div _ _ Hp E) as U. pose proof (nonneg_div _ _ Hm E) as D.
  change (div A p (add A a eps)) with (xdiv p (add A a eps)). change (div A m (add A a eps)) with (xdiv m (add A a eps)).
  revert U D. generalize (xdiv p (add A a eps)), (xdiv m (add A a eps)). intros u d U D.
  unfold eps, q_. cbn [div sub add fabs exact num].
  destruct u as [x| | |], d as [y| | |]; cbn [nonneg xsub xneg xadd xabs] in *; try easy; cbn [xdiv in_range].
  set (k := (x + y + (1 # 10 ^ 10))%Q). assert (Hk : (x + y < k)%Q) by (unfold k; assert (0 < 1 # 10 ^ 10)%Q by reflexivity; lra).
  destruct (Qeq_bool k 0) eqn:B; [exact I|]. cbn [in_range].
  assert (HA : (0 <= Qabs (x + - y) <= x + y)%Q) by (split; [apply Qabs_nonneg|apply Qabs_Qle_condition; lra]).
  split; [apply Qle_shift_div_l; lra|apply Qle_shift_div_r; lra].
Qed.
Lemma keep_nn n : 1 <= n -> nonneg (div A (sub A (z_ A n) (z_ A 1)) (z_ A n)).
Proof. intros H. apply nonneg_div; [now apply z_sub_one|apply z_nn; lx]. Qed.
Lemma adx_range h l c lb : never_above l h -> all_between 0 100 (adx A h l c lb).
Proof.
  intros Hb r E. unfold adx in E. destruct (_ && _) eqn:G in E; [|discriminate].
  apply andb_true_iff in G. destruct G as [G1 G2]. apply Z.ltb_lt in G2.
  unfold same_len in G1. cbn [forallb] in G1. rewrite !andb_true_iff, !Z.eqb_eq in G1.
  destruct (Z.ltb_spec (len c) (2 * lb)) as [L|L]; [apply some_inj in E; subst r; apply full_forall; z0|].
  assert (B : forall i, 0 <= i < len c -> xlt (rd h i) (rd l i) = false).
  { intros i Hi. apply (Hb (Z.to_nat i)); apply (rd_in A); lx. }
  assert (HQ : (1 <= inject_Z lb)%Q) by (apply one_q; lx).
  (* first bars *)
  match type of E with context [scan (adx_1 A h l c) ?s0 ?r0] =>
    assert (S1 : (fun i s => 1 <= i /\ adx_inv (fun x => i = 1 \/ in_range 0 1 x) s) (lb + 1) (fst (scan (adx_1 A h l c) s0 r0)));
    [|assert (O1 : Forall (in_range 0 100) (snd (scan (adx_1 A h l c) s0 r0)))] end.
  { apply scan_state; [lx| |].
    - split; [lx|]. repeat split; [z0|z0|z0|now left].
    - intros i [[[p m] a] x] Hi (Hi1 & Hp & Hm & Ha & Hx). split; [lx|]. unfold adx_1. pose proof (dm_nonneg h l c i (B i ltac:(lx))) as D.
      destruct (dm A h l c i) as [[dp d_m] t]. destruct D as (D1 & D2 & D3). cbn [fst].
      assert (nonneg (add A p dp) /\ nonneg (add A m d_m) /\ nonneg (add A a t)) as (N1 & N2 & N3) by (repeat split; now apply nonneg_add).
      repeat split; try easy. right. now apply dx_range. }
  { refine (proj2 (scan_both (S := xq * xq * xq * xq) (T := xq) (adx_inv (fun _ => True)) (in_range 0 100) _ _ _ _ _)).
    - intros i [[[p m] a] x] Hi (Hp & Hm & Ha & Hx). apply zrange_in in Hi. unfold adx_1. pose proof (dm_nonneg h l c i (B i ltac:(lx))) as D.
      destruct (dm A h l c i) as [[dp d_m] t]. destruct D as (D1 & D2 & D3). cbn [fst snd].
      assert (nonneg (add A p dp) /\ nonneg (add A m d_m) /\ nonneg (add A a t)) as (N1 & N2 & N3) by (repeat split; now apply nonneg_add).
      repeat split; try easy. apply (range_weak (100 * 0) (100 * 1)); [|lra|lra]. apply range_scale; [lra|]. now apply dx_range.
    - repeat split; z0. }
  destruct (scan (adx_1 A h l c) _ _) as [s1 o1]. cbn [fst snd] in S1, O1. destruct S1 as [_ S1].
  (* running mean *)
  assert (I1 : adx_inv (fun x => in_range 0 (inject_Z (lb + 1 - lb)) x) s1).
  { destruct s1 as [[[p m] a] x]. destruct S1 as (? & ? & ? & Hx). repeat split; try easy. destruct Hx as [Hx|Hx]; [lx|].
    replace (lb + 1 - lb) with 1 by lx. exact Hx. }
  match type of E with context [scan (adx_2 A h l c lb) ?s0 ?r0] =>
    assert (S2 : (fun i s => lb + 1 <= i /\ adx_inv (in_range 0 (inject_Z (i - lb))) s) (Z.max (lb + 1) (2 * lb)) (fst (scan (adx_2 A h l c lb) s0 r0)));
    [|assert (O2 : Forall (in_range 0 100) (snd (scan (adx_2 A h l c lb) s0 r0)))] end.
  { destruct (Z_le_gt_dec (lb + 1) (2 * lb)) as [Lb|Lb].
    - rewrite Z.max_r by lx. apply scan_state; [lx|split; [lx|exact I1]|].
      intros i [[[p m] a] x] Hi (Hi1 & Hp & Hm & Ha & Hx). split; [lx|]. unfold adx_2. pose proof (dm_nonneg h l c i (B i ltac:(lx))) as D.
      destruct (dm A h l c i) as [[dp d_m] t]. destruct D as (D1 & D2 & D3). cbn [fst].
      assert (N : nonneg (add A (mul A (div A (sub A (z_ A lb) (z_ A 1)) (z_ A lb)) p) dp) /\ nonneg (add A (mul A (div A (sub A (z_ A lb) (z_ A 1)) (z_ A lb)) m) d_m)
                  /\ nonneg (add A (mul A (div A (sub A (z_ A lb) (z_ A 1)) (z_ A lb)) a) t)).
      { repeat split; (apply nonneg_add; [apply nonneg_mul; [apply keep_nn; lx|easy]|easy]). }
      destruct N as (N1 & N2 & N3). repeat split; try easy.
      replace (i + 1 - lb) with (i - lb + 1) by lx. rewrite inject_Z_plus. apply (range_weak (0 + 0) (inject_Z (i - lb) + 1)); [|lra|change (inject_Z 1) with 1%Q; lra].
      apply range_add; [easy|]. now apply dx_range.
    - rewrite Z.max_l by lx. rewrite (zrange_empty (lb + 1) (2 * lb)) by lx. cbn [scan fst]. split; [lx|exact I1]. }
  { apply Forall_forall. intros y Hy. apply In_nth_error in Hy. destruct Hy as [k Hk].
    apply (scan_inv (fun i s => lb + 1 <= i /\ adx_inv (in_range 0 (inject_Z (i - lb))) s) (fun _ => in_range 0 100)) in Hk; [exact Hk|split; [lx|exact I1]|].
    intros i [[[p m] a] x] Hi (Hi1 & Hp & Hm & Ha & Hx). unfold adx_2. pose proof (dm_nonneg h l c i (B i ltac:(lx))) as D.
    destruct (dm A h l c i) as [[dp d_m] t]. destruct D as (D1 & D2 & D3). cbn [fst snd].
    assert (N : nonneg (add A (mul A (div A (sub A (z_ A lb) (z_ A 1)) (z_ A lb)) p) dp) /\ nonneg (add A (mul A (div A (sub A (z_ A lb) (z_ A 1)) (z_ A lb)) m) d_m)
                /\ nonneg (add A (mul A (div A (sub A (z_ A lb) (z_ A 1)) (z_ A lb)) a) t)).
    { repeat split; (apply nonneg_add; [apply nonneg_mul; [apply keep_nn; lx|easy]|easy]). }
    destruct N as (N1 & N2 & N3).
    assert (X : in_range 0 (inject_Z (i + 1 - lb)) (add A x (dx A (add A (mul A (div A (sub A (z_ A lb) (z_ A 1)) (z_ A lb)) p) dp)
                  (add A (mul A (div A (sub A (z_ A lb) (z_ A 1)) (z_ A lb)) m) d_m) (add A (mul A (div A (sub A (z_ A lb) (z_ A 1)) (z_ A lb)) a) t)))).
    { replace (i + 1 - lb) with (i - lb + 1) by lx. rewrite inject_Z_plus. apply (range_weak (0 + 0) (inject_Z (i - lb) + 1)); [|lra|change (inject_Z 1) with 1%Q; lra].
      apply range_add; [easy|]. now apply dx_range. }
    split; [split; [lx|]; repeat split; easy|].
    replace (i - lb + 1) with (i + 1 - lb) by lx. apply (range_div 0 100 (inject_Z (i + 1 - lb))); [apply zpos_q; lx|].
    apply (range_weak (100 * 0) (100 * inject_Z (i + 1 - lb))); [apply range_scale; [lra|exact X]|lra|lra]. }
  destruct (scan (adx_2 A h l c lb) _ _) as [s2 o2]. cbn [fst snd] in S2, O2. destruct s2 as [[[p2 m2] a2] x2]. destruct S2 as (_ & P2 & M2 & A2 & X2).
  (* smoothed *)
  match type of E with context [scan (adx_3 A h l c lb) ?s0 ?r0] =>
    assert (O3 : Forall (in_range 0 100) (snd (scan (adx_3 A h l c lb) s0 r0))) end.
  { refine (proj2 (scan_both (S := xq * xq * xq * xq) (T := xq) (adx_inv (in_range 0 1)) (in_range 0 100) _ _ _ _ _)).
    - intros i [[[p m] a] x] Hi (Hp & Hm & Ha & Hx). apply zrange_in in Hi. unfold adx_3. pose proof (dm_nonneg h l c i (B i ltac:(lx))) as D.
      destruct (dm A h l c i) as [[dp d_m] t]. destruct D as (D1 & D2 & D3). cbn [fst snd].
      assert (N : nonneg (add A (mul A (div A (sub A (z_ A lb) (z_ A 1)) (z_ A lb)) p) dp) /\ nonneg (add A (mul A (div A (sub A (z_ A lb) (z_ A 1)) (z_ A lb)) m) d_m)
                  /\ nonneg (add A (mul A (div A (sub A (z_ A lb) (z_ A 1)) (z_ A lb)) a) t)).
      { repeat split; (apply nonneg_add; [apply nonneg_mul; [apply keep_nn; lx|easy]|easy]). }
      destruct N as (N1 & N2 & N3). pose proof (dx_range _ _ _ N1 N2 N3) as DX.
      match goal with |- context [add A (mul A ?k x) (div A ?d (z_ A lb))] => assert (X : in_range 0 1 (add A (mul A k x) (div A d (z_ A lb)))) end.
      { revert DX. generalize (dx A (add A (mul A (div A (sub A (z_ A lb) (z_ A 1)) (z_ A lb)) p) dp)
                  (add A (mul A (div A (sub A (z_ A lb) (z_ A 1)) (z_ A lb)) m) d_m) (add A (mul A (div A (sub A (z_ A lb) (z_ A 1)) (z_ A lb)) a) t)).
        intros d DX. cbn [add mul div sub exact z_ num]. change (inject_Z 1) with 1%Q. generalize dependent (inject_Z lb). intros q HQ' . intros.
        cbn [xsub xneg xadd xdiv]. destruct (Qeq_bool q 0) eqn:Eq; [apply Qeq_bool_iff in Eq; lra|].
        destruct x as [x| | |], d as [d| | |]; cbn in DX, Hx |- *; try easy. rewrite Eq. cbn.
        assert (K : (q * ((q + - (1)) / q * x + d / q) == (q - 1) * x + d)%Q) by (field; lra).
        set (w := ((q + - (1)) / q * x + d / q)%Q) in *. split; nra. }
      split; [repeat split; easy|]. apply (range_weak (100 * 0) (100 * 1)); [|lra|lra]. apply range_scale; [lra|exact X].
    - repeat split; try easy. unfold z_. cbn [div exact num]. apply range_div; [lra|].
      eapply range_weak; [exact X2|lra|]. destruct (Z.max_spec (lb + 1) (2 * lb)) as [[? ->]|[? ->]]; rewrite Qmult_1_r, <- Zle_Qle; lx. }
  destruct (scan (adx_3 A h l c lb) _ _) as [s3 o3]. cbn [snd] in O3. apply some_inj in E. subst r.
  constructor; [z0|]. apply Forall_app. split; [easy|]. apply Forall_app. now split.
Qed.
End Ranges.
