(** Natural ranges, end: stochastic oscillator and money flow; what leaves its documented range. *)
From Coq Require Import List Bool Arith Lia ZArith QArith Qabs Lqa.
From Verif Require Import VectModel VectSpec VectLemmas VectExact VectWindow VectSum VectBounds VectRanges VectRanges2.
Import ListNotations.
Open Scope list_scope.
Open Scope Z_scope.

Lemma xle_total : total_order xnan xle.
Proof.
  split.
  - intros x y. destruct x as [p| | |], y as [q| | |]; cbn; try (intros; discriminate); try (now left); try (now right). intros _ _.
    destruct (Qlt_le_dec p q); [left|right]; apply Qle_bool_iff; lra.
  - intros x y z. destruct x as [p| | |], y as [q| | |], z as [t| | |]; cbn; try (intros; discriminate); try easy. intros _ _ _.
    rewrite !Qle_bool_iff. lra.
Qed.
Lemma xge_total : total_order xnan (fun x y => xle y x).
Proof.
  destruct xle_total as [H1 H2]. split.
  - intros x y Hx Hy. destruct (H1 x y Hx Hy); [now right|now left].
  - intros x y z Hx Hy Hz H3 H4. exact (H2 z y x Hz Hy Hx H4 H3).
Qed.
(** The last value of a window is in it. *)
Lemma window_last {T} n i (l : list T) x : (1 <= n)%nat -> (n <= S i)%nat -> nth_error l i = Some x -> In x (window n i l).
Proof.
  intros Hn Hi H. apply (nth_error_In _ (n - 1)). unfold window.
  assert (G : forall (m : list T) a b, nth_error (skipn a m) b = nth_error m (a + b)).
  { induction m as [|y m IH]; intros [|a] b; try easy; [now destruct b|]. cbn. apply IH. }
  assert (G' : forall (m : list T) a b, (b < a)%nat -> nth_error (firstn a m) b = nth_error m b).
  { induction m as [|y m IH]; intros [|a] [|b] Hb; cbn; try easy; try lia. apply IH. lia. }
  rewrite G' by lia. rewrite G. replace (S i - n + (n - 1))%nat with i by lia. easy.
Qed.

Section Ranges.
Context (lg ex sq : xq -> xq) (pi : Q) (junk : list xq -> Z -> xq).
Notation A := (exact lg ex sq pi junk).
Notation rd := (rd A).
Ltac z0 := cbn; change (inject_Z 0) with 0%Q; lra.
Ltac lx := change (VectModel.F A) with xq in *; lia.

(** ** Stochastic *)
Lemma low_at l n m i : lowv A l n = Some m -> 0 < n -> n - 1 <= i < len l -> rd m i = NaN \/ xle (rd m i) (rd l i) = true.
Proof.
  intros E Hn Hi. unfold lowv, rolling in E. destruct l as [|z l'] eqn:El; [cbn in Hi; lia|]. rewrite <- El in *. clear El z l'.
  destruct (verify_input A l n); [|discriminate]. apply some_inj in E. subst m. unfold rolling_min.
  destruct (extreme_spec A l xle n ltac:(lia) xle_total (Z.to_nat i) ltac:(unfold len in Hi; lia)) as (x & Ex & Hx).
  change (snd (scan (ext_step A l (fun x y => le A y x) n) ([], 0) (zrange 0 (len l)))) with (snd (scan (ext_step A l (fun x y => xle y x) n) ([], 0) (zrange 0 (len l)))).
  rewrite (rd_eq A _ i x Ex) by lx. unfold rolling_extreme in Hx. destruct (_ <? _)%nat; [now left|]. destruct (existsb _ _); [now left|].
  right. apply (proj2 Hx). apply window_last; [lia|lia|]. apply (rd_in A). lx.
Qed.
Lemma high_at l n m i : highv A l n = Some m -> 0 < n -> n - 1 <= i < len l -> rd m i = NaN \/ xle (rd l i) (rd m i) = true.
Proof.
  intros E Hn Hi. unfold highv, rolling in E. destruct l as [|z l'] eqn:El; [cbn in Hi; lia|]. rewrite <- El in *. clear El z l'.
  destruct (verify_input A l n); [|discriminate]. apply some_inj in E. subst m. unfold rolling_max.
  destruct (extreme_spec A l (fun x y => xle y x) n ltac:(lia) xge_total (Z.to_nat i) ltac:(unfold len in Hi; lia)) as (x & Ex & Hx).
  change (snd (scan (ext_step A l (fun x y => le A x y) n) ([], 0) (zrange 0 (len l)))) with (snd (scan (ext_step A l (fun x y => xle x y) n) ([], 0) (zrange 0 (len l)))).
  rewrite (rd_eq A _ i x Ex) by lx. unfold rolling_extreme in Hx. destruct (_ <? _)%nat; [now left|]. destruct (existsb _ _); [now left|].
  right. apply (proj2 Hx). apply window_last; [lia|lia|]. apply (rd_in A). lx.
Qed.
Lemma sto_range c mn mx lo hi : (mn = NaN \/ xle mn lo = true) -> (mx = NaN \/ xle hi mx = true) -> xlt c lo = false -> xlt hi c = false ->
  in_range 0 1 (div A (sub A c mn) (add A (sub A mx mn) (e60 A))).
Proof.
  intros H1 H2 H3 H4. unfold e60, q_. cbn [div sub add exact num].
  destruct H1 as [->|H1]; [destruct c; exact I|]. destruct H2 as [->|H2]; [destruct mn, c; exact I|].
  destruct c as [c| | |], mn as [mn| | |], mx as [mx| | |]; try exact I; try easy; destruct lo as [lo| | |], hi as [hi| | |]; try easy; cbn [xsub xneg xadd xdiv in_range]; try (split; lra).
  change (xle (Fin mn) (Fin lo)) with (Qle_bool mn lo) in H1. change (xle (Fin hi) (Fin mx)) with (Qle_bool hi mx) in H2. apply Qle_bool_iff in H1, H2.
  apply xlt_fin_false in H3, H4. set (d := (mx + - mn + (1 # 10 ^ 60))%Q). assert (0 < 1 # 10 ^ 60)%Q by reflexivity.
  destruct (Qeq_bool d 0) eqn:E; [exact I|]. cbn [in_range]. unfold d. split; [apply Qle_shift_div_l; lra|apply Qle_shift_div_r; lra].
Qed.
Lemma to50 x : in_range 0 1 x -> in_range (-50) 50 (sub A (mul A (z_ A 100) x) (z_ A 50)).
Proof. unfold z_. cbn [sub mul exact num]. change (inject_Z 100) with 100%Q. change (inject_Z 50) with 50%Q. destruct x; cbn; try easy. intros; lra. Qed.
Lemma third_range x y : in_range 0 1 x -> in_range 0 1 y ->
  in_range 0 1 (add A (mul A (q_ A (33333333 # 100000000)) x) (mul A (q_ A (66666667 # 100000000)) y)).
Proof. unfold q_. cbn [add mul exact num]. destruct x, y; cbn; try easy. intros; lra. Qed.
Lemma stochastic_range h l c lb sm : never_above l c -> never_above c h -> all_between (-50) 50 (stochastic A h l c lb sm).
Proof.
  intros Hl Hh r E. unfold stochastic in E. change (VectModel.F A) with xq in *. destruct (_ && _) eqn:G in E; [|discriminate].
  apply andb_true_iff in G. destruct G as [G _]. apply andb_true_iff in G. destruct G as [G1 G2]. apply Z.ltb_lt in G2.
  unfold same_len in G1. cbn [forallb] in G1. rewrite !andb_true_iff, !Z.eqb_eq in G1.
  destruct (Z.ltb_spec (len c) lb) as [L|L]; [apply some_inj in E; subst r; apply full_forall; z0|].
  destruct (lowv A l lb) as [mn|] eqn:Elow; [|discriminate]. destruct (highv A h lb) as [mx|] eqn:Ehigh; [|discriminate].
  apply some_inj in E. subst r. apply Forall_app. split; [apply full_forall; z0|].
  match goal with |- Forall _ (snd (scan ?f ?s0 ?l)) =>
    pose proof (scan_both (S := xq * xq) (T := xq) (fun s => in_range 0 1 (fst s) /\ in_range 0 1 (snd s)) (in_range (-50) 50) f l) as G end.
  refine (proj2 (G _ _ _)); [|split; exact I].
  intros i [s1 s2] Hi [H1 H2]. cbn [fst snd] in H1, H2. apply zrange_in in Hi.
  assert (S0 : in_range 0 1 (div A (sub A (rd c i) (rd mn i)) (add A (sub A (rd mx i) (rd mn i)) (e60 A)))).
  { apply (sto_range _ _ _ (rd l i) (rd h i)).
    - apply (low_at l lb); [easy|lx|lx].
    - apply (high_at h lb); [easy|lx|lx].
    - apply (Hl (Z.to_nat i)); apply (rd_in A); lx.
    - apply (Hh (Z.to_nat i)); apply (rd_in A); lx. }
  revert S0. generalize (div A (sub A (rd c i) (rd mn i)) (add A (sub A (rd mx i) (rd mn i)) (e60 A))). intros s0 S0.
  destruct (sm =? 0); [split; [easy|now apply to50]|]. destruct (i =? lb - 1); [split; [easy|now apply to50]|].
  pose proof (third_range s0 s1 S0 H1) as T1. destruct (sm =? 1); [split; [easy|now apply to50]|].
  destruct (i =? lb - 1 + 1); [split; [easy|now apply to50]|].
  pose proof (third_range _ s2 T1 H2) as T2. split; [easy|now apply to50].
Qed.

(** ** Money flow *)
(** Two numbers, the first at most 100 times the second in size. *)
Definition capped (y v : xq) : Prop := exists a b, y = Fin a /\ v = Fin b /\ (0 <= b)%Q /\ (- (100 * b) <= a <= 100 * b)%Q.
Lemma capped_sums (f g : Z -> xq) a b : (forall j, a <= j < b -> capped (f j) (g j)) ->
  capped (floop a b (fun j t => xadd t (f j)) (Fin 0)) (floop a b (fun j t => xadd t (g j)) (Fin 0)).
Proof.
  intros H. unfold floop. assert (G : forall j, In j (zrange a b) -> a <= j < b) by (intros j; now rewrite zrange_in).
  assert (K : capped (Fin 0) (Fin 0)) by (exists 0%Q, 0%Q; repeat split; lra). revert K. generalize (Fin 0) at 1 3. generalize (Fin 0).
  induction (zrange a b) as [|j r IH]; intros t s K; [exact K|]. cbn [fold_left]. apply IH; [intros i Hi; apply G; now right|].
  destruct K as (p & q & -> & -> & Hq & Hp). destruct (H j (G j (or_introl eq_refl))) as (u & v & -> & -> & Hv & Hu).
  exists (p + u)%Q, (q + v)%Q. cbn. repeat split; lra.
Qed.
Lemma capped_ratio k y v : 0 < k -> capped y v ->
  in_range (-100) 100 (if lt A (z_ A 0) (div A v (z_ A k)) then div A (div A y (z_ A k)) (div A v (z_ A k)) else z_ A 0).
Proof.
  intros Hk (a & b & -> & -> & Hb & Ha). unfold z_. cbn [lt div exact num xdiv]. change (inject_Z 0) with 0%Q. pose proof (zpos_q k Hk) as Q. revert Q. generalize (inject_Z k). intros q Q.
  destruct (Qeq_bool q 0) eqn:E; [apply Qeq_bool_iff in E; lra|]. cbn [xdiv]. destruct (xlt (Fin 0) (Fin (b / q))) eqn:B; [|cbn; lra]. apply xlt_fin in B.
  destruct (Qeq_bool (b / q) 0); [exact I|]. cbn [in_range].
  assert (0 < b)%Q. { assert (K : (b == q * (b / q))%Q) by (field; lra). rewrite K. nra. }
  assert (K : (a / q / (b / q) == a / b)%Q) by (field; split; lra). rewrite K. split; [apply Qle_shift_div_l; lra|apply Qle_shift_div_r; lra].
Qed.
Lemma money_flow_range h l c v lb sm : finite h -> finite l -> finite c -> finite v -> Forall nonneg v -> never_above l c -> never_above c h ->
  all_between (-100) 100 (flow A h l c v lb sm MoneyFlow).
Proof.
  intros Fh Fl Fc Fv Nv Hl Hh r E. unfold flow in E. change (VectModel.F A) with xq in *. destruct (_ && _) eqn:G in E; [|discriminate].
  apply andb_true_iff in G. destruct G as [G G4]. apply andb_true_iff in G. destruct G as [G _]. apply andb_true_iff in G. destruct G as [G1 G2]. apply Z.ltb_lt in G2, G4.
  unfold same_len in G1. cbn [forallb] in G1. rewrite !andb_true_iff, !Z.eqb_eq in G1.
  apply some_inj in E. subst r. set (fv := first_volume A v). set (n := len c). assert (Hfv : 0 <= fv) by (apply first_volume_nn; lx).
  set (a := Z.min (lb - 1 + fv) n). set (g := fun i => if lt A (rd l i) (rd h i) then _ else _). set (o0 := tab_from A fv n g).
  match goal with |- context [if 1 <? lb then ?x else ?y] => set (o1 := if 1 <? lb then x else y) end.
  assert (C : forall i, 0 <= i < n -> capped (rd o0 i) (rd v i)).
  { intros i Hi. unfold o0. rewrite rd_tab_from by lx.
    destruct (rd_forall lg ex sq pi junk _ v i Fv ltac:(lx)) as [vi Vi]. pose proof (rd_forall lg ex sq pi junk _ v i Nv ltac:(lx)) as Vn. rewrite Vi in *. cbn in Vn.
    destruct (i <? fv); [exists 0%Q, vi; repeat split; try easy; lra|]. unfold g.
    destruct (rd_forall lg ex sq pi junk _ h i Fh ltac:(lx)) as [hi Hi']. destruct (rd_forall lg ex sq pi junk _ l i Fl ltac:(lx)) as [li Li]. destruct (rd_forall lg ex sq pi junk _ c i Fc ltac:(lx)) as [ci Ci].
    assert (X1 : xlt (rd c i) (rd l i) = false) by (apply (Hl (Z.to_nat i)); apply (rd_in A); lx).
    assert (X2 : xlt (rd h i) (rd c i) = false) by (apply (Hh (Z.to_nat i)); apply (rd_in A); lx).
    rewrite Hi', Li, Ci, Vi in *. apply xlt_fin_false in X1, X2. cbn [lt mul sub div exact z_ num].
    destruct (xlt (Fin li) (Fin hi)) eqn:B; [|exists 0%Q, vi; repeat split; try easy; change (inject_Z 0) with 0%Q; lra]. apply xlt_fin in B.
    cbn [xmul xsub xneg xadd xdiv]. destruct (Qeq_bool (hi + - li) 0) eqn:Z0; [apply Qeq_bool_iff in Z0; lra|]. cbn [xmul].
    change (inject_Z 100) with 100%Q. change (inject_Z 2) with 2%Q.
    set (w := (100 * (2 * ci + - hi + - li) / (hi + - li))%Q). assert (W : (-(100) <= w <= 100)%Q).
    { unfold w. split; [apply Qle_shift_div_l; lra|apply Qle_shift_div_r; lra]. }
    exists (w * vi)%Q, vi. repeat split; try easy; nra. }
  assert (L0 : len o0 = n) by (unfold o0; rewrite len_tab_from; lx).
  assert (O1 : forall i, a <= i < n -> rd o1 i = if 1 <? lb then div A (floop 0 lb (fun j t => add A t (rd o0 (i - j))) (z_ A 0)) (z_ A lb) else rd o0 i).
  { intros i Hi. unfold o1. destruct (Z.ltb_spec 1 lb) as [L|L]; [|easy].
    destruct (down_loop A (fun out i => div A (floop 0 lb (fun j t => add A t (rd out (i - j))) (z_ A 0)) (z_ A lb)) a n o0) as [_ D]; [lx|lx| |].
    - intros m m' k Hk Lm Lm' Hm. f_equal. apply floop_ext. intros j t Hj. f_equal. apply Hm. lx.
    - rewrite D by lx. replace (i <? a) with false by (symmetry; apply Z.ltb_ge; lia). reflexivity. }
  apply tab_from_forall; [cbn; lra|]. intros i Hi Ha. rewrite rd_tab by lx. replace (i <? a) with false by (symmetry; apply Z.ltb_ge; lia).
  rewrite O1 by lia. assert (S : capped (floop 0 lb (fun j t => xadd t (rd o0 (i - j))) (Fin 0)) (floop 0 lb (fun j t => xadd t (rd v (i - j))) (Fin 0))).
  { apply capped_sums. intros j Hj. apply C. lia. }
  destruct (Z.ltb_spec 1 lb) as [L|L]; [exact (capped_ratio lb _ _ G2 S)|].
  assert (lb = 1) by lia. subst lb. cbv zeta. change (floop 0 1 (fun (j : Z) t => add A t (rd v (i - j))) (z_ A 0)) with (xadd (Fin 0) (rd v (i - 0))).
  replace (i - 0) with i by lia. destruct (C i Hi) as (y & w & Ey & Ew & Hw & Hy). rewrite Ey, Ew.
  unfold z_. cbn [xadd div exact lt num]. change (inject_Z 1) with 1%Q. change (inject_Z 0) with 0%Q.
  change (xdiv (Fin (0 + w)) (Fin 1)) with (Fin ((0 + w) / 1)). assert (K : ((0 + w) / 1 == w)%Q) by (field).
  destruct (xlt (Fin 0) (Fin ((0 + w) / 1))) eqn:B; [|cbn; lra]. apply xlt_fin in B. cbn [xdiv].
  destruct (Qeq_bool _ 0); [exact I|]. cbn [in_range]. rewrite K in *. split; [apply Qle_shift_div_l; lra|apply Qle_shift_div_r; lra].
Qed.
End Ranges.
