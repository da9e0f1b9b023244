(** Rolling sums, crossings and returns in exact arithmetic. *)
From Coq Require Import List Bool Arith Lia ZArith QArith Qabs Lqa.
From Verif Require Import VectModel VectSpec VectLemmas VectExact VectWindow.
Import ListNotations.
Open Scope list_scope.
Open Scope Z_scope.

Lemma xeq_refl x : xeq x x.
Proof. destruct x; cbn; easy. Qed.
Lemma xeq_sym x y : xeq x y -> xeq y x.
Proof. destruct x, y; cbn; intros; try easy; now symmetry. Qed.
Lemma xeq_trans x y z : xeq x y -> xeq y z -> xeq x z.
Proof. destruct x, y, z; cbn; intros; try easy. lra. Qed.

Section Sum.
Context (lg ex sq : xq -> xq) (pi : Q) (junk : list xq -> Z -> xq).
Notation A := (exact lg ex sq pi junk).
Notation rd := (rd A).
Ltac lia' := change (VectModel.F A) with xq in *; unfold len in *; lia.

Definition fin_of (x : xq) : Q := match x with Fin q => q | _ => 0 end.
Definition is_p (x : xq) : bool := match x with PInf => true | _ => false end.
Definition is_n (x : xq) : bool := match x with NInf => true | _ => false end.
(** The sum of a list by what is in it. *)
Lemma xsum_cases (l : list xq) :
  xeq (fold_right xadd (Fin 0) l)
    (if existsb xnan l then NaN else if existsb is_p l then (if existsb is_n l then NaN else PInf)
     else if existsb is_n l then NInf else Fin (fold_right (fun x t => fin_of x + t)%Q 0%Q l)).
Proof.
  induction l as [|x l IH]; [cbn; lra|]. cbn [fold_right existsb].
  set (t := fold_right xadd (Fin 0) l) in *. set (u := fold_right (fun x t => fin_of x + t)%Q 0%Q l) in *. clearbody t u.
  destruct x as [q| | |]; cbn [xnan is_p is_n orb fin_of].
  - destruct (existsb xnan l); [destruct t; cbn in *; easy|]. destruct (existsb is_p l), (existsb is_n l); destruct t; cbn in *; try easy. lra.
  - destruct t; easy.
  - destruct (existsb xnan l); [destruct t; cbn in *; easy|]. destruct (existsb is_p l), (existsb is_n l); destruct t; cbn in *; easy.
  - destruct (existsb xnan l); [destruct t; cbn in *; easy|]. destruct (existsb is_p l), (existsb is_n l); destruct t; cbn in *; easy.
Qed.

Section Window.
Context (l : list xq) (w : Z).
Hypothesis (Hw : 1 <= w).
Definition sum_inv (j : Z) (s : rsum A) : Prop :=
  (exists t c, rs_total _ s = Fin t /\ rs_comp _ s = Fin c /\ (t + c == qsum (fun k => fin_of (rd l k)) (bars w j))%Q) /\
  rs_nan _ s = zsum (fun k => ind (xnan (rd l k))) (bars w j) /\
  rs_pos _ s = zsum (fun k => ind (is_p (rd l k))) (bars w j) /\
  rs_neg _ s = zsum (fun k => ind (is_n (rd l k))) (bars w j).
Lemma rsum_in_spec v s t c : rs_total A s = Fin t -> rs_comp A s = Fin c ->
  let s' := rsum_in A v s in
  (exists t' c', rs_total _ s' = Fin t' /\ rs_comp _ s' = Fin c' /\ (t' + c' == t + c + fin_of v)%Q) /\
  rs_nan _ s' = rs_nan _ s + ind (xnan v) /\ rs_pos _ s' = rs_pos _ s + ind (is_p v) /\ rs_neg _ s' = rs_neg _ s + ind (is_n v).
Proof.
  intros E1 E2. destruct s as [to co a b d]. cbn [rs_total rs_comp rs_nan rs_pos rs_neg] in *. subst to co.
  destruct v as [q| | |]; unfold rsum_in; cbn [isnan isinf exact xnan xinf rs_total rs_comp rs_nan rs_pos rs_neg add sub le fabs lt].
  - cbn zeta. cbn [fin_of is_p is_n ind]. split; [|split; [cbn; lia|split; cbn; lia]].
    cbn [rs_total rs_comp xadd]. set (h := xle _ _). destruct h; cbn [xsub xneg xadd].
    + exists (t + q)%Q, (c + (t + - (t + q) + q))%Q. split; [easy|]. split; [easy|]. lra.
    + exists (t + q)%Q, (c + (q + - (t + q) + t))%Q. split; [easy|]. split; [easy|]. lra.
  - split; [exists t, c; cbn [fin_of]; split; [easy|split; [easy|lra]]|cbn; lia].
  - split; [exists t, c; cbn [fin_of]; split; [easy|split; [easy|lra]]|cbn; lia].
  - split; [exists t, c; cbn [fin_of]; split; [easy|split; [easy|lra]]|cbn; lia].
Qed.
Lemma rsum_out_spec v s t c : rs_total A s = Fin t -> rs_comp A s = Fin c ->
  let s' := rsum_out A v s in
  (exists t' c', rs_total _ s' = Fin t' /\ rs_comp _ s' = Fin c' /\ (t' + c' == t + c - fin_of v)%Q) /\
  rs_nan _ s' = rs_nan _ s - ind (xnan v) /\ rs_pos _ s' = rs_pos _ s - ind (is_p v) /\ rs_neg _ s' = rs_neg _ s - ind (is_n v).
Proof.
  intros E1 E2. destruct s as [to co a b d]. cbn [rs_total rs_comp rs_nan rs_pos rs_neg] in *. subst to co.
  destruct v as [q| | |]; unfold rsum_out; cbn [isnan isinf exact xnan xinf rs_total rs_comp rs_nan rs_pos rs_neg add sub le fabs lt neg].
  - cbn zeta. cbn [fin_of is_p is_n ind]. split; [|split; [cbn; lia|split; cbn; lia]].
    cbn [rs_total rs_comp xadd xsub xneg]. set (h := xle _ _). destruct h; cbn [xsub xneg xadd].
    + exists (t + - q)%Q, (c + (t + - (t + - q) + - q))%Q. split; [easy|]. split; [easy|]. lra.
    + exists (t + - q)%Q, (c + (- q + - (t + - q) + t))%Q. split; [easy|]. split; [easy|]. lra.
  - split; [exists t, c; cbn [fin_of]; split; [easy|split; [easy|lra]]|cbn; lia].
  - split; [exists t, c; cbn [fin_of]; split; [easy|split; [easy|lra]]|cbn; lia].
  - split; [exists t, c; cbn [fin_of]; split; [easy|split; [easy|lra]]|cbn; lia].
Qed.
Lemma rsum_step_inv j s : 0 <= j -> sum_inv j s ->
  sum_inv (j + 1) (fst (rsum_step A l w j s)) /\
  (w - 1 <= j -> snd (rsum_step A l w j s) = rsum_value A (fst (rsum_step A l w j s))) /\
  (j < w - 1 -> snd (rsum_step A l w j s) = NaN).
Proof.
  intros Hj ((t & c & E1 & E2 & E3) & N & P & M).
  destruct (rsum_in_spec (rd l j) s t c E1 E2) as ((t' & c' & E1' & E2' & E3') & N' & P' & M').
  unfold rsum_step. set (s' := rsum_in A (rd l j) s) in *.
  set (s'' := if w <=? j then rsum_out A (rd l (j - w)) s' else s').
  assert (I : sum_inv (j + 1) s'').
  { unfold sum_inv. rewrite !zsum_step by lia. unfold s''. destruct (w <=? j) eqn:C.
    - destruct (rsum_out_spec (rd l (j - w)) s' t' c' E1' E2') as ((t2 & c2 & F1 & F2 & F3) & N2 & P2 & M2).
      split; [exists t2, c2; split; [easy|split; [easy|]]; rewrite qsum_step, C by lia; lra|]. rewrite N2, P2, M2, N', P', M', N, P, M. easy.
    - split; [exists t', c'; split; [easy|split; [easy|]]; rewrite qsum_step, C by lia; lra|]. rewrite N', P', M', N, P, M. lia. }
  cbn [fst snd]. split; [exact I|]. split; intros; [now replace (w - 1 <=? j) with true by lia|now replace (w - 1 <=? j) with false by lia].
Qed.
Lemma rsum_value_spec j s : sum_inv j s -> xeq (rsum_value A s) (fold_right xadd (Fin 0) (map (rd l) (bars w j))).
Proof.
  intros ((t & c & E1 & E2 & E3) & N & P & M). apply xeq_sym. eapply xeq_trans; [apply xsum_cases|].
  rewrite !existsb_map. unfold rsum_value. rewrite N, P, M.
  destruct (zsum_ind_pos (fun k => xnan (rd l k)) (bars w j)) as [_ Cn].
  destruct (zsum_ind_pos (fun k => is_p (rd l k)) (bars w j)) as [_ Cp].
  destruct (zsum_ind_pos (fun k => is_n (rd l k)) (bars w j)) as [_ Cm].
  assert (B : forall a (b : bool), (0 < a <-> b = true) -> (0 <? a) = b).
  { intros a b H. apply eq_true_iff_eq. rewrite Z.ltb_lt. exact H. }
  rewrite (B _ _ Cn), (B _ _ Cp), (B _ _ Cm).
  destruct (existsb (fun k => xnan (rd l k)) (bars w j)); [easy|]. cbn [orb].
  destruct (existsb (fun k => is_p (rd l k)) (bars w j)), (existsb (fun k => is_n (rd l k)) (bars w j)); cbn [andb]; try easy.
  rewrite E1, E2. cbn [exact add xadd xeq]. rewrite E3. unfold qsum.
  clear. induction (bars w j) as [|k m IH]; [easy|]. cbn [map fold_right]. now rewrite IH.
Qed.
Lemma rolling_sum_spec i : (i < length l)%nat ->
  exists x, nth_error (rolling_sum A l w) i = Some x /\
  if (S i <? Z.to_nat w)%nat then x = NaN else xeq x (fold_right xadd (Fin 0) (window (Z.to_nat w) i l)).
Proof.
  intros Hi. set (o := rolling_sum A l w). assert (Lo : length o = length l) by (unfold o, rolling_sum; rewrite scan_length, zrange_length; unfold len; change (VectModel.F A) with xq in *; lia).
  destruct (nth_error o i) as [x|] eqn:E; [|apply nth_error_None in E; lia]. exists x. split; [easy|].
  unfold o, rolling_sum in E.
  apply (scan_inv (S := rsum A) (fun j s => 0 <= j /\ sum_inv j s)
      (fun j x => (w - 1 <= j -> exists s, x = rsum_value A s /\ sum_inv (j + 1) s) /\ (j < w - 1 -> x = NaN))) in E.
  - rewrite Z.add_0_l in E. destruct E as [E1 E2]. destruct (S i <? Z.to_nat w)%nat eqn:C.
    + apply Nat.ltb_lt in C. apply E2. lia.
    + apply Nat.ltb_ge in C. destruct E1 as (s & -> & Is); [lia|].
      pose proof (window_bars A l w i Hw ltac:(lia) Hi) as W. change (VectModel.F A) with xq in W. rewrite W. now apply rsum_value_spec.
  - split; [lia|]. unfold sum_inv, bars. rewrite !zrange_empty by lia. split; [exists 0%Q, 0%Q; repeat split|repeat split].
  - intros j s Hj [_ Is]. destruct (rsum_step_inv j s ltac:(lia) Is) as (S1 & S2 & S3). split; [split; [lia|easy]|]. split; [|exact S3].
    intros C. rewrite S2 by easy. eexists. split; [reflexivity|easy].
Qed.
End Window.

Lemma xle_true_fin p q : xle (Fin p) (Fin q) = true <-> (p <= q)%Q.
Proof. cbn. apply Qle_bool_iff. Qed.
Lemma xeqb_one x : xeqb x (Fin 1) = true <-> xeq x (Fin 1).
Proof.
  unfold xeqb. rewrite andb_true_iff. destruct x; cbn [xeq]; try (cbn; intuition easy). rewrite !xle_true_fin. split; [intros; lra|intros; lra].
Qed.
Lemma cross_spec (a b : list xq) r i :
  cross A a b = Some r -> (i < length a)%nat ->
  exists x, nth_error r i = Some x /\
    (x = true <-> exists ai bi ap bp k, i = S k /\ nth_error a i = Some ai /\ nth_error b i = Some bi /\
       nth_error a k = Some ap /\ nth_error b k = Some bp /\ xlt bi ai = true /\ xlt bp ap = false).
Proof.
  unfold cross. destruct (_ && _) eqn:Ec; [|easy]. rewrite !andb_true_iff in Ec. destruct Ec as [[[E1 E2] E3] E4].
  match goal with |- context [sumv A ?yy 2] => set (y := yy) end.
  match goal with y := map ?g ?c |- _ => set (cr := c) in y |- * end.
  assert (Lc : length cr = length a) by (unfold cr; rewrite map_length, zrange_length; lia').
  assert (Ly : length y = length a) by (unfold y; now rewrite map_length).
  assert (Lb : length b = length a) by lia'.
  assert (Ey : sumv A y 2 = Some (rolling_sum A y 2)).
  { unfold sumv, rolling, verify_input. destruct y as [|z y'] eqn:Y; [cbn in Ly; lia'|].
    rewrite <- Y in *. replace ((0 <? 2) && (2 <=? len y)) with true; [easy|]. lia'. }
  rewrite Ey. intros [= <-] Hi.
  assert (Nc : forall k, (k < length a)%nat -> nth_error cr k = Some (xlt (rd b (Z.of_nat k)) (rd a (Z.of_nat k)))).
  { intros k Hk. unfold cr, zrange. rewrite nth_error_map, zrange_n_nth by (lia'). reflexivity. }
  assert (Ra : forall k, (k < length a)%nat -> nth_error a k = Some (rd a (Z.of_nat k))).
  { intros k Hk. rewrite <- (Nat2Z.id k) at 1. apply (rd_in A). lia'. }
  assert (Rb : forall k, (k < length a)%nat -> nth_error b k = Some (rd b (Z.of_nat k))).
  { intros k Hk. rewrite <- (Nat2Z.id k) at 1. apply (rd_in A). lia'. }
  destruct (rolling_sum_spec y 2 ltac:(lia') i ltac:(lia')) as (s & Es & Hs).
  unfold zrange. rewrite nth_error_map, zrange_n_nth by (lia'). cbn [option_map]. eexists. split; [reflexivity|].
  replace (0 + Z.of_nat i) with (Z.of_nat i) by lia'. rewrite Nat2Z.id.
  rewrite (rd_eq A (rolling_sum A y 2) (Z.of_nat i) s) by (try lia'; now rewrite Nat2Z.id).
  rewrite (nth_error_nth cr i false (Nc i Hi)). rewrite andb_true_iff.
  change (eqf A s (z_ A 1)) with (xeqb s (Fin 1)). rewrite xeqb_one.
  destruct i as [|k].
  - change (Z.to_nat 2) with 2%nat in Hs. cbn in Hs. rewrite Hs. split; [now intros [? _]|]. intros (? & ? & ? & ? & k & ? & _). lia.
  - change (Z.to_nat 2) with 2%nat in Hs. change (S (S k) <? 2)%nat with false in Hs. cbn iota in Hs.
    unfold window in Hs. replace (S (S k) - 2)%nat with k in Hs by lia'.
    assert (Wy : firstn 2 (skipn k y) = [if xlt (rd b (Z.of_nat k)) (rd a (Z.of_nat k)) then Fin 1 else Fin 0;
                                         if xlt (rd b (Z.of_nat (S k))) (rd a (Z.of_nat (S k))) then Fin 1 else Fin 0]).
    { pose proof (Nc k ltac:(lia')) as N0. pose proof (Nc (S k) ltac:(lia')) as N1.
      apply (map_nth_error (fun c : bool => if c then z_ A 1 else z_ A 0)) in N0, N1. fold y in N0, N1.
      apply nth_error_split in N0 as (p & q & Ep & Lp). rewrite Ep in N1 |- *.
      rewrite nth_error_app2 in N1 by lia'. replace (S k - length p)%nat with 1%nat in N1 by lia'. cbn in N1.
      destruct q as [|z q]; [easy|]. injection N1 as ->. rewrite skipn_app, <- Lp, skipn_all, Nat.sub_diag. cbn.
      now destruct (xlt (rd b (Z.of_nat (length p))) (rd a (Z.of_nat (length p)))), (xlt (rd b (Z.pos (Pos.of_succ_nat (length p)))) (rd a (Z.pos (Pos.of_succ_nat (length p))))). }
    change (VectModel.F A) with xq in *. rewrite Wy in Hs. clear Wy.
    destruct (xlt (rd b (Z.of_nat k)) (rd a (Z.of_nat k))) eqn:X0; destruct (xlt (rd b (Z.of_nat (S k))) (rd a (Z.of_nat (S k)))) eqn:X1.
    + split.
      * intros [H _]. eapply xeq_trans in H; [|apply xeq_sym; exact Hs]. cbn in H. lra.
      * intros (? & ? & ap & bp & k' & [= <-] & _ & _ & H1 & H2 & _ & H4). rewrite Ra in H1 by lia'. rewrite Rb in H2 by lia'. congruence.
    + split; [easy|]. intros (ai & bi & ? & ? & k' & _ & H1 & H2 & _ & _ & H4 & _). rewrite Ra in H1 by lia'. rewrite Rb in H2 by lia'. congruence.
    + split; [|].
      * intros _. exists (rd a (Z.of_nat (S k))), (rd b (Z.of_nat (S k))), (rd a (Z.of_nat k)), (rd b (Z.of_nat k)), k.
        rewrite !Ra, !Rb by lia'. easy.
      * intros _. split; [|easy]. eapply xeq_trans; [exact Hs|]. cbn. lra.
    + split; [easy|]. intros (ai & bi & ? & ? & k' & _ & H1 & H2 & _ & _ & H4 & _). rewrite Ra in H1 by lia'. rewrite Rb in H2 by lia'. congruence.
Qed.
Lemma returnv_spec (a : list xq) n r i :
  returnv A a n = Some r -> (i < length a)%nat ->
  exists x, nth_error r i = Some x /\
    ((i < Z.to_nat n)%nat -> x = NaN) /\
    ((Z.to_nat n <= i)%nat -> forall p q, nth_error a i = Some (Fin p) -> nth_error a (i - Z.to_nat n) = Some (Fin q) ->
       (~ q == 0 -> exists v, x = Fin v /\ v * q == p - q)%Q /\ (q == 0 -> x = NaN)%Q).
Proof.
  unfold returnv. intros H Hi. destruct a as [|z a0] eqn:Ea; [cbn in Hi; lia|]. rewrite <- Ea in *. clear Ea.
  unfold verify_input in H. destruct (_ && _) eqn:Ev; [|easy]. apply andb_true_iff in Ev as [V1 V2]. injection H as <-.
  unfold tab, zrange. rewrite nth_error_map, zrange_n_nth by (lia'). cbn [option_map]. eexists. split; [reflexivity|].
  rewrite Z.add_0_l. split.
  - intros C. replace (Z.of_nat i <? n) with true by lia'. reflexivity.
  - intros C p q Hp Hq. replace (Z.of_nat i <? n) with false by lia'.
    rewrite (rd_eq A a (Z.of_nat i) (Fin p)) by (try lia'; now rewrite Nat2Z.id).
    rewrite (rd_eq A a (Z.of_nat i - n) (Fin q)) by (try lia'; now replace (Z.to_nat (Z.of_nat i - n)) with (i - Z.to_nat n)%nat by lia).
    cbn [eqf exact]. unfold xeqb, z_, num. cbn [exact]. split.
    + intros Hq0. destruct (xle (Fin q) (Fin (inject_Z 0)) && xle (Fin (inject_Z 0)) (Fin q)) eqn:E.
      { exfalso. apply andb_true_iff in E as [X Y]. rewrite xle_true_fin in X, Y. change (inject_Z 0) with 0%Q in *. apply Hq0. lra. }
      cbn [negb div sub exact xsub xneg xadd xdiv]. destruct (Qeq_bool q 0) eqn:E0; [apply Qeq_bool_iff in E0; easy|].
      eexists. split; [reflexivity|]. field. easy.
    + intros Hq0. replace (xle (Fin q) (Fin (inject_Z 0)) && xle (Fin (inject_Z 0)) (Fin q)) with true; [reflexivity|].
      symmetry. apply andb_true_iff. rewrite !xle_true_fin. change (inject_Z 0) with 0%Q. lra.
Qed.
End Sum.
