(** Indicators that leave the range they document. *)
From Coq Require Import List Bool Arith Lia ZArith QArith Qabs Lqa.
From Verif Require Import VectModel VectSpec VectLemmas VectExact VectSum VectBounds VectRanges VectRanges2 VectRanges3.
Import ListNotations.
Open Scope list_scope.
Open Scope Z_scope.

(** A little more of the exponential and the square root. *)
Definition elementary' (ex sq : xq -> xq) (pi : Q) : Prop :=
  elementary ex sq pi /\ (forall q, (q <= - (50))%Q -> exists e, ex (Fin q) = Fin e /\ (0 <= e <= 1 # 50)%Q) /\
  (forall q, (q == 1)%Q -> exists r, sq (Fin q) = Fin r /\ (r == 1)%Q).

Section Refute.
Context (lg ex sq : xq -> xq) (pi : Q) (junk : list xq -> Z -> xq).
Notation A := (exact lg ex sq pi junk).
Notation rd := (rd A).
Ltac z0 := cbn; change (inject_Z 0) with 0%Q; lra.
Ltac lx := change (VectModel.F A) with xq in *; lia.

Ltac unlet E := match type of E with (let x := ?v in @?f x) = ?r => change (f v = r) in E; cbv beta in E end.
Lemma diff_range x y : in_range (-50) 50 x -> in_range (-50) 50 y -> in_range (-100) 100 (sub A x y).
Proof. cbn [sub exact]. destruct x, y; cbn; try easy. intros; lra. Qed.
Lemma delta_obv_range c v lb dl sc : elementary ex sq pi -> all_between (-100) 100 (on_balance_volume A c v lb dl sc Delta).
Proof.
  intros El r E. unfold on_balance_volume in E. change (VectModel.F A) with xq in *. destruct (_ && _) eqn:G in E; [|discriminate].
  apply andb_true_iff in G. destruct G as [G G4]. apply andb_true_iff in G. destruct G as [G _]. apply andb_true_iff in G. destruct G as [G G3]. apply andb_true_iff in G. destruct G as [G1 G2]. apply Z.ltb_lt in G2, G4. apply Z.leb_le in G3.
  unfold same_len in G1. cbn [forallb] in G1. rewrite !andb_true_iff, !Z.eqb_eq in G1. apply some_inj in E. subst r.
  set (d := if dl <? 1 then 1 else dl). assert (Hd : 1 <= d) by (unfold d; destruct (Z.ltb_spec dl 1); lia). clearbody d.
  set (n := len c) in *. assert (Hfv : 0 <= first_volume A v) by (apply first_volume_nn; lx).
  set (f0 := Z.min (lb + first_volume A v) n). set (f1 := Z.min (f0 + d) n).
  match goal with |- context [fold_left _ _ (tab_from A f0 n ?g)] => set (o0 := tab_from A f0 n g); assert (R0 : Forall (in_range (-50) 50) o0) end.
  { apply tab_from_forall; [z0|]. intros i _ _. apply (obv_bar_range lg ex sq pi junk El). }
  assert (L0 : len o0 = n) by (unfold o0; rewrite len_tab_from; lx).
  apply tab_from_forall; [cbn; lra|]. intros i Hi Ha.
  destruct (down_loop A (fun out i => sub A (rd out i) (rd out (i - d))) f1 n o0) as [_ D]; [lx|lx| |].
  - intros m m' k Hk Lm Lm' Hm. f_equal; apply Hm; lx.
  - match goal with |- in_range _ _ ?x => assert (Ex : x = sub A (rd o0 i) (rd o0 (i - d))) end.
    { transitivity (if i <? f1 then rd o0 i else sub A (rd o0 i) (rd o0 (i - d))); [apply D; lx|]. replace (i <? f1) with false by (symmetry; apply Z.ltb_ge; lia). reflexivity. }
    rewrite Ex. apply diff_range; apply (rd_forall lg ex sq pi junk _ o0); try easy; lx.
Qed.
Lemma macd_range_100 h l c sl ll sm sc : elementary ex sq pi -> all_between (-100) 100 (macd A h l c sl ll sm sc).
Proof.
  intros El r E. cbv beta delta [macd] in E. destruct (_ && _) eqn:G in E; [|discriminate].
  do 3 unlet E.
  match type of E with (let output := ?o in _) = _ => assert (R0 : Forall (in_range (-50) 50) o); [|assert (L0 : 0 < len o)] end.
  { constructor; [z0|]. apply scan_forall. intros i [a b]. apply (squash_range lg ex sq pi junk El). }
  { unfold len. cbn [length]. lia. }
  revert R0 L0 E. match goal with |- Forall _ ?v -> _ => generalize v end. intros o R0 L0 E. cbv zeta in E.
  destruct (lt A (z_ A 1) sm) eqn:S; apply some_inj in E; subst r.
  2: { eapply Forall_impl; [|exact R0]. intros x Hx. apply (range_weak (-50) 50); [easy|lra|lra]. }
  destruct (alpha_range lg ex sq pi junk sm S) as (q & -> & Hq).
  unfold smooth. apply Forall_app. split.
  - apply Forall_forall. intros x Hx. rewrite Forall_forall in R0. apply (range_weak (-50) 50); [|lra|lra]. apply R0.
    rewrite <- (firstn_skipn (Z.to_nat (0 + 1)) o). apply in_or_app. now left.
  - match goal with |- Forall _ (snd (scan ?f ?s0 ?l)) => pose proof (scan_both (S := xq) (T := xq) (in_range (-50) 50) (in_range (-100) 100) f l) as K end.
    refine (proj2 (K _ _ _)); [|apply rd_forall; [easy|lx]].
    intros i s Hi Hs. apply zrange_in in Hi. pose proof (rd_forall lg ex sq pi junk _ o i R0 ltac:(lx)) as X.
    pose proof (blend_range lg ex sq pi junk (-50) 50 q (rd o i) s Hq X Hs) as B. cbn [fst snd]. split; [exact B|]. now apply diff_range.
Qed.

Hypothesis El : elementary' ex sq pi.
Lemma far_high q : (10 <= q)%Q -> exists w, squash A (Fin q) = Fin w /\ (48 <= w <= 50)%Q.
Proof.
  intros Hq. destruct El as (E1 & E2 & _). assert (P : (Qabs q == q)%Q) by (apply Qabs_pos; lra).
  destruct (E2 (- (1 # 2) * Qabs q * Qabs q)%Q) as (e & Ee & He); [rewrite !P; nra|]. apply (squash_high lg ex sq pi junk E1 q e Ee He). lra.
Qed.
Lemma far_low q : (q <= - (10))%Q -> exists w, squash A (Fin q) = Fin w /\ (- (50) <= w <= - (48))%Q.
Proof.
  intros Hq. destruct El as (E1 & E2 & _). assert (P : (Qabs q == - q)%Q) by (apply Qabs_neg; lra).
  destruct (E2 (- (1 # 2) * Qabs q * Qabs q)%Q) as (e & Ee & He); [rewrite !P; nra|]. apply (squash_low lg ex sq pi junk E1 q e Ee He). lra.
Qed.
Lemma delta_obv_leaves : exists r q,
  on_balance_volume A [Fin 2; Fin 1; Fin 2] [Fin 1; Fin 1; Fin 1] 1 1 (Fin 10) Delta = Some r /\ nth_error r 2 = Some (Fin q) /\ (50 < q)%Q.
Proof.
  destruct El as (_ & _ & E3). destruct (E3 1%Q ltac:(lra)) as (r & Er & Hr).
  destruct (far_low (10 * (((0 + - (1)) / (0 + 1)) * r))) as (w1 & W1 & H1).
  { assert (K : ((0 + - (1)) / (0 + 1) == - (1))%Q) by reflexivity. rewrite K. lra. }
  destruct (far_high (10 * (((0 + 1) / (0 + 1)) * r))) as (w2 & W2 & H2).
  { assert (K : ((0 + 1) / (0 + 1) == 1)%Q) by reflexivity. rewrite K. lra. }
  assert (E : on_balance_volume A [Fin 2; Fin 1; Fin 2] [Fin 1; Fin 1; Fin 1] 1 1 (Fin 10) Delta
      = Some [Fin 0; Fin 0; xsub (squash A (xmul (Fin 10) (xmul (Fin ((0 + 1) / (0 + 1))) (sq (Fin 1))))) (squash A (xmul (Fin 10) (xmul (Fin ((0 + - (1)) / (0 + 1))) (sq (Fin 1)))))]).
  { reflexivity. }
  rewrite E, Er. cbn [xmul]. rewrite W1, W2. eexists _, (w2 + - w1)%Q. split; [reflexivity|]. split; [reflexivity|]. lra.
Qed.
Lemma macd_leaves : exists r q,
  macd A [Fin 10; Fin 9; Fin 8; Fin 20] [Fin 10; Fin 9; Fin 8; Fin 20] [Fin 10; Fin 9; Fin 8; Fin 20] 1 3 (Fin 9) (Fin 1000) = Some r /\
  nth_error r 3 = Some (Fin q) /\ (50 < q)%Q.
Proof.
  destruct El as (_ & _ & E3).
  set (d := Qabs ((1 # 2) * (3 + - (1)) + - ((1 # 2) * (1 + - (1))))).
  destruct (E3 d ltac:(reflexivity)) as (r & Er & Hr).
  set (la := (2 / (3 + 1))%Q). set (sa := (2 / (1 + 1))%Q).
  set (l1 := (la * 9 + (1 + - la) * 10)%Q). set (s1 := (sa * 9 + (1 + - sa) * 10)%Q).
  set (l2 := (la * 8 + (1 + - la) * l1)%Q). set (s2 := (sa * 8 + (1 + - sa) * s1)%Q).
  set (l3 := (la * 20 + (1 + - la) * l2)%Q). set (s3 := (sa * 20 + (1 + - sa) * s2)%Q).
  set (t1 := ((0 + (10 + - (9))) / 1)%Q). set (t2 := ((0 + (10 + - (9)) + (9 + - (8))) / 2)%Q). set (t3 := ((0 + (10 + - (9)) + (9 + - (8)) + (20 + - (8))) / 3)%Q).
  set (X := fun n t => xmul (Fin 1000) (xdiv (Fin n) (xadd (xmul (sq (Fin d)) (Fin t)) (Fin (1 # 10 ^ 15))))).
  assert (E : macd A [Fin 10; Fin 9; Fin 8; Fin 20] [Fin 10; Fin 9; Fin 8; Fin 20] [Fin 10; Fin 9; Fin 8; Fin 20] 1 3 (Fin 9) (Fin 1000)
    = Some (smooth A 0 (Fin (2 / (9 + 1))) (fun x s => xsub x s) [Fin 0; squash A (X (s1 + - l1)%Q t1); squash A (X (s2 + - l2)%Q t2); squash A (X (s3 + - l3)%Q t3)])).
  { reflexivity. }
  assert (HX : forall n t, (1 <= t <= 5)%Q -> exists x, X n t = Fin x /\ (x * (r * t + (1 # 10 ^ 15)) == 1000 * n)%Q).
  { intros n t Ht. unfold X. rewrite Er. cbn [xmul xadd xdiv]. destruct (Qeq_bool (r * t + (1 # 10 ^ 15)) 0) eqn:Z0.
    - apply Qeq_bool_iff in Z0. rewrite Hr in Z0. assert (0 < 1 # 10 ^ 15)%Q by reflexivity. lra.
    - eexists. split; [reflexivity|]. field. intros Z1. apply Qeq_bool_iff in Z1. congruence. }
  assert (Q1 : (t1 == 1)%Q) by reflexivity. assert (Q2 : (t2 == 1)%Q) by reflexivity. assert (Q3 : (t3 == 14 # 3)%Q) by reflexivity.
  assert (N1 : (s1 + - l1 == - (1 # 2))%Q) by reflexivity. assert (N2 : (s2 + - l2 == - (3 # 4))%Q) by reflexivity. assert (N3 : (s3 + - l3 == 45 # 8)%Q) by reflexivity.
  assert (K : (0 < 1 # 10 ^ 15 < 1)%Q) by (split; reflexivity).
  destruct (HX (s1 + - l1)%Q t1) as (x1 & X1 & Y1); [lra|]. destruct (HX (s2 + - l2)%Q t2) as (x2 & X2 & Y2); [lra|]. destruct (HX (s3 + - l3)%Q t3) as (x3 & X3 & Y3); [lra|].
  rewrite Hr, N1, Q1 in Y1. rewrite Hr, N2, Q2 in Y2. rewrite Hr, N3, Q3 in Y3.
  destruct (far_low x1) as (w1 & W1 & B1); [nra|]. destruct (far_low x2) as (w2 & W2 & B2); [nra|]. destruct (far_high x3) as (w3 & W3 & B3); [nra|].
  rewrite E, X1, X2, X3, W1, W2, W3.
  eexists _, (w3 + - ((2 / (9 + 1)) * w3 + (1 + - (2 / (9 + 1))) * ((2 / (9 + 1)) * w2 + (1 + - (2 / (9 + 1))) * ((2 / (9 + 1)) * w1 + (1 + - (2 / (9 + 1))) * 0))))%Q.
  split; [reflexivity|]. split; [reflexivity|]. assert (A1 : (2 / (9 + 1) == 1 # 5)%Q) by reflexivity. rewrite A1. lra.
Qed.
End Refute.
