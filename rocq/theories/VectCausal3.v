(** Causality of the remaining indicators. *)
From Coq Require Import List Bool Arith Lia ZArith QArith.
From Verif Require Import VectModel VectSpec VectLemmas VectCausal VectCausal2.
Import ListNotations.
Open Scope list_scope.
Open Scope Z_scope.

Section Any.
Context (A : arith).
Notation F := (F A).
Notation rd := (rd A).
Notation upto := (upto A).

Ltac conds :=
  repeat match goal with
  | H : agree _ _ _ |- _ => apply (agree_upto A) in H
  end;
  repeat match goal with
  | |- same_at _ (if ?b then _ else None) _ => let E := fresh "E" in destruct b eqn:E; [|apply same_none]
  | |- same_at _ _ (if ?b then _ else None) => let E := fresh "E" in destruct b eqn:E; [|apply same_none']
  end;
  repeat match goal with
  | H : _ && _ = true |- _ => apply andb_true_iff in H; destruct H
  end.
Ltac lens :=
  repeat match goal with
  | H : upto ?i ?l ?l' |- _ =>
      lazymatch goal with
      | _ : 0 <= i < len l /\ i < len l' |- _ => fail
      | _ => pose proof (upto_len _ _ _ _ H)
      end
  end.
Ltac front := let k := fresh "k" in let Hk := fresh in intros k Hk; apply eq_true_iff_eq; rewrite !Z.ltb_lt; lia.


(** A value before the scan, one per bar after it. *)
Lemma upto_cons i (x : F) l l' : (forall k, 1 <= k <= i -> upto (k - 1) l l') -> 0 <= i <= len l -> i <= len l' -> upto i (x :: l) (x :: l').
Proof.
  intros H Hi Hi'. unfold upto.
  assert (L : forall m : list F, len (x :: m) = 1 + len m) by (intros; unfold len; cbn [length]; lia).
  rewrite !L. split; [lia|]. split; [lia|]. intros k Hk.
  change (x :: l) with ([x] ++ l). change (x :: l') with ([x] ++ l').
  rewrite !rd_app by (change (len [x]) with 1; lia). change (len [x]) with 1. destruct (k <? 1) eqn:E; [easy|].
  specialize (H k). apply H; lia.
Qed.
Lemma upto_scan {S} i a n n' (f f' : Z -> S -> S * F) s s' :
  a <= i < n -> i < n' -> s = s' -> (forall j t, a <= j <= i -> f j t = f' j t) ->
  upto (i - a) (snd (scan f s (zrange a n))) (snd (scan f' s' (zrange a n'))).
Proof.
  intros H H' Es E. unfold upto. rewrite !len_scan by lia. split; [lia|]. split; [lia|]. intros k Hk.
  replace k with (k + a - a) by lia. apply rd_scan; try lia; [easy|]. intros. apply E. lia.
Qed.
Lemma macd_causal i h h' l l' c c' s n sm sc :
  agree i h h' -> agree i l l' -> agree i c c' -> 0 <= fint A (add A (z_ A n) sm) ->
  same_at i (macd A h l c s n sm sc) (macd A h' l' c' s n sm sc).
Proof.
  intros Hh Hl Hc Hint. unfold macd. conds. lens. cbv zeta.
  match goal with |- same_at _ (if _ then Some (smooth _ _ _ _ ?x) else _) (if _ then Some (smooth _ _ _ _ ?y) else _) =>
    assert (U : upto (Z.of_nat i) x y) end.
  { apply upto_cons.
    - intros k Hk. apply upto_scan; [lia|lia|f_equal; apply Hc; lia|]. intros j [t u] Hj.
      assert (Ea : forall g, 0 <= (if j <? g then j else g) \/ g < 0) by (intros g; destruct (j <? g) eqn:E; lia).
      set (g := fint A (add A (z_ A n) sm)). specialize (Ea g).
      assert (Eb : 0 <= g) by exact Hint.
      rewrite (atr_at_same A (Z.of_nat i) j (if j <? g then j else g) h h' l l' c c' false Hh Hl Hc); [|destruct (j <? g) eqn:E9; lia|lia].
      set (at' := atr_at A j _ h' l' c' false). clearbody at'.
      destruct Hc as (_ & _ & Hc). rewrite (Hc j) by lia. reflexivity.
    - rewrite len_scan. lia.
    - rewrite len_scan. lia. }
  destruct (lt A (z_ A 1) sm); apply upto_same; [|easy]. pose proof (upto_len _ _ _ _ U). apply smooth_upto; [lia|lia|easy].
Qed.
Lemma stochastic_causal i h h' l l' c c' lb sm :
  agree i h h' -> agree i l l' -> agree i c c' -> same_at i (stochastic A h l c lb sm) (stochastic A h' l' c' lb sm).
Proof.
  intros Hh Hl Hc. unfold stochastic. conds. lens. cbv zeta.
  assert (Lh : len h = len c /\ len l = len c) by (cbn in *; lia).
  assert (Lh' : len h' = len c' /\ len l' = len c') by (cbn in *; lia).
  assert (R : forall f (x : list F), lb <= len x -> 0 < len x -> rolling A f x lb = Some (f x lb)).
  { intros f x ? ?. unfold rolling, verify_input. destruct x; [unfold len in *; cbn in *; lia|].
    now replace ((0 <? lb) && (lb <=? len (f0 :: x))) with true by lia. }
  destruct (len c <? lb) eqn:E1, (len c' <? lb) eqn:E2.
  - apply upto_same. apply upto_full; lia.
  - unfold lowv, highv. rewrite !R by lia. apply upto_same. split; [unfold zeros; rewrite len_full; lia|].
    split; [unfold zeros; rewrite len_app, len_full, len_scan; lia|]. intros k Hk. unfold zeros.
    rewrite rd_full by lia. rewrite rd_app by (rewrite len_full, len_scan; lia). rewrite len_full by lia.
    replace (k <? lb - 1) with true by lia. now rewrite rd_full by lia.
  - unfold lowv, highv. rewrite !R by lia. apply upto_same. split; [unfold zeros; rewrite len_app, len_full, len_scan; lia|].
    split; [unfold zeros; rewrite len_full; lia|]. intros k Hk. unfold zeros.
    rewrite (rd_full A (len c')) by lia. rewrite rd_app by (rewrite len_full, len_scan; lia). rewrite len_full by lia.
    replace (k <? lb - 1) with true by lia. now rewrite rd_full by lia.
  - unfold lowv, highv. rewrite !R by lia. apply upto_same.
    assert (U1 : upto (Z.of_nat i) (rolling_min A l lb) (rolling_min A l' lb)) by (apply ext_upto; [lia|easy]).
    assert (U2 : upto (Z.of_nat i) (rolling_max A h lb) (rolling_max A h' lb)) by (apply ext_upto; [lia|easy]).
    set (mn := rolling_min A l lb) in *. set (mn' := rolling_min A l' lb) in *. set (mx := rolling_max A h lb) in *. set (mx' := rolling_max A h' lb) in *.
    clearbody mn mn' mx mx'. clear R.
    apply upto_full_scan; try lia; [easy|]. intros j [t u] Hj.
    destruct U1 as (_ & _ & U1). destruct U2 as (_ & _ & U2). destruct Hc as (_ & _ & Hc).
    now rewrite (U1 j), (U2 j), (Hc j) by lia.
Qed.

Lemma trend_causal i v v' h h' l l' c c' lb al sc ty :
  agree i v v' -> agree i h h' -> agree i l l' -> agree i c c' ->
  same_at i (trend A v h l c lb al sc ty) (trend A v' h' l' c' lb al sc ty).
Proof.
  intros Hv Hh Hl Hc. unfold trend. conds. lens. cbv zeta.
  set (lb' := match ty with Linear => _ | _ => _ end). assert (0 < lb') by (unfold lb'; destruct ty; lia). clearbody lb'.
  set (d := match ty with Linear => legendre_1 A _ | _ => _ end). clearbody d.
  apply upto_same. apply upto_tab_from; [lia|lia|destruct (al <? lb' - 1) eqn:E9; front|]. intros k Hk Hf.
  assert (al <= k /\ lb' - 1 <= k) by (destruct (al <? lb' - 1) eqn:E9; lia). clear Hf.
  rewrite (atr_at_same A (Z.of_nat i) k al h h' l l' c c' true Hh Hl Hc) by lia. same.
Qed.
Lemma deviation_causal i v v' lb sc ty : agree i v v' -> same_at i (deviation A v lb sc ty) (deviation A v' lb sc ty).
Proof.
  intros Hv. unfold deviation. conds. lens. cbv zeta.
  set (lb' := match ty with Linear => _ | _ => _ end). assert (0 < lb') by (unfold lb'; destruct ty; lia). clearbody lb'.
  set (w1 := legendre_1 A lb'). set (w2 := legendre_2 A lb'). set (w3 := legendre_3 A lb'). clearbody w1 w2 w3.
  apply upto_same. apply upto_tab_from; [lia|lia|front|]. intros k Hk Hf. destruct ty; same.
Qed.
Lemma dm_same i k h h' l l' c c' : upto i h h' -> upto i l l' -> upto i c c' -> 1 <= k <= i -> dm A h l c k = dm A h' l' c' k.
Proof. intros Hh Hl Hc Hk. unfold dm. same. Qed.
(** [adx] gives up on short series, so the two series must be on the same side of
    [2 * lookback]. *)
Lemma adx_causal i h h' l l' c c' lb :
  agree i h h' -> agree i l l' -> agree i c c' -> (2 * lb <= len c <-> 2 * lb <= len c') ->
  same_at i (adx A h l c lb) (adx A h' l' c' lb).
Proof.
  intros Hh Hl Hc Hn. unfold adx. conds. lens. cbv zeta.
  destruct (len c <? 2 * lb) eqn:E1, (len c' <? 2 * lb) eqn:E2; try lia.
  - apply upto_same. apply upto_full; lia.
  - set (s0 := (z_ A 0, z_ A 0, z_ A 0, nan A)).
    pose proof (fun k => dm_same (Z.of_nat i) k h h' l l' c c' Hh Hl Hc) as D.
    assert (U1 : forall f f' : Z -> F * F * F * F -> (F * F * F * F) * F, f = adx_1 A h l c -> f' = adx_1 A h' l' c' ->
                 forall j t, 1 <= j <= Z.of_nat i -> f j t = f' j t).
    { intros f f' -> -> j [[[p m] a] x] Hj. unfold adx_1. now rewrite D by lia. }
    assert (U2 : forall f f' : Z -> F * F * F * F -> (F * F * F * F) * F, f = adx_2 A h l c lb -> f' = adx_2 A h' l' c' lb ->
                 forall j t, 1 <= j <= Z.of_nat i -> f j t = f' j t).
    { intros f f' -> -> j [[[p m] a] x] Hj. unfold adx_2. now rewrite D by lia. }
    assert (U3 : forall f f' : Z -> F * F * F * F -> (F * F * F * F) * F, f = adx_3 A h l c lb -> f' = adx_3 A h' l' c' lb ->
                 forall j t, 1 <= j <= Z.of_nat i -> f j t = f' j t).
    { intros f f' -> -> j [[[p m] a] x] Hj. unfold adx_3. now rewrite D by lia. }
    specialize (U1 _ _ eq_refl eq_refl). specialize (U2 _ _ eq_refl eq_refl). specialize (U3 _ _ eq_refl eq_refl).
    assert (X1 : lb <= Z.of_nat i -> scan (adx_1 A h l c) s0 (zrange 1 (lb + 1)) = scan (adx_1 A h' l' c') s0 (zrange 1 (lb + 1))).
    { intros. apply scan_ext. intros j t Hj. apply zrange_in in Hj. apply U1. lia. }
    assert (X2 : forall s, 2 * lb - 1 <= Z.of_nat i -> scan (adx_2 A h l c lb) s (zrange (lb + 1) (2 * lb)) = scan (adx_2 A h' l' c' lb) s (zrange (lb + 1) (2 * lb))).
    { intros. apply scan_ext. intros j t Hj. apply zrange_in in Hj. apply U2. lia. }
    assert (V1 : forall k, 1 <= k <= lb -> k <= Z.of_nat i ->
       rd (snd (scan (adx_1 A h l c) s0 (zrange 1 (lb + 1)))) (k - 1) = rd (snd (scan (adx_1 A h' l' c') s0 (zrange 1 (lb + 1)))) (k - 1)).
    { intros k Hk Hk'. apply rd_scan; try lia; [easy|]. intros. apply U1. lia. }
    assert (V2 : forall s k, lb + 1 <= k < 2 * lb -> k <= Z.of_nat i ->
       rd (snd (scan (adx_2 A h l c lb) s (zrange (lb + 1) (2 * lb)))) (k - (lb + 1)) = rd (snd (scan (adx_2 A h' l' c' lb) s (zrange (lb + 1) (2 * lb)))) (k - (lb + 1))).
    { intros s k Hk Hk'. apply rd_scan; try lia; [easy|]. intros. apply U2. lia. }
    assert (V3 : forall s k, 2 * lb <= k -> k <= Z.of_nat i ->
       rd (snd (scan (adx_3 A h l c lb) s (zrange (2 * lb) (len c)))) (k - 2 * lb) = rd (snd (scan (adx_3 A h' l' c' lb) s (zrange (2 * lb) (len c')))) (k - 2 * lb)).
    { intros s k Hk Hk'. apply rd_scan; try lia; [easy|]. intros. apply U3. lia. }
    pose proof (len_scan (adx_1 A h l c) s0 1 (lb + 1)) as L1. pose proof (len_scan (adx_1 A h' l' c') s0 1 (lb + 1)) as L1'.
    destruct (scan (adx_1 A h l c) s0 (zrange 1 (lb + 1))) as [s1 o1].
    destruct (scan (adx_1 A h' l' c') s0 (zrange 1 (lb + 1))) as [s1' o1']. cbn [snd] in *.
    specialize (V2 s1). specialize (X2 s1).
    pose proof (len_scan (adx_2 A h l c lb) s1 (lb + 1) (2 * lb)) as L2. pose proof (len_scan (adx_2 A h' l' c' lb) s1' (lb + 1) (2 * lb)) as L2'.
    assert (V2' : forall k, lb + 1 <= k < 2 * lb -> k <= Z.of_nat i ->
       rd (snd (scan (adx_2 A h l c lb) s1 (zrange (lb + 1) (2 * lb)))) (k - (lb + 1)) = rd (snd (scan (adx_2 A h' l' c' lb) s1' (zrange (lb + 1) (2 * lb)))) (k - (lb + 1))).
    { intros k Hk Hk'. lapply X1; [|lia]. intros [= <- <-]. now apply V2. }
    assert (X2' : 2 * lb - 1 <= Z.of_nat i -> scan (adx_2 A h l c lb) s1 (zrange (lb + 1) (2 * lb)) = scan (adx_2 A h' l' c' lb) s1' (zrange (lb + 1) (2 * lb))).
    { intros H'. lapply X1; [|lia]. intros [= <- <-]. now apply X2. }
    clear V2 X2.
    destruct (scan (adx_2 A h l c lb) s1 (zrange (lb + 1) (2 * lb))) as [s2 o2].
    destruct (scan (adx_2 A h' l' c' lb) s1' (zrange (lb + 1) (2 * lb))) as [s2' o2']. cbn [snd] in *.
    destruct s2 as [[[p m] a] x]. destruct s2' as [[[p' m'] a'] x'].
    pose proof (len_scan (adx_3 A h l c lb) (p, m, a, div A x (z_ A lb)) (2 * lb) (len c)) as L3.
    pose proof (len_scan (adx_3 A h' l' c' lb) (p', m', a', div A x' (z_ A lb)) (2 * lb) (len c')) as L3'.
    assert (V3' : forall k, 2 * lb <= k -> k <= Z.of_nat i ->
       rd (snd (scan (adx_3 A h l c lb) (p, m, a, div A x (z_ A lb)) (zrange (2 * lb) (len c)))) (k - 2 * lb) =
       rd (snd (scan (adx_3 A h' l' c' lb) (p', m', a', div A x' (z_ A lb)) (zrange (2 * lb) (len c')))) (k - 2 * lb)).
    { intros k Hk Hk'. lapply X2'; [|lia]. intros [= -> -> -> ->]. now apply V3. }
    clear V3.
    destruct (scan (adx_3 A h l c lb) (p, m, a, div A x (z_ A lb)) (zrange (2 * lb) (len c))) as [s3 o3].
    destruct (scan (adx_3 A h' l' c' lb) (p', m', a', div A x' (z_ A lb)) (zrange (2 * lb) (len c'))) as [s3' o3']. cbn [snd] in *.
    apply upto_same. apply upto_cons; [|rewrite !len_app; lia|rewrite !len_app; lia].
    intros k Hk. unfold upto. rewrite !len_app. split; [lia|]. split; [lia|]. intros q Hq.
    rewrite (rd_app A o1), (rd_app A o1') by (rewrite ?len_app; lia). rewrite L1, L1'.
    destruct (q <? Z.max 0 (lb + 1 - 1)) eqn:Q1.
    { replace q with (q + 1 - 1) by lia. apply V1; lia. }
    rewrite (rd_app A o2), (rd_app A o2') by lia. rewrite L2, L2'.
    destruct (q - Z.max 0 (lb + 1 - 1) <? Z.max 0 (2 * lb - (lb + 1))) eqn:Q2.
    { replace (q - Z.max 0 (lb + 1 - 1)) with (q + 1 - (lb + 1)) by lia. apply V2'; lia. }
    replace (q - Z.max 0 (lb + 1 - 1) - Z.max 0 (2 * lb - (lb + 1))) with (q + 1 - 2 * lb) by lia. apply V3'; lia.
Qed.
Lemma extreme_scan_same i better (l l' : list F) (H : upto i l l') : forall steps j x best, j <= i ->
  extreme_scan A l better j steps x best = extreme_scan A l' better j steps x best.
Proof.
  induction steps as [|n IH]; intros j x best Hj; [easy|]. cbn. destruct (j <? 0) eqn:E; [easy|].
  destruct H as (_ & _ & H). rewrite (H j) by lia. destruct (better _ x); apply IH; lia.
Qed.
Lemma aroon_causal i h h' l l' lb ty : agree i h h' -> agree i l l' -> same_at i (aroon A h l lb ty) (aroon A h' l' lb ty).
Proof.
  intros Hh Hl. unfold aroon. conds. lens. cbv zeta. apply upto_same. apply upto_tab; [lia|lia|]. intros k Hk.
  destruct (k =? 0) eqn:E9; [easy|].
  rewrite (extreme_scan_same _ _ _ _ Hh) by lia. rewrite (extreme_scan_same _ _ _ _ Hl) by lia.
  destruct Hh as (_ & _ & Hh). destruct Hl as (_ & _ & Hl). rewrite (Hh k), (Hl k) by lia. reflexivity.
Qed.
Lemma close_minus_ma_causal i h h' l l' c c' lb al sc :
  agree i h h' -> agree i l l' -> agree i c c' -> same_at i (close_minus_ma A h l c lb al sc) (close_minus_ma A h' l' c' lb al sc).
Proof.
  intros Hh Hl Hc. unfold close_minus_ma. conds. lens. cbv zeta. apply upto_same.
  apply upto_tab_from; [lia|lia|front|]. intros k Hk Hf.
  rewrite (atr_at_same A (Z.of_nat i) k al h h' l l' c c' true Hh Hl Hc) by lia. same.
Qed.
Lemma upto_map i g (l l' : list F) : upto i l l' -> upto i (map g l) (map g l').
Proof.
  intros H. lens. unfold upto. assert (L : forall m : list F, len (map g m) = len m) by (intros; unfold len; now rewrite map_length).
  rewrite !L. split; [lia|]. split; [lia|]. intros k Hk. apply rd_eq; [|lia].
  rewrite nth_error_map. rewrite rd_in by lia. cbn. f_equal. symmetry. apply rd_eq; [|lia]. rewrite nth_error_map, rd_in by lia. cbn.
  do 2 f_equal. symmetry. apply H. lia.
Qed.
Lemma price_intensity_causal i o o' h h' l l' c c' sm sc :
  agree i o o' -> agree i h h' -> agree i l l' -> agree i c c' ->
  same_at i (price_intensity A o h l c sm sc) (price_intensity A o' h' l' c' sm sc).
Proof.
  intros Ho Hh Hl Hc. unfold price_intensity. conds. lens. cbv zeta. apply upto_same. apply upto_map.
  match goal with |- upto _ (if _ then smooth _ _ _ _ ?x else _) (if _ then smooth _ _ _ _ ?y else _) =>
    assert (U : upto (Z.of_nat i) x y) end.
  { apply upto_tab; [lia|lia|]. intros k Hk. destruct (k =? 0) eqn:E9; same. }
  match goal with |- upto _ (if ?b then _ else _) _ => destruct b end; [|exact U].
  pose proof (upto_len _ _ _ _ U). apply smooth_upto; [lia|lia|exact U].
Qed.
Lemma price_change_oscillator_causal i h h' l l' c c' s m sc :
  agree i h h' -> agree i l l' -> agree i c c' ->
  same_at i (price_change_oscillator A h l c s m sc) (price_change_oscillator A h' l' c' s m sc).
Proof.
  intros Hh Hl Hc. unfold price_change_oscillator. conds. lens. cbv zeta. apply upto_same.
  set (mm := if m <? 2 then 2 else m). assert (2 <= mm) by (unfold mm; destruct (m <? 2) eqn:E9; lia). clearbody mm.
  apply upto_tab_from; [lia|lia|front|]. intros k Hk Hf.
  assert (s * 2 <= s * mm) by nia.
  rewrite (atr_at_same A (Z.of_nat i) k (s * mm) h h' l l' c c' true Hh Hl Hc) by lia.
  set (at' := atr_at A _ _ _ _ _ _). clearbody at'. clear Hh Hl.
  match goal with |- (if ?p then _ else _) = _ => destruct p; [|easy] end.
  assert (Ei : forall j, k - s * mm + 1 <= j <= k -> flog A (div A (rd c j) (rd c (j - 1))) = flog A (div A (rd c' j) (rd c' (j - 1)))) by (intros; same).
  set (LL := s * mm) in *. clearbody LL.
  set (f := fun j t => add A t (fabs A (flog A (div A (rd c j) (rd c (j - 1)))))).
  set (f' := fun j t => add A t (fabs A (flog A (div A (rd c' j) (rd c' (j - 1)))))).
  assert (Ef : forall j t, k - LL + 1 <= j <= k -> f j t = f' j t) by (intros; unfold f, f'; now rewrite Ei by lia).
  assert (E1 : floop (k - s + 1) (k + 1) f (z_ A 0) = floop (k - s + 1) (k + 1) f' (z_ A 0)) by (apply floop_ext; intros; apply Ef; lia).
  rewrite E1.
  assert (E2 : forall x, floop (k - LL + 1) (k - s + 1) f x = floop (k - LL + 1) (k - s + 1) f' x) by (intros; apply floop_ext; intros; apply Ef; lia).
  now rewrite E2.
Qed.
End Any.
