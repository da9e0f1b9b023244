(** Causality of the remaining indicators. *)
From Coq Require Import List Bool Arith Lia ZArith QArith.
From Verif Require Import VectModel VectSpec VectLemmas VectCausal VectCausal2 VectCausal3.
Import ListNotations.
Open Scope list_scope.
Open Scope Z_scope.

Section Any.
Context (A : arith).
Notation F := (F A).
Notation rd := (rd A).
Notation upto := (upto A).

Ltac conds :=
  repeat match goal with
  | H : agree _ _ _ |- _ => apply (agree_upto A) in H
  end;
  repeat match goal with
  | |- same_at _ (if ?b then _ else None) _ => let E := fresh "E" in destruct b eqn:E; [|apply same_none]
  | |- same_at _ _ (if ?b then _ else None) => let E := fresh "E" in destruct b eqn:E; [|apply same_none']
  end;
  repeat match goal with
  | H : _ && _ = true |- _ => apply andb_true_iff in H; destruct H
  end.
Ltac lens :=
  repeat match goal with
  | H : upto ?i ?l ?l' |- _ =>
      lazymatch goal with
      | _ : 0 <= i < len l /\ i < len l' |- _ => fail
      | _ => pose proof (upto_len _ _ _ _ H)
      end
  end.
Ltac front := let k := fresh "k" in let Hk := fresh in intros k Hk; apply eq_true_iff_eq; rewrite !Z.ltb_lt; lia.



(** The first bar with volume: the same for both series if it is not after bar [i];
    otherwise neither series has volume up to bar [i]. *)
Lemma first_positive_spec (l : list F) : forall k,
  (exists m, k <= m < k + len l /\ first_positive A l k = m /\ lt A (z_ A 0) (rd l (m - k)) = true /\
             forall j, k <= j < m -> lt A (z_ A 0) (rd l (j - k)) = false) \/
  (first_positive A l k = k + len l - 1 /\ forall j, k <= j < k + len l -> lt A (z_ A 0) (rd l (j - k)) = false).
Proof.
  induction l as [|v l IH]; intros k; cbn [first_positive]; [right; split; [unfold len; cbn; lia|unfold len; cbn; lia]|].
  assert (L : len (v :: l) = 1 + len l) by (unfold len; cbn [length]; lia).
  pose proof (len_nonneg l) as Ll.
  assert (R0 : rd (v :: l) 0 = v) by (apply rd_eq; [easy|lia]).
  assert (R : forall j, 1 <= j < 1 + len l -> rd (v :: l) j = rd l (j - 1)).
  { intros j Hj. change (v :: l) with ([v] ++ l). rewrite rd_app by (change (len [v]) with 1; lia). change (len [v]) with 1.
    now replace (j <? 1) with false by lia. }
  rewrite L. destruct (lt A (z_ A 0) v) eqn:E.
  - left. exists k. split; [lia|]. split; [easy|]. replace (k - k) with 0 by lia. rewrite R0. split; [easy|lia].
  - destruct (IH (k + 1)) as [(m & H1 & H2 & H3 & H4)|[H1 H2]].
    + left. exists m. split; [lia|]. split; [easy|]. split; [rewrite R by lia; now replace (m - k - 1) with (m - (k + 1)) by lia|].
      intros j Hj. destruct (Z.eq_dec j k) as [->|]; [replace (k - k) with 0 by lia; now rewrite R0|].
      rewrite R by lia. replace (j - k - 1) with (j - (k + 1)) by lia. apply H4. lia.
    + right. split; [lia|]. intros j Hj. destruct (Z.eq_dec j k) as [->|]; [replace (k - k) with 0 by lia; now rewrite R0|].
      rewrite R by lia. replace (j - k - 1) with (j - (k + 1)) by lia. apply H2. lia.
Qed.
Lemma first_volume_cases i v v' : upto i v v' ->
  (first_volume A v = first_volume A v' /\ 0 <= first_volume A v <= i) \/
  (i <= first_volume A v /\ i <= first_volume A v' /\ forall k, 0 <= k <= i -> lt A (z_ A 0) (rd v k) = false).
Proof.
  intros H. lens. unfold first_volume.
  assert (G : forall (u : list F) m, upto i v u -> 0 <= m < len u -> first_positive A u 0 = m -> lt A (z_ A 0) (rd u (m - 0)) = true ->
     (forall j, 0 <= j < m -> lt A (z_ A 0) (rd u (j - 0)) = false) -> True) by easy. clear G.
  destruct (first_positive_spec v 0) as [(m & H1 & H2 & H3 & H4)|[H1 H2]];
    destruct (first_positive_spec v' 0) as [(m' & H1' & H2' & H3' & H4')|[H1' H2']].
  - rewrite H2, H2'. destruct (Z_le_gt_dec m i) as [C|C].
    + left. split; [|lia]. destruct (Z.lt_trichotomy m m') as [D|[D|D]]; [|easy|].
      * specialize (H4' m). rewrite Z.sub_0_r in *. destruct H as (_ & _ & H). rewrite <- (H m) in H4' by lia. rewrite H4' in H3 by lia. easy.
      * specialize (H4 m'). rewrite Z.sub_0_r in *. destruct H as (_ & _ & H). rewrite (H m') in H4 by lia. rewrite H4 in H3' by lia. easy.
    + destruct (Z_le_gt_dec m' i) as [C'|C'].
      * exfalso. specialize (H4 m'). rewrite Z.sub_0_r in *. destruct H as (_ & _ & H). rewrite (H m') in H4 by lia. rewrite H4 in H3' by lia. easy.
      * right. split; [lia|]. split; [lia|]. intros k Hk. specialize (H4 k). rewrite Z.sub_0_r in H4. apply H4. lia.
  - rewrite H2. destruct (Z_le_gt_dec m i) as [C|C].
    + exfalso. specialize (H2' m). rewrite Z.sub_0_r in *. destruct H as (_ & _ & H). rewrite <- (H m) in H2' by lia. rewrite H2' in H3 by lia. easy.
    + right. split; [lia|]. split; [lia|]. intros k Hk. specialize (H4 k). rewrite Z.sub_0_r in H4. apply H4. lia.
  - rewrite H2'. destruct (Z_le_gt_dec m' i) as [C|C].
    + exfalso. specialize (H2 m'). rewrite Z.sub_0_r in *. destruct H as (_ & _ & H). rewrite (H m') in H2 by lia. rewrite H2 in H3' by lia. easy.
    + right. split; [lia|]. split; [lia|]. intros k Hk. specialize (H2 k). rewrite Z.sub_0_r in H2. apply H2. lia.
  - right. split; [lia|]. split; [lia|]. intros k Hk. specialize (H2 k). rewrite Z.sub_0_r in H2. apply H2. lia.
Qed.
Lemma first_volume_range v : 0 < len v -> 0 <= first_volume A v < len v.
Proof. intros H. unfold first_volume. destruct (first_positive_spec v 0) as [(m & H1 & H2 & _)|[H1 _]]; lia. Qed.
(** A window starting with the first volume, bar by bar. [extra] is at least 1, or
    some bar up to [i] has volume. *)
Lemma volume_tab i v v' n n' extra f f' :
  upto i v v' -> i < n -> i < n' -> 0 <= extra -> (1 <= extra \/ exists k, 0 <= k <= i /\ lt A (z_ A 0) (rd v k) = true) ->
  (forall k, 0 <= k <= i -> extra + first_volume A v <= k -> first_volume A v = first_volume A v' -> 0 <= first_volume A v -> f k = f' k) ->
  rd (tab_from A (Z.min (extra + first_volume A v) n) n f) i = rd (tab_from A (Z.min (extra + first_volume A v') n') n' f') i.
Proof.
  intros H Hn Hn' He Hx Hf. lens. rewrite !rd_tab_from by lia.
  destruct (first_volume_cases i v v' H) as [[E1 E2]|(E1 & E2 & E3)].
  - rewrite <- E1. destruct (i <? Z.min (extra + first_volume A v) n) eqn:C.
    + now replace (i <? Z.min (extra + first_volume A v) n') with true by lia.
    + replace (i <? Z.min (extra + first_volume A v) n') with false by lia. apply Hf; lia.
  - destruct Hx as [Hx|(k & Hk & Hv)]; [|now rewrite E3 in Hv].
    replace (i <? Z.min (extra + first_volume A v) n) with true by lia.
    now replace (i <? Z.min (extra + first_volume A v') n') with true by lia.
Qed.
Lemma rd_same (i : nat) o o' : Z.of_nat i < len o -> Z.of_nat i < len o' -> rd o (Z.of_nat i) = rd o' (Z.of_nat i) -> same_at i (Some o) (Some o').
Proof. intros H H' E. apply (upto_same_at A i o o' (len o) (len o')); try easy. Qed.

(** Some bar up to [i] has volume. *)
Definition traded (i : nat) (v : list F) : Prop := exists k x, (k <= i)%nat /\ nth_error v k = Some x /\ lt A (num A 0) x = true.
Lemma traded_rd i v : traded i v -> exists k, 0 <= k <= Z.of_nat i /\ lt A (z_ A 0) (rd v k) = true.
Proof.
  intros (k & x & H1 & H2 & H3). exists (Z.of_nat k). split; [lia|].
  rewrite (rd_eq A v (Z.of_nat k) x); [easy|now rewrite Nat2Z.id|lia].
Qed.

Lemma price_volume_fit_causal i c c' v v' lb sc :
  agree i c c' -> agree i v v' -> (2 <= lb \/ traded i v) -> same_at i (price_volume_fit A c v lb sc) (price_volume_fit A c' v' lb sc).
Proof.
  intros Hc Hv Ht. unfold price_volume_fit. conds. lens. cbv zeta. apply rd_same; [rewrite len_tab_from; lia|rewrite len_tab_from; lia|].
  apply volume_tab; try easy; try lia; [destruct Ht as [?|?]; [left; lia|right; now apply traded_rd]|].
  intros k Hk Hf _ ?. same.
Qed.
Lemma volume_weighted_ma_ratio_causal i c c' v v' lb sc :
  agree i c c' -> agree i v v' -> (2 <= lb \/ traded i v) ->
  same_at i (volume_weighted_ma_ratio A c v lb sc) (volume_weighted_ma_ratio A c' v' lb sc).
Proof.
  intros Hc Hv Ht. unfold volume_weighted_ma_ratio. conds. lens. cbv zeta. apply rd_same; [rewrite len_tab_from; lia|rewrite len_tab_from; lia|].
  apply volume_tab; try easy; try lia; [destruct Ht as [?|?]; [left; lia|right; now apply traded_rd]|].
  intros k Hk Hf _ ?. same.
Qed.
Lemma variance_same i k n (p p' : list F) : upto i p p' -> 1 <= n <= k -> k <= i -> variance A true k n p = variance A true k n p'.
Proof. intros H Hn Hk. unfold variance. replace (k <? n) with false by lia. same. Qed.
Lemma normalized_volume_index_causal i c c' v v' lb sc ty :
  agree i c c' -> agree i v v' -> same_at i (normalized_volume_index A c v lb sc ty) (normalized_volume_index A c' v' lb sc ty).
Proof.
  intros Hc Hv. unfold normalized_volume_index. conds. lens. cbv zeta. apply rd_same; [rewrite len_tab_from; lia|rewrite len_tab_from; lia|].
  set (vl := if 2 * lb <? 250 then 250 else 2 * lb). assert (2 * lb <= vl /\ 250 <= vl) by (unfold vl; destruct (2 * lb <? 250) eqn:E9; lia). clearbody vl.
  apply volume_tab; try easy; try lia.
  intros k Hk Hf _ ?. rewrite (variance_same (Z.of_nat i) k vl c c' Hc) by lia.
  set (va := variance A _ _ _ _). clearbody va. destruct ty; same.
Qed.
Lemma volume_momentum_causal i v v' s m sc :
  agree i v v' -> same_at i (volume_momentum A v s m sc) (volume_momentum A v' s m sc).
Proof.
  intros Hv. unfold volume_momentum. conds. lens. cbv zeta. apply rd_same; [rewrite len_tab_from; lia|rewrite len_tab_from; lia|].
  set (mm := if m <? 2 then 2 else m). assert (2 <= mm) by (unfold mm; destruct (m <? 2) eqn:E9; lia).
  assert (s * 2 <= s * mm) by nia.
  apply volume_tab; try easy; try lia. intros k Hk Hf _ ?.
  set (LL := s * mm) in *. clearbody LL mm.
  assert (E1 : floop (k - s + 1) (k + 1) (fun j t => add A t (rd v j)) (z_ A 0) = floop (k - s + 1) (k + 1) (fun j t => add A t (rd v' j)) (z_ A 0)) by same.
  rewrite E1.
  assert (E2 : forall x, floop (k - LL + 1) (k - s + 1) (fun j t => add A t (rd v j)) x = floop (k - LL + 1) (k - s + 1) (fun j t => add A t (rd v' j)) x) by (intros; same).
  now rewrite E2.
Qed.
Lemma on_balance_volume_causal i c c' v v' lb dl sc ty :
  agree i c c' -> agree i v v' -> same_at i (on_balance_volume A c v lb dl sc ty) (on_balance_volume A c' v' lb dl sc ty).
Proof.
  intros Hc Hv. unfold on_balance_volume. conds. lens. cbv zeta.
  match goal with |- same_at _ (match _ with Normalized => Some ?x | _ => _ end) (match _ with Normalized => Some ?y | _ => _ end) =>
    assert (U : upto (Z.of_nat i) x y); [|set (o := x) in *; set (o' := y) in *] end.
  { split; [rewrite len_tab_from; lia|]. split; [rewrite len_tab_from; lia|]. intros q Hq.
    assert (Hvq : upto q v v') by (apply (upto_le A (Z.of_nat i)); [easy|lia]).
    apply volume_tab; try easy; try lia. intros k Hk Hf _ ?. same. }
  assert (Lo : len o = len c) by (unfold o; rewrite len_tab_from; lia).
  assert (Lo' : len o' = len c') by (unfold o'; rewrite len_tab_from; lia).
  clearbody o o'. destruct ty; [now apply upto_same|].
  set (d := if dl <? 1 then 1 else dl). assert (Hd : 1 <= d) by (unfold d; destruct (dl <? 1) eqn:E9; lia). clearbody d.
  assert (Lv : 0 < len v) by lia. assert (Lv' : 0 < len v') by lia.
  pose proof (first_volume_range v Lv) as R. pose proof (first_volume_range v' Lv') as R'.
  set (a := Z.min (Z.min (lb + first_volume A v) (len c) + d) (len c)). set (a' := Z.min (Z.min (lb + first_volume A v') (len c') + d) (len c')).
  destruct (down_loop A (fun out k => sub A (rd out k) (rd out (k - d))) a (len c) o) as [D1 D2]; [lia|lia| |].
  { intros m m' k Hk _ _ Hm. rewrite !Hm by lia. easy. }
  destruct (down_loop A (fun out k => sub A (rd out k) (rd out (k - d))) a' (len c') o') as [D1' D2']; [lia|lia| |].
  { intros m m' k Hk _ _ Hm. rewrite !Hm by lia. easy. }
  apply rd_same; [rewrite len_tab_from; lia|rewrite len_tab_from; lia|]. rewrite !rd_tab_from by lia. cbv beta in *. rewrite D2, D2' by lia.
  destruct (first_volume_cases _ _ _ Hv) as [[E1 E2]|(E1 & E2 & E3)].
  - assert (E4 : (Z.of_nat i <? a') = (Z.of_nat i <? a)) by (apply eq_true_iff_eq; rewrite !Z.ltb_lt; lia). rewrite E4.
    destruct (Z.of_nat i <? a) eqn:E5; [easy|]. destruct U as (_ & _ & U). rewrite !U by lia. easy.
  - replace (Z.of_nat i <? a) with true by (symmetry; apply Z.ltb_lt; lia). now replace (Z.of_nat i <? a') with true by (symmetry; apply Z.ltb_lt; lia).
Qed.
Lemma flow_causal i h h' l l' c c' v v' lb sm ty :
  agree i h h' -> agree i l l' -> agree i c c' -> agree i v v' -> (2 <= lb \/ traded i v) ->
  same_at i (flow A h l c v lb sm ty) (flow A h' l' c' v' lb sm ty).
Proof.
  intros Hh Hl Hc Hv Ht. unfold flow. conds. lens. cbv zeta.
  assert (Lv : 0 < len v) by lia. assert (Lv' : 0 < len v') by lia.
  pose proof (first_volume_range v Lv) as R. pose proof (first_volume_range v' Lv') as R'.
  assert (Ln : len v = len c) by (cbn in *; lia). assert (Ln' : len v' = len c') by (cbn in *; lia).
  apply rd_same; [rewrite len_tab_from; lia|rewrite len_tab_from; lia|].
  apply volume_tab; try easy; try lia; [destruct Ht as [?|?]; [left; lia|right; now apply traded_rd]|].
  intros k Hk Hf Efv _. rewrite <- Efv. set (fv := first_volume A v) in *. clearbody fv.
  match goal with |- context [if 1 <? lb then fold_left _ _ ?x else ?x] => set (o := x) in * end.
  match goal with |- _ = ?r => match r with context [if 1 <? lb then fold_left _ _ ?x else ?x] => set (o' := x) in * end end.
  assert (U : upto (Z.of_nat i) o o').
  { apply upto_tab_from; try lia. intros q Hq Hf'. same. }
  assert (Lo : len o = len c) by (unfold o; rewrite len_tab_from; lia).
  assert (Lo' : len o' = len c') by (unfold o'; rewrite len_tab_from; lia).
  clearbody o o'.
  set (fb := Z.min (lb - 1 + fv) (len c)) in *. set (fb' := Z.min (lb - 1 + fv) (len c')) in *.
  match goal with |- context [if 1 <? lb then ?y else o] => set (p := if 1 <? lb then y else o) end.
  match goal with |- _ = ?r => match r with context [if 1 <? lb then ?y else o'] => set (p' := if 1 <? lb then y else o') end end.
  assert (V : upto (Z.of_nat i) p p' /\ len p = len c /\ len p' = len c').
  { unfold p, p'. destruct (1 <? lb) eqn:El; [|easy].
    set (g := fun (out : list F) (k : Z) => div A (floop 0 lb (fun j t => add A t (rd out (k - j))) (z_ A 0)) (z_ A lb)).
    assert (Hg : forall a n, lb - 1 <= a -> forall m m' k, a <= k < n -> len m = n -> len m' = n -> (forall q, 0 <= q <= k -> rd m q = rd m' q) -> g m k = g m' k).
    { intros a n Ha m m' q Hq _ _ Hm. unfold g. f_equal. apply floop_ext. intros. now rewrite Hm by lia. }
    destruct (Z_le_gt_dec (len c) (lb - 1 + fv)) as [C|C]; [lia|]. destruct (Z_le_gt_dec (len c') (lb - 1 + fv)) as [C'|C']; [lia|].
    destruct (down_loop A g fb (len c) o) as [D1 D2]; [lia|lia|apply Hg; lia|].
    destruct (down_loop A g fb' (len c') o') as [D1' D2']; [lia|lia|apply Hg; lia|].
    split; [|split; [exact D1|exact D1']]. split; [unfold g in *; rewrite D1; lia|]. split; [unfold g in *; rewrite D1'; lia|]. intros q Hq.
    unfold g in D2, D2'. rewrite D2, D2' by lia. replace fb' with fb by lia. destruct (q <? fb) eqn:E9; [apply U; lia|].
    f_equal. apply floop_ext. intros. destruct U as (_ & _ & U). rewrite U by lia. easy. }
  destruct V as (V & Lp & Lp'). clearbody p p'. clear U Lo Lo' o o'.
  destruct ty.
  - destruct (lt A (z_ A 1) sm); [|apply V; lia].
    pose proof (len_firstn p fv). pose proof (len_firstn p' fv).
    rewrite !rd_app by (rewrite len_scan; lia).
    replace (k <? len (firstn (Z.to_nat fv) p)) with false by lia. replace (k <? len (firstn (Z.to_nat fv) p')) with false by lia.
    replace (len (firstn (Z.to_nat fv) p)) with fv by lia. replace (len (firstn (Z.to_nat fv) p')) with fv by lia.
    apply rd_scan; try lia; [apply Hv; lia|]. intros j t Hj. destruct V as (_ & _ & V). destruct Hv as (_ & _ & Hv).
    now rewrite (V j), (Hv j) by lia.
  - rewrite !rd_tab by lia. replace fb' with fb by lia. destruct (k <? fb) eqn:E9; [apply V; lia|].
    assert (E1 : floop 0 lb (fun j t => add A t (rd v (k - j))) (z_ A 0) = floop 0 lb (fun j t => add A t (rd v' (k - j))) (z_ A 0)) by same.
    rewrite E1. destruct V as (_ & _ & V). now rewrite (V k) by lia.
Qed.
Lemma reactivity_causal i h h' l l' c c' v v' lb sm sc :
  agree i h h' -> agree i l l' -> agree i c c' -> agree i v v' ->
  same_at i (reactivity A h l c v lb sm sc) (reactivity A h' l' c' v' lb sm sc).
Proof.
  intros Hh Hl Hc Hv. unfold reactivity. conds. lens. cbv zeta.
  assert (Lv : 0 < len v) by lia. assert (Lv' : 0 < len v') by lia.
  pose proof (first_volume_range v Lv) as R. pose proof (first_volume_range v' Lv') as R'.
  assert (Ln : len v = len c) by (cbn in *; lia). assert (Ln' : len v' = len c') by (cbn in *; lia).
  set (al := if lt A (z_ A 1) _ then z_ A 1 else _). clearbody al.
  assert (E' : forall (b b2 : bool) (x y z : list F), (if b then Some x else if b2 then Some y else Some z) = Some (if b then x else if b2 then y else z)) by (now intros [] []).
  set (core := fun (h l c v : list F) (fv fb n : Z) =>
      let '(_, _, smoothed_range, smoothed_volume) := floop (fv + 1) (fv + lb) (fun i s =>
        let '(lowest, highest, r, w) := s in
        let highest := if lt A highest (rd h i) then rd h i else highest in
        let lowest := if lt A (rd l i) lowest then rd l i else lowest in
        (lowest, highest, add A (mul A al (sub A highest lowest)) (mul A (sub A (z_ A 1) al) r), add A (mul A al (rd v i)) (mul A (sub A (z_ A 1) al) w)))
        (rd l fv, rd h fv, sub A (rd h fv) (rd l fv), rd v fv) in
      zeros A fb ++ snd (scan (fun i s => let '(r, w) := s in
        let '(lowest, highest) := floop 1 (lb + 1) (fun j s => let '(lowest, highest) := s in
            let highest := if lt A highest (rd h (i - j)) then rd h (i - j) else highest in
            let lowest := if lt A (rd l (i - j)) lowest then rd l (i - j) else lowest in (lowest, highest)) (rd l i, rd h i) in
        let r := add A (mul A al (sub A highest lowest)) (mul A (sub A (z_ A 1) al) r) in
        let w := add A (mul A al (rd v i)) (mul A (sub A (z_ A 1) al) w) in
        let aspect_ratio := div A (sub A highest lowest) r in
        let aspect_ratio := if (lt A (z_ A 0) (rd v i)) && (lt A (z_ A 0) w) then div A aspect_ratio (div A (rd v i) w) else z_ A 1 in
        let x := div A (mul A aspect_ratio (sub A (rd c i) (rd c (i - lb)))) r in
        ((r, w), squash A (mul A sc x))) (smoothed_range, smoothed_volume) (zrange fb n))).
  assert (Ec : forall h l c v fv fb n, 
     (let '(_, _, smoothed_range, smoothed_volume) := floop (fv + 1) (fv + lb) (fun i s =>
        let '(lowest, highest, r, w) := s in
        (if lt A (rd l i) lowest then rd l i else lowest, if lt A highest (rd h i) then rd h i else highest,
         add A (mul A al (sub A (if lt A highest (rd h i) then rd h i else highest) (if lt A (rd l i) lowest then rd l i else lowest))) (mul A (sub A (z_ A 1) al) r),
         add A (mul A al (rd v i)) (mul A (sub A (z_ A 1) al) w)))
        (rd l fv, rd h fv, sub A (rd h fv) (rd l fv), rd v fv) in
      Some (zeros A fb ++ snd (scan (fun i s => let '(r, w) := s in
        let '(lowest, highest) := floop 1 (lb + 1) (fun j s => let '(lowest, highest) := s in
            (if lt A (rd l (i - j)) lowest then rd l (i - j) else lowest, if lt A highest (rd h (i - j)) then rd h (i - j) else highest)) (rd l i, rd h i) in
        ((add A (mul A al (sub A highest lowest)) (mul A (sub A (z_ A 1) al) r), add A (mul A al (rd v i)) (mul A (sub A (z_ A 1) al) w)),
         squash A (mul A sc (div A (mul A
          (if (lt A (z_ A 0) (rd v i)) && (lt A (z_ A 0) (add A (mul A al (rd v i)) (mul A (sub A (z_ A 1) al) w)))
           then div A (div A (sub A highest lowest) (add A (mul A al (sub A highest lowest)) (mul A (sub A (z_ A 1) al) r)))
                      (div A (rd v i) (add A (mul A al (rd v i)) (mul A (sub A (z_ A 1) al) w))) else z_ A 1)
           (sub A (rd c i) (rd c (i - lb)))) (add A (mul A al (sub A highest lowest)) (mul A (sub A (z_ A 1) al) r))))))
          (smoothed_range, smoothed_volume) (zrange fb n)))) = Some (core h l c v fv fb n)).
  { intros. unfold core. now destruct (floop (fv + 1) (fv + lb) _ _) as [[[? ?] ?] ?]. }
  rewrite !Ec. rewrite !E'. clear E' Ec.
  assert (Lc : forall h l c v fv n, 0 <= fv -> lb + fv <= n -> len (core h l c v fv (Z.min (lb + fv) n) n) = n).
  { intros. unfold core. destruct (floop (fv + 1) (fv + lb) _ _) as [[[? ?] ?] ?]. unfold zeros. rewrite len_app, len_full, len_scan by lia. lia. }
  assert (Bc : forall h l c v fv n k, 0 <= fv -> 0 <= k < Z.min (lb + fv) n -> rd (core h l c v fv (Z.min (lb + fv) n) n) k = z_ A 0).
  { intros. unfold core. destruct (floop (fv + 1) (fv + lb) _ _) as [[[? ?] ?] ?]. unfold zeros. rewrite rd_app by (rewrite len_full, len_scan; lia).
    rewrite len_full by lia. replace (k <? Z.min (lb + fv) n) with true by (symmetry; apply Z.ltb_lt; lia). now rewrite rd_full by lia. }
  assert (Z0 : forall n k, 0 <= k < n -> rd (zeros A n) k = z_ A 0) by (intros; now apply rd_full).
  assert (Lz : forall n, 0 <= n -> len (zeros A n) = n) by (intros; unfold zeros; now rewrite len_full).
  destruct (first_volume_cases _ _ _ Hv) as [[E1 E2]|(E1 & E2 & E3)].
  - rewrite <- E1. set (fv := first_volume A v) in *. clearbody fv.
    assert (Er : sub A (rd h' fv) (rd l' fv) = sub A (rd h fv) (rd l fv)).
    { destruct Hh as (_ & _ & Hh), Hl as (_ & _ & Hl). now rewrite (Hh fv), (Hl fv) by lia. }
    rewrite Er. destruct (eqf A (sub A (rd h fv) (rd l fv)) (z_ A 0)); [apply upto_same; apply upto_full; lia|].
    destruct (Z_lt_ge_dec (Z.of_nat i) (lb + fv)) as [C|C].
    + assert (G : forall h l c v n, 0 <= Z.of_nat i < n -> len (if (n <=? fv + 1) || (n <=? fv + lb) then zeros A n else core h l c v fv (Z.min (lb + fv) n) n) = n /\
         rd (if (n <=? fv + 1) || (n <=? fv + lb) then zeros A n else core h l c v fv (Z.min (lb + fv) n) n) (Z.of_nat i) = z_ A 0).
      { intros h0 l0 c0 v0 n Hn. destruct ((n <=? fv + 1) || (n <=? fv + lb)) eqn:E9; [split; [apply Lz; lia|apply Z0; lia]|].
        apply orb_false_iff in E9 as [E9 E10]. split; [apply Lc; lia|apply Bc; lia]. }
      apply rd_same; [destruct (G h l c v (len c)); lia|destruct (G h' l' c' v' (len c')); lia|].
      destruct (G h l c v (len c)) as [_ ->]; [lia|]. destruct (G h' l' c' v' (len c')) as [_ ->]; [lia|easy].
    + replace ((len c <=? fv + 1) || (len c <=? fv + lb)) with false by (symmetry; apply orb_false_iff; lia).
      replace ((len c' <=? fv + 1) || (len c' <=? fv + lb)) with false by (symmetry; apply orb_false_iff; lia).
      apply rd_same; [rewrite Lc; lia|rewrite Lc; lia|]. rewrite !Z.min_l by lia. clear Lc Bc.
      assert (X : floop (fv + 1) (fv + lb) (fun i s =>
        let '(lowest, highest, r, w) := s in
        let highest := if lt A highest (rd h i) then rd h i else highest in
        let lowest := if lt A (rd l i) lowest then rd l i else lowest in
        (lowest, highest, add A (mul A al (sub A highest lowest)) (mul A (sub A (z_ A 1) al) r), add A (mul A al (rd v i)) (mul A (sub A (z_ A 1) al) w)))
        (rd l fv, rd h fv, sub A (rd h fv) (rd l fv), rd v fv) =
        floop (fv + 1) (fv + lb) (fun i s =>
        let '(lowest, highest, r, w) := s in
        let highest := if lt A highest (rd h' i) then rd h' i else highest in
        let lowest := if lt A (rd l' i) lowest then rd l' i else lowest in
        (lowest, highest, add A (mul A al (sub A highest lowest)) (mul A (sub A (z_ A 1) al) r), add A (mul A al (rd v' i)) (mul A (sub A (z_ A 1) al) w)))
        (rd l' fv, rd h' fv, sub A (rd h' fv) (rd l' fv), rd v' fv)).
      { destruct Hh as (_ & _ & Hh), Hl as (_ & _ & Hl), Hv as (_ & _ & Hv). rewrite (Hh fv), (Hl fv), (Hv fv) by lia.
        apply floop_ext. intros j [[[? ?] ?] ?] Hj. now rewrite (Hh j), (Hl j), (Hv j) by lia. }
      unfold core. cbv zeta. cbv zeta in X. rewrite X.
      match goal with |- rd (match ?p with _ => _ end) _ = _ => destruct p as [[[? ?] r0] w0] end. clear X core. unfold zeros.
      rewrite !rd_app by (rewrite len_full, len_scan; lia). rewrite len_full by lia.
      replace (Z.of_nat i <? lb + fv) with false by (symmetry; apply Z.ltb_ge; lia).
      apply rd_scan; try lia; [easy|]. intros j [r w] Hj.
      destruct Hh as (_ & _ & Hh), Hl as (_ & _ & Hl), Hv as (_ & _ & Hv), Hc as (_ & _ & Hc).
      assert (Y : floop 1 (lb + 1) (fun q s => let '(lowest, highest) := s in
            let highest := if lt A highest (rd h (j - q)) then rd h (j - q) else highest in
            let lowest := if lt A (rd l (j - q)) lowest then rd l (j - q) else lowest in (lowest, highest)) (rd l j, rd h j) =
          floop 1 (lb + 1) (fun q s => let '(lowest, highest) := s in
            let highest := if lt A highest (rd h' (j - q)) then rd h' (j - q) else highest in
            let lowest := if lt A (rd l' (j - q)) lowest then rd l' (j - q) else lowest in (lowest, highest)) (rd l' j, rd h' j)).
      { rewrite (Hh j), (Hl j) by lia. apply floop_ext. intros q [? ?] Hq. now rewrite (Hh (j - q)), (Hl (j - q)) by lia. }
      cbv zeta in Y. rewrite Y. destruct (floop 1 (lb + 1) _ _) as [a b]. now rewrite (Hv j), (Hc j), (Hc (j - lb)) by lia.
  - assert (G : forall h l c v (b : bool) fv n, Z.of_nat i <= fv < n ->
         len (if b then zeros A n else if (n <=? fv + 1) || (n <=? fv + lb) then zeros A n else core h l c v fv (Z.min (lb + fv) n) n) = n /\
         rd (if b then zeros A n else if (n <=? fv + 1) || (n <=? fv + lb) then zeros A n else core h l c v fv (Z.min (lb + fv) n) n) (Z.of_nat i) = z_ A 0).
      { intros h0 l0 c0 v0 b fv n Hn. destruct b; [split; [apply Lz; lia|apply Z0; lia]|].
        destruct ((n <=? fv + 1) || (n <=? fv + lb)) eqn:E9; [split; [apply Lz; lia|apply Z0; lia]|].
        apply orb_false_iff in E9 as [E9 E10]. split; [apply Lc; lia|apply Bc; lia]. }
    set (b := eqf A (sub A (rd h (first_volume A v)) (rd l (first_volume A v))) (z_ A 0)).
    set (b' := eqf A (sub A (rd h' (first_volume A v')) (rd l' (first_volume A v'))) (z_ A 0)).
    destruct (G h l c v b (first_volume A v) (len c)) as [G1 G2]; [lia|].
    destruct (G h' l' c' v' b' (first_volume A v') (len c')) as [G1' G2']; [lia|].
    apply rd_same; [rewrite G1; lia|rewrite G1'; lia|]. now rewrite G2, G2'.
Qed.
Lemma slice_max_same i (l l' : list F) a b : upto i l l' -> 0 <= a -> a < b -> b <= i + 1 -> slice_max A l a b = slice_max A l' a b.
Proof. intros H Ha Hb Hi. unfold slice_max. destruct H as (_ & _ & H). rewrite (H a) by lia. apply floop_ext. intros. now rewrite H by lia. Qed.
Lemma slice_min_same i (l l' : list F) a b : upto i l l' -> 0 <= a -> a < b -> b <= i + 1 -> slice_min A l a b = slice_min A l' a b.
Proof. intros H Ha Hb Hi. unfold slice_min. destruct H as (_ & _ & H). rewrite (H a) by lia. apply floop_ext. intros. now rewrite H by lia. Qed.
Lemma laguerre_rsi_causal i o o' h h' l l' c c' n :
  agree i o o' -> agree i h h' -> agree i l l' -> agree i c c' -> same_at i (laguerre_rsi A o h l c n) (laguerre_rsi A o' h' l' c' n).
Proof.
  intros Ho Hh Hl Hc. unfold laguerre_rsi. conds. lens. cbv zeta.
  assert (Z0 : forall n k, 0 <= k < n -> rd (zeros A n) k = z_ A 0) by (intros; now apply rd_full).
  assert (Lz : forall n, 0 <= n -> len (zeros A n) = n) by (intros; unfold zeros; now rewrite len_full).
  destruct (n =? 1) eqn:E1; [rewrite !orb_true_r; apply upto_same; apply upto_full; lia|]. rewrite !orb_false_r.
  match goal with |- same_at _ (if _ then _ else Some (_ ++ snd (scan ?f ?s _))) (if _ then _ else Some (_ ++ snd (scan ?f' ?s' _))) =>
    assert (Ef : forall j t, n <= j <= Z.of_nat i -> f j t = f' j t); [|set (g := f) in *; set (g' := f') in *; set (s0 := s) in *] end.
  { intros j [[[l0 l1] l2] l3] Hj.
    rewrite (slice_max_same (Z.of_nat i) h h' (j + 1 - n) (j + 1) Hh) by lia. rewrite (slice_min_same (Z.of_nat i) l l' (j + 1 - n) (j + 1) Hl) by lia.
    set (mx := slice_max A h' _ _). set (mn := slice_min A l' _ _). clearbody mx mn.
    destruct (eqf A (sub A mx mn) (z_ A 0)); [easy|].
    destruct Hh as (_ & _ & Hh), Hl as (_ & _ & Hl), Ho as (_ & _ & Ho), Hc as (_ & _ & Hc).
    assert (Y : floop 0 n (fun q t => add A t (div A (sub A (fmax A (rd h (j - q)) (rd c (j - q - 1))) (fmin A (rd l (j - q)) (rd c (j - q - 1)))) (sub A mx mn))) (z_ A 0) =
       floop 0 n (fun q t => add A t (div A (sub A (fmax A (rd h' (j - q)) (rd c' (j - q - 1))) (fmin A (rd l' (j - q)) (rd c' (j - q - 1)))) (sub A mx mn))) (z_ A 0)).
    { apply floop_ext. intros q t Hq. now rewrite (Hh (j - q)), (Hl (j - q)), (Hc (j - q - 1)) by lia. }
    rewrite Y. now rewrite (Hh j), (Hl j), (Hc j), (Hc (j - 1)), (Ho j) by lia. }
  clearbody g g' s0.
  assert (Ls : forall (f : Z -> F * F * F * F -> (F * F * F * F) * F) m, n <= m -> len (zeros A n ++ snd (scan f s0 (zrange n m))) = m).
  { intros. rewrite len_app, Lz, len_scan by lia. lia. }
  assert (Bs : forall (f : Z -> F * F * F * F -> (F * F * F * F) * F) m k, n <= m -> 0 <= k < n -> rd (zeros A n ++ snd (scan f s0 (zrange n m))) k = z_ A 0).
  { intros. rewrite rd_app by (rewrite Lz, len_scan by lia; lia). rewrite Lz by lia. replace (k <? n) with true by lia. apply Z0; lia. }
  destruct (len c <=? n) eqn:E2, (len c' <=? n) eqn:E3.
  - apply upto_same. apply upto_full; lia.
  - apply rd_same; [rewrite Lz; lia|rewrite Ls; lia|]. rewrite Z0, Bs by lia. easy.
  - apply rd_same; [rewrite Ls; lia|rewrite Lz; lia|]. rewrite Z0, Bs by lia. easy.
  - destruct (Z_lt_ge_dec (Z.of_nat i) n) as [C|C].
    + apply rd_same; [rewrite Ls; lia|rewrite Ls; lia|]. rewrite !Bs by lia. easy.
    + apply upto_same. unfold zeros. apply upto_full_scan; try easy; lia.
Qed.
Lemma cross_causal i a a' b b' : agree i a a' -> agree i b b' -> same_at i (cross A a b) (cross A a' b').
Proof.
  intros Ha Hb. unfold cross. conds. lens.
  set (x := map (fun i => lt A (rd b i) (rd a i)) (zrange 0 (len a))). set (x' := map (fun i => lt A (rd b' i) (rd a' i)) (zrange 0 (len a'))).
  assert (Nx : forall k, 0 <= k <= Z.of_nat i -> nth_error x (Z.to_nat k) = nth_error x' (Z.to_nat k) /\ nth_error x (Z.to_nat k) <> None).
  { intros k Hk. unfold x, x', zrange. rewrite !nth_error_map, !zrange_n_nth by lia. cbn [option_map].
    destruct Ha as (_ & _ & Ha), Hb as (_ & _ & Hb). replace (0 + Z.of_nat (Z.to_nat k)) with k by lia.
    rewrite (Ha k), (Hb k) by lia. split; easy. }
  assert (Lx : length x = length a) by (unfold x, len; rewrite map_length, zrange_length; lia).
  assert (Lx' : length x' = length a') by (unfold x', len; rewrite map_length, zrange_length; lia).
  clearbody x x'.
  set (g := fun c : bool => if c then z_ A 1 else z_ A 0). set (y := map g x). set (y' := map g x').
  assert (Ly : len y = len a) by (unfold y, len; now rewrite map_length, Lx). assert (Ly' : len y' = len a') by (unfold y', len; now rewrite map_length, Lx').
  assert (U : upto (Z.of_nat i) y y').
  { split; [lia|]. split; [lia|]. intros k Hk. symmetry. apply rd_eq; [|lia]. unfold y'. rewrite nth_error_map.
    destruct (Nx k Hk) as [<- _]. rewrite <- nth_error_map. fold y. apply rd_in. lia. }
  destruct (sumv A y 2) as [s|] eqn:Es; [|apply same_none]. destruct (sumv A y' 2) as [s'|] eqn:Es'; [|apply same_none'].
  assert (V : upto (Z.of_nat i) s s').
  { apply (rolling_upto A (Z.of_nat i) (rolling_sum A) y y' 2 s s'); try easy. intros. apply rolling_sum_upto; [lia|easy]. }
  intros r r' [= <-] [= <-].
  destruct (Nx (Z.of_nat i)) as [N1 N2]; [lia|]. rewrite Nat2Z.id in N1, N2.
  destruct V as (_ & _ & V).
  exists (eqf A (rd s (Z.of_nat i)) (z_ A 1) && nth i x false). unfold zrange. rewrite !nth_error_map, !zrange_n_nth by lia. cbn [option_map Z.add].
  rewrite Nat2Z.id, <- (V (Z.of_nat i)) by lia. split; [easy|]. do 2 f_equal.
  destruct (nth_error x i) as [u|] eqn:Eu; [|easy]. symmetry in N1. apply (nth_error_nth _ _ false) in Eu, N1. congruence.
Qed.
End Any.
