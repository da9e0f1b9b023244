(** Causality of the remaining indicators. *)
From Coq Require Import List Bool Arith Lia ZArith QArith.
From Verif Require Import VectModel VectSpec VectLemmas VectCausal.
Import ListNotations.
Open Scope list_scope.
Open Scope Z_scope.

Section Any.
Context (A : arith).
Notation F := (F A).
Notation rd := (rd A).
Notation upto := (upto A).

Ltac conds :=
  repeat match goal with
  | H : agree _ _ _ |- _ => apply (agree_upto A) in H
  end;
  repeat match goal with
  | |- same_at _ (if ?b then _ else None) _ => let E := fresh "E" in destruct b eqn:E; [|apply same_none]
  | |- same_at _ _ (if ?b then _ else None) => let E := fresh "E" in destruct b eqn:E; [|apply same_none']
  end;
  repeat match goal with
  | H : _ && _ = true |- _ => apply andb_true_iff in H; destruct H
  end.
Ltac lens :=
  repeat match goal with
  | H : upto ?i ?l ?l' |- _ =>
      lazymatch goal with
      | _ : 0 <= i < len l /\ i < len l' |- _ => fail
      | _ => pose proof (upto_len _ _ _ _ H)
      end
  end.
Ltac front := let k := fresh "k" in let Hk := fresh in intros k Hk; apply eq_true_iff_eq; rewrite !Z.ltb_lt; lia.

(** Wilder index. *)
Lemma rsi_upto i l l' n x post :
  1 <= n -> n <= len l -> n <= len l' -> upto i l l' -> upto i (rsi A l n x post) (rsi A l' n x post).
Proof.
  intros Hn L1 L2 H. lens. unfold rsi. apply upto_full_scan; try lia.
  - intros Hi. unfold rsi_seed. same.
  - intros j t Hj. unfold rsi_step. destruct t. same.
Qed.
Lemma detrended_rsi_causal i v v' s l r :
  agree i v v' -> same_at i (detrended_rsi A v s l r) (detrended_rsi A v' s l r).
Proof.
  intros H. unfold detrended_rsi. conds. lens. cbv zeta.
  set (post := fun w : F => if s =? 2 then _ else w).
  assert (W : forall n x p, s = n \/ l = n -> n <= len v -> n <= len v' -> upto (Z.of_nat i) (rsi A v n x p) (rsi A v' n x p)).
  { intros. apply rsi_upto; try easy. lia. }
  destruct (len v <=? l + r - 1) eqn:E1, (len v' <=? l + r - 1) eqn:E2.
  - apply upto_same. apply upto_full; lia.
  - apply upto_same. change (zeros A (len v)) with (full A (len v) (z_ A 0)).
    split; [rewrite len_full; lia|]. split; [rewrite len_tab_from; lia|]. intros k Hk.
    rewrite rd_full, rd_tab_from by lia. now replace (k <? l + r - 1) with true by lia.
  - apply upto_same. change (zeros A (len v')) with (full A (len v') (z_ A 0)).
    split; [rewrite len_tab_from; lia|]. split; [rewrite len_full; lia|]. intros k Hk.
    rewrite rd_full, rd_tab_from by lia. now replace (k <? l + r - 1) with true by lia.
  - apply upto_same. apply upto_tab_from; try lia. intros k Hk Hf.
    pose proof (W s (q_ A (inject_Z (10 ^ 90))) post) as W1. pose proof (W l (q_ A (inject_Z (- 10 ^ 90))) (fun w => w)) as W2.
    specialize (W1 (or_introl eq_refl)). specialize (W2 (or_intror eq_refl)).
    lapply W1; [clear W1; intros W1|lia]. lapply W1; [clear W1; intros W1|lia].
    lapply W2; [clear W2; intros W2|lia]. lapply W2; [clear W2; intros W2|lia].
    set (w1 := rsi A v s _ post) in *. set (w2 := rsi A v l _ _) in *. set (w1' := rsi A v' s _ post) in *. set (w2' := rsi A v' l _ _) in *.
    clearbody w1 w2 w1' w2' post. clear W. same.
Qed.

(** Smoothing in place. *)
Lemma len_smooth a al out (l : list F) : 0 <= a < len l -> len (smooth A a al out l) = len l.
Proof. intros H. unfold smooth. rewrite len_app, len_scan, len_firstn by lia. lia. Qed.
Lemma smooth_before a al out (l : list F) k : 0 <= k <= a -> a < len l -> rd (smooth A a al out l) k = rd l k.
Proof.
  intros H H'. unfold smooth. pose proof (len_firstn l (a + 1)). rewrite rd_app by (rewrite len_scan; lia).
  replace (k <? len (firstn (Z.to_nat (a + 1)) l)) with true by lia. apply rd_firstn; lia.
Qed.
Lemma smooth_upto i a al out (l l' : list F) : 0 <= a < len l -> a < len l' -> upto i l l' -> upto i (smooth A a al out l) (smooth A a al out l').
Proof.
  intros Ha Ha' H. lens. unfold upto. rewrite !len_smooth by lia. split; [lia|]. split; [lia|]. intros k Hk.
  destruct (Z_le_gt_dec k a) as [L|L]; [rewrite !smooth_before by lia; apply H; lia|].
  unfold smooth. pose proof (len_firstn l (a + 1)). pose proof (len_firstn l' (a + 1)).
  rewrite !rd_app by (rewrite len_scan; lia).
  replace (k <? len (firstn (Z.to_nat (a + 1)) l)) with false by lia. replace (k <? len (firstn (Z.to_nat (a + 1)) l')) with false by lia.
  rewrite H1, H2 by lia. apply rd_scan; try lia; [apply H; lia|]. intros j t Hj. destruct H as (_ & _ & H). now rewrite (H j) by lia.
Qed.
Lemma stochastic_rsi_causal i v v' rl sl sm :
  agree i v v' -> same_at i (stochastic_rsi A v rl sl sm) (stochastic_rsi A v' rl sl sm).
Proof.
  intros H. unfold stochastic_rsi. conds. lens. cbv zeta.
  assert (Z0 : forall n k, 0 <= k < n -> rd (zeros A n) k = z_ A 0) by (intros; now apply rd_full).
  assert (B : forall (u : list F) k, rl < len u -> 0 <= k < len u -> k < rl + sl - 1 ->
      let fb := Z.min (rl + sl - 1) (len u) in
      let out := tab_from A fb (len u) (sto_rsi_bar A (rsi A u rl (z_ A 0) (fun w => w)) sl) in
      rd (if lt A (z_ A 1) sm && (fb <? len u) then smooth A fb (div A (z_ A 2) (add A sm (z_ A 1))) (fun _ s => s) out else out) k = z_ A 0).
  { intros u k Hu Hk Hb fb out. assert (E0 : rd out k = z_ A 0).
    { unfold out. rewrite rd_tab_from by lia. now replace (k <? fb) with true by lia. }
    assert (Lo : len out = len u) by (unfold out; rewrite len_tab_from; lia).
    destruct (lt A (z_ A 1) sm && (fb <? len u)) eqn:Es; [|easy]. apply andb_true_iff in Es as [_ Es].
    rewrite smooth_before; [easy|lia|lia]. }
  assert (L : forall (u : list F), rl < len u ->
      let fb := Z.min (rl + sl - 1) (len u) in
      let out := tab_from A fb (len u) (sto_rsi_bar A (rsi A u rl (z_ A 0) (fun w => w)) sl) in
      len (if lt A (z_ A 1) sm && (fb <? len u) then smooth A fb (div A (z_ A 2) (add A sm (z_ A 1))) (fun _ s => s) out else out) = len u).
  { intros u Hu fb out. assert (Lo : len out = len u) by (unfold out; rewrite len_tab_from; lia).
    destruct (lt A (z_ A 1) sm && (fb <? len u)) eqn:Es; [|easy]. apply andb_true_iff in Es as [_ Es]. rewrite len_smooth; [easy|lia]. }
  cbv zeta in B, L.
  assert (E' : forall (b : bool) (x y : list F), (if b then Some x else Some y) = Some (if b then x else y)) by (now intros []).
  rewrite !E'.
  destruct (len v <=? rl) eqn:E1, (len v' <=? rl) eqn:E2.
  - apply upto_same. apply upto_full; lia.
  - apply upto_same. split; [unfold zeros; rewrite len_full; lia|]. split; [rewrite (L v') by lia; lia|].
    intros k Hk. rewrite Z0 by lia. symmetry. apply (B v'); lia.
  - apply upto_same. split; [rewrite (L v) by lia; lia|]. split; [unfold zeros; rewrite len_full; lia|].
    intros k Hk. rewrite Z0 by lia. apply (B v); lia.
  - apply upto_same. destruct (Z_lt_ge_dec (Z.of_nat i) (rl + sl - 1)) as [C|C].
    + split; [rewrite (L v) by lia; lia|]. split; [rewrite (L v') by lia; lia|]. intros k Hk.
      rewrite (B v), (B v') by lia. easy.
    + assert (W : upto (Z.of_nat i) (rsi A v rl (z_ A 0) (fun w => w)) (rsi A v' rl (z_ A 0) (fun w => w))) by (apply rsi_upto; try easy; lia).
      rewrite !Z.min_l by lia.
      replace (rl + sl - 1 <? len v) with true by lia. replace (rl + sl - 1 <? len v') with true by lia. rewrite andb_true_r.
      assert (U : upto (Z.of_nat i) (tab_from A (rl + sl - 1) (len v) (sto_rsi_bar A (rsi A v rl (z_ A 0) (fun w => w)) sl))
                       (tab_from A (rl + sl - 1) (len v') (sto_rsi_bar A (rsi A v' rl (z_ A 0) (fun w => w)) sl))).
      { apply upto_tab_from; try lia. intros k Hk Hf. unfold sto_rsi_bar.
        set (w := rsi A v _ _ _) in *. set (w' := rsi A v' _ _ _) in *. clearbody w w'. clear B L. same. }
      destruct (lt A (z_ A 1) sm); [|easy]. apply smooth_upto; [rewrite len_tab_from; lia|rewrite len_tab_from; lia|easy].
Qed.
End Any.
