(** C96: relative entropy. *)
From Coq Require Import Lra Lia.
From Verif Require Import EntropyExact.
Open Scope list_scope.
Open Scope R_scope.

(** Between 0 and 1 for every array, of any length, with NaN and infinite values
    among them, however the arithmetic that chooses the bins rounds. *)
Theorem C96_range fl values : 0 <= relative_entropy fl values <= 1.
Proof. exact (entropy_range fl values). Qed.
Print Assumptions C96_range.

(** NaN and infinite values do not count, nor does the order of the others. *)
Theorem C96_order fl values values' : Permutation (numbers values) (numbers values') ->
  relative_entropy fl values = relative_entropy fl values'.
Proof. exact (entropy_order fl values values'). Qed.
Print Assumptions C96_order.

(** In exact arithmetic: Shannon's entropy of the shares of the values in equal bins,
    relative to the largest possible; every value is in one of the bins, and one
    only. *)
Theorem C96_value values b : numbers values <> [] -> bins_for (Z.of_nat (length (numbers values))) b ->
  exists shares, shares_of b (numbers values) shares /\ relative_entropy (fun x => x) values = shannon shares / ln (INR b).
Proof. exact (entropy_value values b). Qed.
Print Assumptions C96_value.
Theorem C96_one_bin l b lo hi x : bins_for (Z.of_nat (length l)) b -> least l lo -> greatest l hi -> In x l ->
  exists k, (k < b)%nat /\ in_bin b lo hi k x /\ forall k', (k' < b)%nat -> in_bin b lo hi k' x -> k' = k.
Proof. intro B. exact (one_bin l b lo hi x (bins_large _ _ B)). Qed.
Print Assumptions C96_one_bin.
Theorem C96_shares_exist values b lo hi k : least (numbers values) lo -> greatest (numbers values) hi ->
  bins_for (Z.of_nat (length (numbers values))) b -> (k < b)%nat -> exists c, tally (in_bin b lo hi k) (numbers values) c.
Proof. exact (tally_exists values b lo hi k). Qed.
Print Assumptions C96_shares_exist.

(** It is 1 exactly when all bins hold equally many values. *)
Theorem C96_one values b : bins_for (Z.of_nat (length (numbers values))) b ->
  (relative_entropy (fun x => x) values = 1 <->
   numbers values <> [] /\ forall lo hi k c, least (numbers values) lo -> greatest (numbers values) hi -> (k < b)%nat ->
     tally (in_bin b lo hi k) (numbers values) c -> (c * b = length (numbers values))%nat).
Proof. exact (entropy_one values b). Qed.
Print Assumptions C96_one.

(** It is 0 for a constant series (under any rounding that keeps 0), and positive for
    every other one whose values are not closer together than [10^-60]. *)
Theorem C96_zero fl values : fl 0 = 0 -> same (numbers values) -> relative_entropy fl values = 0.
Proof. exact (entropy_same fl values). Qed.
Print Assumptions C96_zero.
Theorem C96_positive values x y : In x (numbers values) -> In y (numbers values) -> x + / 10 ^ 60 <= y ->
  0 < relative_entropy (fun x => x) values.
Proof. exact (entropy_spread values x y). Qed.
Print Assumptions C96_positive.

(** Adding a constant to the series changes nothing. *)
Theorem C96_shift c values :
  relative_entropy (fun x => x) (map (fun v => match v with Num x => Num (x + c) | _ => v end) values) = relative_entropy (fun x => x) values.
Proof. exact (entropy_shift c values). Qed.
Print Assumptions C96_shift.

(** Three values evenly spread among NaN and infinity: entropy 1; two of them equal:
    between 0 and 1. *)
Example C96_example :
  relative_entropy (fun x => x) [Num 1; Nan; Num 0; PosInf; Num 2] = 1 /\
  0 < relative_entropy (fun x => x) [Num 1; Nan; Num 0; PosInf; Num 0] < 1 /\
  relative_entropy (fun x => x) [Num 7; Nan; Num 7] = 0.
Proof.
  assert (B3 : forall l : list R, length l = 3%nat -> bins_for (Z.of_nat (length l)) 3) by (intros l ->; left; split; [lia|reflexivity]).
  assert (E10 : 0 < / 10 ^ 10 < / 1000) by (split; [apply Rinv_0_lt_compat; lra|apply Rinv_lt_contravar; lra]).
  assert (E60 : 0 < / 10 ^ 60 < / 1000).
  { split; [apply Rinv_0_lt_compat, pow_lt; lra|]. apply Rinv_lt_contravar; [apply Rmult_lt_0_compat; [lra|apply pow_lt; lra]|].
    replace 1000 with (10 ^ 3) by lra. apply Rlt_pow; [lra|lia]. }
  split; [|split].
  - apply (C96_one _ 3); [now apply B3|]. split; [discriminate|]. intros lo hi k c LO HI K T.
    assert (lo = 0) as -> by (destruct LO as [I M]; pose proof (M 0 ltac:(cbn; auto)); cbn in I; lra).
    assert (hi = 2) as -> by (destruct HI as [I M]; pose proof (M 2 ltac:(cbn; auto)); cbn in I; lra).
    pose (g := fun x => if Rlt_dec x (/ 2) then 0%nat else if Rlt_dec x (3 * / 2) then 1%nat else 2%nat).
    assert (W : 2 / 3 < width 3 0 2 < 0.668).
    { unfold width. cbn [INR]. set (d := / 10 ^ 10) in *. set (e := / 10 ^ 60) in *. split; [apply (Rmult_lt_reg_r (1 + 1 + 1 - d)); [lra|]; replace ((2 - 0 + e) / (1 + 1 + 1 - d) * (1 + 1 + 1 - d)) with (2 + e) by (field; lra); lra|apply (Rmult_lt_reg_r (1 + 1 + 1 - d)); [lra|]];
        unfold Rdiv; rewrite Rmult_assoc, Rinv_l by lra; lra. }
    apply (tally_iff (in_bin 3 0 2 k) g k) in T.
    + subst c. cbn [numbers]. unfold hits, g. cbn [filter length].
      destruct (Rlt_dec 1 (/ 2)); [lra|]. destruct (Rlt_dec 1 (3 * / 2)); [|lra]. destruct (Rlt_dec 0 (/ 2)); [|lra].
      destruct (Rlt_dec 2 (/ 2)); [lra|]. destruct (Rlt_dec 2 (3 * / 2)); [lra|].
      destruct k as [|[|[|k]]]; cbn; lia.
    + assert (TW : forall v, v = 1 \/ v = 0 \/ v = 2 -> forall k, (k < 3)%nat -> (g v = k <-> in_bin 3 0 2 k v)).
      { intros v V j J. unfold in_bin. assert (j = 0 \/ j = 1 \/ j = 2)%nat as [->|[->| ->]] by lia; cbn [INR];
          destruct V as [->|[->| ->]]; unfold g;
          repeat match goal with |- context [Rlt_dec ?a ?b] => destruct (Rlt_dec a b) as [?|?]; try lra end;
          (split; [intro X; try discriminate X; lra|intro X; try reflexivity; exfalso; lra]). }
      intros v I. apply TW; auto. destruct I as [<-|[<-|[<-|[]]]]; auto.
  - split; [apply (C96_positive _ 0 1); cbn; auto; lra|].
    destruct (C96_range (fun x => x) [Num 1; Nan; Num 0; PosInf; Num 0]) as [_ [L|E]]; auto. exfalso.
    apply (C96_one _ 3) in E; [|now apply B3]. destruct E as [_ E].
    assert (LO : least (numbers [Num 1; Nan; Num 0; PosInf; Num 0]) 0) by (split; [cbn; auto|intros x; cbn; lra]).
    assert (HI : greatest (numbers [Num 1; Nan; Num 0; PosInf; Num 0]) 1) by (split; [cbn; auto|intros x; cbn; lra]).
    assert (W : 0 < width 3 0 1) by (unfold width; cbn [INR]; set (d := / 10 ^ 10) in *; set (e := / 10 ^ 60) in *; apply Rdiv_lt_0_compat; lra).
    assert (U : width 3 0 1 < 1).
    { unfold width. cbn [INR]. set (d := / 10 ^ 10) in *. set (e := / 10 ^ 60) in *. apply (Rmult_lt_reg_r (1 + 1 + 1 - d)); [lra|]. unfold Rdiv. rewrite Rmult_assoc, Rinv_l by lra. lra. }
    specialize (E 0 1 0%nat 2%nat LO HI ltac:(lia)). cbn [numbers length] in E. assert (2 * 3 = 3)%nat; [|lia]. apply E.
    exists [0; 0], [1]. split; [|split; [|split]].
    + apply Permutation_sym. change ([0; 0] ++ [1]) with ([0; 0] ++ 1 :: []). apply Permutation_sym, Permutation_cons_app. reflexivity.
    + repeat constructor; cbn [INR]; lra.
    + repeat constructor. intros [_ X]. cbn [INR] in X. lra.
    + reflexivity.
  - apply C96_zero; auto. intros x y [<-|[<-|[]]] [<-|[<-|[]]]; reflexivity.
Qed.
