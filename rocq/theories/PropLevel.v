(** C109: the values of the Aroon and stochastic oscillators and of the average true range, over exact rationals. *)
From Coq Require Import List Bool Arith Lia ZArith QArith Lqa.
From Verif Require Import VectModel VectSpec VectExact PropVect LevelSpec LevelProofs.
Import ListNotations.
Open Scope list_scope.

Section Level.
(** Logarithm, exponential, square root and what lies outside an array are not used. *)
Context (lg ex sq : xq -> xq) (pi : Q) (junk : list xq -> Z -> xq).
Notation A := (exact lg ex sq pi junk).
(** For all prices and every lookback of at least 1: the first bar has 50 (the difference 0), and every
    later one the level of the latest highest high, of the latest lowest low, or their difference, among
    it and the [n] bars before it. *)
Theorem C109_aroon : forall highs lows n ty, highs <> [] -> length lows = length highs -> (0 < n)%nat ->
  exists r, aroon A (map Fin highs) (map Fin lows) (Z.of_nat n) ty = Some r /\ length r = length highs /\
    nth_error r 0 = Some (Fin (match ty with AroonDiff => 0 | _ => 50 end)) /\
    forall i, (0 < i < length highs)%nat -> exists kh kl v, latest_high n i kh highs /\ latest_low n i kl lows /\ nth_error r i = Some (Fin v) /\
      (v == match ty with AroonUp => aroon_level n i kh | AroonDown => aroon_level n i kl | AroonDiff => aroon_level n i kh - aroon_level n i kl end)%Q.
Proof. intros. apply aroon_value; assumption. Qed.
(** For prices whose low is never above the high, every lookback of at least 1 and 0, 1 or 2 smoothings:
    0 before [n] bars are there, then the place of the close in the range of the last [n] bars, smoothed,
    in percent from -50. *)
Theorem C109_stochastic : forall highs lows closes n times,
  (0 < n)%nat -> length highs = length closes -> length lows = length closes -> (times <= 2)%nat ->
  (forall i h l, nth_error highs i = Some h -> nth_error lows i = Some l -> (l <= h)%Q) ->
  exists r raw, stochastic A (map Fin highs) (map Fin lows) (map Fin closes) (Z.of_nat n) (Z.of_nat times) = Some r /\ length r = length closes /\
    (forall i, (n - 1 <= i < length closes)%nat -> stochastic_of n i highs lows closes (raw i)) /\
    forall i, (i < length closes)%nat -> exists v, nth_error r i = Some (Fin v) /\
      if (S i <? n)%nat then (v == 0)%Q else (v == 100 * shown times n raw i - 50)%Q.
Proof. intros. apply stochastic_value; assumption. Qed.
(** For prices whose low is never above the high and every lookback from 1 to the number of bars: NaN on
    the first [n] bars, then the mean of the true ranges of the last [n]. *)
Theorem C109_atr : forall highs lows closes n, (0 < n <= length closes)%nat -> length highs = length closes -> length lows = length closes ->
  (forall i h l, nth_error highs i = Some h -> nth_error lows i = Some l -> (l <= h)%Q) ->
  exists r tr, atr A (map Fin highs) (map Fin lows) (map Fin closes) (Z.of_nat n) = Some r /\ length r = length closes /\
    (forall i, (0 < i < length closes)%nat -> true_range i highs lows closes (tr i)) /\
    (forall i, (i < n)%nat -> nth_error r i = Some NaN) /\
    forall i, (n <= i < length closes)%nat -> exists v, nth_error r i = Some (Fin v) /\ (v == mean (map tr (seq (i + 1 - n) n)))%Q.
Proof. intros. apply atr_value; assumption. Qed.
End Level.
Print Assumptions C109_atr.
Print Assumptions C109_aroon.
Print Assumptions C109_stochastic.
(** Highs 3, 5, 5, 4: at the third bar the latest highest high is that bar's own, at the fourth it is one
    bar old. *)
Example C109_example :
  (exists r, aroon demo (map Fin [3; 5; 5; 4]%Q) (map Fin [1; 2; 3; 2]%Q) 2 AroonUp = Some r /\ Forall2 xeq r (map Fin [50; 100; 100; 50]%Q)) /\
  (exists r, stochastic demo (map Fin [3; 5; 5; 4]%Q) (map Fin [1; 2; 3; 2]%Q) (map Fin [2; 4; 4; 3]%Q) 2 0 = Some r /\ length r = 4%nat) /\
  (exists r, atr demo (map Fin [3; 5; 5; 4]%Q) (map Fin [1; 2; 3; 2]%Q) (map Fin [2; 4; 4; 3]%Q) 2 = Some r /\ Forall2 xeq r [NaN; NaN; Fin (5 # 2); Fin 2]) /\
  (forall i h l, nth_error [3; 5; 5; 4]%Q i = Some h -> nth_error [1; 2; 3; 2]%Q i = Some l -> (l <= h)%Q).
Proof.
  split; [eexists; split; [vm_compute; reflexivity|repeat constructor]|]. split; [eexists; split; [vm_compute; reflexivity|reflexivity]|].
  split; [eexists; split; [vm_compute; reflexivity|repeat constructor]|].
  intros i h l. destruct i as [|[|[|[|i]]]]; cbn; try (intros [= <-] [= <-]; lra). destruct i; discriminate.
Qed.
