(** C43, C44, C45: rolling windows and indicators. *)
From Coq Require Import List Bool Arith Lia ZArith QArith Qabs Lqa.
From Verif Require Import VectModel VectSpec VectLemmas VectCausal VectCausal2 VectCausal3 VectCausal4 VectExact VectWindow VectSum
  VectBounds VectRanges VectRanges2 VectRanges3 VectRefute.
Import ListNotations.
Open Scope list_scope.
Open Scope Z_scope.

(** An exact arithmetic to run examples in; its exponential and square root have the
    properties the range theorems ask for. *)
Definition demo_exp (x : xq) : xq := match x with Fin q => if Qle_bool q 0 then Fin (1 / (1 - q)) else x | NInf => Fin 0 | _ => x end.
Definition demo_sqrt (x : xq) : xq := match x with Fin q => if Qeq_bool q 1 then Fin 1 else Fin (5 # 2) | _ => x end.
Definition demo : arith := exact (fun x => x) demo_exp demo_sqrt (22 # 7) (fun _ _ => NaN).
Lemma demo_elementary : elementary' demo_exp demo_sqrt (22 # 7).
Proof.
  split; [split; [|split; [reflexivity|]]|split].
  - intros q H. unfold demo_exp. apply Qle_bool_iff in H as H'. rewrite H'. eexists. split; [reflexivity|].
    split; [apply Qle_shift_div_l; lra|apply Qle_shift_div_r; lra].
  - eexists. split; [reflexivity|]. discriminate.
  - intros q H. unfold demo_exp. assert (H' : Qle_bool q 0 = true) by (apply Qle_bool_iff; lra). rewrite H'. eexists. split; [reflexivity|].
    split; [apply Qle_shift_div_l; lra|apply Qle_shift_div_r; lra].
  - intros q H. unfold demo_sqrt. apply Qeq_bool_iff in H. rewrite H. eexists. split; [reflexivity|]. reflexivity.
Qed.

(** ** C43 *)
Definition rolls {T} (isnan : T -> bool) (nan : T) (le : T -> T -> bool) (n : Z) (l r : list T) : Prop :=
  length r = length l /\
  forall i, (i < length l)%nat -> exists x, nth_error r i = Some x /\ rolling_extreme isnan nan le (Z.to_nat n) i l x.
Theorem C43_lowv A (l : list (F A)) n r : total_order (isnan A) (le A) -> lowv A l n = Some r -> rolls (isnan A) (nan A) (le A) n l r.
Proof.
  intros HR E. unfold lowv, rolling in E. destruct l as [|z l'] eqn:El.
  { injection E as <-. split; [easy|]. intros i Hi. cbn in Hi. lia. }
  rewrite <- El in *. clear El z l'. unfold verify_input in E. destruct (_ && _) eqn:V; [|discriminate]. apply andb_true_iff in V as [V _]. apply Z.ltb_lt in V.
  apply some_inj in E. subst r. unfold rolling_min. split; [rewrite scan_length, zrange_length; unfold len; lia|].
  intros i Hi. exact (extreme_spec A l (le A) n ltac:(lia) HR i Hi).
Qed.
Print Assumptions C43_lowv.
Theorem C43_highv A (l : list (F A)) n r : total_order (isnan A) (fun x y => le A y x) -> highv A l n = Some r ->
  rolls (isnan A) (nan A) (fun x y => le A y x) n l r.
Proof.
  intros HR E. unfold highv, rolling in E. destruct l as [|z l'] eqn:El.
  { injection E as <-. split; [easy|]. intros i Hi. cbn in Hi. lia. }
  rewrite <- El in *. clear El z l'. unfold verify_input in E. destruct (_ && _) eqn:V; [|discriminate]. apply andb_true_iff in V as [V _]. apply Z.ltb_lt in V.
  apply some_inj in E. subst r. unfold rolling_max. split; [rewrite scan_length, zrange_length; unfold len; lia|].
  intros i Hi. exact (extreme_spec A l (fun x y => le A y x) n ltac:(lia) HR i Hi).
Qed.
Print Assumptions C43_highv.
(** Every call with a window that fits returns. *)
Theorem C43_returns A (l : list (F A)) n : (0 < n <= Z.of_nat (length l) \/ l = []) ->
  (exists r, lowv A l n = Some r) /\ (exists r, highv A l n = Some r).
Proof.
  intros H. unfold lowv, highv, rolling. destruct l as [|z l']; [split; eexists; reflexivity|]. destruct H as [H|H]; [|discriminate].
  unfold verify_input. replace (_ && _) with true by (symmetry; apply andb_true_iff; unfold len; split; [apply Z.ltb_lt|apply Z.leb_le]; lia).
  split; eexists; reflexivity.
Qed.
Print Assumptions C43_returns.
Example C43_example : total_order (isnan demo) (le demo) /\ total_order (isnan demo) (fun x y => le demo y x) /\
  lowv demo [Fin 5; Fin 3; Fin 4; NaN; Fin 2; Fin 7; Fin 6] 2 = Some [NaN; Fin 3; Fin 3; NaN; NaN; Fin 2; Fin 6] /\
  highv demo [Fin 5; Fin 3; Fin 4; NaN; Fin 2; Fin 7; Fin 6] 2 = Some [NaN; Fin 5; Fin 4; NaN; NaN; Fin 7; Fin 7].
Proof. split; [exact xle_total|]. split; [exact xge_total|]. split; vm_compute; reflexivity. Qed.

(** ** C44 *)
Section Exact.
Context (lg ex sq : xq -> xq) (pi : Q) (junk : list xq -> Z -> xq).
Notation A := (exact lg ex sq pi junk).
(** NaN before the window is full, then the sum of the last [n] values, with NaN and
    infinities among them counting as in IEEE sums. *)
Theorem C44_sumv (l : list xq) n r : sumv A l n = Some r ->
  length r = length l /\ forall i, (i < length l)%nat ->
    exists x, nth_error r i = Some x /\ if (S i <? Z.to_nat n)%nat then x = NaN else xeq x (fold_right xadd (Fin 0) (window (Z.to_nat n) i l)).
Proof.
  intros E. unfold sumv, rolling in E. destruct l as [|z l'] eqn:El.
  { injection E as <-. split; [easy|]. intros i Hi. cbn in Hi. lia. }
  rewrite <- El in *. clear El z l'. unfold verify_input in E. destruct (_ && _) eqn:V; [|discriminate]. apply andb_true_iff in V as [V _]. apply Z.ltb_lt in V.
  apply some_inj in E. subst r. split; [unfold rolling_sum; rewrite scan_length, zrange_length; unfold len; change (VectModel.F A) with xq in *; lia|].
  intros i Hi. exact (rolling_sum_spec lg ex sq pi junk l n ltac:(lia) i Hi).
Qed.
Theorem C44_returnv (a : list xq) n r i :
  returnv A a n = Some r -> (i < length a)%nat ->
  exists x, nth_error r i = Some x /\
    ((i < Z.to_nat n)%nat -> x = NaN) /\
    ((Z.to_nat n <= i)%nat -> forall p q, nth_error a i = Some (Fin p) -> nth_error a (i - Z.to_nat n) = Some (Fin q) ->
       (~ q == 0 -> exists v, x = Fin v /\ v * q == p - q)%Q /\ (q == 0 -> x = NaN)%Q).
Proof. exact (returnv_spec lg ex sq pi junk a n r i). Qed.
Theorem C44_cross (a b : list xq) r i :
  cross A a b = Some r -> (i < length a)%nat ->
  exists x, nth_error r i = Some x /\
    (x = true <-> exists ai bi ap bp k, i = S k /\ nth_error a i = Some ai /\ nth_error b i = Some bi /\
       nth_error a k = Some ap /\ nth_error b k = Some bp /\ xlt bi ai = true /\ xlt bp ap = false).
Proof. exact (cross_spec lg ex sq pi junk a b r i). Qed.
End Exact.
Print Assumptions C44_sumv.
Print Assumptions C44_returnv.
Print Assumptions C44_cross.
Definition same_values (o : option (list xq)) (l : list xq) : Prop := exists r, o = Some r /\ Forall2 xeq r l.
Example C44_example :
  same_values (sumv demo [Fin 1; PInf; Fin 2; Fin 3; NaN; Fin 4; Fin 5] 2) [NaN; PInf; PInf; Fin 5; NaN; NaN; Fin 9] /\
  same_values (returnv demo [Fin 2; Fin 3; Fin 0; Fin 6; Fin 3] 1) [NaN; Fin (1 # 2); Fin (- (1)); NaN; Fin (- (1 # 2))] /\
  cross demo [Fin 1; Fin 3; Fin 4; Fin 1; Fin 2; Fin 5] [Fin 2; Fin 2; Fin 2; Fin 2; Fin 2; Fin 2] = Some [false; true; false; false; false; true].
Proof.
  split; [eexists; split; [vm_compute; reflexivity|]; repeat constructor|].
  split; [eexists; split; [vm_compute; reflexivity|]; repeat constructor|vm_compute; reflexivity].
Qed.

(** ** C45: causality, for every arithmetic *)
Ltac take H := intros i b b' H; unfold agree_chart in H; decompose [and] H; clear H.
Section Causal.
Context (A : arith).
Theorem C45_causal_windows n :
  causal (fun b => lowv A (values b) n) /\ causal (fun b => highv A (values b) n) /\ causal (fun b => sumv A (values b) n) /\
  causal (fun b => returnv A (values b) n) /\ causal (fun b => cross A (values b) (closes b)) /\
  causal (fun b => atr A (highs b) (lows b) (closes b) n).
Proof.
  split; [take H; now apply lowv_causal|]. split; [take H; now apply highv_causal|]. split; [take H; now apply sumv_causal|].
  split; [take H; now apply returnv_causal|]. split; [take H; now apply cross_causal|take H; now apply atr_causal].
Qed.
Theorem C45_causal_strength n m k sm :
  causal (fun b => detrended_rsi A (values b) n m k) /\ causal (fun b => stochastic_rsi A (values b) n m sm) /\
  causal (fun b => laguerre_rsi A (opens b) (highs b) (lows b) (closes b) n) /\
  causal (fun b => stochastic A (highs b) (lows b) (closes b) n m).
Proof.
  split; [take H; now apply detrended_rsi_causal|]. split; [take H; now apply stochastic_rsi_causal|].
  split; [take H; now apply laguerre_rsi_causal|take H; now apply stochastic_causal].
Qed.
(** [int(long_length + smoothing)] is not negative; the code asks for non-negative arguments. *)
Theorem C45_causal_macd n m sm sc : 0 <= fint A (add A (z_ A m) sm) -> causal (fun b => macd A (highs b) (lows b) (closes b) n m sm sc).
Proof. intros Hi. take H. now apply macd_causal. Qed.
Theorem C45_causal_trend n m sc ty :
  causal (fun b => trend A (values b) (highs b) (lows b) (closes b) n m sc ty) /\ causal (fun b => deviation A (values b) n sc ty).
Proof. split; [take H; now apply trend_causal|take H; now apply deviation_causal]. Qed.
Theorem C45_causal_price n m sm sc ty :
  causal (fun b => aroon A (highs b) (lows b) n ty) /\ causal (fun b => close_minus_ma A (highs b) (lows b) (closes b) n m sc) /\
  causal (fun b => price_intensity A (opens b) (highs b) (lows b) (closes b) sm sc) /\
  causal (fun b => price_change_oscillator A (highs b) (lows b) (closes b) n m sc).
Proof.
  split; [take H; now apply aroon_causal|]. split; [take H; now apply close_minus_ma_causal|].
  split; [take H; now apply price_intensity_causal|take H; now apply price_change_oscillator_causal].
Qed.
Theorem C45_causal_volume n m sm sc oty ity :
  causal (fun b => reactivity A (highs b) (lows b) (closes b) (volumes b) n sm sc) /\
  causal (fun b => on_balance_volume A (closes b) (volumes b) n m sc oty) /\
  causal (fun b => normalized_volume_index A (closes b) (volumes b) n sc ity) /\ causal (fun b => volume_momentum A (volumes b) n m sc).
Proof.
  split; [take H; now apply reactivity_causal|]. split; [take H; now apply on_balance_volume_causal|].
  split; [take H; now apply normalized_volume_index_causal|take H; now apply volume_momentum_causal].
Qed.
(** Guard: the lookback is at least 2, or some bar up to [i] has volume. (With lookback 1
    and no volume at all yet, whether bar [i] is the last one decides whether it is
    filled with 0.) *)
Theorem C45_causal_first_volume_partial n sm sc ty : let ok := fun i b b' => 2 <= n \/ traded A i (volumes b) in
  causal_when ok (fun b => price_volume_fit A (closes b) (volumes b) n sc) /\
  causal_when ok (fun b => volume_weighted_ma_ratio A (closes b) (volumes b) n sc) /\
  causal_when ok (fun b => flow A (highs b) (lows b) (closes b) (volumes b) n sm ty).
Proof.
  intros ok. unfold ok, causal_when. repeat split; intros i b b' H T; unfold agree_chart in H; decompose [and] H; clear H.
  - now apply price_volume_fit_causal.
  - now apply volume_weighted_ma_ratio_causal.
  - now apply flow_causal.
Qed.
(** Guard: both data sets have at least [2 * lookback] bars, or neither has. *)
Theorem C45_causal_adx_partial n :
  causal_when (fun i b b' => 2 * n <= Z.of_nat (length (closes b)) <-> 2 * n <= Z.of_nat (length (closes b')))
    (fun b => adx A (highs b) (lows b) (closes b) n).
Proof. intros i b b' H T. unfold agree_chart in H. decompose [and] H. clear H. now apply adx_causal. Qed.
End Causal.
Print Assumptions C45_causal_windows.
Print Assumptions C45_causal_strength.
Print Assumptions C45_causal_macd.
Print Assumptions C45_causal_trend.
Print Assumptions C45_causal_price.
Print Assumptions C45_causal_volume.
Print Assumptions C45_causal_first_volume_partial.
Print Assumptions C45_causal_adx_partial.
Definition fins (l : list Q) : list xq := map Fin l.
Definition chart1 : chart xq :=
  mkChart xq (fins [1; 2; 3; 4]%Q) (fins [2; 3; 5; 5]%Q) (fins [1; 1; 2; 3]%Q) (fins [2; 2; 4; 4]%Q) (fins [10; 0; 20; 5]%Q) (fins [1; 3; 2; 4]%Q).
Definition chart2 : chart xq :=
  mkChart xq (fins [1; 2; 3; 9; 9]%Q) (fins [2; 3; 5; 9; 9]%Q) (fins [1; 1; 2; 8; 8]%Q) (fins [2; 2; 4; 8; 9]%Q) (fins [10; 0; 20; 50; 60]%Q) (fins [1; 3; 2; 8; 9]%Q).
(** The number of later bars alone changes the value of [adx]: fewer than [2 * lookback]
    bars give 0 everywhere. *)
Theorem C45_causal_adx_refuted : exists (A : arith) n, ~ causal (fun b => adx A (highs b) (lows b) (closes b) n).
Proof.
  exists demo, 2. intros H.
  set (short := mkChart xq (fins [1; 2; 3]%Q) (fins [2; 3; 5]%Q) (fins [1; 1; 2]%Q) (fins [2; 2; 4]%Q) (fins [10; 0; 20]%Q) (fins [1; 3; 2]%Q)).
  specialize (H 1%nat short chart1). unfold same_at in H. destruct (H ltac:(repeat split; cbn; lia) _ _ eq_refl eq_refl) as (x & E1 & E2).
  vm_compute in E1. vm_compute in E2. rewrite <- E1 in E2. discriminate.
Qed.
Print Assumptions C45_causal_adx_refuted.
Example C45_causal_example : agree_chart 2 chart1 chart2 /\ 0 <= fint demo (add demo (z_ demo 3) (Fin 2)) /\ traded demo 2 (volumes chart1) /\
  (2 * 1 <= Z.of_nat (length (closes chart1)) <-> 2 * 1 <= Z.of_nat (length (closes chart2))) /\
  (exists r, lowv demo (values chart1) 2 = Some r) /\ (exists r, macd demo (highs chart1) (lows chart1) (closes chart1) 1 3 (Fin 2) (Fin 1) = Some r) /\
  (exists r, flow demo (highs chart2) (lows chart2) (closes chart2) (volumes chart2) 1 (Fin 1) MoneyFlow = Some r) /\
  (exists r, adx demo (highs chart2) (lows chart2) (closes chart2) 1 = Some r) /\
  (exists r, trend demo (values chart2) (highs chart2) (lows chart2) (closes chart2) 3 2 (Fin 1) Linear = Some r).
Proof.
  split; [repeat split; cbn; lia|]. split; [vm_compute; discriminate|]. split; [exists 0%nat, (Fin 10); repeat split; vm_compute; lia|].
  split; [cbn; lia|]. repeat split; eexists; reflexivity.
Qed.

(** ** C45: ranges *)
Section Range.
Context (lg ex sq : xq -> xq) (pi : Q) (junk : list xq -> Z -> xq).
Notation A := (exact lg ex sq pi junk).
(** The documented range -50 to 50. *)
Theorem C45_range_documented : elementary ex sq pi -> forall n m sm sc dty ity (o h l c v : list xq),
  all_between (-50) 50 (trend A v h l c n m sc dty) /\ all_between (-50) 50 (deviation A v n sc dty) /\
  all_between (-50) 50 (close_minus_ma A h l c n m sc) /\ all_between (-50) 50 (price_intensity A o h l c sm sc) /\
  all_between (-50) 50 (price_change_oscillator A h l c n m sc) /\ all_between (-50) 50 (reactivity A h l c v n sm sc) /\
  all_between (-50) 50 (price_volume_fit A c v n sc) /\ all_between (-50) 50 (volume_weighted_ma_ratio A c v n sc) /\
  all_between (-50) 50 (on_balance_volume A c v n m sc Normalized) /\ all_between (-50) 50 (normalized_volume_index A c v n sc ity) /\
  all_between (-50) 50 (volume_momentum A v n m sc).
Proof.
  intros E n m sm sc dty ity o h l c v.
  split; [now apply trend_range|]. split; [now apply deviation_range|]. split; [now apply close_minus_ma_range|].
  split; [now apply price_intensity_range|]. split; [now apply price_change_oscillator_range|]. split; [now apply reactivity_range|].
  split; [now apply price_volume_fit_range|]. split; [now apply volume_weighted_ma_ratio_range|]. split; [now apply normalized_obv_range|].
  split; [now apply normalized_volume_index_range|now apply volume_momentum_range].
Qed.
(** Guard: no smoothing of the MACD. With it, and for the change of on-balance volume,
    twice the documented range. *)
Theorem C45_range_difference_partial : elementary ex sq pi -> forall n m sm sc (h l c v : list xq),
  (xle sm (Fin 1) = true -> all_between (-50) 50 (macd A h l c n m sm sc)) /\
  all_between (-100) 100 (macd A h l c n m sm sc) /\ all_between (-100) 100 (on_balance_volume A c v n m sc Delta).
Proof.
  intros E n m sm sc h l c v. split; [now apply macd_range|]. split; [now apply macd_range_100|now apply delta_obv_range].
Qed.
(** Oscillators of bars that are in order: the low never above the close, the close never
    above the high. *)
Theorem C45_range_oscillators n m sm (o h l c v : list xq) :
  all_between 0 100 (aroon A h l n AroonUp) /\ all_between 0 100 (aroon A h l n AroonDown) /\ all_between (-100) 100 (aroon A h l n AroonDiff) /\
  all_between (-50) 50 (stochastic_rsi A v n m sm) /\ all_between 0 100 (laguerre_rsi A o h l c n) /\
  (never_above l h -> all_between 0 100 (adx A h l c n)) /\
  (never_above l c -> never_above c h -> all_between (-50) 50 (stochastic A h l c n m)) /\
  (finite h -> finite l -> finite c -> finite v -> Forall nonneg v -> never_above l c -> never_above c h ->
     all_between (-100) 100 (flow A h l c v n sm MoneyFlow)).
Proof.
  split; [apply (aroon_range lg ex sq pi junk h l n AroonUp)|]. split; [apply (aroon_range lg ex sq pi junk h l n AroonDown)|].
  split; [apply (aroon_range lg ex sq pi junk h l n AroonDiff)|]. split; [apply stochastic_rsi_range|]. split; [apply laguerre_rsi_range|].
  split; [now apply adx_range|]. split; [now apply stochastic_range|]. intros; now apply money_flow_range.
Qed.
End Range.
Print Assumptions C45_range_documented.
Print Assumptions C45_range_difference_partial.
Print Assumptions C45_range_oscillators.
(** The documented range of the change of on-balance volume and of the smoothed MACD is
    left, whatever the exponential, the square root and the logarithm, as long as they
    have the listed properties. *)
Theorem C45_range_refuted lg ex sq pi junk : elementary' ex sq pi ->
  ~ (forall c v n m sc, all_between (-50) 50 (on_balance_volume (exact lg ex sq pi junk) c v n m sc Delta)) /\
  ~ (forall h l c n m sm sc, all_between (-50) 50 (macd (exact lg ex sq pi junk) h l c n m sm sc)).
Proof.
  intros E. split; intros H.
  - destruct (delta_obv_leaves lg ex sq pi junk E) as (r & q & Er & En & Hq). specialize (H _ _ _ _ _ r Er).
    rewrite Forall_forall in H. specialize (H _ (nth_error_In _ _ En)). cbn in H. lra.
  - destruct (macd_leaves lg ex sq pi junk E) as (r & q & Er & En & Hq). specialize (H _ _ _ _ _ _ _ r Er).
    rewrite Forall_forall in H. specialize (H _ (nth_error_In _ _ En)). cbn in H. lra.
Qed.
Print Assumptions C45_range_refuted.
Example C45_range_example : elementary' demo_exp demo_sqrt (22 # 7) /\ elementary demo_exp demo_sqrt (22 # 7) /\
  never_above (lows chart1) (closes chart1) /\ never_above (closes chart1) (highs chart1) /\ never_above (lows chart1) (highs chart1) /\
  finite (highs chart1) /\ Forall nonneg (volumes chart1) /\
  aroon demo (highs chart1) (lows chart1) 2 AroonUp = Some [Fin 50; Fin (200 # 2); Fin (200 # 2); Fin (200 # 2)].
Proof.
  split; [exact demo_elementary|]. split; [exact (proj1 demo_elementary)|].
  assert (G : forall a b, forallb (fun p => negb (xlt (snd p) (fst p))) (combine a b) = true -> never_above a b).
  { intros a b H i x y Hx Hy. rewrite forallb_forall in H. specialize (H (x, y)).
    apply negb_true_iff. apply H. clear H. revert a b Hx Hy. induction i as [|i IH]; intros [|u a] [|w b] Hx Hy; try discriminate.
    - injection Hx as ->. injection Hy as ->. now left.
    - right. apply IH; easy. }
  split; [apply G; vm_compute; reflexivity|]. split; [apply G; vm_compute; reflexivity|]. split; [apply G; vm_compute; reflexivity|].
  split; [repeat constructor; eexists; reflexivity|]. split; [repeat constructor; discriminate|]. vm_compute. reflexivity.
Qed.
