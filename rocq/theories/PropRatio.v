(** * C87, C88, C89: ratio metrics *)
From Verif Require Import RatioSpec RatioProofs RatioCurve RatioLine.
From Coq Require Import Lia Lra Psatz.
Open Scope list_scope.
Open Scope R_scope.

(** ** C87: Sharpe, Sortino and Calmar rank runs as documented *)

(** Not computable is NaN, and nothing else is: Optuna fails exactly those trials. *)
Theorem C87_computable : forall returns obs n,
  (sharpe_ratio returns obs = None <-> In None returns) /\
  (sortino_ratio returns obs = NaN <-> In None returns) /\
  (calmar_ratio returns n = NaN <-> In None returns).
Proof.
  intros returns obs n. destruct (none_dec returns) as [H|H].
  - split; [|split]; (split; [easy|]); intros _; [now apply sharpe_none| |now apply calmar_none].
    unfold sortino_ratio. destruct returns; [easy|]. now rewrite nmean_none.
  - destruct (all_some _ H) as [l ->]. split; [|split]; (split; [|easy]); intro E; exfalso.
    + now rewrite sharpe_ok in E.
    + rewrite sortino_ok in E. destruct (eqb (downside l) 0); [destruct (ltb 0 (average l))|]; easy.
    + destruct l as [|x l]; [easy|]. destruct (calmar_ok (x :: l) n) as (d & _ & Q); [easy|]. rewrite Q in E. destruct (eqb d 0); [destruct (ltb _ _)|]; easy.
Qed.
Print Assumptions C87_computable.

(** Sharpe: the mean over the standard deviation, annualized; 0 for returns that are
    all alike, or none. *)
Theorem C87_sharpe : forall l obs,
  (constant l -> sharpe_ratio (map Some l) obs = Some 0) /\
  (~ constant l -> 0 < deviation l /\ sharpe_ratio (map Some l) obs = Some (average l / deviation l * yearly obs)).
Proof.
  intros l obs. rewrite sharpe_ok. split; intro C.
  - now rewrite (proj2 (eqb_iff _ _) (proj2 (deviation_zero l) C)).
  - assert (D : deviation l <> 0) by (intro E; apply C; now apply deviation_zero). rewrite (proj2 (eqb_false _ _) D). assert (P := deviation_nonneg l). split; [lra|easy].
Qed.
Print Assumptions C87_sharpe.

(** Sortino: infinite exactly when no return is negative and one is positive; 0 when
    none is either; otherwise the mean over the downside deviation, annualized. *)
Theorem C87_sortino : forall l obs,
  (sortino_ratio (map Some l) obs = PInf <-> (forall x, In x l -> 0 <= x) /\ exists x, In x l /\ 0 < x) /\
  ((forall x, In x l -> x = 0) -> sortino_ratio (map Some l) obs = Fin 0) /\
  ((exists x, In x l /\ x < 0) -> 0 < downside l /\ sortino_ratio (map Some l) obs = Fin (average l / downside l * yearly obs)).
Proof.
  intros l obs. rewrite sortino_ok. split; [|split].
  - destruct (eqb (downside l) 0) eqn:E.
    + apply eqb_iff in E. assert (N := proj1 (downside_zero l) E). rewrite <- (average_gain l N). destruct (ltb 0 (average l)) eqn:Q.
      * apply ltb_iff in Q. tauto.
      * apply ltb_false in Q. split; [easy|]. intros [_ H]. lra.
    + apply eqb_false in E. split; [easy|]. intros [N _]. exfalso. apply E. now apply downside_zero.
  - intro Z. replace (eqb (downside l) 0) with true by (symmetry; apply eqb_iff, downside_zero; intros x I; rewrite (Z x I); lra).
    replace (ltb 0 (average l)) with false; [easy|]. symmetry. apply ltb_false. destruct (Rle_dec (average l) 0) as [|N]; [easy|]. exfalso.
    apply Rnot_le_lt in N. apply average_gain in N as (x & I & X); [rewrite (Z x I) in X; lra|]. intros x I. rewrite (Z x I). lra.
  - intros (x & I & X). assert (D : downside l <> 0) by (intro E; assert (H := proj1 (downside_zero l) E x I); lra). rewrite (proj2 (eqb_false _ _) D).
    assert (P := downside_nonneg l). split; [lra|easy].
Qed.
Print Assumptions C87_sortino.

(** For a run that did not lose on average, Sortino is not below Sharpe. *)
Theorem C87_order : forall l obs s t, 0 <= average l ->
  sharpe_ratio (map Some l) obs = Some s -> sortino_ratio (map Some l) obs = Fin t -> s <= t.
Proof.
  intros l obs s t M S T. rewrite sharpe_ok in S. rewrite sortino_ok in T. injection S as <-. assert (Y := yearly_nonneg obs). assert (Le := downside_deviation_le l M).
  assert (Dn := downside_nonneg l). destruct (eqb (downside l) 0) eqn:E.
  - destruct (ltb 0 (average l)) eqn:Q; [easy|]. injection T as <-. apply ltb_false in Q. replace (average l) with 0 by lra. destruct (eqb (deviation l) 0); [lra|]. unfold Rdiv. rewrite !Rmult_0_l. lra.
  - injection T as <-. apply eqb_false in E. replace (eqb (deviation l) 0) with false by (symmetry; apply eqb_false; lra).
    apply Rmult_le_compat_r; [easy|]. apply Rmult_le_compat_l; [easy|]. apply Rinv_le_contravar; lra.
Qed.
Print Assumptions C87_order.

(** Neither depends on leverage: multiplying every return by a positive factor changes
    nothing. *)
Theorem C87_scale : forall k l obs, 0 < k ->
  sharpe_ratio (map Some (map (Rmult k) l)) obs = sharpe_ratio (map Some l) obs /\
  sortino_ratio (map Some (map (Rmult k) l)) obs = sortino_ratio (map Some l) obs.
Proof.
  intros k l obs K. rewrite !sharpe_ok, !sortino_ok, average_scale, deviation_scale, (Rabs_right k) by lra.
  assert (Dk : downside (map (Rmult k) l) = k * downside l).
  { unfold downside. rewrite map_map. replace (map (fun x => Rmin (k * x) 0 ^ 2) l) with (map (Rmult (k ^ 2)) (map (fun x => Rmin x 0 ^ 2) l)).
    - rewrite average_scale, sqrt_mult_alt by apply pow2_ge_0. f_equal. rewrite <- Rsqr_pow2, sqrt_Rsqr_abs. apply Rabs_right. lra.
    - rewrite map_map. apply map_ext. intro x. unfold Rmin. destruct (Rle_dec x 0); destruct (Rle_dec (k * x) 0); try ring; nra. }
  rewrite Dk.
  assert (Q : forall d, eqb (k * d) 0 = eqb d 0) by (intro d; destruct (eqb d 0) eqn:E; [apply eqb_iff in E; apply eqb_iff; nra|apply eqb_false in E; apply eqb_false; nra]).
  assert (G : ltb 0 (k * average l) = ltb 0 (average l)) by (destruct (ltb 0 (average l)) eqn:E; [apply ltb_iff in E; apply ltb_iff; nra|apply ltb_false in E; apply ltb_false; nra]).
  rewrite !Q, G. split.
  - destruct (eqb (deviation l) 0) eqn:E; [easy|]. apply eqb_false in E. do 2 f_equal. field. lra.
  - destruct (eqb (downside l) 0) eqn:E; [easy|]. apply eqb_false in E. do 2 f_equal. field. lra.
Qed.
Print Assumptions C87_scale.

(** Calmar: with the largest fall [d] below the peak of the compounded returns, the
    ratio is infinite exactly for a gain without any fall, 0 without either; an
    account that is wiped out lost everything in a year; otherwise it is the
    annualized growth over [d], of the sign of the gain. *)
Theorem C87_calmar : forall l n, l <> [] -> (0 < n)%nat -> exists d, drawdown (compounded l) (length l) d /\
  let growth := compounded l (length l) in
  (calmar_ratio (map Some l) n = PInf <-> d = 0 /\ 1 < growth) /\
  (d = 0 -> growth <= 1 -> calmar_ratio (map Some l) n = Fin 0) /\
  (0 < d -> growth <= 0 -> calmar_ratio (map Some l) n = Fin (- (1) / d)) /\
  (0 < d -> 0 < growth -> exists yearly, 0 < yearly /\ Rpower yearly (INR (length l) / INR n) = growth /\
     calmar_ratio (map Some l) n = Fin ((yearly - 1) / d) /\ (1 < yearly <-> 1 < growth)).
Proof.
  intros l n NE N. destruct (calmar_ok l n NE) as (d & D & E). exists d. split; [exact D|]. cbv zeta. rewrite E. set (g := compounded l (length l)).
  assert (Pl := length_pos l NE). assert (Pn : 0 < INR n) by (now apply lt_0_INR). split; [|split; [|split]].
  - destruct (eqb d 0) eqn:Q; [apply eqb_iff in Q|apply eqb_false in Q; split; [easy|now intros []]].
    destruct (ltb 1 g) eqn:G; [apply ltb_iff in G; tauto|]. apply ltb_false in G. split; [easy|]. intros []. lra.
  - intros -> G. rewrite (proj2 (eqb_iff 0 0) eq_refl), (proj2 (ltb_false 1 g) G). easy.
  - intros P G. rewrite (proj2 (eqb_false d 0)) by lra. now rewrite (proj2 (ltb_false 0 g) G).
  - intros P G. rewrite (proj2 (eqb_false d 0)) by lra. rewrite (proj2 (ltb_iff 0 g) G). exists (Rpower g (INR n / INR (length l))).
    split; [apply Rpower_pos|]. split; [apply Rpower_root; lra|]. split; [easy|]. apply Rpower_gain; [easy|]. now apply Rdiv_lt_0_compat.
Qed.
Print Assumptions C87_calmar.
(** The ratios reported for a run are those of the relative changes of its market
    value from bar to bar, and of none from a value of 0. *)
Theorem C87_reported : forall mv bpy returns, length returns = (length mv - 1)%nat ->
  (forall k, (S k < length mv)%nat -> value_at mv k <> 0 -> value_at returns k = value_at mv (S k) / value_at mv k - 1) ->
  (forall k, (S k < length mv)%nat -> value_at mv k = 0 -> value_at returns k = 0) ->
  let m := ratio_metrics mv bpy in
  sharpe m = sharpe_ratio (map Some returns) bpy /\ sortino m = sortino_ratio (map Some returns) bpy /\
  calmar m = option_map (calmar_ratio (map Some returns)) bpy /\ max_dd_pct m = max_drawdown_percent (map Some returns).
Proof.
  intros mv bpy returns L N Z m.
  assert (E : returns = bar_returns mv).
  { clear m. revert returns L N Z. induction mv as [|x [|y mv] IH]; intros returns L N Z; [destruct returns; [easy|discriminate]|destruct returns; [easy|discriminate]|].
    destruct returns as [|r returns]; [discriminate|].
    change (bar_returns (x :: y :: mv)) with ((if eqb x 0 then 0 else (y - x) / x) :: bar_returns (y :: mv)). f_equal.
    - assert (K : (1 < length (x :: y :: mv))%nat) by (cbn; lia). specialize (N 0%nat K). specialize (Z 0%nat K). cbn in N, Z.
      unfold eqb. destruct (Req_EM_T x 0) as [->|X]; [now apply Z|]. rewrite N by easy. field. easy.
    - apply IH; [cbn in *; lia| |]; intros k K; [apply (N (S k))|apply (Z (S k))]; cbn in *; lia. }
  subst returns. unfold m, ratio_metrics. repeat split; reflexivity.
Qed.
Print Assumptions C87_reported.

(** ** C88: the ulcer index and UPI agree with the drawdown *)

(** The ulcer index is the root mean square of the percentages by which the values are
    below their peak; for values above 0 it is 0 exactly when they never fall, and
    never above the largest percentage drawdown. *)
Theorem C88_ulcer : forall l, l <> [] ->
  (exists percents, falls l percents /\ ulcer_index (map Some l) = Some (sqrt (average (map (fun x => x ^ 2) percents)))) /\
  ((forall x, In x l -> 0 < x) ->
     (ulcer_index (map Some l) = Some 0 <-> rising l) /\
     exists u, ulcer_index (map Some l) = Some u /\ 0 <= u <= - max_drawdown_percent (map Some (bar_returns l))).
Proof.
  intros l NE. split.
  - destruct (ulcer_ok l NE) as (dd & L & E & W). exists dd. split; [|exact E]. split; [easy|]. intros k p K P N. rewrite (W k p K P). unfold fall_of. now rewrite (proj2 (eqb_false p 0) N).
  - intro P. split; [now apply ulcer_zero_iff|]. destruct (mdd_ok (bar_returns l)) as (d & D & E). rewrite bar_returns_length in D.
    apply values_drawdown in D; [|easy|easy]. destruct (ulcer_le l d NE P D) as (u & U & B). exists u. split; [easy|]. rewrite E. lra.
Qed.
Print Assumptions C88_ulcer.

(** UPI of at least two values, none NaN: never NaN; infinite exactly for values that
    never fall and end above the start; otherwise a number: 0 when the ulcer index is
    0, and the annualized growth in percent, or the mean return per bar, over the
    ulcer index. *)
Theorem C88_upi : forall l obs, (2 <= length l)%nat ->
  upi (map Some l) None obs = upi (map Some l) (Some (ulcer_index (map Some l))) obs /\
  (upi (map Some l) None obs = PInf <-> rising l /\ value_at l 0 < value_at l (length l - 1)) /\
  (upi (map Some l) None obs <> PInf -> ulcer_index (map Some l) = Some 0 -> upi (map Some l) None obs = Fin 0) /\
  forall u, ulcer_index (map Some l) = Some u -> u <> 0 ->
    match obs with
    | None => exists percents, length percents = (length l - 1)%nat /\
        (forall k, (k < length l - 1)%nat -> value_at l k <> 0 -> value_at percents k = (value_at l (S k) - value_at l k) / value_at l k * 100) /\
        upi (map Some l) None obs = Fin (average percents / u)
    | Some n => forall ratio, 0 < value_at l 0 -> (0 < n)%nat -> ratio = value_at l (length l - 1) / value_at l 0 ->
        (ratio <= 0 -> upi (map Some l) None obs = Fin (- (100) / u)) /\
        (0 < ratio -> exists yearly, 0 < yearly /\ Rpower yearly (INR (length l - 1) / INR n) = ratio /\ upi (map Some l) None obs = Fin ((yearly - 1) * 100 / u))
    end.
Proof.
  intros l obs L. destruct l as [|a [|b l]]; [cbn in L; lia|cbn in L; lia|]. set (V := a :: b :: l).
  destruct (ulcer_ok V) as (dd & Ld & U & W); [easy|]. assert (Nu : ulcer_index (map Some V) <> None) by congruence.
  assert (Same : upi (map Some V) None obs = upi (map Some V) (Some (ulcer_index (map Some V))) obs) by reflexivity.
  assert (E := upi_ok a b l _ obs Nu). fold V in E. rewrite Same, E. split; [reflexivity|].
  assert (Lv : last V 0 = value_at V (length V - 1)) by (now apply last_value). assert (V0 : value_at V 0 = a) by reflexivity.
  split; [|split].
  - destruct (neq0 (ulcer_index (map Some V))) eqn:Z.
    + rewrite Lv, V0. destruct (ltb a (value_at V (length V - 1))) eqn:G; [|apply ltb_false in G; split; [easy|intros [_ K]; lra]]. apply ltb_iff in G.
      destruct (never_falls (Some a) (map Some (b :: l))) eqn:F; [apply never_falls_ok in F; tauto|]. split; [easy|]. intros [K _]. apply never_falls_ok in K. congruence.
    + split.
      * destruct (ulcer_index (map Some V)); [|easy]. destruct obs; [destruct (eqb a 0)|]; easy.
      * intros [K _]. apply rising_ulcer in K. rewrite K in Z. cbn in Z. apply eqb_false in Z. easy.
  - intros N Z. rewrite Z in *. cbn [neq0] in *. rewrite (proj2 (eqb_iff 0 0) eq_refl) in *. destruct (ltb a (last V 0)); [|easy]. destruct (never_falls _ _); easy.
  - intros u Hu Nz. rewrite Hu. cbn [neq0]. rewrite (proj2 (eqb_false u 0) Nz). destruct obs as [n|].
    + intros ratio P N R. rewrite V0 in P. rewrite (proj2 (eqb_false a 0)) by lra. cbv zeta. rewrite Lv. rewrite V0 in R. rewrite <- R. split; intro Q.
      * now rewrite (proj2 (ltb_false 0 ratio) Q).
      * rewrite (proj2 (ltb_iff 0 ratio) Q). replace (length V - 1)%nat with (length l + 1)%nat by (unfold V; cbn; lia). exists (Rpower ratio (INR n / INR (length l + 1))).
        split; [apply Rpower_pos|]. split; [|easy]. apply Rpower_root; [easy| |]; apply not_0_INR; lia.
    + exists (percents V). assert (P : forall v, length (percents v) = (length v - 1)%nat /\ forall k, (k < length v - 1)%nat -> value_at v k <> 0 -> value_at (percents v) k = (value_at v (S k) - value_at v k) / value_at v k * 100).
      { intro v. induction v as [|x [|y r] [IH1 IH2]]; [split; [easy|cbn; lia]|split; [easy|cbn; lia]|]. split; [cbn [percents length] in *; lia|].
        intros k K Q. destruct k as [|k].
        - cbn [percents value_at nth]. cbn in Q. now rewrite (proj2 (eqb_false x 0) Q).
        - change (value_at (percents (x :: y :: r)) (S k)) with (value_at (percents (y :: r)) k). apply IH2; [cbn in *; lia|exact Q]. }
      destruct (P V) as [P1 P2]. split; [exact P1|]. split; [exact P2|reflexivity].
Qed.
Print Assumptions C88_upi.

(** For market values above 0, Sortino, Calmar and UPI are infinite for the same runs:
    those that gained and never fell. *)
Theorem C88_flawless : forall mv n, (2 <= length mv)%nat -> (0 < n)%nat -> (forall x, In x mv -> 0 < x) ->
  let m := ratio_metrics mv (Some n) in let flawless := rising mv /\ value_at mv 0 < value_at mv (length mv - 1) in
  (sortino m = PInf <-> flawless) /\ (calmar m = Some PInf <-> flawless) /\ (upi_ m = PInf <-> flawless).
Proof.
  intros mv n L N P m flawless. unfold m, ratio_metrics. cbn [sortino calmar upi_ option_map].
  assert (NE : mv <> []) by (intros ->; cbn in L; lia). assert (V0 : 0 < value_at mv 0) by (apply P, in_value_at; exists 0%nat; split; [lia|easy]).
  assert (Ret : forall k, (S k < length mv)%nat -> value_at (bar_returns mv) k = (value_at mv (S k) - value_at mv k) / value_at mv k).
  { clear -P. induction mv as [|x [|y r] IH]; intros k K; [cbn in K; lia|cbn in K; lia|]. change (bar_returns (x :: y :: r)) with ((if eqb x 0 then 0 else (y - x) / x) :: bar_returns (y :: r)).
    assert (0 < x) by (apply P; now left). destruct k as [|k]; [cbn; now rewrite (proj2 (eqb_false x 0)) by lra|].
    apply (IH ltac:(intros; apply P; now right) k). cbn in *. lia. }
  assert (Len := bar_returns_length mv).
  assert (Sign : forall k, (S k < length mv)%nat -> let r := value_at (bar_returns mv) k in (0 <= r <-> value_at mv k <= value_at mv (S k)) /\ (0 < r <-> value_at mv k < value_at mv (S k))).
  { intros k K. cbv zeta. rewrite Ret by easy. assert (Pk : 0 < value_at mv k) by (apply P, in_value_at; exists k; split; [lia|easy]).
    assert (Z : (value_at mv (S k) - value_at mv k) / value_at mv k * value_at mv k = value_at mv (S k) - value_at mv k) by (field; lra).
    split; split; intro H; nra. }
  assert (Rise : rising mv <-> forall x, In x (bar_returns mv) -> 0 <= x).
  { rewrite rising_at. split.
    - intros H x I. apply in_value_at in I as (k & K & <-). rewrite Len in K. apply Sign; [lia|]. apply H; lia.
    - intros H i j I J. induction I as [|j I IH]; [lra|]. eapply Rle_trans; [apply IH; lia|]. apply Sign; [lia|]. apply H, in_value_at. exists j. split; [lia|easy]. }
  assert (Gain : rising mv -> (value_at mv 0 < value_at mv (length mv - 1) <-> exists x, In x (bar_returns mv) /\ 0 < x)).
  { intro R. rewrite rising_at in R. split.
    - intro G. assert (Ex : forall j, (j < length mv)%nat -> value_at mv 0 < value_at mv j -> exists k, (S k <= j)%nat /\ value_at mv k < value_at mv (S k)).
      { induction j as [|j IH]; intros J Q; [lra|]. destruct (Rlt_dec (value_at mv j) (value_at mv (S j))) as [H|H]; [exists j; split; [lia|easy]|].
        destruct IH as (k & K & Q'); [lia|lra|]. exists k. split; [lia|easy]. }
      destruct (Ex (length mv - 1)%nat ltac:(lia) G) as (k & K & Q). exists (value_at (bar_returns mv) k). split; [apply in_value_at; exists k; split; [lia|easy]|]. apply Sign; [lia|easy].
    - intros (x & I & X). apply in_value_at in I as (k & K & <-). rewrite Len in K. apply Sign in X; [|lia].
      apply Rle_lt_trans with (value_at mv k); [apply R; lia|]. eapply Rlt_le_trans; [exact X|apply R; lia]. }
  split; [|split].
  - destruct (C87_sortino (bar_returns mv) (Some n)) as [S _]. rewrite S. unfold flawless. rewrite <- Rise. split; intros [A B]; (split; [easy|]); now apply Gain.
  - assert (NB : bar_returns mv <> []) by (intro E; rewrite E in Len; cbn in Len; lia). destruct (C87_calmar (bar_returns mv) n NB N) as (d & D & C & _). rewrite Len in D, C.
    rewrite (compounded_values mv P) in C by lia. apply values_drawdown in D; [|easy|easy].
    assert (Dz : d = 0 <-> rising mv).
    { destruct D as (D0 & D1 & D2). split.
      - intros ->. apply rising_at. intros i j I J. destruct (peak_ex (value_at mv) j) as [p Pk]. specialize (D1 j p ltac:(lia) Pk). destruct Pk as [_ Pk]. specialize (Pk i I). lra.
      - intro R. destruct D2 as [->|(k & p & K & Pk & E)]; [easy|]. rewrite (rising_peak mv k p R ltac:(lia) Pk) in E.
        assert (0 < value_at mv k) by (apply P, in_value_at; exists k; split; [lia|easy]). nra. }
    assert (Gz : 1 < value_at mv (length mv - 1) / value_at mv 0 <-> value_at mv 0 < value_at mv (length mv - 1)).
    { assert (Z : value_at mv (length mv - 1) / value_at mv 0 * value_at mv 0 = value_at mv (length mv - 1)) by (field; lra). split; intro H; nra. }
    rewrite Dz, Gz in C. unfold flawless. rewrite <- C. split; [now intros [= ->]|now intros ->].
  - destruct (C88_upi mv (Some n) L) as (Q & R & _). rewrite <- Q. exact R.
Qed.
Print Assumptions C88_flawless.

(** ** C89: R-squared and the annual return *)

(** R-squared: 0 for values that are all alike; otherwise between 0 and 1, the share of
    the spread that the best line explains. *)
Theorem C89_r_squared : forall l,
  (constant l -> r_squared l = 0) /\
  (~ constant l -> 0 < spread l /\ 0 <= r_squared l <= 1 /\
     (exists a b, misses l a b = (1 - r_squared l) * spread l) /\ forall a b, (1 - r_squared l) * spread l <= misses l a b).
Proof.
  intro l. split; [apply r_squared_flat|]. intro C. destruct (r_squared_range l C) as [P B]. split; [easy|]. split; [easy|].
  apply r_squared_ok; [intros ->; apply C; now intros x y []|lra].
Qed.
Print Assumptions C89_r_squared.

(** The annual return, compounded over the years of the run, is the total return; it is
    a gain exactly when the run gained. For a run whose end value is above 0: see
    [C89_annual_return_refuted]. *)
Theorem C89_annual_return_partial : forall initial pnl n bars, 0 < initial -> 0 < pnl + initial -> (0 < n)%nat -> (1 < bars)%nat ->
  exists a, annual_total_return_percent initial pnl n bars = Some a /\
    Rpower (1 + a / 100) (INR (bars - 1) / INR n) = 1 + total_return_percent initial pnl / 100 /\ (0 < a <-> 0 < pnl).
Proof.
  intros initial pnl n bars I P N B. unfold annual_total_return_percent, total_return_percent. rewrite (proj2 (eqb_false initial 0)) by lra.
  replace (Nat.leb bars 1) with false by (symmetry; apply Nat.leb_gt; lia). cbn [orb]. set (r := (pnl + initial) / initial).
  assert (R : 0 < r) by (now apply Rdiv_lt_0_compat). unfold np_power. rewrite (proj2 (ltb_iff 0 r) R). cbn [option_map]. eexists. split; [reflexivity|].
  assert (Pn : 0 < INR n) by (now apply lt_0_INR). assert (Pb : 0 < INR (bars - 1)) by (apply lt_0_INR; lia). set (y := Rpower r (INR n / INR (bars - 1))). split.
  - replace (1 + (y - 1) * 100 / 100) with y by field. unfold y. rewrite Rpower_root by lra. field.
  - assert (G := Rpower_gain r (INR n / INR (bars - 1)) R ltac:(now apply Rdiv_lt_0_compat)). fold y in G.
    assert (Z : r * initial = pnl + initial) by (unfold r; field; lra). assert (1 < r <-> 0 < pnl) by (split; intro; nra). split; intro H0; [apply H, G; lra|]. apply H, G in H0. lra.
Qed.
Print Assumptions C89_annual_return_partial.

(** An account that ends below 0, as leverage allows, has no annual return: it is NaN,
    though its Calmar ratio and UPI count it as a total loss. *)
Theorem C89_annual_return_refuted : exists initial pnl n bars, 0 < initial /\ (0 < n)%nat /\ (1 < bars)%nat /\
  annual_total_return_percent initial pnl n bars = None /\
  (forall returns, In None returns \/ calmar_ratio returns n <> NaN) /\
  forall l, (2 <= length l)%nat -> upi (map Some l) None (Some n) <> NaN.
Proof.
  exists 1, (-2), 1%nat, 3%nat. split; [lra|]. split; [lia|]. split; [lia|]. split; [|split].
  - unfold annual_total_return_percent. rewrite (proj2 (eqb_false 1 0)) by lra. cbn [orb Nat.leb]. unfold np_power.
    replace ((-2 + 1) / 1) with (-1) by field. rewrite (proj2 (ltb_false 0 (-1))) by lra. rewrite (proj2 (eqb_false (-1) 0)) by lra.
    replace (is_int _) with false; [reflexivity|]. symmetry. apply eqb_false. cbn [Nat.sub INR]. intro E. set (z := Int_part _) in E.
    assert (Q : IZR (2 * z) = IZR 1) by (rewrite mult_IZR, <- E; cbn; lra). apply eq_IZR in Q. lia.
  - intro returns. destruct (none_dec returns) as [H|H]; [now left|]. right. intro E. apply H. now apply (C87_computable returns None 1).
  - intros l L E. destruct l as [|a [|b l]]; [cbn in L; lia|cbn in L; lia|]. set (V := a :: b :: l) in *. destruct (ulcer_ok V) as (dd & _ & U & _); [easy|].
    assert (Nu : ulcer_index (map Some V) <> None) by congruence. assert (Q := upi_ok a b l _ (Some 1%nat) Nu). fold V in Q.
    change (upi (map Some V) None (Some 1%nat)) with (upi (map Some V) (Some (ulcer_index (map Some V))) (Some 1%nat)) in E. rewrite E in Q. rewrite U in Q.
    destruct (neq0 _); [destruct (ltb _ _); [destruct (never_falls _ _)|]; easy|]. destruct (eqb a 0); easy.
Qed.
Print Assumptions C89_annual_return_refuted.

(** An account that ends at 0 lost 100 percent a year; a run of at most one bar, or one
    that starts with 0, has no return: 0. *)
Theorem C89_annual_return_edges : forall initial pnl n bars, (0 < n)%nat ->
  (0 < initial -> pnl + initial = 0 -> (1 < bars)%nat -> annual_total_return_percent initial pnl n bars = Some (-100)) /\
  (initial = 0 \/ (bars <= 1)%nat -> annual_total_return_percent initial pnl n bars = Some 0).
Proof.
  intros initial pnl n bars N. unfold annual_total_return_percent. split.
  - intros I P B. rewrite (proj2 (eqb_false initial 0)) by lra. replace (Nat.leb bars 1) with false by (symmetry; apply Nat.leb_gt; lia). cbn [orb].
    rewrite P. unfold np_power. replace (0 / initial) with 0 by (field; lra). rewrite (proj2 (ltb_false 0 0)) by lra. rewrite (proj2 (eqb_iff 0 0)) by lra.
    assert (Y : 0 < INR n / INR (bars - 1)) by (apply Rdiv_lt_0_compat; apply lt_0_INR; lia).
    rewrite (proj2 (eqb_false (INR n / INR (bars - 1)) 0)) by lra. cbn. f_equal. lra.
  - intros [->|B]; [rewrite (proj2 (eqb_iff 0 0)) by lra; reflexivity|]. replace (Nat.leb bars 1) with true by (symmetry; apply Nat.leb_le; lia).
    destruct (eqb initial 0); reflexivity.
Qed.
Print Assumptions C89_annual_return_edges.

(** An account that ends below 0 can even be said to have gained: three times the cash
    lost in half a year is 300 percent a year, since a negative number squared is
    positive. *)
Theorem C89_annual_gain_refuted : exists initial pnl n bars, 0 < initial /\ (0 < n)%nat /\ (1 < bars)%nat /\ pnl < 0 /\
  annual_total_return_percent initial pnl n bars = Some 300.
Proof.
  exists 1, (-3), 2%nat, 2%nat. split; [lra|]. split; [lia|]. split; [lia|]. split; [lra|].
  unfold annual_total_return_percent. rewrite (proj2 (eqb_false 1 0)) by lra. cbn [orb Nat.leb]. unfold np_power.
  replace ((-3 + 1) / 1) with (-2) by field. rewrite (proj2 (ltb_false 0 (-2))) by lra. rewrite (proj2 (eqb_false (-2) 0)) by lra.
  cbn [Nat.sub]. replace (INR 2 / INR 1) with (IZR 2) by (cbn; lra).
  assert (E : Int_part (IZR 2) = 2%Z).
  { destruct (base_Int_part (IZR 2)) as (A & B). assert (LE : (Int_part 2 <= 2)%Z) by (apply le_IZR; lra).
    assert (GT : IZR (Int_part 2) > IZR 1) by lra. apply lt_IZR in GT. lia. }
  unfold is_int. rewrite E. rewrite (proj2 (eqb_iff 2 2)) by lra. cbn [option_map]. change (powerRZ (-2) 2) with (pow (-2) 2). replace (pow (-2) 2) with 4 by ring. replace ((4 - 1) * 100) with 300 by lra. reflexivity.
Qed.
Print Assumptions C89_annual_gain_refuted.

(** Values that rise, fall and rise: Sharpe and Sortino of the returns -1/2 and 1, and
    the hypotheses of C87-C89. *)
Example C87_example : sortino_ratio (map Some [-(1/2); 1]) None = Fin (average [-(1/2); 1] / downside [-(1/2); 1] * 1) /\ 0 <= average [-(1/2); 1] /\
  ~ constant [-(1/2); 1] /\ compounded [-(1/2); 1] 2 = 1 /\ drawdown (compounded [-(1/2); 1]) 2 (1/2).
Proof.
  split; [|split; [unfold average; cbn; lra|split; [intro C; specialize (C (-(1/2)) 1 (or_introl eq_refl) (or_intror (or_introl eq_refl))); lra|split; [unfold compounded; cbn; lra|]]]].
  - apply (C87_sortino [-(1/2); 1] None). exists (-(1/2)). split; [now left|lra].
  - assert (F0 : compounded [-(1/2); 1] 0 = 1) by reflexivity. assert (F1 : compounded [-(1/2); 1] 1 = 1/2) by (unfold compounded; cbn; lra). assert (F2 : compounded [-(1/2); 1] 2 = 1) by (unfold compounded; cbn; lra).
    assert (Pk : forall k, (k <= 2)%nat -> peak (compounded [-(1/2); 1]) k 1).
    { intros k K. split; [exists 0%nat; split; [lia|now rewrite F0]|]. intros i I. destruct i as [|[|[|i]]]; [rewrite F0; lra|rewrite F1; lra|rewrite F2; lra|lia]. }
    split; [lra|]. split.
    + intros k p K Q. rewrite (peak_fun _ _ _ _ Q (Pk k K)). destruct k as [|[|[|k]]]; [rewrite F0; lra|rewrite F1; lra|rewrite F2; lra|lia].
    + right. exists 1%nat, 1. split; [lia|]. split; [apply Pk; lia|]. rewrite F1. lra.
Qed.
Example C88_example : (2 <= length [2; 3; 3; 5])%nat /\ (forall x, In x [2; 3; 3; 5] -> 0 < x) /\ upi_ (ratio_metrics [2; 3; 3; 5] (Some 252%nat)) = PInf /\ ~ rising [2; 3; 1].
Proof.
  assert (P : forall x, In x [2; 3; 3; 5] -> 0 < x) by (cbn; intros x H; intuition (subst; lra)).
  split; [cbn; lia|]. split; [exact P|]. split.
  - apply (C88_flawless [2; 3; 3; 5] 252); [cbn; lia|lia|exact P|]. split; [|cbn; lra].
    apply rising_at. intros i j I J. cbn in J. destruct i as [|[|[|[|i]]]]; destruct j as [|[|[|[|j]]]]; try lia; cbn; lra.
  - intro H. specialize (H 1%nat 2%nat 3 1 ltac:(lia) eq_refl eq_refl). lra.
Qed.
Example C89_example : ~ constant [1; 2; 4] /\ misses [1; 2; 4] (5/6) (3/2) = 1/6 /\ spread [1; 2; 4] = 14/3.
Proof. split; [intro C; specialize (C 1 2 (or_introl eq_refl) (or_intror (or_introl eq_refl))); lra|]. unfold misses, spread, average. cbn. split; lra. Qed.
