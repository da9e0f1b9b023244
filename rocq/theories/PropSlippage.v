(** C41: slippage only worsens fills. *)
From Coq Require Import List Bool Arith Lia ZArith QArith Qround Qminmax Lqa.
From Verif Require Import VectModel VectExact VectRanges2.
From Verif Require Import Lemmas.
From Verif Require Import SlippageSpec ScopeProofs SlippageProofs PropScope.
Import ListNotations.
Open Scope list_scope.
Open Scope Q_scope.

Lemma accepted_fixed bps : accepted (SFixed bps) = true -> 0 <= bps < 10000.
Proof. cbn. rewrite andb_true_iff, negb_true_iff. intros [H1 H2]. apply Qle_bool_iff in H1. apply qle_false in H2. lra. Qed.
Lemma accepted_volatility n k : accepted (SVolatility n k) = true -> (1 <= n)%Z /\ 0 <= k.
Proof. cbn. rewrite andb_true_iff, negb_true_iff. intros [H1 H2]. apply Qle_bool_iff in H2. apply Z.ltb_ge in H1. split; [lia|lra]. Qed.
Lemma accepted_volume i l : accepted (SVolume i l) = true -> 0 <= i.
Proof. cbn. rewrite andb_true_iff. intros [H1 _]. now apply Qle_bool_iff. Qed.
(** What every built-in model does to a fill. *)
Lemma slippage_ok lg ex sq pi junk m ctx s' p' :
  accepted m = true -> 0 < sx_price ctx -> 0 <= sx_shares ctx ->
  ((exists n k, m = SVolatility n k) -> forall cols, sx_cols ctx = Some cols -> highs_above_lows cols) ->
  apply_slippage lg ex sq pi junk m ctx = Ok (s', p') ->
  0 <= s' <= sx_shares ctx /\ no_better (sx_buy ctx) (sx_price ctx) p' /\ positive p' /\
  (sx_fractional ctx = false -> (exists z, sx_shares ctx == inject_Z z) -> exists z, s' == inject_Z z).
Proof.
  intros HA Hp Hs Hb E. destruct m as [|bps|n k|i l]; cbn [apply_slippage] in E.
  - injection E as <- <-. pose proof (price_self (sx_buy ctx) _ Hp). repeat split; try lra; try easy.
  - injection E as <- <-. pose proof (fixed_ok bps (sx_buy ctx) _ (accepted_fixed _ HA) Hp). repeat split; try lra; try easy.
  - destruct (accepted_volatility n k HA) as [Hn Hk].
    destruct (volatility_ok lg ex sq pi junk n k ctx s' p' Hn Hk Hp (Hb (ex_intro _ n (ex_intro _ k eq_refl))) E) as (-> & G1 & G2).
    repeat split; try lra; try easy.
  - exact (volume_ok i l ctx s' p' (accepted_volume _ _ HA) Hp Hs E).
Qed.

(** Every built-in model with parameters its constructor accepts, applied to any
    fill at a positive price: buys never cheaper, sells never dearer, a positive
    price, no more shares than asked. [_partial]: for the volatility model only on
    bars whose high is not below their low, see [C41_refuted]. *)
Theorem C41_no_better_partial : forall lg ex sq pi junk m ctx s' p',
  accepted m = true -> 0 < sx_price ctx -> 0 <= sx_shares ctx ->
  ((exists n k, m = SVolatility n k) -> forall cols, sx_cols ctx = Some cols -> highs_above_lows cols) ->
  apply_slippage lg ex sq pi junk m ctx = Ok (s', p') \/ adjust_fill lg ex sq pi junk m ctx = Ok (s', p') ->
  0 <= s' <= sx_shares ctx /\ no_better (sx_buy ctx) (sx_price ctx) p' /\ positive p'.
Proof.
  intros lg ex sq pi junk m ctx s' p' HA Hp Hs Hb [E|E].
  - destruct (slippage_ok lg ex sq pi junk m ctx s' p' HA Hp Hs Hb E) as (G1 & G2 & G3 & _). tauto.
  - unfold adjust_fill in E. destruct (is_fill_noop m).
    + injection E as <- <-. pose proof (price_self (sx_buy ctx) _ Hp). split; [lra|easy].
    + destruct (slippage_ok lg ex sq pi junk m ctx s' p' HA Hp Hs Hb E) as (G1 & G2 & G3 & _). tauto.
Qed.
Print Assumptions C41_no_better_partial.

(** The same through the path a scheduled order takes, which also keeps whole
    share counts whole when fractional shares are off. *)
Theorem C41_orders_partial : forall lg ex sq pi junk m ctx s' p',
  (forall m', m = Some m' -> accepted m' = true) -> 0 < sx_price ctx -> 0 <= sx_shares ctx ->
  ((exists n k, m = Some (SVolatility n k)) -> forall cols, sx_cols ctx = Some cols -> highs_above_lows cols) ->
  order_slippage lg ex sq pi junk m ctx = Ok (s', p') ->
  0 <= s' <= sx_shares ctx /\ no_better (sx_buy ctx) (sx_price ctx) p' /\ positive p' /\
  (sx_fractional ctx = false -> (exists z, sx_shares ctx == inject_Z z) -> exists z, s' == inject_Z z).
Proof.
  intros lg ex sq pi junk m ctx s' p' HA Hp Hs Hb E. unfold order_slippage in E.
  assert (U : Ok (sx_shares ctx, Fin (sx_price ctx)) = Ok (s', p') ->
     0 <= s' <= sx_shares ctx /\ no_better (sx_buy ctx) (sx_price ctx) p' /\ positive p' /\
     (sx_fractional ctx = false -> (exists z, sx_shares ctx == inject_Z z) -> exists z, s' == inject_Z z)).
  { intros [= <- <-]. pose proof (price_self (sx_buy ctx) _ Hp). repeat split; try lra; try easy. }
  destruct m as [m|]; [|now apply U]. specialize (HA m eq_refl).
  assert (G : (if is_fill_noop m then Ok (sx_shares ctx, Fin (sx_price ctx))
      else bind (apply_slippage lg ex sq pi junk m ctx) (fun r =>
           let '(shares, price) := r in
           if negb (Qle_bool 0 shares) || negb (Qle_bool shares (sx_shares ctx)) then Raise BadPredictions
           else Ok (if sx_fractional ctx then shares else inject_Z (py_trunc shares), price))) = Ok (s', p') ->
     0 <= s' <= sx_shares ctx /\ no_better (sx_buy ctx) (sx_price ctx) p' /\ positive p' /\
     (sx_fractional ctx = false -> (exists z, sx_shares ctx == inject_Z z) -> exists z, s' == inject_Z z)).
  { clear E. intros E. destruct (is_fill_noop m); [now apply U|].
    destruct (apply_slippage lg ex sq pi junk m ctx) as [[s p]|] eqn:EA; [|easy]. cbn [bind] in E.
    destruct (slippage_ok lg ex sq pi junk m ctx s p HA Hp Hs) with (2 := EA) as (G1 & G2 & G3 & G4).
    { intros (n & k & ->). apply Hb. now exists n, k. }
    destruct (_ || _); [easy|]. injection E as <- <-. destruct (sx_fractional ctx); [tauto|].
    pose proof (trunc_range s (proj1 G1)). repeat split; try lra; try easy. intros _ _. now eexists. }
  destruct m as [|bps|n k|i l]; try exact (G E).
  injection E as <- <-. pose proof (fixed_ok bps (sx_buy ctx) _ (accepted_fixed _ HA) Hp). repeat split; try lra; try easy.
Qed.
Print Assumptions C41_orders_partial.

(** What the constructors accept. *)
Theorem C41_accepted : forall m, accepted m = true <-> permitted m.
Proof.
  intros [|bps|n k|i l]; cbn [accepted permitted]; rewrite ?andb_true_iff, ?negb_true_iff; [easy| | |].
  - rewrite Qle_bool_iff. split; intros [A B]; split; auto.
    + apply Qnot_le_lt. intros C. apply Qle_bool_iff in C. congruence.
    + destruct (Qle_bool 10000 bps) eqn:C; auto. apply Qle_bool_iff in C. lra.
  - rewrite Qle_bool_iff, Z.ltb_ge. easy.
  - destruct l as [l|]; rewrite ?Qle_bool_iff; split; intros [A B]; split; auto; try easy. now intros ? [= <-].
Qed.
Print Assumptions C41_accepted.

(** The shortcuts of models that change nothing give the model's own answer: [adjust_fill]
    returns what [apply_slippage] does, and a scheduled order is filled at that price and
    share count, whole where fractional shares are off. *)
Theorem C41_same_fill : forall lg ex sq pi junk m ctx,
  adjust_fill lg ex sq pi junk m ctx = apply_slippage lg ex sq pi junk m ctx /\
  forall s p, apply_slippage lg ex sq pi junk m ctx = Ok (s, p) -> 0 <= s <= sx_shares ctx ->
    sx_fractional ctx = true \/ (exists z, s == inject_Z z) ->
    exists s', order_slippage lg ex sq pi junk (Some m) ctx = Ok (s', p) /\ s' == s.
Proof.
  intros lg ex sq pi junk m ctx.
  assert (N : is_fill_noop m = true -> apply_slippage lg ex sq pi junk m ctx = Ok (sx_shares ctx, Fin (sx_price ctx))).
  { destruct m as [|bps|n k|i l]; intros N.
    - reflexivity.
    - cbn [is_fill_noop] in N. cbn [apply_slippage]. unfold adjust_fixed. now rewrite N.
    - cbn [is_fill_noop] in N. cbn [apply_slippage]. unfold apply_volatility. now rewrite N.
    - cbn [apply_slippage]. unfold apply_volume. now rewrite N. }
  split.
  - unfold adjust_fill. destruct (is_fill_noop m) eqn:E; [now rewrite N|reflexivity].
  - intros s p A [S0 S1] W. unfold order_slippage.
    assert (G : exists s', (if is_fill_noop m then Ok (sx_shares ctx, Fin (sx_price ctx))
      else bind (apply_slippage lg ex sq pi junk m ctx) (fun r =>
           let '(shares, price) := r in
           if negb (Qle_bool 0 shares) || negb (Qle_bool shares (sx_shares ctx)) then Raise BadPredictions
           else Ok (if sx_fractional ctx then shares else inject_Z (py_trunc shares), price))) = Ok (s', p) /\ s' == s).
    { destruct (is_fill_noop m); [rewrite N in A by reflexivity; injection A as <- <-; now eexists|].
      rewrite A. cbn [bind]. apply Qle_bool_iff in S0 as B0. apply Qle_bool_iff in S1 as B1. rewrite B0, B1. cbn [negb orb].
      eexists. split; [reflexivity|]. destruct (sx_fractional ctx); [reflexivity|]. destruct W as [W|[z W]]; [discriminate|].
      rewrite trunc_nn by exact S0. rewrite W at 1. rewrite Qfloor_Z. now symmetry. }
    destruct m as [|bps|n k|i l]; try exact G. cbn [apply_slippage] in A. injection A as <- <-. now eexists.
Qed.
Print Assumptions C41_same_fill.

(** The share count check of the order path never fires for a built-in model. *)
Theorem C41_never_rejected : forall lg ex sq pi junk m ctx,
  accepted m = true -> 0 < sx_price ctx -> 0 <= sx_shares ctx ->
  order_slippage lg ex sq pi junk (Some m) ctx <> Raise BadPredictions.
Proof.
  intros lg ex sq pi junk m ctx HA Hp Hs E. unfold order_slippage in E.
  destruct (apply_slippage lg ex sq pi junk m ctx) as [[s p]|e] eqn:EA.
  - exfalso. assert (G : 0 <= s <= sx_shares ctx).
    { destruct m as [|bps|n k|i l]; cbn [apply_slippage] in EA.
      - injection EA as <- <-. lra.
      - injection EA as <- <-. lra.
      - (* the share count is never changed *)
        assert (s = sx_shares ctx); [|subst; lra]. clear - EA. unfold apply_volatility, bind in EA. cbv zeta in EA.
        repeat match type of EA with
        | (match ?x with _ => _ end) = _ => destruct x; try discriminate EA
        end; now injection EA as <- <-.
      - destruct (volume_ok i l ctx s p (accepted_volume _ _ HA) Hp Hs EA) as (G & _). exact G. }
    destruct G as [G1 G2]. apply Qle_bool_iff in G1, G2.
    destruct m as [|bps|n k|i l]; [| |destruct (is_fill_noop _)|destruct (is_fill_noop _)]; cbn [bind] in E; try discriminate E;
      rewrite G1, G2 in E; discriminate E.
  - assert (e = BadPredictions).
    { destruct m as [|bps|n k|i l]; try discriminate EA; destruct (is_fill_noop _); cbn [bind] in E; congruence. }
    subst e. clear - EA. destruct m as [|bps|n k|i l]; cbn [apply_slippage] in EA; try discriminate EA.
    + unfold apply_volatility, bind, item in EA. cbv zeta in EA.
      repeat match type of EA with
      | (match (match ?y with _ => _ end) with _ => _ end) = _ => destruct y; try discriminate EA
      | (match ?x with _ => _ end) = _ => destruct x; try discriminate EA end.
    + unfold apply_volume, fetch_scalar in EA. cbv zeta in EA.
      destruct (is_fill_noop _); [discriminate|]. destruct (sx_cols ctx) as [cols|]; [|discriminate].
      destruct (sx_end_index ctx) as [ends|]; [|discriminate]. destruct (lookup (sx_symbol ctx) ends) as [e|]; [|discriminate].
      destruct (fetch_value cols (sx_symbol ctx) col_volume e) as [v|x] eqn:F; cbn [bind] in EA.
      * destruct v as [[]|]; try discriminate EA; destruct (xle _ _); try discriminate EA; destruct (cap l); discriminate EA.
      * injection EA as ->. unfold fetch_value, last_value, item, bind in F. cbv zeta in F.
        repeat match type of F with
        | (match (match ?y with _ => _ end) with _ => _ end) = _ => destruct y; try discriminate F
        | (match ?x with _ => _ end) = _ => destruct x; try discriminate F end.
Qed.
Print Assumptions C41_never_rejected.

(** [FixedSlippageModel]: exactly the given number of basis points. *)
Theorem C41_fixed_price : forall lg ex sq pi junk bps ctx,
  exists r, apply_slippage lg ex sq pi junk (SFixed bps) ctx = Ok (sx_shares ctx, Fin r) /\
    order_slippage lg ex sq pi junk (Some (SFixed bps)) ctx = Ok (sx_shares ctx, Fin r) /\
    r == if sx_buy ctx then sx_price ctx * (1 + bps / 10000) else sx_price ctx * (1 - bps / 10000).
Proof.
  intros lg ex sq pi junk bps ctx. cbn. unfold adjust_fixed. destruct (Qeq_bool bps 0) eqn:B.
  - exists (sx_price ctx). split; [easy|]. split; [easy|]. apply Qeq_bool_iff in B. destruct (sx_buy ctx); rewrite B; field.
  - destruct (sx_buy ctx); eexists; repeat split; reflexivity.
Qed.
Print Assumptions C41_fixed_price.

(** [VolumeSlippageModel] on a bar with a volume: the share count is the order's,
    capped at [volume_limit] times the volume, and the price moves by the square
    law of the shares actually filled, never below one percent. *)
Theorem C41_volume_cap : forall lg ex sq pi junk impact limit ctx cols ends e v,
  accepted (SVolume impact limit) = true -> 0 < sx_price ctx -> 0 <= sx_shares ctx ->
  0 < impact \/ (exists l, limit = Some l /\ 0 < l) ->
  sx_cols ctx = Some cols -> sx_end_index ctx = Some ends -> lookup (sx_symbol ctx) ends = Some e ->
  fetch_value cols (sx_symbol ctx) col_volume e = Ok (Some (Fin v)) ->
  exists s' p', apply_slippage lg ex sq pi junk (SVolume impact limit) ctx = Ok (s', p') /\
    (forall l, limit = Some l -> 0 < l ->
       s' <= Qmax 0 (l * v) /\
       (sx_fractional ctx = true -> s' == Qmin (sx_shares ctx) (Qmax 0 (l * v))) /\
       (sx_fractional ctx = false -> forall z, sx_shares ctx == inject_Z z ->
          s' == inject_Z (Z.min z (Qfloor (Qmax 0 (l * v)))))) /\
    (limit = None \/ limit = Some 0 -> s' == sx_shares ctx) /\
    (0 < v -> exists r, p' = Fin r /\
       r == if sx_buy ctx then sx_price ctx * (1 + impact * (s' / v) * (s' / v))
            else floored (sx_price ctx) (sx_price ctx * (1 - impact * (s' / v) * (s' / v)))).
Proof.
  intros lg ex sq pi junk impact limit ctx cols ends e v HA Hp Hs HE C I L F.
  assert (N : is_fill_noop (SVolume impact limit) = false).
  { cbn. destruct HE as [H|(l & -> & H)].
    - destruct (cap limit); [easy|]. rewrite negb_false_iff. now apply impact_some.
    - unfold cap. now rewrite (proj2 (qle_false l 0) H). }
  destruct (volume_shares impact limit ctx (Fin v) cols ends e N C I L F eq_refl Hs Hp (accepted_volume _ _ HA))
    as (s' & p' & E & G1 & _ & _ & G4 & G5 & _ & G7).
  exists s', p'. split; [exact E|]. split; [|split].
  - intros l -> Hl. assert (CL : cap (Some l) = Some l) by (unfold cap; now rewrite (proj2 (qle_false l 0) Hl)).
    specialize (G4 l v CL eq_refl). clear G5 G7 E.
    destruct (Qle_bool v 0) eqn:Q0.
    + apply Qle_bool_iff in Q0. assert (Qmax 0 (l * v) == 0) by (apply Q.max_l; nra). subst s'.
      split; [rewrite H; lra|]. split; [intros _; rewrite H; symmetry; apply Q.min_r; lra|].
      intros _ z Hz. rewrite H. change (Qfloor 0) with 0%Z.
      assert (0 <= z)%Z by (rewrite Zle_Qle; rewrite <- Hz; exact Hs). now rewrite Z.min_r by lia.
    + apply qle_false in Q0. assert (P : 0 <= l * v) by nra. assert (M : Qmax 0 (l * v) == l * v) by now apply Q.max_r.
      destruct (Qle_bool (sx_shares ctx) (l * v)) eqn:B.
      * apply Qle_bool_iff in B. subst s'. split; [now rewrite M|]. split; [intros _; rewrite M; symmetry; now apply Q.min_l|].
        intros _ z Hz. rewrite M. rewrite Z.min_l; [exact Hz|]. rewrite <- (Qfloor_Z z). apply Qfloor_resp_le. now rewrite <- Hz.
      * apply qle_false in B. destruct (sx_fractional ctx); subst s'.
        -- split; [rewrite M; lra|]. split; [|easy]. intros _. rewrite M. symmetry. apply Q.min_r. lra.
        -- split; [rewrite M; now apply trunc_range|]. split; [easy|]. intros _ z Hz. rewrite M, (trunc_nn _ P).
           rewrite Z.min_r; [reflexivity|]. rewrite <- (Qfloor_Z z). apply Qfloor_resp_le. rewrite <- Hz. lra.
  - intros Hl. rewrite G5; [reflexivity|]. destruct Hl as [->| ->]; reflexivity.
  - intros Hv. exact (G7 v eq_refl Hv).
Qed.
Print Assumptions C41_volume_cap.

(** [VolatilitySlippageModel] on bars of numbers, the fill bar being the last of
    [before ++ b0 :: window]: the price moves by [scale] times the mean true range
    of the last [atr_period] bars, never below one percent. *)
Theorem C41_volatility_price : forall lg ex sq pi junk period scale ctx cols ends c before b0 window h' l' c',
  (1 <= length window)%nat -> period = Z.of_nat (length window) -> 0 < sx_price ctx ->
  sx_cols ctx = Some cols -> sx_end_index ctx = Some ends ->
  let bars := before ++ b0 :: window in
  lookup (sx_symbol ctx) ends = Some (Z.of_nat (length bars)) -> lookup (sx_symbol ctx) cols = Some c ->
  lookup col_high c = Some (map (fun b => Fin (b_high b)) bars ++ h') ->
  lookup col_low c = Some (map (fun b => Fin (b_low b)) bars ++ l') ->
  lookup col_close c = Some (map (fun b => Fin (b_close b)) bars ++ c') ->
  exists r, apply_slippage lg ex sq pi junk (SVolatility period scale) ctx = Ok (sx_shares ctx, Fin r) /\
    let move := scale * (sum_true_range (b_close b0) window / inject_Z period) in
    r == floored (sx_price ctx) (if sx_buy ctx then sx_price ctx + move else sx_price ctx - move).
Proof.
  intros lg ex sq pi junk period scale ctx cols ends c before b0 window h' l' c' Hw -> Hp C I bars L Lc Lh Ll Lcl.
  cbn [apply_slippage]. unfold apply_volatility. cbv zeta.
  destruct (Qeq_bool scale 0) eqn:S0.
  { apply Qeq_bool_iff in S0. exists (sx_price ctx). split; [easy|]. unfold floored. assert (D : sx_price ctx / 100 <= sx_price ctx) by (unfold Qdiv; change (/ 100) with (1 # 100); lra).
    destruct (sx_buy ctx); rewrite S0, Qmult_0_l; rewrite Q.max_l; lra. }
  rewrite C, I, L. unfold fetch. rewrite Lc, Lh, Ll, Lcl.
  assert (LB : length bars = (length before + S (length window))%nat) by (unfold bars; rewrite app_length; easy).
  replace (Z.of_nat (length bars) <? Z.of_nat (length window) + 1)%Z with false by lia.
  rewrite !upto_nonneg, !Nat2Z.id by lia.
  assert (FN : forall (f : ohlc -> xq) t, firstn (length bars) (map f bars ++ t) = map f bars).
  { intros f t. rewrite firstn_app, map_length, Nat.sub_diag. cbn [firstn]. rewrite app_nil_r. apply firstn_all2. now rewrite map_length. }
  rewrite !FN. unfold len. rewrite !map_length.
  replace (Z.of_nat (length bars) <? Z.of_nat (length window) + 1)%Z with false by lia. cbn [orb].
  assert (LN : forall f : ohlc -> xq, last_n (Z.of_nat (length window) + 1) (map f bars) = map f (b0 :: window)).
  { intros f. unfold last_n. rewrite map_length, LB. replace (length before + S (length window) - Z.to_nat (Z.of_nat (length window) + 1))%nat with (length before) by lia.
    unfold bars. rewrite map_app, skipn_app, map_length, Nat.sub_diag. rewrite skipn_all2 by now rewrite map_length. reflexivity. }
  rewrite !LN.
  destruct (atr_last lg ex sq pi junk (fh (b0 :: window)) (fl (b0 :: window)) (fc (b0 :: window)) (Z.of_nat (length window))) as (vs & Ev & Ei);
    try (unfold len, fh, fl, fc; rewrite map_length; cbn [length]; lia); [lia|].
  unfold fh, fl, fc in Ev. rewrite Ev. unfold bind. change (VectModel.F (exact lg ex sq pi junk)) with xq in *. rewrite Ei.
  destruct (atr_at_mean lg ex sq pi junk b0 window Hw) as (q & Eq & Hq). unfold len in Eq, Hq. rewrite Eq. cbn [xnan xmul].
  assert (R : forall x y, x == y -> exists r, (if xlt (Fin x) (Fin (sx_price ctx * (1 # 100))) then Fin (sx_price ctx * (1 # 100)) else Fin x) = Fin r /\
     r == floored (sx_price ctx) y).
  { intros x y Hx. unfold floored, Qdiv. change (/ 100) with (1 # 100).
    destruct (xlt _ _) eqn:E; [apply xlt_fin in E|apply xlt_fin_false in E]; (eexists; split; [reflexivity|]); rewrite <- Hx.
    - symmetry. apply Q.max_r. lra.
    - symmetry. apply Q.max_l. exact E. }
  unfold adverse_price, xsub. destruct (sx_buy ctx); cbn [xadd xneg].
  - destruct (R (sx_price ctx + scale * q) (sx_price ctx + scale * (sum_true_range (b_close b0) window / inject_Z (Z.of_nat (length window))))) as (r & -> & Hr).
    + now rewrite Hq.
    + now exists r.
  - destruct (R (sx_price ctx + - (scale * q)) (sx_price ctx - scale * (sum_true_range (b_close b0) window / inject_Z (Z.of_nat (length window))))) as (r & -> & Hr).
    + now rewrite Hq.
    + now exists r.
Qed.
Print Assumptions C41_volatility_price.

(** Slippage uses no bar after the fill bar. *)
Theorem C41_no_future : forall lg ex sq pi junk m ctx s1 s2 ends t,
  lookup (sx_symbol ctx) ends = Some (Z.of_nat t) -> agree_until t s1 s2 ->
  let with_cols s := mk_slip_ctx (sx_buy ctx) (sx_symbol ctx) (sx_shares ctx) (sx_price ctx) (Some s) (Some ends) (sx_fractional ctx) in
  apply_slippage lg ex sq pi junk m (with_cols s1) = apply_slippage lg ex sq pi junk m (with_cols s2).
Proof.
  intros lg ex sq pi junk m ctx s1 s2 ends t L H with_cols.
  destruct (C33_no_future xq s1 s2 t H (sx_symbol ctx)) as (F & V & _ & _).
  destruct m as [|bps|n k|i l]; try reflexivity; cbn [apply_slippage].
  - unfold apply_volatility, with_cols. cbn [sx_cols sx_end_index sx_symbol sx_shares sx_price sx_buy sx_fractional]. rewrite L, !F. reflexivity.
  - unfold apply_volume, with_cols, fetch_scalar. cbn [sx_cols sx_end_index sx_symbol sx_shares sx_price sx_buy sx_fractional]. now rewrite L, V.
Qed.
Print Assumptions C41_no_future.

(** The constructors and the model check no relation between a bar's high and low.
    On bars whose high is below their low the true range, hence the slippage, can
    be negative: here a buy at 100 is filled at 99. *)
Theorem C41_refuted : exists lg ex sq pi junk m ctx s' p',
  accepted m = true /\ 0 < sx_price ctx /\ 0 <= sx_shares ctx /\ sx_buy ctx = true /\
  order_slippage lg ex sq pi junk (Some m) ctx = Ok (s', Fin p') /\ p' < sx_price ctx.
Proof.
  exists (fun x => x), (fun x => x), (fun x => x), 3, (fun _ _ => NaN), (SVolatility 1 1),
    (mk_slip_ctx true 0 10 100
       (Some [(0%nat, [(col_high, [Fin 1; Fin 1]); (col_low, [Fin 3; Fin 3]); (col_close, [Fin 2; Fin 2])])])
       (Some [(0%nat, 2%Z)]) true).
  eexists _, _. repeat split; vm_compute; try reflexivity; discriminate.
Qed.
Print Assumptions C41_refuted.

(** A concrete market: three bars, order for 100 shares at price 50. *)
Definition demo_cols : store xq :=
  [(0%nat, [(col_high, [Fin 52; Fin 53; Fin 55]); (col_low, [Fin 48; Fin 49; Fin 50]);
            (col_close, [Fin 50; Fin 51; Fin 54]); (col_volume, [Fin 900; Fin 1000; Fin 1010])])].
Definition demo_ctx (buy fractional : bool) : slip_ctx :=
  mk_slip_ctx buy 0 100 50 (Some demo_cols) (Some [(0%nat, 3%Z)]) fractional.
Example demo_sane : highs_above_lows demo_cols.
Proof.
  intros symbol c h l. destruct symbol as [|symbol]; [|easy]. intros [= <-] [= <-] [= <-]. split; [easy|].
  intros [|[|[|[|i]]]] x y [= <-] [= <-]; reflexivity.
Qed.
Example demo_volume : let '(s, p) := match order_slippage (fun x => x) (fun x => x) (fun x => x) 3 (fun _ _ => NaN)
    (Some (SVolume (1#10) (Some (25 # 1000)))) (demo_ctx true false) with Ok r => r | Raise _ => (0, NaN) end in
  s == 25 /\ xlt (Fin 50) p = true.
Proof. vm_compute. split; reflexivity. Qed.
Example demo_volatility : match order_slippage (fun x => x) (fun x => x) (fun x => x) 3 (fun _ _ => NaN)
    (Some (SVolatility 2 (1#10))) (demo_ctx false true) with Ok (s, Fin p) => s == 100 /\ p == 50 - (9#20) | _ => False end.
Proof. vm_compute. split; reflexivity. Qed.
