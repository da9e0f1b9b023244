(** Proofs for C92. *)
From Coq Require Import Sorted.
From Verif Require Import BootSpec RatioProofs RatioCurve.
From Coq Require Import Lia Lra Psatz Permutation.
Open Scope list_scope.
Open Scope R_scope.

(** ** The statistics *)
Lemma tiny_pos : 0 < tiny.
Proof. unfold tiny. apply Rinv_0_lt_compat, pow_lt. lra. Qed.
Lemma gains_nonneg l : 0 <= gains l.
Proof. apply total_nonneg. intros. apply Rmax_r. Qed.
Lemma losses_nonneg l : 0 <= losses l.
Proof. apply total_nonneg. intros. apply Rmax_r. Qed.
Lemma gains_cons v l : gains (v :: l) = Rmax v 0 + gains l.
Proof. reflexivity. Qed.
Lemma losses_cons v l : losses (v :: l) = Rmax (- v) 0 + losses l.
Proof. reflexivity. Qed.
Lemma gains_app a b : gains (a ++ b) = gains a + gains b.
Proof. unfold gains. rewrite map_app. apply total_app. Qed.
Lemma losses_app a b : losses (a ++ b) = losses a + losses b.
Proof. unfold losses. rewrite map_app. apply total_app. Qed.
Lemma sign_cases v : (ltb 0 v = true /\ 0 < v) \/ (ltb 0 v = false /\ ltb v 0 = true /\ v < 0) \/ (ltb 0 v = false /\ ltb v 0 = false /\ v = 0).
Proof.
  destruct (ltb 0 v) eqn:E. { left. split; [easy |]. now apply ltb_iff. } right. apply ltb_false in E.
  destruct (ltb v 0) eqn:F. { left. apply ltb_iff in F. easy. } right. apply ltb_false in F. repeat split; lra.
Qed.
Lemma pf_fold l : forall w o hw ho,
  exists hw' ho', fold_left pf_step l (w, o, hw, ho) = (w + gains l, o - losses l, hw', ho') /\
  (hw' = true <-> hw = true \/ exists v, In v l /\ 0 < v) /\ (ho' = true <-> ho = true \/ exists v, In v l /\ v < 0).
Proof.
  induction l as [| v l IH]; intros w o hw ho.
  - exists hw, ho. cbn. rewrite Rplus_0_r, Rminus_0_r. split; [easy |]. split; split; try tauto; intros [? | (? & [] & _)]; easy.
  - cbn [fold_left]. rewrite gains_cons, losses_cons. unfold pf_step at 2.
    destruct (sign_cases v) as [(E & L) | [(E & F & L) | (E & F & L)]]; rewrite E; [| rewrite F | rewrite F].
    + destruct (IH (w + v) o true ho) as (a & b & H & P & Q). exists a, b. rewrite H. rewrite (Rmax_left v 0), (Rmax_right (- v) 0) by lra.
      split; [f_equal; f_equal; f_equal; lra |]. split.
      * rewrite P. split; [intros _; right; exists v; cbn; tauto | tauto].
      * rewrite Q. split; intros [? | (u & I & M)]; auto; right; exists u; cbn in *; intuition (subst; lra).
    + destruct (IH w (o + v) hw true) as (a & b & H & P & Q). exists a, b. rewrite H. rewrite (Rmax_right v 0), (Rmax_left (- v) 0) by lra.
      split; [f_equal; f_equal; f_equal; lra |]. split.
      * rewrite P. split; intros [? | (u & I & M)]; auto; right; exists u; cbn in *; intuition (subst; lra).
      * rewrite Q. split; [intros _; right; exists v; cbn; tauto | tauto].
    + destruct (IH w o hw ho) as (a & b & H & P & Q). exists a, b. rewrite H. rewrite (Rmax_right v 0), (Rmax_right (- v) 0) by lra.
      split; [f_equal; f_equal; f_equal; lra |].
      split; [rewrite P | rewrite Q]; split; intros [? | (u & I & M)]; auto; right; exists u; cbn in *; intuition (subst; lra).
Qed.
Lemma flat_ratio l : (forall v, In v l -> v = 0) -> gains l = 0 /\ losses l = 0.
Proof.
  induction l as [| v l IH]; intros H; [easy |]. rewrite gains_cons, losses_cons. destruct IH as (-> & ->); [intros; apply H; now right |].
  rewrite (H v (or_introl eq_refl)), Rmax_right, Rmax_right by lra. lra.
Qed.
Lemma ratio_flat l : (forall v, In v l -> v = 0) -> gain_loss_ratio l = 1.
Proof. intros H. unfold gain_loss_ratio. destruct (flat_ratio l H) as (-> & ->). pose proof tiny_pos. unfold tiny in *. field; try lra. Qed.
Lemma ratio_pos l : 0 < gain_loss_ratio l.
Proof.
  unfold gain_loss_ratio. pose proof tiny_pos. pose proof (gains_nonneg l). pose proof (losses_nonneg l). unfold tiny in *.
  apply Rdiv_lt_0_compat; lra.
Qed.
Lemma pf_ok use_log l : profit_factor use_log l =
  if Forall_dec (fun v => v = 0) (fun v => Req_EM_T v 0) l then 0 else if use_log then ln (gain_loss_ratio l) else gain_loss_ratio l.
Proof.
  unfold profit_factor. destruct (pf_fold l 0 0 false false) as (hw & ho & -> & P & Q).
  assert (E : (tiny + (0 + gains l)) / (tiny - (0 - losses l)) = gain_loss_ratio l).
  { unfold gain_loss_ratio, tiny. f_equal; lra. }
  rewrite E. destruct (Forall_dec _ _ l) as [F | F].
  - rewrite Forall_forall in F. destruct hw; [destruct (proj1 P eq_refl) as [? | (v & I & L)]; [easy |]; rewrite (F v I) in L; lra |].
    destruct ho; [destruct (proj1 Q eq_refl) as [? | (v & I & L)]; [easy |]; rewrite (F v I) in L; lra |]. easy.
  - destruct hw; [easy |]. destruct ho; [easy |]. destruct F. apply Forall_forall. intros v I.
    destruct (Rtotal_order v 0) as [L | [-> | L]]; [| easy |].
    + assert (false = true) by (apply Q; right; eauto). easy.
    + assert (false = true) by (apply P; right; eauto). easy.
Qed.
Lemma log_pf_ok l : profit_factor true l = ln (gain_loss_ratio l).
Proof.
  rewrite pf_ok. destruct (Forall_dec _ _ l) as [F | F]; [| easy]. rewrite ratio_flat; [now rewrite ln_1 |]. now apply Forall_forall.
Qed.
Lemma plain_pf_ok l v : In v l -> v <> 0 -> profit_factor false l = gain_loss_ratio l.
Proof. intros I N. rewrite pf_ok. destruct (Forall_dec _ _ l) as [F | F]; [| easy]. rewrite Forall_forall in F. now destruct N; apply F. Qed.

Lemma sharpe_def l : sharpe l = if eqb (deviation l) 0 then 0 else average l / deviation l.
Proof.
  destruct l as [| v l].
  - unfold sharpe, deviation, average, total. cbn. unfold Rdiv. rewrite Rmult_0_l, sqrt_0. destruct (eqb 0 0) eqn:E; [easy |]. apply eqb_false in E. lra.
  - unfold sharpe, rmean. set (m := rsum (v :: l) / INR (length (v :: l))).
    assert (M : m = average (v :: l)) by (unfold m, average; now rewrite rsum_total). rewrite M.
    assert (D : sqrt (rsum (map (fun u => (u - average (v :: l)) * (u - average (v :: l))) (v :: l)) / INR (length (map (fun u => (u - average (v :: l)) * (u - average (v :: l))) (v :: l)))) = deviation (v :: l)).
    { unfold deviation. f_equal. rewrite rsum_total. set (av := average (v :: l)). unfold average. rewrite !map_length. f_equal. apply total_ext. intros. ring. }
    now rewrite D.
Qed.
Lemma sharpe_is l : sharpe_ratio (map Some l) None = Some (sharpe l).
Proof. rewrite sharpe_ok, sharpe_def. unfold yearly. destruct (eqb _ _); [easy |]. now rewrite Rmult_1_r. Qed.

Lemma firstn_last {A} (l : list A) v k : (k <= length l)%nat -> firstn k (l ++ [v]) = firstn k l.
Proof. intros H. rewrite firstn_app. replace (k - length l)%nat with 0%nat by lia. cbn. apply app_nil_r. Qed.
Lemma mdd_fold l : exists c m d, fold_left mdd_step l (0, 0, 0) = (c, m, d) /\ c = total l /\
  (exists i, (i <= length l)%nat /\ m = total (firstn i l)) /\ (forall i, (i <= length l)%nat -> total (firstn i l) <= m) /\ cash_fall l d.
Proof.
  induction l as [| v l IH] using rev_ind.
  - exists 0, 0, 0. cbn. repeat split; try easy.
    + exists 0%nat. cbn. split; [lia | easy].
    + intros i H. destruct i; [cbn; lra | lia].
    + exists 0%nat, 0%nat. cbn. split; [lia | lra].
    + intros i j H. destruct i, j; cbn in *; try lia. lra.
  - destruct IH as (c & m & d & E & C & (i0 & I0 & M0) & M & ((i1 & j1 & B1 & D1) & D)).
    rewrite fold_left_app, E. unfold fold_left, mdd_step.
    assert (T : total (l ++ [v]) = c + v). { rewrite total_app, C. cbn. lra. }
    assert (LEN : length (l ++ [v]) = S (length l)) by (rewrite app_length; cbn; lia).
    assert (FULL : firstn (S (length l)) (l ++ [v]) = l ++ [v]) by (rewrite <- LEN; apply firstn_all).
    assert (KEEP : forall k, (k <= length l)%nat -> total (firstn k (l ++ [v])) = total (firstn k l)) by (intros k K; now rewrite firstn_last).
    assert (FALLS : forall d', d <= d' -> (forall i, (i <= length l)%nat -> total (firstn i l) - (c + v) <= d') ->
      forall i j, (i <= j <= length (l ++ [v]))%nat -> total (firstn i (l ++ [v])) - total (firstn j (l ++ [v])) <= d').
    { intros d' G G' i j B. rewrite LEN in B. destruct (Nat.eq_dec j (S (length l))) as [-> | NJ].
      - rewrite FULL, T. destruct (Nat.eq_dec i (S (length l))) as [-> | NI].
        + rewrite FULL, T. assert (0 <= d). { specialize (D 0 0)%nat. cbn in D. specialize (D ltac:(lia)). lra. } lra.
        + rewrite KEEP by lia. apply G'. lia.
      - rewrite !KEEP by lia. assert (total (firstn i l) - total (firstn j l) <= d) by (apply D; lia). lra. }
    destruct (ltb m (c + v)) eqn:L.
    + apply ltb_iff in L. exists (c + v), (c + v), d. split; [easy |]. split; [easy |]. split; [| split; [| split]].
      * exists (S (length l)). now rewrite FULL, T, LEN.
      * intros i B. rewrite LEN in B. destruct (Nat.eq_dec i (S (length l))) as [-> | N]; [rewrite FULL, T; lra |].
        rewrite KEEP by lia. specialize (M i ltac:(lia)). lra.
      * exists i1, j1. rewrite LEN, !KEEP by lia. split; [lia | easy].
      * apply FALLS; [lra |]. intros i B. specialize (M i B). assert (0 <= d). { specialize (D 0 0)%nat. cbn in D. specialize (D ltac:(lia)). lra. } lra.
    + apply ltb_false in L. destruct (ltb d (m - (c + v))) eqn:K.
      * apply ltb_iff in K. exists (c + v), m, (m - (c + v)). split; [easy |]. split; [easy |]. split; [| split; [| split]].
        -- exists i0. rewrite KEEP by lia. split; [rewrite LEN; lia | easy].
        -- intros i B. rewrite LEN in B. destruct (Nat.eq_dec i (S (length l))) as [-> | N]; [rewrite FULL, T; lra |].
           rewrite KEEP by lia. apply M. lia.
        -- exists i0, (S (length l)). rewrite LEN, FULL, T, KEEP by lia. split; [lia | lra].
        -- apply FALLS; [lra |]. intros i B. specialize (M i B). lra.
      * apply ltb_false in K. exists (c + v), m, d. split; [easy |]. split; [easy |]. split; [| split; [| split]].
        -- exists i0. rewrite KEEP by lia. split; [rewrite LEN; lia | easy].
        -- intros i B. rewrite LEN in B. destruct (Nat.eq_dec i (S (length l))) as [-> | N]; [rewrite FULL, T; lra |].
           rewrite KEEP by lia. apply M. lia.
        -- exists i1, j1. rewrite LEN, !KEEP by lia. split; [lia | easy].
        -- apply FALLS; [lra |]. intros i B. specialize (M i B). lra.
Qed.
Lemma mdd_cash l : cash_fall l (- max_drawdown l).
Proof. unfold max_drawdown. destruct (mdd_fold l) as (c & m & d & -> & _ & _ & _ & D). now rewrite Ropp_involutive. Qed.

(** ** Leave-one-out values *)
Lemma jack_gen (fn : list R -> R) (g : R -> R) x : forall pre,
  (forall a v b, a ++ v :: b = pre ++ x -> fn (a ++ b) = g v) ->
  map (fun i => fn (firstn i (pre ++ x) ++ skipn (S i) (pre ++ x))) (seq (length pre) (length x)) = map g x.
Proof.
  induction x as [| v x IH]; intros pre H; [easy |]. cbn [length seq map]. f_equal.
  - rewrite <- (H pre v x eq_refl). rewrite firstn_app, Nat.sub_diag, firstn_all. cbn [firstn]. rewrite app_nil_r.
    rewrite skipn_app. replace (S (length pre) - length pre)%nat with 1%nat by lia. rewrite skipn_all2 by lia. easy.
  - specialize (IH (pre ++ [v])). rewrite app_length in IH. cbn [length] in IH. rewrite Nat.add_1_r in IH.
    rewrite <- app_assoc in IH. cbn [app] in IH. apply IH. intros a u b E. apply H. exact E.
Qed.
Lemma jackknife_is fn g x : (forall a v b, x = a ++ v :: b -> g v = if Nat.leb (length x) 1 then 0 else fn (a ++ b)) -> map g x = jackknife fn x.
Proof.
  intros H. unfold jackknife. destruct (Nat.leb (length x) 1) eqn:L.
  - apply map_ext_in. intros v I. destruct (in_split v x I) as (a & b & E). exact (H a v b E).
  - symmetry. apply (jack_gen fn g x []). intros a v b E. symmetry. apply H. easy.
Qed.
Lemma jack_fold x : forall w o,
  fold_left (fun st v => if ltb 0 v then (fst st + v, snd st) else if ltb v 0 then (fst st, snd st + v) else st) x (w, o) = (w + gains x, o - losses x).
Proof.
  induction x as [| v x IH]; intros w o; [cbn; now rewrite Rplus_0_r, Rminus_0_r |]. cbn [fold_left fst snd]. rewrite gains_cons, losses_cons.
  destruct (sign_cases v) as [(E & L) | [(E & F & L) | (E & F & L)]]; rewrite E; [| rewrite F | rewrite F]; rewrite IH; f_equal;
    try (rewrite (Rmax_left v 0) by lra); try (rewrite (Rmax_right v 0) by lra); try (rewrite (Rmax_left (- v) 0) by lra); try (rewrite (Rmax_right (- v) 0) by lra); lra.
Qed.
Lemma jack_one a v b : let x := a ++ v :: b in
  (tiny + (if ltb 0 v then 0 + gains x - v else 0 + gains x)) / (tiny - (if ltb 0 v then 0 - losses x else if ltb v 0 then 0 - losses x - v else 0 - losses x))
  = gain_loss_ratio (a ++ b).
Proof.
  intros x. unfold x, gain_loss_ratio, tiny. rewrite !gains_app, !losses_app, gains_cons, losses_cons.
  destruct (sign_cases v) as [(E & L) | [(E & F & L) | (E & F & L)]]; rewrite E; [| rewrite F | rewrite F]; f_equal;
    try (rewrite (Rmax_left v 0) by lra); try (rewrite (Rmax_right v 0) by lra); try (rewrite (Rmax_left (- v) 0) by lra); try (rewrite (Rmax_right (- v) 0) by lra); lra.
Qed.
Lemma short_rest {A} (a : list A) v b : Nat.leb (length (a ++ v :: b)) 1 = true -> a ++ b = [].
Proof. intros H. apply Nat.leb_le in H. rewrite app_length in H. cbn in H. destruct a, b; cbn in *; try lia. easy. Qed.
Lemma jack_log_pf x : jackknife_profit_factor true x = jackknife (profit_factor true) x.
Proof.
  unfold jackknife_profit_factor. rewrite jack_fold. apply jackknife_is. intros a v b E. cbv beta zeta.
  subst x. pose proof (jack_one a v b) as J. cbv beta zeta in J. rewrite J, <- log_pf_ok.
  destruct (Nat.leb _ 1) eqn:L; [| easy]. now rewrite (short_rest a v b L).
Qed.
Lemma jack_pf x : (forall a v b, x = a ++ v :: b -> exists w, In w (a ++ b) /\ w <> 0) -> jackknife_profit_factor false x = jackknife (profit_factor false) x.
Proof.
  intros H. unfold jackknife_profit_factor. rewrite jack_fold. apply jackknife_is. intros a v b E. cbv beta zeta.
  destruct (H a v b E) as (w & I & N). subst x. pose proof (jack_one a v b) as J. cbv beta zeta in J. rewrite J.
  destruct (Nat.leb _ 1) eqn:L; [now rewrite (short_rest a v b L) in I |]. symmetry. now apply plain_pf_ok with w.
Qed.
Lemma jack_sums x : forall t q, fold_left (fun st v => (fst st + v, snd st + v * v)) x (t, q) = (t + total x, q + total (map (fun v => v ^ 2) x)).
Proof. induction x as [| v x IH]; intros t q; cbn [fold_left fst snd map]; [cbn; now rewrite !Rplus_0_r |]. rewrite IH, !total_cons. f_equal; ring. Qed.
Lemma jack_sharpe x : jackknife_sharpe x = jackknife sharpe x.
Proof.
  unfold jackknife_sharpe. destruct (Nat.leb (length x) 1) eqn:L; [unfold jackknife; now rewrite L |]. rewrite jack_sums.
  apply jackknife_is. intros a v b E. rewrite L. subst x. cbv beta zeta.
  set (r := a ++ b). apply Nat.leb_gt in L.
  assert (LEN : (length (a ++ v :: b) - 1)%nat = length r) by (unfold r; rewrite !app_length; cbn; lia). rewrite LEN.
  assert (NE : r <> []) by (intros Z; apply (f_equal (@length R)) in Z; cbn in Z; lia).
  pose proof (length_pos r NE) as POS.
  assert (T : 0 + total (a ++ v :: b) - v = total r) by (unfold r; rewrite !total_app, total_cons; ring).
  assert (Q : 0 + total (map (fun u => u ^ 2) (a ++ v :: b)) - v * v = total (map (fun u => u ^ 2) r)).
  { unfold r. rewrite !map_app, !total_app. cbn [map]. rewrite total_cons. ring. }
  rewrite T, Q. fold (average r).
  assert (V : total (map (fun u => u ^ 2) r) / INR (length r) - average r * average r = average (map (fun u => (u - average r) ^ 2) r)).
  { unfold average at 3. rewrite square_sum, map_length. field. lra. }
  rewrite V, sharpe_def. fold (deviation r).
  assert (N : 0 <= average (map (fun u => (u - average r) ^ 2) r)) by (apply average_pos; intros; apply pow2_ge_0).
  destruct (eqb (deviation r) 0) eqn:D.
  - apply eqb_iff in D. unfold deviation in D. apply sqrt_zero in D; [| easy]. rewrite D. destruct (ltb 0 0) eqn:Z; [apply ltb_iff in Z; lra | easy].
  - apply eqb_false in D. destruct (ltb 0 _) eqn:Z; [easy |]. apply ltb_false in Z. destruct D. unfold deviation.
    replace (average _) with 0 by (apply Rle_antisym; [exact N | exact Z]). apply sqrt_0.
Qed.

(** ** The bounds are among the samples *)
Lemma insert_in v l u : In u (insert v l) <-> u = v \/ In u l.
Proof. induction l as [| w l IH]; cbn; [intuition congruence |]. destruct (ltb w v); cbn; [rewrite IH |]; intuition congruence. Qed.
Lemma sort_in l u : In u (sort l) <-> In u l.
Proof. induction l as [| v l IH]; cbn; [easy |]. rewrite insert_in. cbn. rewrite IH. intuition congruence. Qed.
Lemma insert_length v l : length (insert v l) = S (length l).
Proof. induction l as [| w l IH]; cbn; [easy |]. destruct (ltb w v); cbn; congruence. Qed.
Lemma sort_length l : length (sort l) = length l.
Proof. induction l as [| v l IH]; [easy |]. change (length (insert v (sort l)) = S (length l)). now rewrite insert_length, IH. Qed.
Lemma at_in boot k : (0 <= k < Z.of_nat (length boot))%Z -> exists v, at_ boot k = Some v /\ In v boot.
Proof.
  intros H. unfold at_. destruct (nth_error boot (Z.to_nat k)) as [v |] eqn:E; [exists v; split; [easy | eapply nth_error_In; eauto] |].
  apply nth_error_None in E. lia.
Qed.
Lemma clamp_range k n : (0 < n)%nat -> (0 <= clamp k n < Z.of_nat n)%Z.
Proof. unfold clamp. lia. Qed.
Lemma bounds_in icdf ncdf boot z0 a p : boot <> [] -> exists l h, bounds icdf ncdf boot z0 a p = (Some l, Some h) /\ In l boot /\ In h boot.
Proof.
  intros H. assert (0 < length boot)%nat by (destruct boot; [easy | cbn; lia]). unfold bounds.
  match goal with |- exists l h, (at_ _ (clamp ?k1 ?n), at_ _ (_ - 1 - clamp ?k2 _)) = _ /\ _ => pose proof (clamp_range k1 n H0); pose proof (clamp_range k2 n H0) end.
  match goal with |- exists l h, (at_ _ ?k1, at_ _ ?k2) = _ /\ _ => destruct (at_in boot k1) as (l & -> & I); [lia |]; destruct (at_in boot k2) as (h & -> & J); [lia |] end.
  eauto 6.
Qed.
Lemma bca_in icdf ncdf boot z jack n b : boot <> [] -> In b (six (bca_intervals icdf ncdf boot z jack n)) -> exists v, b = Some v /\ In v boot.
Proof.
  intros H. assert (H' : sort boot <> []) by (intros E; apply (f_equal (@length R)) in E; rewrite sort_length in E; destruct boot; easy).
  unfold bca_intervals. cbv zeta.
  destruct (bounds_in icdf ncdf (sort boot) (icdf (INR (Nat.max (Nat.min z (length boot - 1)) 1) / INR (length boot))) (accel jack n) (25 / 1000) H') as (l1 & h1 & -> & A1 & B1).
  destruct (bounds_in icdf ncdf (sort boot) (icdf (INR (Nat.max (Nat.min z (length boot - 1)) 1) / INR (length boot))) (accel jack n) (5 / 100) H') as (l2 & h2 & -> & A2 & B2).
  destruct (bounds_in icdf ncdf (sort boot) (icdf (INR (Nat.max (Nat.min z (length boot - 1)) 1) / INR (length boot))) (accel jack n) (1 / 10) H') as (l3 & h3 & -> & A3 & B3).
  rewrite sort_in in *. cbn. intros I. repeat (destruct I as [<- | I]; [eauto |]). easy.
Qed.
Lemma trunc_below x (n : nat) : (0 < n)%nat -> x < INR n -> (Z.max (trunc x) 0 < Z.of_nat n)%Z.
Proof.
  intros P H. unfold trunc. destruct (ltb x 0) eqn:E.
  - apply ltb_iff in E. assert (0 <= Int_part (- x))%Z.
    { destruct (base_Int_part (- x)) as (_ & B). assert (-1 < Int_part (- x))%Z by (apply lt_IZR; lra). lia. }
    lia.
  - apply ltb_false in E. destruct (base_Int_part x) as (B & _). rewrite INR_IZR_INZ in H.
    assert (Int_part x < Z.of_nat n)%Z by (apply lt_IZR; lra). lia.
Qed.
Lemma dd_conf_in q boot : boot <> [] -> q <= 1 / 10 -> exists v, dd_conf q boot = Some v /\ In v boot.
Proof.
  intros H Q. assert (P : (0 < length boot)%nat) by (destruct boot; [easy | cbn; lia]). unfold dd_conf. apply at_in. split; [lia |].
  apply trunc_below; [easy |]. assert (1 <= INR (length boot)) by (replace 1 with (INR 1) by easy; now apply le_INR). nra.
Qed.
Lemma dd_confs_in boot b : boot <> [] -> In b (four (dd_confs_of boot)) -> exists v, b = Some v /\ In v boot.
Proof.
  intros H. assert (H' : sort boot <> []) by (intros E; apply (f_equal (@length R)) in E; rewrite sort_length in E; destruct boot; easy).
  unfold dd_confs_of. cbn [four q_001 q_01 q_05 q_10 In].
  assert (D : forall q, q <= 1 / 10 -> exists v, dd_conf q (sort boot) = Some v /\ In v boot).
  { intros q Q. destruct (dd_conf_in q (sort boot) H' Q) as (v & E & I). rewrite sort_in in I. eauto. }
  intros I. repeat (destruct I as [<- | I]; [apply D; lra |]). easy.
Qed.

(** ** Sorted samples *)
Lemma insert_perm v l : Permutation (insert v l) (v :: l).
Proof. induction l as [| w l IH]; cbn; [easy |]. destruct (ltb w v); [| easy]. rewrite IH. apply perm_swap. Qed.
Lemma sort_perm l : Permutation (sort l) l.
Proof. induction l as [| v l IH]; [easy |]. change (sort (v :: l)) with (insert v (sort l)). now rewrite insert_perm, IH. Qed.
Lemma insert_sorted v l : StronglySorted Rle l -> StronglySorted Rle (insert v l).
Proof.
  induction 1 as [| w l SL IH F]; cbn; [repeat constructor |]. destruct (ltb w v) eqn:E.
  - apply ltb_iff in E. constructor; [easy |]. apply Forall_forall. intros u I. apply insert_in in I as [-> | I]; [lra |]. rewrite Forall_forall in F. auto.
  - apply ltb_false in E. constructor; [now constructor |]. constructor; [easy |]. eapply Forall_impl; [| exact F]. cbn. intros. lra.
Qed.
Lemma sort_sorted l : StronglySorted Rle (sort l).
Proof. induction l as [| v l IH]; [constructor |]. change (sort (v :: l)) with (insert v (sort l)). now apply insert_sorted. Qed.
Lemma filter_perm {A} (f : A -> bool) a b : Permutation a b -> length (filter f a) = length (filter f b).
Proof. induction 1; cbn; [easy | destruct (f x); cbn; congruence | destruct (f x), (f y); easy | congruence]. Qed.
Lemma filter_bound {A} (f : A -> bool) l : (length (filter f l) <= length l)%nat.
Proof. induction l; cbn; [lia |]. destruct (f a); cbn; lia. Qed.
Lemma filter_none {A} (f : A -> bool) l : (forall x, In x l -> f x = false) -> filter f l = [].
Proof. induction l as [| a l IH]; intros H; cbn; [easy |]. rewrite (H a (or_introl eq_refl)). apply IH. intros; apply H. now right. Qed.
Lemma filter_full {A} (f : A -> bool) l : (forall x, In x l -> f x = true) -> filter f l = l.
Proof. induction l as [| a l IH]; intros H; cbn; [easy |]. rewrite (H a (or_introl eq_refl)), IH; [easy |]. intros; apply H. now right. Qed.
Lemma sorted_split a v b : StronglySorted Rle (a ++ v :: b) -> (forall u, In u a -> u <= v) /\ (forall u, In u b -> v <= u).
Proof.
  induction a as [| w a IH]; cbn; intros H; inversion H as [| ? ? SL F]; subst.
  - split; [easy |]. now apply Forall_forall.
  - destruct (IH SL) as (P & Q). split; [| easy]. intros u [<- | I]; [| auto]. rewrite Forall_forall in F. apply F. apply in_or_app. cbn. tauto.
Qed.
Lemma sorted_counts s k v : StronglySorted Rle s -> nth_error s k = Some v -> (below v s <= k)%nat /\ (k < at_most v s)%nat.
Proof.
  intros H E. destruct (nth_error_split _ _ E) as (a & b & -> & <-). destruct (sorted_split a v b H) as (P & Q).
  unfold below, at_most. rewrite !filter_app, !app_length. cbn [filter].
  destruct (Rlt_dec v v); [lra |]. destruct (Rle_dec v v); [| lra]. cbn [length]. split.
  - rewrite (filter_none _ b); [cbn; pose proof (filter_bound (fun u => if Rlt_dec u v then true else false) a); lia |].
    intros u I. destruct (Rlt_dec u v); [| easy]. specialize (Q u I). lra.
  - rewrite (filter_full _ a); [lia |]. intros u I. destruct (Rle_dec u v); [easy |]. specialize (P u I). lra.
Qed.
Lemma trunc_le x : INR (Z.to_nat (Z.max (trunc x) 0)) <= Rmax 0 x /\ x < INR (S (Z.to_nat (Z.max (trunc x) 0))).
Proof.
  unfold trunc. destruct (ltb x 0) eqn:E.
  - apply ltb_iff in E. destruct (base_Int_part (- x)) as (_ & B). assert (-1 < Int_part (- x))%Z by (apply lt_IZR; lra).
    replace (Z.to_nat (Z.max (- Int_part (- x)) 0)) with 0%nat by lia. cbn. rewrite Rmax_left by lra. lra.
  - apply ltb_false in E. destruct (base_Int_part x) as (B & C). assert (-1 < Int_part x)%Z by (apply lt_IZR; lra).
    rewrite S_INR, INR_IZR_INZ, Z2Nat.id by lia. rewrite Z.max_l by lia. rewrite Rmax_right by lra. lra.
Qed.
Lemma dd_conf_cuts q boot b : q <= 1 / 10 -> boot <> [] -> dd_conf q (sort boot) = b -> exists v, b = Some v /\ cuts q v boot.
Proof.
  intros Q NE <-. assert (H' : sort boot <> []) by (intros E; apply (f_equal (@length R)) in E; rewrite sort_length in E; destruct boot; easy).
  destruct (dd_conf_in q (sort boot) H' Q) as (v & E & I). exists v. split; [easy |]. rewrite sort_in in I. unfold dd_conf, at_ in E. rewrite sort_length in E.
  destruct (sorted_counts _ _ _ (sort_sorted boot) E) as (A & B). unfold below, at_most in A, B. rewrite (filter_perm _ _ _ (sort_perm boot)) in A. rewrite (filter_perm _ _ _ (sort_perm boot)) in B.
  destruct (trunc_le (q * (INR (length boot) + 1) - 1)) as (C & D). split; [easy |].
  split; [apply le_INR in A; unfold below; lra |]. apply (le_INR (S _)) in B. unfold at_most. lra.
Qed.

Lemma sorted_counts_above s k v : StronglySorted Rle s -> nth_error s (length s - 1 - k) = Some v -> (k < length s)%nat -> (above v s <= k)%nat /\ (k < at_least v s)%nat.
Proof.
  intros H E K. destruct (nth_error_split _ _ E) as (a & b & ES & LA). subst s. destruct (sorted_split a v b H) as (P & Q).
  rewrite app_length in LA, K. cbn [length] in LA, K.
  unfold above, at_least. rewrite !filter_app, !app_length. cbn [filter].
  destruct (Rlt_dec v v); [lra |]. destruct (Rle_dec v v); [| lra]. cbn [length]. split.
  - rewrite (filter_none _ a); [cbn; pose proof (filter_bound (fun u => if Rlt_dec v u then true else false) b); lia |].
    intros u I. destruct (Rlt_dec v u); [| easy]. specialize (P u I). lra.
  - rewrite (filter_full _ b); [lia |]. intros u I. destruct (Rle_dec v u); [easy |]. specialize (Q u I). lra.
Qed.
(** The clamped position of a share. *)
Lemma position q (n : nat) : (0 < n)%nat -> let k := q * (INR n + 1) - 1 in
  exists j, (j < n)%nat /\ clamp (trunc (q * (INR n + 1)) - 1) n = Z.of_nat j /\ INR j <= Rmax 0 k /\ (k < INR n -> k < INR (S j)) /\ (INR n <= k -> S j = n).
Proof.
  intros P k. set (x := q * (INR n + 1)). assert (K : k = x - 1) by easy. clearbody x k. subst k.
  exists (Z.to_nat (clamp (trunc x - 1) n)). pose proof (clamp_range (trunc x - 1) n P) as C. split; [lia |]. split; [lia |].
  unfold clamp in *. unfold trunc in *. destruct (ltb x 0) eqn:E.
  - apply ltb_iff in E. destruct (base_Int_part (- x)) as (_ & B). assert (-1 < Int_part (- x))%Z by (apply lt_IZR; lra).
    replace (Z.to_nat _) with 0%nat by lia. cbn. rewrite Rmax_left by lra. split; [lra |]. split; [lra |]. intros N. assert (0 <= INR n) by apply pos_INR. lra.
  - apply ltb_false in E. destruct (base_Int_part x) as (B & D). assert (-1 < Int_part x)%Z by (apply lt_IZR; lra).
    rewrite S_INR, INR_IZR_INZ, Z2Nat.id by lia. split; [| split].
    + destruct (Z.eq_dec (Int_part x) 0) as [Z0 | Z0].
      * rewrite Z0. replace (Z.min _ _) with 0%Z by lia. apply Rmax_l.
      * rewrite Z.max_l by lia. apply Rle_trans with (x - 1); [| apply Rmax_r]. apply Rle_trans with (IZR (Int_part x - 1)); [apply IZR_le; lia |]. rewrite minus_IZR. lra.
    + intros N. rewrite (INR_IZR_INZ n) in N. assert (Int_part x - 1 < Z.of_nat n)%Z by (apply lt_IZR; rewrite minus_IZR; lra).
      rewrite Z.min_l by lia. assert (IZR (Int_part x - 1) <= IZR (Z.max (Int_part x - 1) 0)) by (apply IZR_le; lia). rewrite minus_IZR in *. lra.
    + intros N. rewrite (INR_IZR_INZ n) in N. assert (Z.of_nat n < Int_part x)%Z by (apply lt_IZR; lra). lia.
Qed.
Lemma count_all_low s v : StronglySorted Rle s -> nth_error s (length s - 1) = Some v -> at_most v s = length s.
Proof.
  intros H E. destruct s as [| w s]; [destruct (length _ - 1)%nat; easy |].
  destruct (sorted_counts _ _ _ H E) as (_ & B). pose proof (filter_bound (fun u => if Rle_dec u v then true else false) (w :: s)). unfold at_most in *. cbn [length] in *. lia.
Qed.
Lemma bounds_cut icdf ncdf boot z0 a p : boot <> [] -> exists l h, bounds icdf ncdf (sort boot) z0 a p = (Some l, Some h) /\
  cuts_low (adjusted icdf ncdf z0 a p) l boot /\ cuts_high (1 - adjusted icdf ncdf z0 a (1 - p)) h boot.
Proof.
  intros NE. assert (LP : (0 < length boot)%nat) by (destruct boot; [easy | cbn; lia]).
  unfold bounds. rewrite sort_length. fold (adjusted icdf ncdf z0 a p). fold (adjusted icdf ncdf z0 a (1 - p)).
  set (alo := adjusted icdf ncdf z0 a p). set (q := 1 - adjusted icdf ncdf z0 a (1 - p)).
  destruct (position alo (length boot) LP) as (j & J1 & -> & J2 & J3 & J4). destruct (position q (length boot) LP) as (k & K1 & -> & K2 & K3 & K4).
  unfold at_. rewrite Nat2Z.id. replace (Z.to_nat (Z.of_nat (length boot) - 1 - Z.of_nat k)) with (length (sort boot) - 1 - k)%nat by (rewrite sort_length; lia).
  destruct (nth_error (sort boot) j) as [l |] eqn:EL; [| apply nth_error_None in EL; rewrite sort_length in EL; lia].
  destruct (nth_error (sort boot) (length (sort boot) - 1 - k)) as [h |] eqn:EH; [| apply nth_error_None in EH; rewrite sort_length in EH; lia].
  exists l, h. split; [easy |].
  destruct (sorted_counts _ _ _ (sort_sorted boot) EL) as (A & B).
  destruct (sorted_counts_above _ _ _ (sort_sorted boot) EH) as (C & D); [now rewrite sort_length |].
  unfold below, at_most in A, B. unfold above, at_least in C, D.
  rewrite (filter_perm _ _ _ (sort_perm boot)) in A. rewrite (filter_perm _ _ _ (sort_perm boot)) in B.
  rewrite (filter_perm _ _ _ (sort_perm boot)) in C. rewrite (filter_perm _ _ _ (sort_perm boot)) in D.
  split; (split; [eapply sort_in, nth_error_In; eassumption |]).
  - pose proof (filter_bound (fun u => if Rle_dec u l then true else false) boot) as FB. split; [apply le_INR in A; unfold below; lra |]. split.
    + intros N. specialize (J3 N). apply (le_INR (S _)) in B. unfold at_most. lra.
    + intros N. specialize (J4 N). unfold at_most. lia.
  - pose proof (filter_bound (fun u => if Rle_dec h u then true else false) boot) as FB. split; [apply le_INR in C; unfold above; lra |]. split.
    + intros N. specialize (K3 N). apply (le_INR (S _)) in D. unfold at_least. lra.
    + intros N. specialize (K4 N). unfold at_least. lia.
Qed.
Lemma accel_fold js t : forall p q, fold_left (fun st j => let diff := t - j in (fst st + diff * diff * diff, snd st + diff * diff)) js (p, q) =
  (p + total (map (fun j => (t - j) ^ 3) js), q + total (map (fun j => (t - j) ^ 2) js)).
Proof. induction js as [| j js IH]; intros p q; cbn [fold_left map fst snd]; [cbn; now rewrite !Rplus_0_r |]. cbv zeta. rewrite IH, !total_cons. f_equal; ring. Qed.
Lemma accel_ok js n : length js = n -> accel js n = acceleration js.
Proof.
  intros <-. unfold accel, acceleration. rewrite rsum_total. fold (average js). rewrite accel_fold, !Rplus_0_l. easy.
Qed.
Lemma left_out_ok fn x : left_out fn x (jackknife fn x).
Proof.
  unfold left_out, jackknife. destruct (Nat.leb (length x) 1) eqn:L.
  - split; [now rewrite map_length |]. intros a v b ->. rewrite nth_error_map, nth_error_app2, Nat.sub_diag by lia. easy.
  - split; [now rewrite map_length, seq_length |]. intros a v b ->.
    rewrite nth_error_map. rewrite (nth_error_nth' _ 0%nat) by (rewrite seq_length, app_length; cbn; lia). rewrite seq_nth by (rewrite app_length; cbn; lia). cbn [option_map Nat.add].
    rewrite firstn_app, Nat.sub_diag, firstn_all. cbn [firstn]. rewrite app_nil_r.
    rewrite skipn_app. replace (S (length a) - length a)%nat with 1%nat by lia. rewrite skipn_all2 by lia. easy.
Qed.

Section Boot.
Context {S : Type} (randint : nat -> S -> nat * S).
Hypothesis draws_below : forall n s, (0 < n)%nat -> (fst (randint n s) < n)%nat.
Lemma fill_row_ok k n : (0 < n)%nat -> forall s, length (fst (fill_row randint k n s)) = k /\ forall j, In j (fst (fill_row randint k n s)) -> (j < n)%nat.
Proof.
  intros P. induction k as [| k IH]; intros s; [easy |]. cbn [fill_row]. pose proof (draws_below n s P) as B. destruct (randint n s) as [j s1]. cbn in B.
  specialize (IH s1). destruct (fill_row randint k n s1) as [r s2]. cbn in *. destruct IH as (L & A). split; [congruence |]. intros i [<- | I]; auto.
Qed.
Lemma resample_picked x row : (forall j, In j row -> (j < length x)%nat) -> picked x row (resample x row).
Proof.
  unfold picked, resample. induction row as [| j row IH]; intros H; cbn; constructor.
  - apply nth_error_nth'. apply H. now left.
  - apply IH. intros; apply H. now right.
Qed.
(** The rows drawn, one after another. *)
Fixpoint rows (n n_boot : nat) (s : S) : list (list nat) * S :=
  match n_boot with
  | O => ([], s)
  | Datatypes.S k => let '(r, s) := fill_row randint n n s in let '(rs, s) := rows n k s in (r :: rs, s)
  end.
Lemma rows_ok n : (0 < n)%nat -> forall k s, length (fst (rows n k s)) = k /\ forall r, In r (fst (rows n k s)) -> bars_drawn n r.
Proof.
  intros P. induction k as [| k IH]; intros s; [easy |]. cbn [rows]. pose proof (fill_row_ok n n P s) as F. destruct (fill_row randint n n s) as [r s1]. cbn in F.
  specialize (IH s1). destruct (rows n k s1) as [rs s2]. cbn in *. destruct IH as (L & A). split; [congruence |]. intros q [<- | I]; auto.
Qed.
Definition below_count (theta : R) (l : list R) : nat := length (filter (fun v => ltb v theta) l).
Lemma boot_loop_rows fn theta x : forall k s, boot_loop randint fn theta x k s =
  let '(rs, s') := rows (length x) k s in let boot := map (fun r => fn (resample x r)) rs in (boot, below_count theta boot, s').
Proof.
  induction k as [| k IH]; intros s; [easy |]. cbn [boot_loop rows]. destruct (fill_row randint (length x) (length x) s) as [r s1]. rewrite IH.
  destruct (rows (length x) k s1) as [rs s2]. cbn. unfold below_count. cbn. now destruct (ltb _ theta).
Qed.
Lemma below_count_ok theta l : below_count theta l = below theta l.
Proof. easy. Qed.
Lemma dd_loop_rows changes returns : forall k s, dd_loop randint changes returns k s =
  let '(rs, s') := rows (length changes) k s in
  (map (fun r => max_drawdown (resample changes r)) rs, map (fun r => max_drawdown_pct (resample returns r)) rs, s').
Proof.
  induction k as [| k IH]; intros s; [easy |]. cbn [dd_loop rows]. destruct (fill_row randint (length changes) (length changes) s) as [r s1]. rewrite IH.
  now destruct (rows (length changes) k s1) as [rs s2].
Qed.
Lemma all_loop_rows tp ts changes returns : forall k s, all_loop randint tp ts changes returns k s =
  let '(rs, s') := rows (length changes) k s in
  let lp := map (fun r => profit_factor true (resample changes r)) rs in
  let sr := map (fun r => sharpe (resample returns r)) rs in
  (mk_acc lp sr (map (fun r => max_drawdown (resample changes r)) rs) (map (fun r => max_drawdown_pct (resample returns r)) rs) (below_count tp lp) (below_count ts sr), s').
Proof.
  induction k as [| k IH]; intros s; [easy |]. cbn [all_loop rows]. destruct (fill_row randint (length changes) (length changes) s) as [r s1]. rewrite IH.
  destruct (rows (length changes) k s1) as [rs s2]. cbn. unfold below_count. cbn. destruct (ltb _ tp), (ltb _ ts); easy.
Qed.
End Boot.
