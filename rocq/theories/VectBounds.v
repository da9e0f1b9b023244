(** Ranges of the indicators in exact arithmetic. *)
From Coq Require Import List Bool Arith Lia ZArith QArith Qabs Lqa.
From Verif Require Import VectModel VectSpec VectLemmas VectExact VectWindow VectSum VectCausal VectCausal2 VectCausal3 VectCausal4.
Import ListNotations.
Open Scope list_scope.
Open Scope Z_scope.

(** A number between [lo] and [hi], or NaN. *)
Definition in_range (lo hi : Q) (x : xq) : Prop := match x with Fin q => (lo <= q <= hi)%Q | NaN => True | _ => False end.
(** Not negative, or NaN. *)
Definition nonneg (x : xq) : Prop := match x with Fin q => (0 <= q)%Q | NInf => False | _ => True end.
(** Every value of a call that returns is in the range or NaN. *)
Definition all_between (lo hi : Q) (o : option (list xq)) : Prop := forall r, o = Some r -> Forall (in_range lo hi) r.
(** What is needed of the exponential and of the square root of two pi. *)
Definition elementary (ex sq : xq -> xq) (pi : Q) : Prop :=
  (forall q, (q <= 0)%Q -> exists r, ex (Fin q) = Fin r /\ (0 <= r <= 1)%Q) /\ ex NInf = Fin 0 /\
  exists r, sq (Fin (2 * pi)) = Fin r /\ (2 <= r)%Q.

Lemma sqr_nn (x : Q) : (0 <= x * x)%Q.
Proof. destruct (Qlt_le_dec x 0); nra. Qed.
Lemma poly_range (t : Q) : (0 <= t <= 1)%Q ->
  (0 <= ((((1330274429 # 1000000000) * t + - (1821255978 # 1000000000)) * t + (1781477937 # 1000000000)) * t
                + - (356563782 # 1000000000)) * t + (319381530 # 1000000000) <= 2)%Q.
Proof.
  intros [H0 H1].
  assert (S : (0 <= t * t <= t)%Q) by nra.
  set (u := (((1330274429 # 1000000000) * t + - (1821255978 # 1000000000)) * t + (1781477937 # 1000000000))%Q).
  assert (U : (1 <= u <= 2)%Q).
  { unfold u. split.
    - pose proof (sqr_nn (t - (68#100))). nra.
    - assert (0 <= t * (1 - t))%Q by nra. nra. }
  set (v := (u * t + - (356563782 # 1000000000))%Q).
  assert (V1 : (v <= (3#2) * t)%Q).
  { unfold v, u. assert (0 <= t * (1 - t))%Q by nra. assert (0 <= t * t * (1 - t))%Q by nra. nra. }
  assert (V2 : (t - (356563782 # 1000000000) <= v)%Q) by (unfold v; nra).
  split; [|assert (v * t <= (3#2) * t * t)%Q by nra; nra]. assert (t * (t - (356563782 # 1000000000)) <= v * t)%Q by nra.
  pose proof (sqr_nn (t - (178#1000))). nra.
Qed.

Section Bounds.
Context (lg ex sq : xq -> xq) (pi : Q) (junk : list xq -> Z -> xq).
Hypothesis El : elementary ex sq pi.
Notation A := (exact lg ex sq pi junk).
Notation rd := (rd A).

Lemma ncdf_tail z e : ex (Fin (- (1 # 2) * Qabs z * Qabs z)) = Fin e -> (0 <= e)%Q ->
  exists w, (0 <= w <= e)%Q /\ ncdf A (Fin z) = if Qle_bool z 0 then Fin w else Fin (1 - w).
Proof.
  intros Ee He. destruct El as (E1 & E2 & (r & E3 & E4)).
  assert (Er : Qeq_bool r 0 = false) by (destruct (Qeq_bool r 0) eqn:E; [apply Qeq_bool_iff in E; lra|easy]).
  unfold ncdf. cbv zeta. cbn [fabs exact xabs neg mul q_ num fexp fsqrt fpi z_ div add sub xmul xadd xneg].
  set (p := Qabs z) in *. assert (Hp : (0 <= p)%Q) by apply Qabs_nonneg.
  cbn [xmul]. rewrite Ee. change (inject_Z 2) with 2%Q. rewrite E3.
  set (t := (1 / (1 + p * (2316419 # 10000000)))%Q).
  assert (Hd : (0 < 1 + p * (2316419 # 10000000))%Q) by nra.
  assert (Ht : (0 <= t <= 1)%Q).
  { unfold t. split; [apply Qle_shift_div_l; [easy|lra]|apply Qle_shift_div_r; [easy|nra]]. }
  change (inject_Z 1) with 1%Q. change (inject_Z 0) with 0%Q.
  assert (Ed : xdiv (Fin 1) (Fin (1 + p * (2316419 # 10000000))) = Fin t).
  { cbn [xdiv]. destruct (Qeq_bool (1 + p * (2316419 # 10000000)) 0) eqn:E; [apply Qeq_bool_iff in E; lra|easy]. }
  rewrite Ed. cbn [xsub xneg xadd xmul xdiv]. rewrite Er. cbn [xmul xsub xneg xadd lt].
  pose proof (poly_range t Ht) as P.
  set (u := (((((1330274429 # 1000000000) * t + - (1821255978 # 1000000000)) * t + (1781477937 # 1000000000)) * t
            + - (356563782 # 1000000000)) * t + (319381530 # 1000000000))%Q) in *.
  assert (D : (0 <= e / r <= (1 # 2) * e)%Q).
  { split; [apply Qle_shift_div_l; [lra|lra]|apply Qle_shift_div_r; [lra|nra]]. }
  exists (e / r * (u * t))%Q. split.
  { assert (0 <= u * t <= 2)%Q by nra. split; [nra|]. set (d := (e / r)%Q) in *. set (w := (u * t)%Q) in *.
    assert (d * w <= (1#2) * e * w)%Q by (apply Qmult_le_compat_r; lra). assert (e * w <= e * 2)%Q by nra. lra. }
  change (lt A (Fin 0) (Fin z)) with (negb (Qle_bool z 0)). destruct (Qle_bool z 0); reflexivity.
Qed.
Lemma squash_range x : in_range (-50) 50 (squash A x).
Proof.
  destruct El as (E1 & E2 & (r & E3 & E4)).
  assert (Er : Qeq_bool r 0 = false) by (destruct (Qeq_bool r 0) eqn:E; [apply Qeq_bool_iff in E; lra|easy]).
  assert (G : forall x, in_range 0 1 (ncdf A x)).
  { intros y. destruct y as [z| | |].
    - destruct (E1 (- (1 # 2) * Qabs z * Qabs z)%Q) as (e & Ee & He); [pose proof (Qabs_nonneg z); nra|].
      destruct (ncdf_tail z e Ee (proj1 He)) as (w & Hw & ->). destruct (Qle_bool z 0); cbn [in_range]; lra.
    - unfold ncdf. cbv zeta. cbn [fabs exact xabs neg mul q_ num fexp fsqrt fpi z_ div add sub xmul xadd xneg xdiv xsub lt].
      cbn [xlt xnan negb andb]. match goal with |- in_range _ _ (xmul ?a NaN) => destruct a; exact I end.
    - unfold ncdf. cbv zeta. cbn [fabs exact xabs neg mul q_ num fexp fsqrt fpi z_ div add sub lt].
      change (xmul (Fin (inject_Z 2)) (Fin pi)) with (Fin (2 * pi)). change (xmul (xmul (xneg (Fin (1 # 2))) PInf) PInf) with NInf. rewrite E2, E3.
      change (xdiv (Fin (inject_Z 1)) (xadd (Fin (inject_Z 1)) (xmul PInf (Fin (2316419 # 10000000))))) with (Fin 0).
      cbn [xdiv]. rewrite Er. match goal with |- context [xmul ?w (Fin 0)] => change (xmul w (Fin 0)) with (Fin 0) || idtac end.
      cbn [xmul xsub xadd xneg].
      match goal with |- in_range _ _ (if ?b then _ else _) => destruct b end; cbn [in_range xsub xneg xadd xmul]; change (inject_Z 1) with 1%Q;
        match goal with |- context [(0 / r * ?w)%Q] => assert (Z : (0 / r * w == 0)%Q) by (unfold Qdiv; ring); rewrite Z end; lra.
    - unfold ncdf. cbv zeta. cbn [fabs exact xabs neg mul q_ num fexp fsqrt fpi z_ div add sub lt].
      change (xmul (Fin (inject_Z 2)) (Fin pi)) with (Fin (2 * pi)). change (xmul (xmul (xneg (Fin (1 # 2))) PInf) PInf) with NInf. rewrite E2, E3.
      change (xdiv (Fin (inject_Z 1)) (xadd (Fin (inject_Z 1)) (xmul PInf (Fin (2316419 # 10000000))))) with (Fin 0).
      cbn [xdiv]. rewrite Er. match goal with |- context [xmul ?w (Fin 0)] => change (xmul w (Fin 0)) with (Fin 0) || idtac end.
      cbn [xmul xsub xadd xneg].
      match goal with |- in_range _ _ (if ?b then _ else _) => destruct b end; cbn [in_range xsub xneg xadd xmul]; change (inject_Z 1) with 1%Q;
        match goal with |- context [(0 / r * ?w)%Q] => assert (Z : (0 / r * w == 0)%Q) by (unfold Qdiv; ring); rewrite Z end; lra. }
  unfold squash. specialize (G x). destruct (ncdf A x) as [q| | |]; cbn in *; try easy. change (inject_Z 100) with 100%Q. change (inject_Z 50) with 50%Q. lra.
Qed.

Lemma some_inj {T} (x y : T) : Some x = Some y -> x = y.
Proof. congruence. Qed.
Lemma tab_forall (P : xq -> Prop) n f : (forall i, 0 <= i < n -> P (f i)) -> Forall P (tab A n f).
Proof.
  intros H. unfold tab. apply Forall_forall. intros x Hx. apply in_map_iff in Hx. destruct Hx as (i & <- & Hi).
  apply H. apply zrange_in in Hi. lia.
Qed.
Lemma tab_from_forall (P : xq -> Prop) a n f : P (Fin 0) -> (forall i, 0 <= i < n -> a <= i -> P (f i)) -> Forall P (tab_from A a n f).
Proof. intros H0 H. apply tab_forall. intros i Hi. destruct (Z.ltb_spec i a); [exact H0|now apply H]. Qed.
Lemma full_forall (P : xq -> Prop) n x : P x -> Forall P (full A n x).
Proof. intros H. unfold full. induction (Z.to_nat n); constructor; easy. Qed.
Lemma scan_forall {S T} (P : T -> Prop) (f : Z -> S -> S * T) l : (forall i s, P (snd (f i s))) -> forall s, Forall P (snd (scan f s l)).
Proof.
  intros H. induction l as [|i r IH]; intros s; [constructor|]. cbn [scan]. specialize (H i s). destruct (f i s) as [s1 x].
  specialize (IH s1). destruct (scan f s1 r) as [s2 o]. constructor; easy.
Qed.
Lemma scan_both {S T} (I : S -> Prop) (P : T -> Prop) (f : Z -> S -> S * T) l :
  (forall i s, In i l -> I s -> I (fst (f i s)) /\ P (snd (f i s))) -> forall s, I s -> I (fst (scan f s l)) /\ Forall P (snd (scan f s l)).
Proof.
  induction l as [|i r IH]; intros H s Hs; [split; [easy|constructor]|]. cbn [scan].
  destruct (H i s (or_introl eq_refl) Hs) as [H1 H2]. destruct (f i s) as [s1 x]. cbn in H1, H2.
  assert (H' : forall j t, In j r -> I t -> I (fst (f j t)) /\ P (snd (f j t))) by (intros j t Hj; apply H; now right).
  destruct (IH H' s1 H1) as [H3 H4].
  destruct (scan f s1 r) as [s2 o]. split; [easy|]. constructor; easy.
Qed.
Lemma zero50 : in_range (-50) 50 (Fin 0).
Proof. cbn. lra. Qed.

Ltac ret E := intros r E; match type of E with (if ?b then _ else _) = _ => destruct b; [|discriminate] end.

Lemma trend_range v h l c lb al sc ty : all_between (-50) 50 (trend A v h l c lb al sc ty).
Proof.
  unfold trend. ret E. apply some_inj in E; subst r. apply tab_from_forall; [apply zero50|]. intros i _ _.
  repeat match goal with |- context [let '(_, _) := ?p in _] => destruct p end. apply squash_range.
Qed.
Lemma deviation_range v lb sc ty : all_between (-50) 50 (deviation A v lb sc ty).
Proof.
  unfold deviation. ret E. apply some_inj in E; subst r. apply tab_from_forall; [apply zero50|]. intros i _ _. cbv zeta.
  match goal with |- in_range _ _ (if ?b then _ else _) => destruct b end; [apply squash_range|apply zero50].
Qed.
Lemma close_minus_ma_range h l c lb al sc : all_between (-50) 50 (close_minus_ma A h l c lb al sc).
Proof.
  unfold close_minus_ma. ret E. apply some_inj in E; subst r. apply tab_from_forall; [apply zero50|]. intros i _ _. cbv zeta.
  match goal with |- in_range _ _ (if ?b then _ else _) => destruct b end; [apply squash_range|apply zero50].
Qed.
Lemma price_intensity_range o h l c sm sc : all_between (-50) 50 (price_intensity A o h l c sm sc).
Proof.
  unfold price_intensity. ret E. apply some_inj in E; subst r. apply Forall_forall. intros x Hx. apply in_map_iff in Hx.
  destruct Hx as (y & <- & _). apply squash_range.
Qed.
Lemma price_change_oscillator_range h l c sl m sc : all_between (-50) 50 (price_change_oscillator A h l c sl m sc).
Proof.
  unfold price_change_oscillator. ret E. apply some_inj in E; subst r. apply tab_from_forall; [apply zero50|]. intros i _ _. cbv zeta.
  match goal with |- in_range _ _ (if ?b then _ else _) => destruct b end; [apply squash_range|apply zero50].
Qed.
Lemma reactivity_range h l c v lb sm sc : all_between (-50) 50 (reactivity A h l c v lb sm sc).
Proof.
  unfold reactivity. ret E. cbv zeta in E.
  match type of E with (if ?b then _ else _) = _ => destruct b end; [apply some_inj in E; subst r; apply full_forall, zero50|].
  match type of E with (if ?b then _ else _) = _ => destruct b end; [apply some_inj in E; subst r; apply full_forall, zero50|].
  match type of E with match ?p with _ => _ end = _ => destruct p as [[[? ?] ?] ?] end. apply some_inj in E; subst r.
  apply Forall_app. split; [apply full_forall, zero50|]. apply scan_forall. intros i [r0 v0].
  match goal with |- context [let '(_, _) := ?p in _] => destruct p end. apply squash_range.
Qed.
Lemma price_volume_fit_range c v lb sc : all_between (-50) 50 (price_volume_fit A c v lb sc).
Proof.
  unfold price_volume_fit. ret E. apply some_inj in E; subst r. apply tab_from_forall; [apply zero50|]. intros i _ _. cbv zeta.
  repeat match goal with |- context [let '(_, _) := ?p in _] => destruct p end. apply squash_range.
Qed.
Lemma volume_weighted_ma_ratio_range c v lb sc : all_between (-50) 50 (volume_weighted_ma_ratio A c v lb sc).
Proof.
  unfold volume_weighted_ma_ratio. ret E. apply some_inj in E; subst r. apply tab_from_forall; [apply zero50|]. intros i _ _. cbv zeta.
  match goal with |- context [match ?p with _ => _ end] => destruct p as [[? ?] ?] end.
  match goal with |- in_range _ _ (if ?b then _ else _) => destruct b end; [apply squash_range|apply zero50].
Qed.
Lemma obv_bar_range c v lb sc i : in_range (-50) 50
   (let '(signed_volume, total_volume) :=
       floop 0 lb (fun j s => let '(sv, tv) := s in
         let sv := if lt A (rd c (i - j - 1)) (rd c (i - j)) then add A sv (rd v (i - j))
                   else if lt A (rd c (i - j)) (rd c (i - j - 1)) then sub A sv (rd v (i - j)) else sv in
         (sv, add A tv (rd v (i - j)))) (z_ A 0, z_ A 0) in
      if le A total_volume (z_ A 0) then z_ A 0
      else let value := mul A (div A signed_volume total_volume) (fsqrt A (z_ A lb)) in squash A (mul A sc value)).
Proof.
  match goal with |- context [let '(_, _) := ?p in _] => destruct p end.
  match goal with |- in_range _ _ (if ?b then _ else _) => destruct b end; [apply zero50|apply squash_range].
Qed.
Lemma normalized_obv_range c v lb dl sc : all_between (-50) 50 (on_balance_volume A c v lb dl sc Normalized).
Proof.
  unfold on_balance_volume. ret E. apply some_inj in E; subst r. apply tab_from_forall; [apply zero50|]. intros i _ _. apply obv_bar_range.
Qed.
Lemma normalized_volume_index_range c v lb sc ty : all_between (-50) 50 (normalized_volume_index A c v lb sc ty).
Proof.
  unfold normalized_volume_index. ret E. apply some_inj in E; subst r. apply tab_from_forall; [apply zero50|]. intros i _ _. cbv zeta.
  match goal with |- in_range _ _ (if ?b then _ else _) => destruct b end; [exact I|].
  match goal with |- in_range _ _ (if ?b then _ else _) => destruct b end; [apply squash_range|apply zero50].
Qed.
Lemma volume_momentum_range v sl m sc : all_between (-50) 50 (volume_momentum A v sl m sc).
Proof.
  unfold volume_momentum. ret E. apply some_inj in E; subst r. apply tab_from_forall; [apply zero50|]. intros i _ _. cbv zeta.
  match goal with |- in_range _ _ (if ?b then _ else _) => destruct b end; [apply squash_range|apply zero50].
Qed.
Lemma macd_range h l c sl ll sm sc : xle sm (Fin 1) = true -> all_between (-50) 50 (macd A h l c sl ll sm sc).
Proof.
  intros Hs. unfold macd. ret E. cbv zeta in E.
  assert (G : lt A (z_ A 1) sm = false).
  { cbn [lt exact z_ num]. unfold xlt. change (inject_Z 1) with 1%Q. rewrite Hs. now rewrite !andb_false_r. }
  rewrite G in E. apply some_inj in E; subst r. constructor; [apply zero50|]. apply scan_forall. intros i [a b]. apply squash_range.
Qed.

(** ** Ends of the range *)
Lemma squash_high q e : ex (Fin (- (1 # 2) * Qabs q * Qabs q)) = Fin e -> (0 <= e <= 1 # 50)%Q -> (0 < q)%Q ->
  exists w, squash A (Fin q) = Fin w /\ (48 <= w <= 50)%Q.
Proof.
  intros E He Hq. destruct (ncdf_tail q e E (proj1 He)) as (w & Hw & En). unfold squash. rewrite En.
  destruct (Qle_bool q 0) eqn:B; [apply Qle_bool_iff in B; lra|]. cbn. exists (inject_Z 100 * (1 - w) + - inject_Z 50)%Q. split; [reflexivity|].
  change (inject_Z 100) with 100%Q. change (inject_Z 50) with 50%Q. lra.
Qed.
Lemma squash_low q e : ex (Fin (- (1 # 2) * Qabs q * Qabs q)) = Fin e -> (0 <= e <= 1 # 50)%Q -> (q < 0)%Q ->
  exists w, squash A (Fin q) = Fin w /\ (- (50) <= w <= - (48))%Q.
Proof.
  intros E He Hq. destruct (ncdf_tail q e E (proj1 He)) as (w & Hw & En). unfold squash. rewrite En.
  destruct (Qle_bool q 0) eqn:B; [|apply not_true_iff_false in B; rewrite Qle_bool_iff in B; lra]. cbn. exists (inject_Z 100 * w + - inject_Z 50)%Q. split; [reflexivity|].
  change (inject_Z 100) with 100%Q. change (inject_Z 50) with 50%Q. lra.
Qed.
End Bounds.
