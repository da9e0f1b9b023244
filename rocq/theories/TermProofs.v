(** The terms of rotation's orders. *)
From Verif Require Import Lemmas PortfolioFacts PortfolioRun.
From Verif Require Export TermSpec RotationRun BarOrders.

(** How rotation may change one context. *)
Definition moved (c : cfg) (p : port) (s : sym) (close : fnum) (size : Q) (g g' : sig) : Prop :=
  g' = g \/ (exists sd, all_shares sd p s g = Some g') \/ (~ RotationSpec.holds p s /\ exists sd, set_target_shares c p s close size sd g = Some g').
Lemma leg_moved p ops worst m sd x x' ranks cand : let k := krun ops in
  NoDup (akeys x) -> NoDup (akeys (poss sd p)) -> rotation_leg p k worst m sd x = Some (x', ranks, cand) ->
  akeys x' = akeys x /\ (forall s, In s cand -> ~ RotationSpec.holds p s) /\ NoDup cand /\
  forall s, aget s x' = aget s x \/ exists g g', aget s x = Some g /\ all_shares sd p s g = Some g' /\ aget s x' = Some g'.
Proof.
  intros k ND NP E. pose proof (leg_ok p ops worst m sd x x' ranks cand ND NP E) as [_ [[KX _] [SE _]]]. fold k in SE. split; auto.
  split; [destruct m; cbn in SE; [intros s I; apply SE in I; apply I|subst cand; intros s []]|]. split; [destruct m; cbn in SE; [apply SE|subst cand; constructor]|].
  unfold rotation_leg in E. destruct m as [m|]; [|injection E as <- _ _; auto].
  destruct (rotation_exits p k (rotation_ranks x sd) worst sd x) as [[x1 n]|] eqn:X; [|discriminate]. injection E as <- _ _.
  destruct (exits_spec _ _ _ _ _ _ NP _ _ _ _ X) as [_ [_ H]]. intro s. specialize (H s). destruct (_ && _); auto.
Qed.
Lemma rotation_moved c pops p ops close z worst x x3 lr sr : cfg_ok c -> run c pops = Some p -> NoDup (akeys x) ->
  apply_worst_rank_held c p (krun ops) close z worst x = Some (x3, lr, sr) ->
  exists size, forall s g', aget s x3 = Some g' -> exists g, aget s x = Some g /\ moved c p s (close s) size g g'.
Proof.
  intros CO R ND. unfold apply_worst_rank_held. destruct (rotation_target_size z) as [size|]; [|discriminate].
  destruct (rotation_leg p _ worst (z_max_long z) Long x) as [[[x1 lr1] lc]|] eqn:L1; [|discriminate].
  destruct (rotation_leg p _ worst (z_max_short z) Short x1) as [[[x2 sr1] sc]|] eqn:L2; [|discriminate].
  destruct (resolve_overlap lc sc lr1 sr1) as [lc' sc'] eqn:OV.
  destruct (target_all c p close size Long lc' (Some x2)) as [x2'|] eqn:T1; [|rewrite target_none; discriminate].
  destruct (target_all c p close size Short sc' (Some x2')) as [x3'|] eqn:T2; [|discriminate]. intros [= <- <- <-].
  assert (NP : forall sd, NoDup (akeys (poss sd p))) by (intros []; apply (one_side c pops p 0%nat CO R)).
  destruct (leg_moved _ _ _ _ _ _ _ _ _ ND (NP Long) L1) as [K1 [C1 [N1 M1]]].
  assert (ND1 : NoDup (akeys x1)) by (rewrite K1; auto).
  destruct (leg_moved _ _ _ _ _ _ _ _ _ ND1 (NP Short) L2) as [K2 [C2 [N2 M2]]].
  assert (SUB : incl lc' lc /\ incl sc' sc /\ NoDup lc' /\ NoDup sc' /\ forall s, In s lc' -> ~ In s sc').
  { unfold resolve_overlap in OV. injection OV as <- <-. split; [intros s I; now apply filter_In in I|]. split; [intros s I; now apply filter_In in I|].
    split; [now apply filter_nodup|]. split; [now apply filter_nodup|]. intros s I J. apply filter_In in I, J. destruct I as [I1 I2], J as [J1 J2].
    apply nmem_in in I1. apply nmem_in in J1. rewrite I1, J1 in *. cbn [andb negb] in *. rewrite negb_involutive in J2. rewrite J2 in I2. discriminate. }
  destruct SUB as [S1 [S2 [NL' [NS' DIS]]]]. apply target_spec in T1; auto. apply target_spec in T2; auto. destruct T1 as [KT1 [TI1 TO1]], T2 as [KT2 [TI2 TO2]].
  assert (LEG : forall s g', aget s x2 = Some g' -> exists g, aget s x = Some g /\ (g' = g \/ exists sd, all_shares sd p s g = Some g')).
  { intros s g' G. destruct (M2 s) as [E2|[h [h' [H1 [H2 H3]]]]].
    - rewrite E2 in G. destruct (M1 s) as [E1|[h [h' [H1 [H2 H3]]]]]; [rewrite E1 in G; eauto|]. exists h. split; auto. right. exists Long. congruence.
    - assert (P2 : position_of p Short s <> None) by (unfold position_of; cbn [poss]; unfold all_shares, cover_all_shares in H2; destruct (aget s (p_shorts p)); congruence).
      destruct (M1 s) as [E1|[a [a' [A1 [A2 A3]]]]]; [exists h; split; [congruence|]; right; exists Short; congruence|].
      exfalso. assert (P1 : position_of p Long s <> None) by (unfold position_of; cbn [poss]; unfold all_shares, sell_all_shares in A2; destruct (aget s (p_longs p)); congruence).
      destruct (one_side c pops p s CO R) as [[D|D] _]; congruence. }
  assert (FREE : forall s g', ~ RotationSpec.holds p s -> aget s x2 = Some g' -> aget s x = Some g').
  { intros s g' NH G. destruct (LEG s g' G) as [g [G0 [->|[sd A]]]]; auto. exfalso. apply NH. unfold RotationSpec.holds, position_of. destruct sd; cbn [poss] in *; unfold all_shares, sell_all_shares, cover_all_shares in A;
      [left|right]; intro N; rewrite N in A; discriminate. }
  exists size. intros s g' G. unfold moved. destruct (in_dec Nat.eq_dec s sc') as [I2|I2].
  - destruct (TI2 s I2) as [g [h [G1 [G2 G3]]]]. assert (g' = h) by congruence. subst h.
    rewrite TO1 in G1 by (intro J; exact (DIS s J I2)). pose proof (C2 s (S2 s I2)) as NH. exists g. split; auto. eauto.
  - rewrite TO2 in G by auto. destruct (in_dec Nat.eq_dec s lc') as [I1|I1].
    + destruct (TI1 s I1) as [g [h [G1 [G2 G3]]]]. assert (g' = h) by congruence. subst h. pose proof (C1 s (S1 s I1)) as NH. exists g. split; auto. eauto.
    + rewrite TO1 in G by auto. destruct (LEG s g' G) as [g [G0 M]]. exists g. split; auto. tauto.
Qed.
Lemma terms_of c p s close size u g : moved c p s close size (reset_rotation u) g -> terms u (clear_unused g).
Proof.
  intros [->|[[sd A]|[NH [sd A]]]].
  - constructor; cbn; auto; try (intros [X|X]; congruence); try (split; congruence); try congruence.
  - unfold all_shares, sell_all_shares, cover_all_shares in A. destruct sd; destruct (aget s _) as [pos|]; try discriminate; injection A as <-;
      (constructor; cbn; auto; try (split; congruence); congruence).
  - assert (X1 : aget s (p_longs p) = None) by (destruct (aget s (p_longs p)) eqn:E; auto; exfalso; apply NH; left; unfold position_of; cbn [poss]; congruence).
    assert (X2 : aget s (p_shorts p) = None) by (destruct (aget s (p_shorts p)) eqn:E; auto; exfalso; apply NH; right; unfold position_of; cbn [poss]; congruence).
    unfold set_target_shares in A. destruct (Qltb size 0); [discriminate|].
    assert (X : g = reset_rotation u \/ exists t, g = match sd with Long => set_buy (Some t) (reset_rotation u) | Short => set_sell (Some t) (reset_rotation u) end).
    { destruct close as [y|]; [|left; congruence]. destruct (Qle_bool y 0); [left; congruence|]. destruct (calc_target_shares _ _ _ _ _) as [t|]; [|discriminate]. right. exists t.
      destruct sd; rewrite ?X1, ?X2 in A; congruence. }
    destruct X as [->|[t ->]]; [|destruct sd]; (constructor; cbn; auto; try (intros [X|X]; congruence); try (split; congruence); congruence).
Qed.
Lemma bar_terms c k l v i d b b' worst : cfg_ok c -> windows_ok c l -> bar_of c k l v i d b b' -> z_worst (v_settings v) = Some worst -> v_sizer v = None ->
  exists m act us x, decision c v i d b b' m act us x /\ forall s g, aget s x = Some g -> terms (us s) g.
Proof.
  intros CO W B ZW SZ. destruct (bar_refined _ _ _ _ _ _ _ _ W B) as [_ [CF _]]. destruct (bar_decides c k l v i d b b' CO W B) as [m [act [us [x [DN [RT _]]]]]].
  exists m, act, us, x. split; auto. pose proof DN as [[R1 R2] [ND _] _ KX _ _ _].
  unfold rotate in RT. rewrite ZW, SZ, R2, CF in RT. destruct (apply_worst_rank_held _ _ _ _ _ _ _) as [[[x3 lr] sr]|] eqn:A; [|discriminate]. injection RT as <-.
  assert (KX1 : akeys (map (fun s => (s, us s)) act) = act) by (unfold akeys; rewrite map_map; apply map_id).
  apply rotation_moved with (pops := b_ops m) in A; auto; [|unfold reset_rotation_orders; rewrite akeys_map, KX1; exact ND].
  destruct A as [size A]. intros s g' G. unfold clear_unused_rotation_signals in G. rewrite aget_map in G. destruct (aget s x3) as [g|] eqn:G3; [|discriminate].
  cbn in G. injection G as <-. destruct (A s g G3) as [u [U M]]. unfold reset_rotation_orders in U. rewrite aget_map in U.
  destruct (aget s (map (fun s => (s, us s)) act)) as [u0|] eqn:U0; [|discriminate]. cbn in U. injection U as <-. apply aget_In in U0. apply in_map_iff in U0.
  destruct U0 as [s0 [[= -> <-] _]]. eapply terms_of; eauto.
Qed.
