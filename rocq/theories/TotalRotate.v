(** Proofs for C112: rotation never fails and leaves clean contexts. *)
From Verif Require Import Lemmas PortfolioFacts PortfolioRun.
From Verif Require Export TotalLoopSpec TermProofs.

Lemma target_size_some z n : z_max_long z = Some (S n) \/ z_max_short z = Some (S n) ->
  exists size, rotation_target_size z = Some size /\ 0 <= size.
Proof.
  intro H. unfold rotation_target_size.
  set (m := (_ + _)%nat). assert (M : (0 < m)%nat) by (unfold m; destruct H as [-> | ->]; destruct (z_max_long z), (z_max_short z); lia).
  destruct (Nat.eqb m 0) eqn:E; [apply Nat.eqb_eq in E; lia|]. eexists. split; [reflexivity|].
  apply Qle_shift_div_l; [change 0 with (inject_Z 0); rewrite <- Zlt_Qlt; lia|]. rewrite Qmult_0_l. discriminate.
Qed.
Lemma exits_some p k ranks worst sd L : (forall s, In s L -> aget s (poss sd p) <> None) -> forall st,
  exists st', fold_left (fun st s => rotation_exit1 p k ranks worst sd s st) L (Some st) = Some st'.
Proof.
  induction L as [|t L IH]; intros H [x n]; [cbn; eauto|]. cbn [fold_left].
  assert (HL : forall s, In s L -> aget s (poss sd p) <> None) by (intros s I; apply H; now right).
  unfold rotation_exit1 at 2. destruct (aget t x) as [g|]; [|apply IH, HL].
  destruct (match aget t ranks with Some r => Nat.leb r worst | None => false end); [apply IH, HL|].
  destruct (has_pending_order t (exit_order sd) k); [apply IH, HL|].
  assert (N : aget t (poss sd p) <> None) by (apply H; now left).
  unfold sell_all_shares, cover_all_shares. destruct sd; cbn [poss] in N; destruct (aget t _); try congruence; apply IH, HL.
Qed.
Lemma leg_some p k worst m sd x : exists r, rotation_leg p k worst m sd x = Some r.
Proof.
  unfold rotation_leg. destruct m as [m|]; [|eauto]. unfold rotation_exits.
  destruct (exits_some p k (rotation_ranks x sd) worst sd (akeys (poss sd p))) with (st := (x, 0%nat)) as [[x1 n] ->]; [|eauto].
  intros s I. apply ahas_true in I. unfold ahas in I. destruct (aget s (poss sd p)); congruence.
Qed.
Lemma leg_keys p ops worst m sd x x' ranks cand : NoDup (akeys x) -> NoDup (akeys (poss sd p)) ->
  rotation_leg p (krun ops) worst m sd x = Some (x', ranks, cand) -> akeys x' = akeys x /\ incl cand (akeys x).
Proof.
  intros ND NP E. destruct (leg_ok p ops worst m sd x x' ranks cand ND NP E) as [_ [[KX _] [SE _]]]. split; auto.
  destruct m; cbn in SE; [|subst cand; intros s []]. intros s I. apply SE in I. apply I.
Qed.
Lemma target_total c p close size sd l : 0 <= size -> forall x, incl l (akeys x) -> exists x', target_all c p close size sd l (Some x) = Some x' /\ akeys x' = akeys x.
Proof.
  intro P. induction l as [|t l IH]; intros x I; [cbn; eauto|]. unfold target_all. cbn [fold_left].
  assert (G : exists g, aget t x = Some g). { assert (J : In t (akeys x)) by (apply I; now left). apply ahas_true in J. unfold ahas in J. destruct (aget t x); [eauto|discriminate]. }
  destruct G as [g G]. rewrite G.
  assert (S : exists g', set_target_shares c p t (close t) size sd g = Some g').
  { unfold set_target_shares. destruct (Qltb size 0) eqn:B; [apply Qltb_lt in B; lra|]. destruct (close t) as [y|]; [|eauto].
    destruct (Qle_bool y 0) eqn:Y; [eauto|]. unfold calc_target_shares. rewrite Y. eauto. }
  destruct S as [g' ->]. assert (KA : akeys (aset t g' x) = akeys x) by (apply akeys_aset_in; eapply aget_Some_key; eauto).
  destruct (IH (aset t g' x)) as [x' [E K]]; [rewrite KA; intros s J; apply I; now right|]. exists x'. split; [exact E|congruence].
Qed.
Lemma worst_rank_total c pops p ops close z worst x n : cfg_ok c -> run c pops = Some p -> NoDup (akeys x) ->
  z_max_long z = Some (S n) \/ z_max_short z = Some (S n) -> exists r, apply_worst_rank_held c p (krun ops) close z worst x = Some r.
Proof.
  intros CO R ND Z. unfold apply_worst_rank_held. destruct (target_size_some z n Z) as [size [-> P]].
  assert (NP : forall sd, NoDup (akeys (poss sd p))) by (intros []; apply (one_side c pops p 0%nat CO R)).
  destruct (leg_some p (krun ops) worst (z_max_long z) Long x) as [[[x1 lr] lc] L1]. rewrite L1.
  destruct (leg_keys _ _ _ _ _ _ _ _ _ ND (NP Long) L1) as [K1 I1].
  destruct (leg_some p (krun ops) worst (z_max_short z) Short x1) as [[[x2 sr] sc] L2]. rewrite L2.
  assert (ND1 : NoDup (akeys x1)) by (now rewrite K1).
  destruct (leg_keys _ _ _ _ _ _ _ _ _ ND1 (NP Short) L2) as [K2 I2]. rewrite K1 in *.
  unfold resolve_overlap. cbv zeta.
  match goal with |- context [target_all c p close size Long ?l _] => destruct (target_total c p close size Long l P x2) as [x3 [-> K3]] end.
  { intros s J. apply filter_In in J. rewrite K2. apply I1, J. }
  match goal with |- context [target_all c p close size Short ?l _] => destruct (target_total c p close size Short l P x3) as [x4 [-> K4]] end.
  { intros s J. apply filter_In in J. rewrite K3, K2. apply I2, J. }
  eauto.
Qed.

(** ** What a context may hold afterwards *)
Lemma moved_orders c pops p s close size u g : cfg_ok c -> run c pops = Some p -> moved c p s close size (reset_rotation u) g ->
  (g_bshares g = None \/ g_sshares g = None) /\ (forall q, g_bshares g = Some q -> 0 <= q) /\ (forall q, g_sshares g = Some q -> 0 <= q).
Proof.
  intros CO R. assert (PS : forall sd pos, aget s (poss sd p) = Some pos -> 0 <= ps_shares pos).
  { intros sd pos E. pose proof (run_good _ _ _ CO R) as G. pose proof (co_pos _ _ (gd_core _ _ G) sd s pos E) as P.
    rewrite (po_shares _ _ _ _ P). apply Qsum_nonneg, Forall_forall. intros x Ix.
    apply in_map_iff in Ix. destruct Ix as [e [<- Ie]]. apply Qlt_le_weak, (eo_pos _ _ _ _ (po_entries _ _ _ _ P e Ie)). auto. }
  intros [->|[[sd A]|[NH [sd A]]]].
  - cbn. split; [auto|]. split; discriminate.
  - unfold all_shares, sell_all_shares, cover_all_shares in A. destruct sd; destruct (aget s _) as [pos|] eqn:E; try discriminate; injection A as <-; cbn.
    + split; [auto|]. split; [discriminate|]. intros q [= <-]. exact (PS Long pos E).
    + split; [auto|]. split; [|discriminate]. intros q [= <-]. exact (PS Short pos E).
  - assert (X1 : aget s (p_longs p) = None) by (destruct (aget s (p_longs p)) eqn:E; auto; exfalso; apply NH; left; unfold position_of; cbn [poss]; congruence).
    assert (X2 : aget s (p_shorts p) = None) by (destruct (aget s (p_shorts p)) eqn:E; auto; exfalso; apply NH; right; unfold position_of; cbn [poss]; congruence).
    unfold set_target_shares in A. destruct (Qltb size 0); [discriminate|].
    destruct close as [y|]; [|injection A as <-; cbn; split; [auto|split; discriminate]].
    destruct (Qle_bool y 0) eqn:Y; [injection A as <-; cbn; split; [auto|split; discriminate]|].
    unfold calc_target_shares in A. rewrite Y in A. cbv zeta in A. set (t := if c_fractional c then _ else _) in A.
    assert (T : 0 <= t).
    { unfold t. destruct (c_fractional c); [apply Q.le_max_r|]. change 0 with (inject_Z 0). rewrite <- Zle_Qle. lia. }
    destruct sd; rewrite ?X1, ?X2 in A; injection A as <-; cbn; (split; [auto|]); split; try discriminate; intros q [= <-]; exact T.
Qed.
Lemma moved_sized c pops p s close size u g : cfg_ok c -> run c pops = Some p -> clean_scores u -> moved c p s close size (reset_rotation u) g -> clean_sized g.
Proof.
  intros CO R U M. destruct (moved_orders _ _ _ _ _ _ _ _ CO R M) as [O1 [O2 O3]].
  assert (X : (g_blimit g, g_slimit g, g_score g, g_hold g, g_bfill g, g_sfill g) = (None, None, g_score u, g_hold u, g_bfill u, g_sfill u) /\ stops_set g = stops_set u).
  { destruct M as [->|[[sd A]|[NH [sd A]]]]; [split; reflexivity| |].
    - unfold all_shares, sell_all_shares, cover_all_shares in A. destruct sd; destruct (aget s _) as [pos|]; try discriminate; injection A as <-; split; reflexivity.
    - assert (X1 : aget s (p_longs p) = None) by (destruct (aget s (p_longs p)) eqn:E; auto; exfalso; apply NH; left; unfold position_of; cbn [poss]; congruence).
      assert (X2 : aget s (p_shorts p) = None) by (destruct (aget s (p_shorts p)) eqn:E; auto; exfalso; apply NH; right; unfold position_of; cbn [poss]; congruence).
      unfold set_target_shares in A. destruct (Qltb size 0); [discriminate|]. destruct close as [y|]; [|injection A as <-; split; reflexivity].
      destruct (Qle_bool y 0); [injection A as <-; split; reflexivity|]. destruct (calc_target_shares _ _ _ _ _) as [t|]; [|discriminate].
      destruct sd; rewrite ?X1, ?X2 in A; injection A as <-; split; reflexivity. }
  destruct X as [X Y]. injection X as L1 L2 S1 H1 F1 F2. unfold stops_set in Y. injection Y as A3 A4 A5 A6 A7 A8 A9 A10 A11 A12 A13 A14.
  destruct U as [U1 U2 U3 U4 U5 U6 U7]. constructor; auto; try (rewrite ?L1, ?L2; discriminate).
  constructor; rewrite ?S1, ?H1, ?F1, ?F2, ?A3, ?A4, ?A5, ?A6, ?A7, ?A8, ?A9, ?A10, ?A11, ?A12, ?A13, ?A14; auto.
Qed.
Lemma cleared g : clean_sized g -> clean_signals true (clear_unused g).
Proof.
  intros [[U1 U2 U3 U4 U5 U6 U7] O B S L1 L2].
  assert (LB : g_bshares g = None -> g_blimit g = None) by (intro X; destruct (g_blimit g) as [l|]; auto; destruct (L1 l eq_refl); congruence).
  assert (LS : g_sshares g = None -> g_slimit g = None) by (intro X; destruct (g_slimit g) as [l|]; auto; destruct (L2 l eq_refl); congruence).
  assert (P1 : forall l, g_blimit g = Some (Some l) -> 0 < l) by (intros l X; destruct (L1 _ X) as [_ [y [[= <-] Y]]]; exact Y).
  assert (P2 : forall l, g_slimit g = Some (Some l) -> 0 < l) by (intros l X; destruct (L2 _ X) as [_ [y [[= <-] Y]]]; exact Y).
  assert (N1 : g_blimit g <> Some None) by (intro X; destruct (L1 _ X) as [_ [y [Y _]]]; discriminate).
  assert (N2 : g_slimit g <> Some None) by (intro X; destruct (L2 _ X) as [_ [y [Y _]]]; discriminate).
  unfold clear_unused. destruct (g_bshares g) as [qb|] eqn:EB; destruct (g_sshares g) as [qs|] eqn:ES; cbn [given orb]; try (exfalso; destruct O; discriminate);
    constructor; unfold contradictory, wants, unusable, some_stop; cbn; auto; try (intros; discriminate).
  - intros [[X _]|[[_ [X|[X _]]]|[[X _]|[[_ X]|[X _]]]]]; try congruence. apply X; auto.
  - intros _ [X|[X|[[h [X Y]]|[X|[X|X]]]]]; try congruence; auto. destruct (g_exiting g); [discriminate|]. apply U2 in X. lia.
  - intros [[_ [X|[X _]]]|[[X _]|[[_ [X _]]|[[X _]|[X _]]]]]; try congruence. apply X; auto.
  - intros _ [X|[X|[[h [X Y]]|[X|[X|X]]]]]; try congruence; auto. destruct (g_exiting g); [discriminate|]. apply U2 in X. lia.
  - intros [[_ [X|[X _]]]|[[_ [X|[X _]]]|[[_ [_ [X|X]]]|[[X _]|[X _]]]]]; try congruence.
    + apply X; auto.
    + apply X; auto.
    + intuition congruence.
  - intros [[q [X _]]|[q [X _]]]; discriminate X.
Qed.
Lemma aget_nodup {A} (x : list (nat * A)) kv : NoDup (akeys x) -> In kv x -> aget (fst kv) x = Some (snd kv).
Proof.
  induction x as [|[t a] x IH]; intros ND []; cbn [aget].
  - subst kv. cbn. now rewrite Nat.eqb_refl.
  - inversion ND; subst. destruct (Nat.eqb (fst kv) t) eqn:E; [|auto]. apply Nat.eqb_eq in E. exfalso. apply H2. rewrite <- E. now apply in_map.
Qed.
Lemma rotate_total v i b act us worst n : cfg_ok (v_cfg v) -> tame v -> run (v_cfg v) (b_ops b) = Some (b_port b) -> b_pend b = krun (b_kops b) -> NoDup act ->
  z_worst (v_settings v) = Some worst ->
  z_max_long (v_settings v) = Some (S n) \/ z_max_short (v_settings v) = Some (S n) -> (forall s, clean_scores (us s)) ->
  exists x', rotate v i b (map (fun s => (s, us s)) act) = Some x' /\ Forall (fun kv => clean_signals true (snd kv)) x'.
Proof.
  intros CO TM R PD ND W Z U. unfold rotate. rewrite W, PD. set (x := map (fun s => (s, us s)) act).
  assert (KX : akeys (reset_rotation_orders x) = act) by (unfold reset_rotation_orders; rewrite akeys_map; unfold x, akeys; rewrite map_map; apply map_id).
  destruct (worst_rank_total (v_cfg v) (b_ops b) (b_port b) (b_kops b) (v_close v i) (v_settings v) worst (reset_rotation_orders x) n CO R) as [[[x3 lr] sr] E]; auto; [now rewrite KX|].
  rewrite E. eexists. split; [reflexivity|].
  pose proof E as M. apply rotation_moved with (pops := b_ops b) in M; auto; [|now rewrite KX]. destruct M as [size M].
  assert (K3 : akeys x3 = act).
  { apply rotation_all with (pops := b_ops b) in E; auto; [|now rewrite KX|].
    - destruct E as [? [? [_ [E _]]]]. congruence.
    - intros s g. unfold reset_rotation_orders. rewrite aget_map. destruct (aget s x); [|discriminate]. intros [= <-]. split; reflexivity. }
  assert (C3 : forall s g, In (s, g) x3 -> clean_sized g).
  { intros s g I. assert (G : aget s x3 = Some g) by (apply (aget_nodup x3 (s, g)); auto; now rewrite K3).
    destruct (M _ _ G) as [u [H1 H2]]. unfold reset_rotation_orders in H1. rewrite aget_map in H1. destruct (aget s x) as [u0|] eqn:U0; [|discriminate].
    cbn in H1. injection H1 as <-. apply aget_In in U0. unfold x in U0. apply in_map_iff in U0. destruct U0 as [s0 [[= _ <-] _]].
    eapply moved_sized; eauto. }
  set (x4 := match v_sizer v with Some f => _ | None => x3 end).
  assert (C4 : forall s g, In (s, g) x4 -> clean_sized g).
  { unfold x4. destruct (v_sizer v) as [f|] eqn:SZ; [|exact C3].
    assert (C5 : forall s g, In (s, g) (map (fun kv => (fst kv, f i (b_port b) x3 lr sr (fst kv))) x3) -> clean_sized g).
    { intros s g I. apply in_map_iff in I. destruct I as [[s1 g1] [[= _ <-] I]]. cbn. eapply (tm_sizer _ TM); eauto. }
    clear - C5. destruct x3; [intros s g []|exact C5]. }
  apply Forall_forall. intros kv I. unfold clear_unused_rotation_signals in I. apply in_map_iff in I. destruct I as [[s g] [<- I]]. cbn [snd].
  eapply cleared, C4, I.
Qed.
