(** Facts about every bar of a run. *)
From Verif Require Import Lemmas PortfolioFacts PortfolioRun.
From Verif Require Export RotationRun RankRun LoopRun.
From Coq Require Import Sorting.Sorted Sorting.Permutation.

Section Refined.
Variable v : env.
Variable c : cfg.
Hypothesis CFG : v_cfg v = c.
Let P := refined c.
Let H1 : forall w x b, P b -> P (set_sched w x b).
Proof. intros w x b0 [C R]. split; [now apply core_sched|destruct w; exact R]. Qed.
Let H2 : forall e b, P b -> P (set_ends e b).
Proof. intros e b0 [C R]. split; [now apply core_ends|exact R]. Qed.
Let H3 : forall x b, P b -> P (set_ctx x (b_stop b) b).
Proof. intros x b0 [C R]. split; [now apply core_ctx|exact R]. Qed.
Let H4 : forall o b b', P b -> loop_op o -> do_op v o b = Some b' -> P b'.
Proof. intros o b0 b1 H _ E. eapply refined_op; eauto. Qed.
Let H5 : forall k b, P b -> loop_kop k -> P (set_pend k b).
Proof. intros k b0 [C R] K. split; [|exact R]. apply kstate_set; auto. intros j ->. destruct K. Qed.
Let H6 : forall i d n b b', P b -> get (n_id n) (b_pend b) = Some n -> attempt_and_settle v i d n b = Some b' -> P b'.
Proof. exact (refined_attempt v c CFG). Qed.
Let H7 : forall b i n, P b -> get i (b_pend b) = Some n -> n_id n = i.
Proof. intros b0 i n [C _]. now apply core_get. Qed.
Let H8 : forall b, P b -> core b.
Proof. intros b0 [C _]. exact C. Qed.
Lemma refined_settle i d b b' : refined c b -> settle v i d b = Some b' -> refined c b'.
Proof. apply (settle_pres v P); auto. Qed.
Lemma refined_cancel l b b' : refined c b -> fold_left (do_cancel v) l (Some b) = Some b' -> refined c b'.
Proof. apply (cancel_pres v P); auto. Qed.
Lemma refined_bars dates i b b' : refined c b -> bars_from v i dates b = Some b' -> refined c b'.
Proof.
  apply (bars_pres v P (fun _ => P)); auto.
  - intros d x l cs bs ss n b0 [C R] _. split; [now apply core_ctx|exact R].
  - intros d k w r l b0 b1 HP E. exact (refined_schedule v c d k w r b0 b1 HP E).
Qed.
End Refined.
Lemma bar_refined c k l v i d b b' : windows_ok c l -> bar_of c k l v i d b b' -> env_ok v /\ v_cfg v = c /\ refined c b.
Proof.
  intros W [l1 [l2 [b0 [pre [rest [-> [B0 [D [_ [B1 _]]]]]]]]]].
  assert (X : windows_ok c l1 /\ env_ok v /\ v_cfg v = c).
  { clear -W. induction l1 as [|u l1 IH]; cbn [app windows_ok] in *; [tauto|]. destruct W as [A [B [C E]]]. destruct (IH E) as [I1 I2].
    split; auto. split; auto. split; auto. split; auto. apply Forall_app in C. tauto. }
  destruct X as [W1 [EO CF]]. split; auto. split; auto. apply (refined_bars v c CF pre 0 (start v b0)); auto.
  pose proof (refined_backtests c l1 k b0 W1 B0) as [C R]. split; [now apply core_start|exact R].
Qed.

(** ** What the second half of a bar leaves alone *)
Section Decide.
Variable v : env.
Lemma cancel_att l : forall b b', fold_left (do_cancel v) l (Some b) = Some b' -> b_att b' = b_att b /\ b_ctx b' = b_ctx b.
Proof.
  induction l as [|y l IH]; intros b b' E; cbn [fold_left] in E; [injection E as <-; auto|].
  destruct (do_cancel v (Some b) y) as [b1|] eqn:D; [|now rewrite cancel_none in E]. destruct (IH _ _ E) as [-> ->].
  unfold do_cancel, bind, do_op in D. destruct y; try (injection D as <-; auto; fail); destruct (step _ _ _); try discriminate; injection D as <-; auto.
Qed.
Lemma schedule_att d k w l : forall b b', fold_left (schedule_order v d k w) l (Some b) = Some b' -> b_att b' = b_att b /\ b_ctx b' = b_ctx b.
Proof.
  induction l as [|r l IH]; intros b b' E; cbn [fold_left] in E; [injection E as <-; auto|].
  destruct (schedule_order v d k w (Some b) r) as [b1|] eqn:D; [|now rewrite schedule_none in E]. destruct (IH _ _ E) as [-> ->].
  destruct (schedule_order_spec _ _ _ _ _ _ _ D) as [->|[date [iw [a [_ [_ ->]]]]]]; auto. cbv zeta. destruct iw, w; auto.
Qed.
Lemma exit_att i d l : forall b b', fold_left (do_exit v i d) l (Some b) = Some b' -> b_att b' = b_att b /\ b_ctx b' = b_ctx b.
Proof.
  induction l as [|s l IH]; intros b b' E; cbn [fold_left] in E; [injection E as <-; auto|].
  destruct (do_exit v i d (Some b) s) as [b1|] eqn:D; [|now rewrite exit_none in E]. destruct (IH _ _ E) as [-> ->].
  unfold do_exit, bind, do_op in D. destruct (step _ _ _); try discriminate; injection D as <-; auto.
Qed.
(** The second half, step by step: [m] is the state in which rotation decides,
    [x] the contexts as the user's functions left them, [x'] after rotation. *)
Lemma decide_parts i d act ex b b' : decide v i d act ex b = Some b' ->
  b_att b' = b_att b /\ exists cancels us m x x', fold_left (do_cancel v) cancels (Some b) = Some m /\ x = map (fun s => (s, us s)) act /\
    rotate v i m x = Some x' /\ b_ctx b' = fold_left (fun l kv => aset (fst kv) (snd kv) l) x' (b_ctx b) /\
    (exists ctx0, us = u_sigs (v_user v i d (b_port b) (b_pend b) ctx0) /\ cancels = u_cancel (v_user v i d (b_port b) (b_pend b) ctx0)).
Proof.
  unfold decide. set (x := map _ act). set (u := v_user v i d (b_port b) (b_pend b) x). set (x1 := map _ x).
  destruct (fold_left (do_cancel v) (u_cancel u) (Some b)) as [b1|] eqn:E1; [|discriminate]. cbn [bind].
  destruct (rotate v i b1 x1) as [x2|] eqn:RT; [|discriminate].
  destruct (collect v d x2 (b_stop b1)) as [[[[cs bs] ss] n]|] eqn:C; [|discriminate]. set (b2 := set_ctx _ n b1).
  destruct (fold_left (schedule_order v d (v_buy_delay v) WCover) cs (Some b2)) as [b3|] eqn:E3; [|rewrite !schedule_none, exit_none; discriminate].
  destruct (fold_left (schedule_order v d (v_buy_delay v) WBuy) bs (Some b3)) as [b4|] eqn:E4; [|rewrite schedule_none, exit_none; discriminate].
  destruct (fold_left (schedule_order v d (v_sell_delay v) WSell) ss (Some b4)) as [b5|] eqn:E5; [|rewrite exit_none; discriminate].
  destruct (fold_left (do_exit v i d) ex (Some b5)) as [b6|] eqn:E6; [|discriminate]. cbn [bind]. intro E7.
  assert (A7 : b_att b' = b_att b6 /\ b_ctx b' = b_ctx b6) by (unfold do_op in E7; destruct (step _ _ _); [|discriminate]; injection E7 as <-; auto).
  destruct A7 as [-> ->]. destruct (exit_att _ _ _ _ _ E6) as [-> ->]. destruct (schedule_att _ _ _ _ _ _ E5) as [-> ->].
  destruct (schedule_att _ _ _ _ _ _ E4) as [-> ->]. destruct (schedule_att _ _ _ _ _ _ E3) as [-> ->]. destruct (cancel_att _ _ _ E1) as [A1 A2].
  split; [exact A1|]. exists (u_cancel u), (u_sigs u), b1, x1, x2. split; auto. split; [unfold x1, x; now rewrite map_map|]. split; auto.
  split; [cbn [b2 set_ctx b_ctx]; now rewrite A2|]. exists x. auto.
Qed.
End Decide.
Lemma aset_all {A} (x : list (nat * A)) s g : NoDup (akeys x) -> aget s x = Some g -> forall y, aget s (fold_left (fun l kv => aset (fst kv) (snd kv) l) x y) = Some g.
Proof.
  induction x as [|[t a] x IH]; cbn [akeys map aget fst fold_left]; intros ND G y; [discriminate|]. inversion ND as [|? ? N1 N2]; subst.
  destruct (Nat.eqb_spec s t) as [->|N]; [|apply IH; auto]. injection G as ->. cbn [snd]. clear IH ND.
  revert y. assert (X : forall y, aget t y = Some g -> aget t (fold_left (fun l kv => aset (fst kv) (snd kv) l) x y) = Some g).
  { clear N2. induction x as [|[u b] x IH]; cbn [fold_left fst snd]; auto. intros y E. apply IH; [intro I; apply N1; now right|].
    rewrite aget_aset_neq; auto. intros ->. apply N1. now left. }
  intro y. apply X. apply aget_aset_eq.
Qed.

(** ** Every bar *)
Lemma bar_order c k l v i d b b' : windows_ok c l -> bar_of c k l v i d b b' ->
  exists tc ts tb ac as_ ab ar older, b_att b' = b_att b ++ ac ++ as_ ++ ab ++ ar /\
    taken v WCover (zget d (b_cover b)) tc /\ subseq (map Some (ids_of ac)) (map r_pid tc) /\
    taken v WSell (zget d (b_sell b)) ts /\ subseq (map Some (ids_of as_)) (map r_pid ts) /\
    taken v WBuy (zget d (b_buy b)) tb /\ subseq (map Some (ids_of ab)) (map r_pid tb) /\
    StronglySorted earlier older /\ subseq (ids_of ar) (map n_id older).
Proof.
  intros W B. destruct (bar_refined _ _ _ _ _ _ _ _ W B) as [_ [_ [C _]]]. destruct B as [_ [_ [_ [_ [_ [_ [_ [_ [_ [_ B]]]]]]]]]].
  unfold bar in B. destruct (activate v d b) as [[e act] ex]. set (b1 := set_ctx _ _ _) in B.
  destruct (settle v i d b1) as [b2|] eqn:E; [|discriminate]. cbn [bind] in B. destruct (decide_parts _ _ _ _ _ _ _ B) as [-> _].
  apply settle_order in E; [exact E|]. apply core_ctx, core_ends, C.
Qed.
Lemma act_nodup v d l : forall e act ex, NoDup l -> NoDup act -> (forall s, In s l -> ~ In s act) ->
  let '(_, act', _) := fold_left (activate1 v d) l (e, act, ex) in NoDup act'.
Proof.
  induction l as [|a l IH]; intros e act ex ND NA D; cbn [fold_left]; auto. inversion ND as [|? ? N1 N2]; subst. unfold activate1 at 2.
  destruct (negb _ && _).
  - apply IH; auto. intros s I. apply D. now right.
  - apply IH; auto.
    + apply nodup_app'; auto; [repeat constructor; tauto|]. intros s [<-|[]]. apply D. now left.
    + intros s I J. apply in_app_iff in J. destruct J as [J|[<-|[]]]; [apply (D s); [now right|auto]|auto].
Qed.
Lemma bar_rotation c k l v i d b b' worst : cfg_ok c -> windows_ok c l -> bar_of c k l v i d b b' -> z_worst (v_settings v) = Some worst -> v_sizer v = None ->
  exists m act us, let x := map (fun s => (s, us s)) act in
    run c (b_ops m) = Some (b_port m) /\ b_pend m = krun (b_kops m) /\ NoDup act /\
    exists size sel, rotation_target_size (v_settings v) = Some size /\
      (forall sd, selected (b_port m) (b_pend m) x worst (limit_of (v_settings v) sd) sd (sel sd)) /\
      (forall s, ~ (enters x Long (sel Long) (sel Short) s /\ enters x Short (sel Short) (sel Long) s)) /\
      forall s, In s act -> exists g', aget s (b_ctx b') = Some g' /\ decided c (b_port m) (b_pend m) (v_close v i s) x (v_settings v) worst size sel s g'.
Proof.
  intros CO W B ZW SZ. destruct (bar_refined _ _ _ _ _ _ _ _ W B) as [EO [CF R]]. destruct B as [_ [_ [_ [_ [_ [_ [_ [_ [_ [_ B]]]]]]]]]].
  unfold bar in B. pose proof (act_nodup v d (filter (trades_on v d) (v_syms v)) (b_ends b) [] [] (NoDup_filter _ (eo_syms v EO)) (NoDup_nil _) ltac:(auto)) as NA.
  fold (activate v d b) in NA. destruct (activate v d b) as [[e act] ex]. set (b1 := set_ctx _ _ _) in B.
  destruct (settle v i d b1) as [b2|] eqn:E; [|discriminate]. cbn [bind] in B.
  assert (R1 : refined c b1) by (destruct R as [C R]; split; [apply core_ctx, core_ends, C|exact R]).
  assert (R2 : refined c b2) by (eapply refined_settle; eauto).
  destruct (decide_parts _ _ _ _ _ _ _ B) as [_ [cancels [us [m [x [x' [E1 [-> [RT [CX _]]]]]]]]]].
  assert (R3 : refined c m) by (eapply refined_cancel; eauto). destruct R3 as [C3 R3].
  exists m, act, us. cbn zeta. split; auto. split; [apply C3|]. split; auto.
  assert (KX : akeys (map (fun s => (s, us s)) act) = act) by (unfold akeys; rewrite map_map; apply map_id).
  destruct (rotate_spec v i m (map (fun s => (s, us s)) act) x' worst) with (6 := SZ) (7 := RT) as [size [sel [S1 [S2 [S3 [S4 S5]]]]]]; auto; try (rewrite CF; auto; fail).
  { apply C3. } { rewrite KX. auto. }
  exists size, sel. split; auto. split; auto. split; auto. intros s I. rewrite KX in S2.
  assert (G : exists g', aget s x' = Some g'). { rewrite <- S2 in I. apply ahas_true in I. unfold ahas in I. destruct (aget s x') as [g|]; [eauto|discriminate]. }
  destruct G as [g' G]. exists g'. split; [rewrite CX; apply aset_all; auto; now rewrite S2|]. rewrite <- CF. auto.
Qed.
