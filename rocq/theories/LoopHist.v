(** Whole windows and whole runs: the life of every order. *)
From Verif Require Export LoopLife.

Section Window.
Variable v : env.
Hypothesis EO : env_ok v.
Variable H : sym -> list Z.
Hypothesis HLT : forall s x y, In x (H s) -> In y (v_dates v) -> (x < y)%Z.
Variable K : pending -> Prop.
Hypothesis K_asked : forall i d p k x y n, In y (u_cancel (v_user v i d p k x)) -> names y n -> K n.
Variable B : pending -> Prop.
Hypothesis B_born : forall n, born1 v n -> B n.

Lemma set_ctx_like x n b : like b (set_ctx x n b).
Proof. unfold like. repeat split. Qed.
Lemma decide_step pre d rest i act ex b b' : v_dates v = pre ++ d :: rest -> (forall s, In s act -> bar_at v d s = true) ->
  settled v H K B pre d rest b -> decide v i d act ex b = Some b' -> settled v H K B pre d rest b'.
Proof.
  intros DATES ACT S. unfold decide. set (x := map _ act). set (u := v_user v i d (b_port b) (b_pend b) x). set (x1 := map _ x).
  destruct (fold_left (do_cancel v) (u_cancel u) (Some b)) as [b1|] eqn:E1; [|discriminate]. cbn [bind].
  assert (S1 : settled v H K B pre d rest b1) by (eapply cancel_step; [| |exact E1]; [intros y n; apply K_asked|exact S]).
  destruct (rotate v i b1 x1) as [x2|] eqn:RT; [|discriminate].
  assert (KEYS : forall s, In s (akeys x2) -> bar_at v d s = true).
  { intros s I. rewrite (rotate_keys _ _ _ _ _ RT) in I. apply ACT. unfold x1, x, akeys in I. rewrite !map_map in I. cbn in I. rewrite map_id in I. exact I. }
  destruct (collect v d x2 (b_stop b1)) as [[[[cs bs] ss] n]|] eqn:C; [|discriminate].
  destruct (collect_due v d x2 KEYS [] [] [] (b_stop b1) cs bs ss n ltac:(auto) C) as [D1 [D2 D3]].
  set (b2 := set_ctx _ n b1).
  assert (S2 : settled v H K B pre d rest b2) by (eapply like_settled; [apply set_ctx_like|exact S1]).
  destruct (fold_left (schedule_order v d (v_buy_delay v) WCover) cs (Some b2)) as [b3|] eqn:E3; [|rewrite !schedule_none, exit_none; discriminate].
  assert (S3 : settled v H K B pre d rest b3) by exact (schedule_fold v EO H HLT K B B_born pre d rest DATES _ _ _ _ _ S2 D1 E3).
  destruct (fold_left (schedule_order v d (v_buy_delay v) WBuy) bs (Some b3)) as [b4|] eqn:E4; [|rewrite schedule_none, exit_none; discriminate].
  assert (S4 : settled v H K B pre d rest b4) by exact (schedule_fold v EO H HLT K B B_born pre d rest DATES _ _ _ _ _ S3 D2 E4).
  destruct (fold_left (schedule_order v d (v_sell_delay v) WSell) ss (Some b4)) as [b5|] eqn:E5; [|rewrite exit_none; discriminate].
  assert (S5 : settled v H K B pre d rest b5) by exact (schedule_fold v EO H HLT K B B_born pre d rest DATES _ _ _ _ _ S4 D3 E5).
  destruct (fold_left (do_exit v i d) ex (Some b5)) as [b6|] eqn:E6; [|discriminate]. cbn [bind].
  intro E7. eapply like_settled; [eapply like_op; eauto|]. eapply exit_step; eauto.
Qed.
Lemma bar_step pre d rest i b b' : v_dates v = pre ++ d :: rest -> winv v H K B pre (d :: rest) b -> bar v i d b = Some b' ->
  winv v H K B (pre ++ [d]) rest b'.
Proof.
  intros DATES [W1 W2 W3 W4 W5]. unfold bar. pose proof (activate_spec v EO pre d rest DATES b W2) as A.
  destruct (activate v d b) as [[e act] ex]. destruct A as [A1 A2]. set (b1 := set_ctx _ _ _).
  destruct (settle v i d b1) as [b2|] eqn:E; [|discriminate]. cbn [bind]. intro E2.
  assert (S : settled v H K B pre d rest b2).
  { eapply settle_step with (b := b1); eauto.
    - apply core_ctx, core_ends, W1.
    - destruct W3 as [S1 S2]. constructor; [exact S1|exact S2].
    - intros n I. eapply order_ok_same; [|exact (W5 n I)]. unfold same_order. auto. }
  destruct (decide_step pre d rest i act ex b2 b' DATES A2 S E2) as [[C1 C2 C3 C4] C5]. constructor; auto.
Qed.
Lemma bars_step rest : forall pre i b b', v_dates v = pre ++ rest -> winv v H K B pre rest b -> bars_from v i rest b = Some b' ->
  winv v H K B (v_dates v) [] b'.
Proof.
  induction rest as [|d rest IH]; intros pre i b b' DATES W; cbn [bars_from].
  - intros [= <-]. rewrite app_nil_r in DATES. now rewrite DATES.
  - destruct (bar v i d b) as [b1|] eqn:E; [|discriminate]. apply (IH (pre ++ [d])).
    + now rewrite <- app_assoc.
    + eapply bar_step; eauto.
Qed.
Definition life (b : bstate) (L : sym -> list Z) : Prop :=
  core b /\ Forall B (entered (b_kops b)) /\ forall n, In n (entered (b_kops b)) -> order_ok K (from n (L (n_sym n))) b n.
Lemma window_step b b' : life b H -> backtest v b = Some b' -> life b' (fun s => H s ++ window_bars v s).
Proof.
  intros [C [FB OK]] E. assert (W : winv v H K B [] (v_dates v) (start v b)).
  { constructor; auto.
    - now apply core_start.
    - intro s. rewrite seen_nil. reflexivity.
    - constructor; cbn; [intros; constructor|intros x r _ []].
    - intros n I. rewrite seen_nil, app_nil_r. eapply order_ok_same; [|exact (OK n I)]. unfold same_order. auto. }
  destruct (bars_step (v_dates v) [] 0 _ _ eq_refl W E) as [W1 _ _ W4 W5]. split; auto. split; auto.
  intros n I. specialize (W5 n I). now rewrite (seen_all v EO) in W5.
Qed.
End Window.

(** An order of the run was sent from some window. *)
Definition sent_in (l : list env) (n : pending) : Prop := exists v, In v l /\ born1 v n.
Lemma run_life c l : forall done b b', windows_ok c l -> incl l (done ++ l) ->
  (forall s x y v, In x (own_bars done s) -> In v l -> In y (v_dates v) -> (x < y)%Z) ->
  life (asked (done ++ l)) (sent_in (done ++ l)) b (own_bars done) -> backtests l b = Some b' -> life (asked (done ++ l)) (sent_in (done ++ l)) b' (own_bars (done ++ l)).
Proof.
  induction l as [|v l IH]; intros done b b' W IN LT LF; cbn [backtests].
  - intros [= <-]. now rewrite app_nil_r in *.
  - destruct W as [EO [_ [LATER W]]]. destruct (backtest v b) as [b1|] eqn:E; [|discriminate]. intro R.
    replace (done ++ v :: l) with ((done ++ [v]) ++ l) in * by (now rewrite <- app_assoc). apply (IH (done ++ [v]) b1 b'); auto.
    + intros x I. apply in_app_iff. now right.
    + intros s x y w Ix Iw Iy. unfold own_bars in Ix. rewrite flat_map_app in Ix. apply in_app_iff in Ix. destruct Ix as [Ix|Ix].
      * exact (LT s x y w Ix (or_intror Iw) Iy).
      * cbn [flat_map] in Ix. rewrite app_nil_r in Ix. rewrite Forall_forall in LATER. apply (LATER w Iw x y); auto. exact (proj2 (window_facts v EO s) x Ix).
    + assert (X : life (asked ((done ++ [v]) ++ l)) (sent_in ((done ++ [v]) ++ l)) b1 (fun s => own_bars done s ++ window_bars v s)).
      { eapply window_step; eauto.
        - intros s x y Ix Iy. exact (LT s x y v Ix (or_introl eq_refl) Iy).
        - intros i d p k y z n Iz Nz. exists v, i, d, p, k, y, z. split; auto. rewrite <- app_assoc. apply in_app_iff. right. now left.
        - intros n BN. exists v. split; auto. rewrite <- app_assoc. apply in_app_iff. right. now left. }
      destruct X as [X1 [X2 X3]]. split; auto. split; auto. intros n I. specialize (X3 n I). unfold own_bars at 1. rewrite flat_map_app. cbn [flat_map]. now rewrite app_nil_r.
Qed.
Lemma backtests_life c l k b : windows_ok c l -> backtests l (fresh c k) = Some b -> life (asked l) (sent_in l) b (own_bars l).
Proof.
  intros W E. apply (run_life c l [] (fresh c k) b W (incl_refl l)); auto; [intros s x y w []|].
  split; [apply refined_fresh|]. split; [constructor|intros n []].
Qed.

(** ** Readable consequences *)
Lemma pending_live b i : core b -> pending_now b i = is_live (b_kops b) i.
Proof. intro C. unfold pending_now. rewrite (co_pend _ C). apply contains_spec. Qed.
