(** What the contexts of every bar turn into. *)
From Verif Require Import Lemmas PortfolioFacts PortfolioRun.
From Verif Require Export TurnSpec ContextRun BarRun LoopBars LoopSend LoopExit.
From Coq Require Import Sorting.Sorted Sorting.Permutation.

(** ** Results of the contexts *)
Lemma collect_snoc v d x kv n : collect v d (x ++ [kv]) n = collect1 v d (collect v d x n) kv.
Proof. unfold collect. now rewrite fold_left_app. Qed.
Definition side_ok (r : result) : Prop := (exists q, r_buy r = Some q /\ r_sell r = None) \/ (exists q, r_buy r = None /\ r_sell r = Some q).
Record collected (v : env) (d : Z) (x : ctxs) (cs bs ss : list result) : Prop := mkCollected {
  co_nodup : NoDup (map r_sym (cs ++ bs ++ ss));
  co_buy : Forall (fun r => result_side r = OBuy) (cs ++ bs);
  co_sell : Forall (fun r => result_side r = OSell) ss;
  co_from : forall r, In r (cs ++ bs ++ ss) -> side_ok r /\ exists g n n', In (r_sym r, g) x /\ result_of (r_sym r) d g n r n';
  co_all : forall s g, In (s, g) x -> ~ contradictory (given (z_worst (v_settings v))) g /\ (wants g -> ~ unusable g) /\
    (wants g -> exists r, In r (cs ++ bs ++ ss) /\ r_sym r = s)
}.
Lemma collect_spec v d n0 x : forall cs bs ss n, NoDup (akeys x) -> collect v d x n0 = Some (cs, bs, ss, n) -> collected v d x cs bs ss.
Proof.
  induction x as [|[s g] x IH] using rev_ind; intros cs bs ss n ND E.
  - injection E as <- <- <- <-. constructor; cbn; try constructor; tauto.
  - rewrite collect_snoc in E. destruct (collect v d x n0) as [[[[cs0 bs0] ss0] m]|] eqn:E0; [|discriminate].
    unfold akeys in ND. rewrite map_app in ND. cbn [map fst] in ND.
    assert (ND0 : NoDup (akeys x)) by (apply nodup_front in ND; exact ND).
    assert (FR : ~ In s (akeys x)). { apply NoDup_remove_2 in ND. rewrite app_nil_r in ND. exact ND. }
    destruct (IH _ _ _ _ ND0 eq_refl) as [I1 I2 I3 I4 I5]. cbn [collect1 fst snd] in E.
    pose proof (to_result_spec s d (given (z_worst (v_settings v))) g m) as T.
    destruct (to_result s d (given (z_worst (v_settings v))) g m) as [| |r m']; [discriminate| |].
    + injection E as <- <- <- <-. constructor; auto.
      * intros r I. destruct (I4 r I) as [A [g' [k [k' [B C]]]]]. split; auto. exists g', k, k'. split; auto. apply in_app_iff. auto.
      * intros t g' I. apply in_app_iff in I. destruct I as [I|[[= <- <-]|[]]]; [exact (I5 t g' I)|]. destruct T as [T1 T2]. split; auto. split; tauto.
    + destruct T as [T1 [T2 [T3 R]]].
      assert (SO : side_ok r) by (destruct (result_one_sided _ _ _ _ _ _ R) as [[q [A [B _]]]|[q [A [B _]]]]; [left|right]; exists q; auto).
      assert (P : Permutation (cs ++ bs ++ ss) (r :: cs0 ++ bs0 ++ ss0) /\ Forall (fun r => result_side r = OBuy) (cs ++ bs) /\ Forall (fun r => result_side r = OSell) ss).
      { destruct SO as [[q [A B]]|[q [A B]]]; rewrite A, B in E; cbn [given] in E.
        - assert (RS : result_side r = OBuy) by (unfold result_side; now rewrite A).
          destruct (r_cover r); injection E as <- <- <- <-; (split; [|split; auto]).
          + rewrite <- app_assoc. cbn [app]. symmetry. apply Permutation_middle.
          + apply Forall_app in I2. rewrite !Forall_app. destruct I2. repeat split; auto.
          + rewrite <- app_assoc. cbn [app]. rewrite !(app_assoc cs0 bs0). symmetry. apply Permutation_middle.
          + apply Forall_app in I2. rewrite !Forall_app. destruct I2. repeat split; auto.
        - assert (RS : result_side r = OSell) by (unfold result_side; now rewrite A).
          injection E as <- <- <- <-. split; [rewrite !app_assoc; symmetry; apply Permutation_cons_append|]. split; auto. apply Forall_app. auto. }
      destruct P as [P [F1 F2]]. assert (RS : r_sym r = s) by apply R.
      constructor; auto.
      * apply Permutation_NoDup with (map r_sym (r :: cs0 ++ bs0 ++ ss0)); [apply Permutation_map; now symmetry|]. cbn [map]. constructor; auto.
        intro I. apply in_map_iff in I. destruct I as [r' [E' I']]. destruct (I4 r' I') as [_ [g' [k [k' [B _]]]]]. apply FR. rewrite <- RS, <- E'.
        unfold akeys. apply in_map_iff. exists (r_sym r', g'). auto.
      * intros r' I. apply (Permutation_in _ P) in I. destruct I as [<-|I].
        -- split; auto. exists g, m, m'. rewrite RS. split; auto. apply in_app_iff. cbn. auto.
        -- destruct (I4 r' I) as [A [g' [k [k' [B C]]]]]. split; auto. exists g', k, k'. split; auto. apply in_app_iff. auto.
      * intros t g' I. apply in_app_iff in I. destruct I as [I|[[= <- <-]|[]]].
        -- destruct (I5 t g' I) as [J1 [J2 J3]]. split; auto. split; auto. intro W. destruct (J3 W) as [r' [K1 K2]]. exists r'. split; auto.
           apply (Permutation_in _ (Permutation_sym P)). now right.
        -- split; auto. split; auto. intros _. exists r. split; auto. apply (Permutation_in _ (Permutation_sym P)). now left.
Qed.

(** ** Scheduling them *)
Record order_of (v : env) (d : Z) (r : result) (n : pending) : Prop := mkOrderOf {
  of_sym : n_sym n = r_sym r; of_created : n_created n = d; of_type : n_type n = result_side r;
  of_shares : Some (n_shares n) = of_side (n_type n) (r_buy r) (r_sell r);
  of_exec : bars_later (calendar v (r_sym r)) d (delay v (n_type n)) (n_exec n);
  of_limit : n_limit n = of_side (n_type n) (r_blimit r) (r_slimit r);
  of_timeout : n_timeout n = of_side (n_type n) (r_btimeout r) (r_stimeout r);
  of_fill : n_fill n = of_side (n_type n) (r_bfill r) (r_sfill r);
  of_exit : n_exit n = r_exit r; of_stops : pstops n = result_stops r
}.
Definition same_but_orders (b b' : bstate) : Prop :=
  b_ends b' = b_ends b /\ b_ops b' = b_ops b /\ b_ctx b' = b_ctx b /\ b_att b' = b_att b.
Lemma schedule_one v d w r b b' : env_ok v -> In (r_sym r) (v_syms v) ->
  nth_error (v_sdates v (r_sym r)) (end_of b (r_sym r) - 1) = Some d -> side_ok r ->
  schedule_order v d (delay v (result_side r)) w (Some b) r = Some b' ->
  same_but_orders b b' /\
  ((exists n, entered (b_kops b') = entered (b_kops b) ++ [n] /\ order_of v d r n) \/
   (entered (b_kops b') = entered (b_kops b) /\ forall x, ~ bars_later (calendar v (r_sym r)) d (delay v (result_side r)) x)).
Proof.
  intros EO T N SO E. pose proof (exec_date_cur v EO (r_sym r) (end_of b (r_sym r)) d (delay v (result_side r)) T N) as X. unfold schedule_order in E.
  destruct (exec_date v (r_sym r) (end_of b (r_sym r)) (delay v (result_side r))) as [[x iw]|]; [|injection E as <-; split; [repeat split; reflexivity|right; auto]].
  destruct (to_add r d x _) as [a|] eqn:A; [|discriminate].
  set (n := with_id (S (length (entered (b_kops b)))) a).
  assert (Y : entered (b_kops b ++ [KAdd a]) = entered (b_kops b) ++ [n]) by apply entered_snoc.
  assert (O : order_of v d r n).
  { destruct (to_add_facts _ _ _ _ _ A) as [A1 [A2 A3]]. destruct (to_add_some _ _ _ _ _ A) as [_ [A4 [A5 _]]].
    revert A. unfold to_add. destruct SO as [[q [B S]]|[q [B S]]]; rewrite B, ?S; intros [= EA].
    - assert (RS : result_side r = OBuy) by (unfold result_side; now rewrite B). rewrite RS in *. unfold n. rewrite <- EA.
      constructor; cbn; auto; try (rewrite B; reflexivity); try (symmetry; exact RS). apply X. rewrite <- A3, <- EA. reflexivity.
    - assert (RS : result_side r = OSell) by (unfold result_side; now rewrite B). rewrite RS in *. unfold n. rewrite <- EA.
      constructor; cbn; auto; try (rewrite S; reflexivity); try (symmetry; exact RS). apply X. rewrite <- A3, <- EA. reflexivity. }
  assert (SB : same_but_orders b b') by (destruct iw, w; injection E as <-; repeat split; reflexivity).
  split; auto. left. exists n. split; auto. destruct iw, w; injection E as <-; exact Y.
Qed.
Lemma schedule_many v d o w l : env_ok v -> forall b b',
  (forall r, In r l -> In (r_sym r) (v_syms v) /\ nth_error (v_sdates v (r_sym r)) (end_of b (r_sym r) - 1) = Some d /\ side_ok r /\ result_side r = o) ->
  fold_left (schedule_order v d (delay v o) w) l (Some b) = Some b' ->
  same_but_orders b b' /\ exists new, entered (b_kops b') = entered (b_kops b) ++ new /\ subseq (map n_sym new) (map r_sym l) /\
    (forall n, In n new -> exists r, In r l /\ order_of v d r n) /\
    (forall r, In r l -> forall x, bars_later (calendar v (r_sym r)) d (delay v o) x -> exists n, In n new /\ n_sym n = r_sym r).
Proof.
  intro EO. induction l as [|r l IH]; intros b b' H E; cbn [fold_left] in E.
  - injection E as <-. split; [repeat split; reflexivity|]. exists []. rewrite app_nil_r. split; auto. split; [constructor|]. split; intros ? [].
  - destruct (schedule_order v d (delay v o) w (Some b) r) as [b1|] eqn:E1; [|rewrite schedule_none in E; discriminate].
    destruct (H r (or_introl eq_refl)) as [H1 [H2 [H3 H4]]]. rewrite <- H4 in E1.
    destruct (schedule_one _ _ _ _ _ _ EO H1 H2 H3 E1) as [[S1 [S2 [S3 S4]]] C].
    destruct (IH b1 b') as [[S1' [S2' [S3' S4']]] [new [N1 [N2 [N3 N4]]]]]; auto.
    { intros r' I. destruct (H r' (or_intror I)) as [K1 [K2 K3]]. split; auto. split; auto. unfold end_of in *. rewrite S1. exact K2. }
    split; [unfold same_but_orders; rewrite S1', S2', S3', S4'; auto|].
    destruct C as [[n [C1 C2]]|[C1 C2]].
    + exists (n :: new). rewrite N1, C1, <- app_assoc. split; auto. cbn [map]. rewrite (of_sym _ _ _ _ C2). split; [now constructor|]. split.
      * intros n' [<-|I]; [exists r; cbn; auto|]. destruct (N3 n' I) as [r' [J1 J2]]. exists r'. cbn. auto.
      * intros r' [<-|I] x B; [exists n; cbn; split; auto; apply C2|]. destruct (N4 r' I x B) as [n' [J1 J2]]. exists n'. cbn. auto.
    + exists new. rewrite N1, C1. split; auto. cbn [map]. split; [now constructor|]. split.
      * intros n' I. destruct (N3 n' I) as [r' [J1 J2]]. exists r'. cbn. auto.
      * intros r' [<-|I] x B; [rewrite <- H4 in B; destruct (C2 x B)|]. exact (N4 r' I x B).
Qed.
Lemma subseq_In {A} (l m : list A) : subseq l m -> forall x, In x l -> In x m.
Proof. induction 1; intros y I; cbn in *; auto. destruct I; auto. Qed.
Lemma subseq_app {A} (l m l' m' : list A) : subseq l m -> subseq l' m' -> subseq (l ++ l') (m ++ m').
Proof. induction 1; intro H'; cbn [app]; [auto|apply sub_skip; auto|apply sub_take; auto]. Qed.
Lemma subseq_nodup {A} (l m : list A) : subseq l m -> NoDup m -> NoDup l.
Proof.
  induction 1 as [| |x l m H IH]; intro N; auto; inversion N as [|? ? N1 N2]; subst; auto. constructor; auto.
  intro I. apply N1. exact (subseq_In _ _ H _ I).
Qed.
Lemma asked_of v d r g n k k' : result_of (r_sym r) d g k r k' -> order_of v d r n -> order_asked v d (n_sym n) g n.
Proof.
  intros R O. destruct O as [O1 O2 O3 O4 O5 O6 O7 O8 O9 O10]. pose proof (result_one_sided _ _ _ _ _ _ R) as OS.
  destruct R as [R1 R2 R3 R4 R5 R6 R7 R8 R9 R10 R11 R12 R13 R14 R15 R16]. rewrite O1. constructor; auto.
  - unfold ask. rewrite <- R4, <- R5. unfold result_side in O3. destruct OS as [[q [A [B _]]]|[q [A [B _]]]]; rewrite A, B in *; rewrite O3 in *; cbn in O4; injection O4 as ->; reflexivity.
  - rewrite O6. destruct (n_type n); cbn; auto.
  - rewrite O7. destruct (n_type n); cbn; auto.
  - rewrite O8. destruct (n_type n); cbn; auto.
  - rewrite O9. auto.
  - change (match n_stops n with Some l => l | None => [] end) with (pstops n). rewrite O10. apply R16.
Qed.

(** ** The first half of a bar *)
(** Nothing but the logs, the account, the orders and the schedules changes. *)
Record grown (b0 b : bstate) : Prop := mkGrown {
  gr_core : core b; gr_ends : b_ends b = b_ends b0; gr_ctx : b_ctx b = b_ctx b0;
  gr_ops : exists l, b_ops b = b_ops b0 ++ l; gr_kops : exists l, b_kops b = b_kops b0 ++ l
}.
Lemma grown_refl b : core b -> grown b b.
Proof. intro C. constructor; auto; exists []; now rewrite app_nil_r. Qed.
Lemma grown_attempt v b0 i d n b b' : grown b0 b -> get (n_id n) (b_pend b) = Some n -> attempt_and_settle v i d n b = Some b' -> grown b0 b'.
Proof.
  intros [G1 G2 G3 [lo G4] [lk G5]] G E. assert (C : core b') by (eapply core_attempt; eauto). unfold attempt_and_settle in E.
  destruct (attempt v i d n (set_pend (KMark (n_id n)) b)) as [[b1 f]|] eqn:A; [|discriminate].
  assert (X : b_ends b1 = b_ends b /\ b_ctx b1 = b_ctx b /\ (exists l, b_ops b1 = b_ops b ++ l) /\ b_kops b1 = b_kops b ++ [KMark (n_id n)]).
  { unfold attempt in A. destruct (v_fetch _ _ _ _); [|injection A as <- <-; repeat split; exists []; now rewrite app_nil_r].
    destruct (clamp_exit _ _ _); [|injection A as <- <-; repeat split; exists []; now rewrite app_nil_r].
    destruct (apply_slip _ _ _ _ _) as [[sh fl]|]; [|discriminate].
    destruct (match n_type n with OBuy => _ | OSell => _ end) as [p x|]; [|discriminate]. injection A as <- <-. repeat split. eexists. reflexivity. }
  destruct X as [X1 [X2 [[l X3] X4]]]. destruct (f || negb (is_persistent_limit n)); injection E as <-; constructor; auto; cbn; rewrite ?X1, ?X2, ?X3, ?X4, ?G4, ?G5; auto.
  - exists (lo ++ l). now rewrite app_assoc.
  - exists ((lk ++ [KMark (n_id n)]) ++ [KRemove (n_id n)]). now rewrite !app_assoc.
  - exists (lo ++ l). now rewrite app_assoc.
  - exists (lk ++ [KMark (n_id n)]). now rewrite app_assoc.
Qed.
Lemma grown_settle v i d b b' : core b -> settle v i d b = Some b' -> exists m f, grown b m /\ do_op v (OpCapture d f) m = Some b'.
Proof.
  intros C E. apply (settle_parts v (grown b)) in E; auto using grown_refl.
  - intros w x b0 [G1 G2 G3 G4 G5]. constructor; try (destruct w; auto; fail). now apply core_sched.
  - intros o b0 b1 [G1 G2 G3 [l G4] G5] _ D. assert (C1 : core b1) by (eapply core_op; eauto). unfold do_op in D. destruct (step _ _ _); [|discriminate]. injection D as <-. constructor; auto.
    exists (l ++ [o]). cbn. now rewrite G4, app_assoc.
  - intros k b0 [G1 G2 G3 G4 [l G5]] K. constructor; auto.
    + apply kstate_set; auto. intros j ->. destruct K.
    + exists (l ++ [k]). cbn. now rewrite G5, app_assoc.
  - intros. eapply grown_attempt; eauto.
  - intros b0 j n [G1 _ _ _ _]. now apply core_get.
  - now intros b0 [G1 _ _ _ _].
Qed.
(** ** Positions in the calendars *)
Lemma bar_ends v i d b b' : core b -> bar v i d b = Some b' -> b_ends b' = fst (fst (activate v d b)).
Proof.
  intros C E. unfold bar in E. destruct (activate v d b) as [[e act] ex]. cbn [fst]. set (b1 := set_ctx _ _ _) in E.
  destruct (settle v i d b1) as [b2|] eqn:S; [|discriminate]. cbn [bind] in E.
  destruct (grown_settle v i d b1 b2) as [m [f [G D]]]; auto; [apply core_ctx, core_ends, C|].
  assert (E2 : b_ends b2 = e) by (unfold do_op in D; destruct (step _ _ _); [|discriminate]; injection D as <-; exact (gr_ends _ _ G)).
  rewrite <- E2. clear - E. revert E. unfold decide. set (x := map _ act). set (u := v_user v i d (b_port b2) (b_pend b2) x).
  assert (CE : forall l p q, fold_left (do_cancel v) l (Some p) = Some q -> b_ends q = b_ends p).
  { induction l as [|y l IH]; intros p q E; cbn [fold_left] in E; [injection E as <-; auto|]. destruct (do_cancel v (Some p) y) as [b1|] eqn:D; [|now rewrite cancel_none in E].
    rewrite (IH _ _ E). unfold do_cancel, bind, do_op in D. destruct y; try (injection D as <-; auto; fail); destruct (step _ _ _); try discriminate; injection D as <-; auto. }
  assert (SE : forall k w l p q, fold_left (schedule_order v d k w) l (Some p) = Some q -> b_ends q = b_ends p).
  { intros k w. induction l as [|r l IH]; intros p q E; cbn [fold_left] in E; [injection E as <-; auto|].
    destruct (schedule_order v d k w (Some p) r) as [b1|] eqn:D; [|now rewrite schedule_none in E]. rewrite (IH _ _ E).
    destruct (schedule_order_spec _ _ _ _ _ _ _ D) as [->|[date [iw [a [_ [_ ->]]]]]]; auto. cbv zeta. destruct iw, w; auto. }
  assert (XE : forall l p q, fold_left (do_exit v i d) l (Some p) = Some q -> b_ends q = b_ends p).
  { induction l as [|s l IH]; intros p q E; cbn [fold_left] in E; [injection E as <-; auto|]. destruct (do_exit v i d (Some p) s) as [b1|] eqn:D; [|now rewrite exit_none in E].
    rewrite (IH _ _ E). unfold do_exit, bind, do_op in D. destruct (step _ _ _); try discriminate; injection D as <-; auto. }
  destruct (fold_left (do_cancel v) (u_cancel u) (Some b2)) as [b3|] eqn:E1; [|discriminate]. cbn [bind].
  destruct (rotate v i b3 _) as [x2|]; [|discriminate]. destruct (collect v d x2 (b_stop b3)) as [[[[cs bs] ss] n]|]; [|discriminate].
  set (b4 := set_ctx _ n b3).
  destruct (fold_left (schedule_order v d (v_buy_delay v) WCover) cs (Some b4)) as [b5|] eqn:E5; [|rewrite !schedule_none, exit_none; discriminate].
  destruct (fold_left (schedule_order v d (v_buy_delay v) WBuy) bs (Some b5)) as [b6|] eqn:E6; [|rewrite schedule_none, exit_none; discriminate].
  destruct (fold_left (schedule_order v d (v_sell_delay v) WSell) ss (Some b6)) as [b7|] eqn:E7; [|rewrite exit_none; discriminate].
  destruct (fold_left (do_exit v i d) ex (Some b7)) as [b8|] eqn:E8; [|discriminate]. cbn [bind]. intro E9.
  assert (A9 : b_ends b' = b_ends b8) by (unfold do_op in E9; destruct (step _ _ _); [|discriminate]; injection E9 as <-; auto).
  rewrite A9, (XE _ _ _ E8), (SE _ _ _ _ _ E7), (SE _ _ _ _ _ E6), (SE _ _ _ _ _ E5). exact (CE _ _ _ E1).
Qed.
Lemma bars_ends v pre rest : env_ok v -> forall b b' done i, v_dates v = done ++ pre ++ rest -> ends_ok v done b -> core b ->
  (forall b0 j d0 b1, core b0 -> bar v j d0 b0 = Some b1 -> core b1) ->
  bars_from v i pre b = Some b' -> ends_ok v (done ++ pre) b'.
Proof.
  intro EO. induction pre as [|d pre IH]; intros b b' done i D EN C BC E; cbn [bars_from] in E.
  - injection E as <-. now rewrite app_nil_r.
  - destruct (bar v i d b) as [b1|] eqn:E1; [|discriminate]. cbn [app] in D.
    pose proof (activate_spec v EO done d (pre ++ rest) D b EN) as A. pose proof (bar_ends _ _ _ _ _ C E1) as B.
    destruct (activate v d b) as [[e act] ex]. cbn [fst] in B. destruct A as [A _].
    replace (done ++ d :: pre) with ((done ++ [d]) ++ pre) by (rewrite <- app_assoc; reflexivity).
    apply (IH b1 b' (done ++ [d]) (S i)); auto.
    + rewrite <- !app_assoc. exact D.
    + intro s. specialize (A s). unfold end_of in *. rewrite B. exact A.
    + eapply BC; eauto.
Qed.
Lemma core_bar v j d b b' : core b -> bar v j d b = Some b' -> core b'.
Proof.
  intros C E. apply (bar_pres v core (fun _ => core)) with (i := j) (d := d) (b := b); auto.
  - intros w x b0. apply core_sched.
  - intros e b0. apply core_ends.
  - intros x b0. apply core_ctx.
  - intros o b0 b1 H _ D. eapply core_op; eauto.
  - intros k b0 H K. apply kstate_set; auto. intros i ->. destruct K.
  - intros. eapply core_attempt; eauto.
  - intros d0 x l cs bs ss n b0 H _. now apply core_ctx.
  - intros d0 k w r l b0 b1 H D. eapply core_schedule; eauto.
  - intros b0 i n H. now apply core_get.
Qed.

(** ** Every bar *)
Lemma activate_awake v d : forall l e act ex, NoDup l ->
  let '(_, act', _) := fold_left (activate1 v d) l (e, act, ex) in
  forall s, In s act' <-> In s act \/ (In s l /\ (v_warmup v < S (match aget s e with Some n => n | None => 0 end))%nat).
Proof.
  induction l as [|a l IH]; intros e act ex ND; cbn [fold_left]; [intro s; cbn; tauto|]. inversion ND as [|? ? N1 N2]; subst.
  unfold activate1 at 2. set (n := match aget a e with Some n => n | None => 0%nat end).
  assert (OTH : forall s, In s l -> match aget s (aset a (S n) e) with Some n => n | None => 0%nat end = match aget s e with Some n => n | None => 0%nat end).
  { intros s I. rewrite aget_aset_neq; auto. intros ->. tauto. }
  destruct (negb (Nat.eqb (v_warmup v) 0) && Nat.leb (S n) (v_warmup v)) eqn:W.
  - specialize (IH (aset a (S n) e) act ex N2). destruct (fold_left _ l _) as [[e' act'] ex']. intro s. rewrite IH.
    apply andb_true_iff in W. destruct W as [_ W]. apply Nat.leb_le in W. split.
    + intros [H|[H1 H2]]; auto. right. rewrite OTH in H2 by auto. cbn. auto.
    + intros [H|[[<-|H1] H2]]; auto; [fold n in H2; lia|]. right. rewrite OTH by auto. auto.
  - match goal with |- context [fold_left _ l (aset a (S n) e, act ++ [a], ?ex2)] => specialize (IH (aset a (S n) e) (act ++ [a]) ex2 N2); destruct (fold_left (activate1 v d) l (aset a (S n) e, act ++ [a], ex2)) as [[e' act'] ex'] end.
    intro s. rewrite IH, in_app_iff. cbn [In].
    assert (WN : (v_warmup v < S n)%nat).
    { apply andb_false_iff in W. destruct W as [W|W]; [apply negb_false_iff, Nat.eqb_eq in W; lia|apply Nat.leb_gt in W; lia]. }
    split.
    + intros [[H|[<-|[]]]|[H1 H2]]; auto. right. rewrite OTH in H2 by auto. auto.
    + intros [H|[[<-|H1] H2]]; auto. right. rewrite OTH by auto. auto.
Qed.
Lemma bars_upto v pre d rest s : env_ok v -> v_dates v = pre ++ d :: rest -> In s (v_syms v) ->
  filter (fun x => Z.leb x d) (v_sdates v s) = seen v (pre ++ [d]) s.
Proof.
  intros EO D I. assert (W : v_sdates v s = window_bars v s) by (unfold window_bars; now rewrite (proj2 (nmem_syms v s) I)). rewrite W.
  rewrite (window_split v EO pre d rest D s), !filter_app. rewrite (seen_snoc v EO pre d rest D s).
  assert (F1 : filter (fun x => Z.leb x d) (seen v pre s) = seen v pre s).
  { apply filter_id. intros x J. apply (seen_lt v EO pre d rest D) in J. apply Z.leb_le. lia. }
  assert (F3 : filter (fun x => Z.leb x d) (filter (zmem rest) (window_bars v s)) = []).
  { apply filter_nil. intros x J. apply filter_In in J. destruct J as [_ J]. apply zmem_In in J. destruct (dates_facts v EO pre d rest D) as [_ [_ [R _]]].
    specialize (R x J). apply Z.leb_gt. lia. }
  rewrite F1, F3, app_nil_r. f_equal. destruct (bar_at v d s); auto. cbn [filter]. now rewrite Z.leb_refl.
Qed.
Lemma cancel_logs v l : forall b b', fold_left (do_cancel v) l (Some b) = Some b' -> b_ends b' = b_ends b /\
  (exists more, b_ops b' = b_ops b ++ more /\ Forall (fun o => match o with OpRemoveStop _ | OpRemoveStops _ _ => True | _ => False end) more) /\
  (exists more, b_kops b' = b_kops b ++ more /\ Forall (fun k => match k with KRemove _ | KRemoveAll _ => True | _ => False end) more).
Proof.
  induction l as [|y l IH]; intros b b' E; cbn [fold_left] in E; [injection E as <-; split; auto; split; exists []; rewrite app_nil_r; auto|].
  destruct (do_cancel v (Some b) y) as [b1|] eqn:D; [|now rewrite cancel_none in E]. destruct (IH _ _ E) as [-> [[mo [-> MO]] [mk [-> MK]]]].
  unfold do_cancel, bind, do_op in D. destruct y as [j|t|j|t ty]; try (destruct (step _ _ _); [|discriminate]); injection D as <-; cbn; (split; [reflexivity|split]).
  all: try (eexists; split; [reflexivity|assumption]).
  all: eexists; rewrite <- app_assoc; cbn [app]; split; [reflexivity|constructor; auto].
Qed.
Lemma exit_logs v i d l : forall b b', fold_left (do_exit v i d) l (Some b) = Some b' -> b_kops b' = b_kops b /\
  exists ops, b_ops b' = b_ops b ++ ops /\ Forall (fun o => match o with OpExit _ _ _ _ _ | OpIncr _ => True | _ => False end) ops.
Proof.
  induction l as [|s l IH]; intros b b' E; cbn [fold_left] in E; [injection E as <-; split; auto; exists []; rewrite app_nil_r; auto|].
  destruct (do_exit v i d (Some b) s) as [b1|] eqn:D; [|now rewrite exit_none in E]. destruct (IH _ _ E) as [-> [ops [-> F]]].
  unfold do_exit, bind, do_op in D. destruct (step _ _ _); [|discriminate]. injection D as <-. cbn. split; auto.
  eexists. rewrite <- app_assoc. split; [reflexivity|]. constructor; auto.
Qed.
Lemma ends_at c k l v i d b b' pre rest b0 l1 : windows_ok c (l1 ++ v :: l) -> backtests l1 (fresh c k) = Some b0 -> v_dates v = pre ++ d :: rest ->
  bars_from v 0 pre (start v b0) = Some b -> bar v i d b = Some b' -> ends_ok v pre b.
Proof.
  intros W B D E _. destruct (windows_env c _ v W) as [EO _]; [apply in_app_iff; cbn; auto|].
  assert (W1 : windows_ok c l1). { clear - W. induction l1 as [|u l1 IH]; cbn [app windows_ok] in *; auto. destruct W as [H1 [H2 [H3 H4]]]. split; auto. split; auto. split; auto. apply Forall_app in H3. tauto. }
  destruct (refined_backtests c l1 k b0 W1 B) as [C _].
  apply (bars_ends v pre (d :: rest) EO (start v b0) b [] 0); auto.
  - intro s. unfold end_of. cbn. now rewrite seen_nil.
  - now apply core_start.
  - intros. eapply core_bar; eauto.
Qed.
Lemma rotate_keys v i b x x' : cfg_ok (v_cfg v) -> run (v_cfg v) (b_ops b) = Some (b_port b) -> b_pend b = krun (b_kops b) -> NoDup (akeys x) ->
  rotate v i b x = Some x' -> akeys x' = akeys x.
Proof.
  intros CO R PD ND. unfold rotate. destruct (z_worst (v_settings v)) as [w|]; [|intros [= <-]; auto].
  destruct (apply_worst_rank_held _ _ _ _ _ _ _) as [[[x3 lr] sr]|] eqn:A; [|discriminate]. intros [= <-]. rewrite PD in A.
  apply rotation_all with (pops := b_ops b) in A; auto.
  2: { unfold reset_rotation_orders. now rewrite akeys_map. }
  2: { intros s g. unfold reset_rotation_orders. rewrite aget_map. destruct (aget s x); [|discriminate]. intros [= <-]. split; reflexivity. }
  destruct A as [size [sel [_ [S2 _]]]]. unfold clear_unused_rotation_signals. rewrite akeys_map. unfold reset_rotation_orders in S2. rewrite akeys_map in S2. rewrite <- S2.
  destruct (v_sizer v) as [f|]; auto. destruct x3; auto. unfold akeys. rewrite map_map. reflexivity.
Qed.
Lemma bar_decides c k l v i d b b' : cfg_ok c -> windows_ok c l -> bar_of c k l v i d b b' ->
  exists m act us x, decision c v i d b b' m act us x /\ rotate v i m (map (fun s => (s, us s)) act) = Some x /\
    forall s g, aget s x = Some g -> aget s (b_ctx b') = Some g.
Proof.
  intros CO W BO. destruct (bar_refined _ _ _ _ _ _ _ _ W BO) as [EO [CF R]].
  destruct BO as [l1 [l2 [b0 [pre [rest [-> [B0 [D [_ [B1 B]]]]]]]]]].
  pose proof (ends_at c k l2 v i d b b' pre rest b0 l1 W B0 D B1 B) as EN.
  unfold bar in B. pose proof (activate_spec v EO pre d rest D b EN) as A1.
  pose proof (activate_awake v d (filter (trades_on v d) (v_syms v)) (b_ends b) [] [] (NoDup_filter _ (eo_syms v EO))) as A2.
  pose proof (act_nodup v d (filter (trades_on v d) (v_syms v)) (b_ends b) [] [] (NoDup_filter _ (eo_syms v EO)) (NoDup_nil _) ltac:(auto)) as A3.
  fold (activate v d b) in A2, A3. destruct (activate v d b) as [[e act] ex]. destruct A1 as [EN2 BA].
  set (b1 := set_ctx _ _ _) in B. destruct (settle v i d b1) as [b2|] eqn:E; [|discriminate]. cbn [bind] in B.
  assert (R1 : refined c b1) by (destruct R as [C R]; split; [apply core_ctx, core_ends, C|exact R]).
  assert (R2 : refined c b2) by (eapply refined_settle; eauto).
  destruct (grown_settle v i d b1 b2) as [q [f [G DC]]]; auto; [apply R1|].
  assert (X2 : b_ends b2 = e /\ b_ctx b2 = b_ctx b1 /\ b_ops b2 = b_ops q ++ [OpCapture d f] /\ b_kops b2 = b_kops q).
  { unfold do_op in DC. destruct (step _ _ _); [|discriminate]. injection DC as <-. destruct G as [_ G2 G3 _ _]. auto. }
  destruct X2 as [X1 [X2 [X3 X4]]]. destruct G as [_ _ _ [lo G4] [lk G5]].
  unfold decide in B. revert B.
  assert (RX : map (fun s => (s, match aget s (b_ctx b2) with Some g => g | None => no_signals end)) act = map (fun s => (s, no_signals)) act).
  { apply map_ext_in. intros s I. rewrite X2. unfold b1. cbn [set_ctx b_ctx]. now rewrite (reset_ctx act (b_ctx (set_ends e b)) s I). }
  rewrite RX. set (x := map _ act). set (u := v_user v i d (b_port b2) (b_pend b2) x). set (x1 := map _ x).
  destruct (fold_left (do_cancel v) (u_cancel u) (Some b2)) as [m|] eqn:E1; [|discriminate]. cbn [bind].
  assert (RM : refined c m) by (eapply refined_cancel; eauto).
  destruct (cancel_logs v _ _ _ E1) as [CE [[co [CO1 CO2]] [ck [CK1 CK2]]]].
  destruct (rotate v i m x1) as [x2|] eqn:RT; [|discriminate].
  destruct (collect v d x2 (b_stop m)) as [[[[cs bs] ss] n]|] eqn:CL; [|discriminate]. set (m2 := set_ctx _ n m).
  assert (X1E : x1 = map (fun s => (s, u_sigs u s)) act) by (unfold x1, x; now rewrite map_map).
  assert (KX1 : akeys x1 = act) by (rewrite X1E; unfold akeys; rewrite map_map; apply map_id).
  assert (KX2 : akeys x2 = act).
  { rewrite <- KX1. apply (rotate_keys v i m); auto; try (rewrite CF); try apply RM; auto. rewrite KX1. auto. }
  assert (NX2 : NoDup (akeys x2)) by (now rewrite KX2).
  pose proof (collect_spec v d (b_stop m) x2 cs bs ss n NX2 CL) as COL. destruct COL as [C1 C2 C3 C4 C5].
  assert (AT : forall r, In r (cs ++ bs ++ ss) -> In (r_sym r) (v_syms v) /\ forall bb, b_ends bb = e -> nth_error (v_sdates v (r_sym r)) (end_of bb (r_sym r) - 1) = Some d).
  { intros r I. destruct (C4 r I) as [_ [g [k1 [k2 [J _]]]]]. assert (IA : In (r_sym r) act) by (rewrite <- KX2; unfold akeys; apply in_map_iff; exists (r_sym r, g); auto).
    specialize (BA _ IA). split; [unfold bar_at in BA; apply andb_true_iff in BA; destruct BA as [BA _]; now apply nmem_syms in BA|].
    intros bb EB. apply (cur_bar v EO pre d rest D bb); auto. intro s. specialize (EN2 s). unfold end_of in *. cbn [set_ends b_ends] in EN2. rewrite EB. exact EN2. }
  destruct (fold_left (schedule_order v d (v_buy_delay v) WCover) cs (Some m2)) as [b3|] eqn:E3; [|rewrite !schedule_none, exit_none; discriminate].
  destruct (fold_left (schedule_order v d (v_buy_delay v) WBuy) bs (Some b3)) as [b4|] eqn:E4; [|rewrite schedule_none, exit_none; discriminate].
  destruct (fold_left (schedule_order v d (v_sell_delay v) WSell) ss (Some b4)) as [b5|] eqn:E5; [|rewrite exit_none; discriminate].
  destruct (fold_left (do_exit v i d) ex (Some b5)) as [b6|] eqn:E6; [|discriminate]. cbn [bind]. intro E7.
  assert (ME : b_ends m2 = e) by (cbn; congruence).
  apply Forall_app in C2. destruct C2 as [C2a C2b]. rewrite Forall_forall in C2a, C2b, C3.
  destruct (schedule_many v d OBuy WCover cs EO m2 b3) as [[S31 [S32 [S33 S34]]] [n3 [N31 [N32 [N33 N34]]]]]; auto.
  { intros r I. assert (I' : In r (cs ++ bs ++ ss)) by (apply in_app_iff; auto). destruct (AT r I') as [T1 T2]. repeat split; auto. apply C4; auto. }
  destruct (schedule_many v d OBuy WBuy bs EO b3 b4) as [[S41 [S42 [S43 S44]]] [n4 [N41 [N42 [N43 N44]]]]]; auto.
  { intros r I. assert (I' : In r (cs ++ bs ++ ss)) by (rewrite !in_app_iff; auto). destruct (AT r I') as [T1 T2]. repeat split; auto; [apply T2; congruence|apply C4; auto]. }
  destruct (schedule_many v d OSell WSell ss EO b4 b5) as [[S51 [S52 [S53 S54]]] [n5 [N51 [N52 [N53 N54]]]]]; auto.
  { intros r I. assert (I' : In r (cs ++ bs ++ ss)) by (rewrite !in_app_iff; auto). destruct (AT r I') as [T1 T2]. repeat split; auto; [apply T2; congruence|apply C4; auto]. }
  destruct (exit_logs v i d _ _ _ E6) as [XK [xo [XO1 XO2]]].
  assert (A7 : b_ctx b' = b_ctx b6 /\ b_kops b' = b_kops b6 /\ exists o, b_ops b' = b_ops b6 ++ [OpIncr o]) by (unfold do_op in E7; destruct (step _ _ _); [|discriminate]; injection E7 as <-; split; [reflexivity|split; [reflexivity|eexists; reflexivity]]).
  destruct A7 as [A7 [A8 [o A9]]]. destruct (exit_att _ _ _ _ _ _ E6) as [_ XC].
  exists m, act, (u_sigs u), x2. split; [|split].
  - constructor.
    + split; [apply RM|apply RM].
    + split; auto. intro s. rewrite A2, filter_In. unfold awake. split.
      * intros [[]|[[I T] WU]]. split; auto. unfold trades_on in T. apply existsb_exists in T. destruct T as [y [T1 T2]]. apply Z.eqb_eq in T2. subst y. split; auto.
        rewrite (bars_upto v pre d rest s EO D I), (seen_snoc v EO pre d rest D s), app_length. specialize (EN s). unfold end_of in EN. rewrite EN in WU.
        assert (BT : bar_at v d s = true) by (unfold bar_at, trades_on; rewrite (proj2 (nmem_syms v s) I); apply existsb_exists; exists d; split; auto; apply Z.eqb_refl).
        rewrite BT. cbn [length]. lia.
      * intros [I [T WU]]. right. assert (TR : trades_on v d s = true) by (apply existsb_exists; exists d; split; auto; apply Z.eqb_refl). split; auto.
        rewrite (bars_upto v pre d rest s EO D I), (seen_snoc v EO pre d rest D s), app_length in WU. specialize (EN s). unfold end_of in EN. rewrite EN.
        assert (BT : bar_at v d s = true) by (unfold bar_at; rewrite (proj2 (nmem_syms v s) I), TR; reflexivity).
        rewrite BT in WU. cbn [length] in WU. lia.
    + exists (b_ops b2), (b_kops b2), (b_port b2). destruct R2 as [R21 R22]. split; [unfold u, x; f_equal; f_equal; apply R21|]. split.
      { exists f, lo. rewrite X3, G4, <- app_assoc. reflexivity. }
      split; auto. split; [eauto|]. exists lk, ck. split; [rewrite X4, G5; reflexivity|]. auto.
    + auto.
    + intro ZN. unfold rotate in RT. rewrite ZN in RT. injection RT as <-. exact X1E.
    + exists (xo ++ [OpIncr o]). rewrite A9, XO1, S52, S42, S32. cbn [m2 set_ctx b_ops]. rewrite <- app_assoc. split; auto. apply Forall_app. split; auto.
    + exists (n3 ++ n4 ++ n5). rewrite A8, XK, N51, N41, N31, <- !app_assoc. split; [reflexivity|]. split.
      { apply subseq_nodup with (map r_sym (cs ++ bs ++ ss)); auto. rewrite !map_app. repeat apply subseq_app; auto. }
      split.
      * intros n' I. assert (O : exists r, In r (cs ++ bs ++ ss) /\ order_of v d r n').
        { rewrite !in_app_iff in I. destruct I as [I|[I|I]]; [destruct (N33 n' I) as [r [J1 J2]]|destruct (N43 n' I) as [r [J1 J2]]|destruct (N53 n' I) as [r [J1 J2]]]; exists r; rewrite !in_app_iff; auto. }
        destruct O as [r [J1 J2]]. destruct (C4 r J1) as [_ [g [k1 [k2 [J3 J4]]]]]. exists g. split.
        -- rewrite (of_sym _ _ _ _ J2). apply In_aget; auto.
        -- eapply asked_of; eauto.
      * intros s g AG. apply aget_In in AG. destruct (C5 s g AG) as [K1 [K2 K3]]. split; [unfold given in K1; exact K1|]. split; auto.
        intros WA o' q' y AK BL. destruct (K3 WA) as [r [J1 <-]]. destruct (C4 r J1) as [_ [g' [k1 [k2 [J3 J4]]]]].
        assert (g' = g) by (apply In_aget in J3; auto; apply In_aget in AG; auto; congruence). subst g'.
        assert (OS : result_side r = o').
        { unfold ask in AK. destruct J4 as [_ _ _ RB RS _ _ _ _ _ _ _ _ _ _ _]. rewrite <- RB, <- RS in AK. unfold result_side.
          destruct (r_buy r), (r_sell r); congruence. }
        rewrite <- OS in BL. rewrite !in_app_iff in J1. destruct J1 as [J1|[J1|J1]].
        -- rewrite (C2a r J1) in BL. destruct (N34 r J1 y BL) as [n' [? ?]]. exists n'. rewrite !in_app_iff. auto.
        -- rewrite (C2b r J1) in BL. destruct (N44 r J1 y BL) as [n' [? ?]]. exists n'. rewrite !in_app_iff. auto.
        -- rewrite (C3 r J1) in BL. destruct (N54 r J1 y BL) as [n' [? ?]]. exists n'. rewrite !in_app_iff. auto.
  - rewrite <- X1E. exact RT.
  - intros s g AG. rewrite A7, XC, S53, S43, S33. cbn [m2 set_ctx b_ctx]. apply aset_all; auto.
Qed.
Lemma bar_rotates c k l v i d b b' worst : cfg_ok c -> windows_ok c l -> bar_of c k l v i d b b' -> z_worst (v_settings v) = Some worst -> v_sizer v = None ->
  exists m act us x, decision c v i d b b' m act us x /\ 
    exists size sel, rotation_target_size (v_settings v) = Some size /\
      (forall sd, selected (b_port m) (b_pend m) (map (fun s => (s, us s)) act) worst (limit_of (v_settings v) sd) sd (sel sd)) /\
      (forall s, ~ (enters (map (fun s => (s, us s)) act) Long (sel Long) (sel Short) s /\ enters (map (fun s => (s, us s)) act) Short (sel Short) (sel Long) s)) /\
      forall s g, aget s x = Some g -> decided c (b_port m) (b_pend m) (v_close v i s) (map (fun s => (s, us s)) act) (v_settings v) worst size sel s g.
Proof.
  intros CO W B ZW SZ. destruct (bar_refined _ _ _ _ _ _ _ _ W B) as [_ [CF _]]. destruct (bar_decides c k l v i d b b' CO W B) as [m [act [us [x [DN [RT _]]]]]].
  exists m, act, us, x. split; auto. pose proof DN as [[R1 R2] [ND _] _ KX _ _ _].
  assert (KX1 : akeys (map (fun s => (s, us s)) act) = act) by (unfold akeys; rewrite map_map; apply map_id).
  destruct (rotate_spec v i m (map (fun s => (s, us s)) act) x worst) with (6 := SZ) (7 := RT) as [size [sel [S1 [S2 [S3 [S4 S5]]]]]]; auto; try (rewrite CF; auto; fail).
  { rewrite KX1. auto. }
  exists size, sel. split; auto. split; auto. split; auto. intros s g AG. rewrite <- CF. auto.
Qed.

(** ** Stop ids *)
Definition all_ids (b : bstate) (rs : list result) : list nat :=
  map st_id (flat_map pstops (entered (b_kops b)) ++ flat_map result_stops rs).
Record ids_inv (rs : list result) (b : bstate) : Prop := mkIds {
  ii_core : core b; ii_nodup : NoDup (all_ids b rs); ii_max : forall j, In j (all_ids b rs) -> (j <= b_stop b)%nat
}.
Lemma ids_same rs b b' : ids_inv rs b -> core b' -> entered (b_kops b') = entered (b_kops b) -> b_stop b' = b_stop b -> ids_inv rs b'.
Proof. intros [I1 I2 I3] C E S. unfold all_ids in *. constructor; auto; unfold all_ids; rewrite E; auto. now rewrite S. Qed.
Lemma ids_attempt v i d n b b' : ids_inv [] b -> get (n_id n) (b_pend b) = Some n -> attempt_and_settle v i d n b = Some b' -> ids_inv [] b'.
Proof.
  intros I G E. apply (ids_same [] b); auto; [eapply core_attempt; eauto; apply I| |].
  all: unfold attempt_and_settle in E; destruct (attempt v i d n (set_pend (KMark (n_id n)) b)) as [[b1 f]|] eqn:A; [|discriminate];
    destruct (attempt_spec _ _ _ _ _ _ _ A) as [F _]; destruct F as [_ [_ [_ [_ [_ [_ [F7 F8]]]]]]].
  - assert (X : entered (b_kops b1) = entered (b_kops b)) by (rewrite F8; cbn [set_pend b_kops]; now rewrite entered_snoc).
    destruct (f || negb (is_persistent_limit n)); injection E as <-; auto. cbn [set_pend b_kops]. rewrite entered_snoc. exact X.
  - destruct (f || negb (is_persistent_limit n)); injection E as <-; exact F7.
Qed.
Lemma ids_backtest v b b' : ids_inv [] b -> backtest v b = Some b' -> ids_inv [] b'.
Proof.
  apply (backtest_pres v (ids_inv []) ids_inv); auto.
  - intros w x b0 H. apply (ids_same [] b0); auto; [apply core_sched, H|destruct w; reflexivity..].
  - intros e b0 H. apply (ids_same [] b0); auto. apply core_ends, H.
  - intros x b0 H. apply (ids_same [] b0); auto. apply core_ctx, H.
  - intros o b0 b1 H _ D. assert (C : core b1) by (eapply core_op; [|exact D]; apply H). apply (ids_same [] b0); auto; unfold do_op in D; (destruct (step _ _ _); [|discriminate]); injection D as <-; reflexivity.
  - intros k b0 H K. apply (ids_same [] b0); auto.
    + apply kstate_set; [apply H|]. intros j ->. destruct K.
    + cbn [set_pend b_kops]. rewrite entered_snoc. destruct k; try destruct K; reflexivity.
  - intros. eapply ids_attempt; eauto.
  - intros d x l cs bs ss n b0 [I1 I2 I3] C. unfold collect in C.
    assert (G0 : gathered (b_stop b0) ([] ++ [] ++ []) (b_stop b0)) by (constructor; cbn; auto; [constructor|tauto]).
    destruct (collect_gathered v d (b_stop b0) x _ _ _ _ _ _ _ _ G0 C) as [G1 G2 G3 G4].
    assert (EI : all_ids (set_ctx l n b0) (cs ++ bs ++ ss) = all_ids b0 [] ++ map st_id (flat_map result_stops (cs ++ bs ++ ss))).
    { unfold all_ids. cbn [set_ctx b_kops flat_map]. rewrite app_nil_r, <- map_app. reflexivity. }
    constructor; [now apply core_ctx| |]; rewrite EI.
    + apply NoDup_join; auto. intros j I J. specialize (I3 j I). specialize (G2 j J). lia.
    + intros j I. apply in_app_iff in I. cbn [set_ctx b_stop]. destruct I as [I|I]; [specialize (I3 j I)|specialize (G2 j I)]; lia.
  - intros d k w r l b0 b1 [I1 I2 I3] E. pose proof (core_schedule v d k w r b0 b1 I1 E) as C.
    destruct (schedule_order_spec _ _ _ _ _ _ _ E) as [->|[date [iw [a [_ [T ->]]]]]].
    + constructor; auto; unfold all_ids in *; cbn [flat_map] in *; rewrite !map_app in *.
      * eapply nodup_sub; eauto.
      * intros j I. apply I3. rewrite !in_app_iff in *. tauto.
    + destruct (to_add_facts _ _ _ _ _ T) as [_ [_ T3]].
      assert (K : forall bx, b_kops bx = b_kops b0 ++ [KAdd a] -> b_stop bx = b_stop b0 -> core bx -> ids_inv l bx).
      { intros bx K1 K2 K3. assert (EI : all_ids bx l = all_ids b0 (r :: l)).
        { unfold all_ids. rewrite K1, entered_snoc. cbn [entered_step]. rewrite flat_map_app. cbn [flat_map]. rewrite app_nil_r, <- app_assoc. do 2 f_equal. f_equal. exact T3. }
        constructor; auto; rewrite EI; auto. now rewrite K2. }
      cbv zeta in C |- *. destruct iw, w; apply K; auto.
  - intros b0 i n H. apply core_get, H.
  - intros b0 H. apply H.
  - intros b0 H. apply (ids_same [] b0); auto. apply core_start, H.
Qed.
Lemma stop_ids_unique c l k b : windows_ok c l -> backtests l (fresh c k) = Some b ->
  NoDup (map st_id (flat_map pstops (entered (b_kops b)))) /\ forall j, In j (map st_id (flat_map pstops (entered (b_kops b)))) -> (j <= b_stop b)%nat.
Proof.
  intros W E. assert (H : ids_inv [] b).
  { revert E. apply (backtests_pres (ids_inv []) c l); auto.
    - intros v b0 b1 _ _ _. apply ids_backtest.
    - constructor; [apply (refined_fresh c)| |]; cbn; [constructor|tauto]. }
  destruct H as [_ H1 H2]. unfold all_ids in *. cbn [flat_map] in *. rewrite app_nil_r in *. auto.
Qed.
Lemma ranks_count x sd : NoDup (akeys x) ->
  map snd (rotation_ranks x sd) = seq 1 (length (rotation_ranks x sd)) /\ NoDup (map fst (rotation_ranks x sd)).
Proof.
  intro ND. unfold rotation_ranks. destruct (ranks_range (rotation_scores x sd)) as [R P]. split.
  - rewrite R. f_equal. rewrite <- (map_length fst (rank_by_score _)), (Permutation_length P), map_length. reflexivity.
  - apply (Permutation_NoDup (Permutation_sym P)). now apply scores_nodup.
Qed.
Lemma target_size_spec z size : rotation_target_size z = Some size ->
  exists n, (0 < n)%nat /\ n = (match z_max_long z with Some m => m | None => 0 end + match z_max_short z with Some m => m | None => 0 end)%nat /\
    size == 1 / inject_Z (Z.of_nat n).
Proof.
  unfold rotation_target_size. set (n := (match z_max_long z with Some m => m | None => 0 end + match z_max_short z with Some m => m | None => 0 end)%nat). cbv zeta.
  destruct (Nat.eqb_spec n 0) as [|N]; [discriminate|]. intros [= <-]. exists n. split; [lia|]. split; reflexivity.
Qed.
Lemma result_facts s date rot g n r n' : to_result s date rot g n = OResult r n' ->
  ~ contradictory rot g /\ wants g /\ ~ unusable g /\
  ((exists q, r_buy r = Some q /\ g_bshares g = Some q /\ r_sell r = None /\ ~ q == 0) \/
   (exists q, r_sell r = Some q /\ g_sshares g = Some q /\ r_buy r = None /\ ~ q == 0)) /\
  map st_id (result_stops r) = seq (S n) (length (result_stops r)) /\ n' = (n + length (result_stops r))%nat /\
  map shape_of (result_stops r) = described g /\ one_per_type (result_stops r).
Proof.
  intro T. apply to_result_ok in T. destruct T as [T1 [T2 [T3 R]]]. split; auto. split; auto. split; auto.
  pose proof (ro_stops _ _ _ _ _ _ R) as M. split.
  - destruct (result_one_sided _ _ _ _ _ _ R) as [[q [A [B C]]]|[q [A [B C]]]]; [left|right]; exists q; (split; [auto|split; [|auto]]).
    + rewrite <- (ro_buy _ _ _ _ _ _ R). auto.
    + rewrite <- (ro_sell _ _ _ _ _ _ R). auto.
  - split; [apply M|]. split; [apply M|]. split; [apply M|]. eapply made_one_per_type; eauto.
Qed.
Lemma bar_decision c k l v i d b b' : cfg_ok c -> windows_ok c l -> bar_of c k l v i d b b' -> exists m act us x, decision c v i d b b' m act us x.
Proof. intros C W B. destruct (bar_decides c k l v i d b b' C W B) as [m [act [us [x [D _]]]]]. eauto. Qed.
Lemma functions_start_clean c k l v i d b b' : cfg_ok c -> windows_ok c l -> bar_of c k l v i d b b' ->
  exists act p0 k0 m x us, us = u_sigs (v_user v i d p0 k0 (map (fun s => (s, no_signals)) act)) /\ (forall s, In s act <-> awake v d s) /\
    decision c v i d b b' m act us x.
Proof.
  intros C W B. destruct (bar_decision c k l v i d b b' C W B) as [m [act [us [x D]]]].
  pose proof (dn_user _ _ _ _ _ _ _ _ _ _ D) as [pops [kops [p0 [U _]]]]. exists act, p0, (krun kops), m, x, us. split; auto. split; auto. apply D.
Qed.
