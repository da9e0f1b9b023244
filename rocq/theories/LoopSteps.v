(** The calls a bar makes on the account, in order. *)
From Verif Require Export StepSpec LoopHist LoopExit BarRun.

Section Bar.
Variable v : env.
Variable d : Z.
(** [y] comes after [x] by calls that are all [ok]. *)
Definition logged (ok : op -> Prop) (x y : option bstate) : Prop :=
  forall b', y = Some b' -> exists b, x = Some b /\ b_ends b' = b_ends b /\ exists l, b_ops b' = b_ops b ++ l /\ Forall ok l.
Lemma logged_some ok b b' l : b_ends b' = b_ends b -> b_ops b' = b_ops b ++ l -> Forall ok l -> logged ok (Some b) (Some b').
Proof. intros A B C x [= <-]. exists b. eauto. Qed.
Lemma logged_same ok x : logged ok x x.
Proof. intros b ->. exists b. split; auto. split; auto. exists []. now rewrite app_nil_r. Qed.
Lemma logged_none ok x : logged ok x None. Proof. intros b E. discriminate. Qed.
Lemma logged_nil ok b b' : b_ends b' = b_ends b -> b_ops b' = b_ops b -> logged ok (Some b) (Some b').
Proof. intros A B. apply (logged_some ok b b' []); auto. now rewrite app_nil_r. Qed.
Lemma logged_trans ok x y z : logged ok x y -> logged ok y z -> logged ok x z.
Proof.
  intros A B b E. destruct (B b E) as [c [C1 [C2 [l2 [C3 C4]]]]]. destruct (A c C1) as [a [A1 [A2 [l1 [A3 A4]]]]]. exists a. split; auto. split; [congruence|].
  exists (l1 ++ l2). rewrite C3, A3, app_assoc. split; auto. now apply Forall_app.
Qed.
Lemma logged_bind ok x f : (forall b, logged ok (Some b) (f b)) -> logged ok x (bind x f).
Proof. destruct x as [b|]; cbn; intro H; [apply H|apply logged_none]. Qed.
Lemma logged_fold ok {A} (f : option bstate -> A -> option bstate) l : (forall x a, logged ok x (f x a)) -> forall x, logged ok x (fold_left f l x).
Proof. intro H. induction l as [|a l IH]; intro x; cbn; [apply logged_same|]. eapply logged_trans; [apply H|apply IH]. Qed.
Lemma op_log o b b' : do_op v o b = Some b' -> b_ends b' = b_ends b /\ b_ops b' = b_ops b ++ [o].
Proof. unfold do_op. destruct (step (v_cfg v) o (b_port b)) as [p u|]; [|discriminate]. intros [= <-]. auto. Qed.
Lemma logged_op (ok : op -> Prop) o b : ok o -> logged ok (Some b) (do_op v o b).
Proof. intros D b' E. exists b. destruct (op_log _ _ _ E) as [A B]. split; auto. split; auto. exists [o]. auto. Qed.
Lemma logged_settle1 i n b : logged (order_on d) (Some b) (attempt_and_settle v i d n b).
Proof.
  unfold attempt_and_settle. destruct (attempt v i d n _) as [[b1 f]|] eqn:A; [|apply logged_none]. apply attempt_spec in A.
  destruct A as [[_ [_ [_ [_ [F _]]]]] [_ A]]. cbn [set_pend b_ends b_ops] in *.
  assert (X : logged (order_on d) (Some b) (Some b1)).
  { destruct A as [[_ [O _]]|[a [x [S [_ O]]]]]; [now apply logged_nil|]. eapply logged_some; [exact F|exact O|]. constructor; auto.
    exists (n_type n), (if f then a else unstopped a). split; [now destruct (n_type n)|]. destruct f; apply (se_date _ _ _ _ _ _ _ _ S). }
  destruct (f || negb (is_persistent_limit n)); auto. eapply logged_trans; [exact X|]. now apply logged_nil.
Qed.
Lemma logged_place i w now x : logged (order_on d) x (place_if v w now i d x).
Proof.
  destruct x as [b|]; [|apply logged_none]. cbn. destruct now; [|apply logged_same]. unfold place_orders.
  assert (X : logged (order_on d) (Some b) (fold_left (place1 v i d w) (zget d (get_sched w b)) (Some b))).
  { apply logged_fold. intros [c|] r; [|apply logged_none]. unfold place1. destruct (negb _); [apply logged_same|]. destruct (r_pid r) as [id|]; [|apply logged_same].
    destruct (negb _); [apply logged_same|]. destruct (get id (b_pend c)); [apply logged_settle1|apply logged_same]. }
  destruct (fold_left _ _ _) as [c|]; [|apply logged_none]. eapply logged_trans; [exact X|]. apply logged_nil; destruct w; reflexivity.
Qed.
Lemma logged_process i b : logged (order_on d) (Some b) (process_persistent v i d b).
Proof.
  unfold process_persistent. destruct (has_orders _); [|apply logged_same]. apply logged_fold. intros [g|] n; [|apply logged_none]. unfold persist1.
  destruct (Z.ltb d (n_exec n)); [apply logged_same|]. destruct (_ && _); [apply logged_same|]. destruct (negb (has_bar_on _ _ _ _)); [apply logged_same|].
  destruct (negb (was_attempted _ _)); [apply logged_settle1|]. destruct (n_timeout n); [|apply logged_same]. destruct (_ && _); [now apply logged_nil|].
  eapply logged_trans with (y := Some (set_pend (KAdvance (n_id n)) g)); [now apply logged_nil|apply logged_settle1].
Qed.
Lemma sort_log b : b_ends (sort_scheds v d b) = b_ends b /\ b_ops (sort_scheds v d b) = b_ops b.
Proof.
  assert (X : forall w f c, b_ends (sort_sched w f d c) = b_ends c /\ b_ops (sort_sched w f d c) = b_ops c) by (intros w f c; unfold sort_sched; destruct (zhas _ _); auto; destruct w; auto).
  unfold sort_scheds. destruct (v_sort_long v), (v_sort_short v); split; rewrite ?(proj1 (X _ _ _)), ?(proj2 (X _ _ _)); auto.
Qed.
Lemma has_bar_ends b b' s : b_ends b' = b_ends b -> has_bar_on v b' s d = has_bar_on v b s d.
Proof. intro E. unfold has_bar_on, end_of. now rewrite E. Qed.
Lemma settle_log i b b' : settle v i d b = Some b' -> b_ends b' = b_ends b /\
  exists b0 b5 tried, b_ends b0 = b_ends b /\ b_ends b5 = b_ends b /\ Forall (order_on d) tried /\
    b_ops b' = b_ops b ++ OpCheckStops d (scope_on v b0 i d) (v_sm v i) :: tried ++ [OpCapture d (bar_on v b5 i d)].
Proof.
  unfold settle. destruct (sort_log b) as [S1 S2]. set (b0 := sort_scheds v d b) in *.
  destruct (do_op v (OpCheckStops _ _ _) b0) as [b1|] eqn:E1; [|discriminate]. destruct (op_log _ _ _ E1) as [A1 O1].
  intro E. set (x4 := place_if v WBuy _ i d _) in E.
  assert (L : logged (order_on d) (Some b1) x4) by (unfold x4; do 2 (eapply logged_trans; [|apply logged_place]); apply logged_place).
  assert (L5 : logged (order_on d) (Some b1) (bind x4 (process_persistent v i d))).
  { eapply logged_trans; [exact L|]. apply logged_bind. intro c. apply logged_process. }
  destruct (bind x4 (process_persistent v i d)) as [b5|]; [|discriminate]. cbn [bind] in E. destruct (op_log _ _ _ E) as [A6 O6].
  destruct (L5 b5 eq_refl) as [c [[= <-] [A5 [l [O5 F]]]]]. split; [congruence|]. exists b0, b5, l. split; auto. split; [congruence|]. split; auto.
  rewrite O6, O5, O1, S2, <- !app_assoc. reflexivity.
Qed.
Lemma schedule_log k w x r : logged (fun _ => False) x (schedule_order v d k w x r).
Proof.
  destruct x as [b|]; [|apply logged_none]. cbn. destruct (exec_date _ _ _ _) as [[da iw]|]; [|apply logged_same]. destruct (to_add _ _ _ _); [|apply logged_none].
  apply logged_nil; destruct iw; try destruct w; reflexivity.
Qed.
Lemma exits_log i l : forall b b', fold_left (do_exit v i d) l (Some b) = Some b' -> b_ends b' = b_ends b /\
  b_ops b' = b_ops b ++ map (fun s => OpExit d s (fst (v_exit_fill v i s)) (snd (v_exit_fill v i s)) (v_sm v i)) l.
Proof.
  induction l as [|s l IH]; intros b b' E; cbn [fold_left map] in *; [injection E as <-; now rewrite app_nil_r|].
  unfold do_exit at 2 in E. cbn [bind] in E. destruct (do_op v _ b) as [b1|] eqn:E1; [|now rewrite exit_none in E]. destruct (op_log _ _ _ E1) as [A O].
  destruct (IH _ _ E) as [A2 O2]. split; [congruence|]. rewrite O2, O, <- app_assoc. reflexivity.
Qed.
Lemma false_nil {A} (l : list A) : Forall (fun _ => False) l -> l = [].
Proof. destruct l; auto. intro F. inversion F. destruct H1. Qed.
Lemma decide_log i act exits b b' : decide v i d act exits b = Some b' -> b_ends b' = b_ends b /\
  exists gone b9, Forall cancels_stops gone /\ b_ends b9 = b_ends b /\
    b_ops b' = b_ops b ++ gone ++ map (fun s => OpExit d s (fst (v_exit_fill v i s)) (snd (v_exit_fill v i s)) (v_sm v i)) exits ++
               [OpIncr (fun s => has_bar_on v b9 s d)].
Proof.
  unfold decide. cbv zeta. set (u := v_user _ _ _ _ _ _).
  assert (L : logged cancels_stops (Some b) (fold_left (do_cancel v) (u_cancel u) (Some b))).
  { apply logged_fold. intros x a. apply logged_bind. intro c. destruct a; try (now apply logged_op); now apply logged_nil. }
  destruct (fold_left (do_cancel v) (u_cancel u) (Some b)) as [b1|]; [|discriminate]. destruct (L b1 eq_refl) as [c [[= <-] [A1 [gone [O1 F]]]]].
  cbn [bind]. destruct (rotate _ _ _ _) as [x2|]; [|discriminate]. destruct (collect _ _ _ _) as [[[[cs bs] ss] n]|]; [|discriminate].
  set (b2 := set_ctx _ n b1). intro E.
  set (x4 := fold_left (schedule_order v d (v_sell_delay v) WSell) ss _) in E.
  assert (L4 : logged (fun _ => False) (Some b2) x4).
  { unfold x4. do 2 (eapply logged_trans; [|apply logged_fold; intros; apply schedule_log]). apply logged_fold. intros; apply schedule_log. }
  destruct x4 as [b4|]; [|rewrite exit_none in E; discriminate]. destruct (L4 b4 eq_refl) as [c [[= <-] [A4 [l [O4 F4]]]]]. apply false_nil in F4. subst l.
  destruct (fold_left (do_exit v i d) exits (Some b4)) as [b5|] eqn:E5; [|discriminate]. destruct (exits_log _ _ _ _ E5) as [A5 O5].
  cbn [bind] in E. destruct (op_log _ _ _ E) as [A6 O6]. cbn [set_ctx b_ends b_ops b2] in A4, O4.
  split; [congruence|]. exists gone, b5. split; auto. split; [congruence|]. rewrite O6, O5, O4, app_nil_r, O1, <- !app_assoc. reflexivity.
Qed.
End Bar.

Section Window.
Variable v : env.
Hypothesis EO : env_ok v.
Lemma bar_at_has d s : bar_at v d s = true <-> has_bar v s d.
Proof.
  unfold bar_at, has_bar. rewrite andb_true_iff, (nmem_syms v). unfold trades_on. rewrite existsb_exists. split.
  - intros [A [x [I E]]]. apply Z.eqb_eq in E. now subst.
  - intros [A I]. split; auto. exists d. split; auto. apply Z.eqb_refl.
Qed.
Section At.
Variable pre : list Z. Variable d : Z. Variable rest : list Z.
Hypothesis DATES : v_dates v = pre ++ d :: rest.
Lemma bars_to_seen s : has_bar v s d -> bars_to v s d = S (length (seen v pre s)).
Proof.
  intro HB. pose proof (proj2 (bar_at_has d s) HB) as T. destruct HB as [I1 I2]. pose proof (window_split v EO pre d rest DATES s) as W. rewrite T in W.
  assert (M : window_bars v s = v_sdates v s) by (unfold window_bars; now rewrite (proj2 (nmem_syms v s) I1)).
  unfold bars_to. rewrite <- M, W, !filter_app. destruct (dates_facts v EO pre d rest DATES) as [_ [P [R _]]].
  rewrite (filter_id _ (seen v pre s)) by (intros x I; pose proof (seen_lt v EO pre d rest DATES s x I); lia).
  cbn [filter]. rewrite Z.leb_refl.
  rewrite (filter_nil _ (filter (zmem rest) _)); [rewrite app_length; cbn; lia|]. intros x I. apply filter_In in I. destruct I as [_ I]. apply zmem_In in I. specialize (R x I). lia.
Qed.
(** Which symbols are remembered as having reached their exit date. *)
Lemma activate_exits l : forall e act ex, NoDup l -> 
  let '(_, _, ex') := fold_left (activate1 v d) l (e, act, ex) in
  exists new, ex' = ex ++ new /\ NoDup new /\
    forall s, In s new <-> In s l /\ (v_warmup v < S (match aget s e with Some n => n | None => 0 end))%nat /\ v_exit_dates v s = Some d.
Proof.
  induction l as [|a l IH]; intros e act ex ND; cbn [fold_left].
  - exists []. rewrite app_nil_r. split; auto. split; [constructor|]. intro s. cbn. tauto.
  - inversion ND as [|? ? N1 N2]; subst. unfold activate1 at 2. set (n := match aget a e with Some n => n | None => 0%nat end).
    assert (K : forall act2 ex2 one, ex2 = ex ++ one -> NoDup one ->
        (forall s, In s one <-> s = a /\ (v_warmup v < S n)%nat /\ v_exit_dates v a = Some d) ->
        let '(_, _, ex') := fold_left (activate1 v d) l (aset a (S n) e, act2, ex2) in
        exists new, ex' = ex ++ new /\ NoDup new /\
          forall s, In s new <-> In s (a :: l) /\ (v_warmup v < S (match aget s e with Some n => n | None => 0 end))%nat /\ v_exit_dates v s = Some d).
    { intros act2 ex2 one -> ND1 H1. specialize (IH (aset a (S n) e) act2 (ex ++ one) N2). destruct (fold_left _ _ _) as [[e' act'] ex'].
      destruct IH as [new [-> [ND2 H2]]]. exists (one ++ new). rewrite app_assoc. split; auto.
      assert (H3 : forall s, In s new <-> In s l /\ (v_warmup v < S (match aget s e with Some n => n | None => 0 end))%nat /\ v_exit_dates v s = Some d).
      { intro s. rewrite H2, aget_aset. destruct (Nat.eqb_spec s a) as [->|]; [|tauto]. tauto. }
      split.
      - clear - ND1 ND2 H1 H3 N1. induction one as [|x one IH]; cbn; auto. inversion ND1; subst. constructor.
        + rewrite in_app_iff. intros [J|J]; [tauto|]. assert (X : x = a) by (apply H1; now left). subst x. apply H3 in J. tauto.
        + destruct one as [|y one]; [exact ND2|]. exfalso. assert (X : x = a) by (apply H1; now left). assert (Y : y = a) by (apply H1; right; now left). subst. apply H2. now left.
      - intro s. rewrite in_app_iff, H1, H3. cbn [In]. split.
        + intros [[-> X]|X]; [fold n; tauto|tauto].
        + intros [[<-|I] X]; [left; fold n in X; tauto|right; tauto]. }
    destruct (negb (Nat.eqb (v_warmup v) 0) && Nat.leb (S n) (v_warmup v)) eqn:Wm.
    + apply (K act ex []); [now rewrite app_nil_r|constructor|]. intro s. apply andb_true_iff in Wm. destruct Wm as [_ Wm]. apply Nat.leb_le in Wm. cbn [In]. split; [tauto|lia].
    + assert (WL : (v_warmup v < S n)%nat).
      { apply andb_false_iff in Wm. destruct Wm as [Wm|Wm]; [apply negb_false_iff, Nat.eqb_eq in Wm; lia|apply Nat.leb_gt in Wm; lia]. }
      destruct (v_exit_dates v a) as [x|] eqn:X.
      * destruct (Z.eqb_spec d x) as [->|N].
        -- apply (K (act ++ [a]) (ex ++ [a]) [a]); auto; [constructor; [tauto|constructor]|]. intro s. cbn. intuition congruence.
        -- apply (K (act ++ [a]) ex []); [now rewrite app_nil_r|constructor|]. intro s. cbn. intuition congruence.
      * apply (K (act ++ [a]) ex []); [now rewrite app_nil_r|constructor|]. intro s. cbn. intuition congruence.
Qed.
Lemma bar_log i b b' : ends_ok v pre b -> bar v i d b = Some b' ->
  ends_ok v (pre ++ [d]) b' /\ exists calls, b_ops b' = b_ops b ++ calls /\ bar_calls v i d calls.
Proof.
  intros EN. unfold bar. pose proof (activate_spec v EO pre d rest DATES b EN) as A.
  pose proof (activate_exits (filter (trades_on v d) (v_syms v)) (b_ends b) [] [] (NoDup_filter _ (eo_syms v EO))) as X. fold (activate v d b) in X.
  destruct (activate v d b) as [[e act] ex]. destruct A as [A1 A2]. destruct X as [new [-> [ND H]]]. cbn [app].
  set (b1 := set_ctx _ _ _). destruct (settle v i d b1) as [b2|] eqn:E1; [|discriminate]. cbn [bind]. intro E2.
  destruct (settle_log v d i _ _ E1) as [T1 [b0 [b5 [tried [T2 [T3 [T4 T5]]]]]]]. destruct (decide_log v d i _ _ _ _ E2) as [D1 [gone [b9 [D2 [D3 D4]]]]].
  assert (EQ : forall z, b_ends z = b_ends b1 -> ends_ok v (pre ++ [d]) z).
  { intros z Z s. specialize (A1 s). unfold end_of in *. rewrite Z. exact A1. }
  assert (HB : forall z s, b_ends z = b_ends b1 -> (has_bar_on v z s d = true <-> has_bar v s d)).
  { intros z s Z. rewrite (has_bar_iff v EO pre d rest DATES z s (EQ z Z)). apply bar_at_has. }
  split; [apply EQ; congruence|]. eexists. split.
  - rewrite D4, T5. cbn [b1 set_ctx b_ops set_ends]. rewrite <- app_assoc. reflexivity.
  - exists (scope_on v b0 i d), tried, (bar_on v b5 i d), gone, new, (fun s => has_bar_on v b9 s d). split; [cbn [app]; rewrite <- app_assoc; reflexivity|].
    split; [intro s; cbn [scope_on sc_can_price]; rewrite andb_true_iff, (HB b0 s T2); tauto|]. split; [reflexivity|]. split; [reflexivity|]. split; auto.
    split; [intros s I; unfold bar_on; apply (HB b5 s T3) in I; now rewrite I|].
    split; [intros s N; unfold bar_on; destruct (has_bar_on v b5 s d) eqn:Q; auto; apply (HB b5 s T3) in Q; tauto|]. split; auto. split; auto.
    split; [|intro s; apply HB; congruence].
    intro s. rewrite H. unfold exits_on. rewrite filter_In.
    assert (HS : In s (v_syms v) /\ trades_on v d s = true <-> has_bar v s d) by (rewrite <- bar_at_has; unfold bar_at; rewrite andb_true_iff, (nmem_syms v); tauto).
    rewrite HS. specialize (EN s). unfold end_of in EN. rewrite EN. split.
    + intros [I [L X]]. rewrite (bars_to_seen s I). tauto.
    + intros [I [L X]]. rewrite (bars_to_seen s I) in L. tauto.
Qed.
End At.
End Window.
