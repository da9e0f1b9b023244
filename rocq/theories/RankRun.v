(** The order in which a bar tries its orders. *)
From Verif Require Import Lemmas PendingProofs.
From Verif Require Export RankProofs TurnSpec LoopLife.
From Coq Require Import Sorting.Sorted Sorting.Permutation.

Lemma subseq_nil {A} (l : list A) : subseq [] l.
Proof. induction l; constructor; auto. Qed.

Lemma sort_scheds_taken v d b w : taken v w (zget d (get_sched w b)) (zget d (get_sched w (sort_scheds v d b))) .
Proof.
  assert (RB : forall l, ranked buy_worth l (sort_desc buy_key l)) by (intro l; apply sort_worth; intro; apply sort_key_worth).
  assert (RS : forall l, ranked sell_worth l (sort_desc sell_key l)) by (intro l; apply sort_worth; intro; apply sort_key_worth).
  unfold taken, limited, sort_scheds.
  destruct w; cbn [worth_in]; destruct (v_sort_long v), (v_sort_short v); cbn [get_sched]; auto;
    change (b_cover ?x) with (get_sched WCover x); change (b_buy ?x) with (get_sched WBuy x); change (b_sell ?x) with (get_sched WSell x);
    repeat first [rewrite sort_at, Z.eqb_refl | rewrite sort_get by discriminate]; auto.
Qed.

Section Settle.
Variable v : env.
Variables (i : nat) (d : Z).
Lemma settle_att n b b' : attempt_and_settle v i d n b = Some b' ->
  (exists f, b_att b' = b_att b ++ [(n_id n, d, f)]) /\ forall w, get_sched w b' = get_sched w b.
Proof.
  unfold attempt_and_settle. destruct (attempt v i d n _) as [[b1 f]|] eqn:A; [|discriminate]. apply attempt_spec in A.
  destruct A as [[F1 [F2 [F3 [F4 _]]]] [T _]]. cbn in F2, F3, F4. intros [= <-].
  assert (X : forall k, b_att (set_pend k b1) = b_att b1) by reflexivity.
  split; [exists f; destruct (f || negb (is_persistent_limit n)); rewrite ?X, T; reflexivity|].
  intro w. destruct (f || negb (is_persistent_limit n)), w; cbn; auto.
Qed.
Lemma place_fold w l : forall b b', core b -> fold_left (place1 v i d w) l (Some b) = Some b' ->
  (exists a, b_att b' = b_att b ++ a /\ subseq (map Some (ids_of a)) (map r_pid l)) /\ core b' /\ forall w', get_sched w' b' = get_sched w' b.
Proof.
  induction l as [|r l IH]; intros b b' C E; cbn [fold_left] in E.
  - injection E as <-. split; [exists []; rewrite app_nil_r; split; auto; constructor|auto].
  - assert (SKIP : fold_left (place1 v i d w) l (Some b) = Some b' ->
      (exists a, b_att b' = b_att b ++ a /\ subseq (map Some (ids_of a)) (map r_pid (r :: l))) /\ core b' /\ forall w', get_sched w' b' = get_sched w' b).
    { intro E'. destruct (IH _ _ C E') as [[a [A1 A2]] H]. split; auto. exists a. split; auto. cbn [map]. now constructor. }
    unfold place1 at 2 in E. destruct (negb (given _)); [auto|]. destruct (r_pid r) as [id|] eqn:P; [|auto].
    destruct (negb (contains id (b_pend b))); [auto|]. destruct (get id (b_pend b)) as [n|] eqn:G; [|auto].
    pose proof (core_get b id n C G) as ID.
    destruct (attempt_and_settle v i d n b) as [b1|] eqn:S; [|now rewrite place1_none in E].
    assert (C1 : core b1) by (eapply core_attempt; [exact C| |exact S]; now rewrite ID).
    destruct (settle_att _ _ _ S) as [[f A] K]. destruct (IH _ _ C1 E) as [[a [A1 A2]] [C2 K2]]. split; [|split; auto].
    + exists ((n_id n, d, f) :: a). rewrite A1, A, <- app_assoc. split; [reflexivity|]. cbn [ids_of map fst]. rewrite ID, P. now constructor.
    + intro w'. now rewrite K2, K.
Qed.
Lemma place_taken w now b b' : core b -> place_if v w now i d (Some b) = Some b' -> (now = false -> zget d (get_sched w b) = []) ->
  (exists a, b_att b' = b_att b ++ a /\ subseq (map Some (ids_of a)) (map r_pid (zget d (get_sched w b)))) /\ core b' /\
  forall w', w' <> w -> get_sched w' b' = get_sched w' b.
Proof.
  intros C. unfold place_if, place_orders. destruct now.
  - intros E _. destruct (fold_left _ _ _) as [b1|] eqn:F; [|discriminate]. injection E as <-. destruct (place_fold w _ _ _ C F) as [[a [A1 A2]] [C1 K]].
    split; [exists a; split; auto; destruct w; exact A1|]. split; [now apply core_sched|]. intros w' N. rewrite <- K. destruct w, w'; try reflexivity; congruence.
  - intros [= <-] E. split; [exists []; rewrite app_nil_r; split; auto; rewrite E by auto; constructor|auto].
Qed.
Lemma persist_fold l : forall b b', fold_left (persist1 v i d) l (Some b) = Some b' ->
  exists a, b_att b' = b_att b ++ a /\ subseq (ids_of a) (map n_id l).
Proof.
  induction l as [|n l IH]; intros b b' E; cbn [fold_left] in E.
  - injection E as <-. exists []. rewrite app_nil_r. split; auto. constructor.
  - assert (SKIP : forall b1, b_att b1 = b_att b -> fold_left (persist1 v i d) l (Some b1) = Some b' -> exists a, b_att b' = b_att b ++ a /\ subseq (ids_of a) (map n_id (n :: l))).
    { intros b1 A E1. destruct (IH _ _ E1) as [a [A1 A2]]. exists a. rewrite A1, A. split; auto. cbn [map]. now constructor. }
    assert (TRY : forall b0 st, b_att b0 = b_att b -> attempt_and_settle v i d n b0 = st -> fold_left (persist1 v i d) l st = Some b' ->
      exists a, b_att b' = b_att b ++ a /\ subseq (ids_of a) (map n_id (n :: l))).
    { intros b0 [b1|] A S E1; [|now rewrite persist_none in E1]. destruct (settle_att _ _ _ S) as [[f T] _]. destruct (IH _ _ E1) as [a [A1 A2]].
      exists ((n_id n, d, f) :: a). rewrite A1, T, A, <- app_assoc. split; auto. cbn [ids_of map fst]. now constructor. }
    unfold persist1 at 2 in E. destruct (Z.ltb d (n_exec n)); [eauto|]. destruct (Z.eqb (n_exec n) d && _); [eauto|]. destruct (negb (has_bar_on v b (n_sym n) d)); [eauto|].
    destruct (negb (was_attempted (n_id n) (b_pend b))); [eauto|]. destruct (n_timeout n) as [t|]; [|eauto]. cbn zeta in E.
    destruct (Z.leb 0 t && _); [eapply SKIP; [|exact E]; reflexivity|eapply TRY; [|reflexivity|exact E]; reflexivity].
Qed.
Lemma priority_turn n : priority n = turn n.
Proof. unfold priority, turn. destruct (n_type n), (n_exit n) as [[]|]; reflexivity. Qed.
Lemma priority_earlier a b : priority_leb a b = true <-> earlier a b.
Proof. unfold priority_leb, earlier. rewrite !priority_turn, orb_true_iff, andb_true_iff, Nat.ltb_lt, Nat.eqb_eq, Nat.leb_le. tauto. Qed.
Lemma processed b b' : process_persistent v i d b = Some b' ->
  exists a l, b_att b' = b_att b ++ a /\ subseq (ids_of a) (map n_id l) /\ Permutation l (orders None None (b_pend b)) /\ StronglySorted earlier l.
Proof.
  unfold process_persistent. destruct (has_orders (b_pend b)) eqn:H.
  - intro E. apply persist_fold in E. destruct E as [a [A1 A2]]. exists a. eexists. split; [exact A1|]. split; [exact A2|]. split; [apply isort_perm'|].
    pose proof (isort_sorted priority_leb) as S.
    assert (T : forall x y, priority_leb x y = true \/ priority_leb y x = true).
    { intros x y. rewrite !priority_earlier. unfold earlier. lia. }
    assert (TR : forall x y z, priority_leb x y = true -> priority_leb y z = true -> priority_leb x z = true).
    { intros x y z. rewrite !priority_earlier. unfold earlier. lia. }
    specialize (S T TR (orders None None (b_pend b))). revert S. generalize (isort priority_leb (orders None None (b_pend b))). intro l.
    induction 1 as [|x l S1 IH S2]; constructor; auto. eapply Forall_impl; [|exact S2]. intros y. apply priority_earlier.
  - intros [= <-]. exists [], (orders None None (b_pend b)). rewrite app_nil_r. split; auto. split; [apply subseq_nil|].
    unfold has_orders in H. unfold orders. destruct (k_orders (b_pend b)); [|discriminate]. split; constructor.
Qed.
Lemma op_keeps o b b' : do_op v o b = Some b' -> b_att b' = b_att b /\ forall w, get_sched w b' = get_sched w b.
Proof. unfold do_op. destruct (step _ _ _); [|discriminate]. intros [= <-]. split; [reflexivity|]. intros []; reflexivity. Qed.

(** The attempts of a bar: scheduled covers, sells and buys, then the orders left
    from earlier bars. *)
Lemma settle_order b b' : core b -> settle v i d b = Some b' ->
  exists tc ts tb ac as_ ab ar l, b_att b' = b_att b ++ ac ++ as_ ++ ab ++ ar /\
    taken v WCover (zget d (b_cover b)) tc /\ subseq (map Some (ids_of ac)) (map r_pid tc) /\
    taken v WSell (zget d (b_sell b)) ts /\ subseq (map Some (ids_of as_)) (map r_pid ts) /\
    taken v WBuy (zget d (b_buy b)) tb /\ subseq (map Some (ids_of ab)) (map r_pid tb) /\
    StronglySorted earlier l /\ subseq (ids_of ar) (map n_id l).
Proof.
  intros C. unfold settle. pose proof (fun w => sort_scheds_taken v d b w) as TK. pose proof (sort_scheds_resorted v d b) as [_ RK RA _ RH RP _].
  assert (C0 : core (sort_scheds v d b)).
  { unfold sort_scheds, sort_sched. destruct (v_sort_long v), (v_sort_short v); repeat destruct (zhas _ _); auto using core_sched. }
  set (b0 := sort_scheds v d b) in *.
  assert (EM : forall w, zhas d (get_sched w b) = false -> zget d (get_sched w b0) = []).
  { intros w H. rewrite <- RH in H. now apply zhas_zget. }
  destruct (do_op v _ b0) as [b1|] eqn:E1; [|unfold place_if, bind; discriminate].
  pose proof (core_op _ _ _ _ C0 E1) as C1. destruct (op_keeps _ _ _ E1) as [A1 K1].
  destruct (place_if v WCover _ i d (Some b1)) as [b2|] eqn:E2; [|unfold place_if, bind; discriminate].
  apply place_taken in E2; auto; [|intro H; rewrite K1; now apply EM]. destruct E2 as [[ac [AC SC]] [C2 K2]]. rewrite K1 in SC.
  destruct (place_if v WSell _ i d (Some b2)) as [b3|] eqn:E3; [|unfold place_if, bind; discriminate].
  apply place_taken in E3; auto; [|intro H; rewrite K2, K1 by discriminate; now apply EM]. destruct E3 as [[as_ [AS SS]] [C3 K3]]. rewrite K2, K1 in SS by discriminate.
  destruct (place_if v WBuy _ i d (Some b3)) as [b4|] eqn:E4; [|unfold bind; discriminate].
  apply place_taken in E4; auto; [|intro H; rewrite K3, K2, K1 by discriminate; now apply EM]. destruct E4 as [[ab [AB SB]] [C4 K4]]. rewrite K3, K2, K1 in SB by discriminate.
  cbn [bind]. destruct (process_persistent v i d b4) as [b5|] eqn:E5; [|discriminate]. cbn [bind]. apply processed in E5. destruct E5 as [ar [l [AR [SR [_ SO]]]]].
  intro E6. destruct (op_keeps _ _ _ E6) as [A6 _].
  exists (zget d (get_sched WCover b0)), (zget d (get_sched WSell b0)), (zget d (get_sched WBuy b0)), ac, as_, ab, ar, l.
  split; [rewrite A6, AR, AB, AS, AC, A1, RA, <- !app_assoc; reflexivity|].
  split; [apply (TK WCover)|]. split; auto. split; [apply (TK WSell)|]. split; auto. split; [apply (TK WBuy)|]. split; auto.
Qed.
End Settle.
