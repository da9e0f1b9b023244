(** Covers come first, over whole runs. *)
From Verif Require Import Lemmas PortfolioFacts PortfolioRun.
From Verif Require Export CoverProofs.
From Coq Require Import Sorting.Permutation.

Section Settle.
Variable v : env.
Variables (i : nat) (d : Z).
Lemma settle_covers b b' r id : core b -> typed (eq d) b -> In r (zget d (b_cover b)) -> r_pid r = Some id -> settle v i d b = Some b' ->
  exists ac al, b_att b' = b_att b ++ ac ++ al /\ (In id (ids_of ac) \/ ~ In id (ids_of al)) /\
    forall j, In j (ids_of ac) -> exists n, In n (entered (b_kops b)) /\ n_id n = j /\ n_type n = OBuy.
Proof.
  intros C T IR PR. unfold settle. pose proof (sort_scheds_resorted v d b) as [RP RK RA RE RH RM _].
  assert (C0 : core (sort_scheds v d b)).
  { unfold sort_scheds, sort_sched. destruct (v_sort_long v), (v_sort_short v); repeat destruct (zhas _ _); auto using core_sched. }
  set (b0 := sort_scheds v d b) in *.
  assert (IR0 : In r (zget d (get_sched WCover b0))) by (eapply Permutation_in; [apply RM|exact IR]).
  assert (HC : zhas d (b_cover b) = true).
  { destruct (zhas d (b_cover b)) eqn:H; auto. rewrite (zhas_zget _ _ H) in IR. destruct IR. }
  destruct (do_op v _ b0) as [b1|] eqn:E1; [|unfold place_if, bind; discriminate].
  pose proof (core_op _ _ _ _ C0 E1) as C1. destruct (op_keeps _ _ _ _ E1) as [A1 K1]. rewrite HC.
  destruct (place_if v WCover true i d (Some b1)) as [b2|] eqn:E2; [|unfold place_if, bind; discriminate].
  unfold place_if, place_orders in E2. rewrite K1 in E2. destruct (fold_left _ _ (Some b1)) as [b2'|] eqn:F2; [|discriminate]. injection E2 as <-.
  destruct (RankRun.place_fold v i d WCover _ _ _ C1 F2) as [[ac [AC SC]] [C2 _]].
  destruct (T WCover d r eq_refl IR) as [GR _].
  pose proof (place_tries v i d WCover _ _ _ id r C1 IR0 GR PR F2) as TRIED.
  set (b2 := set_sched WCover _ b2').
  assert (C2' : core b2) by now apply core_sched.
  set (P := fun x : bstate => core x /\ exists a, b_att x = b_att b2 ++ a /\ (contains id (b_pend b2) = false -> contains id (b_pend x) = false /\ ~ In id (ids_of a))).
  assert (P2 : P b2) by (split; auto; exists []; rewrite app_nil_r; split; auto).
  assert (PS : forall w x y, P y -> P (set_sched w x y)).
  { intros w x y [H1 [a [H2 H3]]]. split; [now apply core_sched|]. exists a. destruct w; auto. }
  assert (PG : forall y j n, P y -> get j (b_pend y) = Some n -> n_id n = j) by (intros y j n [H1 _]; now apply core_get).
  assert (PA : forall i0 d0 n y y', P y -> get (n_id n) (b_pend y) = Some n -> attempt_and_settle v i0 d0 n y = Some y' -> P y').
  { intros i0 d0 n y y' [H1 [a [H2 H3]]] G A. split; [eapply core_attempt; eauto|]. destruct (settle_att _ _ _ _ _ _ A) as [[f A'] _].
    exists (a ++ [(n_id n, d0, f)]). rewrite A', H2, app_assoc. split; auto. intro N. destruct (H3 N) as [H4 H5].
    split; [exact (proj2 (gone_stays v id _ _ _ _ _ (conj H1 H4) G A))|]. unfold ids_of in *. rewrite map_app. intro I. apply in_app_iff in I. destruct I as [I|[I|[]]]; [tauto|].
    cbn in I. rewrite I in G. unfold get, contains in *. apply ahas_false in H4. congruence. }
  assert (PK : forall k y, P y -> loop_kop k -> P (set_pend k y)).
  { intros k y [H1 [a [H2 H3]]] LK. assert (C' : core (set_pend k y)) by (apply kstate_set; auto; intros j ->; destruct LK). split; auto. exists a. split; auto. intro N. destruct (H3 N) as [H4 H5]. split; auto.
    rewrite (co_pend _ H1), contains_spec in H4. rewrite (co_pend _ C'), contains_spec. destruct (is_live (b_kops (set_pend k y)) id) eqn:L; auto. rewrite <- H4. symmetry.
    unfold set_pend in L. cbn [b_kops] in L. destruct k as [a0|j|s|j|j]; try destruct LK.
    - rewrite live_remove in L. apply andb_true_iff in L. tauto.
    - eapply live_removeall; eauto.
    - unfold is_live in *. rewrite live_snoc in L. exact L. }
  destruct (place_if v WSell _ i d (Some b2)) as [b3|] eqn:E3; [|unfold place_if, bind; discriminate].
  assert (P3 : P b3) by (eapply (place_pres v P PS PA PG); [|exact E3]; intros ? [= <-]; auto).
  destruct (place_if v WBuy _ i d (Some b3)) as [b4|] eqn:E4; [|unfold bind; discriminate].
  assert (P4 : P b4) by (eapply (place_pres v P PS PA PG); [|exact E4]; intros ? [= <-]; auto).
  cbn [bind]. destruct (process_persistent v i d b4) as [b5|] eqn:E5; [|discriminate].
  assert (P5 : P b5) by (eapply (process_pres v P); [exact PK|exact PA| |exact P4|exact E5]; now intros y [H1 _]).
  cbn [bind]. intro E6. destruct (op_keeps _ _ _ _ E6) as [A6 _]. destruct P5 as [_ [al [AL AG]]].
  exists ac, al. split; [|split].
  - rewrite A6, AL. change (b_att b2) with (b_att b2'). now rewrite AC, A1, RA, <- app_assoc.
  - destruct TRIED as [[a [X1 X2]]|N]; [|right; apply AG, N]. left. rewrite AC in X1. apply app_inv_head in X1. now subst a.
  - intros j I. assert (J : In (Some j) (map r_pid (zget d (get_sched WCover b0)))) by (eapply subseq_In; [exact SC|]; now apply in_map).
    apply in_map_iff in J. destruct J as [r' [J1 J2]].
    assert (J3 : In r' (zget d (get_sched WCover b))) by (eapply Permutation_in; [symmetry; apply RM|exact J2]).
    destruct (T WCover d r' eq_refl J3) as [_ [n [N1 [N2 N3]]]]. exists n. split; auto. split; [congruence|exact N3].
Qed.
End Settle.

Section Window.
Variable v : env.
Hypothesis EO : env_ok v.
Lemma bars_onward (e : Z) : forall mid i b b', ~ In e mid -> core b -> typed (eq e) b -> bars_from v i mid b = Some b' ->
  core b' /\ typed (eq e) b' /\ incl (entered (b_kops b)) (entered (b_kops b')) /\ forall w r, In r (zget e (get_sched w b)) -> In r (zget e (get_sched w b')).
Proof.
  induction mid as [|d mid IH]; intros i b b' N C T E; cbn [bars_from] in E; [injection E as <-; auto using incl_refl|].
  destruct (bar v i d b) as [b1|] eqn:B; [|discriminate]. destruct (bar_onward v EO i d b b1 C B) as [O1 O2 O3 O4 _].
  assert (NE : e <> d) by (intros ->; apply N; now left).
  destruct (IH (S i) b1 b') as [I1 [I2 [I3 I4]]]; auto; [intro I; apply N; now right|].
  split; auto. split; auto. split; [eapply incl_tran; eauto|]. intros w r I. apply I4, O3; auto.
Qed.
Lemma covers_before pre d mid e rest b0 b b' c c' n g : v_dates v = pre ++ d :: mid ++ e :: rest -> core b0 ->
  bars_from v 0 pre (start v b0) = Some b -> bar v (length pre) d b = Some b' ->
  bars_from v (S (length pre)) mid b' = Some c -> bar v (length (pre ++ d :: mid)) e c = Some c' ->
  placed_on b b' n -> n_type n = OBuy -> aget (n_sym n) (b_ctx b') = Some g -> g_cover g = true -> n_exec n = e -> In e (v_sdates v (n_sym n)) ->
  exists l, b_att c' = b_att c ++ l /\ before_sells l n (entered (b_kops c)).
Proof.
  intros D C0 B1 B2 B3 B4 [I1 I2] TY CX CV NX SD. pose proof (ascending_nodup _ (eo_dates v EO)) as ND. rewrite D in ND.
  assert (NP : ~ In e pre). { intro I. apply in_split in I. destruct I as [p1 [p2 ->]]. rewrite <- app_assoc in ND. apply NoDup_remove_2 in ND. apply ND. rewrite !in_app_iff. cbn. rewrite in_app_iff. cbn. tauto. }
  assert (ND2 : NoDup (d :: mid ++ e :: rest)). { clear - ND. induction pre as [|x p IH]; auto. inversion ND; auto. }
  inversion ND2 as [|? ? N1 N2]; subst x l.
  assert (NE : e <> d) by (intros ->; apply N1; rewrite in_app_iff; cbn; auto).
  assert (NM : ~ In e mid) by (intro I; apply NoDup_remove_2 in N2; apply N2, in_app_iff; auto).
  destruct (bars_onward e pre 0 (start v b0) b NP) as [C1 [T1 _]]; auto; [now apply core_start|intros [] x r _ []|].
  destruct (bar_onward v EO (length pre) d b b' C1 B2) as [O1 O2 O3 O4 O5].
  destruct (O5 n g I1 I2 TY CX CV) as [r [R1 R2]]; [now rewrite NX|]. rewrite NX in R1.
  destruct (bars_onward e mid (S (length pre)) b' c NM O1 (O4 (eq e) NE T1) B3) as [C2 [T2 [IN2 K2]]].
  pose proof (K2 WCover r R1) as R3. cbn [get_sched] in R3.
  unfold bar in B4. destruct (activate v e c) as [[en act] ex]. set (c1 := set_ctx _ _ _) in B4.
  destruct (settle v (length (pre ++ d :: mid)) e c1) as [c2|] eqn:S; [|discriminate]. cbn [bind] in B4. destruct (decide_parts _ _ _ _ _ _ _ B4) as [AT _].
  assert (CC : core c1) by apply core_ctx, core_ends, C2.
  assert (TT : typed (eq e) c1) by (intros w x r0 EX I; apply (T2 w x r0 EX); destruct w; exact I).
  destruct (settle_covers v _ e c1 c2 r (n_id n) CC TT R3 R2 S) as [ac [al [A1 [A2 A3]]]]. exists (ac ++ al).
  split; [rewrite AT, A1; reflexivity|]. intros m l1 x f l2 IM TM EQ IN.
  assert (INC : In (n_id n) (ids_of ac)) by (destruct A2 as [A2|A2]; auto; unfold ids_of in *; rewrite map_app in IN; apply in_app_iff in IN; tauto).
  assert (NS : ~ In (n_id m) (ids_of ac)).
  { intro J. destruct (A3 _ J) as [n' [J1 [J2 J3]]]. change (b_kops c1) with (b_kops c) in J1.
    assert (X : n' = m) by exact (entered_unique _ _ _ J1 IM J2). subst. congruence. }
  clear - EQ INC NS. revert l1 EQ. induction ac as [|[[j y] f'] ac IH]; intros l1 EQ; [destruct INC|].
  destruct l1 as [|q l1]; cbn [app] in EQ.
  - injection EQ as EQ _ _ _. destruct NS. left. exact EQ.
  - injection EQ as <- EQ. cbn [ids_of map fst] in *. destruct INC as [INC|INC]; [left; exact INC|]. right. apply IH; auto. intro J. apply NS. right. exact J.
Qed.
End Window.
Lemma covers_first cf k l v d b b' e c c' n g : windows_ok cf l -> two_bars cf k l v d b b' e c c' ->
  placed_on b b' n -> n_type n = OBuy -> aget (n_sym n) (b_ctx b') = Some g -> g_cover g = true -> n_exec n = e -> In e (v_sdates v (n_sym n)) ->
  exists l, b_att c' = b_att c ++ l /\ before_sells l n (entered (b_kops c)).
Proof.
  intros W [l1 [l2 [b0 [pre [mid [rest [-> [B0 [D [B1 [B2 [B3 B4]]]]]]]]]]]]. destruct (window_in _ _ _ _ W) as [W1 [EO _]].
  destruct (refined_backtests cf l1 k b0 W1 B0) as [C _]. eapply covers_before; eauto.
Qed.
