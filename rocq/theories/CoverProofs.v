(** Scheduled covers come before every sell order of their bar. *)
From Verif Require Import Lemmas PortfolioFacts PortfolioRun.
From Verif Require Export CoverSpec BarOrders StepRun.

(** ** Where results are kept *)
Definition side_in (w : which) : oside := match w with WSell => OSell | _ => OBuy end.
Definition side_given (w : which) (r : result) : bool := given (match w with WSell => r_sell r | _ => r_buy r end).
Definition held (w : which) (es : list pending) (r : result) : Prop :=
  side_given w r = true /\ exists n, In n es /\ r_pid r = Some (n_id n) /\ n_type n = side_in w.
Definition typed (D : Z -> Prop) (b : bstate) : Prop := forall w x r, D x -> In r (zget x (get_sched w b)) -> held w (entered (b_kops b)) r.
Lemma held_more w es es' r : incl es es' -> held w es r -> held w es' r.
Proof. intros I [G [n [A B]]]. split; auto. exists n. auto. Qed.

Lemma exec_outside v s e k x : env_ok v -> In s (v_syms v) -> exec_date v s e k = Some (x, false) -> ~ In x (v_sdates v s).
Proof.
  intros EO I. unfold exec_date. destruct (nth_error (v_sdates v s) (e - 1 + k)) as [y|] eqn:N; [discriminate|].
  destruct (v_master v) as [m|] eqn:M; [|discriminate]. destruct (nth_error (v_sdates v s) (e - 1)) as [cur|] eqn:C; [|discriminate].
  destruct (eo_master v EO m s M I) as [A [p [q Q]]]. unfold next_master_date.
  assert (P : nth_error (m s) (length p + (e - 1)) = Some cur).
  { rewrite Q, nth_error_app2 by lia. replace (length p + (e - 1) - length p)%nat with (e - 1)%nat by lia. rewrite nth_error_app1; auto. apply nth_error_Some. congruence. }
  rewrite (searchsorted_spec _ _ _ A P), P, Z.eqb_refl. destruct (nth_error (m s) (length p + (e - 1) + k)) as [z|] eqn:Z; [|discriminate].
  cbn [option_map]. intros [= <-] J. apply In_nth_error in J. destruct J as [j J]. apply nth_error_None in N.
  assert (JL : (j < length (v_sdates v s))%nat) by (apply nth_error_Some; congruence).
  assert (J' : nth_error (m s) (length p + j) = Some z).
  { rewrite Q, nth_error_app2 by lia. replace (length p + j - length p)%nat with j by lia. rewrite nth_error_app1; auto. }
  assert (X : (z < z)%Z) by (apply (nth_ascending (m s) (length p + j) (length p + (e - 1) + k)); auto; lia). lia.
Qed.
Lemma get_set_sched w x b w' : get_sched w' (set_sched w x b) = match w, w' with WCover, WCover | WBuy, WBuy | WSell, WSell => x | _, _ => get_sched w' b end.
Proof. destruct w, w'; reflexivity. Qed.
Lemma which_dec (w w' : which) : {w = w'} + {w <> w'}.
Proof. decide equality. Qed.
Lemma get_set_same w x b : get_sched w (set_sched w x b) = x.
Proof. destruct w; reflexivity. Qed.
Lemma get_set_other w w' x b : w' <> w -> get_sched w' (set_sched w x b) = get_sched w' b.
Proof. destruct w, w'; intro N; try reflexivity; congruence. Qed.
Lemma side_pid w i r : side_given w (set_pid i r) = side_given w r.
Proof. destruct w; reflexivity. Qed.

Record scheduled (v : env) (w : which) (l : list result) (b b' : bstate) : Prop := mkScheduled {
  sd_core : core b'; sd_incl : incl (entered (b_kops b)) (entered (b_kops b'));
  sd_kept : forall w' x r, In r (zget x (get_sched w' b)) -> In r (zget x (get_sched w' b'));
  sd_from : forall w' x r, In r (zget x (get_sched w' b')) -> In r (zget x (get_sched w' b)) \/ (w' = w /\ held w (entered (b_kops b')) r);
  sd_new : forall n, In n (entered (b_kops b')) -> In n (entered (b_kops b)) \/ exists r, In r l /\ r_sym r = n_sym n /\ n_type n = side_in w /\
    (In (n_exec n) (v_sdates v (n_sym n)) -> In (set_pid (n_id n) r) (zget (n_exec n) (get_sched w b')))
}.
Lemma schedule_sched v d k w r b b' : env_ok v -> In (r_sym r) (v_syms v) -> core b ->
  side_given w r = true -> result_side r = side_in w -> schedule_order v d k w (Some b) r = Some b' -> scheduled v w [r] b b'.
Proof.
  intros EO I C G RS E. pose proof (core_schedule v _ _ _ _ _ _ C E) as C'.
  destruct (schedule_order_spec _ _ _ _ _ _ _ E) as [->|[x [iw [a [X [A B]]]]]].
  { constructor; auto using incl_refl. }
  set (n := with_id (S (length (entered (b_kops b)))) a).
  assert (Y : entered (b_kops b ++ [KAdd a]) = entered (b_kops b) ++ [n]) by apply entered_snoc.
  assert (ID : snd (add a (b_pend b)) = n_id n).
  { rewrite (co_pend _ C). unfold n. cbn. f_equal. rewrite <- (map_length n_id), entered_ids, seq_length. exact (ki_last _ _ _ (krun_inv (b_kops b))). }
  destruct (to_add_facts _ _ _ _ _ A) as [A1 [A2 A3]].
  assert (NT : n_type n = side_in w). { rewrite <- RS. revert A. unfold to_add, result_side, n. destruct (r_buy r), (r_sell r); intros [= <-]; reflexivity. }
  assert (NS : n_sym n = r_sym r) by exact A2. assert (NX : n_exec n = x).
  { revert A. unfold to_add, n. destruct (r_buy r), (r_sell r); intros [= <-]; reflexivity. }
  assert (K : b_kops b' = b_kops b ++ [KAdd a]) by (rewrite B; cbv zeta; destruct iw, w; reflexivity).
  assert (EN : entered (b_kops b') = entered (b_kops b) ++ [n]) by (rewrite K; exact Y).
  assert (INN : In n (entered (b_kops b'))) by (rewrite EN; apply in_app_iff; cbn; auto).
  assert (H : held w (entered (b_kops b')) (set_pid (n_id n) r)).
  { split; [now rewrite side_pid|]. exists n. auto. }
  assert (S : forall w' y, zget y (get_sched w' b') = zget y (get_sched w' b) ++ (if (if which_dec w' w then true else false) && iw && Z.eqb y x then [set_pid (n_id n) r] else [])).
  { intros w' y. rewrite B. cbv zeta. rewrite ID. destruct iw.
    - destruct (which_dec w' w) as [->|N].
      + rewrite get_set_same, zget_zset. cbn [andb]. replace (get_sched w (set_pend (KAdd a) b)) with (get_sched w b) by (destruct w; reflexivity).
        destruct (Z.eqb_spec y x) as [->|]; [reflexivity|now rewrite app_nil_r].
      + rewrite get_set_other by auto. cbn [andb]. rewrite app_nil_r. destruct w'; reflexivity.
    - rewrite andb_false_r. cbn [andb]. rewrite app_nil_r. destruct w'; reflexivity. }
  constructor; auto.
  - rewrite EN. intros m J. apply in_app_iff. auto.
  - intros w' y r' J. rewrite S. apply in_app_iff. auto.
  - intros w' y r' J. rewrite S in J. apply in_app_iff in J. destruct J as [J|J]; auto. right.
    destruct (which_dec w' w) as [->|N]; [|destruct J]. split; auto. destruct (true && iw && Z.eqb y x); [|destruct J]. destruct J as [<-|[]]. exact H.
  - intros m J. rewrite EN in J. apply in_app_iff in J. destruct J as [J|[<-|[]]]; auto. right. exists r. split; [now left|]. split; [congruence|]. split; auto.
    intro J. rewrite S. apply in_app_iff. right. destruct (which_dec w w) as [_|N]; [|congruence]. rewrite NX, Z.eqb_refl in *.
    destruct iw; [now left|]. exfalso. rewrite NS in J. exact (exec_outside v _ _ _ _ EO I X J).
Qed.
Lemma schedule_fold_sched v d k w l : env_ok v -> forall b b', core b ->
  (forall r, In r l -> In (r_sym r) (v_syms v) /\ side_given w r = true /\ result_side r = side_in w) ->
  fold_left (schedule_order v d k w) l (Some b) = Some b' -> scheduled v w l b b'.
Proof.
  intro EO. induction l as [|r l IH]; intros b b' C H E; cbn [fold_left] in E.
  - injection E as <-. constructor; auto using incl_refl.
  - destruct (schedule_order v d k w (Some b) r) as [b1|] eqn:E1; [|now rewrite schedule_none in E].
    destruct (H r (or_introl eq_refl)) as [H1 [H2 H3]]. destruct (schedule_sched _ _ _ _ _ _ _ EO H1 C H2 H3 E1) as [S1 S2 S3 S4 S5].
    destruct (IH b1 b' S1) as [T1 T2 T3 T4 T5]; auto; [intros r' I; apply H; now right|]. constructor; auto.
    + eapply incl_tran; eauto.
    + intros w' x r' I. destruct (T4 w' x r' I) as [J|J]; auto. destruct (S4 w' x r' J) as [|[-> K]]; auto. right. split; auto. eapply held_more; eauto.
    + intros n I. destruct (T5 n I) as [J|[r' [J1 J2]]]; [|right; exists r'; split; auto; now right].
      destruct (S5 n J) as [|[r' [[<-|[]] [K1 [K2 K3]]]]]; auto. right. exists r. split; [now left|]. split; auto.
Qed.

(** ** The second half of a bar *)
Definition kept_in (b b' : bstate) : Prop := core b' /\ entered (b_kops b') = entered (b_kops b) /\ forall w, get_sched w b' = get_sched w b.
Lemma cancel_kept v l : forall b b', core b -> fold_left (do_cancel v) l (Some b) = Some b' -> kept_in b b'.
Proof.
  induction l as [|y l IH]; intros b b' C E; cbn [fold_left] in E; [injection E as <-; unfold kept_in; auto|].
  destruct (do_cancel v (Some b) y) as [b1|] eqn:D; [|now rewrite cancel_none in E].
  assert (X : kept_in b b1).
  { assert (K : forall k, loop_kop k -> kept_in b (set_pend k b)).
    { intros k LK. split; [apply kstate_set; auto; intros j ->; destruct LK|]. split; [apply entered_kop; auto|intros []; reflexivity]. }
    assert (O : forall o, do_op v o b = Some b1 -> kept_in b b1).
    { intros o Do. split; [eapply core_op; eauto|]. split; [|apply (op_keeps _ _ _ _ Do)]. unfold do_op in Do. destruct (step _ _ _); [|discriminate]. injection Do as <-. reflexivity. }
    unfold do_cancel, bind in D. destruct y as [j|t|j|t ty]; eauto; injection D as <-; apply K; exact Logic.I. }
  destruct X as [X1 [X2 X3]]. destruct (IH _ _ X1 E) as [Y1 [Y2 Y3]]. split; auto. split; [congruence|]. intro w. now rewrite Y3.
Qed.
Lemma exit_kept v i d l : forall b b', core b -> fold_left (do_exit v i d) l (Some b) = Some b' -> kept_in b b'.
Proof.
  induction l as [|y l IH]; intros b b' C E; cbn [fold_left] in E; [injection E as <-; unfold kept_in; auto|].
  destruct (do_exit v i d (Some b) y) as [b1|] eqn:D; [|now rewrite exit_none in E].
  assert (X : kept_in b b1).
  { unfold do_exit, bind in D. split; [eapply core_op; eauto|]. split; [|apply (op_keeps _ _ _ _ D)]. unfold do_op in D. destruct (step _ _ _); [|discriminate]. injection D as <-. reflexivity. }
  destruct X as [X1 [X2 X3]]. destruct (IH _ _ X1 E) as [Y1 [Y2 Y3]]. split; auto. split; [congruence|]. intro w. now rewrite Y3.
Qed.
Lemma to_result_cover s d rot g n r n' : to_result s d rot g n = OResult r n' -> r_cover r = g_cover g /\ r_sym r = s.
Proof.
  unfold to_result. repeat match goal with |- context [if ?c then _ else _] => destruct c; try discriminate end.
  destruct (finite_limit (g_blimit g)), (finite_limit (g_slimit g)), (get_stops s g n) as [[[ls ss] m]|]; try discriminate. intros [= <- _]. auto.
Qed.
Lemma collect_kind v d n0 x : forall cs bs ss n, collect v d x n0 = Some (cs, bs, ss, n) ->
  (forall r, In r (cs ++ bs ++ ss) -> exists g, In (r_sym r, g) x /\ r_cover r = g_cover g) /\
  (forall r, In r cs -> given (r_buy r) = true) /\ (forall r, In r bs -> given (r_buy r) = true /\ r_cover r = false) /\ (forall r, In r ss -> given (r_sell r) = true).
Proof.
  induction x as [|[s g] x IH] using rev_ind; intros cs bs ss n E.
  - injection E as <- <- <- <-. cbn. tauto.
  - rewrite collect_snoc in E. destruct (collect v d x n0) as [[[[cs0 bs0] ss0] m]|]; [|discriminate]. destruct (IH _ _ _ _ eq_refl) as [I1 [I2 [I3 I4]]].
    cbn [collect1 fst snd] in E.
    assert (OLD : forall r, In r (cs0 ++ bs0 ++ ss0) -> exists g0, In (r_sym r, g0) (x ++ [(s, g)]) /\ r_cover r = g_cover g0).
    { intros r I. destruct (I1 r I) as [g0 [J1 J2]]. exists g0. split; auto. apply in_app_iff. auto. }
    destruct (to_result s d (given (z_worst (v_settings v))) g m) as [| |r m'] eqn:T; [discriminate|injection E as <- <- <- <-; auto|].
    destruct (to_result_cover _ _ _ _ _ _ _ T) as [RC RS].
    assert (NEW : exists g0, In (r_sym r, g0) (x ++ [(s, g)]) /\ r_cover r = g_cover g0).
    { exists g. split; auto. apply in_app_iff. right. left. now rewrite RS. }
    destruct (given (r_buy r)) eqn:GB; [destruct (r_cover r) eqn:RV|]; destruct (given (r_sell r)) eqn:GS; injection E as <- <- <- <-;
      (split; [intros r' I; rewrite !in_app_iff in I; cbn [In] in I;
         assert (Z : In r' (cs0 ++ bs0 ++ ss0) \/ r = r') by (rewrite !in_app_iff; tauto); destruct Z as [Z|<-]; auto; rewrite ?RV; auto|]);
      (split; [intros r' I|split; intros r' I]; try apply in_app_iff in I; cbn [In] in I; try (destruct I as [I|[<-|[]]]); auto).
Qed.

Section Bar.
Variable v : env.
Hypothesis EO : env_ok v.
Variables (i : nat) (d : Z).
Record onward (b b' : bstate) : Prop := mkOnward {
  ow_core : core b'; ow_incl : incl (entered (b_kops b)) (entered (b_kops b'));
  ow_kept : forall w x r, x <> d -> In r (zget x (get_sched w b)) -> In r (zget x (get_sched w b'));
  ow_typed : forall D : Z -> Prop, ~ D d -> typed D b -> typed D b';
  ow_cover : forall n g, In n (entered (b_kops b')) -> ~ In n (entered (b_kops b)) -> n_type n = OBuy -> aget (n_sym n) (b_ctx b') = Some g -> g_cover g = true ->
    In (n_exec n) (v_sdates v (n_sym n)) -> exists r, In r (zget (n_exec n) (b_cover b')) /\ r_pid r = Some (n_id n)
}.
Lemma decide_onward act ex b b' : NoDup act -> (forall s, In s act -> In s (v_syms v)) -> core b -> decide v i d act ex b = Some b' -> onward b b'.
Proof.
  intros NA AS C. unfold decide. set (x := map _ act). set (u := v_user v i d (b_port b) (b_pend b) x). set (x1 := map _ x).
  destruct (fold_left (do_cancel v) (u_cancel u) (Some b)) as [m|] eqn:E1; [|discriminate]. cbn [bind].
  destruct (cancel_kept v _ _ _ C E1) as [KC [KE KS]].
  destruct (rotate v i m x1) as [x2|] eqn:RT; [|discriminate].
  assert (KX2 : akeys x2 = act).
  { rewrite (LoopLife.rotate_keys _ _ _ _ _ RT). unfold x1, x, akeys. rewrite !map_map. cbn. apply map_id. }
  destruct (collect v d x2 (b_stop m)) as [[[[cs bs] ss] n]|] eqn:CL; [|discriminate]. set (m2 := set_ctx _ n m).
  destruct (fold_left (schedule_order v d (v_buy_delay v) WCover) cs (Some m2)) as [b3|] eqn:E3; [|rewrite !schedule_none, exit_none; discriminate].
  destruct (fold_left (schedule_order v d (v_buy_delay v) WBuy) bs (Some b3)) as [b4|] eqn:E4; [|rewrite schedule_none, exit_none; discriminate].
  destruct (fold_left (schedule_order v d (v_sell_delay v) WSell) ss (Some b4)) as [b5|] eqn:E5; [|rewrite exit_none; discriminate].
  destruct (fold_left (do_exit v i d) ex (Some b5)) as [b6|] eqn:E6; [|discriminate]. cbn [bind]. intro E7.
  assert (NX2 : NoDup (akeys x2)) by (now rewrite KX2).
  destruct (collect_spec v d (b_stop m) x2 cs bs ss n NX2 CL) as [C1 C2 C3 C4 _]. destruct (collect_kind v d (b_stop m) x2 cs bs ss n CL) as [Q1 [Q2 [Q3 Q4]]].
  apply Forall_app in C2. destruct C2 as [C2a C2b]. rewrite Forall_forall in C2a, C2b, C3.
  assert (SY : forall r, In r (cs ++ bs ++ ss) -> In (r_sym r) (v_syms v)).
  { intros r I. destruct (Q1 r I) as [g [J _]]. apply AS. rewrite <- KX2. unfold akeys. apply in_map_iff. exists (r_sym r, g). auto. }
  assert (S3 : scheduled v WCover cs m2 b3).
  { eapply schedule_fold_sched; [exact EO| | |exact E3]; [apply core_ctx, KC|]. intros r I. split; [apply SY, in_app_iff; auto|]. split; [exact (Q2 r I)|exact (C2a r I)]. }
  assert (S4 : scheduled v WBuy bs b3 b4).
  { eapply schedule_fold_sched; [exact EO|apply S3| |exact E4]. intros r I. split; [apply SY; rewrite !in_app_iff; auto|]. split; [apply (Q3 r I)|exact (C2b r I)]. }
  assert (S5 : scheduled v WSell ss b4 b5).
  { eapply schedule_fold_sched; [exact EO|apply S4| |exact E5]. intros r I. split; [apply SY; rewrite !in_app_iff; auto|]. split; [apply (Q4 r I)|exact (C3 r I)]. }
  destruct S3 as [S31 S32 S33 S34 S35], S4 as [S41 S42 S43 S44 S45], S5 as [S51 S52 S53 S54 S55].
  destruct (exit_kept v i d _ _ _ S51 E6) as [XC [XE XS]].
  assert (A7 : b_ctx b' = b_ctx b6 /\ b_kops b' = b_kops b6 /\ forall w, get_sched w b' = get_sched w b6).
  { unfold do_op in E7. destruct (step _ _ _); [|discriminate]. injection E7 as <-. split; [reflexivity|]. split; [reflexivity|]. intros []; reflexivity. }
  destruct A7 as [A7 [A8 A9]].
  assert (M2 : b_kops m2 = b_kops m /\ forall w, get_sched w m2 = get_sched w m) by (split; [reflexivity|intros []; reflexivity]). destruct M2 as [M2 M3].
  rewrite M2, KE in S32. rewrite M2, KE in S35.
  assert (EN : entered (b_kops b') = entered (b_kops b5)) by (now rewrite A8, XE).
  assert (SC : forall w, get_sched w b' = get_sched w b5) by (intro w; now rewrite A9, XS).
  constructor.
  - eapply core_op; eauto.
  - rewrite EN. eapply incl_tran; [exact S32|]. eapply incl_tran; eauto.
  - intros w y r _ I. rewrite SC. apply S53, S43, S33. now rewrite M3, KS.
  - intros D _ T w y r Dy I. rewrite SC in I. rewrite EN. destruct (S54 _ _ _ I) as [J|[-> J]]; auto.
    destruct (S44 _ _ _ J) as [L|[-> L]]; [|eapply held_more; eauto].
    destruct (S34 _ _ _ L) as [P|[-> P]]; [|eapply held_more; [|exact P]; eapply incl_tran; eauto].
    rewrite M3, KS in P. eapply held_more; [|exact (T w y r Dy P)]. eapply incl_tran; [exact S32|]. eapply incl_tran; eauto.
  - intros n' g I N TY CX CV EX. rewrite EN in I. change (b_cover b') with (get_sched WCover b'). rewrite SC.
    destruct (S55 n' I) as [J|[r [_ [_ [J _]]]]]; [|cbn in J; congruence].
    destruct (S45 n' J) as [L|[r [L1 [L2 _]]]].
    + destruct (S35 n' L) as [|[r [L1 [L2 [L3 L4]]]]]; [contradiction|]. exists (set_pid (n_id n') r). split; [|reflexivity]. apply S53, S43. now apply L4.
    + exfalso. destruct (Q3 r L1) as [_ F]. destruct (Q1 r) as [g' [G1 G2]]; [rewrite !in_app_iff; auto|].
      assert (GG : g' = g).
      { rewrite A7 in CX. destruct (exit_att _ _ _ _ _ _ E6) as [_ XC2]. rewrite XC2 in CX. destruct (schedule_att _ _ _ _ _ _ _ E5) as [_ X5], (schedule_att _ _ _ _ _ _ _ E4) as [_ X4], (schedule_att _ _ _ _ _ _ _ E3) as [_ X3].
        rewrite X5, X4, X3 in CX. cbn [m2 set_ctx b_ctx] in CX. rewrite L2 in G1. apply In_aget in G1; auto. clear - CX G1 NX2.
        assert (F : forall y z s, NoDup (akeys y) -> aget s (fold_left (fun l kv => aset (fst kv) (snd kv) l) y z) = match aget s y with Some h => Some (h : sig) | None => aget s z end).
        { induction y as [|[t h] y IH]; intros z s ND; cbn [fold_left]; auto. inversion ND as [|? ? N1 N2]; subst. cbn [fst snd]. rewrite IH by exact N2. cbn [aget].
          destruct (Nat.eqb_spec s t) as [->|NE].
          - destruct (aget t y) eqn:AG; [exfalso; apply N1; apply aget_In in AG; unfold akeys; apply in_map_iff; eexists; split; [|exact AG]; reflexivity|]. apply aget_aset_eq.
          - rewrite aget_aset_neq by auto. reflexivity. }
        rewrite F in CX by auto. rewrite G1 in CX. congruence. }
      subst g'. congruence.
Qed.

(** ** The first half *)
Definition quietly (b b' : bstate) : Prop :=
  core b' /\ entered (b_kops b') = entered (b_kops b) /\ forall w x, x <> d -> zget x (get_sched w b') = zget x (get_sched w b).
Lemma settle_quietly b b' : core b -> settle v i d b = Some b' -> quietly b b'.
Proof.
  intros C E. assert (E0 : quietly b b) by (unfold quietly; auto).
  assert (TRY : forall i0 d0 n b0 b1, quietly b b0 -> get (n_id n) (b_pend b0) = Some n -> attempt_and_settle v i0 d0 n b0 = Some b1 -> quietly b b1).
  { intros i0 d0 n b0 b1 [H1 [H2 H3]] G A. split; [eapply core_attempt; eauto|]. destruct (settle_att _ _ _ _ _ _ A) as [_ K]. split; [|intros w x N; now rewrite K, H3].
    rewrite <- H2. unfold attempt_and_settle in A. destruct (attempt v i0 d0 n _) as [[b2 f]|] eqn:T; [|discriminate]. apply attempt_spec in T. destruct T as [[_ [_ [_ [_ [_ [_ [_ K2]]]]]]] _].
    assert (K3 : entered (b_kops b2) = entered (b_kops b0)) by (rewrite K2; apply entered_kop; eauto).
    injection A as <-. destruct (f || negb (is_persistent_limit n)); auto. rewrite <- K3. apply entered_kop. left. exact Logic.I. }
  unfold settle in E. pose proof (sort_scheds_resorted v d b) as [_ RK _ _ _ _ RO].
  assert (Q0 : quietly b (sort_scheds v d b)).
  { split; [unfold sort_scheds, sort_sched; destruct (v_sort_long v), (v_sort_short v); repeat destruct (zhas _ _); auto using core_sched|]. split; [now rewrite RK|auto]. }
  set (b0 := sort_scheds v d b) in *.
  assert (OP : forall o p q, quietly b p -> do_op v o p = Some q -> quietly b q).
  { intros o p q [H1 [H2 H3]] D. split; [eapply core_op; eauto|]. destruct (op_keeps _ _ _ _ D) as [_ K]. split; [|intros w x N; now rewrite K, H3].
    rewrite <- H2. unfold do_op in D. destruct (step _ _ _); [|discriminate]. injection D as <-. reflexivity. }
  assert (PL : forall w now p q, quietly b p -> place_if v w now i d (Some p) = Some q -> quietly b q).
  { intros w now p q H. unfold place_if, place_orders. destruct now; [|intros [= <-]; auto]. destruct (fold_left _ _ _) as [q0|] eqn:F; [|discriminate].
    intros [= <-]. assert (Q : quietly b q0).
    { eapply (place_fold_pres v (quietly b)); [exact TRY| |exact H|exact F]. intros b1 j n [H1 _]. now apply core_get. }
    destruct Q as [H1 [H2 H3]]. split; [now apply core_sched|]. split; [destruct w; exact H2|]. intros w' x N. destruct (which_dec w' w) as [->|NE].
    - rewrite get_set_same, zget_zdel by auto. auto.
    - rewrite get_set_other by auto. auto. }
  destruct (do_op v _ b0) as [b1|] eqn:E1; [|unfold place_if, bind in E; discriminate]. pose proof (OP _ _ _ Q0 E1) as Q1.
  destruct (place_if v WCover _ i d (Some b1)) as [b2|] eqn:E2; [|unfold place_if, bind in E; discriminate]. pose proof (PL _ _ _ _ Q1 E2) as Q2.
  destruct (place_if v WSell _ i d (Some b2)) as [b3|] eqn:E3; [|unfold place_if, bind in E; discriminate]. pose proof (PL _ _ _ _ Q2 E3) as Q3.
  destruct (place_if v WBuy _ i d (Some b3)) as [b4|] eqn:E4; [|unfold bind in E; discriminate]. pose proof (PL _ _ _ _ Q3 E4) as Q4.
  cbn [bind] in E. destruct (process_persistent v i d b4) as [b5|] eqn:E5; [|discriminate]. cbn [bind] in E.
  exact (OP _ _ _ (process_pres v (quietly b)
    ltac:(intros k p [H1 [H2 H3]] K; split; [apply kstate_set; auto; intros j ->; destruct K|]; split; [rewrite <- H2; apply entered_kop; auto|intros w x N; rewrite <- H3 by auto; destruct w; reflexivity])
    ltac:(intros; eapply TRY; eauto) ltac:(now intros p [H1 _]) i d b4 b5 Q4 E5) E).
Qed.
Lemma bar_onward b b' : core b -> bar v i d b = Some b' -> onward b b'.
Proof.
  intros C. unfold bar. pose proof (act_nodup v d (filter (trades_on v d) (v_syms v)) (b_ends b) [] [] (NoDup_filter _ (eo_syms v EO)) (NoDup_nil _) ltac:(auto)) as A3.
  pose proof (activate_awake v d (filter (trades_on v d) (v_syms v)) (b_ends b) [] [] (NoDup_filter _ (eo_syms v EO))) as A2.
  fold (activate v d b) in A2, A3. destruct (activate v d b) as [[e act] ex]. set (b1 := set_ctx _ _ _).
  destruct (settle v i d b1) as [b2|] eqn:E; [|discriminate]. cbn [bind]. intro E2.
  assert (C1 : core b1) by apply core_ctx, core_ends, C. destruct (settle_quietly b1 b2 C1 E) as [H1 [H2 H3]].
  assert (AS : forall s, In s act -> In s (v_syms v)) by (intros s I; apply A2 in I; destruct I as [[]|[I _]]; apply filter_In in I; tauto).
  destruct (decide_onward act ex b2 b' A3 AS H1 E2) as [O1 O2 O3 O4 O5].
  assert (B1 : b_kops b1 = b_kops b /\ forall w, get_sched w b1 = get_sched w b) by (split; [reflexivity|intros []; reflexivity]). destruct B1 as [B1 B2].
  rewrite B1 in H2. rewrite H2 in O2, O5. constructor; auto.
  - intros w x r N I. apply O3; auto. now rewrite H3, B2.
  - intros D ND T. apply O4; auto. intros w x r Dx I. rewrite H3 in I by (intros ->; tauto). rewrite B2 in I. rewrite H2. exact (T w x r Dx I).
Qed.

(** Whatever is tried after the covers is not one of them. *)
Lemma gone_stays id i0 d0 n p q : core p /\ contains id (b_pend p) = false -> get (n_id n) (b_pend p) = Some n -> attempt_and_settle v i0 d0 n p = Some q ->
  core q /\ contains id (b_pend q) = false.
Proof.
  intros [H1 H2] G A. pose proof (core_attempt v _ _ _ _ _ H1 G A) as C'. split; auto. rewrite (co_pend _ H1), contains_spec in H2. rewrite (co_pend _ C'), contains_spec.
  unfold attempt_and_settle in A. destruct (attempt v i0 d0 n _) as [[b2 f]|] eqn:T; [|discriminate]. apply attempt_spec in T. destruct T as [[_ [_ [_ [_ [_ [_ [_ K2]]]]]]] _].
  assert (L : is_live (b_kops b2) id = false) by (rewrite K2; unfold is_live, set_pend; cbn [b_kops]; rewrite live_snoc; exact H2).
  injection A as <-. destruct (f || negb (is_persistent_limit n)); auto. unfold set_pend. cbn [b_kops]. now rewrite live_remove, L.
Qed.
Lemma place_tries w l : forall b b' id r, core b -> In r l -> side_given w r = true -> r_pid r = Some id -> fold_left (place1 v i d w) l (Some b) = Some b' ->
  (exists a, b_att b' = b_att b ++ a /\ In id (ids_of a)) \/ contains id (b_pend b') = false.
Proof.
  assert (STAY : forall l b b' id, core b -> contains id (b_pend b) = false -> fold_left (place1 v i d w) l (Some b) = Some b' -> contains id (b_pend b') = false).
  { intros m b b' id C N F. refine (proj2 (place_fold_pres v (fun x => core x /\ contains id (b_pend x) = false) _ _ i d w m b b' (conj C N) F)).
    - apply gone_stays.
    - intros p j n [H1 _]. now apply core_get. }
  induction l as [|r0 l IH]; intros b b' id r C I G P E; [destruct I|]. cbn [fold_left] in E.
  destruct I as [->|I].
  - unfold place1 at 2 in E. unfold side_given in G. rewrite G, P in E. cbn [negb] in E. destruct (contains id (b_pend b)) eqn:CT; cbn [negb] in E; [|right; eapply STAY; eauto].
    destruct (get id (b_pend b)) as [n|] eqn:GT.
    + pose proof (core_get b id n C GT) as ID. destruct (attempt_and_settle v i d n b) as [b1|] eqn:S; [|now rewrite place1_none in E].
      assert (C1 : core b1) by (eapply core_attempt; [exact C| |exact S]; now rewrite ID).
      destruct (settle_att _ _ _ _ _ _ S) as [[f A] _]. destruct (RankRun.place_fold v i d w l _ _ C1 E) as [[a [A1 _]] _]. left.
      exists ((n_id n, d, f) :: a). rewrite A1, A, <- app_assoc. split; auto. left. exact ID.
    + exfalso. unfold contains, get in *. apply ahas_true in CT. apply aget_None in GT. contradiction.
  - assert (MV : exists b1 a, place1 v i d w (Some b) r0 = Some b1 /\ core b1 /\ b_att b1 = b_att b ++ a).
    { destruct (place1 v i d w (Some b) r0) as [b1|] eqn:S; [|now rewrite place1_none in E]. exists b1.
      destruct (RankRun.place_fold v i d w [r0] b b1 C) as [[a [A1 _]] [C1 _]]; [exact S|]. exists a. auto. }
    destruct MV as [b1 [a [S [C1 A]]]]. rewrite S in E. destruct (IH _ _ id r C1 I G P E) as [[a' [A1 A2]]|]; auto. left.
    exists (a ++ a'). rewrite A1, A, app_assoc. split; auto. unfold ids_of in *. rewrite map_app. apply in_app_iff. auto.
Qed.
End Bar.
