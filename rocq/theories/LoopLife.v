(** The life of every order of a run: when it is sent, attempted and dropped. *)
From Verif Require Export LoopBars.

(** ** Schedules *)
Lemma zget_zset d l s x : zget x (zset d l s) = if Z.eqb x d then l else zget x s.
Proof.
  induction s as [|[k y] s IH]; cbn [zset zget]; [destruct (Z.eqb x d); reflexivity|].
  destruct (Z.eqb_spec d k) as [->|N]; cbn [zget]; [destruct (Z.eqb x k); reflexivity|].
  rewrite IH. destruct (Z.eqb_spec x k) as [->|]; auto. destruct (Z.eqb_spec k d) as [->|]; auto. congruence.
Qed.
Lemma zget_zdel d s x : x <> d -> zget x (zdel d s) = zget x s.
Proof.
  intro N. induction s as [|[k y] s IH]; auto. cbn [zdel]. destruct (Z.eqb_spec d k) as [->|M]; cbn [zget].
  - destruct (Z.eqb_spec x k); [congruence|reflexivity].
  - now rewrite IH.
Qed.
Lemma zhas_zget d s : zhas d s = false -> zget d s = [].
Proof.
  induction s as [|[k y] s IH]; auto. cbn [zhas zget]. intro H. apply orb_false_iff in H. destruct H as [H1 H2]. rewrite H1. auto.
Qed.
Definition at_date (x : Z) (b : bstate) : list result := zget x (b_cover b) ++ zget x (b_sell b) ++ zget x (b_buy b).

Lemma entered_kop ops k : loop_kop k \/ (exists i, k = KMark i) -> entered (ops ++ [k]) = entered ops.
Proof. rewrite entered_snoc. intros [H|[i ->]]; [destruct k; try destruct H|]; reflexivity. Qed.
(** Nothing that the life of orders depends on changes. *)
Definition like (b b' : bstate) : Prop :=
  b_pend b' = b_pend b /\ b_kops b' = b_kops b /\ b_att b' = b_att b /\ b_ends b' = b_ends b /\ (forall w, get_sched w b' = get_sched w b).
Lemma like_op v o b b' : do_op v o b = Some b' -> like b b'.
Proof. unfold do_op. destruct (step (v_cfg v) o (b_port b)); [|discriminate]. intros [= <-]. unfold like. repeat split. Qed.
(** Schedules, bars and orders entered are the same. *)
Definition quiet (b b' : bstate) : Prop :=
  (forall w, get_sched w b' = get_sched w b) /\ b_ends b' = b_ends b /\ entered (b_kops b') = entered (b_kops b).
Lemma quiet_refl b : quiet b b.
Proof. unfold quiet. auto. Qed.
Lemma quiet_trans b b1 b2 : quiet b b1 -> quiet b1 b2 -> quiet b b2.
Proof. unfold quiet. intros [A [B C]] [A' [B' C']]. split; [intro w; rewrite A'; apply A|split; congruence]. Qed.
Lemma quiet_at b b' x : quiet b b' -> at_date x b' = at_date x b.
Proof. intros [A _]. pose proof (A WCover) as A1. pose proof (A WBuy) as A2. pose proof (A WSell) as A3. cbn in A1, A2, A3. unfold at_date. congruence. Qed.
Lemma quiet_kop k b : loop_kop k -> quiet b (set_pend k b).
Proof. intro H. split; [intros []; reflexivity|split; auto]. unfold set_pend. cbn [b_kops]. apply entered_kop. auto. Qed.
Lemma quiet_settle v i d n b b' : attempt_and_settle v i d n b = Some b' -> quiet b b'.
Proof.
  unfold attempt_and_settle. destruct (attempt v i d n (set_pend (KMark (n_id n)) b)) as [[b1 f]|] eqn:A; [|discriminate].
  destruct (attempt_spec _ _ _ _ _ _ _ A) as [[_ [F2 [F3 [F4 [F5 [_ [_ F8]]]]]]] _].
  assert (Q : quiet b b1).
  { split; [intros []; cbn [get_sched]; rewrite ?F2, ?F3, ?F4; reflexivity|]. split; [exact F5|]. rewrite F8.
    unfold set_pend. cbn [b_kops]. apply entered_kop. eauto. }
  destruct (f || negb (is_persistent_limit n)); intros [= <-]; auto. eapply quiet_trans; eauto. apply quiet_kop. exact I.
Qed.

(** ** Where an order comes from *)
Definition born1 (v : env) (n : pending) : Prop :=
  In (n_sym n) (v_syms v) /\ In (n_created n) (v_sdates v (n_sym n)) /\
  bars_later (calendar v (n_sym n)) (n_created n) (delay v (n_type n)) (n_exec n).

Section Life.
Variable v : env.
Hypothesis EO : env_ok v.
Variable H : sym -> list Z.
Hypothesis HLT : forall s x y, In x (H s) -> In y (v_dates v) -> (x < y)%Z.
Variable K : pending -> Prop.
Variable B : pending -> Prop.
Hypothesis B_born : forall n, born1 v n -> B n.

Record sched_ok (dates : list Z) (b : bstate) : Prop := mkSched {
  sk_nodup : forall x, In x dates -> NoDup (map r_pid (at_date x b));
  sk_known : forall x r, In x dates -> In r (at_date x b) ->
    exists n, In n (entered (b_kops b)) /\ r_pid r = Some (n_id n) /\ n_exec n = x /\ bar_at v x (n_sym n) = true
}.
Lemma sched_quiet l b b' : quiet b b' -> sched_ok l b -> sched_ok l b'.
Proof.
  intros Q [S1 S2]. constructor.
  - intros x I. rewrite (quiet_at _ _ _ Q). auto.
  - intros x r I J. rewrite (quiet_at _ _ _ Q) in J. destruct Q as [_ [_ ->]]. auto.
Qed.
Lemma sched_incl l l' b : incl l' l -> sched_ok l b -> sched_ok l' b.
Proof. intros I [S1 S2]. constructor; auto. Qed.

Record winv (pre rest : list Z) (b : bstate) : Prop := mkWinv {
  wi_core : core b;
  wi_ends : ends_ok v pre b;
  wi_sched : sched_ok rest b;
  wi_born : Forall B (entered (b_kops b));
  wi_ok : forall n, In n (entered (b_kops b)) -> order_ok K (from n (H (n_sym n) ++ seen v pre (n_sym n))) b n
}.

Section Bar.
Variable pre : list Z. Variable d : Z. Variable rest : list Z.
Hypothesis DATES : v_dates v = pre ++ d :: rest.
Variable i : nat.
Definition before (s : sym) : list Z := H s ++ seen v pre s.
Definition after (s : sym) : list Z := H s ++ seen v (pre ++ [d]) s.
Lemma d_date : In d (v_dates v).
Proof. rewrite DATES. apply in_app_iff. cbn. auto. Qed.
Lemma before_lt s x : In x (before s) -> (x < d)%Z.
Proof.
  unfold before. intro I. apply in_app_iff in I. destruct I as [I|I]; [exact (HLT s x d I d_date)|exact (seen_lt v EO pre d rest DATES s x I)].
Qed.
Lemma after_le s x : In x (after s) -> (x <= d)%Z.
Proof.
  unfold after. intro I. apply in_app_iff in I. destruct I as [I|I]; [pose proof (HLT s x d I d_date); lia|exact (seen_le v EO pre d rest DATES s x I)].
Qed.
Lemma after_before s : after s = before s ++ (if bar_at v d s then [d] else []).
Proof. unfold after, before. rewrite (seen_snoc v EO pre d rest DATES s). apply app_assoc. Qed.
Lemma from_before n : (d <= n_exec n)%Z -> from n (before (n_sym n)) = [].
Proof. intro L. apply filter_nil. intros x I. apply before_lt in I. apply Z.leb_gt. lia. Qed.
Lemma from_after_late n : (d < n_exec n)%Z -> from n (after (n_sym n)) = [].
Proof. intro L. apply filter_nil. intros x I. apply after_le in I. apply Z.leb_gt. lia. Qed.
Lemma from_after n : from n (after (n_sym n)) =
  from n (before (n_sym n)) ++ (if bar_at v d (n_sym n) && Z.leb (n_exec n) d then [d] else []).
Proof.
  rewrite after_before. unfold from. rewrite filter_app. f_equal. destruct (bar_at v d (n_sym n)); auto.
Qed.

(** *** Placing the orders of the date *)
Definition todo_order (b : bstate) (n : pending) : Prop := order_ok K (from n (before (n_sym n))) b n.
Definition done_order (b : bstate) (n : pending) : Prop := order_ok K (from n (after (n_sym n))) b n.
Definition stage (b : bstate) (n : pending) : Prop :=
  todo_order b n \/ (n_exec n = d /\ bar_at v d (n_sym n) = true /\ done_order b n).
Record common (b : bstate) : Prop := mkCommon {
  cm_core : core b; cm_ends : ends_ok v (pre ++ [d]) b; cm_sched : sched_ok rest b; cm_born : Forall B (entered (b_kops b))
}.
Lemma common_quiet b b' : quiet b b' -> core b' -> common b -> common b'.
Proof.
  intros Q C [C1 C2 C3 C4]. constructor; auto.
  - intro s. destruct Q as [_ [E _]]. unfold end_of. rewrite E. apply C2.
  - eapply sched_quiet; eauto.
  - destruct Q as [_ [_ ->]]. auto.
Qed.
Lemma like_quiet b b' : like b b' -> quiet b b'.
Proof. intros [_ [KX [_ [E S]]]]. split; auto. split; auto. now rewrite KX. Qed.
Lemma like_core b b' : like b b' -> core b -> core b'.
Proof. intros [P [KX [A _]]] [C1 C2 C3]. constructor; rewrite ?P, ?KX, ?A; auto. Qed.
Lemma like_same b b' j : like b b' -> same_order b b' j.
Proof. intros [_ [KX [A _]]]. unfold same_order, attempts. rewrite KX, A. auto. Qed.
Lemma like_common b b' : like b b' -> common b -> common b'.
Proof. intros L C. eapply common_quiet; eauto; [now apply like_quiet|eapply like_core; eauto; apply C]. Qed.
Lemma stage_same b b' n : same_order b b' (n_id n) -> stage b n -> stage b' n.
Proof. intros S [T|[E [D T]]]; [left|right; split; [auto|split; auto]]; eapply order_ok_same; eauto. Qed.

Record placing (todo : list (option nat)) (b : bstate) : Prop := mkPlacing {
  pl_common : common b;
  pl_stage : forall n, In n (entered (b_kops b)) -> stage b n;
  pl_nodup : NoDup todo;
  pl_todo : forall id, In (Some id) todo -> exists n, In n (entered (b_kops b)) /\ n_id n = id /\ n_exec n = d /\ bar_at v d (n_sym n) = true /\ todo_order b n
}.
Lemma placing_tail x todo b : placing (x :: todo) b -> placing todo b.
Proof. intros [P1 P2 P3 P4]. inversion P3; subst. constructor; auto. intros id I. apply P4. now right. Qed.
Lemma fresh_ready b n : todo_order b n -> (d <= n_exec n)%Z -> is_live (b_kops b) (n_id n) = true ->
  attempts b (n_id n) = [] /\ ready b n.
Proof.
  intros [O1 O2 O3 O4 O5] L LV. rewrite from_before in O1 by exact L. destruct O1 as [r [E _]].
  assert (A : attempts b (n_id n) = []) by (destruct (attempts b (n_id n)); [reflexivity|discriminate]).
  split; auto. left. destruct (O4 LV) as [X|[_ [X _]]]; auto. rewrite A in X. discriminate.
Qed.
Lemma place1_step w r todo b b' : placing (r_pid r :: todo) b -> place1 v i d w (Some b) r = Some b' -> placing todo b' /\ quiet b b'.
Proof.
  intros P E. cbn [place1] in E.
  destruct (negb (given match w with WSell => r_sell r | _ => r_buy r end)); [injection E as <-; split; [eapply placing_tail; eauto|apply quiet_refl]|].
  destruct (r_pid r) as [id|] eqn:RP; [|injection E as <-; split; [eapply placing_tail; eauto|apply quiet_refl]].
  destruct (negb (contains id (b_pend b))); [injection E as <-; split; [eapply placing_tail; eauto|apply quiet_refl]|].
  destruct (get id (b_pend b)) as [n|] eqn:G; [|injection E as <-; split; [eapply placing_tail; eauto|apply quiet_refl]].
  destruct P as [P1 P2 P3 P4]. destruct (P4 id (or_introl eq_refl)) as [m [M1 [M2 [M3 [M4 M5]]]]].
  destruct (get_In _ _ _ (cm_core _ P1) G) as [LV NI].
  assert (m = n) by (apply (entered_unique (b_kops b)); [exact M1|now apply live_entered|congruence]). subst m. clear M2.
  pose proof (is_live_In _ _ LV) as IL.
  destruct (fresh_ready b n M5 ltac:(lia) IL) as [A R].
  assert (NF : forall x, In x (attempts b (n_id n)) -> snd x = false) by (rewrite A; intros x []).
  destruct (settle_one v K i d n b b' (cm_core _ P1) IL R NF E) as [C' [OK [SAME _]]]. rewrite A in OK. cbn [map app] in OK.
  pose proof (quiet_settle _ _ _ _ _ _ E) as Q. split; auto. inversion P3 as [|? ? N1 N2]; subst.
  assert (EN : entered (b_kops b') = entered (b_kops b)) by apply Q.
  constructor; auto.
  - eapply common_quiet; eauto.
  - intros x I. rewrite EN in I. destruct (Nat.eq_dec (n_id x) (n_id n)) as [X|X]; [|eapply stage_same; eauto].
    rewrite (entered_unique _ _ _ I M1 X). right. split; auto. split; auto. unfold done_order.
    rewrite from_after, from_before by lia. rewrite M4. replace (Z.leb (n_exec n) d) with true by (symmetry; apply Z.leb_le; lia). exact OK.
  - intros id I. destruct (P4 id (or_intror I)) as [m [K1 [K2 [K3 [K4 K5]]]]]. exists m. rewrite EN. split; auto. split; auto. split; auto. split; auto.
    eapply order_ok_same; eauto. apply SAME. intro X. apply N1. rewrite <- X, K2. exact I.
Qed.
Lemma place_fold w l : forall todo b b', placing (map r_pid l ++ todo) b -> fold_left (place1 v i d w) l (Some b) = Some b' -> placing todo b' /\ quiet b b'.
Proof.
  induction l as [|r l IH]; intros todo b b' P; cbn [fold_left]; [intros [= <-]; split; auto; apply quiet_refl|].
  destruct (place1 v i d w (Some b) r) as [b1|] eqn:E; [|rewrite place1_none; discriminate]. intro F.
  destruct (place1_step w r _ b b1 P E) as [P1 Q1]. destruct (IH _ _ _ P1 F) as [P2 Q2]. split; auto. eapply quiet_trans; eauto.
Qed.
Lemma rest_not_d x : In x rest -> x <> d.
Proof. intros I X. subst x. pose proof (dates_facts v EO pre d rest DATES) as [_ [_ [R _]]]. specialize (R d I). lia. Qed.
Lemma at_other w s b x : zget x s = zget x (get_sched w b) -> at_date x (set_sched w s b) = at_date x b.
Proof. intro E. unfold at_date. destruct w; cbn [set_sched get_sched b_cover b_buy b_sell] in *; rewrite E; reflexivity. Qed.
Lemma set_sched_same w s b j : same_order b (set_sched w s b) j.
Proof. unfold same_order. auto. Qed.
Lemma common_sched w s b : (forall x, In x rest -> zget x s = zget x (get_sched w b)) -> common b -> common (set_sched w s b).
Proof.
  intros E [C1 C2 [C3 C3'] C4]. constructor; auto; [now apply core_sched|]. constructor.
  - intros x I. rewrite at_other by auto. auto.
  - intros x r I J. rewrite at_other in J by auto. exact (C3' x r I J).
Qed.
Lemma placing_sched w s todo b : (forall x, In x rest -> zget x s = zget x (get_sched w b)) -> placing todo b -> placing todo (set_sched w s b).
Proof.
  intros E [P1 P2 P3 P4]. constructor; auto.
  - now apply common_sched.
  - intros n I. eapply stage_same; [apply set_sched_same|exact (P2 n I)].
  - intros id I. destruct (P4 id I) as [n [K1 [K2 [K3 [K4 K5]]]]]. exists n. split; auto. split; auto. split; auto. split; auto.
    eapply order_ok_same; [apply set_sched_same|exact K5].
Qed.
Lemma place_step w now todo b b' : now = zhas d (get_sched w b) ->
  placing (map r_pid (zget d (get_sched w b)) ++ todo) b -> place_if v w now i d (Some b) = Some b' ->
  placing todo b' /\ (forall w', w' <> w -> get_sched w' b' = get_sched w' b).
Proof.
  intros -> P. unfold place_if. destruct (zhas d (get_sched w b)) eqn:Z.
  - unfold place_orders. destruct (fold_left (place1 v i d w) (zget d (get_sched w b)) (Some b)) as [b1|] eqn:F; [|discriminate].
    intros [= <-]. destruct (place_fold w _ _ _ _ P F) as [P1 [Q1 _]]. split.
    + apply placing_sched; auto. intros x I. apply zget_zdel. now apply rest_not_d.
    + intros w' N. rewrite <- Q1. destruct w, w'; try reflexivity; congruence.
  - intros [= <-]. rewrite (zhas_zget _ _ Z) in P. split; auto.
Qed.

(** *** The persistent orders *)
Lemma todo_settled b n b' L : common b -> In n (live (b_kops b)) -> ready b n ->
  (forall x, In x (attempts b (n_id n)) -> snd x = false) -> map fst (attempts b (n_id n)) ++ [d] = L ->
  attempt_and_settle v i d n b = Some b' ->
  common b' /\ order_ok K L b' n /\ (forall j, j <> n_id n -> same_order b b' j) /\ quiet b b'.
Proof.
  intros C LV R NF EL E. destruct (settle_one v K i d n b b' (cm_core _ C) (is_live_In _ _ LV) R NF E) as [C' [OK [SAME _]]].
  pose proof (quiet_settle _ _ _ _ _ _ E) as Q. rewrite EL in OK. split; [eapply common_quiet; eauto|]. auto.
Qed.
Lemma no_fill L b n : order_ok K L b n -> is_live (b_kops b) (n_id n) = true -> forall x, In x (attempts b (n_id n)) -> snd x = false.
Proof.
  intros [_ _ O3 _ _] LV x I. apply in_split in I. destruct I as [l1 [l2 E]]. destruct (snd x) eqn:S; auto.
  destruct (O3 l1 x l2 E S) as [_ X]. congruence.
Qed.
Lemma live_bars L b n : order_ok K L b n -> is_live (b_kops b) (n_id n) = true -> map fst (attempts b (n_id n)) = L.
Proof. intros [[r [E R]] _ _ _ _] LV. rewrite (R LV), app_nil_r in E. auto. Qed.
Lemma not_marked b n : core b -> In n (live (b_kops b)) -> was_attempted (n_id n) (b_pend b) = marked (b_kops b) (n_id n).
Proof. intros [C1 C2 _] LV. rewrite C1, attempted_spec by exact C2. now rewrite (is_live_In _ _ LV). Qed.
(** One order of the snapshot. *)
Lemma persist1_step n b b' : common b -> In n (live (b_kops b)) -> stage b n -> persist1 v i d (Some b) n = Some b' ->
  common b' /\ done_order b' n /\ (forall j, j <> n_id n -> same_order b b' j) /\ quiet b b'.
Proof.
  intros C LV ST E. pose proof (is_live_In _ _ LV) as IL. cbn [persist1] in E.
  rewrite (not_marked b n (cm_core _ C) LV) in E.
  assert (STOP : Some b = Some b' -> done_order b n -> common b' /\ done_order b' n /\ (forall j, j <> n_id n -> same_order b b' j) /\ quiet b b').
  { intros [= <-] D. split; auto. split; auto. split; [intros; apply same_refl|apply quiet_refl]. }
  destruct (Z.ltb_spec d (n_exec n)) as [L1|L1].
  { apply STOP; auto. destruct ST as [T|[X _]]; [|lia]. unfold done_order. rewrite from_after_late by exact L1. unfold todo_order in T. now rewrite from_before in T by lia. }
  destruct (Z.eqb_spec (n_exec n) d) as [ED|ED].
  - (* the order's own date *)
    destruct (marked (b_kops b) (n_id n)) eqn:M; cbn [negb andb] in E.
    + apply STOP; auto. destruct ST as [T|[_ [_ T]]]; auto. exfalso.
      destruct (fresh_ready b n T ltac:(lia) IL) as [A _]. destruct (or_live _ _ _ _ T IL) as [[X _]|[_ [X _]]]; [congruence|rewrite A in X; discriminate].
    + assert (T : bar_at v d (n_sym n) = true -> todo_order b n).
      { intro BA. destruct ST as [T|[_ [_ T]]]; auto. exfalso. destruct (or_live _ _ _ _ T IL) as [[_ [_ X]]|[X _]]; [|congruence].
        pose proof (live_bars _ _ _ T IL) as Y. rewrite X in Y. rewrite from_after, BA in Y.
        replace (Z.leb (n_exec n) d) with true in Y by (symmetry; apply Z.leb_le; lia). symmetry in Y. apply app_eq_nil in Y. destruct Y; discriminate. }
      rewrite (has_bar_iff v EO pre d rest DATES b (n_sym n) (cm_ends _ C)) in E.
      destruct (bar_at v d (n_sym n)) eqn:BA; cbn [negb] in E.
      * destruct (fresh_ready b n (T eq_refl) ltac:(lia) IL) as [A R].
        destruct (todo_settled b n b' (from n (after (n_sym n))) C LV R) as [X1 [X2 [X3 X4]]]; auto.
        -- rewrite A. intros x [].
        -- rewrite A, from_after, from_before, BA by lia. replace (Z.leb (n_exec n) d) with true by (symmetry; apply Z.leb_le; lia). reflexivity.
      * apply STOP; auto. destruct ST as [T'|[_ [X _]]]; [|congruence]. unfold done_order. rewrite from_after, BA. cbn [andb]. rewrite app_nil_r. exact T'.
  - (* a later date *)
    cbn [andb] in E. assert (T : todo_order b n) by (destruct ST as [T|[X _]]; [exact T|congruence]). clear ST.
    rewrite (has_bar_iff v EO pre d rest DATES b (n_sym n) (cm_ends _ C)) in E.
    destruct (bar_at v d (n_sym n)) eqn:BA; cbn [negb] in E.
    2:{ apply STOP; auto. unfold done_order. rewrite from_after, BA. cbn [andb]. rewrite app_nil_r. exact T. }
    assert (FA : from n (after (n_sym n)) = from n (before (n_sym n)) ++ [d]).
    { rewrite from_after, BA. replace (Z.leb (n_exec n) d) with true by (symmetry; apply Z.leb_le; lia). reflexivity. }
    pose proof (live_bars _ _ _ T IL) as LB. pose proof (no_fill _ _ _ T IL) as NF.
    destruct (marked (b_kops b) (n_id n)) eqn:M; cbn [negb] in E.
    + destruct (or_live _ _ _ _ T IL) as [[X _]|[_ [LEN PERS]]]; [congruence|].
      destruct (n_timeout n) as [t|] eqn:TO; [|destruct PERS; congruence].
      set (b0 := set_pend (KAdvance (n_id n)) b) in *.
      assert (C0 : common b0) by (eapply common_quiet; [apply quiet_kop; exact I| |exact C]; apply kstate_set; [apply C|discriminate]).
      assert (SAME0 : forall j, j <> n_id n -> same_order b b0 j) by (intros; now apply same_advance).
      assert (LV0 : In n (live (b_kops b0))) by (unfold b0, set_pend; cbn [b_kops]; rewrite live_snoc; exact LV).
      assert (R0 : retries (b_kops b0) (n_id n) = S (retries (b_kops b) (n_id n))).
      { unfold b0, set_pend. cbn [b_kops]. rewrite retries_snoc, Nat.eqb_refl, IL. cbn. lia. }
      assert (RB : retry_bars (n_id n) (b_pend b0) = S (retries (b_kops b) (n_id n))).
      { rewrite (co_pend _ (cm_core _ C0)), retry_live, R0; auto. now apply is_live_In. }
      rewrite RB in E.
      assert (Q0 : quiet b b0) by (apply quiet_kop; exact I).
      destruct (Z.leb 0 t && Z.ltb t (Z.of_nat (S (retries (b_kops b) (n_id n))))) eqn:EX.
      * injection E as <-.
        assert (D : is_live (b_kops (set_pend (KRemove (n_id n)) b0)) (n_id n) = false).
        { unfold set_pend at 1. cbn [b_kops]. rewrite live_remove, Nat.eqb_refl. apply andb_false_r. }
        assert (Q1 : quiet b0 (set_pend (KRemove (n_id n)) b0)) by (apply quiet_kop; exact I).
        split; [eapply common_quiet; [exact Q1| |exact C0]; apply kstate_set; [apply C0|discriminate]|].
        split; [|split; [|eapply quiet_trans; eauto]].
        -- unfold done_order. rewrite FA. apply (order_ok_dead K _ [d] b); auto. right. right. right. exists t.
           apply andb_true_iff in EX. destruct EX as [EX1 EX2]. apply Z.leb_le in EX1. apply Z.ltb_lt in EX2.
           pose proof (or_cap _ _ _ _ T) as CAP. unfold allowed_attempts in CAP. rewrite TO in CAP. destruct PERS as [PL PT].
           destruct (n_limit n) eqn:NL; [|congruence]. specialize (CAP EX1).
           split; [split; congruence|]. split; auto. split; auto. split; [lia|]. rewrite app_length, <- LB, map_length. cbn. lia.
        -- intros j N. eapply same_trans; [apply SAME0; auto|]. now apply same_remove.
      * destruct (todo_settled b0 n b' (from n (after (n_sym n))) C0 LV0) as [X1 [X2 [X3 X4]]]; auto.
        -- right. rewrite R0. split; [symmetry; exact LEN|]. split; auto. rewrite TO. intro T0. apply andb_false_iff in EX.
           destruct EX as [EX|EX]; [apply Z.leb_gt in EX; lia|apply Z.ltb_ge in EX; lia].
        -- change (attempts b0 (n_id n)) with (attempts b (n_id n)). rewrite LB. now rewrite FA.
        -- split; auto. split; auto. split; [|eapply quiet_trans; eauto]. intros j N. eapply same_trans; [apply SAME0|apply X3]; auto.
    + assert (R : ready b n) by (destruct (or_live _ _ _ _ T IL) as [X|[X _]]; [left; exact X|congruence]).
      destruct (todo_settled b n b' (from n (after (n_sym n))) C LV R NF) as [X1 [X2 [X3 X4]]]; auto. rewrite LB. now rewrite FA.
Qed.
Record persisting (l : list pending) (b : bstate) : Prop := mkPersisting {
  pp_common : common b;
  pp_live : forall n, In n l -> In n (live (b_kops b)) /\ stage b n;
  pp_done : forall n, In n (entered (b_kops b)) -> In n l \/ done_order b n
}.
Lemma persist_fold l : forall b b', NoDup (map n_id l) -> persisting l b -> fold_left (persist1 v i d) l (Some b) = Some b' -> persisting [] b' /\ quiet b b'.
Proof.
  induction l as [|n l IH]; intros b b' ND P; cbn [fold_left]; [intros [= <-]; split; auto; apply quiet_refl|].
  destruct (persist1 v i d (Some b) n) as [b1|] eqn:E; [|rewrite persist_none; discriminate]. intro F.
  inversion ND as [|? ? N1 N2]; subst. destruct P as [P1 P2 P3]. destruct (P2 n (or_introl eq_refl)) as [LV ST].
  destruct (persist1_step n b b1 P1 LV ST E) as [X1 [X2 [X3 X4]]].
  assert (NE : forall m, In m l -> n_id m <> n_id n) by (intros m I X; apply N1; rewrite <- X; now apply in_map).
  assert (P' : persisting l b1).
  { constructor; auto.
    - intros m I. destruct (P2 m (or_intror I)) as [LM SM]. split; [|eapply stage_same; eauto].
      assert (EN : entered (b_kops b1) = entered (b_kops b)) by apply X4.
      apply is_live_entered; [rewrite EN; now apply live_entered|]. destruct (X3 (n_id m) (NE m I)) as [_ [-> _]]. now apply is_live_In.
    - intros m I. assert (EN : entered (b_kops b1) = entered (b_kops b)) by apply X4. rewrite EN in I.
      destruct (Nat.eq_dec (n_id m) (n_id n)) as [X|X].
      + rewrite (entered_unique _ m n I (live_entered _ _ LV) X). auto.
      + destruct (P3 m I) as [[->|J]|J]; [congruence|auto|right; eapply order_ok_same; eauto]. }
  destruct (IH b1 b' N2 P' F) as [P2' Q2]. split; auto. eapply quiet_trans; eauto.
Qed.
Record settled (b : bstate) : Prop := mkSettled {
  se_common : common b; se_done : forall n, In n (entered (b_kops b)) -> done_order b n
}.
Lemma process_step b b' : placing [] b -> process_persistent v i d b = Some b' -> settled b'.
Proof.
  intros [P1 P2 P3 P4]. unfold process_persistent.
  assert (DEAD : forall n, In n (entered (b_kops b)) -> is_live (b_kops b) (n_id n) = false -> done_order b n).
  { intros n I D. destruct (P2 n I) as [T|[_ [_ T]]]; auto. unfold done_order. rewrite from_after. now apply order_ok_more. }
  destruct (has_orders (b_pend b)) eqn:HO.
  - destruct (snapshot_facts b (cm_core _ P1)) as [ND IN]. intro F.
    destruct (persist_fold _ b b' ND) with (2 := F) as [[X1 _ X3] _].
    + constructor; auto.
      * intros n I. apply IN in I. split; auto. apply P2. now apply live_entered.
      * intros n I. destruct (is_live (b_kops b) (n_id n)) eqn:L; [left; apply IN; now apply is_live_entered|right; auto].
    + constructor; auto. intros n I. destruct (X3 n I) as [[]|J]. exact J.
  - intros [= <-]. constructor; auto. intros n I. apply DEAD; auto. rewrite (co_pend _ (cm_core _ P1)), has_orders_spec in HO.
    unfold is_live. destruct (live (b_kops b)); [reflexivity|discriminate].
Qed.
Lemma like_settled b b' : like b b' -> settled b -> settled b'.
Proof.
  intros L [S1 S2]. constructor; [eapply like_common; eauto|]. intros n I. destruct L as [LP [LK LR]].
  eapply order_ok_same; [eapply like_same; unfold like; eauto|]. apply S2. now rewrite <- LK.
Qed.

(** *** The bar up to the closing mark *)
Lemma sort_at w f b x : zget x (get_sched w (sort_sched w f d b)) = if Z.eqb x d then sort_desc f (zget d (get_sched w b)) else zget x (get_sched w b).
Proof.
  unfold sort_sched. destruct (zhas d (get_sched w b)) eqn:Z.
  - assert (E : forall s, get_sched w (set_sched w s b) = s) by (intro; destruct w; reflexivity). rewrite E. apply zget_zset.
  - destruct (Z.eqb_spec x d) as [->|]; auto. rewrite (zhas_zget _ _ Z). reflexivity.
Qed.
Lemma sort_get w w' f b : w' <> w -> get_sched w' (sort_sched w f d b) = get_sched w' b.
Proof. intro N. unfold sort_sched. destruct (zhas d (get_sched w b)); auto. destruct w, w'; try reflexivity; congruence. Qed.
Lemma zhas_zset x l s y : zhas y (zset x l s) = Z.eqb y x || zhas y s.
Proof.
  induction s as [|[k q] s IH]; cbn [zset zhas]; [reflexivity|]. destruct (Z.eqb_spec x k) as [->|N]; cbn [zhas].
  - destruct (Z.eqb y k); reflexivity.
  - rewrite IH. destruct (Z.eqb y k), (Z.eqb y x); reflexivity.
Qed.
Lemma sort_has w f b : zhas d (get_sched w (sort_sched w f d b)) = zhas d (get_sched w b).
Proof.
  unfold sort_sched. destruct (zhas d (get_sched w b)) eqn:Z; auto.
  assert (E : forall s, get_sched w (set_sched w s b) = s) by (intro; destruct w; reflexivity). rewrite E, zhas_zset, Z.eqb_refl. reflexivity.
Qed.
(** Only the schedules differ, and only at the date, by a permutation. *)
Record resorted (b b' : bstate) : Prop := mkResorted {
  rs_pend : b_pend b' = b_pend b; rs_kops : b_kops b' = b_kops b; rs_att : b_att b' = b_att b; rs_ends : b_ends b' = b_ends b;
  rs_has : forall w, zhas d (get_sched w b') = zhas d (get_sched w b);
  rs_perm : forall w, Permutation (zget d (get_sched w b)) (zget d (get_sched w b'));
  rs_other : forall w x, x <> d -> zget x (get_sched w b') = zget x (get_sched w b)
}.
Lemma resorted_refl b : resorted b b.
Proof. constructor; auto. Qed.
Lemma resorted_trans b b1 b2 : resorted b b1 -> resorted b1 b2 -> resorted b b2.
Proof.
  intros [A1 A2 A3 A4 A5 A6 A7] [B1 B2 B3 B4 B5 B6 B7]. constructor; try congruence.
  - intro w. etransitivity; eauto.
  - intros w x N. rewrite B7 by exact N. auto.
Qed.
Lemma sort_sched_resorted w f b : resorted b (sort_sched w f d b).
Proof.
  assert (KK : b_pend (sort_sched w f d b) = b_pend b /\ b_kops (sort_sched w f d b) = b_kops b /\ b_att (sort_sched w f d b) = b_att b /\ b_ends (sort_sched w f d b) = b_ends b).
  { unfold sort_sched. destruct (zhas d (get_sched w b)); auto. }
  destruct KK as [K1 [K2 [K3 K4]]].
  assert (D : forall w', w' = w \/ w' <> w) by (intro w'; destruct w, w'; (left; reflexivity) || (right; discriminate)).
  constructor; auto; intro w'; (destruct (D w') as [->|N]; [|rewrite (sort_get w w' f b N); auto]).
  - apply sort_has.
  - rewrite sort_at, Z.eqb_refl. symmetry. apply isort_perm.
  - intros x N. rewrite sort_at. destruct (Z.eqb_spec x d); [congruence|reflexivity].
Qed.
Lemma sort_scheds_resorted b : resorted b (sort_scheds v d b).
Proof.
  unfold sort_scheds. destruct (v_sort_long v), (v_sort_short v); auto using resorted_refl, sort_sched_resorted.
  - eapply resorted_trans; [|apply sort_sched_resorted]. eapply resorted_trans; apply sort_sched_resorted.
  - eapply resorted_trans; apply sort_sched_resorted.
Qed.
Lemma settle_step b b' : ends_ok v (pre ++ [d]) b -> core b -> sched_ok (d :: rest) b -> Forall B (entered (b_kops b)) ->
  (forall n, In n (entered (b_kops b)) -> todo_order b n) -> settle v i d b = Some b' -> settled b'.
Proof.
  intros HE HC HS HB HT. unfold settle. pose proof (sort_scheds_resorted b) as RS. set (b0 := sort_scheds v d b) in *.
  destruct (do_op v _ b0) as [b1|] eqn:E1; [|discriminate]. pose proof (like_op _ _ _ _ E1) as L1.
  assert (P1 : placing (map r_pid (zget d (get_sched WCover b1)) ++ map r_pid (zget d (get_sched WSell b1)) ++ map r_pid (zget d (get_sched WBuy b1))) b1).
  { assert (CM0 : common b0).
    { destruct RS as [A1 A2 A3 A4 A5 A6 A7]. constructor.
      - destruct HC as [C1 C2 C3]. constructor; rewrite ?A1, ?A2, ?A3; auto.
      - intro s. unfold end_of. rewrite A4. apply HE.
      - destruct HS as [S1 S2]. constructor.
        + intros x I. assert (AD : at_date x b0 = at_date x b).
          { pose proof (A7 WCover x (rest_not_d x I)) as Q1. pose proof (A7 WBuy x (rest_not_d x I)) as Q2. pose proof (A7 WSell x (rest_not_d x I)) as Q3.
            unfold at_date. cbn [get_sched] in *. congruence. }
          rewrite AD. apply S1. now right.
        + intros x r I J. assert (AD : at_date x b0 = at_date x b).
          { pose proof (A7 WCover x (rest_not_d x I)) as Q1. pose proof (A7 WBuy x (rest_not_d x I)) as Q2. pose proof (A7 WSell x (rest_not_d x I)) as Q3.
            unfold at_date. cbn [get_sched] in *. congruence. }
          rewrite AD in J. rewrite A2. apply (S2 x r); [now right|exact J].
      - now rewrite A2. }
    assert (PM : Permutation (at_date d b) (at_date d b0)).
    { pose proof (rs_perm _ _ RS WCover) as Q1. pose proof (rs_perm _ _ RS WBuy) as Q2. pose proof (rs_perm _ _ RS WSell) as Q3. cbn [get_sched] in *.
      unfold at_date. apply Permutation_app; auto. apply Permutation_app; auto. }
    assert (SAME : forall j, same_order b b1 j).
    { intro j. apply same_trans with b0; [|now apply like_same]. destruct RS as [A1 A2 A3 A4 _ _ _]. unfold same_order, attempts. rewrite A2, A3. auto. }
    assert (EN : entered (b_kops b1) = entered (b_kops b)) by (destruct L1 as [_ [-> _]]; now rewrite (rs_kops _ _ RS)).
    assert (AT : map r_pid (zget d (get_sched WCover b1)) ++ map r_pid (zget d (get_sched WSell b1)) ++ map r_pid (zget d (get_sched WBuy b1)) = map r_pid (at_date d b0)).
    { destruct L1 as [_ [_ [_ [_ L1]]]]. rewrite !L1. unfold at_date. rewrite !map_app. reflexivity. }
    rewrite AT. constructor.
    - eapply like_common; eauto.
    - intros n I. rewrite EN in I. left. eapply order_ok_same; [apply SAME|]. now apply HT.
    - eapply Permutation_NoDup; [apply Permutation_map; exact PM|]. apply (sk_nodup _ _ HS). now left.
    - intros id I. apply in_map_iff in I. destruct I as [r [E I]]. apply (Permutation_in r (Permutation_sym PM)) in I.
      destruct (sk_known _ _ HS d r (or_introl eq_refl) I) as [n [K1 [K2 [K3 K4]]]]. exists n. rewrite EN. split; auto. split; [congruence|].
      split; auto. split; auto. eapply order_ok_same; [apply SAME|]. now apply HT. }
  assert (HAS : forall w, zhas d (get_sched w b) = zhas d (get_sched w b1)).
  { intro w. destruct L1 as [_ [_ [_ [_ L1]]]]. rewrite L1. symmetry. apply RS. }
  pose proof (HAS WCover) as HC1. pose proof (HAS WSell) as HS1. pose proof (HAS WBuy) as HB1. cbn [get_sched] in HC1, HS1, HB1.
  destruct (place_if v WCover _ i d (Some b1)) as [b2|] eqn:E2; [|discriminate].
  destruct (place_step WCover _ _ b1 b2 HC1 P1 E2) as [P2 G2].
  rewrite <- !G2 in P2 by discriminate.
  destruct (place_if v WSell _ i d (Some b2)) as [b3|] eqn:E3; [|discriminate].
  assert (HS2 : zhas d (b_sell b) = zhas d (get_sched WSell b2)) by (rewrite G2 by discriminate; exact HS1).
  destruct (place_step WSell _ _ b2 b3 HS2 P2 E3) as [P3 G3].
  rewrite <- (app_nil_r (map r_pid _)), <- (G3 WBuy) in P3 by discriminate.
  destruct (place_if v WBuy _ i d (Some b3)) as [b4|] eqn:E4; [|discriminate].
  assert (HB2 : zhas d (b_buy b) = zhas d (get_sched WBuy b3)) by (rewrite G3, G2 by discriminate; exact HB1).
  destruct (place_step WBuy _ _ b3 b4 HB2 P3 E4) as [P4 _].
  cbn [bind]. destruct (process_persistent v i d b4) as [b5|] eqn:E5; [|discriminate]. cbn [bind]. intro E6.
  eapply like_settled; [eapply like_op; eauto|]. eapply process_step; eauto.
Qed.

(** *** The decisions of the bar *)
Lemma kop_settled k b : loop_kop k -> (forall j, k <> KAdvance j) ->
  (forall n, In n (live (b_kops b)) -> is_live (b_kops (set_pend k b)) (n_id n) = false -> K n) -> settled b -> settled (set_pend k b).
Proof.
  intros LK NA ASK [S1 S2]. pose proof (quiet_kop k b LK) as Q.
  assert (C : core (set_pend k b)) by (apply kstate_set; [apply S1|intros j ->; destruct LK]).
  constructor; [eapply common_quiet; eauto|]. intros n I. destruct Q as [_ [_ EN]]. rewrite EN in I.
  destruct (is_live (b_kops (set_pend k b)) (n_id n)) eqn:L.
  - assert (L0 : is_live (b_kops b) (n_id n) = true).
    { unfold set_pend in L. cbn [b_kops] in L. destruct k as [a|j|s|j|j]; try destruct LK; [rewrite live_remove in L; apply andb_true_iff in L; tauto|now apply live_removeall in L|now rewrite live_advance in L]. }
    eapply order_ok_same; [|exact (S2 n I)]. unfold same_order. rewrite L, L0. split; [reflexivity|]. split; auto.
    unfold set_pend. cbn [b_kops]. rewrite marked_snoc, retries_snoc.
    destruct k as [a|j|s|j|j]; try destruct LK; try (destruct (NA j eq_refl)); rewrite orb_false_r, Nat.add_0_r; auto.
  - unfold done_order. rewrite <- (app_nil_r (from n (after (n_sym n)))). apply (order_ok_dead K _ [] b); [reflexivity|exact L| |exact (S2 n I)].
    rewrite app_nil_r. destruct (is_live (b_kops b) (n_id n)) eqn:L0.
    + left. apply ASK; auto. now apply is_live_entered.
    + exact (or_gone _ _ _ _ (S2 n I) L0).
Qed.
Lemma cancel_step l : (forall y n, In y l -> names y n -> K n) -> forall b b', settled b -> fold_left (do_cancel v) l (Some b) = Some b' -> settled b'.
Proof.
  induction l as [|x l IH]; intros ASK b b' S; [intros [= <-]; auto|]. cbn [fold_left]. unfold do_cancel at 2. cbn [bind].
  assert (ASK' : forall y n, In y l -> names y n -> K n) by (intros y n Iy; apply ASK; now right). specialize (IH ASK').
  destruct x as [j|s|j|t ty].
  - apply IH, kop_settled; auto; cbn [loop_kop]; auto; [discriminate|]. intros n LV D. apply (ASK (CanOrder j)); [now left|].
    unfold set_pend in D. cbn [b_kops] in D. rewrite live_remove, (is_live_In _ _ LV) in D. cbn [andb] in D. apply negb_false_iff, Nat.eqb_eq in D. cbn. auto.
  - apply IH, kop_settled; auto; cbn [loop_kop]; auto; [discriminate|]. intros n LV D. apply (ASK (CanOrders s)); [now left|].
    destruct s as [s|]; cbn [names]; auto. destruct (Nat.eq_dec s (n_sym n)) as [E|E]; auto. exfalso.
    assert (X : is_live (b_kops b ++ [KRemoveAll (Some s)]) (n_id n) = true).
    { apply is_live_In. rewrite live_snoc. cbn [live_step fst snd]. apply filter_In. split; auto. apply negb_true_iff, Nat.eqb_neq. congruence. }
    unfold set_pend in D. cbn [b_kops] in D. congruence.
  - destruct (do_op v (OpRemoveStop j) b) as [b1|] eqn:E; [|rewrite cancel_none; discriminate]. apply IH. eapply like_settled; eauto. eapply like_op; eauto.
  - destruct (do_op v (OpRemoveStops t ty) b) as [b1|] eqn:E; [|rewrite cancel_none; discriminate]. apply IH. eapply like_settled; eauto. eapply like_op; eauto.
Qed.
Lemma exit_step l : forall b b', settled b -> fold_left (do_exit v i d) l (Some b) = Some b' -> settled b'.
Proof.
  induction l as [|x l IH]; intros b b' S; [intros [= <-]; auto|]. cbn [fold_left]. unfold do_exit at 2. cbn [bind].
  destruct (do_op v _ b) as [b1|] eqn:E; [|rewrite exit_none; discriminate]. apply IH. eapply like_settled; eauto. eapply like_op; eauto.
Qed.
(** The symbols of a result trade today, and it is scheduled with its side's delay. *)
Definition due (k : nat) (r : result) : Prop := bar_at v d (r_sym r) = true /\ k = delay v (result_side r).
Lemma to_add_all r c x k a : to_add r c x k = Some a -> d_type a = result_side r /\ d_sym a = r_sym r /\ d_created a = c /\ d_exec a = x.
Proof.
  unfold to_add, result_side. destruct (r_buy r); [|destruct (r_sell r); [|discriminate]]; intros [= <-]; auto.
Qed.
Lemma schedule_adds k w r b b' : settled b -> due k r -> schedule_order v d k w (Some b) r = Some b' ->
  match exec_date v (r_sym r) (end_of b (r_sym r)) k with
  | None => b' = b
  | Some (x, iw) => bars_later (calendar v (r_sym r)) d k x /\ (iw = true -> In x (v_sdates v (r_sym r))) /\
      exists a, to_add r d x (end_of b (r_sym r) + k) = Some a /\
      b' = let b1 := set_pend (KAdd a) b in
           if iw then set_sched w (zset x (zget x (get_sched w b1) ++ [set_pid (S (added (b_kops b))) r]) (get_sched w b1)) b1 else b1
  end.
Proof.
  intros S [D1 D2] E. unfold schedule_order in E.
  pose proof (exec_date_spec v EO pre d rest DATES b (r_sym r) k (cm_ends _ (se_common _ S)) D1) as X.
  destruct (exec_date v (r_sym r) (end_of b (r_sym r)) k) as [[x iw]|]; [|now injection E as <-]. destruct X as [X1 X2]. split; auto. split; auto.
  destruct (to_add r d x (end_of b (r_sym r) + k)) as [a|]; [|discriminate]. exists a. split; auto. injection E as <-.
  pose proof (add_id (b_kops b) a) as AI. rewrite <- (co_pend _ (cm_core _ (se_common _ S))) in AI. rewrite <- AI. reflexivity.
Qed.
Lemma attempts_fresh b j : core b -> (added (b_kops b) < j)%nat -> attempts b j = [].
Proof.
  intros [_ _ C] L. unfold attempts. rewrite filter_nil; auto. intros x I. apply Nat.eqb_neq. specialize (C x I). lia.
Qed.
Lemma schedule_step k w r b b' : settled b -> due k r -> schedule_order v d k w (Some b) r = Some b' -> settled b'.
Proof.
  intros S D E. pose proof (schedule_adds k w r b b' S D E) as X. pose proof (core_schedule v d k w r b b' (cm_core _ (se_common _ S)) E) as C'.
  destruct (exec_date v (r_sym r) (end_of b (r_sym r)) k) as [[x iw]|]; [|now subst]. destruct X as [BL [IW [a [TA EB]]]].
  destruct (to_add_all _ _ _ _ _ TA) as [T1 [T2 [T3 T4]]]. destruct D as [D1 D2].
  pose proof S as S0. destruct S as [[C1 C2 C3 C4] SD]. set (n := with_id (S (added (b_kops b))) a).
  assert (KK : b_kops b' = b_kops b ++ [KAdd a] /\ b_ends b' = b_ends b /\ b_att b' = b_att b) by (rewrite EB; cbv zeta; destruct iw, w; auto).
  destruct KK as [K1 [K2 K3]].
  assert (EN : entered (b_kops b') = entered (b_kops b) ++ [n]) by (rewrite K1, entered_snoc; cbn [entered_step]; rewrite entered_length; reflexivity).
  assert (SY : In (r_sym r) (v_syms v)) by (unfold bar_at in D1; apply andb_true_iff in D1; apply nmem_syms; tauto).
  assert (LT : (d < x)%Z).
  { apply (bars_later_lt (calendar v (r_sym r)) d k x); auto.
    - unfold calendar. destruct (v_master v) as [m|] eqn:M; [exact (proj1 (eo_master v EO m _ M SY))|exact (proj1 (eo_sdates v EO _ SY))].
    - rewrite D2. destruct (eo_delay v EO). unfold delay. destruct (result_side r); auto. }
  assert (CD : In d (v_sdates v (r_sym r))) by (unfold bar_at in D1; apply andb_true_iff in D1; apply zmem_In, D1).
  assert (BN : B n).
  { apply B_born. unfold born1, n. cbn. rewrite T1, T2, T3, T4, <- D2. auto. }
  assert (AN : attempts b' (n_id n) = []) by (unfold attempts; rewrite K3; apply attempts_fresh; auto; cbn; lia).
  assert (OLD : forall m, In m (entered (b_kops b)) -> same_order b b' (n_id m)).
  { intros m I. unfold same_order, attempts. rewrite K1, K3, marked_snoc, retries_snoc, live_add, orb_false_r, Nat.add_0_r.
    split; auto. split; auto. apply entered_le in I. destruct (Nat.eqb_spec (n_id m) (S (added (b_kops b)))); [lia|]. now rewrite orb_false_r. }
  constructor.
  - constructor; auto.
    + intro s. unfold end_of. rewrite K2. apply C2.
    + assert (PIDS : forall y, In y rest -> at_date y b' = at_date y b \/
         (y = x /\ In x (v_sdates v (r_sym r)) /\ Permutation (set_pid (S (added (b_kops b))) r :: at_date y b) (at_date y b'))).
      { intros y I. rewrite EB. cbv zeta. destruct iw; [|left; reflexivity].
        destruct (Z.eq_dec y x) as [->|N].
        - right. split; auto. split; auto. unfold at_date. destruct w; cbn [set_sched get_sched set_pend b_cover b_buy b_sell];
            rewrite zget_zset, Z.eqb_refl.
          + rewrite <- app_assoc. cbn [app]. apply Permutation_middle.
          + rewrite !app_assoc. apply Permutation_cons_append.
          + rewrite <- (app_assoc (zget x (b_sell b))). cbn [app]. rewrite (app_assoc (zget x (b_cover b)) (zget x (b_sell b))), (app_assoc (zget x (b_cover b)) (zget x (b_sell b))). apply Permutation_middle.
        - left. unfold at_date. destruct w; cbn [set_sched get_sched set_pend b_cover b_buy b_sell];
            rewrite zget_zset; destruct (Z.eqb_spec y x); try congruence; reflexivity. }
      destruct C3 as [S1 S2]. constructor.
      * intros y I. destruct (PIDS y I) as [->|[-> [_ PM]]]; [auto|]. eapply Permutation_NoDup; [apply Permutation_map; exact PM|].
        cbn [map]. constructor; auto. intro J. apply in_map_iff in J. destruct J as [r' [E' J]]. destruct (S2 x r' I J) as [m [M1 [M2 _]]].
        apply entered_le in M1. cbn in E'. rewrite M2 in E'. injection E' as E'. lia.
      * intros y r' I J. rewrite EN. destruct (PIDS y I) as [AE|[-> [IV PM]]].
        -- rewrite AE in J. destruct (S2 y r' I J) as [m [M1 M2]]. exists m. split; auto. apply in_app_iff. auto.
        -- apply (Permutation_in r' (Permutation_sym PM)) in J. destruct J as [<-|J].
           ++ exists n. split; [apply in_app_iff; right; left; reflexivity|]. split; [reflexivity|]. split; [exact T4|].
              unfold n. cbn. rewrite T2. apply bar_at_iff. unfold window_bars. rewrite (proj2 (nmem_syms v (r_sym r)) SY). exact IV.
           ++ destruct (S2 x r' I J) as [m [M1 M2]]. exists m. split; auto. apply in_app_iff. auto.
    + rewrite EN. apply Forall_app. split; auto.
  - intros m I. rewrite EN in I. apply in_app_iff in I. destruct I as [I|[<-|[]]]; [eapply order_ok_same; [now apply OLD|now apply SD]|].
    unfold done_order. rewrite from_after_late by (cbn; rewrite T4; exact LT). constructor; rewrite ?AN.
    + exists []. auto.
    + unfold allowed_attempts. cbn [length]. destruct (n_limit n), (n_timeout n); auto. intro. lia.
    + intros l1 y l2 Y. destruct l1; discriminate.
    + intros _. left. rewrite K1. split; [|split; auto].
      * rewrite marked_snoc, orb_false_r. apply not_true_iff_false. intro M. apply marked_known in M; [|apply C1]. cbn in M. lia.
      * rewrite retries_snoc, Nat.add_0_r. apply retries_new. cbn. lia.
    + rewrite K1, live_add. unfold n. cbn [with_id n_id]. rewrite Nat.eqb_refl, orb_true_r. discriminate.
Qed.
Lemma schedule_fold k w l : forall b b', settled b -> Forall (due k) l -> fold_left (schedule_order v d k w) l (Some b) = Some b' -> settled b'.
Proof.
  induction l as [|r l IH]; intros b b' S F; cbn [fold_left]; [intros [= <-]; auto|].
  inversion F; subst. destruct (schedule_order v d k w (Some b) r) as [b1|] eqn:E; [|rewrite schedule_none; discriminate].
  apply IH; auto. eapply schedule_step; eauto.
Qed.
Lemma collect_due x : (forall s, In s (akeys x) -> bar_at v d s = true) -> forall cs bs ss n cs' bs' ss' n',
  Forall (due (v_buy_delay v)) cs /\ Forall (due (v_buy_delay v)) bs /\ Forall (due (v_sell_delay v)) ss ->
  fold_left (collect1 v d) x (Some (cs, bs, ss, n)) = Some (cs', bs', ss', n') ->
  Forall (due (v_buy_delay v)) cs' /\ Forall (due (v_buy_delay v)) bs' /\ Forall (due (v_sell_delay v)) ss'.
Proof.
  induction x as [|kv x IH]; intros KEYS cs bs ss n cs' bs' ss' n' F; cbn [fold_left]; [intros [= <- <- <- <-]; auto|].
  assert (KEYS' : forall s, In s (akeys x) -> bar_at v d s = true) by (intros s I; apply KEYS; right; exact I). specialize (IH KEYS').
  unfold collect1 at 2. destruct (to_result (fst kv) d (given (z_worst (v_settings v))) (snd kv) n) as [| |r m] eqn:T.
  - intro E. exfalso. revert E. clear. induction x as [|y x IH]; cbn [fold_left]; [discriminate|exact IH].
  - now apply IH.
  - apply to_result_ok in T. destruct T as [_ [_ [_ R]]]. destruct F as [F1 [F2 F3]].
    assert (BA : bar_at v d (r_sym r) = true) by (rewrite (ro_sym _ _ _ _ _ _ R); apply KEYS; left; reflexivity).
    destruct (result_one_sided _ _ _ _ _ _ R) as [[q [RB [RS _]]]|[q [RS [RB _]]]]; rewrite RB, RS; cbn [given].
    + assert (D : due (v_buy_delay v) r) by (split; auto; unfold result_side; rewrite RB; reflexivity).
      destruct (r_cover r); apply IH; (split; [|split]); auto; apply Forall_app; auto.
    + assert (D : due (v_sell_delay v) r) by (split; auto; unfold result_side; rewrite RB; reflexivity).
      apply IH; (split; [|split]); auto; apply Forall_app; auto.
Qed.
End Bar.
End Life.

(** ** Rotation keeps the symbols *)
Lemma exits_keys p k ranks worst sd l : forall x e x' e', fold_left (fun st s => rotation_exit1 p k ranks worst sd s st) l (Some (x, e)) = Some (x', e') -> akeys x' = akeys x.
Proof.
  assert (N : forall l, fold_left (fun st s => rotation_exit1 p k ranks worst sd s st) l None = None) by (intro m; induction m; cbn; auto).
  induction l as [|s l IH]; intros x e x' e'; cbn [fold_left]; [intros [= <- <-]; auto|]. unfold rotation_exit1 at 2.
  destruct (aget s x) as [g|] eqn:G; [|apply IH]. destruct (match aget s ranks with Some r => Nat.leb r worst | None => false end); [apply IH|].
  destruct (has_pending_order s (exit_order sd) k); [apply IH|].
  destruct ((match sd with Long => sell_all_shares | Short => cover_all_shares end) p s g) as [g'|]; [|rewrite N; discriminate].
  intro E. rewrite (IH _ _ _ _ E). apply akeys_aset_in. eapply aget_Some_key; eauto.
Qed.
Lemma leg_keys p k worst m sd x x' r l : rotation_leg p k worst m sd x = Some (x', r, l) -> akeys x' = akeys x.
Proof.
  unfold rotation_leg. destruct m as [m|]; [|intros [= <- _ _]; auto]. unfold rotation_exits.
  destruct (fold_left _ _ _) as [[x1 e]|] eqn:E; [|discriminate]. intros [= <- _ _]. eapply exits_keys; eauto.
Qed.
Lemma target_keys c p close size sd l : forall x x', target_all c p close size sd l (Some x) = Some x' -> akeys x' = akeys x.
Proof.
  assert (N : forall l, target_all c p close size sd l None = None) by (intro m; induction m; cbn; auto).
  unfold target_all in *. induction l as [|s l IH]; intros x x'; cbn [fold_left]; [intros [= <-]; auto|].
  destruct (aget s x) as [g|] eqn:G; [|rewrite N; discriminate]. destruct (set_target_shares c p s (close s) size sd g); [|rewrite N; discriminate].
  intro E. rewrite (IH _ _ E). apply akeys_aset_in. eapply aget_Some_key; eauto.
Qed.
Lemma map_keys {A} (f : sym * sig -> A) (x : ctxs) : akeys (map (fun kv => (fst kv, f kv)) x) = akeys x.
Proof. unfold akeys. rewrite map_map. apply map_ext. reflexivity. Qed.
Lemma rotate_keys v i b x x' : rotate v i b x = Some x' -> akeys x' = akeys x.
Proof.
  unfold rotate. destruct (z_worst (v_settings v)) as [w|]; [|intros [= <-]; auto]. unfold apply_worst_rank_held.
  destruct (rotation_target_size (v_settings v)) as [size|]; [|discriminate].
  destruct (rotation_leg (b_port b) (b_pend b) w (z_max_long (v_settings v)) Long (reset_rotation_orders x)) as [[[x1 lr] lc]|] eqn:E1; [|discriminate].
  destruct (rotation_leg (b_port b) (b_pend b) w (z_max_short (v_settings v)) Short x1) as [[[x2 sr] sc]|] eqn:E2; [|discriminate].
  destruct (resolve_overlap lc sc lr sr) as [lc' sc'].
  destruct (target_all (v_cfg v) (b_port b) (v_close v i) size Long lc' (Some x2)) as [x3|] eqn:E3.
  2:{ assert (N : forall l, target_all (v_cfg v) (b_port b) (v_close v i) size Short l None = None) by (intro m; induction m; cbn; auto). rewrite N. discriminate. }
  destruct (target_all (v_cfg v) (b_port b) (v_close v i) size Short sc' (Some x3)) as [x4|] eqn:E4; [|discriminate].
  intros [= <-]. unfold clear_unused_rotation_signals. rewrite map_keys.
  assert (K4 : akeys x4 = akeys x).
  { rewrite (target_keys _ _ _ _ _ _ _ _ E4), (target_keys _ _ _ _ _ _ _ _ E3), (leg_keys _ _ _ _ _ _ _ _ _ E2), (leg_keys _ _ _ _ _ _ _ _ _ E1).
    unfold reset_rotation_orders. apply map_keys. }
  destruct (v_sizer v), x4 as [|kv x4]; auto. rewrite map_keys. exact K4.
Qed.
