From Verif Require Export SettingsSpec.
From Coq Require Import Lia Lqa.

Lemma qltb_true a b : qltb a b = true <-> a < b.
Proof.
  unfold qltb. rewrite negb_true_iff. split.
  - intros H. apply Qnot_le_lt. intros L. apply Qle_bool_iff in L. congruence.
  - intros H. destruct (Qle_bool b a) eqn:E; [|reflexivity]. apply Qle_bool_iff in E. lra.
Qed.
Lemma qltb_false a b : qltb a b = false <-> b <= a.
Proof. unfold qltb. rewrite negb_false_iff. apply Qle_bool_iff. Qed.
Lemma Qle_bool_false a b : Qle_bool a b = false <-> b < a.
Proof. rewrite <- qltb_true. unfold qltb. rewrite negb_true_iff. reflexivity. Qed.
Lemma not_positive_false o : not_positive o = false <-> forall m, o = Some m -> (1 <= m)%Z.
Proof.
  destruct o as [m|]; cbn.
  - rewrite Z.leb_gt. split; [intros H x [= <-]; lia | intros H; specialize (H m eq_refl); lia].
  - split; [intros _ m [=] | reflexivity].
Qed.

Lemma verify_config_iff f : verify_config f = true <-> sound_config f.
Proof.
  unfold verify_config, sound_config.
  destruct (Qle_bool (f_initial_cash f) 0) eqn:E1.
  { apply Qle_bool_iff in E1. split; [discriminate | intros (H & _); lra]. }
  apply Qle_bool_false in E1.
  destruct (not_positive (f_max_long f)) eqn:E2.
  { split; [discriminate | intros (_ & H & _)]. apply not_positive_false in H. congruence. }
  rewrite not_positive_false in E2.
  destruct (not_positive (f_max_short f)) eqn:E3.
  { split; [discriminate | intros (_ & _ & H & _)]. apply not_positive_false in H. congruence. }
  rewrite not_positive_false in E3.
  destruct (match f_fee_amount f with Some a => qltb a 0 | None => false end) eqn:E4.
  { split; [discriminate | intros (_ & _ & _ & H & _)]. destruct (f_fee_amount f) as [a|]; [|discriminate].
    apply qltb_true in E4. specialize (H a eq_refl). lra. }
  assert (F : forall a, f_fee_amount f = Some a -> 0 <= a).
  { intros a E. rewrite E in E4. apply qltb_false, E4. }
  destruct (f_buy_delay f <=? 0)%Z eqn:E5; [apply Z.leb_le in E5; split; [discriminate | intros (_ & _ & _ & _ & H & _); lia]|].
  apply Z.leb_gt in E5.
  destruct (f_sell_delay f <=? 0)%Z eqn:E6; [apply Z.leb_le in E6; split; [discriminate | intros (_ & _ & _ & _ & _ & H & _); lia]|].
  apply Z.leb_gt in E6.
  destruct (f_bootstrap_samples f <=? 0)%Z eqn:E7; [apply Z.leb_le in E7; split; [discriminate | intros (_ & _ & _ & _ & _ & _ & H & _); lia]|].
  apply Z.leb_gt in E7.
  destruct (qltb (f_leverage f) 1) eqn:E8; [apply qltb_true in E8; split; [discriminate | intros (_ & _ & _ & _ & _ & _ & _ & H & _); lra]|].
  apply qltb_false in E8.
  destruct (qltb (f_interest_rate f) 0) eqn:E9; [apply qltb_true in E9; split; [discriminate | intros (_ & _ & _ & _ & _ & _ & _ & _ & H & _); lra]|].
  apply qltb_false in E9.
  assert (G : (qltb 0 (f_interest_rate f) && match f_bars_per_year f with None => true | Some _ => false end = false) <->
              (0 < f_interest_rate f -> f_bars_per_year f <> None)).
  { destruct (f_bars_per_year f) as [b|].
    - rewrite andb_false_r. split; [intros _ _ [=] | reflexivity].
    - rewrite andb_true_r, qltb_false. split; [intros H L; lra | intros H]. apply Qnot_lt_le. intros L. apply (H L eq_refl). }
  destruct (qltb 0 (f_interest_rate f) && match f_bars_per_year f with None => true | Some _ => false end) eqn:E10.
  - split; [discriminate | intros (_ & _ & _ & _ & _ & _ & _ & _ & _ & H)]. apply G in H. discriminate.
  - split; [intros _ | reflexivity].
    refine (conj E1 (conj E2 (conj E3 (conj F (conj _ (conj _ (conj _ (conj E8 (conj E9 (proj1 G eq_refl)))))))))); lia.
Qed.

(** ** The calls *)
Definition get (x : field) (t : strat) : option setting :=
  match x with LongLimit => t_long t | ShortLimit => t_short t | WorstRank => t_worst t end.
Definition step (t : strat) (c : call) : strat := match apply c t with Some t' => t' | None => t end.
Lemma calls_snoc cs c : calls (cs ++ [c]) = step (calls cs) c.
Proof. unfold calls. rewrite fold_left_app. reflexivity. Qed.

Lemma step_get t c x : (exists v, sets c x v /\ get x (step t c) = v) \/ ((forall v, ~ sets c x v) /\ get x (step t c) = get x t).
Proof.
  assert (B : forall z, ((z <=? 0)%Z = true /\ ~ (1 <= z)%Z) \/ ((z <=? 0)%Z = false /\ (1 <= z)%Z)).
  { intros z. destruct (z <=? 0)%Z eqn:E; [apply Z.leb_le in E; left | apply Z.leb_gt in E; right]; split; trivial; lia. }
  unfold step. destruct c as [[[z|q|n]|]|[[z|q|n]|]|[v|] sizer]; destruct x; cbn;
    try (destruct (B z) as [[-> L]|[-> L]]; cbn);
    (left; eexists; split; [constructor; assumption | reflexivity]) ||
    (left; eexists; split; [constructor | reflexivity]) ||
    (right; split; [intros v0 K; inversion K; subst; contradiction | reflexivity]) ||
    (right; split; [intros v0 K; inversion K | reflexivity]).
Qed.

Lemma sets_fun c x v w : sets c x v -> sets c x w -> v = w.
Proof. intros A B; destruct A; inversion B; reflexivity. Qed.

Lemma in_effect_get cs x : in_effect cs x (get x (calls cs)).
Proof.
  induction cs as [|c cs IH] using rev_ind.
  - right. split; [destruct x; reflexivity | intros c v []].
  - rewrite calls_snoc. destruct (step_get (calls cs) c x) as [(v & K & ->)|(N & ->)].
    + left. exists cs, c, []. split; [reflexivity|]. split; [exact K | intros c' v' []].
    + destruct IH as [(b & c0 & a & E & K & L)|(E & L)].
      * left. exists b, c0, (a ++ [c]). split; [rewrite E, <- app_assoc; reflexivity|]. split; [exact K|].
        intros c' v' I. apply in_app_or in I as [I|[<-|[]]]; [apply L, I | apply N].
      * right. split; [exact E|]. intros c' v' I. apply in_app_or in I as [I|[<-|[]]]; [apply L, I | apply N].
Qed.

Lemma in_effect_snoc cs c x v :
  in_effect (cs ++ [c]) x v -> sets c x v \/ ((forall w, ~ sets c x w) /\ in_effect cs x v).
Proof.
  intros [(b & c0 & a & E & K & L)|(E & L)].
  - destruct a as [|a1 a] using rev_ind.
    + apply app_inj_tail in E as [<- <-]. left. exact K.
    + rewrite app_comm_cons, app_assoc in E. apply app_inj_tail in E as [-> ->].
      right. split; [intros w; apply L, in_or_app; right; left; reflexivity|].
      left. exists b, c0, a. split; [reflexivity|]. split; [exact K|]. intros c' v' I. apply L, in_or_app. left. exact I.
  - right. split; [intros w; apply L, in_or_app; right; left; reflexivity|].
    right. split; [exact E|]. intros c' v' I. apply L, in_or_app. left. exact I.
Qed.

Lemma in_effect_fun cs x v w : in_effect cs x v -> in_effect cs x w -> v = w.
Proof.
  revert v w. induction cs as [|c cs IH] using rev_ind; intros v w A B.
  - destruct A as [(b & c & a & E & _)|(-> & _)]; [destruct b; discriminate|].
    destruct B as [(b & c & a & E & _)|(-> & _)]; [destruct b; discriminate | reflexivity].
  - apply in_effect_snoc in A. apply in_effect_snoc in B.
    destruct A as [A|(A & A')], B as [B|(B & B')].
    + exact (sets_fun _ _ _ _ A B).
    + exfalso. exact (B _ A).
    + exfalso. exact (A _ B).
    + exact (IH _ _ A' B').
Qed.
Lemma in_effect_iff cs x v : in_effect cs x v <-> get x (calls cs) = v.
Proof.
  split; [intros H; exact (in_effect_fun _ _ _ _ (in_effect_get cs x) H) | intros <-; apply in_effect_get].
Qed.

Lemma sizer_needs_rotation cs : t_sizer (calls cs) = true -> t_worst (calls cs) <> None.
Proof.
  induction cs as [|c cs IH] using rev_ind; [discriminate|].
  rewrite calls_snoc. unfold step. destruct c as [v|v|[v|] s]; cbn.
  - destruct (bad_limit v); exact IH.
  - destruct (bad_limit v); exact IH.
  - intros _ [=].
  - discriminate.
Qed.

(** ** Numbers *)
Lemma Qle_frac a b (p : positive) : inject_Z a <= (b # p) <-> (a * Z.pos p <= b)%Z.
Proof. unfold Qle. cbn. rewrite Z.mul_1_r. reflexivity. Qed.
Lemma Qle_frac' a b (p : positive) : (b # p) <= inject_Z a <-> (b <= a * Z.pos p)%Z.
Proof. unfold Qle. cbn. rewrite Z.mul_1_r. reflexivity. Qed.
Lemma Qlt_frac a b (p : positive) : inject_Z a < (b # p) <-> (a * Z.pos p < b)%Z.
Proof. unfold Qlt. cbn. rewrite Z.mul_1_r. reflexivity. Qed.
Lemma Qlt_frac' a b (p : positive) : (b # p) < inject_Z a <-> (b < a * Z.pos p)%Z.
Proof. unfold Qlt. cbn. rewrite Z.mul_1_r. reflexivity. Qed.

Lemma int_of_whole q z : whole_part q z <-> int_of q = z.
Proof.
  destruct q as [b p]. unfold whole_part, int_of. cbn [Qnum Qden].
  rewrite Qle_frac, Qle_frac', Qlt_frac, Qlt_frac'.
  assert (S0 : (0 <= b # p <-> (0 <= b)%Z)) by (unfold Qle; cbn; lia).
  assert (S1 : ((b # p) < 0 <-> (b < 0)%Z)) by (unfold Qlt; cbn; lia).
  rewrite S0, S1.
  pose proof (Z.quot_rem' b (Z.pos p)) as E.

  set (k := Z.quot b (Z.pos p)) in *. set (r := Z.rem b (Z.pos p)) in *.
  destruct (Z_lt_le_dec b 0) as [N|N].
  - assert (R2 : (- Z.pos p < r <= 0)%Z) by (apply Z.rem_bound_pos_neg; lia). split.
    + intros (_ & H). specialize (H N). assert (-1 < k - z < 1)%Z by nia. lia.
    + intros <-. split; [lia | intros _]. split; nia.
  - assert (R2 : (0 <= r < Z.pos p)%Z) by (apply Z.rem_bound_pos; lia). split.
    + intros (H & _). specialize (H N). assert (-1 < k - z < 1)%Z by nia. lia.
    + intros <-. split; [intros _; split; nia | lia].
Qed.

Lemma resolve_stands h s o : resolve_setting (Some s) h = Fine o <-> exists z, o = Some z /\ stands_for h s z.
Proof.
  destruct s as [z|q|n]; cbn.
  - split; [intros [= <-]; exists z; split; [reflexivity | constructor]|]. intros (z' & -> & K). inversion K; reflexivity.
  - split.
    + intros [= <-]. exists (int_of q). split; [reflexivity | constructor; apply int_of_whole; reflexivity].
    + intros (z' & -> & K). inversion K; subst. apply int_of_whole in H0. rewrite H0. reflexivity.
  - split.
    + destruct h as [look|]; [|discriminate]. destruct (look n) as [[q|]|] eqn:E; try discriminate. intros [= <-].
      exists (int_of q). split; [reflexivity|]. apply (stands_hyper _ n look q); [reflexivity | exact E | apply int_of_whole; reflexivity].
    + intros (z' & -> & K). inversion K; subst. rewrite H1. apply int_of_whole in H2. rewrite H2. reflexivity.
Qed.

Lemma resolve_limit h v conf o :
  limit h v conf o <-> exists r, resolve_setting v h = Fine r /\ or_configured r conf = o.
Proof.
  destruct v as [s|]; cbn [limit].
  - split.
    + intros (z & -> & K). exists (Some z). split; [apply resolve_stands; exists z; split; [reflexivity | exact K] | reflexivity].
    + intros (r & E & <-). apply resolve_stands in E as (z & -> & K). exists z. split; [reflexivity | exact K].
  - split; [intros ->; exists None; split; reflexivity | intros (r & [= <-] & <-); reflexivity].
Qed.

Lemma as_int_to_nat o : (forall m, o = Some m -> (0 <= m)%Z) -> as_int (to_nat o) = o.
Proof. destruct o as [m|]; [|reflexivity]. intros H. cbn. rewrite Z2Nat.id by (apply H; reflexivity). reflexivity. Qed.
Lemma to_nat_as_int o : to_nat (as_int o) = o.
Proof. destruct o as [m|]; [cbn; rewrite Nat2Z.id |]; reflexivity. Qed.

Lemma validate_false w long short :
  (forall m, long = Some m -> (1 <= m)%Z) -> (forall m, short = Some m -> (1 <= m)%Z) ->
  (validate_worst_raises (Z.to_nat w) (to_nat long) (to_nat short) = false <->
   (long <> None \/ short <> None) /\ (forall m, long = Some m -> (m <= w)%Z) /\ (forall m, short = Some m -> (m <= w)%Z)).
Proof.
  intros L S. destruct long as [l|], short as [s|]; cbn -[Nat.ltb Z.to_nat].
  - specialize (L l eq_refl). specialize (S s eq_refl). rewrite orb_false_iff, !Nat.ltb_ge. split.
    + intros (A & B). split; [left; discriminate|]. split; intros m [= <-]; lia.
    + intros (_ & A & B). specialize (A l eq_refl). specialize (B s eq_refl). lia.
  - specialize (L l eq_refl). rewrite orb_false_r, Nat.ltb_ge. split.
    + intros A. split; [left; discriminate|]. split; intros m [= <-]; lia.
    + intros (_ & A & _). specialize (A l eq_refl). lia.
  - specialize (S s eq_refl). rewrite Nat.ltb_ge. split.
    + intros A. split; [right; discriminate|]. split; intros m [= <-]; lia.
    + intros (_ & _ & A). specialize (A s eq_refl). lia.
  - split; [discriminate | intros ([H|H] & _); contradiction].
Qed.

Lemma resolved f cs h z :
  (exists warned, resolve_settings f (calls cs) h = Fine (z, warned)) <->
  settled f cs h (as_int (z_max_long z)) (as_int (z_max_short z)) (as_int (z_worst z)).
Proof.
  unfold resolve_settings, settled. split.
  - intros (warned & E).
    destruct (resolve_setting (t_long (calls cs)) h) as [long|] eqn:E1; [|discriminate]. cbn [then_] in E.
    destruct (resolve_setting (t_short (calls cs)) h) as [short|] eqn:E2; [|discriminate]. cbn [then_] in E.
    destruct (resolve_setting (t_worst (calls cs)) h) as [worst|] eqn:E3; [|discriminate]. cbn [then_] in E.
    destruct (not_positive (or_configured long (f_max_long f))) eqn:P1; [discriminate|].
    destruct (not_positive (or_configured short (f_max_short f))) eqn:P2; [discriminate|].
    destruct (t_sizer (calls cs) && match worst with None => true | Some _ => false end); [discriminate|].
    destruct (match worst with Some w => validate_worst_raises (Z.to_nat w) (to_nat (or_configured long (f_max_long f))) (to_nat (or_configured short (f_max_short f))) | None => false end) eqn:P3; [discriminate|].
    injection E as <- <-. cbn [z_max_long z_max_short z_worst].
    rewrite not_positive_false in P1. rewrite not_positive_false in P2.
    set (l := or_configured long (f_max_long f)) in *. set (s := or_configured short (f_max_short f)) in *.
    assert (W : forall w, worst = Some w -> (l <> None \/ s <> None) /\ (forall m, l = Some m -> (m <= w)%Z) /\ (forall m, s = Some m -> (m <= w)%Z)).
    { intros w ->. apply validate_false; assumption. }
    assert (WP : forall w, worst = Some w -> (0 <= w)%Z).
    { intros w K. destruct (W w K) as (N & A & B). destruct l as [m|]; [specialize (A m eq_refl); specialize (P1 m eq_refl); lia|].
      destruct s as [m|]; [specialize (B m eq_refl); specialize (P2 m eq_refl); lia|]. destruct N; contradiction. }
    rewrite (as_int_to_nat l) by (intros m K; specialize (P1 m K); lia).
    rewrite (as_int_to_nat s) by (intros m K; specialize (P2 m K); lia).
    rewrite (as_int_to_nat worst) by exact WP.
    exists (t_long (calls cs)), (t_short (calls cs)), (t_worst (calls cs)).
    refine (conj (in_effect_get cs LongLimit) (conj (in_effect_get cs ShortLimit) (conj (in_effect_get cs WorstRank) _))).
    refine (conj _ (conj _ (conj _ (conj P1 (conj P2 W))))).
    + apply resolve_limit. exists long. split; [exact E1 | reflexivity].
    + apply resolve_limit. exists short. split; [exact E2 | reflexivity].
    + apply resolve_limit. exists worst. split; [exact E3 | destruct worst; reflexivity].
  - intros (vl & vs & vw & I1 & I2 & I3 & L1 & L2 & L3 & P1 & P2 & W).
    apply in_effect_iff in I1. apply in_effect_iff in I2. apply in_effect_iff in I3. cbn in I1, I2, I3. subst vl vs vw.
    apply resolve_limit in L1 as (long & E1 & K1). apply resolve_limit in L2 as (short & E2 & K2). apply resolve_limit in L3 as (worst & E3 & K3).
    assert (K4 : worst = as_int (z_worst z)) by (destruct worst; exact K3). subst worst.
    rewrite E1, E2, E3. cbn [then_]. rewrite K1, K2.
    rewrite (proj2 (not_positive_false _) P1), (proj2 (not_positive_false _) P2).
    assert (Z0 : t_sizer (calls cs) && match as_int (z_worst z) with None => true | Some _ => false end = false).
    { destruct (t_sizer (calls cs)) eqn:S0; [|reflexivity]. cbn. apply sizer_needs_rotation in S0.
      destruct (as_int (z_worst z)) eqn:A; [reflexivity|]. exfalso. destruct (t_worst (calls cs)) as [v|]; [|contradiction].
      apply resolve_stands in E3 as (w & [=] & _). }
    rewrite Z0.
    assert (V0 : match as_int (z_worst z) with Some w => validate_worst_raises (Z.to_nat w) (to_nat (as_int (z_max_long z))) (to_nat (as_int (z_max_short z))) | None => false end = false).
    { destruct (as_int (z_worst z)) as [w|] eqn:A; [|reflexivity]. apply validate_false; [exact P1 | exact P2 | apply W; reflexivity]. }
    rewrite V0, !to_nat_as_int. eexists. destruct z; reflexivity.
Qed.

Lemma warned_iff f cs h z wl ws :
  resolve_settings f (calls cs) h = Fine (z, (wl, ws)) ->
  (wl = true <-> f_max_long f <> None /\ ~ in_effect cs LongLimit None) /\
  (ws = true <-> f_max_short f <> None /\ ~ in_effect cs ShortLimit None).
Proof.
  unfold resolve_settings. intros E. rewrite !in_effect_iff. cbn [get].
  destruct (resolve_setting (t_long (calls cs)) h) as [long|] eqn:E1; [|discriminate]. cbn [then_] in E.
  destruct (resolve_setting (t_short (calls cs)) h) as [short|] eqn:E2; [|discriminate]. cbn [then_] in E.
  destruct (resolve_setting (t_worst (calls cs)) h) as [worst|] eqn:E3; [|discriminate]. cbn [then_] in E.
  destruct (not_positive _); [discriminate|]. destruct (not_positive _); [discriminate|].
  destruct (_ && _); [discriminate|]. destruct (match worst with Some _ => _ | None => _ end); [discriminate|].
  injection E as _ <- <-.
  assert (G : forall v r, resolve_setting v h = Fine r -> (v = None <-> r = None)).
  { intros [s|] r K; [apply resolve_stands in K as (w & -> & _); split; discriminate | injection K as <-; split; reflexivity]. }
  rewrite (G _ _ E1), (G _ _ E2).
  split.
  - destruct long, (f_max_long f); cbn; split; try discriminate; try (intros _; split; discriminate); try reflexivity; intros (A & B); congruence.
  - destruct short, (f_max_short f); cbn; split; try discriminate; try (intros _; split; discriminate); try reflexivity; intros (A & B); congruence.
Qed.

Lemma never_sizer_alone f cs h : resolve_settings f (calls cs) h <> Fail SizerAlone.
Proof.
  unfold resolve_settings. intros E.
  assert (G : forall v e, resolve_setting v h = Fail e -> e <> SizerAlone).
  { intros [[z|q|n]|] e K; try discriminate. cbn in K. destruct h as [look|]; [destruct (look n) as [[q|]|]|]; injection K as <- || discriminate; discriminate. }
  destruct (resolve_setting (t_long (calls cs)) h) as [long|e] eqn:E1; [|injection E as ->; exact (G _ _ E1 eq_refl)]. cbn [then_] in E.
  destruct (resolve_setting (t_short (calls cs)) h) as [short|e] eqn:E2; [|injection E as ->; exact (G _ _ E2 eq_refl)]. cbn [then_] in E.
  destruct (resolve_setting (t_worst (calls cs)) h) as [worst|e] eqn:E3; [|injection E as ->; exact (G _ _ E3 eq_refl)]. cbn [then_] in E.
  destruct (not_positive _); [discriminate|]. destruct (not_positive _); [discriminate|].
  destruct (t_sizer (calls cs)) eqn:S0; cbn [andb] in E.
  - apply sizer_needs_rotation in S0. destruct worst as [w|].
    + destruct (validate_worst_raises _ _ _); discriminate.
    + destruct (t_worst (calls cs)) as [v|]; [|contradiction]. apply resolve_stands in E3 as (w & [=] & _).
  - destruct (match worst with Some _ => _ | None => _ end); discriminate.
Qed.

Lemma same_values f cs look look' :
  (forall n, (in_effect cs LongLimit (Some (SHyper n)) \/ in_effect cs ShortLimit (Some (SHyper n)) \/ in_effect cs WorstRank (Some (SHyper n))) -> look n = look' n) ->
  resolve_settings f (calls cs) (Some look) = resolve_settings f (calls cs) (Some look').
Proof.
  intros H. unfold resolve_settings.
  assert (G : forall v, (forall n, v = Some (SHyper n) -> look n = look' n) -> resolve_setting v (Some look) = resolve_setting v (Some look')).
  { intros [[z|q|n]|] K; try reflexivity. cbn. rewrite (K n eq_refl). reflexivity. }
  rewrite (G (t_long (calls cs))), (G (t_short (calls cs))), (G (t_worst (calls cs))); [reflexivity | | |];
    intros n E; apply H; rewrite !in_effect_iff; cbn [get]; auto.
Qed.
