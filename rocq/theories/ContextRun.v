(** Proofs about target sizing and about contexts from bar to bar. *)
From Verif Require Import Lemmas PortfolioFacts.
From Verif Require Export ContextProofs LoopSend TurnSpec.

(** ** Target sizing *)
Lemma calc_target_spec c equity target price cash :
  match calc_target_shares c equity target price cash with
  | None => match price with Some x => x <= 0 | None => True end
  | Some t => exists x, price = Some x /\ 0 < x /\
      let base := match cash with Some b => b | None => equity * c_leverage c end in
      0 <= t /\ (0 <= base * target -> t * x <= base * target) /\ (base * target <= 0 -> t == 0) /\
      if c_fractional c then 0 <= base * target -> t * x == base * target
      else (exists z, t == inject_Z z) /\ forall z, 0 <= base * target -> inject_Z z * x <= base * target -> inject_Z z <= t
  end.
Proof.
  unfold calc_target_shares. destruct price as [x|]; [|exact I]. destruct (Qle_bool x 0) eqn:X; [now apply Qle_bool_iff|].
  assert (X0 : 0 < x) by (destruct (Qlt_le_dec 0 x) as [L|L]; auto; apply Qle_bool_iff in L; congruence).
  set (base := match cash with Some b => b | None => equity * c_leverage c end). exists x. split; auto. split; auto. cbn zeta. fold base.
  assert (MUL : base * target / x * x == base * target) by (field; lra).
  assert (SIGN : 0 <= base * target -> 0 <= base * target / x).
  { intro H. apply Qle_shift_div_l; auto. lra. }
  assert (SIGN' : base * target <= 0 -> base * target / x <= 0).
  { intro H. apply Qle_shift_div_r; auto. lra. }
  destruct (c_fractional c).
  - assert (MX : (0 <= base * target / x -> Qmax (base * target / x) 0 == base * target / x) /\ (base * target / x <= 0 -> Qmax (base * target / x) 0 == 0)).
    { unfold Qmax, GenericMinMax.gmax. destruct (base * target / x ?= 0) eqn:C.
      - apply Qeq_alt in C. split; intro; lra.
      - apply Qlt_alt in C. split; intro; lra.
      - apply Qgt_alt in C. split; intro; lra. }
    destruct MX as [M1 M2].
    split.
    { destruct (Qlt_le_dec (base * target / x) 0) as [L|L]; [rewrite M2 by lra; lra|rewrite M1; auto]. }
    split; [intro H; rewrite (M1 (SIGN H)), MUL; lra|]. split; [intro H; exact (M2 (SIGN' H))|].
    intro H. rewrite (M1 (SIGN H)). exact MUL.
  - unfold Qtrunc. destruct (Qle_bool 0 (base * target / x)) eqn:D.
    + apply Qle_bool_iff in D. assert (FL : (0 <= Qfloor (base * target / x))%Z).
      { change 0%Z with (Qfloor 0). now apply Qfloor_resp_le. }
      rewrite Z.max_l by auto. pose proof (Qfloor_le (base * target / x)) as F1.
      assert (F2 : inject_Z (Qfloor (base * target / x)) * x <= base * target).
      { apply Qle_trans with (base * target / x * x); [apply Qmult_le_compat_r; lra|rewrite MUL; lra]. }
      split; [change 0 with (inject_Z 0); rewrite <- Zle_Qle; exact FL|]. split; [auto|].
      split.
      { intro H. specialize (SIGN' H). assert (E : base * target / x == 0) by lra. rewrite (Qfloor_comp _ _ E). reflexivity. }
      split; [eexists; reflexivity|]. intros z _ H. rewrite <- Zle_Qle.
      assert (L : inject_Z z <= base * target / x) by (apply Qle_shift_div_l; auto).
      apply Qfloor_resp_le in L. rewrite Qfloor_Z in L. exact L.
    + assert (D' : base * target / x < 0) by (destruct (Qlt_le_dec (base * target / x) 0) as [L|L]; auto; apply Qle_bool_iff in L; congruence).
      assert (CL : (Qceiling (base * target / x) <= 0)%Z).
      { change 0%Z with (Qceiling 0). apply Qceiling_resp_le. lra. }
      rewrite Z.max_r by auto. change (inject_Z 0) with 0. split; [lra|]. split; [intro H; specialize (SIGN H); lra|]. split; [reflexivity|].
      split; [exists 0%Z; reflexivity|]. intros z H. specialize (SIGN H). lra.
Qed.

Notation order_effect := net_ordered.
Notation net_of := net_target.
Lemma target_effect c p s y target sd g g' : g_bshares g = None -> g_sshares g = None -> 0 < y ->
  set_target_shares c p s (Some y) target sd g = Some g' ->
  exists t, calc_target_shares c (p_equity p) target (Some y) None = Some t /\
    (g_bshares g' = None \/ g_sshares g' = None) /\
    net_of sd (shares_held p sd s) + order_effect g' == net_of sd t.
Proof.
  intros B S Y. unfold set_target_shares. destruct (Qltb target 0); [discriminate|].
  destruct (Qle_bool y 0) eqn:Q; [apply Qle_bool_iff in Q; lra|]. destruct (calc_target_shares _ _ _ _ _) as [t|]; [|discriminate].
  intros [= <-]. exists t. split; auto. unfold shares_held, position_of. destruct sd; cbn [poss].
  - destruct (aget s (p_longs p)) as [pos|].
    + destruct (Qltb (ps_shares pos) t) eqn:E1; [|destruct (Qltb t (ps_shares pos)) eqn:E2].
      * split; [right; exact S|]. unfold net_ordered. cbn. rewrite S. cbn. lra.
      * unfold exit_target_pos. destruct (Qltb 0 t); (split; [left; exact B|]); unfold net_ordered; cbn; rewrite B; cbn; lra.
      * split; [left; exact B|]. unfold net_ordered. rewrite B, S. cbn. qb. lra.
    + split; [right; exact S|]. unfold net_ordered. cbn. rewrite S. cbn. lra.
  - destruct (aget s (p_shorts p)) as [pos|].
    + destruct (Qltb (ps_shares pos) t) eqn:E1; [|destruct (Qltb t (ps_shares pos)) eqn:E2].
      * split; [left; exact B|]. unfold net_ordered. cbn. rewrite B. cbn. lra.
      * unfold exit_target_pos. destruct (Qltb 0 t); (split; [right; exact S|]); unfold net_ordered; cbn; rewrite S; cbn; lra.
      * split; [left; exact B|]. unfold net_ordered. rewrite B, S. cbn. qb. lra.
    + split; [left; exact B|]. unfold net_ordered. cbn. rewrite B. cbn. lra.
Qed.
Lemma held_nonneg c ops p sd s : cfg_ok c -> run c ops = Some p -> position_of p sd s = None -> shares_held p sd s == 0.
Proof. intros _ _ E. unfold shares_held. rewrite E. reflexivity. Qed.
(** Once the order has filled in full, whatever else happened to other symbols,
    the target is held. *)
Lemma target_reached c ops p s y target sd g g' more p' : cfg_ok c -> run c ops = Some p -> position_of p (match sd with Long => Short | Short => Long end) s = None ->
  g_bshares g = None -> g_sshares g = None -> 0 < y -> set_target_shares c p s (Some y) target sd g = Some g' ->
  run c (ops ++ more) = Some p' -> signed_volume s (p_orders p') == signed_volume s (p_orders p) + order_effect g' ->
  exists t, calc_target_shares c (p_equity p) target (Some y) None = Some t /\ shares_held p' sd s == t /\
    position_of p' (match sd with Long => Short | Short => Long end) s = None.
Proof.
  intros CO R NO B S Y T R' V. destruct (target_effect _ _ _ _ _ _ _ _ B S Y T) as [t [C [_ E]]]. exists t. split; auto.
  pose proof (order_log c ops p s CO R) as L1. pose proof (order_log c _ p' s CO R') as L2.
  pose proof (calc_target_spec c (p_equity p) target (Some y) None) as CT. rewrite C in CT. destruct CT as [x [_ [_ [T0 _]]]].
  destruct (one_side c _ p' s CO R') as [D _].
  assert (PS : forall sd0, position_of p' sd0 s <> None -> 0 < shares_held p' sd0 s).
  { intros sd0 N. destruct (position_of p' sd0 s) as [pos|] eqn:P; [|congruence]. unfold shares_held. rewrite P.
    exact (position_shares_pos c _ p' sd0 s pos CO R' P). }
  destruct sd; cbn [net_target] in *.
  - rewrite (held_nonneg c ops p Short s CO R NO) in L1. assert (N : shares_held p' Long s - shares_held p' Short s == t) by lra.
    destruct (position_of p' Short s) eqn:P2.
    + assert (P1 : position_of p' Long s = None) by (destruct D; congruence).
      pose proof (held_nonneg c _ p' Long s CO R' P1). assert (0 < shares_held p' Short s) by (apply PS; congruence). exfalso. lra.
    + pose proof (held_nonneg c _ p' Short s CO R' P2). split; auto. lra.
  - rewrite (held_nonneg c ops p Long s CO R NO) in L1. assert (N : shares_held p' Long s - shares_held p' Short s == - t) by lra.
    destruct (position_of p' Long s) eqn:P2.
    + assert (P1 : position_of p' Short s = None) by (destruct D; congruence).
      pose proof (held_nonneg c _ p' Short s CO R' P1). assert (0 < shares_held p' Long s) by (apply PS; congruence). exfalso. lra.
    + pose proof (held_nonneg c _ p' Long s CO R' P2). split; auto. lra.
Qed.

(** ** From bar to bar *)
(** The same state with other contexts. *)
Definition with_ctx (y : ctxs) (b : bstate) : bstate := set_ctx y (b_stop b) b.
Section Ctx.
Variable v : env.
Variable y : ctxs.
Notation W := (with_ctx y).
Notation OW := (option_map (with_ctx y)).
Lemma w_op o b : do_op v o (W b) = OW (do_op v o b).
Proof. unfold do_op. change (b_port (W b)) with (b_port b). destruct (step _ _ _); reflexivity. Qed.
Lemma w_attempt i d n b : attempt v i d n (W b) = option_map (fun x => (W (fst x), snd x)) (attempt v i d n b).
Proof.
  unfold attempt. change (b_port (W b)) with (b_port b). destruct (v_fetch _ _ _ _); [|reflexivity]. destruct (clamp_exit _ _ _); [|reflexivity].
  destruct (apply_slip _ _ _ _ _) as [[sh fill]|]; [|reflexivity]. destruct (match n_type n with OBuy => _ | OSell => _ end); reflexivity.
Qed.
Lemma w_settle n i d b : attempt_and_settle v i d n (W b) = OW (attempt_and_settle v i d n b).
Proof.
  unfold attempt_and_settle. change (set_pend (KMark (n_id n)) (W b)) with (W (set_pend (KMark (n_id n)) b)). rewrite w_attempt.
  destruct (attempt v i d n _) as [[b1 f]|]; cbn [option_map fst snd]; [|reflexivity]. destruct (f || negb (is_persistent_limit n)); reflexivity.
Qed.
Lemma w_fold {A} (f : option bstate -> A -> option bstate) (l : list A) : (forall a, f None a = None) ->
  (forall a b, f (Some (W b)) a = OW (f (Some b) a)) -> forall st, fold_left f l (OW st) = OW (fold_left f l st).
Proof.
  intros N S. induction l as [|a l IH]; intro st; cbn [fold_left]; [reflexivity|]. rewrite <- IH. f_equal.
  destruct st as [b|]; cbn [option_map]; [apply S|]. now rewrite N.
Qed.
Lemma w_place1 i d w b r : place1 v i d w (Some (W b)) r = OW (place1 v i d w (Some b) r).
Proof.
  unfold place1. change (b_pend (W b)) with (b_pend b). destruct (negb _); [reflexivity|]. destruct (r_pid r); [|reflexivity].
  destruct (negb _); [reflexivity|]. destruct (get _ _); [|reflexivity]. apply w_settle.
Qed.
Lemma w_place w now i d st : place_if v w now i d (OW st) = OW (place_if v w now i d st).
Proof.
  destruct st as [b|]; [|reflexivity]. cbn [option_map place_if]. destruct now; [|reflexivity]. unfold place_orders.
  replace (get_sched w (W b)) with (get_sched w b) by (destruct w; reflexivity).
  change (Some (W b)) with (OW (Some b)). rewrite w_fold; [|reflexivity|intros; apply w_place1].
  destruct (fold_left _ _ _) as [b'|]; [|reflexivity]. cbn [option_map]. destruct w; reflexivity.
Qed.
Lemma w_persist i d b : process_persistent v i d (W b) = OW (process_persistent v i d b).
Proof.
  unfold process_persistent. change (b_pend (W b)) with (b_pend b). destruct (has_orders (b_pend b)); [|reflexivity].
  change (Some (W b)) with (OW (Some b)). apply w_fold; [reflexivity|]. intros n b0. unfold persist1. change (b_pend (W b0)) with (b_pend b0).
  change (has_bar_on v (W b0) (n_sym n) d) with (has_bar_on v b0 (n_sym n) d).
  destruct (Z.ltb d (n_exec n)); [reflexivity|]. destruct (Z.eqb _ _ && _); [reflexivity|]. destruct (negb (has_bar_on _ _ _ _)); [reflexivity|].
  destruct (negb (was_attempted _ _)); [apply w_settle|]. destruct (n_timeout n); [|reflexivity]. cbn zeta.
  change (set_pend (KAdvance (n_id n)) (W b0)) with (W (set_pend (KAdvance (n_id n)) b0)).
  change (b_pend (W (set_pend (KAdvance (n_id n)) b0))) with (b_pend (set_pend (KAdvance (n_id n)) b0)).
  destruct (Z.leb 0 z && _); [reflexivity|apply w_settle].
Qed.
Lemma w_sort d b : sort_scheds v d (W b) = W (sort_scheds v d b).
Proof.
  assert (S : forall w f b0, sort_sched w f d (W b0) = W (sort_sched w f d b0)).
  { intros w f b0. unfold sort_sched. replace (get_sched w (W b0)) with (get_sched w b0) by (destruct w; reflexivity). destruct (zhas d (get_sched w b0)); destruct w; reflexivity. }
  unfold sort_scheds. destruct (v_sort_long v), (v_sort_short v); rewrite ?S; reflexivity.
Qed.
Lemma w_bind (f : bstate -> option bstate) st : (forall b, f (W b) = OW (f b)) -> bind (OW st) f = OW (bind st f).
Proof. intro H. destruct st; cbn [option_map bind]; auto. Qed.
Lemma w_settle_bar i d b : settle v i d (W b) = OW (settle v i d b).
Proof.
  unfold settle. change (b_cover (W b)) with (b_cover b). change (b_buy (W b)) with (b_buy b). change (b_sell (W b)) with (b_sell b). rewrite w_sort. 
  change (scope_on v (W (sort_scheds v d b)) i d) with (scope_on v (sort_scheds v d b) i d). rewrite w_op, !w_place.
  rewrite w_bind by (intro; apply w_persist). apply w_bind. intro b0. change (bar_on v (W b0) i d) with (bar_on v b0 i d). apply w_op.
Qed.
Lemma w_cancel l st : fold_left (do_cancel v) l (OW st) = OW (fold_left (do_cancel v) l st).
Proof.
  apply w_fold; [reflexivity|]. intros x b. unfold do_cancel, bind. destruct x; try reflexivity; apply w_op.
Qed.
Lemma w_schedule d k w l st : fold_left (schedule_order v d k w) l (OW st) = OW (fold_left (schedule_order v d k w) l st).
Proof.
  apply w_fold; [reflexivity|]. intros r b. unfold schedule_order. change (end_of (W b) (r_sym r)) with (end_of b (r_sym r)).
  change (b_pend (W b)) with (b_pend b). destruct (exec_date _ _ _ _) as [[date iw]|]; [|reflexivity]. destruct (to_add _ _ _ _) as [a|]; [|reflexivity].
  destruct iw, w; reflexivity.
Qed.
Lemma w_exit i d l st : fold_left (do_exit v i d) l (OW st) = OW (fold_left (do_exit v i d) l st).
Proof. apply w_fold; [reflexivity|]. intros s b. unfold do_exit, bind. apply w_op. Qed.
Lemma w_rotate i b x : rotate v i (W b) x = rotate v i b x.
Proof. reflexivity. Qed.
Lemma w_incr d b : do_op v (OpIncr (fun s => has_bar_on v (W b) s d)) (W b) = OW (do_op v (OpIncr (fun s => has_bar_on v b s d)) b).
Proof. apply (w_op (OpIncr (fun s => has_bar_on v b s d))). Qed.
End Ctx.
(** Forgetting the contexts. *)
Definition no_ctx (b : bstate) : bstate := with_ctx [] b.
Lemma no_ctx_eq b b' : no_ctx b = no_ctx b' -> exists y, b' = with_ctx y b.
Proof. destruct b, b'. unfold no_ctx, with_ctx, set_ctx. cbn. intros [= -> -> -> -> -> -> -> -> -> ->]. eexists. reflexivity. Qed.
Lemma w_decide v i d act ex y b : (forall s, In s act -> aget s y = aget s (b_ctx b)) ->
  option_map no_ctx (decide v i d act ex (with_ctx y b)) = option_map no_ctx (decide v i d act ex b).
Proof.
  intro A. unfold decide. change (b_ctx (with_ctx y b)) with y.
  assert (X : map (fun s => (s, match aget s y with Some g => g | None => no_signals end)) act =
              map (fun s => (s, match aget s (b_ctx b) with Some g => g | None => no_signals end)) act) by (apply map_ext_in; intros s I; now rewrite A).
  rewrite X. change (b_port (with_ctx y b)) with (b_port b). change (b_pend (with_ctx y b)) with (b_pend b). set (x := map _ act). set (u := v_user v i d (b_port b) (b_pend b) x).
  change (Some (with_ctx y b)) with (option_map (with_ctx y) (Some b)). rewrite w_cancel.
  destruct (fold_left (do_cancel v) (u_cancel u) (Some b)) as [b1|]; [|reflexivity]. cbn [option_map bind]. rewrite w_rotate.
  destruct (rotate v i b1 _) as [x2|]; [|reflexivity]. change (b_stop (with_ctx y b1)) with (b_stop b1).
  destruct (collect v d x2 (b_stop b1)) as [[[[cs bs] ss] n]|]; [|reflexivity].
  change (b_ctx (with_ctx y b1)) with y. set (c1 := fold_left _ x2 y). set (c2 := fold_left _ x2 (b_ctx b1)).
  replace (set_ctx c1 n (with_ctx y b1)) with (with_ctx c1 (set_ctx c2 n b1)) by reflexivity.
  change (Some (with_ctx c1 (set_ctx c2 n b1))) with (option_map (with_ctx c1) (Some (set_ctx c2 n b1))).
  rewrite !w_schedule, w_exit. destruct (fold_left (do_exit v i d) ex _) as [b6|]; [|reflexivity]. cbn [option_map bind].
  rewrite (w_incr v c1 d b6). destruct (do_op v _ b6); reflexivity.
Qed.
Lemma reset_ctx act : forall y s, In s act -> aget s (fold_left (fun l s => aset s (set_exec_ctx_data (match aget s l with Some g => g | None => no_signals end)) l) act y) = Some no_signals.
Proof.
  assert (K : forall act y s, aget s y = Some no_signals -> aget s (fold_left (fun l s => aset s (set_exec_ctx_data (match aget s l with Some g => g | None => no_signals end)) l) act y) = Some no_signals).
  { induction act0 as [|a act0 IH]; intros y s E; cbn [fold_left]; auto. apply IH. rewrite aget_aset. destruct (Nat.eqb s a); auto. }
  induction act as [|a act IH]; intros y s I; [destruct I|]. cbn [fold_left]. destruct I as [<-|I]; [|now apply IH]. apply K. apply aget_aset_eq.
Qed.
Lemma w_bar v i d y b : option_map no_ctx (bar v i d (with_ctx y b)) = option_map no_ctx (bar v i d b).
Proof.
  unfold bar. change (activate v d (with_ctx y b)) with (activate v d b). destruct (activate v d b) as [[e act] ex].
  change (b_stop (set_ends e (with_ctx y b))) with (b_stop (set_ends e b)). change (b_ctx (set_ends e (with_ctx y b))) with y.
  set (c1 := fold_left _ act y). set (c2 := fold_left _ act (b_ctx (set_ends e b))).
  change (set_ctx c1 (b_stop (set_ends e b)) (set_ends e (with_ctx y b))) with (with_ctx c1 (set_ctx c2 (b_stop (set_ends e b)) (set_ends e b))).
  rewrite w_settle_bar. set (b0 := set_ctx c2 _ _).
  assert (CX : forall b1, settle v i d b0 = Some b1 -> b_ctx b1 = c2).
  { intros b1 E. assert (E' : settle v i d (with_ctx c2 b0) = option_map (with_ctx c2) (settle v i d b0)) by apply w_settle_bar.
    change (with_ctx c2 b0) with b0 in E'. rewrite E in E'. cbn [option_map] in E'. injection E' as E'. rewrite E'. reflexivity. }
  destruct (settle v i d b0) as [b1|]; [|reflexivity]. specialize (CX b1 eq_refl). cbn [option_map bind]. apply w_decide.
  intros s I. rewrite CX. unfold c1, c2. now rewrite !reset_ctx.
Qed.
Lemma w_bars v dates : forall i y b, option_map no_ctx (bars_from v i dates (with_ctx y b)) = option_map no_ctx (bars_from v i dates b).
Proof.
  induction dates as [|d dates IH]; intros i y b; cbn [bars_from]; [reflexivity|].
  pose proof (w_bar v i d y b) as H. destruct (bar v i d (with_ctx y b)) as [b1|], (bar v i d b) as [b2|]; cbn [option_map] in H; try discriminate; [|reflexivity].
  assert (H' : no_ctx b2 = no_ctx b1) by (remember (no_ctx b1); remember (no_ctx b2); congruence). apply no_ctx_eq in H'. destruct H' as [z ->]. apply IH.
Qed.
Lemma same_ctx b b' : same_but_contexts b b' <-> no_ctx b = no_ctx b'.
Proof.
  destruct b, b'. unfold no_ctx, with_ctx, set_ctx. cbn. split.
  - intros [H1 H2 [H3 [H4 H5]] H6 H7 [H8 [H9 H10]]]. cbn in *. congruence.
  - intros [= -> -> -> -> -> -> -> -> -> ->]. constructor; auto.
Qed.
Lemma bars_same v dates i b1 b2 : same_but_contexts b1 b2 ->
  match bars_from v i dates b1, bars_from v i dates b2 with
  | Some r1, Some r2 => same_but_contexts r1 r2
  | None, None => True
  | _, _ => False
  end.
Proof.
  intro H. apply same_ctx, no_ctx_eq in H. destruct H as [y ->]. pose proof (w_bars v dates i y b1) as W.
  destruct (bars_from v i dates b1), (bars_from v i dates (with_ctx y b1)); try discriminate; auto.
  apply same_ctx. symmetry. remember (no_ctx b). remember (no_ctx b0). cbn in W. rewrite <- Heqb2, <- Heqb3 in W. congruence.
Qed.
Lemma order_toward c p s y target sd g g' : g_bshares g = None -> g_sshares g = None -> 0 < y -> set_target_shares c p s (Some y) target sd g = Some g' ->
  position_of p (match sd with Long => Short | Short => Long end) s = None ->
  exists t, calc_target_shares c (p_equity p) target (Some y) None = Some t /\ (g_bshares g' = None \/ g_sshares g' = None) /\
    net_held p s + net_ordered g' == net_target sd t.
Proof.
  intros B S Y T N. destruct (target_effect _ _ _ _ _ _ _ _ B S Y T) as [t [C [O E]]]. exists t. split; auto. split; auto.
  unfold net_held. assert (Z : shares_held p (match sd with Long => Short | Short => Long end) s == 0) by (unfold shares_held; rewrite N; reflexivity).
  destruct sd; cbn [net_target] in *; lra.
Qed.
Lemma same_set y b : same_but_contexts (set_ctx y (b_stop b) b) b.
Proof. constructor; auto. Qed.
