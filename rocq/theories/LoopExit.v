(** Exit orders, and the readable form of the order life (LoopHist.v). *)
From Verif Require Import PortfolioFacts PortfolioSend.
From Verif Require Export LoopSend.

(** ** C25 *)
Lemma order_attempts c l k b n : windows_ok c l -> backtests l (fresh c k) = Some b -> In n (entered (b_kops b)) ->
  (exists rest, from n (own_bars l (n_sym n)) = map fst (attempts b (n_id n)) ++ rest /\ (pending_now b (n_id n) = true -> rest = [])) /\
  NoDup (map fst (attempts b (n_id n))) /\
  allowed_attempts n (length (attempts b (n_id n))) /\
  (forall l1 x l2, attempts b (n_id n) = l1 ++ x :: l2 -> snd x = true -> l2 = [] /\ pending_now b (n_id n) = false).
Proof.
  intros W E I. destruct (backtests_life c l k b W E) as [C [_ OK]]. specialize (OK n I). destruct OK as [[r [E1 E2]] H2 H3 _ _].
  rewrite <- (pending_live b (n_id n) C) in *. split; [exists r; auto|]. split; [|split; auto].
  pose proof (own_ascending c l (n_sym n) W) as A. apply ascending_nodup in A.
  assert (N : NoDup (from n (own_bars l (n_sym n)))) by (apply NoDup_filter, A). rewrite E1 in N.
  revert N. generalize (map fst (attempts b (n_id n))). clear. intros q N. induction q as [|x q IH]; [constructor|]. inversion N as [|? ? H1 H2]; subst.
  constructor; [|exact (IH H2)]. intro J. apply H1. apply in_app_iff. auto.
Qed.
Lemma order_gone c l k b n : windows_ok c l -> backtests l (fresh c k) = Some b -> In n (entered (b_kops b)) ->
  pending_now b (n_id n) = false -> finished (asked l) (from n (own_bars l (n_sym n))) b n.
Proof.
  intros W E I P. destruct (backtests_life c l k b W E) as [C [_ OK]]. apply (or_gone _ _ _ _ (OK n I)). now rewrite <- (pending_live b (n_id n) C).
Qed.
Lemma order_origin c l k b n : windows_ok c l -> backtests l (fresh c k) = Some b -> In n (entered (b_kops b)) ->
  exists v, In v l /\ In (n_sym n) (v_syms v) /\ In (n_created n) (v_sdates v (n_sym n)) /\
    bars_later (calendar v (n_sym n)) (n_created n) (delay v (n_type n)) (n_exec n) /\ (n_created n < n_exec n)%Z /\
    forall x f, In (x, f) (attempts b (n_id n)) -> (n_exec n <= x)%Z /\ In x (own_bars l (n_sym n)).
Proof.
  intros W E I. destruct (backtests_life c l k b W E) as [C [FB OK]]. rewrite Forall_forall in FB. destruct (FB n I) as [v [Iv B]].
  pose proof (created_before_exec v n (proj1 (windows_env _ _ v W Iv)) B) as LT. destruct B as [B1 [B2 B3]].
  exists v. do 5 (split; auto). intros x f J. destruct (OK n I) as [[r [E1 _]] _ _ _ _].
  assert (IX : In x (from n (own_bars l (n_sym n)))) by (rewrite E1; apply in_app_iff; left; apply in_map_iff; exists (x, f); auto).
  unfold from in IX. apply filter_In in IX. destruct IX as [IX LE]. apply Z.leb_le in LE. auto.
Qed.
Lemma call_origin c l k b ty a : windows_ok c l -> backtests l (fresh c k) = Some b -> In (order_call ty a) (b_ops b) ->
  exists n, In n (entered (b_kops b)) /\ made_for b ty a n /\ (n_created n < a_date a)%Z.
Proof.
  intros W E I. destruct (backtests_calls c l k b W E) as [_ H]. apply in_split in I. destruct I as [l1 [l2 I]]. destruct (H l1 ty a l2 I) as [n [I1 [M _]]]. exists n. split; auto. split; auto.
  destruct (order_origin c l k b n W E I1) as [v [_ [_ [_ [_ [LT AT]]]]]]. destruct (mf_att _ _ _ _ M) as [f [J _]]. destruct (AT _ _ J). lia.
Qed.

(** ** C26 *)
Lemma queue_nil c ops p sd s : cfg_ok c -> run c ops = Some p -> (queue p sd s = [] <-> position_of p sd s = None).
Proof.
  intros K R. unfold queue. destruct (position_of p sd s) as [pos|] eqn:E; [|tauto]. destruct (position_facts c ops p sd s pos K R E) as [_ [_ [N _]]].
  split; [tauto|discriminate].
Qed.
Lemma held_pos c ops p sd s : cfg_ok c -> run c ops = Some p -> 0 < shares_held p sd s -> position_of p (match sd with Long => Short | Short => Long end) s = None.
Proof.
  intros K R H. destruct (one_side c ops p s K R) as [D _]. unfold shares_held in H. destruct sd; destruct D as [D|D]; auto; rewrite D in H; lra.
Qed.
(** Reducing a position by no more than is held. *)
Definition reduced (p p' : port) (ty : oside) (s : sym) : Prop :=
  exists ord, p_orders p' = p_orders p ++ [ord] /\ o_sym ord = s /\ o_side ord = ty /\
    0 < o_shares ord /\ o_shares ord <= shares_held p (closing ty) s /\
    shares_held p' (closing ty) s == shares_held p (closing ty) s - o_shares ord /\ position_of p' (opening_side ty) s = None.
Lemma exit_send c ops p ty a p' x : cfg_ok c -> run c ops = Some p -> send c ty a p = Ret p' x ->
  a_shares a <= shares_held p (closing ty) (a_sym a) ->
  match x with Some _ => reduced p p' ty (a_sym a) | None => same_account p p' end.
Proof.
  intros K R S7 LE. destruct x as [ord|]; [|exact (order_unfilled _ _ _ _ _ _ K R S7)].
  destruct (order_fill _ _ _ _ _ _ _ K R S7) as [F1 [F2 [_ [_ [_ [_ [F7 [F8 [F9 _]]]]]]]]].
  destruct (order_fifo _ _ _ _ _ _ _ K R S7) as [ts [cl [_ [_ [_ [CM [Q1 _]]]]]]].
  assert (R' : run c (ops ++ [send_op ty a]) = Some p') by (eapply run_snoc; [exact R|eapply exec_send; exact S7]).
  assert (CE : cl == a_shares a) by (rewrite CM; apply Q.min_l; lra).
  assert (QN : queue p' (opening_side ty) (a_sym a) = queue p (opening_side ty) (a_sym a)).
  { destruct Q1 as [[Q1 _]|[e [_ [_ Q3]]]]; auto. exfalso. lra. }
  assert (H0 : 0 < shares_held p (closing ty) (a_sym a)) by lra.
  assert (PN : position_of p (opening_side ty) (a_sym a) = None).
  { pose proof (held_pos _ _ _ _ _ K R H0) as PN. destruct ty; exact PN. }
  assert (PN' : position_of p' (opening_side ty) (a_sym a) = None).
  { apply (queue_nil _ _ _ _ _ K R'). rewrite QN. now apply (queue_nil _ _ _ _ _ K R). }
  exists ord. do 4 (split; auto). split; [lra|]. split; auto.
  pose proof (order_log _ _ _ (a_sym a) K R) as V. pose proof (order_log _ _ _ (a_sym a) K R') as V'. rewrite F9 in V'.
  unfold signed_volume in V'. rewrite map_app in V'. cbn [map] in V'. rewrite F2, Nat.eqb_refl, F1 in V'.
  rewrite Qsum_app in V'. cbn [Qsum fold_right] in V'. fold (signed_volume (a_sym a) (p_orders p)) in V'.
  assert (Z0 : shares_held p (opening_side ty) (a_sym a) = 0) by (unfold shares_held; now rewrite PN).
  assert (Z1 : shares_held p' (opening_side ty) (a_sym a) = 0) by (unfold shares_held; now rewrite PN').
  destruct ty; cbn [closing opening_side dir] in *; rewrite Z0 in V; rewrite Z1 in V'; lra.
Qed.
Lemma exec_none c l : fold_left (exec c) l None = None.
Proof. induction l; cbn; auto. Qed.
Lemma run_app c l1 l2 p : run c (l1 ++ l2) = Some p -> exists q, run c l1 = Some q /\ fold_left (exec c) l2 (Some q) = Some p.
Proof.
  unfold run. rewrite fold_left_app. destruct (fold_left (exec c) l1 (Some (init c))) as [q|]; [eauto|].
  rewrite exec_none. discriminate.
Qed.
Lemma exit_calls c l k b l1 ty a l2 : cfg_ok c -> windows_ok c l -> backtests l (fresh c k) = Some b ->
  b_ops b = l1 ++ order_call ty a :: l2 ->
  exists n p p' x, In n (entered (b_kops b)) /\ made_for b ty a n /\ run c l1 = Some p /\ send c ty a p = Ret p' x /\
    (exit_of n -> match x with Some _ => reduced p p' ty (n_sym n) | None => same_account p p' end).
Proof.
  intros K W E O. destruct (backtests_calls c l k b W E) as [_ H]. destruct (H l1 ty a l2 O) as [n [I1 [M [p [p' [x [R1 [Y X]]]]]]]].
  exists n, p, p', x. do 4 (split; auto). intro EX. rewrite <- (mf_sym _ _ _ _ M).
  apply (exit_send c l1 p ty a p' x K R1 Y). rewrite (mf_sym _ _ _ _ M). auto.
Qed.
Lemma exit_nothing_held c v i d n b b' : v_cfg v = c -> refined c b ->
  n_exit n = Some (closing (n_type n)) -> position_of (b_port b) (closing (n_type n)) (n_sym n) = None ->
  attempt_and_settle v i d n b = Some b' ->
  b_port b' = b_port b /\ (pending_now b' (n_id n) = true -> persistent n).
Proof.
  intros Ec [C _] X N E. unfold attempt_and_settle in E.
  destruct (attempt v i d n (set_pend (KMark (n_id n)) b)) as [[b1 f]|] eqn:A; [|discriminate].
  assert (F : b_port b1 = b_port b /\ f = false).
  { unfold attempt in A. destruct (v_fetch v i (n_sym n) (n_fill n)); [|injection A as <- <-; auto].
    unfold clamp_exit in A. rewrite X in A. cbn [set_pend b_port] in A. unfold position_of in N. rewrite N in A.
    destruct (Qltb 0 (get_shares v (n_shares n))) eqn:L; [cbn in A; injection A as <- <-; auto|].
    destruct (Qle_bool (get_shares v (n_shares n)) 0) eqn:L2; [injection A as <- <-; auto|]. qb. lra. }
  destruct F as [F1 ->]. cbn [orb] in E. destruct (is_persistent_limit n) eqn:G; cbn [negb] in E; injection E as <-.
  - split; auto. intros _. unfold is_persistent_limit in G. unfold persistent. destruct (n_limit n), (n_timeout n); try discriminate. split; discriminate.
  - split; auto. assert (C1 : b_pend b1 = krun (b_kops b1)).
    { destruct (attempt_spec _ _ _ _ _ _ _ A) as [[P [_ [_ [_ [_ [_ [_ K]]]]]]] _]. rewrite P, K. unfold set_pend. cbn [b_pend b_kops]. rewrite (co_pend _ C). symmetry. apply krun_snoc. }
    unfold pending_now, set_pend. cbn [b_pend]. rewrite C1, <- krun_snoc, contains_spec. rewrite removed_now. discriminate.
Qed.

(** ** C53 *)
Section Caps.
Variable v : env.
Definition kept (b : bstate) : Prop := core b /\ Forall keeps_caps (b_ops b).
Lemma kept_backtest b b' : kept b -> backtest v b = Some b' -> kept b'.
Proof.
  apply (backtest_pres v kept (fun _ => kept)); auto.
  - intros w x b0 [C H]. split; [now apply core_sched|destruct w; exact H].
  - intros e b0 [C H]. split; [now apply core_ends|exact H].
  - intros x b0 [C H]. split; [now apply core_ctx|exact H].
  - intros o b0 b1 [C H] L E. split; [eapply core_op; eauto|]. unfold do_op in E. destruct (step (v_cfg v) o (b_port b0)) as [p u|]; [|discriminate].
    injection E as <-. cbn [set_port b_ops]. apply Forall_app. split; auto. constructor; auto. destruct o; try exact I; destruct L.
  - intros k b0 [C H] L. split; [apply kstate_set; auto; intros j ->; destruct L|exact H].
  - intros i d n b0 b1 [C H] G E. split; [eapply core_attempt; eauto|]. unfold attempt_and_settle in E.
    destruct (attempt v i d n (set_pend (KMark (n_id n)) b0)) as [[b2 f]|] eqn:A; [|discriminate].
    assert (X : Forall keeps_caps (b_ops b2)).
    { destruct (attempt_spec _ _ _ _ _ _ _ A) as [_ [_ [[_ [-> _]]|[a [x [_ [_ ->]]]]]]]; [exact H|]. apply Forall_app. split; [exact H|].
      constructor; auto. destruct (n_type n); exact I. }
    destruct (f || negb (is_persistent_limit n)); injection E as <-; exact X.
  - intros d x l cs bs ss n b0 [C H] _. split; [now apply core_ctx|exact H].
  - intros d k w r l b0 b1 [C H] E. split; [eapply core_schedule; eauto|].
    destruct (schedule_order_spec _ _ _ _ _ _ _ E) as [->|[date [iw [a [_ [_ ->]]]]]]; auto. cbn zeta. destruct iw; [destruct w|]; exact H.
  - intros b0 i n [C _]. now apply core_get.
  - intros b0 [C _]. exact C.
  - intros b0 [C H]. split; [now apply core_start|exact H].
Qed.
End Caps.
Lemma nodup_front {A} (l m : list A) : NoDup (l ++ m) -> NoDup l.
Proof. induction l as [|x l IH]; [constructor|]. intro H. inversion H; subst. constructor; auto. intro J. apply H2, in_app_iff. auto. Qed.
Lemma backtest_history c l k b : windows_ok c l -> backtests l (fresh c k) = Some b ->
  run c (b_ops b) = Some (b_port b) /\ stops_wf (b_ops b) /\ Forall keeps_caps (b_ops b) /\
  Forall (fun o => one_per_type (op_stops o) /\ Forall stop_sized (op_stops o)) (b_ops b) /\
  b_pend b = krun (b_kops b) /\ marks_live (b_kops b).
Proof.
  intros W E. destruct (refined_backtests c l k b W E) as [C R]. destruct (stop_inv_backtests c l k b W E) as [_ S2 _ S4 S5 _ _].
  split; auto. split; [|split; [|split; [auto|split; [apply (co_pend _ C)|apply C]]]].
  - split; auto. unfold stop_ids in S2. rewrite map_app in S2. apply nodup_front in S2. exact S2.
  - assert (X : kept b); [|apply X]. revert E. apply (backtests_pres kept c l); auto; [intros v b0 b1 _ _ _; apply kept_backtest|].
    split; [apply (refined_fresh c k)|constructor].
Qed.
