(** A bar only adds records of its own date to the account's logs. *)
From Verif Require Export PortfolioEvolve MarketFacts.

Record adds (d : Z) (p p' : port) : Prop := mkAdds {
  ad_orders : exists l, p_orders p' = p_orders p ++ l /\ Forall (fun o => o_date o = d) l;
  ad_trades : exists l, p_trades p' = p_trades p ++ l /\ Forall (fun t => t_exit_date t = d) l;
  ad_bars : exists l, p_bars p' = p_bars p ++ l /\ Forall (fun r => b_date r = d) l
}.
Definition logs (p : port) := (p_orders p, p_trades p, p_bars p).
Lemma adds_logs d p p' : logs p' = logs p -> adds d p p'.
Proof. unfold logs. intro H. injection H as E1 E2 E3. constructor; exists []; rewrite app_nil_r; auto. Qed.
Lemma adds_refl d p : adds d p p. Proof. now apply adds_logs. Qed.
Lemma adds_trans d p q r : adds d p q -> adds d q r -> adds d p r.
Proof.
  intros [[a1 [A1 B1]] [a2 [A2 B2]] [a3 [A3 B3]]] [[c1 [C1 D1]] [c2 [C2 D2]] [c3 [C3 D3]]].
  constructor; [exists (a1 ++ c1)|exists (a2 ++ c2)|exists (a3 ++ c3)]; (split; [rewrite app_assoc; congruence|apply Forall_app; auto]).
Qed.
Lemma acct_logs p p' : same_acct p p' -> logs p' = logs p.
Proof. intros []. unfold logs. congruence. Qed.
Lemma adds_order c d s o cr ot it sh li ma fi p : adds d p (fst (add_order c d s o cr ot it sh li ma fi p)).
Proof.
  unfold add_order. destruct (c_fee_mode c); cbn; (constructor; [|exists []; rewrite app_nil_r; auto|exists []; rewrite app_nil_r; auto]);
  eexists; (split; [reflexivity|]); apply Forall_cons; auto.
Qed.
Lemma adds_exit c sd d pos e sh fi st p : adds d p (snd (exit_entry c sd d pos e sh fi st p)).
Proof.
  constructor.
  - exists []. rewrite exit_orders, app_nil_r. auto.
  - rewrite exit_trades. eexists. split; [reflexivity|]. apply Forall_cons; auto.
  - exists []. rewrite exit_bars, app_nil_r. auto.
Qed.
Lemma adds_fifo c sd d fi es : forall rem pos p, adds d p (snd (fifo_loop c sd d fi es rem pos p)).
Proof.
  induction es as [|e es IH]; intros rem pos p; cbn [fifo_loop]; [apply adds_refl|]. destruct (Qltb 0 rem); [|apply adds_refl]. destruct (Qle_bool (e_shares e) rem).
  - pose proof (adds_exit c sd d pos e (e_shares e) fi None p) as X. destruct (exit_entry c sd d pos e (e_shares e) fi None p) as [pos2 p2]. eapply adds_trans; [exact X|].
    cbn [snd]. eapply adds_trans; [|apply IH]. apply adds_logs. rewrite (acct_logs _ _ (set_poss_same _ _ _)). apply acct_logs, (sb_acct _ _ (remove_stop_data_sbs _ _)).
  - pose proof (adds_exit c sd d pos e rem fi None p) as X. destruct (exit_entry c sd d pos e rem fi None p) as [pos2 p2]. exact X.
Qed.
Lemma adds_close c sd d s sh fi p : adds d p (snd (close_existing c sd d s sh fi p)).
Proof.
  unfold close_existing. destruct (aget s (poss sd p)) as [pos|]; [|apply adds_refl]. destruct (match sd with Long => false | Short => Qle_bool sh 0 end); [apply adds_refl|].
  pose proof (adds_fifo c sd d fi (ps_entries pos) sh pos p) as X. destruct (fifo_loop c sd d fi (ps_entries pos) sh pos p) as [[rem pos2] p2]. cbn [snd] in *.
  eapply adds_trans; [exact X|]. apply adds_logs, acct_logs, update_position_same.
Qed.
Lemma stops_loop_logs ss : forall e p, logs (snd (fst (add_stops_loop ss e p))) = logs p.
Proof.
  induction ss as [|st ss IH]; intros e p; auto. cbn [add_stops_loop]. destruct (ahas (st_id st) (p_stop_data p)); auto.
  destruct (st_type st); auto; cbn [e_price set_e_stops]; match goal with |- context [stop_amount ?a ?b] => destruct (stop_amount a b) end; auto; rewrite IH; reflexivity.
Qed.
Definition res_port {A} (r : res A) : port := match r with Ret p _ | Raise p _ => p end.
Lemma open_logs c sd d s sh fi st p : logs (res_port (open_fill c sd d s sh fi st p)) = logs p.
Proof.
  unfold open_fill. set (q := post_collateral c (sh * fi) p). assert (Q : logs q = logs p) by (unfold q, post_collateral; destruct (Qltb 1 (c_leverage c)); reflexivity).
  rewrite <- Q. clearbody q. destruct (aget s (poss sd q)) as [pos|].
  - match goal with |- context [match st with Some ss => add_stops_loop (sort_stops ss) ?e ?p | None => _ end] => set (e0 := e); set (p0 := p) end.
    assert (X : logs (snd (fst (match st with Some ss => add_stops_loop (sort_stops ss) e0 p0 | None => (e0, p0, false) end))) = logs q) by (destruct st; [now rewrite stops_loop_logs|reflexivity]).
    destruct (match st with Some ss => add_stops_loop (sort_stops ss) e0 p0 | None => (e0, p0, false) end) as [[e1 p1] []]; cbn [res_port fst snd] in *; rewrite <- X; destruct sd; reflexivity.
  - match goal with |- context [match st with Some ss => add_stops_loop (sort_stops ss) ?e ?p | None => _ end] => set (e0 := e); set (p0 := p) end.
    assert (X : logs (snd (fst (match st with Some ss => add_stops_loop (sort_stops ss) e0 p0 | None => (e0, p0, false) end))) = logs q) by (destruct st; [now rewrite stops_loop_logs|reflexivity]).
    destruct (match st with Some ss => add_stops_loop (sort_stops ss) e0 p0 | None => (e0, p0, false) end) as [[e1 p1] []]; cbn [res_port fst snd] in *; rewrite <- X; destruct sd; reflexivity.
Qed.
Lemma mv_logs p : logs (snd (long_mv p)) = logs p /\ logs (snd (short_mv p)) = logs p.
Proof. unfold long_mv, short_mv. destruct (p_clong p), (p_cshort p); split; reflexivity. Qed.
Lemma live_logs c p : logs (snd (live_mv c p)) = logs p.
Proof.
  unfold live_mv. destruct (mv_logs p) as [A _]. destruct (long_mv p) as [l p1]. destruct (mv_logs p1) as [_ B]. destruct (short_mv p1) as [s p2]. cbn in *. congruence.
Qed.
Lemma clamp_logs c s fi sh o p : logs (snd (clamp_shares c s fi sh o p)) = logs p.
Proof.
  unfold clamp_shares. assert (X : logs (snd (buying_power c p)) = logs p).
  { unfold buying_power. destruct (Qle_bool (c_leverage c) 1); auto. destruct (mv_logs p) as [A _]. destruct (long_mv p) as [l p1]. destruct (mv_logs p1) as [_ B].
    destruct (short_mv p1) as [s1 p2]. pose proof (live_logs c p2) as D. destruct (live_mv c p2) as [z p3]. cbn in *. congruence. }
  destruct (buying_power c p) as [bp p1]. cbn in X. repeat match goal with |- context [if ?x then _ else _] => destruct x end; cbn; auto.
Qed.
Lemma long_logs c d s sh fi st p : logs (res_port (long_ c d s sh fi st p)) = logs p.
Proof.
  unfold long_. destruct (c_mode c); auto; pose proof (clamp_logs c s fi sh OBuy p) as X; destruct (clamp_shares c s fi sh OBuy p) as [cl p1]; cbn [snd] in X; rewrite <- X;
  destruct (Qle_bool (if Qltb cl sh then cl else sh) 0); auto; destruct (at_cap _ _ _); auto; apply open_logs.
Qed.
Lemma short_logs c d s sh fi st p : logs (res_port (short_ c d s sh fi st p)) = logs p.
Proof.
  unfold short_. destruct (Qle_bool sh 0); auto. destruct (at_cap _ _ _); auto.
  destruct (c_mode c); auto; pose proof (clamp_logs c s fi sh OSell p) as X; destruct (clamp_shares c s fi sh OSell p) as [cl p1]; cbn [snd] in X; rewrite <- X;
  destruct (Qle_bool (if Qltb cl sh then cl else sh) 0); auto; apply open_logs.
Qed.
Lemma adds_buy c a p : adds (a_date a) p (res_port (buy c a p)).
Proof.
  unfold buy. destruct (verify_input_raises _ _ _); [apply adds_refl|]. destruct (match a_limit a with Some l => Qltb l (a_fill a) | None => false end); [apply adds_refl|].
  destruct (Qeq_bool (a_shares a) 0); [apply adds_refl|]. pose proof (adds_close c Short (a_date a) (a_sym a) (a_shares a) (a_fill a) p) as X.
  destruct (close_existing c Short _ _ _ _ p) as [[f r] q]. cbn [snd] in X. pose proof (long_logs c (a_date a) (a_sym a) r (a_fill a) (a_stops a) q) as Y.
  destruct (long_ c (a_date a) (a_sym a) r (a_fill a) (a_stops a) q) as [q2 b|q2 x]; cbn [res_port] in *; [|eapply adds_trans; [exact X|now apply adds_logs]].
  destruct (Qis0 f && Qis0 b); [eapply adds_trans; [exact X|now apply adds_logs]|].
  match goal with |- context [add_order c ?d ?s ?o ?cr ?ot ?it ?sh ?li ?ma ?fi ?p] => pose proof (adds_order c d s o cr ot it sh li ma fi p) as Z; destruct (add_order c d s o cr ot it sh li ma fi p) as [q3 o3] end.
  eapply adds_trans; [exact X|]. eapply adds_trans; [apply adds_logs; exact Y|exact Z].
Qed.
Lemma adds_sell c a p : adds (a_date a) p (res_port (sell c a p)).
Proof.
  unfold sell. destruct (verify_input_raises _ _ _); [apply adds_refl|]. destruct (match a_limit a with Some l => Qltb (a_fill a) l | None => false end); [apply adds_refl|].
  destruct (Qeq_bool (a_shares a) 0); [apply adds_refl|]. pose proof (adds_close c Long (a_date a) (a_sym a) (a_shares a) (a_fill a) p) as X.
  destruct (close_existing c Long _ _ _ _ p) as [[f r] q]. cbn [snd] in X. pose proof (short_logs c (a_date a) (a_sym a) r (a_fill a) (a_stops a) q) as Y.
  destruct (short_ c (a_date a) (a_sym a) r (a_fill a) (a_stops a) q) as [q2 b|q2 x]; cbn [res_port] in *; [|eapply adds_trans; [exact X|now apply adds_logs]].
  destruct (Qis0 f && Qis0 b); [eapply adds_trans; [exact X|now apply adds_logs]|].
  match goal with |- context [add_order c ?d ?s ?o ?cr ?ot ?it ?sh ?li ?ma ?fi ?p] => pose proof (adds_order c d s o cr ot it sh li ma fi p) as Z; destruct (add_order c d s o cr ot it sh li ma fi p) as [q3 o3] end.
  eapply adds_trans; [exact X|]. eapply adds_trans; [apply adds_logs; exact Y|exact Z].
Qed.
Lemma adds_trigger c d sc sm pos e st p : adds d p (res_port (trigger_stop c d sc sm pos e st p)).
Proof.
  unfold trigger_stop. destruct (negb (ahas _ _)); [apply adds_refl|].
  match goal with |- context [match ?x with Ret _ _ => _ | Raise _ _ => _ end] => set (dec := x) end.
  assert (D : logs (res_port dec) = logs p).
  { unfold dec. destruct (st_type st); try (destruct (trigger_bar_stop _ _ _); reflexivity); destruct (aget (st_id st) (p_stop_data p)) as [sd|]; auto; destruct (trigger_price_stop _ _ _); auto.
    destruct (ratchet _ _ _); reflexivity. }
  destruct dec as [q [market|]|q x]; cbn [res_port] in *; try (now apply adds_logs).
  match goal with |- context [if ?x then Ret q false else _] => destruct x end; [now apply adds_logs|]. destruct (side_eqb (st_pos st) Short && _); [now apply adds_logs|].
  match goal with |- context [exit_entry c ?sd ?dd ?po ?en ?sh ?fi ?so ?pp] => pose proof (adds_exit c sd dd po en sh fi so pp) as X; destruct (exit_entry c sd dd po en sh fi so pp) as [pos2 p2] end.
  match goal with |- context [add_order c ?dd ?s ?o ?cr ?ot ?it ?sh ?li ?ma ?fi ?pp] => pose proof (adds_order c dd s o cr ot it sh li ma fi pp) as Z; destruct (add_order c dd s o cr ot it sh li ma fi pp) as [q3 o3] end.
  cbn [snd fst res_port] in *. eapply adds_trans; [apply adds_logs; exact D|]. eapply adds_trans; eauto.
Qed.
Lemma adds_fold {A B} d (f : res B -> A -> res B) l : (forall st a, adds d (res_port st) (res_port (f st a))) -> forall st, adds d (res_port st) (res_port (fold_left f l st)).
Proof. intro H. induction l as [|a l IH]; intro st; cbn; [apply adds_refl|]. eapply adds_trans; [apply H|apply IH]. Qed.
Lemma adds_check_stops c d sc sm p : adds d p (res_port (check_stops c d sc sm p)).
Proof.
  assert (CP : forall s id st, adds d (res_port st) (res_port (check_price_stop c d sc sm s id st))).
  { intros s id [q ex|q x]; cbn [check_price_stop res_port]; [|apply adds_refl]. destruct (aget id (p_stop_data q)) as [sd|]; [|apply adds_refl].
    destruct (is_triggered _ _); [apply adds_refl|]. destruct (aget s _) as [pos|]; [|apply adds_refl]. destruct (find_entry _ _) as [e|]; [|apply adds_refl].
    destruct (negb _); [apply adds_refl|]. pose proof (adds_trigger c d sc sm pos e (sd_stop sd) q) as X. destruct (trigger_stop c d sc sm pos e (sd_stop sd) q) as [q2 []|q2 x]; exact X. }
  assert (PL : forall l st, adds d (res_port st) (res_port (price_loop c d sc sm l st))).
  { intros l st. apply adds_fold. intros st2 kv. destruct (sc_can_price sc (fst kv)); [|apply adds_refl]. apply adds_fold. intros st3 id. apply CP. }
  assert (BS : forall sd s eid l st, adds d (res_port st) (res_port (bar_stops_loop c d sc sm sd s eid l st))).
  { intros sd s eid. induction l as [|t l IH]; intros [q ex|q x]; cbn [bar_stops_loop]; try apply adds_refl. destruct (st_type t); try apply IH.
    destruct (aget s (poss sd q)) as [pos|]; [|apply adds_refl]. destruct (find_entry eid (ps_entries pos)) as [e|]; [|apply adds_refl]. destruct (negb _); [apply adds_refl|].
    pose proof (adds_trigger c d sc sm pos e t q) as X. destruct (trigger_stop c d sc sm pos e t q) as [q2 []|q2 x]; auto. eapply adds_trans; [exact X|]. apply (IH (Ret q2 ex)). }
  assert (BL : forall sd l st, adds d (res_port st) (res_port (bar_loop c d sc sm sd l st))).
  { intros sd l st. apply adds_fold. intros st2 kv. destruct (sc_can_price sc _); [|apply adds_refl]. apply adds_fold. intros [q ex|q x] e; [|apply adds_refl]. destruct (is_triggered _ _); [apply adds_refl|apply BS]. }
  unfold check_stops. set (r1 := price_loop c d sc sm (p_active p) (Ret p [])).
  assert (A1 : adds d p (res_port r1)) by exact (PL (p_active p) (Ret p [])).
  set (r2 := match r1 with Ret p1 _ => bar_loop c d sc sm Long (p_longs p1) r1 | Raise _ _ => r1 end).
  assert (A2 : adds d p (res_port r2)) by (unfold r2; destruct r1; auto; eapply adds_trans; [exact A1|apply BL]).
  set (r3 := match r2 with Ret p1 _ => bar_loop c d sc sm Short (p_shorts p1) r2 | Raise _ _ => r2 end).
  assert (A3 : adds d p (res_port r3)) by (unfold r3; destruct r2; auto; eapply adds_trans; [exact A2|apply BL]).
  destruct r3 as [q ex|q x]; cbn [res_port] in *; auto. eapply adds_trans; [exact A3|]. clear. revert q. induction ex as [|[[sd s] eid] ex IH]; intro q; cbn [fold_left]; [apply adds_refl|].
  eapply adds_trans; [|apply IH]. unfold finish_exit. destruct (aget s (poss sd q)) as [pos|]; [|apply adds_refl]. destruct (find_entry eid (ps_entries pos)) as [e|]; [|apply adds_refl].
  apply adds_logs. rewrite (acct_logs _ _ (update_position_same _ _ _)), (acct_logs _ _ (sb_acct _ _ (remove_stop_data_sbs _ _))). apply acct_logs, set_poss_same.
Qed.
Lemma adds_capture c d f p : adds d p (capture_bar c d f p).
Proof.
  unfold capture_bar. set (p0 := apply_interest c p).
  assert (I0 : logs p0 = logs p).
  { unfold p0, apply_interest. destruct (c_bpy c); auto. destruct (Qle_bool (c_rate c) 0); auto. assert (SW : logs (sweep p) = logs p) by (unfold sweep; destruct (_ || _); reflexivity).
    destruct (Qeq_bool _ 0); auto. destruct (Qltb _ 0); rewrite <- SW; reflexivity. }
  set (st0 := (mkAcc _ _ 0 0, p0)).
  assert (X : forall l st, logs (snd (fold_left (fun st s => capture_short s (f s) (capture_long s (f s) st)) l st)) = logs (snd st)).
  { induction l as [|s l IH]; intro st; [reflexivity|]. cbn [fold_left]. rewrite IH. destruct st as [a q].
    destruct (f s) as [[[cl lo] hi]|]; unfold capture_long; destruct (aget s (p_longs q)) as [pos|];
    unfold capture_short; match goal with |- context [aget s (p_shorts ?x)] => destruct (aget s (p_shorts x)) end; reflexivity. }
  specialize (X (sort_nat (p_symbols p0)) st0). destruct (fold_left _ _ st0) as [a q]. cbn [snd st0] in X. rewrite I0 in X. unfold logs in X. injection X as X1 X2 X3.
  constructor; cbn; [exists []; rewrite app_nil_r; auto|exists []; rewrite app_nil_r; auto|]. rewrite X3. eexists. split; [reflexivity|]. apply Forall_cons; auto.
Qed.
Definition op_date (o : op) (d : Z) : Prop :=
  match o with OpBuy a | OpSell a => a_date a = d | OpExit x _ _ _ _ | OpCheckStops x _ _ | OpCapture x _ => x = d | _ => True end.
Lemma adds_step c d o p p' u : op_date o d -> step c o p = Ret p' u -> adds d p p'.
Proof.
  destruct o as [a|a|x s b sl sm|x sc sm|x bar|hb|id|t ty|ml ms]; cbn [op_date step]; intros D E; subst.
  - pose proof (adds_buy c a p) as X. destruct (buy c a p); cbn in E; inversion E; subst; exact X.
  - pose proof (adds_sell c a p) as X. destruct (sell c a p); cbn in E; inversion E; subst; exact X.
  - unfold exit_position in E.
    set (r1 := match aget s (p_longs p) with Some pos => _ | None => _ end) in E.
    assert (A1 : adds d p (res_port r1)).
    { unfold r1. destruct (aget s (p_longs p)) as [pos|]; [|apply adds_refl]. destruct (slip_price _ _ _ _ _) as [fi|]; [|apply adds_refl].
      match goal with |- context [sell c ?a p] => pose proof (adds_sell c a p) as X; destruct (sell c a p) end; exact X. }
    destruct r1 as [q []|q z]; [|discriminate]. cbn [res_port] in A1. destruct (aget s (p_shorts q)) as [pos|]; [|inversion E; subst; exact A1].
    destruct (slip_price _ _ _ _ _) as [fi|]; [|discriminate]. eapply adds_trans; [exact A1|].
    match goal with E : context [buy c ?a q] |- _ => pose proof (adds_buy c a q) as X; destruct (buy c a q) end; inversion E; subst; exact X.
  - pose proof (adds_check_stops c d sc sm p) as X. rewrite E in X. exact X.
  - injection E as <- <-. apply adds_capture.
  - injection E as <- <-. now apply adds_logs.
  - injection E as <- <-. apply adds_logs, acct_logs, (rs_acct _ _ (remove_stop_strips id p)).
  - injection E as <- <-. apply adds_logs, acct_logs, (rs_acct _ _ (remove_stops_strips t ty p)).
  - injection E as <- <-. now apply adds_logs.
Qed.

(** ** Bars *)
Section Bar.
Variable v : env.
Variable d : Z.
Definition grows (x y : option bstate) : Prop := forall b', y = Some b' -> exists b, x = Some b /\ adds d (b_port b) (b_port b').
Lemma grows_some b b' : adds d (b_port b) (b_port b') -> grows (Some b) (Some b').
Proof. intros A x [= <-]. exists b. auto. Qed.
Lemma grows_same x : grows x x. Proof. intros b ->. exists b. split; auto. apply adds_refl. Qed.
Lemma grows_none x : grows x None. Proof. intros b E. discriminate. Qed.
Lemma grows_trans x y z : grows x y -> grows y z -> grows x z.
Proof. intros A B b E. destruct (B b E) as [c [C1 C2]]. destruct (A c C1) as [a [A1 A2]]. exists a. split; auto. eapply adds_trans; eauto. Qed.
Lemma grows_bind x f : (forall b, grows (Some b) (f b)) -> grows x (bind x f).
Proof. destruct x as [b|]; cbn; intro H; [apply H|apply grows_none]. Qed.
Lemma grows_fold {A} (f : option bstate -> A -> option bstate) l : (forall x a, grows x (f x a)) -> forall x, grows x (fold_left f l x).
Proof. intro H. induction l as [|a l IH]; intro x; cbn; [apply grows_same|]. eapply grows_trans; [apply H|apply IH]. Qed.
Lemma grows_op o b : op_date o d -> grows (Some b) (do_op v o b).
Proof.
  intros D b' E. unfold do_op in E. destruct (step (v_cfg v) o (b_port b)) as [p u|p x] eqn:ST; [|discriminate]. injection E as <-. exists b. split; auto. cbn. eapply adds_step; eauto.
Qed.
Lemma grows_settle1 i n b : grows (Some b) (attempt_and_settle v i d n b).
Proof.
  unfold attempt_and_settle, attempt. cbn [b_port set_pend]. destruct (v_fetch v i (n_sym n) (n_fill n)) as [price|].
  2: { destruct (_ || _); apply grows_some, adds_refl. }
  destruct (clamp_exit _ _ _) as [sh|]; [|destruct (_ || _); apply grows_some, adds_refl].
  destruct (apply_slip _ _ _ _ _) as [[s2 f2]|]; [|apply grows_none]. destruct (n_type n).
  - match goal with |- context [buy _ ?a ?p] => pose proof (adds_buy (v_cfg v) a p) as X; destruct (buy (v_cfg v) a p) as [q o|q x] end; [|apply grows_none]. destruct (_ || _); apply grows_some; exact X.
  - match goal with |- context [sell _ ?a ?p] => pose proof (adds_sell (v_cfg v) a p) as X; destruct (sell (v_cfg v) a p) as [q o|q x] end; [|apply grows_none]. destruct (_ || _); apply grows_some; exact X.
Qed.
Lemma grows_place i w now x : grows x (place_if v w now i d x).
Proof.
  destruct x as [b|]; [|apply grows_none]. cbn. destruct now; [|apply grows_same]. unfold place_orders.
  assert (X : grows (Some b) (fold_left (place1 v i d w) (zget d (get_sched w b)) (Some b))).
  { apply grows_fold. intros [c|] r; [|apply grows_none]. unfold place1. destruct (negb _); [apply grows_same|]. destruct (r_pid r) as [id|]; [|apply grows_same].
    destruct (negb _); [apply grows_same|]. destruct (get id (b_pend c)); [apply grows_settle1|apply grows_same]. }
  destruct (fold_left _ _ _) as [c|]; [|apply grows_none]. eapply grows_trans; [exact X|]. apply grows_some, adds_refl.
Qed.
Lemma sort_port b : b_port (sort_scheds v d b) = b_port b.
Proof.
  assert (X : forall w f c, b_port (sort_sched w f d c) = b_port c) by (intros w f c; unfold sort_sched; destruct (zhas _ _); reflexivity).
  unfold sort_scheds. destruct (v_sort_long v), (v_sort_short v); rewrite ?X; reflexivity.
Qed.
Lemma grows_settle i b : grows (Some b) (settle v i d b).
Proof.
  unfold settle. eapply grows_trans with (y := Some (sort_scheds v d b)); [apply grows_some; rewrite sort_port; apply adds_refl|].
  eapply grows_trans; [|apply grows_bind; intro c; now apply grows_op]. eapply grows_trans.
  2: { apply grows_bind. intro c. unfold process_persistent. destruct (has_orders _); [|apply grows_same]. apply grows_fold. intros [g|] n; [|apply grows_none]. unfold persist1.
       destruct (Z.ltb d (n_exec n)); [apply grows_same|]. destruct (_ && _); [apply grows_same|]. destruct (negb (has_bar_on _ _ _ _)); [apply grows_same|].
       destruct (negb (was_attempted _ _)); [apply grows_settle1|]. destruct (n_timeout n); [|apply grows_same]. destruct (_ && _); [apply grows_some, adds_refl|].
       eapply grows_trans with (y := Some (set_pend (KAdvance (n_id n)) g)); [apply grows_some, adds_refl|apply grows_settle1]. }
  do 3 (eapply grows_trans; [|apply grows_place]). now apply grows_op.
Qed.
Lemma grows_schedule k w x r : grows x (schedule_order v d k w x r).
Proof.
  destruct x as [b|]; [|apply grows_none]. cbn. destruct (exec_date _ _ _ _) as [[da iw]|]; [|apply grows_same]. destruct (to_add _ _ _ _); [|apply grows_none].
  apply grows_some. destruct iw; apply adds_refl.
Qed.
Lemma grows_decide i act exits b : grows (Some b) (decide v i d act exits b).
Proof.
  unfold decide. eapply grows_trans; [|apply grows_bind]; [apply grows_fold|].
  - intros x a. apply grows_bind. intro c. destruct a; try (now apply grows_op); apply grows_some, adds_refl.
  - intro c. cbv zeta. destruct (rotate _ _ _ _) as [x2|]; [|apply grows_none]. destruct (collect _ _ _ _) as [[[[cs bs] ss] n]|]; [|apply grows_none].
    eapply grows_trans; [|apply grows_bind; intro g; now apply grows_op]. eapply grows_trans.
    2: { apply grows_fold. intros x s. apply grows_bind. intro g. now apply grows_op. }
    do 3 (eapply grows_trans; [|apply grows_fold; intros; apply grows_schedule]). apply grows_some, adds_refl.
Qed.
Lemma bar_adds i b b' : bar v i d b = Some b' -> adds d (b_port b) (b_port b').
Proof.
  unfold bar. destruct (activate v d b) as [[e act] exits]. intro E.
  match type of E with bind (settle _ _ _ ?c) _ = _ => set (b1 := c) in E end.
  assert (G : grows (Some b1) (bind (settle v i d b1) (decide v i d act exits))).
  { eapply grows_trans; [apply grows_settle|]. apply grows_bind. intro c. apply grows_decide. }
  destruct (G b' E) as [c [C1 C2]]. injection C1 as <-. exact C2.
Qed.
End Bar.

(** ** What is reported of the past *)
Lemma filter_later {A} (f : A -> Z) T d l : (T < d)%Z -> Forall (fun x => f x = d) l -> filter (fun x => Z.leb (f x) T) l = [].
Proof. intros L F. apply filter_nil. rewrite Forall_forall in F. intros x I. rewrite (F x I). lia. Qed.
Lemma reported_bar v i T d b b' : (T < d)%Z -> bar v i d b = Some b' -> reported T b' = reported T b.
Proof.
  intros L E. destruct (bar_adds v d i b b' E) as [[l1 [A1 B1]] [l2 [A2 B2]] [l3 [A3 B3]]]. unfold reported. rewrite A1, A2, A3, !filter_app.
  rewrite (filter_later o_date T d l1 L B1), (filter_later t_exit_date T d l2 L B2), (filter_later b_date T d l3 L B3). now rewrite !app_nil_r.
Qed.
Section Complete.
Context {U R : Type}.
Variable y : strategy U R.
Variable m : market R.
Hypothesis WF : well_formed m.
Variable T : Z.
Lemma reported_bars w l : forall i st st', (forall d, In d l -> (T < d)%Z) -> mbars y m w i l st = Some st' -> reported T (fst st') = reported T (fst st).
Proof.
  induction l as [|d l IH]; intros i st st' L E; cbn [mbars] in E; [now injection E as <-|]. destruct st as [b u]. destruct (mbar y m w i d (b, u)) as [c|] eqn:B; [|discriminate].
  rewrite (IH _ _ _ (fun x I => L x (or_intror I)) E). eapply reported_bar; [|exact (mbar_bar _ _ _ _ _ _ _ _ B)]. apply L. now left.
Qed.
Lemma mbars_app w l1 : forall i l2 st, mbars y m w i (l1 ++ l2) st = match mbars y m w i l1 st with Some c => mbars y m w (i + length l1) l2 c | None => None end.
Proof.
  induction l1 as [|d l1 IH]; intros i l2 st; cbn [app mbars length]; [now rewrite Nat.add_0_r|]. destruct (mbar y m w i d st); auto. rewrite IH. now rewrite Nat.add_succ_r.
Qed.
Lemma dates_inside w d : In d (all_dates y m w) -> (fst w <= d <= snd w)%Z.
Proof. intro I. apply all_dates_in in I. destruct I as [I _]. unfold inside in I. apply andb_true_iff in I. lia. Qed.
(** Windows that begin after [T] change nothing reported up to [T]. *)
Lemma later_windows ws : forall st st', Forall (fun w => (T < fst w)%Z) ws -> mwindows y m ws st = Some st' -> reported T (fst st') = reported T (fst st).
Proof.
  induction ws as [|w ws IH]; intros st st' F E; cbn [mwindows] in E; [now injection E as <-|]. inversion F as [|? ? F1 F2]; subst.
  destruct (mbars y m w 0 _ _) as [c|] eqn:B; [|discriminate]. rewrite (IH c st' F2 E).
  rewrite (reported_bars w _ _ _ _ (fun d I => Z.lt_le_trans _ _ _ F1 (proj1 (dates_inside w d I))) B). reflexivity.
Qed.
Lemma later_until ws : forall st st', Forall (fun w => (T < fst w)%Z) ws -> muntil y m T ws st = Some st' -> reported T (fst st') = reported T (fst st).
Proof.
  induction ws as [|w ws IH]; intros st st' F E; cbn [muntil] in E; [now injection E as <-|]. inversion F as [|? ? F1 F2]; subst.
  rewrite filter_nil in E; [|intros d I; pose proof (dates_inside w d I); lia]. cbn [mbars] in E. rewrite (IH _ st' F2 E). reflexivity.
Qed.
Lemma later_until_some ws : forall st, Forall (fun w => (T < fst w)%Z) ws -> exists st', muntil y m T ws st = Some st'.
Proof.
  induction ws as [|w ws IH]; intros st F; cbn [muntil]; [eauto|]. inversion F as [|? ? F1 F2]; subst.
  rewrite filter_nil; [|intros d I; pose proof (dates_inside w d I); lia]. cbn [mbars]. now apply IH.
Qed.
(** A run that completes reports of the past what the run stopped at [T] does. *)
Lemma run_until ws : forall st st', chronological ws -> mwindows y m ws st = Some st' -> exists c, muntil y m T ws st = Some c /\ reported T (fst st') = reported T (fst c).
Proof.
  induction ws as [|w ws IH]; intros st st' CH E; cbn [mwindows muntil] in *; [exists st; injection E as <-; auto|]. destruct CH as [CH1 CH2].
  destruct (mbars y m w 0 (all_dates y m w) (mstart y m w st)) as [g|] eqn:B; [|discriminate]. destruct (Z.leb_spec (snd w) T) as [L|L].
  - rewrite filter_id; [|intros d I; pose proof (dates_inside w d I); lia]. rewrite B. now apply IH.
  - assert (LT : Forall (fun w' => (T < fst w')%Z) ws) by (eapply Forall_impl; [|exact CH1]; cbn; intros; lia).
    rewrite (later_windows ws g st' LT E). rewrite (cut T (all_dates y m w)) in B by apply unique_sorted_ok. rewrite mbars_app in B.
    destruct (mbars y m w 0 (filter (fun d => Z.leb d T) (all_dates y m w)) _) as [h|] eqn:H; [|discriminate].
    destruct (later_until_some ws h LT) as [c C]. exists c. split; auto. rewrite (later_until ws h c LT C). eapply reported_bars; [|exact B]. intros d I. apply filter_In in I. lia.
Qed.
End Complete.
