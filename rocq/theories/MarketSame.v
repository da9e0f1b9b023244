(** Two environments that agree on a bar take that bar in the same way. *)
From Verif Require Export LoopSend LoopHist MarketSpec.

(** ** Calls that see a symbol's bars through a test *)
Lemma fold_ext {A B} (f g : A -> B -> A) l : (forall a b, f a b = g a b) -> forall a, fold_left f l a = fold_left g l a.
Proof. intro H. induction l as [|x l IH]; intro a; cbn; auto. rewrite H. apply IH. Qed.
Lemma check_stops_ext c d can can' pr fe sm p : (forall s, can s = can' s) ->
  check_stops c d (mkScope can pr fe) sm p = check_stops c d (mkScope can' pr fe) sm p.
Proof.
  intro H.
  assert (TS : forall pos e st q, trigger_stop c d (mkScope can pr fe) sm pos e st q = trigger_stop c d (mkScope can' pr fe) sm pos e st q) by reflexivity.
  assert (PL : forall l st, price_loop c d (mkScope can pr fe) sm l st = price_loop c d (mkScope can' pr fe) sm l st).
  { intros l st. unfold price_loop. apply fold_ext. intros a [s ids]. cbn [sc_can_price fst snd]. rewrite H. reflexivity. }
  assert (BS : forall sd s eid l st, bar_stops_loop c d (mkScope can pr fe) sm sd s eid l st = bar_stops_loop c d (mkScope can' pr fe) sm sd s eid l st).
  { intros sd s eid. induction l as [|t l IH]; intros [q x|q x]; cbn [bar_stops_loop]; auto. destruct (st_type t); auto.
    destruct (aget s (poss sd q)) as [pos|]; auto. destruct (find_entry eid (ps_entries pos)) as [e|]; auto. rewrite TS.
    destruct (negb _); auto. destruct (trigger_stop c d (mkScope can' pr fe) sm pos e t q) as [q' []|q' x']; auto. }
  assert (BL : forall sd l st, bar_loop c d (mkScope can pr fe) sm sd l st = bar_loop c d (mkScope can' pr fe) sm sd l st).
  { intros sd l st. unfold bar_loop. apply fold_ext. intros a [s pos]. cbn [sc_can_price fst snd]. rewrite H. destruct (can' (ps_sym pos)); auto.
    unfold bar_entries_loop. apply fold_ext. intros [q x|q x] e; auto. destruct (is_triggered (e_id e) x); auto. }
  unfold check_stops. rewrite PL. destruct (price_loop c d (mkScope can' pr fe) sm (p_active p) (Ret p [])) as [q x|q x]; auto.
  rewrite BL. destruct (bar_loop c d (mkScope can' pr fe) sm Long (p_longs q) (Ret q x)) as [q' x'|q' x']; auto. now rewrite BL.
Qed.
Lemma capture_ext c d f g p : (forall s, f s = g s) -> capture_bar c d f p = capture_bar c d g p.
Proof. intro H. unfold capture_bar. rewrite (fold_ext _ (fun st s => capture_short s (g s) (capture_long s (g s) st))); auto. intros a s. now rewrite H. Qed.
Lemma incr_ext f g p : (forall s, f s = g s) -> incr_bars f p = incr_bars g p.
Proof.
  intro H. unfold incr_bars. assert (X : forall l, map (fun kv : sym * position => (fst kv, incr_pos f (snd kv))) l = map (fun kv => (fst kv, incr_pos g (snd kv))) l).
  { intro l. apply map_ext. intros [k pos]. cbn. unfold incr_pos. now rewrite H. }
  cbn. now rewrite !X.
Qed.

(** ** States up to the log of calls *)
Definition strip (b : bstate) : bstate :=
  mkB (b_port b) (b_pend b) (b_cover b) (b_buy b) (b_sell b) (b_ends b) (b_ctx b) (b_stop b) [] (b_kops b) (b_att b).
Definition rel (e : list (sym * nat)) (x y : option bstate) : Prop :=
  match x, y with
  | Some b, Some b' => strip b = strip b' /\ b_ends b = e
  | None, None => True
  | _, _ => False
  end.
Ltac same b b' := let H := fresh in intro H; destruct b, b'; unfold strip in H; cbn in H; injection H as ? ? ? ? ? ? ? ? ? ?; subst.

Section Two.
Variables v v' : env.
Hypothesis E_cfg : v_cfg v' = v_cfg v.
Hypothesis E_syms : v_syms v' = v_syms v.
Hypothesis E_bd : v_buy_delay v' = v_buy_delay v.
Hypothesis E_sd : v_sell_delay v' = v_sell_delay v.
Hypothesis E_sl : v_sort_long v' = v_sort_long v.
Hypothesis E_ss : v_sort_short v' = v_sort_short v.
Hypothesis E_wu : v_warmup v' = v_warmup v.
Hypothesis E_set : v_settings v' = v_settings v.
Variable i : nat. Variable d : Z.
Hypothesis E_scope : v_scope v' i = v_scope v i.
Hypothesis E_bar : v_bar v' i = v_bar v i.
Hypothesis E_fetch : v_fetch v' i = v_fetch v i.
Hypothesis E_close : v_close v' i = v_close v i.
Hypothesis E_fill : v_exit_fill v' i = v_exit_fill v i.
Hypothesis E_sm : v_sm v' i = v_sm v i.
Hypothesis E_slip : forall n sh pr, apply_slip v' i n sh pr = apply_slip v i n sh pr.
Hypothesis E_user : v_user v' i d = v_user v i d.
Hypothesis E_sizer : option_map (fun f => f i) (v_sizer v') = option_map (fun f => f i) (v_sizer v).
Hypothesis E_trades : forall s, In s (v_syms v) -> trades_on v' d s = trades_on v d s.
Hypothesis E_exit : forall s, (match v_exit_dates v' s with Some x => Z.eqb d x | None => false end) = (match v_exit_dates v s with Some x => Z.eqb d x | None => false end).

Lemma activate_same b b' : strip b = strip b' -> activate v' d b' = activate v d b.
Proof.
  same b b'. unfold activate. cbn [b_ends]. rewrite E_syms. rewrite (filter_ext_in (trades_on v' d) (trades_on v d)) by (intros s I; now apply E_trades).
  apply fold_ext. intros [[e act] ex] s. unfold activate1. now rewrite E_wu, E_exit.
Qed.

Variable e : list (sym * nat).
Variable act : list sym.
Hypothesis E_has : forall b b' s, b_ends b = e -> b_ends b' = e -> has_bar_on v' b' s d = has_bar_on v b s d.
Hypothesis E_exec : forall b b' s, b_ends b = e -> b_ends b' = e -> In s act ->
  exec_date v' s (end_of b' s) (v_buy_delay v) = exec_date v s (end_of b s) (v_buy_delay v) /\
  exec_date v' s (end_of b' s) (v_sell_delay v) = exec_date v s (end_of b s) (v_sell_delay v).

Lemma rel_bind x y f g : rel e x y -> (forall b b', strip b = strip b' -> b_ends b = e -> rel e (f b) (g b')) -> rel e (bind x f) (bind y g).
Proof. destruct x, y; cbn; intros H F; try tauto. destruct H as [H1 H2]. now apply F. Qed.
Lemma rel_fold {A} (f g : option bstate -> A -> option bstate) l :
  (forall x y a, In a l -> rel e x y -> rel e (f x a) (g y a)) -> forall x y, rel e x y -> rel e (fold_left f l x) (fold_left g l y).
Proof.
  induction l as [|a l IH]; intros H x y R; cbn; auto. apply IH; [intros; apply H; [now right|auto]|]. apply H; [now left|auto].
Qed.
Lemma do_op_same o o' b b' : strip b = strip b' -> b_ends b = e -> step (v_cfg v) o' (b_port b) = step (v_cfg v) o (b_port b) ->
  rel e (do_op v o b) (do_op v' o' b').
Proof.
  same b b'. cbn [b_ends b_port] in *. intros EE ST. unfold do_op. cbn [b_port] in *. rewrite E_cfg, ST.
  destruct (step (v_cfg v) o _) as [p []|p x]; cbn; auto.
Qed.
Lemma strip_fields b b' : strip b = strip b' ->
  b_port b' = b_port b /\ b_pend b' = b_pend b /\ b_ends b' = b_ends b /\ b_ctx b' = b_ctx b /\ b_stop b' = b_stop b /\
  b_cover b' = b_cover b /\ b_buy b' = b_buy b /\ b_sell b' = b_sell b.
Proof. same b b'. cbn. repeat split. Qed.
Lemma set_pend_same k b b' : strip b = strip b' -> strip (set_pend k b) = strip (set_pend k b').
Proof. same b b'. reflexivity. Qed.
Lemma attempt_same n b b' : strip b = strip b' -> b_ends b = e ->
  match attempt v i d n b, attempt v' i d n b' with
  | Some (x, f), Some (y, g) => strip x = strip y /\ b_ends x = e /\ f = g
  | None, None => True
  | _, _ => False
  end.
Proof.
  same b b'. cbn [b_ends] in *. intro EE. unfold attempt. rewrite E_fetch. unfold get_shares. rewrite E_cfg. cbn [b_port].
  destruct (v_fetch v i (n_sym n) (n_fill n)) as [price|]; [|cbn; auto].
  destruct (clamp_exit _ n _) as [sh|]; [|cbn; auto]. rewrite E_slip. destruct (apply_slip v i n sh price) as [[s2 f2]|]; auto.
  destruct (n_type n); match goal with |- context [match ?r with Ret _ _ => _ | Raise _ _ => _ end] => destruct r end; cbn; auto.
Qed.
Lemma settle1_same n b b' : strip b = strip b' -> b_ends b = e -> rel e (attempt_and_settle v i d n b) (attempt_and_settle v' i d n b').
Proof.
  intros S EE. unfold attempt_and_settle. assert (E2 : b_ends (set_pend (KMark (n_id n)) b) = e) by exact EE.
  pose proof (attempt_same n _ _ (set_pend_same (KMark (n_id n)) b b' S) E2) as A.
  destruct (attempt v i d n (set_pend _ b)) as [[x f]|], (attempt v' i d n (set_pend _ b')) as [[y g]|]; try tauto.
  destruct A as [A1 [A2 ->]]. destruct (g || negb (is_persistent_limit n)); cbn [rel]; [|auto]. split; [now apply set_pend_same|exact A2].
Qed.
Lemma place_same w b b' : strip b = strip b' -> b_ends b = e -> rel e (place_orders v i d w b) (place_orders v' i d w b').
Proof.
  intros S EE. unfold place_orders. destruct (strip_fields _ _ S) as (_ & _ & _ & _ & _ & F1 & F2 & F3).
  assert (G : get_sched w b' = get_sched w b) by (destruct w; cbn; auto). rewrite G.
  assert (X : rel e (fold_left (place1 v i d w) (zget d (get_sched w b)) (Some b)) (fold_left (place1 v' i d w) (zget d (get_sched w b)) (Some b'))).
  { apply rel_fold; [|cbn; auto]. intros [x|] [y|] r _; cbn [rel]; try tauto. intros [X1 X2]. unfold place1. destruct (strip_fields _ _ X1) as (_ & P & _).
    destruct (negb _); [cbn; auto|]. destruct (r_pid r) as [id|]; [|cbn; auto]. rewrite P. destruct (negb (contains id (b_pend x))); [cbn; auto|].
    destruct (get id (b_pend x)) as [n|]; [|cbn; auto]. now apply settle1_same. }
  destruct (fold_left (place1 v i d w) _ _) as [x|], (fold_left (place1 v' i d w) _ _) as [y|]; cbn in X; try tauto.
  destruct X as [X1 X2]. revert X1 X2. clear. same x y. cbn [b_ends]. intro EE. destruct w; cbn; auto.
Qed.
Lemma persist_same b b' : strip b = strip b' -> b_ends b = e -> rel e (process_persistent v i d b) (process_persistent v' i d b').
Proof.
  intros S EE. unfold process_persistent. destruct (strip_fields _ _ S) as (_ & P & _). rewrite P. destruct (has_orders (b_pend b)); [|cbn; auto].
  apply rel_fold; [|cbn; auto]. intros [x|] [y|] n _; cbn [rel]; try tauto. intros [X1 X2]. unfold persist1.
  destruct (strip_fields _ _ X1) as (_ & P1 & P2 & _). rewrite P1. destruct (Z.ltb d (n_exec n)); [cbn; auto|].
  destruct (Z.eqb (n_exec n) d && negb _); [cbn; auto|]. rewrite (E_has x y (n_sym n)) by congruence.
  destruct (negb (has_bar_on v x (n_sym n) d)); [cbn; auto|]. destruct (negb (was_attempted (n_id n) (b_pend x))); [now apply settle1_same|].
  destruct (n_timeout n) as [t|]; [|cbn; auto]. pose proof (set_pend_same (KAdvance (n_id n)) x y X1) as X3.
  destruct (strip_fields _ _ X3) as (_ & P3 & _). rewrite P3. destruct (Z.leb 0 t && _).
  - cbn [rel]. split; [now apply set_pend_same|exact X2].
  - now apply settle1_same.
Qed.
Lemma place_if_same w now x y : rel e x y -> rel e (place_if v w now i d x) (place_if v' w now i d y).
Proof. destruct x as [b|], y as [b'|]; cbn; try tauto. intros [S EE]. destruct now; [now apply place_same|cbn; auto]. Qed.
Lemma sort1_same w f b b' : strip b = strip b' -> strip (sort_sched w f d b) = strip (sort_sched w f d b').
Proof.
  intro S. destruct (strip_fields _ _ S) as (_ & _ & _ & _ & _ & F1 & F2 & F3). assert (G : get_sched w b' = get_sched w b) by (destruct w; cbn; auto).
  unfold sort_sched. rewrite G. destruct (zhas d (get_sched w b)); auto. generalize (zset d (sort_desc f (zget d (get_sched w b))) (get_sched w b)). intro X.
  revert S. clear. same b b'. destruct w; reflexivity.
Qed.
Lemma sort1_ends w f b : b_ends (sort_sched w f d b) = b_ends b.
Proof. unfold sort_sched. now destruct (zhas d (get_sched w b)). Qed.
Lemma sort_same b b' : strip b = strip b' -> strip (sort_scheds v d b) = strip (sort_scheds v' d b') /\ b_ends (sort_scheds v d b) = b_ends b.
Proof.
  intro S. unfold sort_scheds. rewrite E_sl, E_ss. destruct (v_sort_long v), (v_sort_short v); split; auto; try (rewrite !sort1_ends; reflexivity);
  repeat apply sort1_same; auto.
Qed.
Lemma settle_same b b' : strip b = strip b' -> b_ends b = e -> rel e (settle v i d b) (settle v' i d b').
Proof.
  intros S EE. unfold settle. destruct (strip_fields _ _ S) as (_ & _ & _ & _ & _ & F1 & F2 & F3). rewrite F1, F2, F3.
  destruct (sort_same _ _ S) as [S1 E1]. assert (E2 : b_ends (sort_scheds v d b) = e) by congruence.
  destruct (strip_fields _ _ S1) as (_ & _ & E3 & _).
  apply rel_bind.
  - apply rel_bind; [|intros; now apply persist_same]. do 3 apply place_if_same. apply do_op_same; auto. cbn [step]. unfold scope_on. rewrite E_scope, E_sm.
    apply check_stops_ext. intro s. rewrite (E_has (sort_scheds v d b) (sort_scheds v' d b') s) by congruence. reflexivity.
  - intros x y X1 X2. apply do_op_same; auto. cbn [step]. f_equal. apply capture_ext. intro s. unfold bar_on.
    destruct (strip_fields _ _ X1) as (_ & _ & E4 & _). rewrite (E_has x y s) by congruence. now rewrite E_bar.
Qed.
Lemma cancel_same x y z : rel e x y -> rel e (do_cancel v x z) (do_cancel v' y z).
Proof.
  intro R. unfold do_cancel. apply rel_bind; auto. intros b b' S EE. destruct z; try (cbn [rel]; split; [now apply set_pend_same|exact EE]);
  apply do_op_same; auto.
Qed.
Lemma rotate_same b b' x : strip b = strip b' -> rotate v' i b' x = rotate v i b x.
Proof.
  intro S. destruct (strip_fields _ _ S) as (P & K & _). unfold rotate. rewrite E_set, P, K, E_cfg, E_close. destruct (z_worst (v_settings v)); auto.
  destruct (apply_worst_rank_held _ _ _ _ _ _ _) as [[[x2 lr] sr]|]; auto. f_equal. f_equal.
  destruct (v_sizer v) as [f|], (v_sizer v') as [g|]; cbn in E_sizer; try discriminate; auto. injection E_sizer as ->. reflexivity.
Qed.
Lemma schedule_same created w k x y r : (k = v_buy_delay v \/ k = v_sell_delay v) -> In (r_sym r) act -> rel e x y ->
  rel e (schedule_order v created k w x r) (schedule_order v' created k w y r).
Proof.
  intros HK IN. destruct x as [b|], y as [b'|]; cbn [rel]; try tauto. intros [S EE]. unfold schedule_order.
  destruct (strip_fields _ _ S) as (_ & K & EN & _).
  assert (X : exec_date v' (r_sym r) (end_of b' (r_sym r)) k = exec_date v (r_sym r) (end_of b (r_sym r)) k).
  { destruct (E_exec b b' (r_sym r)) as [X1 X2]; try congruence. destruct HK as [-> | ->]; auto. }
  rewrite X. destruct (exec_date v (r_sym r) (end_of b (r_sym r)) k) as [[date iw]|]; [|cbn; auto].
  assert (X2 : end_of b' (r_sym r) = end_of b (r_sym r)) by (unfold end_of; now rewrite EN). rewrite X2, K.
  destruct (to_add r created date _) as [a|]; [|exact I]. pose proof (set_pend_same (KAdd a) b b' S) as S2. set (u := set_pend (KAdd a) b) in *. set (u' := set_pend (KAdd a) b') in *.
  assert (EU : b_ends u = e) by exact EE. set (id := snd _). clearbody u u' id. revert S2 EU. clear. same u u'. cbn [b_ends]. intro EE. destruct iw, w; cbn; auto.
Qed.
Lemma collect_same x n : collect v' d x n = collect v d x n.
Proof. unfold collect. apply fold_ext. intros [[[[cs bs] ss] k]|] kv; auto. unfold collect1. now rewrite E_set. Qed.
Lemma result_sym s d' rot g n r n' : to_result s d' rot g n = OResult r n' -> r_sym r = s.
Proof.
  unfold to_result. repeat match goal with |- context [match ?x with _ => _ end] => destruct x; try discriminate end; intro H; inversion H; reflexivity.
Qed.
Lemma collect_syms x n cs bs ss n' : collect v d x n = Some (cs, bs, ss, n') ->
  (forall r, In r cs \/ In r bs \/ In r ss -> In (r_sym r) (map fst x)).
Proof.
  unfold collect. assert (G : forall l a b c k, incl (map fst l) (map fst x) -> (forall r, In r a \/ In r b \/ In r c -> In (r_sym r) (map fst x)) ->
    fold_left (collect1 v d) l (Some (a, b, c, k)) = Some (cs, bs, ss, n') -> forall r, In r cs \/ In r bs \/ In r ss -> In (r_sym r) (map fst x)).
  { induction l as [|kv l IH]; intros a b c k IN H; cbn [fold_left]; [intros [= <- <- <- _]; exact H|].
    assert (IN2 : incl (map fst l) (map fst x)) by (intros s I; apply IN; now right).
    assert (IN1 : In (fst kv) (map fst x)) by (apply IN; now left).
    unfold collect1 at 2. destruct (to_result (fst kv) d _ (snd kv) k) as [| |r n2] eqn:T.
    - assert (N : forall l, fold_left (collect1 v d) l None = None) by (clear; induction l; cbn; auto). rewrite N. discriminate.
    - now apply IH.
    - apply result_sym in T. destruct (given (r_buy r)), (r_cover r), (given (r_sell r)); apply IH; auto;
      intros r0 [I|[I|I]]; try (apply in_app_iff in I; destruct I as [I|[<-|[]]]; [|now rewrite T]); apply H; tauto. }
  apply G; [apply incl_refl|]. intros r [[]|[[]|[]]].
Qed.
Lemma rotate_keys2 b x x2 : rotate v i b x = Some x2 -> map fst x2 = map fst x.
Proof. intro H. exact (rotate_keys _ _ _ _ _ H). Qed.
Lemma decide_same exits b b' : strip b = strip b' -> b_ends b = e -> rel e (decide v i d act exits b) (decide v' i d act exits b').
Proof.
  intros S EE. unfold decide. destruct (strip_fields _ _ S) as (P & K & _ & C & _). rewrite P, K, C, E_user.
  set (x0 := map _ act). set (u := v_user v i d (b_port b) (b_pend b) x0). set (x1 := map _ x0).
  apply rel_bind; [apply rel_fold; [|cbn; auto]; intros; now apply cancel_same|].
  intros c c' SC EC. rewrite (rotate_same c c' x1 SC). destruct (rotate v i c x1) as [x2|] eqn:RT; [|exact I].
  destruct (strip_fields _ _ SC) as (_ & _ & _ & C2 & ST & _). rewrite collect_same, ST, C2.
  destruct (collect v d x2 (b_stop c)) as [[[[cs bs] ss] n]|] eqn:CO; [|exact I].
  assert (SY : forall r, In r cs \/ In r bs \/ In r ss -> In (r_sym r) act).
  { intros r I. pose proof (collect_syms _ _ _ _ _ _ CO r I) as J. rewrite (rotate_keys2 _ _ _ RT) in J. unfold x1, x0 in J. rewrite !map_map in J. cbn in J. now rewrite map_id in J. }
  apply rel_bind.
  - apply rel_fold.
    { intros x y s _ R. unfold do_exit. rewrite E_fill, E_sm. apply rel_bind; auto. intros; now apply do_op_same. }
    rewrite E_bd, E_sd. apply rel_fold; [intros; apply schedule_same; auto|]. apply rel_fold; [intros; apply schedule_same; auto|].
    apply rel_fold; [intros; apply schedule_same; auto|]. revert SC EC. generalize (fold_left (fun l kv => aset (fst kv) (snd kv) l) x2 (b_ctx c)). intro X. clear. same c c'. cbn. auto.
  - intros x y X1 X2. apply do_op_same; auto. cbn [step]. f_equal. apply incr_ext. intro s. destruct (strip_fields _ _ X1) as (_ & _ & E4 & _). apply E_has; congruence.
Qed.
End Two.
