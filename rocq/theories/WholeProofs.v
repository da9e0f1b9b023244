(** Whole shares: an account whose orders ask for whole numbers of shares, and
    that does not trade fractions, holds and records whole numbers only. *)
From Coq Require Import List Bool Arith Lia ZArith QArith Qminmax Qround Qabs Lqa.
From Verif Require Export WholeSpec.
From Verif Require Import Prelude Lemmas PortfolioFacts PortfolioRun.
Import ListNotations.
Open Scope list_scope.
Open Scope Q_scope.

Lemma whole_0 : whole 0. Proof. exists 0%Z. reflexivity. Qed.
Lemma whole_z z : whole (inject_Z z). Proof. exists z. reflexivity. Qed.
Lemma whole_eq x y : x == y -> whole x -> whole y.
Proof. intros E [z H]. exists z. now rewrite <- E. Qed.
Lemma whole_add x y : whole x -> whole y -> whole (x + y).
Proof. intros [a A] [b B]. exists (a + b)%Z. rewrite A, B, inject_Z_plus. reflexivity. Qed.
Lemma whole_sub x y : whole x -> whole y -> whole (x - y).
Proof. intros [a A] [b B]. exists (a - b)%Z. rewrite A, B. unfold Qminus, Z.sub. rewrite inject_Z_plus, inject_Z_opp. reflexivity. Qed.
Lemma whole_min x y : whole x -> whole y -> whole (Qmin x y).
Proof. intros A B. destruct (Q.min_dec x y) as [E|E]; eapply whole_eq; try (symmetry; exact E); auto. Qed.

Definition pos_whole (pos : position) : Prop := whole (ps_shares pos) /\ Forall (fun e => whole (e_shares e)) (ps_entries pos).
Definition map_whole (d : list (sym * position)) : Prop := Forall (fun kv => pos_whole (snd kv)) d.
Record Whole (p : port) : Prop := mkWhole {
  wh_pos : forall sd, map_whole (poss sd p);
  wh_orders : Forall (fun o => whole (o_shares o)) (p_orders p);
  wh_trades : Forall (fun t => whole (t_shares t)) (p_trades p)
}.
Lemma Whole_ext p p' : (forall sd, poss sd p' = poss sd p) -> p_orders p' = p_orders p -> p_trades p' = p_trades p -> Whole p -> Whole p'.
Proof. intros A B C [X Y Z]. constructor; [intro sd; now rewrite A|now rewrite B|now rewrite C]. Qed.
Lemma map_get d s pos : map_whole d -> aget s d = Some pos -> pos_whole pos.
Proof.
  intros H. induction d as [|[k v] r IH]; cbn; [discriminate|]. apply Forall_cons_iff in H. destruct H as [H1 H2].
  destruct (Nat.eqb s k); [intros [= <-]; exact H1|auto].
Qed.
Lemma map_set d s pos : map_whole d -> pos_whole pos -> map_whole (aset s pos d).
Proof.
  intros H P. induction d as [|[k v] r IH]; cbn; [apply Forall_cons; [exact P|constructor]|]. apply Forall_cons_iff in H. destruct H as [H1 H2].
  destruct (Nat.eqb s k); (apply Forall_cons; [first [exact P|exact H1]|first [exact H2|apply IH; exact H2]]).
Qed.
Lemma map_del d s : map_whole d -> map_whole (adel s d).
Proof.
  intros H. induction d as [|[k v] r IH]; cbn; [constructor|]. apply Forall_cons_iff in H. destruct H as [H1 H2].
  destruct (Nat.eqb s k); [first [exact H2|apply IH; exact H2]|]. apply Forall_cons; [exact H1|apply IH; exact H2].
Qed.
Lemma Whole_poss sd d p : Whole p -> map_whole d -> Whole (set_poss sd d p).
Proof. intros [A B C] D. pose proof (A Long). pose proof (A Short). constructor; [|destruct sd; auto..]. intros [|]; destruct sd; auto. Qed.
Lemma forall_snoc {A} (P : A -> Prop) l x : Forall P l -> P x -> Forall P (l ++ [x]).
Proof. intros. apply Forall_app. split; auto. Qed.

Section Account.
Variable c : cfg.
Lemma add_order_whole d s o cr ot it sh l m f p : whole sh -> Whole p -> Whole (fst (add_order c d s o cr ot it sh l m f p)).
Proof.
  intros S [A B C]. unfold add_order. cbn [fst]. pose proof (A Long) as A1. pose proof (A Short) as A2.
  constructor; [intros [|]| |]; destruct (c_fee_mode c); cbn; auto; apply forall_snoc; auto.
Qed.
Lemma clamp_whole pos : ps_entries (clamp_unmarked pos) = ps_entries pos /\ ps_shares (clamp_unmarked pos) = ps_shares pos.
Proof.
  unfold clamp_unmarked. destruct (Qle_bool (ps_un_shares pos) 0); auto. destruct (Qle_bool (ps_shares pos) 0); auto.
  destruct (Qltb _ _); auto.
Qed.
Lemma exit_entry_whole sd d pos e sh f stp p pos' p' : exit_entry c sd d pos e sh f stp p = (pos', p') ->
  pos_whole pos -> whole sh -> Whole p -> pos_whole pos' /\ Whole p'.
Proof.
  intros E [P1 P2] S W. unfold exit_entry in E. injection E as <- <-.
  match goal with |- pos_whole ?x /\ _ => set (q := x) end.
  assert (PW : pos_whole q).
  { unfold q. split; [rewrite (proj2 (clamp_whole _))|rewrite (proj1 (clamp_whole _))]; cbn.
    - now apply whole_sub.
    - unfold upd_entry. apply Forall_map. eapply Forall_impl; [|exact P2]. intros x X. cbn. destruct (Nat.eqb _ _); auto. cbn. now apply whole_sub. }
  split; auto. clearbody q. destruct W as [A B C]. pose proof (A Long) as A1. pose proof (A Short) as A2.
  assert (X : forall (u : nat -> trade) r, whole (t_shares (u (Datatypes.S (p_trade_id r)))) -> Whole r -> Whole (invalidate (add_trade u r))).
  { intros u r U [R1 R2 R3]. pose proof (R1 Long). pose proof (R1 Short). unfold add_trade.
    destruct (Qltb 0 _); constructor; try (intros [|]); cbn; auto; apply forall_snoc; auto. }
  apply X; [exact S|]. apply Whole_poss.
  - constructor; [|destruct sd; exact B|destruct sd; exact C]. intros [|]; destruct sd; auto.
  - apply map_set; auto. destruct sd; auto.
Qed.
Lemma remove_stop_data_whole l : forall p, Whole p -> Whole (remove_stop_data l p).
Proof.
  induction l as [|st r IH]; cbn; auto. intros p W. destruct (ahas _ _); auto. apply IH. revert W. unfold pop_stop.
  destruct (aget _ _) as [x|]; [destruct (remove_first _ x)|]; apply Whole_ext; auto; intros [|]; auto.
Qed.
Lemma update_position_whole sd pos p : Whole p -> Whole (update_position sd pos p).
Proof.
  intro W. unfold update_position. destruct (ps_entries pos); auto. assert (X : Whole (set_poss sd (adel (ps_sym pos) (poss sd p)) p)).
  { apply Whole_poss; auto. apply map_del, W. }
  destruct (_ && _); auto. revert X. apply Whole_ext; auto; intros [|]; auto.
Qed.
Lemma fifo_whole sd d f es : forall rem pos p r' pos' p', fifo_loop c sd d f es rem pos p = (r', pos', p') -> Forall (fun e => whole (e_shares e)) es ->
  whole rem -> pos_whole pos -> Whole p -> whole r' /\ pos_whole pos' /\ Whole p'.
Proof.
  induction es as [|e es IH]; intros rem pos p r' pos' p' E FE R P W; cbn [fifo_loop] in E; [injection E as <- <- <-; auto|].
  apply Forall_cons_iff in FE. destruct FE as [F1 F2]. destruct (Qltb 0 rem); [|injection E as <- <- <-; auto].
  destruct (Qle_bool (e_shares e) rem).
  - destruct (exit_entry c sd d pos e (e_shares e) f None p) as [q r] eqn:X. destruct (exit_entry_whole _ _ _ _ _ _ _ _ _ _ X P F1 W) as [X1 X2].
    assert (PW : pos_whole (set_ps_entries (tl (ps_entries q)) q)).
    { destruct X1 as [Y1 Y2]. split; [exact Y1|]. cbn. destruct (ps_entries q); [constructor|]. cbn. now apply Forall_cons_iff in Y2. }
    eapply IH; [exact E| | | |]; auto.
    + now apply whole_sub.
    + apply Whole_poss; [now apply remove_stop_data_whole|]. apply map_set; auto. apply remove_stop_data_whole, X2.
  - destruct (exit_entry c sd d pos e rem f None p) as [q r] eqn:X. destruct (exit_entry_whole _ _ _ _ _ _ _ _ _ _ X P R W) as [X1 X2].
    injection E as <- <- <-. split; [apply whole_0|auto].
Qed.
Lemma close_whole sd d s sh f p a b p' : close_existing c sd d s sh f p = (a, b, p') -> whole sh -> Whole p -> whole a /\ whole b /\ Whole p'.
Proof.
  intros E S W. unfold close_existing in E. destruct (aget s (poss sd p)) as [pos|] eqn:G; [|injection E as <- <- <-; split; [apply whole_0|auto]].
  pose proof (map_get _ _ _ (wh_pos _ W sd) G) as P.
  destruct (match sd with Short => Qle_bool sh 0 | Long => false end); [injection E as <- <- <-; split; [apply whole_0|auto]|].
  destruct (fifo_loop c sd d f (ps_entries pos) sh pos p) as [[r q] r2] eqn:F. destruct (fifo_whole _ _ _ _ _ _ _ _ _ _ F (proj2 P) S P W) as [X1 [X2 X3]].
  injection E as <- <- <-. split; [now apply whole_sub|]. split; auto. now apply update_position_whole.
Qed.
Lemma long_mv_ext p : forall sd, poss sd (snd (long_mv p)) = poss sd p.
Proof. intro sd. unfold long_mv. destruct (p_clong p); destruct sd; auto. Qed.
Lemma cache_whole p p' : cache_only p p' -> Whole p -> Whole p'.
Proof. intros C. apply Whole_ext; [intro sd; apply (cc_poss _ _ C)| |]; destruct (cc_acct _ _ C); auto. Qed.
Lemma add_stops_whole l : forall e p e' p' r, add_stops_loop l e p = (e', p', r) -> Whole p -> e_shares e' = e_shares e /\ Whole p'.
Proof.
  induction l as [|st l IH]; intros e p e' p' r E W; cbn [add_stops_loop] in E; [injection E as <- <- <-; auto|].
  destruct (ahas _ _); [injection E as <- <- <-; auto|]. destruct (st_type st).
  - apply IH in E; auto.
  - destruct (stop_amount st _); [|injection E as <- <- <-; auto]. apply IH in E; [exact E|]. revert W. apply Whole_ext; auto; intros [|]; auto.
  - destruct (stop_amount st _); [|injection E as <- <- <-; auto]. apply IH in E; [exact E|]. revert W. apply Whole_ext; auto; intros [|]; auto.
  - destruct (stop_amount st _); [|injection E as <- <- <-; auto]. apply IH in E; [exact E|]. revert W. apply Whole_ext; auto; intros [|]; auto.
Qed.
Definition res_whole {A} (P : A -> Prop) (r : res A) : Prop := match r with Ret p a => Whole p /\ P a | Raise p _ => Whole p end.
Lemma open_whole sd d s sh f stops p : whole sh -> Whole p -> res_whole whole (open_fill c sd d s sh f stops p).
Proof.
  intros S W. unfold open_fill. set (p0 := post_collateral c (sh * f) p).
  assert (W0 : Whole p0) by (revert W; apply Whole_ext; auto; intros [|]; auto). clearbody p0.
  set (x := match aget s (poss sd p0) with Some pos => _ | None => _ end). assert (X : pos_whole (fst x) /\ Whole (snd x)).
  { unfold x. destruct (aget s (poss sd p0)) as [pos|] eqn:G; cbn [fst snd].
    - destruct (map_get _ _ _ (wh_pos _ W0 sd) G) as [P1 P2]. split; auto. split; cbn; auto. now apply whole_add.
    - split; [split; cbn; auto|]. revert W0. apply Whole_ext; auto; intros [|]; auto. }
  clearbody x. destruct x as [pos q]. cbn [fst snd] in X. destruct X as [P Q].
  set (q1 := set_p_entry_id _ q). assert (Q1 : Whole q1) by (revert Q; apply Whole_ext; auto; intros [|]; auto). clearbody q1.
  set (e := mkEntry _ _ _ _ _ _ _ _ _ _ _). set (y := match stops with Some ss => _ | None => _ end).
  assert (Y : e_shares (fst (fst y)) = sh /\ Whole (snd (fst y))).
  { unfold y. destruct stops as [ss|]; [|split; auto]. destruct (add_stops_loop (sort_stops ss) e q1) as [[e' q2] r] eqn:A. exact (add_stops_whole _ _ _ _ _ _ A Q1). }
  clearbody y. destruct y as [[e' q2] raised]. cbn [fst snd] in Y. destruct Y as [Y1 Y2].
  assert (PP : pos_whole (set_ps_entries (ps_entries (add_unmarked sh f pos) ++ [e']) (add_unmarked sh f pos))).
  { destruct P as [P1 P2]. split; cbn; auto. apply forall_snoc; auto. now rewrite Y1. }
  destruct raised.
  - cbn. apply Whole_poss; auto. apply map_set; auto. apply Y2.
  - cbn. split; auto. assert (Z : Whole (set_poss sd (aset s (set_ps_notional (ps_notional (set_ps_entries (ps_entries (add_unmarked sh f pos) ++ [e']) (add_unmarked sh f pos)) + sh * f) (set_ps_entries (ps_entries (add_unmarked sh f pos) ++ [e']) (add_unmarked sh f pos))) (poss sd q2)) q2)).
    { apply Whole_poss; auto. apply map_set; [apply Y2|]. exact PP. }
    revert Z. apply Whole_ext; destruct sd; auto; intros [|]; auto.
Qed.
Hypothesis FR : c_fractional c = false.
Lemma clamp_shares_whole s f sh o p : whole sh -> whole (fst (clamp_shares c s f sh o p)).
Proof.
  intro S. unfold clamp_shares. destruct (buying_power c p) as [bp q]. rewrite FR. destruct (_ && _); [apply whole_0|].
  destruct (Qltb 1 (c_leverage c)); [destruct (Qltb 0 _); [destruct (Qle_bool _ 0)|]|]; cbn [fst]; try apply whole_0; apply whole_min; auto; apply whole_z.
Qed.
Lemma mv_whole p : Whole p -> Whole (snd (long_mv p)) /\ Whole (snd (short_mv p)).
Proof.
  intro W. unfold long_mv, short_mv. split.
  - destruct (p_clong p); cbn [snd]; auto. revert W. apply Whole_ext; auto; intros [|]; auto.
  - destruct (p_cshort p); cbn [snd]; auto. revert W. apply Whole_ext; auto; intros [|]; auto.
Qed.
Lemma power_whole p : Whole p -> Whole (snd (buying_power c p)).
Proof.
  intro W. unfold buying_power. destruct (Qle_bool (c_leverage c) 1); auto.
  destruct (long_mv p) as [l p1] eqn:E1. destruct (short_mv p1) as [s p2] eqn:E2. unfold live_mv.
  destruct (long_mv p2) as [l2 p3] eqn:E3. destruct (short_mv p3) as [s2 p4] eqn:E4. cbn [snd].
  pose proof (proj1 (mv_whole p W)) as X1. rewrite E1 in X1. pose proof (proj2 (mv_whole p1 X1)) as X2. rewrite E2 in X2.
  pose proof (proj1 (mv_whole p2 X2)) as X3. rewrite E3 in X3. pose proof (proj2 (mv_whole p3 X3)) as X4. now rewrite E4 in X4.
Qed.
Lemma clamp_state_whole s f sh o p : Whole p -> Whole (snd (clamp_shares c s f sh o p)).
Proof.
  intro W. unfold clamp_shares. pose proof (power_whole p W) as X. destruct (buying_power c p) as [bp q]. cbn [snd] in X.
  destruct (_ && _); auto. destruct (Qltb 1 (c_leverage c)); [destruct (Qltb 0 _); [destruct (Qle_bool _ 0)|]|]; auto.
Qed.
Lemma long_whole d s sh f stops p : whole sh -> Whole p -> res_whole whole (long_ c d s sh f stops p).
Proof.
  intros S W. unfold long_. destruct (c_mode c); try (split; [exact W|apply whole_0]);
  (pose proof (clamp_shares_whole s f sh OBuy p S) as X; pose proof (clamp_state_whole s f sh OBuy p W) as Y;
   destruct (clamp_shares c s f sh OBuy p) as [k q]; cbn [fst snd] in X, Y; destruct (Qltb k sh);
   (destruct (Qle_bool _ 0); [split; [exact Y|apply whole_0]|]; destruct (at_cap _ _ _); [split; [exact Y|apply whole_0]|]; apply open_whole; auto)).
Qed.
Lemma short_whole d s sh f stops p : whole sh -> Whole p -> res_whole whole (short_ c d s sh f stops p).
Proof.
  intros S W. unfold short_. destruct (Qle_bool sh 0); [split; [exact W|apply whole_0]|]. destruct (at_cap _ _ _); [split; [exact W|apply whole_0]|].
  destruct (c_mode c); try (split; [exact W|apply whole_0]);
  (pose proof (clamp_shares_whole s f sh OSell p S) as X; pose proof (clamp_state_whole s f sh OSell p W) as Y;
   destruct (clamp_shares c s f sh OSell p) as [k q]; cbn [fst snd] in X, Y; destruct (Qltb k sh);
   (destruct (Qle_bool _ 0); [split; [exact Y|apply whole_0]|]; apply open_whole; auto)).
Qed.
Lemma buy_whole a p : whole (a_shares a) -> Whole p -> res_whole (fun _ => True) (buy c a p).
Proof.
  intros S W. unfold buy. destruct (verify_input_raises _ _ _); [exact W|]. destruct (match a_limit a with Some _ => _ | None => _ end); [split; auto|].
  destruct (Qeq_bool _ 0); [split; auto|]. destruct (close_existing c Short _ _ _ _ p) as [[fl rm] q] eqn:E. destruct (close_whole _ _ _ _ _ _ _ _ _ E S W) as [X1 [X2 X3]].
  pose proof (long_whole (a_date a) (a_sym a) rm (a_fill a) (a_stops a) q X2 X3) as L. destruct (long_ c _ _ rm _ _ q) as [r b|r x]; [|exact L]. destruct L as [L1 L2].
  destruct (_ && _); [split; auto|]. pose proof (add_order_whole (a_date a) (a_sym a) OBuy (a_created a) (a_otype a) (if Qis0 b then BuyToClose else BuyToOpen) (fl + b) (a_limit a) (a_market a) (a_fill a) r (whole_add _ _ X1 L2) L1) as A.
  destruct (add_order c _ _ _ _ _ _ _ _ _ _ r) as [r' o]. split; auto.
Qed.
Lemma sell_whole a p : whole (a_shares a) -> Whole p -> res_whole (fun _ => True) (sell c a p).
Proof.
  intros S W. unfold sell. destruct (verify_input_raises _ _ _); [exact W|]. destruct (match a_limit a with Some _ => _ | None => _ end); [split; auto|].
  destruct (Qeq_bool _ 0); [split; auto|]. destruct (close_existing c Long _ _ _ _ p) as [[fl rm] q] eqn:E. destruct (close_whole _ _ _ _ _ _ _ _ _ E S W) as [X1 [X2 X3]].
  pose proof (short_whole (a_date a) (a_sym a) rm (a_fill a) (a_stops a) q X2 X3) as L. destruct (short_ c _ _ rm _ _ q) as [r b|r x]; [|exact L]. destruct L as [L1 L2].
  destruct (_ && _); [split; auto|]. pose proof (add_order_whole (a_date a) (a_sym a) OSell (a_created a) (a_otype a) (if Qis0 b then SellToClose else SellToOpen) (fl + b) (a_limit a) (a_market a) (a_fill a) r (whole_add _ _ X1 L2) L1) as A.
  destruct (add_order c _ _ _ _ _ _ _ _ _ _ r) as [r' o]. split; auto.
Qed.
Lemma exit_position_whole d s bf sf sm p : Whole p -> res_whole (fun _ => True) (exit_position c d s bf sf sm p).
Proof.
  intro W. unfold exit_position. set (r1 := match aget s (p_longs p) with Some pos => _ | None => _ end).
  assert (X : res_whole (fun _ : unit => True) r1).
  { unfold r1. destruct (aget s (p_longs p)) as [pos|] eqn:G; [|split; auto]. destruct (slip_price _ _ _ _ _) as [f|]; [|exact W].
    pose proof (sell_whole (mkOArgs d s (ps_shares pos) f None None None OMarket (Some sf)) p (proj1 (map_get _ _ _ (wh_pos _ W Long) G)) W) as Y.
    destruct (sell c _ p) as [q o|q e]; [split; [exact (proj1 Y)|auto]|exact Y]. }
  clearbody r1. destruct r1 as [q u|q e]; [|exact X]. destruct X as [X _]. destruct (aget s (p_shorts q)) as [pos|] eqn:G; [|split; auto].
  destruct (slip_price _ _ _ _ _) as [f|]; [|exact X].
  pose proof (buy_whole (mkOArgs d s (ps_shares pos) f None None None OMarket (Some bf)) q (proj1 (map_get _ _ _ (wh_pos _ X Short) G)) X) as Y.
  destruct (buy c _ q) as [q' o|q' e]; [split; [exact (proj1 Y)|auto]|exact Y].
Qed.
Lemma find_whole id es e : find_entry id es = Some e -> Forall (fun e => whole (e_shares e)) es -> whole (e_shares e).
Proof. intros F H. apply find_some in F. rewrite Forall_forall in H. apply H, F. Qed.
Lemma trigger_whole d sc sm pos e st p : pos_whole pos -> whole (e_shares e) -> Whole p -> res_whole (fun _ => True) (trigger_stop c d sc sm pos e st p).
Proof.
  intros P S W. unfold trigger_stop. destruct (negb _); [split; auto|].
  set (dec := match st_type st with SBar => _ | _ => _ end). assert (X : res_whole (fun _ : option Q => True) dec).
  { unfold dec. destruct (st_type st).
    - destruct (trigger_bar_stop st sc e); cbn; auto.
    - destruct (aget _ _); cbn; auto.
    - destruct (aget _ _); cbn; auto.
    - destruct (aget _ _) as [x|]; cbn; auto. destruct (trigger_price_stop _ _ _); cbn; auto. destruct (ratchet _ _ _); cbn; auto.
      split; auto. revert W. apply Whole_ext; auto; intros [|]; auto. }
  clearbody dec. destruct dec as [q [m|]|q x]; [|exact X|exact X]. destruct X as [X _].
  destruct (match st_limit st with Some _ => _ | None => _ end); [split; auto|]. destruct (_ && _); [exact X|].
  destruct (exit_entry c (st_pos st) d pos e (e_shares e) (slip_stop_fill sm st e m) (Some (st_type st)) q) as [pos' q'] eqn:E.
  destruct (exit_entry_whole _ _ _ _ _ _ _ _ _ _ E P S X) as [Y1 Y2].
  pose proof (add_order_whole d (ps_sym pos') (match st_pos st with Long => OSell | Short => OBuy end) None (stop_order_type (st_type st)) (match st_pos st with Long => SellToClose | Short => BuyToClose end) (e_shares e) (st_limit st) (Some m) (slip_stop_fill sm st e m) q' S Y2) as A.
  destruct (add_order c _ _ _ _ _ _ _ _ _ _ q') as [q'' o]. split; auto.
Qed.
Definition ex_whole (r : res executed) : Prop := res_whole (fun _ => True) r.
Lemma check_price_whole d sc sm s id r : ex_whole r -> ex_whole (check_price_stop c d sc sm s id r).
Proof.
  destruct r as [p ex|p x]; [|auto]. intros [W _]. unfold check_price_stop. destruct (aget id _) as [sd|]; [|exact W].
  destruct (is_triggered _ _); [split; auto|]. destruct (aget s _) as [pos|] eqn:G; [|split; auto]. destruct (find_entry _ _) as [e|] eqn:F; [|exact W].
  destruct (negb _); [exact W|]. pose proof (map_get _ _ _ (wh_pos _ W _) G) as P.
  pose proof (trigger_whole d sc sm pos e (sd_stop sd) p P (find_whole _ _ _ F (proj2 P)) W) as T.
  destruct (trigger_stop c d sc sm pos e (sd_stop sd) p) as [q [|]|q x]; [split; [exact (proj1 T)|auto]|split; [exact (proj1 T)|auto]|exact T].
Qed.
Lemma price_loop_whole d sc sm l : forall r, ex_whole r -> ex_whole (price_loop c d sc sm l r).
Proof.
  unfold price_loop. induction l as [|[s ids] l IH]; cbn [fold_left]; auto. intros r W. apply IH. cbn [fst snd]. destruct (sc_can_price sc s); auto.
  revert r W. induction ids as [|i ids IHi]; cbn [fold_left]; auto. intros r W. apply IHi. now apply check_price_whole.
Qed.
Lemma bar_stops_whole d sc sm sd s eid l : forall r, ex_whole r -> ex_whole (bar_stops_loop c d sc sm sd s eid l r).
Proof.
  induction l as [|t l IH]; intros r W; [destruct r; exact W|]. destruct r as [p ex|p x]; [|exact W]. destruct W as [W _]. cbn [bar_stops_loop].
  destruct (st_type t); try (apply IH; split; auto). destruct (aget s _) as [pos|] eqn:G; [|exact W]. destruct (find_entry _ _) as [e|] eqn:F; [|exact W].
  destruct (negb _); [exact W|]. pose proof (map_get _ _ _ (wh_pos _ W _) G) as P.
  pose proof (trigger_whole d sc sm pos e t p P (find_whole _ _ _ F (proj2 P)) W) as T.
  destruct (trigger_stop c d sc sm pos e t p) as [q [|]|q x]; [split; [exact (proj1 T)|auto]|apply IH; split; [exact (proj1 T)|auto]|exact T].
Qed.
Lemma bar_entries_whole d sc sm sd s es : forall r, ex_whole r -> ex_whole (bar_entries_loop c d sc sm sd s es r).
Proof.
  unfold bar_entries_loop. induction es as [|e es IH]; cbn [fold_left]; auto. intros r W. apply IH. destruct r as [p ex|p x]; [|exact W].
  destruct (is_triggered _ _); auto. now apply bar_stops_whole.
Qed.
Lemma bar_loop_whole d sc sm sd l : forall r, ex_whole r -> ex_whole (bar_loop c d sc sm sd l r).
Proof.
  unfold bar_loop. induction l as [|kv l IH]; cbn [fold_left]; auto. intros r W. apply IH. destruct (sc_can_price _ _); auto. now apply bar_entries_whole.
Qed.
Lemma remove_entry_whole id es : Forall (fun e => whole (e_shares e)) es -> Forall (fun e => whole (e_shares e)) (remove_entry id es).
Proof.
  induction es as [|e r IH]; cbn; auto. intro H. apply Forall_cons_iff in H. destruct H. destruct (Nat.eqb _ _); auto.
Qed.
Lemma finish_whole l : forall p, Whole p -> Whole (fold_left finish_exit l p).
Proof.
  induction l as [|[[sd s] id] l IH]; cbn [fold_left]; auto. intros p W. apply IH. unfold finish_exit. destruct (aget s _) as [pos|] eqn:G; auto.
  destruct (find_entry _ _) as [e|]; auto. apply update_position_whole, remove_stop_data_whole, Whole_poss; auto. apply map_set; [apply W|].
  destruct (map_get _ _ _ (wh_pos _ W _) G) as [P1 P2]. split; auto. cbn. now apply remove_entry_whole.
Qed.
Lemma check_stops_whole d sc sm p : Whole p -> res_whole (fun _ => True) (check_stops c d sc sm p).
Proof.
  intro W. unfold check_stops. pose proof (price_loop_whole d sc sm (p_active p) (Ret p []) (conj W I)) as X1.
  destruct (price_loop c d sc sm (p_active p) (Ret p [])) as [p1 e1|p1 e1]; [|exact X1].
  pose proof (bar_loop_whole d sc sm Long (p_longs p1) _ X1) as X2. destruct (bar_loop c d sc sm Long (p_longs p1) (Ret p1 e1)) as [p2 e2|p2 e2]; [|exact X2].
  pose proof (bar_loop_whole d sc sm Short (p_shorts p2) _ X2) as X3. destruct (bar_loop c d sc sm Short (p_shorts p2) (Ret p2 e2)) as [p3 e3|p3 e3]; [|exact X3].
  split; auto. apply finish_whole, X3.
Qed.
(** Calls that leave every share count alone. *)
Definition same_counts (a b : position) : Prop := ps_shares b = ps_shares a /\ map e_shares (ps_entries b) = map e_shares (ps_entries a).
Lemma counts_whole a b : same_counts a b -> pos_whole a -> pos_whole b.
Proof.
  intros [H1 H2] [A B]. split; [now rewrite H1|]. rewrite <- (Forall_map e_shares whole) in *. now rewrite H2.
Qed.
Lemma capture_calc_counts pos cl lo hi : same_counts pos (calculate_pnl_mae_mfe pos cl lo hi).
Proof.
  unfold calculate_pnl_mae_mfe. split; [reflexivity|]. cbn. rewrite map_map. apply map_ext. intro e. unfold entry_mark.
  assert (X : forall o (e : entry), e_shares (match o with Some x => if Qltb x 0 && Qltb x (e_mae e) then set_e_mae x e else e | None => e end) = e_shares e) by (intros [x|] y; auto; destruct (_ && _); auto).
  assert (Y : forall o (e : entry), e_shares (match o with Some x => if Qltb 0 x && Qltb (e_mfe e) x then set_e_mfe x e else e | None => e end) = e_shares e) by (intros [x|] y; auto; destruct (_ && _); auto).
  rewrite Y, X. reflexivity.
Qed.
Lemma capture_one_whole s b a p a' p' : capture_short s b (capture_long s b (a, p)) = (a', p') -> Whole p -> Whole p'.
Proof.
  intros E W. destruct (capture_long s b (a, p)) as [a1 p1] eqn:E1. assert (W1 : Whole p1).
  { unfold capture_long in E1. destruct (aget s (p_longs p)) as [pos|] eqn:G; [|injection E1 as <- <-; auto].
    destruct b as [[[cl lo] hi]|]; injection E1 as <- <-; auto. apply (Whole_poss Long); auto. apply map_set; [apply (wh_pos _ W Long)|].
    eapply counts_whole; [|exact (map_get _ _ _ (wh_pos _ W Long) G)]. exact (capture_calc_counts pos cl lo hi). }
  unfold capture_short in E. destruct (aget s (p_shorts p1)) as [pos|] eqn:G; [|injection E as <- <-; auto].
  destruct b as [[[cl lo] hi]|]; injection E as <- <-; auto. apply (Whole_poss Short); auto. apply map_set; [apply (wh_pos _ W1 Short)|].
  eapply counts_whole; [|exact (map_get _ _ _ (wh_pos _ W1 Short) G)]. exact (capture_calc_counts pos cl lo hi).
Qed.
Lemma interest_whole p : Whole p -> Whole (apply_interest c p).
Proof.
  assert (X : Whole p -> Whole (sweep p)) by (unfold sweep; destruct (_ || _); auto; apply Whole_ext; auto; intros [|]; auto).
  intro W. unfold apply_interest. destruct (c_bpy c); auto. destruct (Qle_bool _ _); auto. destruct (Qeq_bool _ _); auto.
  destruct (Qltb _ _); generalize (X W); apply Whole_ext; auto; intros [|]; auto.
Qed.
Lemma capture_whole d bar p : Whole p -> Whole (capture_bar c d bar p).
Proof.
  intro W. unfold capture_bar. apply interest_whole in W. set (p0 := apply_interest c p) in *. clearbody p0.
  match goal with |- context [fold_left ?f ?l ?s] => set (F := f); set (L := l); set (S0 := s) end.
  assert (X : forall l a q, Whole q -> Whole (snd (fold_left F l (a, q)))).
  { induction l as [|s l IH]; cbn [fold_left]; auto. intros a q Wq. destruct (F (a, q) s) as [a' q'] eqn:E. apply IH. exact (capture_one_whole s (bar s) a q a' q' E Wq). }
  specialize (X L (fst S0) p0 W). change (fst S0, p0) with S0 in X. destruct (fold_left F L S0) as [a q]. cbn [snd] in X. revert X. apply Whole_ext; auto; intros [|]; auto.
Qed.
Lemma map_mapv f d : (forall pos, same_counts pos (f pos)) -> map_whole d -> map_whole (map (fun kv : sym * position => (fst kv, f (snd kv))) d).
Proof. intros H M. apply Forall_map. eapply Forall_impl; [|exact M]. intros [s pos] P. cbn in *. eapply counts_whole; eauto. Qed.
Lemma incr_whole hb p : Whole p -> Whole (incr_bars hb p).
Proof.
  intros [A B C]. constructor; auto. intros [|]; (apply map_mapv; [|first [exact (A Long)|exact (A Short)]]); intro pos; (split; [reflexivity|]);
  cbn; rewrite map_map; apply map_ext; intro e; unfold incr_entry; destruct (hb _); reflexivity.
Qed.
Lemma strips_whole p p' : (forall sd, map_whole (poss sd p) -> map_whole (poss sd p')) -> p_orders p' = p_orders p -> p_trades p' = p_trades p -> Whole p -> Whole p'.
Proof. intros A B C [X Y Z]. constructor; [intro sd; apply A, X|now rewrite B|now rewrite C]. Qed.
Lemma map_entries_whole f p : (forall e, e_shares (f e) = e_shares e) -> Whole p -> Whole (map_entries f p).
Proof.
  intros H [A B C]. assert (G : forall pos, same_counts pos (set_ps_entries (map f (ps_entries pos)) pos)).
  { intro pos. split; [reflexivity|]. cbn. rewrite map_map. apply map_ext. auto. }
  constructor; auto. intros [|].
  - exact (map_mapv _ _ G (A Long)).
  - exact (map_mapv _ _ G (A Short)).
Qed.
Lemma pop_whole id s p : Whole p -> Whole (pop_stop id s p).
Proof.
  unfold pop_stop. destruct (aget _ _) as [x|]; [destruct (remove_first _ x)|]; apply Whole_ext; auto; intros [|]; auto.
Qed.
Lemma remove_stop_whole id p : Whole p -> Whole (fst (remove_stop id p)).
Proof.
  intro W. unfold remove_stop. destruct (aget id _) as [x|]; cbn [fst].
  - apply map_entries_whole; [|now apply pop_whole]. intro e. destruct (Nat.eqb _ _); auto.
  - destruct (find _ _) as [x|]; cbn [fst]; auto. apply map_entries_whole; auto. intro e. destruct (Nat.eqb _ _); auto.
Qed.
Lemma remove_entry_stops_whole e t p : Whole p -> Whole (remove_entry_stops e t p).
Proof.
  intro W. unfold remove_entry_stops. destruct t as [t|]; [destruct (find _ _); auto; now apply remove_stop_whole|].
  apply map_entries_whole; [|now apply remove_stop_data_whole]. intro x. destruct (Nat.eqb _ _); auto.
Qed.
Lemma remove_position_stops_whole pos t p : Whole p -> Whole (remove_position_stops pos t p).
Proof.
  unfold remove_position_stops. revert p. induction (ps_entries pos) as [|e r IH]; cbn [fold_left]; auto. intros p W. apply IH. now apply remove_entry_stops_whole.
Qed.
Lemma remove_stops_whole x t p : Whole p -> Whole (remove_stops x t p).
Proof.
  assert (X : forall sd s p, Whole p -> Whole (match aget s (poss sd p) with Some pos => remove_position_stops pos t p | None => p end)).
  { intros sd s q W. destruct (aget _ _); auto. now apply remove_position_stops_whole. }
  intro W. unfold remove_stops. destruct x as [s|sd s|id]; [apply X, X; auto|apply X; auto|]. destruct (find _ _); auto. now apply remove_entry_stops_whole.
Qed.
Lemma step_whole o p : asks_whole o -> Whole p -> res_whole (fun _ => True) (step c o p).
Proof.
  intros A W. destruct o; cbn [step asks_whole] in *.
  - pose proof (buy_whole a p A W) as X. destruct (buy c a p); exact X.
  - pose proof (sell_whole a p A W) as X. destruct (sell c a p); exact X.
  - now apply exit_position_whole.
  - now apply check_stops_whole.
  - split; auto. now apply capture_whole.
  - split; auto. now apply incr_whole.
  - split; auto. now apply remove_stop_whole.
  - split; auto. now apply remove_stops_whole.
  - split; auto. revert W. apply Whole_ext; auto; intros [|]; auto.
Qed.
Lemma run_whole ops : forall p p', Whole p -> Forall asks_whole ops -> fold_left (exec c) ops (Some p) = Some p' -> Whole p'.
Proof.
  induction ops as [|o ops IH]; intros p p' W A; cbn [fold_left]; [intros [= <-]; auto|]. apply Forall_cons_iff in A. destruct A as [A1 A2].
  cbn [exec]. pose proof (step_whole o p A1 W) as X. assert (N : forall l, fold_left (exec c) l None = None) by (induction l; cbn; auto).
  destruct (step c o p) as [q u|q [| | |]]; try (rewrite N; discriminate); intro E; refine (IH _ _ _ A2 E); first [exact (proj1 X)|exact X].
Qed.
End Account.
Lemma init_whole c : Whole (init c).
Proof. constructor; try (intros [|]); constructor. Qed.
Lemma whole_of p : Whole p -> whole_account p.
Proof.
  intros [A B C]. constructor; auto.
  - intros sd s. unfold queue. destruct (position_of p sd s) as [pos|] eqn:G; [|constructor]. exact (proj2 (map_get _ _ _ (A sd) G)).
  - intros sd s. unfold shares_held. destruct (position_of p sd s) as [pos|] eqn:G; [|apply whole_0]. exact (proj1 (map_get _ _ _ (A sd) G)).
Qed.
Theorem account_whole c ops p : c_fractional c = false -> Forall asks_whole ops -> run c ops = Some p -> whole_account p.
Proof. intros F A R. apply whole_of. eapply run_whole; eauto. apply init_whole. Qed.
