(** The log of a check of the stops: one record per stop. *)
From Coq Require Import List Bool Arith Lia ZArith QArith Lqa.
From Verif Require Export RecordStops.
From Verif Require Import Prelude Lemmas PortfolioFacts PortfolioRun.
Import ListNotations.
Open Scope list_scope.
Open Scope Q_scope.

Lemma nodup_app {A} (a b : list A) : NoDup a -> NoDup b -> (forall x, In x a -> ~ In x b) -> NoDup (a ++ b).
Proof.
  induction a as [|x a IH]; cbn; auto. intros NA NB D. apply NoDup_cons_iff in NA as [Na NA]. constructor.
  - rewrite in_app_iff. intros [I|I]; [auto|]. now apply (D x); auto.
  - apply IH; auto.
Qed.
Lemma nodup_flat {A B} (f : A -> list B) {K} (key : A -> K) l : NoDup (map key l) -> (forall x, In x l -> NoDup (f x)) ->
  (forall x y i, In x l -> In y l -> In i (f x) -> In i (f y) -> key x = key y) -> NoDup (flat_map f l).
Proof.
  induction l as [|x l IH]; cbn; [constructor|]. intros NK NF DJ. apply NoDup_cons_iff in NK as [Nx NK]. apply nodup_app; auto.
  - apply IH; auto. intros a b i Ia Ib. apply DJ; auto.
  - intros i Ii J. apply in_flat_map in J as [y [Iy J]]. apply Nx. rewrite (DJ x y i); auto. now apply in_map.
Qed.
Lemma map_nodup_filter {A B} (f : A -> B) g l : NoDup (map f l) -> NoDup (map f (filter g l)).
Proof.
  induction l as [|x l IH]; cbn; auto. intros N. apply NoDup_cons_iff in N as [Nx N]. destruct (g x); auto. cbn. constructor; auto.
  intro I. apply Nx. apply in_map_iff in I as [y [E I]]. apply filter_In in I as [I _]. apply in_map_iff. eauto.
Qed.

Section Loop.
Variables (c : cfg) (p0 : port) (d : Z) (sc : scope) (sm : slip_model) (log0 : list srec).
Hypothesis HC : Core [] p0.
Hypothesis HS : StopInv p0.
Definition rid (x : srec * option order) : nat := sr_id (fst x).
Definition closed (l : list (srec * option order)) (eid : nat) : Prop :=
  exists sd s e r o st, owns p0 sd s e /\ e_id e = eid /\ In (r, Some o) l /\ In st (e_stops e) /\ sr_id r = st_id st.
Definition good_rec (p : port) (x : srec * option order) : Prop :=
  sr_date (fst x) = d /\ accounted (fst x) (snd x) /\ sc_can_price sc (sr_sym (fst x)) = true /\ (exists e st, names_stop p0 (fst x) e st) /\ shows_level p0 (fst x) /\
  (forall v, level p (sr_id (fst x)) = Some v -> sr_value (fst x) = Some v).
Record J (p : port) (ex : executed) (log : list srec) (D R : list nat) : Prop := mkJ {
  j_log : exists l, log = log0 ++ map fst l /\ p_orders p = p_orders p0 ++ orders_in l /\ Forall (good_rec p) l /\ NoDup (map rid l) /\
     (forall id, In id (map rid l) -> ~ In id R) /\ (forall x, In x ex -> closed l (snd x)) /\
     (forall id, In id D -> In id (map rid l) \/ exists sd s e, owns p0 sd s e /\ In id (map st_id (e_stops e)) /\ closed l (e_id e));
  j_nd : NoDup (akeys (p_stop_data p));
  j_shape : forall sd, shape (poss sd p) = shape (poss sd p0);
  j_data : forall id, In id R -> aget id (p_stop_data p) = aget id (p_stop_data p0)
}.
Lemma J_weak p ex log D R R' : J p ex log D R -> incl R' R -> J p ex log D R'.
Proof.
  intros [[l [A1 [A2 [A3 [A4 [A5 [A6 A7]]]]]]] JN B C] I. constructor; auto. exists l. repeat split; auto. intros id H H'. eapply A5; eauto.
Qed.
Lemma J_skip p ex log D R id sd s e : J p ex log D R -> owns p0 sd s e -> In id (map st_id (e_stops e)) -> is_triggered (e_id e) ex = true -> J p ex log (id :: D) R.
Proof.
  intros [[l [A1 [A2 [A3 [A4 [A5 [A6 A7]]]]]]] JN B C] O I T. constructor; auto. exists l. repeat split; auto. intros i [<-|Ii]; [|auto].
  right. exists sd, s, e. split; auto. split; auto. unfold is_triggered in T. apply existsb_exists in T as [x [Ix E]]. apply Nat.eqb_eq in E. rewrite <- E. auto.
Qed.
Lemma owned_shape p sd s pos e : shape (poss sd p) = shape (poss sd p0) -> aget s (poss sd p) = Some pos -> In e (ps_entries pos) ->
  ps_sym pos = s /\ exists e0, owns p0 sd s e0 /\ proj e0 = proj e.
Proof.
  intros SH G I. destruct (shape_get _ _ _ _ SH G) as [pos0 [G0 [S0 P0]]]. pose proof (co_pos _ _ HC _ _ _ G0) as OK. rewrite <- S0. split; [apply (po_sym _ _ _ _ OK)|].
  assert (X : In (proj e) (map proj (ps_entries pos0))) by (rewrite P0; now apply in_map). apply in_map_iff in X as [e0 [E0 I0]]. exists e0. split; auto. exists pos0. auto.
Qed.
Lemma find_some eid es e : find_entry eid es = Some e -> In e es /\ e_id e = eid.
Proof. unfold find_entry. intro H. apply find_some in H as [A B]. split; auto. now apply Nat.eqb_eq. Qed.
Lemma visit p ex log D R st e0 pos e q t fill : J p ex log D (st_id st :: R) -> NoDup (st_id st :: R) -> sc_can_price sc (st_sym st) = true ->
  owns p0 (st_pos st) (st_sym st) e0 -> In st (e_stops e0) -> aget (st_sym st) (poss (st_pos st) p) = Some pos -> find_entry (e_id e0) (ps_entries pos) = Some e ->
  trigger_stop_rec c d sc sm pos e st p = Ret q (t, fill) ->
  J q (if t then ex ++ [(st_pos st, st_sym st, e_id e0)] else ex) (log ++ [record_stop d q e st fill]) (st_id st :: D) R.
Proof.
  intros [[l [A1 [A2 [A3 [A4 [A5 [A6 A7]]]]]]] JN B C] ND CP O I G F T. apply NoDup_cons_iff in ND as [NI ND]. apply find_some in F as [IE EI].
  destruct (owned_shape p (st_pos st) (st_sym st) pos e (B _) G IE) as [SY [e1 [O1 P1]]].
  assert (e1 = e0) as ->. { unfold proj in P1. injection P1 as P11 P12 P13. apply (core_owns_inj _ _ _ _ _ _ _ _ HC O1 O). congruence. }
  pose proof (trigger_stepped c d sc sm pos e st p q t fill SY G T) as [S1 S2 SN S3 S4 [o [S5 [S6 S7]]]].
  set (r := record_stop d q e st fill) in *.
  assert (RI : rid (r, o) = st_id st) by reflexivity.
  assert (NEW : good_rec q (r, o)).
  { split; [reflexivity|]. split; [exact S6|]. split; [exact CP|]. split; [|split].
    - exists e0, st. split; [|unfold proj in P1; injection P1 as _ _ P13; cbn; rewrite P13; repeat split].
      split; [|exact I]. destruct O as [po [Gp Ip]]. unfold queue, position_of. now rewrite Gp.
    - unfold shows_level. cbn [fst]. change (sr_type r) with (st_type st). change (sr_id r) with (st_id st). change (sr_pos r) with (st_pos st). change (sr_fill r) with fill.
      assert (LV : level p (st_id st) = level p0 (st_id st)) by (unfold level; now rewrite C by (left; reflexivity)).
      assert (VAL : sr_value r = level q (st_id st)) by (unfold level, r; cbn; destruct (aget (st_id st) (p_stop_data q)); reflexivity).
      destruct (st_type st) eqn:TY; try (rewrite VAL, <- LV; destruct S4 as [v [v' [L1 [L2 [L3 L4]]]]]; [congruence|]; exists v, v'; rewrite TY in L4; auto).
      rewrite VAL. unfold level. rewrite S3 by auto. rewrite C by (left; reflexivity). destruct (aget (st_id st) (p_stop_data p0)) as [dd|] eqn:GD; [|reflexivity].
      exfalso. destruct (si_reg _ HS _ _ GD) as [R1 [R2 [e2 [R3 [R4 R5]]]]]. assert (EE : e_id e2 = e_id e0) by (eapply (si_uniq _ HS _ _ _ (sd_stop dd) _ _ _ st); eauto).
      destruct (core_owns_inj _ _ _ _ _ _ _ _ HC R3 O EE) as [_ [_ ->]]. assert (sd_stop dd = st) by (eapply st_id_inj; eauto; eapply (si_nd _ HS); eauto). congruence.
    - intros v. cbn [fst]. unfold level, r. cbn. destruct (aget (st_id st) (p_stop_data q)); [|discriminate]. auto. }
  constructor.
  - exists (l ++ [(r, o)]). split; [rewrite map_app, A1, app_assoc; reflexivity|]. split; [unfold orders_in; rewrite flat_map_app, S5, A2, <- app_assoc; cbn; rewrite app_nil_r; destruct o; reflexivity|].
    split; [|split; [|split; [|split]]].
    + apply Forall_app. split; [|constructor; [exact NEW|constructor]]. rewrite Forall_forall in *. intros x Ix. destruct (A3 x Ix) as [G1 [G2 [G3 [G4 [G5 G6]]]]].
      repeat (split; auto). intros v. unfold level. rewrite S2; [apply G6|]. intro E. apply (A5 (rid x)); [now apply in_map|]. left. symmetry. exact E.
    + rewrite map_app. apply nodup_app; auto; [cbn; constructor; [intros []|constructor]|]. intros x Ix [<-|[]]. apply (A5 _ Ix). left. now rewrite RI.
    + intros id. rewrite map_app, in_app_iff. intros [H|[<-|[]]]; [|now rewrite RI]. intro H'. apply (A5 _ H). now right.
    + assert (MONO : forall eid, closed l eid -> closed (l ++ [(r, o)]) eid).
      { intros eid [sd [s [e2 [r2 [o2 [st2 [X1 [X2 [X3 X4]]]]]]]]]. exists sd, s, e2, r2, o2, st2. repeat (split; auto). apply in_app_iff. auto. }
      intros x. destruct t.
      * rewrite in_app_iff. intros [H|[<-|[]]]; [auto|]. cbn [snd]. destruct o as [o|]; [|exfalso; now apply S7]. exists (st_pos st), (st_sym st), e0, r, o, st.
        repeat (split; auto). apply in_app_iff. right. now left.
      * auto.
    + intros id [<-|H].
      * left. rewrite map_app. apply in_app_iff. right. left. exact RI.
      * destruct (A7 _ H) as [H'|[sd [s [e2 [X1 [X2 [sd' [s' [e3 [r2 [o2 [st2 [Y1 [Y2 [Y3 Y4]]]]]]]]]]]]]]].
        -- left. rewrite map_app. apply in_app_iff. auto.
        -- right. exists sd, s, e2. split; auto. split; auto. exists sd', s', e3, r2, o2, st2. repeat (split; auto). apply in_app_iff. auto.
  - auto.
  - intro sd. now rewrite S1.
  - intros id H. rewrite S2; [apply C; now right|]. intros ->. contradiction.
Qed.

(** *** The price stops *)
Definition Jres (D R : list nat) (more : nat -> Prop) (r : res (executed * list srec)) : Prop :=
  match r with Raise _ _ => True | Ret p (ex, log) => exists D', J p ex log D' R /\ incl D D' /\ forall id, more id -> In id D' end.
Lemma price_raise rec l p x : price_loop_rec c rec d sc sm l (Raise p x) = Raise p x.
Proof.
  unfold price_loop_rec. induction l as [|[s ids] l IH]; [reflexivity|]. cbn [fold_left fst snd]. destruct (sc_can_price sc s); [|exact IH].
  assert (E : fold_left (fun st id => check_price_stop_rec c rec d sc sm s id st) ids (Raise p x) = Raise p x) by (induction ids; auto). now rewrite E.
Qed.
Lemma price_cons rec s ids l r : price_loop_rec c rec d sc sm ((s, ids) :: l) r =
  price_loop_rec c rec d sc sm l (if sc_can_price sc s then fold_left (fun st id => check_price_stop_rec c rec d sc sm s id st) ids r else r).
Proof. reflexivity. Qed.
Lemma entries_cons rec sd s e es p ex log : bar_entries_loop_rec c rec d sc sm sd s (e :: es) (Ret p (ex, log)) =
  bar_entries_loop_rec c rec d sc sm sd s es (if is_triggered (e_id e) ex then Ret p (ex, log) else bar_stops_loop_rec c rec d sc sm sd s (e_id e) (e_stops e) (Ret p (ex, log))).
Proof. reflexivity. Qed.
Lemma bars_cons rec sd kv l r : bar_loop_rec c rec d sc sm sd (kv :: l) r =
  bar_loop_rec c rec d sc sm sd l (if sc_can_price sc (ps_sym (snd kv)) then bar_entries_loop_rec c rec d sc sm sd (fst kv) (ps_entries (snd kv)) r else r).
Proof. reflexivity. Qed.
Lemma one_price p ex log D R s id : J p ex log D (id :: R) -> NoDup (id :: R) -> sc_can_price sc s = true -> is_active p0 s id ->
  match check_price_stop_rec c true d sc sm s id (Ret p (ex, log)) with Raise _ _ => True | Ret q (ex', log') => J q ex' log' (id :: D) R end.
Proof.
  intros HJ ND CP AC. apply (ri_act _ (si_ri _ HS)) in AC as [dd [GD SS]]. destruct (si_reg _ HS _ _ GD) as [R1 [R2 [e0 [R3 [R4 R5]]]]].
  unfold check_price_stop_rec. rewrite (j_data _ _ _ _ _ HJ id) by now left. rewrite GD.
  destruct (is_triggered (sd_entry dd) ex) eqn:TR.
  - rewrite <- R4 in TR. eapply J_weak; [|apply incl_tl, incl_refl]. eapply J_skip; eauto. rewrite <- R1. now apply in_map.
  - destruct R3 as [pos0 [GP0 IP0]]. destruct (shape_get _ _ _ _ (eq_sym (j_shape _ _ _ _ _ HJ (st_pos (sd_stop dd)))) GP0) as [pos [GP [_ PP]]].
    rewrite <- SS, GP. destruct (find_entry (sd_entry dd) (ps_entries pos)) as [e|] eqn:FE; [|exact I]. rewrite Nat.eqb_refl. cbn [negb].
    destruct (trigger_stop_rec c d sc sm pos e (sd_stop dd) p) as [q [t fill]|q x] eqn:T; [|exact I].
    rewrite <- R1 in HJ |- *. rewrite <- R1 in ND. rewrite <- R4 in *. rewrite <- SS in CP. eapply visit; eauto. exists pos0. auto.
Qed.
Lemma ids_price s ids : forall p ex log D R, J p ex log D (ids ++ R) -> NoDup (ids ++ R) -> sc_can_price sc s = true -> (forall id, In id ids -> is_active p0 s id) ->
  Jres D R (fun id => In id ids) (fold_left (fun st id => check_price_stop_rec c true d sc sm s id st) ids (Ret p (ex, log))).
Proof.
  induction ids as [|i ids IH]; intros p ex log D R HJ ND CP AC; cbn [fold_left].
  - exists D. split; [exact HJ|]. split; [apply incl_refl|]. intros id [].
  - pose proof (one_price p ex log D (ids ++ R) s i HJ ND CP (AC i (or_introl eq_refl))) as H.
    destruct (check_price_stop_rec c true d sc sm s i (Ret p (ex, log))) as [q [ex' log']|q x].
    + apply NoDup_cons_iff in ND as [_ ND]. specialize (IH q ex' log' (i :: D) R H ND CP (fun id X => AC id (or_intror X))). revert IH.
      destruct (fold_left _ ids _) as [q' [ex2 log2]|]; [|intros _; exact I]. intros [D' [X1 [X2 X3]]]. exists D'. split; auto. split; [intros z Z; apply X2; now right|].
      intros id [<-|Z]; [apply X2; now left|auto].
    + assert (E : fold_left (fun st id => check_price_stop_rec c true d sc sm s id st) ids (Raise q x) = Raise q x) by (clear; induction ids; auto). now rewrite E.
Qed.
Lemma loop_price l : forall p ex log D R, J p ex log D (flat_map snd l ++ R) -> NoDup (flat_map snd l ++ R) -> (forall s ids id, In (s, ids) l -> In id ids -> is_active p0 s id) ->
  Jres D R (fun id => exists s ids, In (s, ids) l /\ sc_can_price sc s = true /\ In id ids) (price_loop_rec c true d sc sm l (Ret p (ex, log))).
Proof.
  induction l as [|[s ids] l IH]; intros p ex log D R HJ ND AC.
  - exists D. split; [exact HJ|]. split; [apply incl_refl|]. intros id [s [ids [[] _]]].
  - cbn [flat_map snd] in HJ, ND. rewrite <- app_assoc in HJ, ND. rewrite price_cons.
    assert (ND' : NoDup (flat_map snd l ++ R)) by (eapply NoDup_app_right; eauto).
    assert (AC' : forall s ids id, In (s, ids) l -> In id ids -> is_active p0 s id) by (intros a b i X; apply (AC a b i); now right).
    destruct (sc_can_price sc s) eqn:CP.
    + pose proof (ids_price s ids p ex log D _ HJ ND CP (fun id X => AC s ids id (or_introl eq_refl) X)) as H. revert H.
      destruct (fold_left _ ids _) as [q [ex' log']|q x]; [|intros _; rewrite price_raise; exact I]. intros [D1 [X1 [X2 X3]]].
      specialize (IH q ex' log' D1 R X1 ND' AC'). revert IH. destruct (price_loop_rec c true d sc sm l (Ret q (ex', log'))) as [q' [ex2 log2]|]; [|intros _; exact I]. intros [D' [Y1 [Y2 Y3]]].
      exists D'. split; auto. split; [intros z Z; auto|]. intros id [s1 [ids1 [[E|I] [CP1 II]]]]; [injection E as <- <-; apply Y2, X3, II|apply Y3; exists s1, ids1; auto].
    + assert (HJ' : J p ex log D (flat_map snd l ++ R)) by (eapply J_weak; [exact HJ|]; apply incl_appr, incl_refl).
      specialize (IH p ex log D R HJ' ND' AC'). revert IH. destruct (price_loop_rec c true d sc sm l (Ret p (ex, log))) as [q' [ex2 log2]|]; [|intros _; exact I]. intros [D' [Y1 [Y2 Y3]]].
      exists D'. split; auto. split; auto. intros id [s1 [ids1 [[E|I] [CP1 II]]]]; [congruence|apply Y3; exists s1, ids1; auto].
Qed.

(** *** The bar stops *)
Definition isbar (st : stop) : bool := match st_type st with SBar => true | _ => false end.
Definition bids (ss : list stop) : list nat := map st_id (filter isbar ss).
Definition eids (es : list entry) : list nat := flat_map (fun e => bids (e_stops e)) es.
Definition pids (l : list (sym * position)) : list nat := flat_map (fun kv => eids (ps_entries (snd kv))) l.
Lemma eids_proj es es' : map proj es = map proj es' -> eids es = eids es'.
Proof.
  revert es'. induction es as [|e es IH]; intros [|e' es'] E; try discriminate; [reflexivity|]. cbn [map] in E. injection E as E1 E2 E3 E4. unfold eids. cbn [flat_map]. rewrite E2.
  f_equal. now apply IH.
Qed.
Lemma pids_shape l l' : shape l = shape l' -> pids l = pids l'.
Proof.
  revert l'. induction l as [|[k v] l IH]; intros [|[k' v'] l'] E; try discriminate; [reflexivity|]. unfold shape in E. cbn [map fst snd] in E. injection E as _ _ E3 E4.
  unfold pids. cbn [flat_map snd]. rewrite (eids_proj _ _ E3). f_equal. now apply IH.
Qed.
Lemma stops_bar sd s e0 ss : forall p ex log D R, owns p0 sd s e0 -> incl ss (e_stops e0) -> J p ex log D (bids ss ++ R) -> NoDup (bids ss ++ R) -> sc_can_price sc s = true ->
  is_triggered (e_id e0) ex = false ->
  Jres D R (fun id => In id (bids ss)) (bar_stops_loop_rec c true d sc sm sd s (e_id e0) ss (Ret p (ex, log))).
Proof.
  induction ss as [|t ss IH]; intros p ex log D R O IN HJ ND CP TR; cbn [bar_stops_loop_rec].
  - exists D. split; [exact HJ|]. split; [apply incl_refl|]. intros id [].
  - assert (IN' : incl ss (e_stops e0)) by (intros x Hx; apply IN; now right). pose proof (IN t (or_introl eq_refl)) as IT.
    destruct (si_own _ HS _ _ _ _ O IT) as [SS SP].
    unfold bids in HJ, ND |- *. cbn [filter] in HJ, ND |- *. unfold isbar at 1 in HJ. unfold isbar at 1 in ND. unfold isbar at 1.
    destruct (st_type t) eqn:TY; try (apply IH; auto).
    cbn [map] in HJ, ND |- *. fold (bids ss) in HJ, ND |- *. cbn [app] in HJ, ND.
    destruct (aget s (poss sd p)) as [pos|] eqn:GP; [|exact I]. destruct (find_entry (e_id e0) (ps_entries pos)) as [e|] eqn:FE; [|exact I]. destruct (negb _); [exact I|].
    destruct (trigger_stop_rec c d sc sm pos e t p) as [q [f fill]|q x] eqn:T; [|exact I].
    assert (V : J q (if f then ex ++ [(st_pos t, st_sym t, e_id e0)] else ex) (log ++ [record_stop d q e t fill]) (st_id t :: D) (bids ss ++ R)).
    { eapply visit; eauto; subst; auto. }
    apply NoDup_cons_iff in ND as [_ ND]. destruct f.
    + rewrite SS, SP in V. exists (bids ss ++ st_id t :: D). split; [|split; [apply incl_appr, incl_tl, incl_refl|intros id [<-|Z]; apply in_app_iff; [right; now left|now left]]].
      assert (TT : is_triggered (e_id e0) (ex ++ [(sd, s, e_id e0)]) = true) by (unfold is_triggered; rewrite existsb_app; cbn; rewrite Nat.eqb_refl; apply orb_true_r).
      assert (SK : forall k, incl k (map st_id (e_stops e0)) -> J q (ex ++ [(sd, s, e_id e0)]) (log ++ [record_stop d q e t fill]) (k ++ st_id t :: D) (bids ss ++ R)).
      { induction k as [|i k IHk]; intro IK; [exact V|]. cbn [app]. eapply J_skip; [apply IHk; intros z Z; apply IK; now right|exact O|apply IK; now left|exact TT]. }
      eapply J_weak; [apply SK|apply incl_appr, incl_refl]. intros i Hi. unfold bids in Hi. apply in_map_iff in Hi as [x [<- X]]. apply filter_In in X as [X _]. apply in_map. auto.
    + specialize (IH q ex (log ++ [record_stop d q e t fill]) (st_id t :: D) R O IN' V ND CP TR). revert IH.
      destruct (bar_stops_loop_rec c true d sc sm sd s (e_id e0) ss _) as [q' [ex2 log2]|]; [|intros _; exact I]. intros [D' [Y1 [Y2 Y3]]]. exists D'. split; auto. split; [intros z Z; apply Y2; now right|].
      intros id [<-|Z]; [apply Y2; now left|auto].
Qed.
Lemma entries_raise rec sd s es p x : bar_entries_loop_rec c rec d sc sm sd s es (Raise p x) = Raise p x.
Proof. unfold bar_entries_loop_rec. induction es; auto. Qed.
Lemma bars_raise rec sd l p x : bar_loop_rec c rec d sc sm sd l (Raise p x) = Raise p x.
Proof. unfold bar_loop_rec. induction l as [|kv l IH]; [reflexivity|]. cbn [fold_left]. destruct (sc_can_price _ _); [rewrite entries_raise|]; exact IH. Qed.
Lemma skip_all sd s e0 ids : forall p ex log D R, owns p0 sd s e0 -> incl ids (map st_id (e_stops e0)) -> is_triggered (e_id e0) ex = true -> J p ex log D R -> J p ex log (ids ++ D) R.
Proof.
  induction ids as [|i ids IH]; intros p ex log D R O IN T HJ; [exact HJ|]. cbn [app]. eapply J_skip; [apply IH; auto|exact O|apply IN; now left|exact T]. intros z Z. apply IN. now right.
Qed.
Lemma entries_bar sd s es : forall p ex log D R, (forall e, In e es -> exists e0, owns p0 sd s e0 /\ proj e0 = proj e) -> J p ex log D (eids es ++ R) -> NoDup (eids es ++ R) ->
  sc_can_price sc s = true -> Jres D R (fun id => In id (eids es)) (bar_entries_loop_rec c true d sc sm sd s es (Ret p (ex, log))).
Proof.
  induction es as [|e es IH]; intros p ex log D R OW HJ ND CP.
  - exists D. split; [exact HJ|]. split; [apply incl_refl|]. intros id [].
  - rewrite entries_cons.
    unfold eids in HJ, ND |- *. cbn [flat_map] in HJ, ND |- *. fold (eids es) in HJ, ND |- *. rewrite <- app_assoc in HJ, ND.
    destruct (OW e (or_introl eq_refl)) as [e0 [O P]]. unfold proj in P. injection P as P1 P2 P3.
    assert (OW' : forall e, In e es -> exists e0, owns p0 sd s e0 /\ proj e0 = proj e) by (intros x X; apply OW; now right).
    assert (ND' : NoDup (eids es ++ R)) by (eapply NoDup_app_right; eauto). rewrite <- P1, <- P2 in *.
    assert (NEXT : forall q ex' log' D1, J q ex' log' D1 (eids es ++ R) -> incl D D1 -> (forall id, In id (bids (e_stops e0)) -> In id D1) ->
      Jres D R (fun id => In id (bids (e_stops e0) ++ eids es)) (bar_entries_loop_rec c true d sc sm sd s es (Ret q (ex', log')))).
    { intros q ex' log' D1 X1 X2 X3. specialize (IH q ex' log' D1 R OW' X1 ND' CP). revert IH. unfold Jres. destruct (bar_entries_loop_rec c true d sc sm sd s es (Ret q (ex', log'))) as [q' [ex2 log2]|]; [|auto].
      intros [D' [Y1 [Y2 Y3]]]. exists D'. split; auto. split; [intros z Z; auto|]. intros id Z. apply in_app_iff in Z as [Z|Z]; auto. }
    destruct (is_triggered (e_id e0) ex) eqn:TR.
    + apply (NEXT p ex log (bids (e_stops e0) ++ D)); [|apply incl_appr, incl_refl|intros id Z; apply in_app_iff; now left].
      eapply J_weak; [eapply skip_all; eauto|apply incl_appr, incl_refl]. intros i Hi. unfold bids in Hi. apply in_map_iff in Hi as [x [<- X]]. apply filter_In in X as [X _]. now apply in_map.
    + pose proof (stops_bar sd s e0 (e_stops e0) p ex log D _ O (incl_refl _) HJ ND CP TR) as H. revert H.
      destruct (bar_stops_loop_rec c true d sc sm sd s (e_id e0) (e_stops e0) _) as [q [ex' log']|q x]; [|intros _; rewrite entries_raise; exact I].
      intros [D1 [X1 [X2 X3]]]. eapply NEXT; eauto.
Qed.
Lemma loop_bar sd l : forall p ex log D R, (forall kv, In kv l -> ps_sym (snd kv) = fst kv /\ forall e, In e (ps_entries (snd kv)) -> exists e0, owns p0 sd (fst kv) e0 /\ proj e0 = proj e) ->
  J p ex log D (pids l ++ R) -> NoDup (pids l ++ R) ->
  Jres D R (fun id => exists kv, In kv l /\ sc_can_price sc (fst kv) = true /\ In id (eids (ps_entries (snd kv)))) (bar_loop_rec c true d sc sm sd l (Ret p (ex, log))).
Proof.
  induction l as [|kv l IH]; intros p ex log D R OW HJ ND.
  - exists D. split; [exact HJ|]. split; [apply incl_refl|]. intros id [kv [[] _]].
  - rewrite bars_cons.
    unfold pids in HJ, ND. cbn [flat_map] in HJ, ND. fold (pids l) in HJ, ND. rewrite <- app_assoc in HJ, ND.
    destruct (OW kv (or_introl eq_refl)) as [SY OE]. rewrite SY.
    assert (OW' : forall kv, In kv l -> ps_sym (snd kv) = fst kv /\ forall e, In e (ps_entries (snd kv)) -> exists e0, owns p0 sd (fst kv) e0 /\ proj e0 = proj e) by (intros x X; apply OW; now right).
    assert (ND' : NoDup (pids l ++ R)) by (eapply NoDup_app_right; eauto).
    assert (NEXT : forall q ex' log' D1, J q ex' log' D1 (pids l ++ R) -> incl D D1 -> (sc_can_price sc (fst kv) = true -> forall id, In id (eids (ps_entries (snd kv))) -> In id D1) ->
      Jres D R (fun id => exists kv0, In kv0 (kv :: l) /\ sc_can_price sc (fst kv0) = true /\ In id (eids (ps_entries (snd kv0)))) (bar_loop_rec c true d sc sm sd l (Ret q (ex', log')))).
    { intros q ex' log' D1 X1 X2 X3. specialize (IH q ex' log' D1 R OW' X1 ND'). revert IH. unfold Jres. destruct (bar_loop_rec c true d sc sm sd l (Ret q (ex', log'))) as [q' [ex2 log2]|]; [|auto].
      intros [D' [Y1 [Y2 Y3]]]. exists D'. split; auto. split; [intros z Z; auto|]. intros id [kv0 [[<-|Z] [CZ Z2]]]; [apply Y2; now apply X3|apply Y3; eauto]. }
    destruct (sc_can_price sc (fst kv)) eqn:CP.
    + pose proof (entries_bar sd (fst kv) (ps_entries (snd kv)) p ex log D _ OE HJ ND CP) as H. revert H.
      destruct (bar_entries_loop_rec c true d sc sm sd (fst kv) (ps_entries (snd kv)) _) as [q [ex' log']|q x]; [|intros _; rewrite bars_raise; exact I].
      intros [D1 [X1 [X2 X3]]]. eapply NEXT; eauto.
    + apply (NEXT p ex log D); [|apply incl_refl|congruence]. eapply J_weak; [exact HJ|apply incl_appr, incl_refl].
Qed.

(** *** Start and end *)
Lemma in_pids sd id : In id (pids (poss sd p0)) -> exists s e st, owns p0 sd s e /\ In st (e_stops e) /\ st_id st = id /\ st_type st = SBar.
Proof.
  unfold pids, eids, bids. intro H. apply in_flat_map in H as [[s pos] [H1 H2]]. apply in_flat_map in H2 as [e [H3 H4]]. apply in_map_iff in H4 as [st [H5 H6]]. apply filter_In in H6 as [H6 H7].
  exists s, e, st. split; [exists pos; split; auto; apply In_aget; auto; apply (co_nodup _ _ HC)|]. split; auto. split; auto. unfold isbar in H7. destruct (st_type st); auto; discriminate.
Qed.
Lemma in_price id : In id (flat_map snd (p_active p0)) -> exists dd, aget id (p_stop_data p0) = Some dd.
Proof.
  intro H. apply in_flat_map in H as [[s ids] [H1 H2]]. assert (AC : is_active p0 s id). { exists ids. split; auto. apply In_aget; auto. apply (ri_act_nd _ (si_ri _ HS)). }
  apply (ri_act _ (si_ri _ HS)) in AC as [dd [G _]]. eauto.
Qed.
Lemma same_stop sd1 s1 e1 st1 sd2 s2 e2 st2 : owns p0 sd1 s1 e1 -> In st1 (e_stops e1) -> owns p0 sd2 s2 e2 -> In st2 (e_stops e2) -> st_id st1 = st_id st2 -> sd1 = sd2 /\ s1 = s2 /\ e1 = e2 /\ st1 = st2.
Proof.
  intros O1 I1 O2 I2 E. pose proof (si_uniq _ HS _ _ _ _ _ _ _ _ O1 I1 O2 I2 E) as EE. destruct (core_owns_inj _ _ _ _ _ _ _ _ HC O1 O2 EE) as [-> [-> ->]]. repeat (split; auto).
  eapply st_id_inj; eauto. eapply (si_nd _ HS); eauto.
Qed.
Lemma all_nodup : NoDup (flat_map snd (p_active p0) ++ (pids (p_longs p0) ++ (pids (p_shorts p0) ++ []))).
Proof.
  assert (PB : forall sd, NoDup (pids (poss sd p0))).
  { intro sd. unfold pids. apply (nodup_flat _ fst); [apply (co_nodup _ _ HC)| |].
    - intros [s pos] H. assert (G : aget s (poss sd p0) = Some pos) by (apply In_aget; auto; apply (co_nodup _ _ HC)). cbn [snd].
      unfold eids. apply (nodup_flat _ e_id); [apply (po_nodup _ _ _ _ (co_pos _ _ HC _ _ _ G))| |].
      + intros e Ie. apply map_nodup_filter. eapply (si_nd _ HS). exists pos. eauto.
      + intros x y i Ix Iy Hx Hy. unfold bids in Hx, Hy. apply in_map_iff in Hx as [a [<- Ha]]. apply in_map_iff in Hy as [b [E Hb]]. apply filter_In in Ha as [Ha _]. apply filter_In in Hb as [Hb _].
        destruct (same_stop sd s x a sd s y b) as [_ [_ [-> _]]]; auto; exists pos; auto.
    - intros [s pos] [s' pos'] i H H' Hx Hy. assert (G : aget s (poss sd p0) = Some pos) by (apply In_aget; auto; apply (co_nodup _ _ HC)). assert (G' : aget s' (poss sd p0) = Some pos') by (apply In_aget; auto; apply (co_nodup _ _ HC)).
      cbn [snd fst] in *. unfold eids, bids in Hx, Hy. apply in_flat_map in Hx as [e [Ie Hx]]. apply in_flat_map in Hy as [e' [Ie' Hy]].
      apply in_map_iff in Hx as [a [<- Ha]]. apply in_map_iff in Hy as [b [E Hb]]. apply filter_In in Ha as [Ha _]. apply filter_In in Hb as [Hb _].
      destruct (same_stop sd s e a sd s' e' b) as [_ [-> _]]; auto; [exists pos; auto|exists pos'; auto]. }
  rewrite app_nil_r. apply nodup_app; [| apply nodup_app; [apply (PB Long)|apply (PB Short)|] |].
  - apply (nodup_flat _ fst); [apply (ri_act_nd _ (si_ri _ HS))| |].
    + intros [s ids] H. apply (ri_list_nd _ (si_ri _ HS) s). apply In_aget; auto. apply (ri_act_nd _ (si_ri _ HS)).
    + intros [s ids] [s' ids'] i H H' Hx Hy. cbn [fst snd] in *.
      assert (A1 : is_active p0 s i) by (exists ids; split; auto; apply In_aget; auto; apply (ri_act_nd _ (si_ri _ HS))).
      assert (A2 : is_active p0 s' i) by (exists ids'; split; auto; apply In_aget; auto; apply (ri_act_nd _ (si_ri _ HS))).
      apply (ri_act _ (si_ri _ HS)) in A1 as [dd [G S1]]. apply (ri_act _ (si_ri _ HS)) in A2 as [dd' [G' S2]]. congruence.
  - intros i H H'. apply (in_pids Long) in H as [s [e [st [O [I [E _]]]]]]. apply (in_pids Short) in H' as [s' [e' [st' [O' [I' [E' _]]]]]].
    destruct (same_stop _ _ _ _ _ _ _ _ O I O' I') as [X _]; [congruence|discriminate].
  - intros i H H'. apply in_price in H as [dd G]. destruct (si_reg _ HS _ _ G) as [R1 [R2 [e0 [R3 [R4 R5]]]]].
    assert (X : exists sd s e st, owns p0 sd s e /\ In st (e_stops e) /\ st_id st = i /\ st_type st = SBar).
    { apply in_app_iff in H' as [H'|H']; [apply (in_pids Long) in H'|apply (in_pids Short) in H']; eauto. }
    destruct X as [sd [s [e [st [O [I [E T]]]]]]]. destruct (same_stop _ _ _ _ _ _ _ _ R3 R5 O I) as [_ [_ [_ X]]]; congruence.
Qed.
Lemma upd_data sd pos q : p_stop_data (update_position sd pos q) = p_stop_data q.
Proof. unfold update_position. destruct (ps_entries pos); [|reflexivity]. destruct (_ && _ && _); destruct sd; reflexivity. Qed.
Lemma upd_orders sd pos q : p_orders (update_position sd pos q) = p_orders q.
Proof. unfold update_position. destruct (ps_entries pos); [|reflexivity]. destruct (_ && _ && _); destruct sd; reflexivity. Qed.
Lemma finish_sub l : forall p, NoDup (akeys (p_stop_data p)) -> forall id v, level (fold_left finish_exit l p) id = Some v -> level p id = Some v.
Proof.
  assert (ONE : forall ss p, NoDup (akeys (p_stop_data p)) -> NoDup (akeys (p_stop_data (remove_stop_data ss p))) /\ forall id v, level (remove_stop_data ss p) id = Some v -> level p id = Some v).
  { induction ss as [|st ss IH]; intros p N; [split; [exact N|auto]|]. cbn [remove_stop_data]. destruct (ahas _ _); [|now apply IH].
    destruct (IH (pop_stop (st_id st) (st_sym st) p)) as [A B]; [rewrite pop_stop_sd; now apply NoDup_adel|]. split; [exact A|].
    intros id v H. apply B in H. unfold level in *. rewrite pop_stop_sd in H. destruct (Nat.eq_dec id (st_id st)) as [->|NE]; [rewrite aget_adel_eq in H by auto; discriminate|]. now rewrite aget_adel_neq in H. }
  induction l as [|[[sd s] eid] l IH]; intros p N id v H; [exact H|]. cbn [fold_left] in H.
  assert (F : NoDup (akeys (p_stop_data (finish_exit p (sd, s, eid)))) /\ (level (finish_exit p (sd, s, eid)) id = Some v -> level p id = Some v)).
  { unfold finish_exit. destruct (aget s (poss sd p)) as [pos|]; [|split; auto]. destruct (find_entry _ _) as [e|]; [|split; auto].
    match goal with |- context [remove_stop_data ?ss ?q] => destruct (ONE ss q) as [A B]; [destruct sd; exact N|]; set (q1 := remove_stop_data ss q) in *; assert (B' : level q1 id = Some v -> level p id = Some v) by (intro X; apply B in X; destruct sd; exact X) end.
    unfold level at 1. rewrite upd_data. split; [exact A|exact B']. }
  apply F. now apply IH in H.
Qed.
Lemma finish_orders l : forall p, p_orders (fold_left finish_exit l p) = p_orders p.
Proof.
  assert (ONE : forall ss p, p_orders (remove_stop_data ss p) = p_orders p).
  { induction ss as [|st ss IH]; intro p; [reflexivity|]. cbn [remove_stop_data]. destruct (ahas _ _); [|apply IH]. rewrite IH. unfold pop_stop. cbn [p_active set_p_stop_data].
    destruct (aget _ _) as [l0|]; [|reflexivity]. destruct (remove_first _ _); reflexivity. }
  induction l as [|[[sd s] eid] l IH]; intros p; [reflexivity|]. cbn [fold_left]. rewrite IH. unfold finish_exit.
  destruct (aget s (poss sd p)) as [pos|]; [|reflexivity]. destruct (find_entry _ _) as [e|]; [|reflexivity]. rewrite upd_orders, ONE. destruct sd; reflexivity.
Qed.
Lemma check_log p' log' : check_stops_rec c true d sc sm p0 log0 = Ret p' log' -> exists l, log' = log0 ++ map fst l /\ stop_log d sc p0 p' l.
Proof.
  intro E. unfold check_stops_rec in E. cbn zeta in E.
  assert (J0 : J p0 [] log0 [] (flat_map snd (p_active p0) ++ (pids (p_longs p0) ++ (pids (p_shorts p0) ++ [])))).
  { constructor; auto; [|apply (ri_sd_nd _ (si_ri _ HS))]. exists []. cbn. rewrite !app_nil_r. repeat split; auto; try constructor; intros ? []. }
  pose proof all_nodup as ND.
  assert (AC : forall s ids id, In (s, ids) (p_active p0) -> In id ids -> is_active p0 s id) by (intros s ids id H H'; exists ids; split; auto; apply In_aget; auto; apply (ri_act_nd _ (si_ri _ HS))).
  pose proof (loop_price _ p0 [] log0 [] _ J0 ND AC) as H1.
  match type of E with context [price_loop_rec c true d sc sm (p_active p0) ?y] =>
    match type of H1 with Jres ?a ?b ?m _ => change (Jres a b m (price_loop_rec c true d sc sm (p_active p0) y)) in H1 end; revert H1 E; destruct (price_loop_rec c true d sc sm (p_active p0) y) as [p1 [e1 l1]|p1 x1]; [|discriminate] end.
  intros [D1 [J1 [_ M1]]]. apply NoDup_app_right in ND.
  assert (KV : forall sd p, shape (poss sd p) = shape (poss sd p0) -> forall kv, In kv (poss sd p) -> ps_sym (snd kv) = fst kv /\ forall e, In e (ps_entries (snd kv)) -> exists e0, owns p0 sd (fst kv) e0 /\ proj e0 = proj e).
  { intros sd p SH [s pos] H. cbn [fst snd].
    assert (NK : NoDup (akeys (poss sd p))).
    { replace (akeys (poss sd p)) with (akeys (poss sd p0)); [apply (co_nodup _ _ HC)|]. apply (f_equal (map (fun x => fst (fst x)))) in SH. unfold shape in SH. rewrite !map_map in SH. symmetry. exact SH. }
    pose proof (In_aget _ _ _ NK H) as G. destruct (shape_get _ _ _ _ SH G) as [pos0 [G0 [S0 P0]]]. split; [rewrite <- S0; apply (po_sym _ _ _ _ (co_pos _ _ HC _ _ _ G0))|].
    intros e Ie. apply (owned_shape p sd s pos e SH G Ie). }
  assert (J1' : J p1 e1 l1 D1 (pids (poss Long p1) ++ (pids (p_shorts p0) ++ []))) by (rewrite (pids_shape _ _ (j_shape _ _ _ _ _ J1 Long)); exact J1).
  assert (ND1 : NoDup (pids (poss Long p1) ++ (pids (p_shorts p0) ++ []))) by (rewrite (pids_shape _ _ (j_shape _ _ _ _ _ J1 Long)); exact ND).
  pose proof (loop_bar Long (p_longs p1) p1 e1 l1 D1 _ (KV Long p1 (j_shape _ _ _ _ _ J1 Long)) J1' ND1) as H2. revert H2.
  destruct (bar_loop_rec c true d sc sm Long (p_longs p1) (Ret p1 (e1, l1))) as [p2 [e2 l2]|p2 x2]; [|discriminate]. intros [D2 [J2 [I2 M2]]]. apply NoDup_app_right in ND.
  assert (J2' : J p2 e2 l2 D2 (pids (poss Short p2) ++ [])) by (rewrite (pids_shape _ _ (j_shape _ _ _ _ _ J2 Short)); exact J2).
  assert (ND2 : NoDup (pids (poss Short p2) ++ [])) by (rewrite (pids_shape _ _ (j_shape _ _ _ _ _ J2 Short)); exact ND).
  pose proof (loop_bar Short (p_shorts p2) p2 e2 l2 D2 _ (KV Short p2 (j_shape _ _ _ _ _ J2 Short)) J2' ND2) as H3. revert H3.
  destruct (bar_loop_rec c true d sc sm Short (p_shorts p2) (Ret p2 (e2, l2))) as [p3 [e3 l3]|p3 x3]; [|discriminate]. intros [D3 [J3 [I3 M3]]] E. injection E as <- <-.
  destruct J3 as [[l [A1 [A2 [A3 [A4 [A5 [A6 A7]]]]]]] JN B C]. exists l. split; auto.
  rewrite Forall_forall in A3. constructor.
  - now rewrite finish_orders.
  - apply Forall_forall. intros x Ix. apply (A3 x Ix).
  - apply Forall_forall. intros x Ix. apply (A3 x Ix).
  - apply Forall_forall. intros x Ix. destruct (A3 x Ix) as [G1 [G2 [G3 [G4 G5]]]]. auto.
  - apply Forall_forall. intros x Ix. apply (A3 x Ix).
  - apply Forall_forall. intros x Ix v Hv. apply (A3 x Ix). now apply (finish_sub _ _ JN) in Hv.
  - exact A4.
  - intros e st [OE IS] CP.
    assert (O : owns p0 (st_pos st) (st_sym st) e). { unfold queue, position_of in OE. destruct (aget _ _) as [pos|] eqn:G; [|destruct OE]. exists pos. auto. }
    assert (ID : In (st_id st) D3).
    { destruct (st_type st) eqn:T.
      2-4: (destruct (si_has _ HS _ _ _ _ O IS) as [dd [G [S1 S2]]]; [congruence|]; assert (AC1 : is_active p0 (st_sym st) (st_id st)) by (apply (ri_act _ (si_ri _ HS)); exists dd; split; [auto|congruence]);
        destruct AC1 as [ids [G1 I1]]; apply I3, I2, M1; exists (st_sym st), ids; split; [apply aget_In; auto|auto]).
      assert (X : In (st_id st) (bids (e_stops e))) by (unfold bids; apply in_map, filter_In; split; auto; unfold isbar; now rewrite T).
      destruct O as [pos0 [G0 I0]]. destruct (st_pos st) eqn:PS.
      - destruct (shape_get _ _ _ _ (eq_sym (j_shape _ _ _ _ _ J1 Long)) G0) as [pos [G [_ P]]]. apply I3, M2. exists (st_sym st, pos). split; [apply aget_In; exact G|]. split; auto.
        cbn [snd]. rewrite (eids_proj _ _ P). unfold eids. apply in_flat_map. eauto.
      - destruct (shape_get _ _ _ _ (eq_sym (j_shape _ _ _ _ _ J2 Short)) G0) as [pos [G [_ P]]]. apply M3. exists (st_sym st, pos). split; [apply aget_In; exact G|]. split; auto.
        cbn [snd]. rewrite (eids_proj _ _ P). unfold eids. apply in_flat_map. eauto. }
    destruct (A7 _ ID) as [X|[sd [s [e1' [O1 [X1 [sd2 [s2 [e2' [r [o [st2 [O2 [Y1 [Y2 [Y3 Y4]]]]]]]]]]]]]]]]; [left; exact X|]. right. exists r, o, st2.
    apply in_map_iff in X1 as [st1 [E1 I1]]. destruct (same_stop _ _ _ _ _ _ _ _ O1 I1 O IS E1) as [-> [-> [-> ->]]].
    destruct (core_owns_inj _ _ _ _ _ _ _ _ HC O2 O Y1) as [-> [-> ->]]. destruct (si_own _ HS _ _ _ _ O Y3) as [S1 S2]. split; auto. split; auto. split; auto. now rewrite S1, S2.
Qed.
End Loop.
