(** Proofs for C112. *)
From Verif Require Export TotalSpec PortfolioRaise.

Record tidy (q : port) : Prop := mkTidy {
  ty_reg : forall id d, aget id (p_stop_data q) = Some d ->
     st_id (sd_stop d) = id /\ st_type (sd_stop d) <> SBar /\ usable_stop (sd_stop d);
  ty_pos : forall sd s pos, In (s, pos) (poss sd q) -> ps_sym pos = s /\
     forall e st, In e (ps_entries pos) -> In st (e_stops e) -> usable_stop st
}.

Lemma in_aset {A} k (v : A) l k' v' : In (k', v') (aset k v l) -> (k' = k /\ v' = v) \/ In (k', v') l.
Proof.
  induction l as [|[j w] r IH]; cbn.
  - intros [X|[]]. injection X as <- <-. auto.
  - destruct (Nat.eqb_spec k j) as [->|N]; cbn.
    + intros [X|X]; [injection X as <- <-; auto|auto].
    + intros [X|X]; [auto|]. destruct (IH X); auto.
Qed.

Lemma tidy_exit c sd date pos e sh fill stp q s : tidy q -> In (s, pos) (poss sd q) ->
  tidy (snd (exit_entry c sd date pos e sh fill stp q)).
Proof.
  intros [R P] I. destruct (P _ _ _ I) as [Es Eu]. constructor.
  - intros id d. rewrite exit_stop_data. apply R.
  - intros sd' s' pos' I'. destruct (side_dec sd' sd) as [->|N].
    + rewrite exit_poss in I'. apply in_aset in I'. destruct I' as [[-> ->]|I']; [|exact (P _ _ _ I')].
      split; [apply exit_sym|]. intros x st Ix Is. unfold exit_pos in Ix. rewrite clamp_entries in Ix. cbn in Ix.
      apply In_upd_entry in Ix. destruct Ix as [[Ix _]|[y [Iy [_ ->]]]]; eauto.
    + pose proof (flip_neq _ _ N) as ->. rewrite exit_poss_other in I'. exact (P _ _ _ I').
Qed.

Lemma tidy_order c date s o cr ot it sh l m f q : tidy q -> tidy (fst (add_order c date s o cr ot it sh l m f q)).
Proof.
  intros [R P]. unfold add_order. constructor; cbn; destruct (c_fee_mode c); auto.
  all: intros sd; destruct sd; [apply (P Long)|apply (P Short)].
Qed.

Lemma price_fill st v sc x : st_type st <> SBar -> priced sc -> sc_can_price sc (st_sym st) = true -> st_pos st = Short ->
  trigger_price_stop st v sc = Some x -> 0 < x.
Proof.
  intros N P C Es. destruct (P _ C) as [Pp _]. unfold trigger_price_stop. rewrite Es.
  pose proof (Pp PTLow) as L. pose proof (Pp PTHigh) as H.
  destruct (st_type st); try congruence;
  (destruct (st_exit st) as [t|];
   [pose proof (Pp t) as T; destruct (Qle_bool _ _); [intros [= <-]; exact T|discriminate]|]).
  - destruct (Qle_bool _ _) eqn:B; [|discriminate]. intros [= <-]. eapply Qlt_le_trans; [exact L|apply Q.le_max_r].
  - destruct (Qle_bool _ _) eqn:B; [|discriminate]. intros [= <-]. apply Qle_bool_iff in B.
    destruct (Qmin_cases v (sc_price sc (st_sym st) PTHigh)) as [[X _]|[X _]]; rewrite X; [eapply Qlt_le_trans; [exact L|exact B]|exact H].
  - destruct (Qle_bool _ _) eqn:B; [|discriminate]. intros [= <-]. eapply Qlt_le_trans; [exact L|apply Q.le_max_r].
Qed.

Lemma slipped_pos sm st e x : 0 < x -> 0 < slip_stop_fill sm st e x.
Proof.
  intro X. unfold slip_stop_fill. destruct sm as [f|]; auto. destruct (f _ _ _ _) as [q|]; auto.
  destruct (Qle_bool q 0) eqn:B; auto. destruct (Qlt_le_dec 0 q) as [|Y]; auto. apply Qle_bool_iff in Y. congruence.
Qed.

Lemma trigger_fine c date sc sm pos e st q s : tidy q -> priced sc -> sc_can_price sc (st_sym st) = true ->
  usable_stop st -> (st_type st <> SBar -> exists d, aget (st_id st) (p_stop_data q) = Some d) ->
  In (s, pos) (poss (st_pos st) q) ->
  match trigger_stop c date sc sm pos e st q with Raise _ _ => False | Ret q' _ => tidy q' end.
Proof.
  intros T P C [U1 U2] D I. unfold trigger_stop. destruct (negb _); [exact T|].
  assert (FIRE : forall m, (st_pos st = Short -> 0 < m) ->
    match (let fill := slip_stop_fill sm st e m in
        let rejected := match st_limit st, st_pos st with
                        | Some l, Long => Qltb fill l
                        | Some l, Short => Qltb l fill
                        | None, _ => false
                        end in
        if rejected then Ret q false
        else if side_eqb (st_pos st) Short && Qis0 fill then Raise q EDiv
        else
          let '(pos, p) := exit_entry c (st_pos st) date pos e (e_shares e) fill (Some (st_type st)) q in
          let '(p, _) := add_order c date (ps_sym pos)
              (match st_pos st with Long => OSell | Short => OBuy end)
              None (stop_order_type (st_type st))
              (match st_pos st with Long => SellToClose | Short => BuyToClose end)
              (e_shares e) (st_limit st) (Some m) fill p in
          Ret p true) with Raise _ _ => False | Ret q' _ => tidy q' end).
  { intros m M. cbn zeta. set (fill := slip_stop_fill sm st e m).
    destruct (match st_limit st with Some l => match st_pos st with Long => Qltb fill l | Short => Qltb l fill end | None => false end); [exact T|].
    assert (Z : side_eqb (st_pos st) Short && Qis0 fill = false).
    { destruct (st_pos st) eqn:Es; cbn; auto. pose proof (slipped_pos sm st e m (M eq_refl)) as X. fold fill in X.
      unfold Qis0. destruct (Qeq_bool fill 0) eqn:B; auto. apply Qeq_bool_iff in B. lra. }
    rewrite Z.
    pose proof (tidy_exit c (st_pos st) date pos e (e_shares e) fill (Some (st_type st)) q s T I) as T1.
    destruct (exit_entry c (st_pos st) date pos e (e_shares e) fill (Some (st_type st)) q) as [pos1 q1]. cbn [snd] in T1.
    match goal with |- context [add_order c ?a ?b ?d ?e0 ?f ?g ?h ?i ?j ?k q1] =>
      pose proof (tidy_order c a b d e0 f g h i j k q1 T1) as T2; destruct (add_order c a b d e0 f g h i j k q1) end. exact T2. }
  destruct (st_type st) eqn:Et; cbn zeta.
  - unfold trigger_bar_stop. destruct (U2 eq_refl) as [[n ->] SF]. destruct (Nat.leb n (e_symbars e)); [|exact T].
    set (x := sc_fetch sc (st_sym st) _). assert (X : 0 < x).
    { apply P; [exact C|]. destruct (st_fill st) as [f|]; [apply SF; reflexivity|exact Logic.I]. }
    destruct (Qle_bool x 0) eqn:B; [apply Qle_bool_iff in B; lra|]. apply FIRE. auto.
  - destruct D as [d ->]; [discriminate|]. destruct (trigger_price_stop st (sd_value d) sc) as [x|] eqn:Ex; [|exact T].
    apply FIRE. intro Es. eapply price_fill; eauto. congruence.
  - destruct D as [d ->]; [discriminate|]. destruct (trigger_price_stop st (sd_value d) sc) as [x|] eqn:Ex; [|exact T].
    apply FIRE. intro Es. eapply price_fill; eauto. congruence.
  - destruct D as [d Ed]; [discriminate|]. rewrite Ed.
    destruct (trigger_price_stop st (sd_value d) sc) as [x|] eqn:Ex.
    + apply FIRE. intro Es. eapply price_fill; eauto. congruence.
    + assert (A : forall y, stop_amount st y <> None) by (intro y; apply sized_amount; [exact U1|congruence]).
      destruct (ratchet st (sd_value d) sc) as [v|] eqn:Er.
      * destruct T as [R Q]. constructor.
        -- cbn. intros id d'. rewrite aget_aset. destruct (Nat.eqb_spec id (st_id st)) as [->|N]; [|apply R].
           intros [= <-]. cbn. exact (R _ _ Ed).
        -- intros sd; destruct sd; [apply (Q Long)|apply (Q Short)].
      * unfold ratchet in Er. destruct (st_pos st); [specialize (A (sc_price sc (st_sym st) PTHigh))|specialize (A (sc_price sc (st_sym st) PTLow))];
        destruct (stop_amount _ _); [discriminate|congruence|discriminate|congruence].
Qed.

Definition fine (r : res executed) : Prop := match r with Ret q _ => tidy q | Raise _ x => x = EModel end.

Lemma price_stop_fine c date sc sm s id r : priced sc -> sc_can_price sc s = true -> fine r -> fine (check_price_stop c date sc sm s id r).
Proof.
  intros P C F. destruct r as [q ex|q x]; [|exact F]. cbn in *.
  destruct (aget id (p_stop_data q)) as [d|] eqn:Ed; [|reflexivity].
  destruct (is_triggered _ _); [exact F|]. destruct (aget s _) as [pos|] eqn:Ep; [|exact F].
  destruct (find_entry _ _) as [e|]; [|reflexivity].
  destruct (Nat.eqb_spec (st_sym (sd_stop d)) s) as [Es|]; [|reflexivity]. cbn [negb].
  destruct (ty_reg _ F _ _ Ed) as [E1 [E2 E3]].
  pose proof (trigger_fine c date sc sm pos e (sd_stop d) q s F P) as X. rewrite Es, E1 in X.
  specialize (X C E3 (fun _ => ex_intro _ _ Ed) (aget_In _ _ _ Ep)).
  destruct (trigger_stop c date sc sm pos e (sd_stop d) q) as [q' []|]; [exact X|exact X|contradiction].
Qed.

Lemma price_loop_fine c date sc sm l r : priced sc -> fine r -> fine (price_loop c date sc sm l r).
Proof.
  intro P. unfold price_loop. revert r. induction l as [|[s ids] l IH]; cbn [fold_left fst snd]; auto. intros r F. apply IH.
  destruct (sc_can_price sc s) eqn:C; auto. revert r F. induction ids as [|i ids IHi]; cbn [fold_left]; auto. intros r F.
  apply IHi. now apply price_stop_fine.
Qed.

Lemma bar_stops_fine c date sc sm sd s eid l : priced sc -> sc_can_price sc s = true -> (forall st, In st l -> usable_stop st) ->
  forall r, fine r -> fine (bar_stops_loop c date sc sm sd s eid l r).
Proof.
  intros P C. induction l as [|t l IH]; intros U r F; [exact F|].
  destruct r as [q ex|q x]; [|exact F]. cbn [bar_stops_loop].
  assert (U' : forall st, In st l -> usable_stop st) by (intros; apply U; cbn; auto).
  destruct (st_type t) eqn:Et; [|apply IH; auto..].
  destruct (aget s (poss sd q)) as [pos|] eqn:Ep; [|reflexivity].
  destruct (find_entry eid (ps_entries pos)) as [e|]; [|reflexivity].
  destruct (Nat.eqb_spec (st_sym t) s) as [Es|]; [|reflexivity]. cbn [andb].
  destruct (side_eqb (st_pos t) sd) eqn:Esd; [|reflexivity]. cbn [negb].
  assert (Ed : st_pos t = sd) by (destruct (st_pos t), sd; try reflexivity; discriminate Esd).
  assert (D : st_type t <> SBar -> exists d, aget (st_id t) (p_stop_data q) = Some d) by congruence.
  pose proof (trigger_fine c date sc sm pos e t q s F P) as X. rewrite Es, Ed in X.
  specialize (X C (U t (or_introl eq_refl)) D (aget_In _ _ _ Ep)).
  destruct (trigger_stop c date sc sm pos e t q) as [q' []|]; [exact X|apply IH; auto|contradiction].
Qed.

Lemma bar_loop_fine c date sc sm sd d : priced sc ->
  (forall s pos, In (s, pos) d -> ps_sym pos = s /\ forall e st, In e (ps_entries pos) -> In st (e_stops e) -> usable_stop st) ->
  forall r, fine r -> fine (bar_loop c date sc sm sd d r).
Proof.
  intro P. unfold bar_loop. induction d as [|[s pos] d IH]; cbn [fold_left fst snd]; auto. intros U r F.
  apply IH; [intros; apply U; cbn; auto|].
  destruct (U s pos (or_introl eq_refl)) as [<- V]. destruct (sc_can_price sc (ps_sym pos)) eqn:C; auto.
  unfold bar_entries_loop. clear IH U. revert r F. induction (ps_entries pos) as [|e es IHe]; cbn [fold_left]; auto. intros r F.
  apply IHe; [intros x st Ix; apply V; cbn; auto|]. destruct r as [q ex|q x]; [|exact F].
  destruct (is_triggered _ _); [exact F|]. apply bar_stops_fine; auto. intros st I. apply (V e); cbn; auto.
Qed.

Lemma check_stops_total c date sc sm p : cfg_ok c -> Good c p -> StopInv p -> all_stops usable_stop p -> priced sc ->
  exists p', check_stops c date sc sm p = Ret p' tt.
Proof.
  intros K G HS A P.
  assert (T : tidy p).
  { constructor.
    - intros id d E. destruct (si_reg _ HS _ _ E) as [E1 [E2 [e [O [_ I]]]]]. split; auto. split; auto. exact (A _ _ _ _ O I).
    - intros sd s pos I. pose proof (In_aget _ _ _ (co_nodup _ _ (gd_core _ _ G) sd) I) as E.
      split; [exact (po_sym _ _ _ _ (co_pos _ _ (gd_core _ _ G) _ _ _ E))|].
      intros e st Ie Is. apply (A sd s e); auto. exists pos. auto. }
  pose proof (check_stops_ok c date sc sm p K G) as OK. unfold check_stops in *. cbn zeta in *.
  pose proof (price_loop_fine c date sc sm (p_active p) (Ret p []) P T) as F1.
  set (r1 := price_loop c date sc sm (p_active p) (Ret p [])) in *.
  assert (F2 : fine match r1 with Ret p1 _ => bar_loop c date sc sm Long (p_longs p1) r1 | Raise _ _ => r1 end).
  { destruct r1 as [q ex|q x]; [|exact F1]. apply bar_loop_fine; auto. apply (ty_pos _ F1 Long). }
  set (r2 := match r1 with Ret p1 _ => bar_loop c date sc sm Long (p_longs p1) r1 | Raise _ _ => r1 end) in *.
  assert (F3 : fine match r2 with Ret p1 _ => bar_loop c date sc sm Short (p_shorts p1) r2 | Raise _ _ => r2 end).
  { destruct r2 as [q ex|q x]; [|exact F2]. apply bar_loop_fine; auto. apply (ty_pos _ F2 Short). }
  set (r3 := match r2 with Ret p1 _ => bar_loop c date sc sm Short (p_shorts p1) r2 | Raise _ _ => r2 end) in *.
  destruct r3 as [q ex|q x]; [eauto|]. destruct OK as [_ OK]. cbn in F3. destruct (OK HS F3).
Qed.

Lemma step_total c o p ops : cfg_ok c -> run c ops = Some p -> stops_wf (ops ++ [o]) -> Forall fair_call (ops ++ [o]) ->
  all_stops usable_stop p -> exists p', exec c (Some p) o = Some p'.
Proof.
  intros K R W F A. apply Forall_app in F. destruct F as [_ F]. inversion F as [|? ? [F1 F2] _]; subst.
  destruct (run_stop_all _ _ _ K R (wf_snoc _ _ W)) as [HS HA]. pose proof (run_good _ _ _ K R) as G.
  assert (ORD : forall sd a, o = send_op sd a -> exists p', exec c (Some p) o = Some p').
  { intros sd a ->. cbn [exec].
    assert (E : step c (send_op sd a) p = drop (send c sd a p)) by (destruct sd; reflexivity). rewrite E.
    destruct (verify_input_raises (a_shares a) (a_fill a) (a_limit a)) eqn:Ev.
    - rewrite send_place, place_unfold, Ev. cbn. eauto.
    - destruct (order_total c ops p sd a K R W) as [p' [r ->]]; [intros st I; apply F1, I| |cbn; eauto].
      rewrite <- bad_verify, Ev. discriminate. }
  destruct o as [a|a|d s b sl sm|d sc sm|d bar|hb|id|v t|ml ms]; [apply (ORD OBuy a eq_refl)|apply (ORD OSell a eq_refl)|..]; cbn; eauto.
  - pose proof (exit_total c ops p d s b sl sm K R) as X. destruct (exit_position c d s b sl sm p) as [p' u|p' x]; [eauto|].
    destruct X as [-> ->]. eauto.
  - destruct (check_stops_total c d sc sm p K G HS A F2) as [p' ->]. eauto.
Qed.

Lemma run_usable c ops p : cfg_ok c -> run c ops = Some p -> Forall fair_call ops -> all_stops usable_stop p.
Proof.
  intros K H. revert ops p H. apply (run_ind c (fun ops p => Forall fair_call ops -> all_stops usable_stop p)).
  - intros _ sd s e st [q [E _]]. destruct sd; discriminate.
  - intros ops q o p' Hq IH E F. apply Forall_app in F. destruct F as [F1 F2]. inversion F2 as [|? ? [U _] _]; subst.
    pose proof (step_all_stops c o q usable_stop K (run_good _ _ _ K Hq) (IH F1) U) as X. unfold exec in E.
    destruct (step c o q) as [p1 u|p1 []]; try discriminate; injection E as <-; auto.
Qed.

Theorem run_total c ops : cfg_ok c -> stops_wf ops -> Forall fair_call ops -> exists p, run c ops = Some p.
Proof.
  intro K. induction ops as [|o ops IH] using rev_ind; intros W F; [cbn; eauto|].
  pose proof F as F0. apply Forall_app in F0. destruct F0 as [F1 _].
  destruct (IH (wf_snoc _ _ W) F1) as [p R]. pose proof (run_usable _ _ _ K R F1) as A.
  destruct (step_total c o p ops K R W F A) as [p' E]. exists p'. unfold run in *. rewrite fold_left_app, R. exact E.
Qed.

Lemma checked_total c ops p date sc sm : cfg_ok c -> run c ops = Some p -> stops_wf ops ->
  (forall o st, In o ops -> In st (op_stops o) -> usable_stop st) -> priced sc ->
  exists p', check_stops c date sc sm p = Ret p' tt.
Proof.
  intros K R W U P. apply check_stops_total; auto.
  - exact (run_good _ _ _ K R).
  - exact (run_stop _ _ _ K W R).
  - clear W P. revert ops p R U. apply (run_ind c (fun ops p => (forall o st, In o ops -> In st (op_stops o) -> usable_stop st) -> all_stops usable_stop p)).
    + intros _ sd s e st [q [E _]]. destruct sd; discriminate.
    + intros ops q o p' Hq IH E U.
      pose proof (step_all_stops c o q usable_stop K (run_good _ _ _ K Hq)) as X. unfold exec in E.
      specialize (X (IH (fun o' st J => U o' st (in_or_app _ _ _ (or_introl J))))).
      assert (Y : forall st, In st (op_stops o) -> usable_stop st).
      { intros st J. apply (U o); auto. apply in_or_app. cbn. auto. }
      specialize (X Y).
      destruct (step c o q) as [p1 u|p1 []]; try discriminate; injection E as <-; auto.
Qed.
