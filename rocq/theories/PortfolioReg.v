(** The stop registries: which stops are registered, and on which entries. *)
From Verif Require Export PortfolioOrders.

(** The entry queue of a symbol on one side (empty when there is no position). *)
Definition entries_of (p : port) (sd : side) (s : sym) : list entry :=
  match aget s (poss sd p) with Some pos => ps_entries pos | None => [] end.

Lemma owns_entries p sd s e : owns p sd s e <-> In e (entries_of p sd s).
Proof.
  unfold owns, entries_of. destruct (aget s (poss sd p)) as [pos|]; split.
  - intros [q [E I]]. injection E as <-. auto.
  - eauto.
  - intros [q [E I]]. discriminate.
  - intros [].
Qed.

(** ** The two registries agree *)
Definition is_active (p : port) (s : sym) (id : nat) : Prop :=
  exists l, aget s (p_active p) = Some l /\ In id l.

Record RegInv (p : port) : Prop := mkReg {
  ri_sd_nd : NoDup (akeys (p_stop_data p));
  ri_act_nd : NoDup (akeys (p_active p));
  ri_list_nd : forall s l, aget s (p_active p) = Some l -> NoDup l /\ l <> [];
  ri_act : forall s id, is_active p s id <->
     exists d, aget id (p_stop_data p) = Some d /\ st_sym (sd_stop d) = s
}.

Lemma reg_ext p p' : p_stop_data p' = p_stop_data p -> p_active p' = p_active p -> RegInv p -> RegInv p'.
Proof.
  intros A B [h1 h2 h3 h4]. unfold is_active in *. constructor; unfold is_active; rewrite ?A, ?B; auto.
Qed.

Lemma pop_stop_sd id s p : p_stop_data (pop_stop id s p) = adel id (p_stop_data p).
Proof.
  unfold pop_stop. cbn. destruct (aget s (p_active p)) as [l|]; [destruct (remove_first id l)|]; reflexivity.
Qed.

Lemma pop_stop_reg id s d p : RegInv p -> aget id (p_stop_data p) = Some d -> st_sym (sd_stop d) = s ->
  RegInv (pop_stop id s p).
Proof.
  intros [h1 h2 h3 h4] Hd Hs.
  assert (HA : is_active p s id) by (apply h4; eauto).
  destruct HA as [l [Hl Il]]. destruct (h3 _ _ Hl) as [NDl NEl].
  assert (Hact : NoDup (akeys (p_active (pop_stop id s p))) /\
    (forall s', aget s' (p_active (pop_stop id s p)) =
       if Nat.eqb s' s then (match remove_first id l with [] => None | l' => Some l' end) else aget s' (p_active p))).
  { unfold pop_stop. cbn. rewrite Hl. destruct (remove_first id l) as [|y r] eqn:Er; cbn.
    - split; [now apply NoDup_adel|]. intro s'. now rewrite aget_adel by auto.
    - split; [now apply NoDup_aset|]. intro s'. apply aget_aset. }
  destruct Hact as [N1 N2].
  constructor.
  - rewrite pop_stop_sd. now apply NoDup_adel.
  - exact N1.
  - intros s' l' H. rewrite N2 in H. destruct (Nat.eqb_spec s' s) as [->|Ns]; [|eauto].
    destruct (remove_first id l) as [|y r] eqn:Er; [discriminate|]. injection H as <-.
    split; [|discriminate]. rewrite <- Er. now apply remove_first_NoDup.
  - intros s' id'. unfold is_active. rewrite pop_stop_sd. setoid_rewrite N2.
    rewrite aget_adel by auto. destruct (Nat.eqb_spec s' s) as [->|Ns].
    + assert (E : (exists l0, match remove_first id l with [] => None | n :: l1 => Some (n :: l1) end = Some l0 /\ In id' l0)
                  <-> In id' (remove_first id l)).
      { destruct (remove_first id l) as [|y r]; split.
        - intros [l0 [E _]]. discriminate.
        - intros [].
        - intros [l0 [E I]]. injection E as <-. auto.
        - intro I. eauto. }
      rewrite E, remove_first_In by auto. clear E.
      destruct (Nat.eqb_spec id' id) as [->|Ni].
      * split; [tauto|]. intros [d' [E _]]. discriminate.
      * rewrite <- (h4 s id'). unfold is_active. split.
        -- intros [I _]. eauto.
        -- intros [l0 [E I]]. rewrite Hl in E. injection E as <-. auto.
    + fold (is_active p s' id'). rewrite (h4 s' id').
      destruct (Nat.eqb_spec id' id) as [->|Ni]; [|tauto].
      split; [|intros [d' [E _]]; discriminate].
      intros [d' [E E']]. congruence.
Qed.

(** Stops whose registered data (if any) is under their own symbol. *)
Definition stops_syms (ss : list stop) (p : port) : Prop :=
  forall st d, In st ss -> aget (st_id st) (p_stop_data p) = Some d -> st_sym (sd_stop d) = st_sym st.

Lemma remove_stop_data_reg ss : forall p, RegInv p -> stops_syms ss p ->
  RegInv (remove_stop_data ss p) /\
  forall id, aget id (p_stop_data (remove_stop_data ss p)) =
    if nmem id (map st_id ss) then None else aget id (p_stop_data p).
Proof.
  induction ss as [|st r IH]; cbn [remove_stop_data]; intros p HR HS; [split; auto|].
  destruct (ahas (st_id st) (p_stop_data p)) eqn:Eh.
  - unfold ahas in Eh. destruct (aget (st_id st) (p_stop_data p)) as [d|] eqn:Hd; [|discriminate].
    assert (HR' : RegInv (pop_stop (st_id st) (st_sym st) p)).
    { eapply pop_stop_reg; eauto. eapply HS; eauto. now left. }
    destruct (IH _ HR') as [A B].
    { intros st' d' I H. rewrite pop_stop_sd, aget_adel in H by apply HR.
      destruct (Nat.eqb (st_id st') (st_id st)); [discriminate|]. eapply HS; eauto. now right. }
    split; auto. intro id. rewrite B, pop_stop_sd, aget_adel by apply HR.
    unfold nmem. cbn [map existsb]. destruct (Nat.eqb id (st_id st)); cbn; destruct (existsb (Nat.eqb id) (map st_id r)); auto.
  - apply ahas_false in Eh. destruct (IH p HR) as [A B].
    { intros st' d' I H. eapply HS; eauto. now right. }
    split; auto. intro id. rewrite B.
    unfold nmem. cbn [map existsb]. destruct (Nat.eqb_spec id (st_id st)) as [->|N]; cbn; auto.
    rewrite Eh. destruct (existsb (Nat.eqb (st_id st)) (map st_id r)); auto.
Qed.

(** ** Registries and entries agree *)
Record StopInv (p : port) : Prop := mkSI {
  si_ri : RegInv p;
  si_own : forall sd s e st, owns p sd s e -> In st (e_stops e) -> st_sym st = s /\ st_pos st = sd;
  si_nd : forall sd s e, owns p sd s e -> NoDup (map st_id (e_stops e));
  si_uniq : forall sd1 s1 e1 st1 sd2 s2 e2 st2,
     owns p sd1 s1 e1 -> In st1 (e_stops e1) -> owns p sd2 s2 e2 -> In st2 (e_stops e2) ->
     st_id st1 = st_id st2 -> e_id e1 = e_id e2;
  si_reg : forall id d, aget id (p_stop_data p) = Some d ->
     st_id (sd_stop d) = id /\ st_type (sd_stop d) <> SBar /\
     exists e, owns p (st_pos (sd_stop d)) (st_sym (sd_stop d)) e /\ e_id e = sd_entry d /\ In (sd_stop d) (e_stops e);
  si_has : forall sd s e st, owns p sd s e -> In st (e_stops e) -> st_type st <> SBar ->
     exists d, aget (st_id st) (p_stop_data p) = Some d /\ sd_stop d = st /\ sd_entry d = e_id e
}.

Lemma init_stop c : StopInv (init c).
Proof.
  assert (HO : forall sd s e, ~ owns (init c) sd s e).
  { intros sd s e [q [E _]]. destruct sd; discriminate. }
  constructor.
  - constructor; cbn.
    + constructor.
    + constructor.
    + intros s l H; discriminate.
    + intros s id. split; intros [d [H _]]; discriminate.
  - intros sd s e st H. now apply HO in H.
  - intros sd s e H. now apply HO in H.
  - intros sd1 s1 e1 st1 sd2 s2 e2 st2 H. now apply HO in H.
  - intros id d H; discriminate.
  - intros sd s e st H. now apply HO in H.
Qed.

Definition same_stops (e e' : entry) : Prop := e_id e' = e_id e /\ e_stops e' = e_stops e.

(** Entries change, but not their ids and stops; registries keep their stops. *)
Lemma stop_pointwise p p' :
  StopInv p ->
  (forall sd s e', owns p' sd s e' -> exists e, owns p sd s e /\ same_stops e e') ->
  (forall sd s e, owns p sd s e -> exists e', owns p' sd s e' /\ same_stops e e') ->
  p_active p' = p_active p -> akeys (p_stop_data p') = akeys (p_stop_data p) ->
  (forall id d, aget id (p_stop_data p) = Some d ->
     exists d', aget id (p_stop_data p') = Some d' /\ sd_stop d' = sd_stop d /\ sd_entry d' = sd_entry d) ->
  StopInv p'.
Proof.
  intros [R O N U G H] F B A K D.
  assert (D' : forall id d', aget id (p_stop_data p') = Some d' ->
     exists d, aget id (p_stop_data p) = Some d /\ sd_stop d' = sd_stop d /\ sd_entry d' = sd_entry d).
  { intros id d' E. assert (I : In id (akeys (p_stop_data p))).
    { rewrite <- K. eapply aget_Some_key; eauto. }
    apply key_aget in I. destruct I as [d Ed]. exists d. split; auto.
    destruct (D _ _ Ed) as [d2 [E2 E3]]. congruence. }
  constructor.
  - destruct R as [h1 h2 h3 h4]. unfold is_active in *. constructor; unfold is_active; rewrite ?A, ?K; auto.
    intros s id. rewrite (h4 s id). split; intros [d [E1 E2]].
    + destruct (D _ _ E1) as [d' [E3 [E4 E5]]]. exists d'. split; auto. congruence.
    + destruct (D' _ _ E1) as [d' [E3 [E4 E5]]]. exists d'. split; auto. congruence.
  - intros sd s e' st Ho I. destruct (F _ _ _ Ho) as [e [Hoe [E1 E2]]]. rewrite E2 in I. eauto.
  - intros sd s e' Ho. destruct (F _ _ _ Ho) as [e [Hoe [E1 E2]]]. rewrite E2. eauto.
  - intros sd1 s1 e1 st1 sd2 s2 e2 st2 O1 I1 O2 I2 E.
    destruct (F _ _ _ O1) as [f1 [P1 [Q1 R1]]], (F _ _ _ O2) as [f2 [P2 [Q2 R2]]].
    rewrite R1 in I1. rewrite R2 in I2. rewrite Q1, Q2. eauto.
  - intros id d' E. destruct (D' _ _ E) as [d [E1 [E2 E3]]]. destruct (G _ _ E1) as [G1 [G2 [e [G3 [G4 G5]]]]].
    rewrite E2, E3. split; auto. split; auto. destruct (B _ _ _ G3) as [e' [B1 [B2 B3]]].
    exists e'. rewrite B2, B3. auto.
  - intros sd s e' st Ho I T. destruct (F _ _ _ Ho) as [e [Hoe [E1 E2]]]. rewrite E2 in I.
    destruct (H _ _ _ _ Hoe I T) as [d [H1 [H2 H3]]]. destruct (D _ _ H1) as [d' [K1 [K2 K3]]].
    exists d'. rewrite K2, K3, E1. auto.
Qed.

Lemma stop_ext p p' : StopInv p -> (forall sd, poss sd p' = poss sd p) ->
  p_active p' = p_active p -> p_stop_data p' = p_stop_data p -> StopInv p'.
Proof.
  intros H P A D. assert (HO : forall sd s e, owns p' sd s e <-> owns p sd s e).
  { intros. rewrite !owns_entries. unfold entries_of. now rewrite P. }
  apply (stop_pointwise p); auto.
  - intros sd s e Ho. exists e. split; [now apply HO|split; reflexivity].
  - intros sd s e Ho. exists e. split; [now apply HO|split; reflexivity].
  - now rewrite D.
  - intros id d E. rewrite D. eauto.
Qed.

Lemma core_owns_inj z p sd1 s1 e1 sd2 s2 e2 : Core z p ->
  owns p sd1 s1 e1 -> owns p sd2 s2 e2 -> e_id e1 = e_id e2 -> sd1 = sd2 /\ s1 = s2 /\ e1 = e2.
Proof.
  intros HC O1 O2 E. destruct (co_ids _ _ HC _ _ _ _ _ _ O1 O2 E) as [-> ->]. split; auto. split; auto.
  destruct O1 as [q [Hq I1]], O2 as [q2 [Hq2 I2]]. rewrite Hq in Hq2. injection Hq2 as <-.
  eapply id_inj; eauto. apply (po_nodup _ _ _ _ (co_pos _ _ HC _ _ _ Hq)).
Qed.

Lemma st_id_inj ss st1 st2 : NoDup (map st_id ss) -> In st1 ss -> In st2 ss -> st_id st1 = st_id st2 -> st1 = st2.
Proof.
  induction ss as [|x r IH]; cbn; [tauto|]. intros ND I1 I2 E. inversion ND as [|? ? Hn Hr]; subst.
  destruct I1 as [->|I1], I2 as [->|I2]; auto; exfalso; apply Hn.
  - rewrite E. now apply in_map.
  - rewrite <- E. now apply in_map.
Qed.

(** An entry is dropped together with the registrations of its stops. *)
Lemma stop_drop z p p' q sd s e :
  Core z p -> StopInv p -> owns p sd s e ->
  (forall sd1 s1 e1, owns p' sd1 s1 e1 -> exists e0, owns p sd1 s1 e0 /\ e_id e0 <> e_id e /\ same_stops e0 e1) ->
  (forall sd1 s1 e0, owns p sd1 s1 e0 -> e_id e0 <> e_id e -> exists e1, owns p' sd1 s1 e1 /\ same_stops e0 e1) ->
  p_stop_data q = p_stop_data p -> p_active q = p_active p ->
  p_stop_data p' = p_stop_data (remove_stop_data (e_stops e) q) ->
  p_active p' = p_active (remove_stop_data (e_stops e) q) ->
  StopInv p' /\
  forall id, aget id (p_stop_data p') =
     if nmem id (map st_id (e_stops e)) then None else aget id (p_stop_data p).
Proof.
  intros HC [R O N U G H] Ho F B Q1 Q2 D A.
  assert (RQ : RegInv q) by (eapply reg_ext; eauto).
  assert (SQ : stops_syms (e_stops e) q).
  { intros st d I E. rewrite Q1 in E. destruct (G _ _ E) as [G1 [G2 [e0 [G3 [G4 G5]]]]].
    pose proof (U _ _ _ _ _ _ _ _ Ho I G3 G5 (eq_sym G1)) as Ei.
    destruct (core_owns_inj _ _ _ _ _ _ _ _ HC Ho G3 Ei) as [_ [_ <-]].
    now rewrite (st_id_inj _ _ _ (N _ _ _ Ho) I G5 (eq_sym G1)). }
  destruct (remove_stop_data_reg _ _ RQ SQ) as [R' V].
  assert (V' : forall id, aget id (p_stop_data p') =
     if nmem id (map st_id (e_stops e)) then None else aget id (p_stop_data p)).
  { intro id. rewrite D, V, Q1. reflexivity. }
  split; [|exact V']. constructor.
  - eapply reg_ext; eauto.
  - intros sd1 s1 e1 st O1 I1. destruct (F _ _ _ O1) as [e0 [P1 [P2 [P3 P4]]]]. rewrite P4 in I1. eauto.
  - intros sd1 s1 e1 O1. destruct (F _ _ _ O1) as [e0 [P1 [P2 [P3 P4]]]]. rewrite P4. eauto.
  - intros sd1 s1 e1 st1 sd2 s2 e2 st2 O1 I1 O2 I2 E.
    destruct (F _ _ _ O1) as [f1 [P1 [X1 [Y1 R1]]]], (F _ _ _ O2) as [f2 [P2 [X2 [Y2 R2]]]].
    rewrite R1 in I1. rewrite R2 in I2. rewrite Y1, Y2. eauto.
  - intros id d E. rewrite V' in E. destruct (nmem id (map st_id (e_stops e))) eqn:Em; [discriminate|].
    apply nmem_notIn in Em. destruct (G _ _ E) as [G1 [G2 [e0 [G3 [G4 G5]]]]].
    split; auto. split; auto.
    destruct (B _ _ _ G3) as [e1 [B1 [B2 B3]]].
    + intro Ei. destruct (core_owns_inj _ _ _ _ _ _ _ _ HC G3 Ho Ei) as [_ [_ ->]].
      apply Em. rewrite <- G1. now apply in_map.
    + exists e1. rewrite B2, B3. auto.
  - intros sd1 s1 e1 st O1 I1 T. destruct (F _ _ _ O1) as [e0 [P1 [P2 [P3 P4]]]]. rewrite P4 in I1.
    destruct (H _ _ _ _ P1 I1 T) as [d [H1 [H2 H3]]]. exists d. rewrite P3. split; auto.
    rewrite V'. destruct (nmem (st_id st) (map st_id (e_stops e))) eqn:Em; auto.
    apply nmem_In, in_map_iff in Em. destruct Em as [st' [E I']].
    exfalso. apply P2. eapply U; [exact P1|exact I1|exact Ho|exact I'|now symmetry].
Qed.

(** ** Attaching fresh stops *)
Definition fresh (ss : list stop) (p : port) : Prop :=
  forall sd s e st st', owns p sd s e -> In st (e_stops e) -> In st' ss -> st_id st <> st_id st'.

(** What the registration loop does to the registries. *)
Lemma add_stops_reg ss : forall e p e' p',
  RegInv p -> add_stops_loop ss e p = (e', p', false) -> NoDup (map st_id ss) ->
  RegInv p' /\
  (forall id d, aget id (p_stop_data p) = Some d -> aget id (p_stop_data p') = Some d /\ ~ In id (map st_id ss)) /\
  (forall id d, aget id (p_stop_data p') = Some d -> aget id (p_stop_data p) = Some d \/
     (st_id (sd_stop d) = id /\ In (sd_stop d) ss /\ st_type (sd_stop d) <> SBar /\ sd_entry d = e_id e)) /\
  (forall st, In st ss -> st_type st <> SBar ->
     exists d, aget (st_id st) (p_stop_data p') = Some d /\ sd_stop d = st /\ sd_entry d = e_id e /\
       exists a, stop_amount st (e_price e) = Some a /\ sd_value d = initial_stop_value st (e_price e) a).
Proof.
  induction ss as [|st ss IH]; intros e p e' p' HR H ND.
  - cbn in H. injection H as <- <-. split; auto. split; [intros id d E; split; auto|]. split; [auto|intros st []].
  - cbn [add_stops_loop] in H. destruct (ahas (st_id st) (p_stop_data p)) eqn:Eh; [discriminate|].
    apply ahas_false in Eh. cbn in ND. inversion ND as [|? ? Hn Hr]; subst.
    set (e1 := set_e_stops (e_stops e ++ [st]) e) in *.
    assert (HB : st_type st = SBar -> add_stops_loop ss e1 p = (e', p', false) ->
      RegInv p' /\
      (forall id d, aget id (p_stop_data p) = Some d -> aget id (p_stop_data p') = Some d /\ ~ In id (map st_id (st :: ss))) /\
      (forall id d, aget id (p_stop_data p') = Some d -> aget id (p_stop_data p) = Some d \/
         (st_id (sd_stop d) = id /\ In (sd_stop d) (st :: ss) /\ st_type (sd_stop d) <> SBar /\ sd_entry d = e_id e)) /\
      (forall st0, In st0 (st :: ss) -> st_type st0 <> SBar ->
         exists d, aget (st_id st0) (p_stop_data p') = Some d /\ sd_stop d = st0 /\ sd_entry d = e_id e /\
           exists a, stop_amount st0 (e_price e) = Some a /\ sd_value d = initial_stop_value st0 (e_price e) a)).
    { intros T H'. destruct (IH _ _ _ _ HR H' Hr) as [I1 [I2 [I3 I4]]]. split; auto. split; [|split].
      - intros id d E. destruct (I2 _ _ E) as [J1 J2]. split; auto. intros [<-|J]; [congruence|auto].
      - intros id d E. destruct (I3 _ _ E) as [J|[J1 [J2 J3]]]; auto. right. cbn. auto.
      - intros st0 [<-|I] T0; [congruence|]. apply (I4 st0 I T0). }
    assert (HP : st_type st <> SBar ->
      match stop_amount st (e_price e1) with
      | None => (e1, p, true)
      | Some amount =>
          let v := initial_stop_value st (e_price e1) amount in
          let p := set_p_stop_data (aset (st_id st) (mkStopData v st (e_id e1)) (p_stop_data p)) p in
          let cur := match aget (st_sym st) (p_active p) with Some l => l | None => [] end in
          let p := set_p_active (aset (st_sym st) (cur ++ [st_id st]) (p_active p)) p in
          add_stops_loop ss e1 p
      end = (e', p', false) ->
      RegInv p' /\
      (forall id d, aget id (p_stop_data p) = Some d -> aget id (p_stop_data p') = Some d /\ ~ In id (map st_id (st :: ss))) /\
      (forall id d, aget id (p_stop_data p') = Some d -> aget id (p_stop_data p) = Some d \/
         (st_id (sd_stop d) = id /\ In (sd_stop d) (st :: ss) /\ st_type (sd_stop d) <> SBar /\ sd_entry d = e_id e)) /\
      (forall st0, In st0 (st :: ss) -> st_type st0 <> SBar ->
         exists d, aget (st_id st0) (p_stop_data p') = Some d /\ sd_stop d = st0 /\ sd_entry d = e_id e /\
           exists a, stop_amount st0 (e_price e) = Some a /\ sd_value d = initial_stop_value st0 (e_price e) a)).
    { intros T H'. change (e_price e1) with (e_price e) in H'. change (e_id e1) with (e_id e) in H'.
      destruct (stop_amount st (e_price e)) as [a|] eqn:Ea; [|discriminate]. cbn zeta in H'. cbn in H'.
      set (v := initial_stop_value st (e_price e) a) in *.
      set (d0 := mkStopData v st (e_id e)) in *.
      set (cur := match aget (st_sym st) (p_active p) with Some l => l | None => [] end) in *.
      set (p1 := set_p_active _ _) in H'.
      assert (D1 : p_stop_data p1 = aset (st_id st) d0 (p_stop_data p)) by reflexivity.
      assert (A1 : p_active p1 = aset (st_sym st) (cur ++ [st_id st]) (p_active p)) by reflexivity.
      assert (HC : forall s, is_active p (st_sym st) s <-> In s cur).
      { intro id. unfold is_active, cur. destruct (aget (st_sym st) (p_active p)) as [l|].
        - split; [intros [l0 [E I]]; injection E as <-; auto|eauto].
        - split; [intros [l0 [E I]]; discriminate|intros []]. }
      assert (HR1 : RegInv p1).
      { destruct HR as [h1 h2 h3 h4]. constructor.
        - rewrite D1. now apply NoDup_aset.
        - rewrite A1. now apply NoDup_aset.
        - intros s l. rewrite A1, aget_aset. destruct (Nat.eqb_spec s (st_sym st)) as [->|Ns]; [|apply h3].
          intro E. injection E as <-. split; [|destruct cur; discriminate].
          apply NoDup_app_snoc.
          + unfold cur. destruct (aget (st_sym st) (p_active p)) as [l|] eqn:El; [|constructor].
            apply (h3 _ _ El).
          + intro I. apply HC in I. apply h4 in I. destruct I as [d [E _]]. congruence.
        - intros s id. rewrite D1, aget_aset.
          assert (EA : is_active p1 s id <-> if Nat.eqb s (st_sym st) then In id (cur ++ [st_id st]) else is_active p s id).
          { unfold is_active. rewrite A1, aget_aset. destruct (Nat.eqb s (st_sym st)); [|tauto].
            split; [intros [l [E I]]; injection E as <-; auto|eauto]. }
          rewrite EA. clear EA. destruct (Nat.eqb_spec s (st_sym st)) as [->|Ns].
          + rewrite in_app_iff, <- HC, (h4 _ id). cbn.
            destruct (Nat.eqb_spec id (st_id st)) as [->|Ni].
            * split; [intros _; exists d0; auto|auto].
            * split; [intros [Q|[Q|[]]]; [auto|congruence]|auto].
          + rewrite (h4 s id). destruct (Nat.eqb_spec id (st_id st)) as [->|Ni]; [|tauto].
            split; intros [d [E1 E2]]; [congruence|]. injection E1 as <-. cbn in E2. congruence. }
      destruct (IH _ _ _ _ HR1 H' Hr) as [I1 [I2 [I3 I4]]]. split; auto. split; [|split].
      - intros id d E. assert (Ni : id <> st_id st) by congruence.
        destruct (I2 id d) as [J1 J2].
        + now rewrite D1, aget_aset_neq by auto.
        + split; auto. intros [Q|Q]; [congruence|auto].
      - intros id d E. destruct (I3 _ _ E) as [J|[J1 [J2 J3]]].
        + rewrite D1, aget_aset in J. destruct (Nat.eqb_spec id (st_id st)) as [->|Ni]; [|auto].
          injection J as <-. right. cbn. auto.
        + right. cbn. auto.
      - intros st0 [<-|I] T0; [|apply (I4 st0 I T0)].
        destruct (I2 (st_id st) d0) as [J1 J2].
        + now rewrite D1, aget_aset_eq.
        + exists d0. split; auto. split; auto. split; auto. exists a. auto. }
    destruct (st_type st) eqn:T; [apply HB; auto|..]; apply HP; auto; discriminate.
Qed.

Lemma insert_stop_perm st l : Permutation (st :: l) (insert_stop st l).
Proof.
  induction l as [|x r IH]; cbn; auto. destruct (Nat.leb (st_id st) (st_id x)); auto.
  rewrite perm_swap. now constructor.
Qed.
Lemma sort_stops_perm l : Permutation l (sort_stops l).
Proof.
  induction l as [|x r IH]; cbn; auto. rewrite <- insert_stop_perm. now constructor.
Qed.

Lemma open_entries c sd date s shares fill ss p p' sd1 s1 :
  open_ok c sd date s shares fill ss p p' ->
  entries_of p' sd1 s1 =
  if side_eqb sd1 sd && Nat.eqb s1 s then entries_of p sd s ++ [new_entry sd date s shares fill ss p]
  else entries_of p sd1 s1.
Proof.
  intro HO. unfold entries_of. destruct (side_eqb sd1 sd) eqn:E; cbn.
  - apply side_eqb_eq in E. subst sd1. rewrite (op_poss _ _ _ _ _ _ _ _ _ HO), aget_aset.
    destruct (Nat.eqb s1 s); auto. rewrite opened_entries. reflexivity.
  - assert (sd1 = flip sd) as ->.
    { apply flip_neq. intros ->. rewrite side_eqb_refl in E. discriminate. }
    now rewrite (op_flip _ _ _ _ _ _ _ _ _ HO).
Qed.

Lemma stop_open c z sd date s shares fill ss p p' :
  Core z p -> StopInv p -> open_ok c sd date s shares fill ss p p' ->
  NoDup (map st_id ss) -> (forall st, In st ss -> st_sym st = s /\ st_pos st = sd) -> fresh ss p ->
  StopInv p'.
Proof.
  intros HC HS HO ND HW HF.
  set (e := new_entry sd date s shares fill ss p).
  assert (OW : forall sd1 s1 x, owns p' sd1 s1 x <-> owns p sd1 s1 x \/ (sd1 = sd /\ s1 = s /\ x = e)).
  { intros. rewrite !owns_entries, (open_entries _ _ _ _ _ _ _ _ _ _ _ HO).
    destruct (side_eqb sd1 sd && Nat.eqb s1 s) eqn:Eb.
    - apply andb_true_iff in Eb. destruct Eb as [E1 E2]. apply side_eqb_eq in E1. apply Nat.eqb_eq in E2.
      subst. rewrite in_app_iff. cbn. intuition.
    - split; auto. intros [I|[-> [-> ->]]]; auto. rewrite side_eqb_refl, Nat.eqb_refl in Eb. discriminate. }
  destruct (op_reg _ _ _ _ _ _ _ _ _ HO) as [q [e' [q' [Q1 [Q2 [HL [D A]]]]]]].
  destruct HS as [R O N U G H].
  assert (RQ : RegInv q) by (eapply reg_ext; eauto).
  destruct (add_stops_reg _ _ _ _ _ RQ HL ND) as [R' [I2 [I3 I4]]].
  rewrite Q1 in I2, I3. rewrite <- D in I2, I3. setoid_rewrite <- D in I4. cbn in I3, I4.
  constructor.
  - eapply reg_ext; eauto.
  - intros sd1 s1 x st Ho I. apply OW in Ho. destruct Ho as [Ho|[-> [-> ->]]]; eauto.
  - intros sd1 s1 x Ho. apply OW in Ho. destruct Ho as [Ho|[-> [-> ->]]]; eauto.
  - intros sd1 s1 x1 st1 sd2 s2 x2 st2 O1 J1 O2 J2 E.
    apply OW in O1, O2. destruct O1 as [O1|[-> [-> ->]]], O2 as [O2|[-> [-> ->]]]; eauto.
    + exfalso. eapply HF; eauto.
    + exfalso. symmetry in E. eapply HF; eauto.
  - intros id d E. destruct (I3 _ _ E) as [J|[J1 [J2 [J3 J4]]]].
    + destruct (G _ _ J) as [G1 [G2 [x [G3 [G4 G5]]]]]. split; auto. split; auto.
      exists x. split; auto. apply OW. auto.
    + split; auto. split; auto. destruct (HW _ J2) as [W1 W2]. exists e. rewrite W1, W2. split.
      * apply OW. auto.
      * split; auto.
  - intros sd1 s1 x st Ho I T. apply OW in Ho. destruct Ho as [Ho|[-> [-> ->]]].
    + destruct (H _ _ _ _ Ho I T) as [d [H1 [H2 H3]]]. exists d. split; auto. now apply I2.
    + destruct (I4 st I T) as [d [K1 [K2 [K3 _]]]]. exists d. auto.
Qed.
