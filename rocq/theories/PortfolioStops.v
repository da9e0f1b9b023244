(** [check_stops]: what it executes, and preservation of the invariants. *)
From Verif Require Export PortfolioReg PortfolioSpec.

Definition trip (v : ev) : side * sym * nat := (v_sd v, v_sym v, v_id v).

(** Why a stop fills at [m]: [val] looks up the level of a price stop. *)
Definition decides (sc : scope) (e : entry) (st : stop) (val : option Q) (m : Q) : Prop :=
  match st_type st with
  | SBar => trigger_bar_stop st sc e = TFill m
  | _ => exists v, val = Some v /\ trigger_price_stop st v sc = Some m
  end.

Record fires (sc : scope) (sm : slip_model) (p : port) (v : ev) : Prop := mkFires {
  fr_can : sc_can_price sc (v_sym v) = true;
  fr_own : owns p (v_sd v) (v_sym v) (v_entry v);
  fr_sym : st_sym (v_stop v) = v_sym v; fr_pos : st_pos (v_stop v) = v_sd v;
  fr_stop : In (v_stop v) (e_stops (v_entry v));
  fr_why : decides sc (v_entry v) (v_stop v) (level p (st_id (v_stop v))) (v_market v);
  fr_fill : v_fill v = slip_stop_fill sm (v_stop v) (v_entry v) (v_market v);
  fr_lim : rejected (v_stop v) (v_fill v) = false
}.

(** ** One stop *)
Inductive trig_res (c : cfg) (date : Z) (sc : scope) (sm : slip_model) (pos : position) (e : entry)
    (st : stop) (q : port) : res bool -> Prop :=
| TRraise q' x : x = EStop \/ x = EDiv -> trig_res c date sc sm pos e st q (Raise q' x)
| TRquiet : st_type st <> STrailing ->
    match st_type st with
    | SBar => trigger_bar_stop st sc e = TNone
    | _ => exists v, level q (st_id st) = Some v /\ trigger_price_stop st v sc = None
    end -> trig_res c date sc sm pos e st q (Ret q false)
| TRrej m : decides sc e st (level q (st_id st)) m ->
    rejected st (slip_stop_fill sm st e m) = true ->
    trig_res c date sc sm pos e st q (Ret q false)
| TRratchet d v : st_type st = STrailing -> aget (st_id st) (p_stop_data q) = Some d ->
    trigger_price_stop st (sd_value d) sc = None -> ratchet st (sd_value d) sc = Some v ->
    trig_res c date sc sm pos e st q
      (Ret (set_p_stop_data (aset (st_id st) (mkStopData v (sd_stop d) (sd_entry d)) (p_stop_data q)) q) false)
| TRfire m : decides sc e st (level q (st_id st)) m ->
    rejected st (slip_stop_fill sm st e m) = false ->
    let fill := slip_stop_fill sm st e m in
    let q1 := snd (exit_entry c (st_pos st) date pos e (e_shares e) fill (Some (st_type st)) q) in
    let q2 := fst (add_order c date (ps_sym pos) (exit_oside (st_pos st)) None (stop_order_type (st_type st))
              (match st_pos st with Long => SellToClose | Short => BuyToClose end)
              (e_shares e) (st_limit st) (Some m) fill q1) in
    trig_res c date sc sm pos e st q (Ret q2 true).

Lemma trigger_stop_cases c date sc sm pos e st q :
  aget (st_sym st) (poss (st_pos st) q) = Some pos ->
  trig_res c date sc sm pos e st q (trigger_stop c date sc sm pos e st q).
Proof.
  intro Hg. unfold trigger_stop. unfold ahas. rewrite Hg. cbn [negb].
  assert (HT : forall m, decides sc e st (level q (st_id st)) m ->
    trig_res c date sc sm pos e st q
      (let fill := slip_stop_fill sm st e m in
        if rejected st fill then Ret q false
        else if side_eqb (st_pos st) Short && Qis0 fill then Raise q EDiv
        else
          let '(pos, p) := exit_entry c (st_pos st) date pos e (e_shares e) fill (Some (st_type st)) q in
          let '(p, _) := add_order c date (ps_sym pos)
              (match st_pos st with Long => OSell | Short => OBuy end)
              None (stop_order_type (st_type st))
              (match st_pos st with Long => SellToClose | Short => BuyToClose end)
              (e_shares e) (st_limit st) (Some m) fill p in
          Ret p true)).
  { intros m Hm. cbn zeta. destruct (rejected st (slip_stop_fill sm st e m)) eqn:Er; [eapply TRrej; eauto|].
    destruct (side_eqb (st_pos st) Short && Qis0 (slip_stop_fill sm st e m)); [apply TRraise; auto|].
    destruct (exit_entry c (st_pos st) date pos e (e_shares e) (slip_stop_fill sm st e m) (Some (st_type st)) q)
      as [pos' q1] eqn:Ee.
    pose proof (TRfire c date sc sm pos e st q m Hm Er) as F. cbn zeta in F. rewrite Ee in F. cbn [snd] in F.
    assert (Hs : ps_sym pos' = ps_sym pos).
    { pose proof (exit_fst c (st_pos st) date pos e (e_shares e) (slip_stop_fill sm st e m) (Some (st_type st)) q) as X.
      rewrite Ee in X. cbn in X. rewrite X. apply exit_sym. }
    rewrite Hs. fold (exit_oside (st_pos st)).
    destruct (add_order c date (ps_sym pos) _ _ _ _ _ _ _ _ q1) as [q2 o]. exact F. }
  assert (L : forall d, aget (st_id st) (p_stop_data q) = Some d -> level q (st_id st) = Some (sd_value d)).
  { intros d E. unfold level. now rewrite E. }
  destruct (st_type st) eqn:T.
  - destruct (trigger_bar_stop st sc e) as [|m|] eqn:Eb.
    + apply TRquiet; rewrite T; auto. discriminate.
    + apply HT. unfold decides. now rewrite T.
    + apply TRraise. auto.
  - destruct (aget (st_id st) (p_stop_data q)) as [d|] eqn:Ed; [|apply TRraise; auto].
    destruct (trigger_price_stop st (sd_value d) sc) as [m|] eqn:Em.
    + apply HT. unfold decides. rewrite T. eauto.
    + apply TRquiet; rewrite T; [discriminate|]. eauto.
  - destruct (aget (st_id st) (p_stop_data q)) as [d|] eqn:Ed; [|apply TRraise; auto].
    destruct (trigger_price_stop st (sd_value d) sc) as [m|] eqn:Em.
    + apply HT. unfold decides. rewrite T. eauto.
    + apply TRquiet; rewrite T; [discriminate|]. eauto.
  - destruct (aget (st_id st) (p_stop_data q)) as [d|] eqn:Ed; [|apply TRraise; auto].
    destruct (trigger_price_stop st (sd_value d) sc) as [m|] eqn:Em.
    + apply HT. unfold decides. rewrite T. eauto.
    + destruct (ratchet st (sd_value d) sc) as [v|] eqn:Ev; [|apply TRraise; auto].
      eapply TRratchet; eauto.
Qed.

(** ** The loop invariant *)
Definition zero_if (z : list nat) (x : entry) : entry :=
  if nmem (e_id x) z then set_e_shares (e_shares x - e_shares x) x else x.

(** State components that [check_stops] leaves alone. *)
Record quiet_frame (p q : port) : Prop := mkQF {
  qf_bars : p_bars q = p_bars p; qf_accrued : p_accrued q = p_accrued p;
  qf_eid : p_entry_id q = p_entry_id p;
  qf_ml : p_max_long q = p_max_long p; qf_ms : p_max_short q = p_max_short p;
  qf_eq : p_equity q = p_equity p; qf_mv : p_mv q = p_mv p; qf_margin : p_margin q = p_margin p
}.
Lemma qf_refl p : quiet_frame p p. Proof. constructor; reflexivity. Qed.
Lemma qf_trans p q r : quiet_frame p q -> quiet_frame q r -> quiet_frame p r.
Proof. intros [] []. constructor; congruence. Qed.

Lemma exit_qf c sd date pos e sh fill stp p : quiet_frame p (snd (exit_entry c sd date pos e sh fill stp p)).
Proof.
  constructor; [apply exit_bars|apply exit_accrued|apply exit_entry_id|apply exit_caps|apply exit_caps
    |apply exit_equity|apply exit_mv|apply exit_margin].
Qed.
Lemma add_order_qf c date s o cr ot it sh l m f p : quiet_frame p (fst (add_order c date s o cr ot it sh l m f p)).
Proof.
  constructor; [apply add_order_bars|apply add_order_accrued|apply add_order_eid|apply add_order_caps
    |apply add_order_caps|apply add_order_marks|apply add_order_marks|apply add_order_marks].
Qed.

(** What an exit adds to the cash. *)
Definition ev_cash (c : cfg) (v : ev) : Q :=
  (if Qltb 1 (c_leverage c)
   then e_shares (v_entry v) * e_price (v_entry v) / c_leverage c + exit_pnl (v_sd v) (v_entry v) (e_shares (v_entry v)) (v_fill v)
   else e_shares (v_entry v) * e_price (v_entry v) + exit_pnl (v_sd v) (v_entry v) (e_shares (v_entry v)) (v_fill v))
  - calculate_fees c (v_sym v) (v_fill v) (e_shares (v_entry v)) (exit_oside (v_sd v)).

(** A stop that was looked at and did not exit its entry. *)
Definition held_back (sc : scope) (sm : slip_model) (e : entry) (st : stop) (val : option Q) : Prop :=
  (st_type st = SBar -> trigger_bar_stop st sc e <> TRaise) /\
  forall m, decides sc e st val m -> rejected st (slip_stop_fill sm st e m) = true.

(** The level after a stop was looked at and did not exit its entry. *)
Definition next_level (sc : scope) (st : stop) (v : Q) : option Q :=
  match st_type st, trigger_price_stop st v sc with
  | STrailing, None => ratchet st v sc
  | _, _ => Some v
  end.

Lemma core_z z z' p : (forall id, In id z' <-> In id z) -> Core z p -> Core z' p.
Proof.
  intros H [h1 h2 h3 h4 h5 h6 h7 h8]. constructor; auto.
  intros sd s pos Hg. eapply pos_ok_z; [|eauto]. auto.
Qed.

Lemma zero_if_snoc z i x : zero_if (z ++ [i]) x =
  if Nat.eqb (e_id x) i then set_e_shares (e_shares x - e_shares x) x else zero_if z x.
Proof.
  unfold zero_if, nmem. rewrite existsb_app. cbn. rewrite orb_false_r.
  destruct (existsb (Nat.eqb (e_id x)) z); cbn; destruct (Nat.eqb (e_id x) i); reflexivity.
Qed.

Section Loop.
  Variables (c : cfg) (date : Z) (sc : scope) (sm : slip_model) (p : port) (W : Prop).
  Hypothesis K : cfg_ok c.
  Hypothesis HCp : Core [] p.
  Hypothesis HW : W -> StopInv p.

  (** [done]: price stop ids already looked at; [doneb]: entries whose BAR
      stops were looked at; [evs]: the exits so far. *)
  Record LI (done doneb : list nat) (evs : list ev) (q : port) : Prop := mkLI {
    li_core : Core (ids evs) q; li_ne : nonempty_but None q; li_led : Led c dzero q;
    li_keys : forall sd, akeys (poss sd q) = akeys (poss sd p);
    li_ent : forall sd s, entries_of q sd s = map (zero_if (ids evs)) (entries_of p sd s);
    li_syms : p_symbols q = p_symbols p;
    li_frame : quiet_frame p q;
    li_act : p_active q = p_active p;
    li_sdk : akeys (p_stop_data q) = akeys (p_stop_data p);
    li_sds : forall id d, aget id (p_stop_data p) = Some d ->
       exists v, aget id (p_stop_data q) = Some (mkStopData v (sd_stop d) (sd_entry d));
    li_vals : W -> forall id, ~ In id done -> aget id (p_stop_data q) = aget id (p_stop_data p);
    li_orders : exists new, p_orders q = p_orders p ++ new /\ Forall2 (order_of c date) evs new;
    li_trades : exists new, p_trades q = p_trades p ++ new /\ Forall2 (trade_of date) evs new;
    li_nd : NoDup (ids evs);
    li_own : Forall (fun v => owns p (v_sd v) (v_sym v) (v_entry v)) evs;
    li_fires : W -> Forall (fires sc sm p) evs;
    li_done : W -> forall id d, In id done -> aget id (p_stop_data p) = Some d ->
       In (sd_entry d) (ids evs) \/
       (exists e, owns p (st_pos (sd_stop d)) (st_sym (sd_stop d)) e /\ e_id e = sd_entry d /\
          held_back sc sm e (sd_stop d) (Some (sd_value d)) /\
          exists v, next_level sc (sd_stop d) (sd_value d) = Some v /\
                    level q id = Some v);
    li_doneb : W -> forall sd s e, owns p sd s e -> In (e_id e) doneb ->
       In (e_id e) (ids evs) \/
       forall st, In st (e_stops e) -> st_type st = SBar -> held_back sc sm e st None;
    li_caches : evs <> [] -> p_clong q = None /\ p_cshort q = None;
    li_cash : p_cash q == p_cash p + Qsum (map (ev_cash c) evs)
  }.

  Hypothesis HNp : nonempty_but None p.
  Hypothesis HLp : Led c dzero p.

  Lemma LI_start : LI [] [] [] p.
  Proof.
    constructor; auto; try (intros _; intros; match goal with H : In _ [] |- _ => destruct H end).
    - intros sd s. unfold zero_if. cbn. now rewrite map_id.
    - apply qf_refl.
    - intros id d E. exists (sd_value d). rewrite E. now destruct d.
    - exists []. split; [now rewrite app_nil_r|constructor].
    - exists []. split; [now rewrite app_nil_r|constructor].
    - constructor.
    - congruence.
    - cbn. lra.
  Qed.

  Lemma zero_if_id z x : e_id (zero_if z x) = e_id x.
  Proof. unfold zero_if. destruct (nmem (e_id x) z); reflexivity. Qed.
  Lemma zero_if_stops z x : e_stops (zero_if z x) = e_stops x.
  Proof. unfold zero_if. destruct (nmem (e_id x) z); reflexivity. Qed.
  Lemma zero_if_out z x : ~ In (e_id x) z -> zero_if z x = x.
  Proof. intro N. unfold zero_if. apply nmem_notIn in N. now rewrite N. Qed.

  (** An entry that has not been exited is as it was. *)
  Lemma LI_entry done doneb evs q sd s e : LI done doneb evs q ->
    In e (entries_of q sd s) -> ~ In (e_id e) (ids evs) -> In e (entries_of p sd s).
  Proof.
    intros HL I N. rewrite (li_ent _ _ _ _ HL) in I. apply in_map_iff in I. destruct I as [x [E I]].
    assert (e_id x = e_id e) by (rewrite <- E; symmetry; apply zero_if_id).
    rewrite zero_if_out in E by congruence. now subst.
  Qed.

  (** A stop looked at without effect. *)
  Lemma LI_skip done doneb done' doneb' evs q :
    LI done doneb evs q ->
    (W -> forall id, In id done -> In id done') ->
    (W -> forall id d, In id done' -> ~ In id done -> aget id (p_stop_data p) = Some d ->
       In (sd_entry d) (ids evs) \/
       (exists e, owns p (st_pos (sd_stop d)) (st_sym (sd_stop d)) e /\ e_id e = sd_entry d /\
          held_back sc sm e (sd_stop d) (Some (sd_value d)) /\
          next_level sc (sd_stop d) (sd_value d) = Some (sd_value d))) ->
    (W -> forall sd s e, owns p sd s e -> In (e_id e) doneb' -> ~ In (e_id e) doneb ->
       In (e_id e) (ids evs) \/
       forall st, In st (e_stops e) -> st_type st = SBar -> held_back sc sm e st None) ->
    LI done' doneb' evs q.
  Proof.
    intros [] M D B. constructor; auto.
    - intros w id d I Hd. destruct (in_dec Nat.eq_dec id done) as [J|J]; [eauto|].
      destruct (D w id d) as [L|[e [L1 [L2 [L3 L4]]]]]; auto.
      right. exists e. split; auto. split; auto. split; auto. exists (sd_value d). split; auto.
      unfold level. rewrite (li_vals0 w id J), Hd. reflexivity.
    - intros w sd s e Ho I. destruct (in_dec Nat.eq_dec (e_id e) doneb) as [J|J]; eauto.
  Qed.

  (** A trailing stop ratchets. *)
  Lemma LI_ratchet done doneb evs q id d v :
    LI done doneb evs q -> (W -> ~ In id done) ->
    aget id (p_stop_data q) = Some d ->
    (W -> st_id (sd_stop d) = id -> In (sd_entry d) (ids evs) \/
       exists e, owns p (st_pos (sd_stop d)) (st_sym (sd_stop d)) e /\ e_id e = sd_entry d /\
          held_back sc sm e (sd_stop d) (Some (sd_value d)) /\
          next_level sc (sd_stop d) (sd_value d) = Some v) ->
    LI (id :: done) doneb evs
       (set_p_stop_data (aset id (mkStopData v (sd_stop d) (sd_entry d)) (p_stop_data q)) q).
  Proof.
    intros H ND Hd HD. set (q' := set_p_stop_data _ _).
    assert (Hin : In id (akeys (p_stop_data q))) by (eapply aget_Some_key; eauto).
    assert (HP : forall sd, poss sd q' = poss sd q) by (intros []; reflexivity).
    assert (SB : same_but_stops q q').
    { constructor; [constructor; try reflexivity; intros []; reflexivity|exact HP|reflexivity..]. }
    assert (D' : p_stop_data q' = aset id (mkStopData v (sd_stop d) (sd_entry d)) (p_stop_data q)) by reflexivity.
    destruct H. constructor; try assumption.
    - eapply core_sbs; eauto.
    - eapply led_sbs; eauto.
    - destruct li_frame0. constructor; auto.
    - rewrite D', akeys_aset_in; auto.
    - intros id' d' E. destruct (li_sds0 _ _ E) as [v' E']. rewrite D', aget_aset.
      destruct (Nat.eqb_spec id' id) as [->|Ni]; [|eauto]. rewrite Hd in E'. injection E' as ->.
      exists v. reflexivity.
    - intros w id' N. cbn in N. rewrite D', aget_aset_neq by intuition. apply li_vals0; auto; intuition.
    - intros w id' d' I E. cbn in I. destruct (Nat.eq_dec id' id) as [->|Ni].
      + assert (Eq : aget id (p_stop_data q) = aget id (p_stop_data p)) by (apply li_vals0; auto).
        assert (d = d') by congruence. subst d'.
        destruct (HD w) as [L|[e [L1 [L2 [L3 L4]]]]]; auto.
        { apply (si_reg _ (HW w) _ _ E). }
        right. exists e. split; auto. split; auto. split; auto. exists v. split; auto.
        unfold level. rewrite D', aget_aset_eq. reflexivity.
      + destruct I as [I|I]; [congruence|].
        destruct (li_done0 w id' d' I E) as [L|[e [L1 [L2 [L3 [v' [L4 L5]]]]]]]; auto.
        right. exists e. split; auto. split; auto. split; auto. exists v'. split; auto.
        unfold level. rewrite D', aget_aset_neq by auto. exact L5.
  Qed.

  (** A stop fires. *)
  Lemma LI_fire done doneb evs q sd s pos e st m it :
    LI done doneb evs q ->
    aget s (poss sd q) = Some pos -> In e (ps_entries pos) -> ~ In (e_id e) (ids evs) ->
    st_sym st = s -> st_pos st = sd ->
    let v := mkEv sd s e st m (slip_stop_fill sm st e m) in
    (W -> fires sc sm p v) ->
    let q1 := snd (exit_entry c sd date pos e (e_shares e) (v_fill v) (Some (st_type st)) q) in
    let q2 := fst (add_order c date (ps_sym pos) (exit_oside sd) None (stop_order_type (st_type st)) it
              (e_shares e) (st_limit st) (Some m) (v_fill v) q1) in
    LI done doneb (evs ++ [v]) q2.
  Proof.
    intros H Hg Ie Nz Hss Hsp v HFi q1 q2.
    pose proof (co_pos _ _ (li_core _ _ _ _ H) _ _ _ Hg) as Hok.
    pose proof (po_sym _ _ _ _ Hok) as Hs.
    pose proof (po_entries _ _ _ _ Hok e Ie) as Heok.
    assert (Hsh : 0 < e_shares e) by (now apply (eo_pos _ _ _ _ Heok)).
    assert (Hids : ids (evs ++ [v]) = ids evs ++ [e_id e]) by (unfold ids; rewrite map_app; reflexivity).
    assert (P1 : poss sd q1 = aset s (exit_pos pos e (e_shares e)) (poss sd q)).
    { unfold q1. rewrite exit_poss, Hs. reflexivity. }
    assert (P2 : poss (flip sd) q1 = poss (flip sd) q) by apply exit_poss_other.
    assert (PO : forall sd', poss sd' q2 = poss sd' q1) by (intro; apply add_order_poss).
    assert (Hp0 : In e (entries_of p sd s)).
    { eapply LI_entry; eauto. unfold entries_of. now rewrite Hg. }
    assert (Hin : In s (akeys (poss sd q))) by (eapply aget_Some_key; eauto).
    assert (C1 : Core (e_id e :: ids evs) q1).
    { eapply exit_core_full; eauto. apply (li_core _ _ _ _ H). }
    assert (L1 : Led c (dadd s (- sgn sd * e_shares e) dzero) q1).
    { eapply exit_led; eauto. apply (li_led _ _ _ _ H). }
    constructor.
    - apply add_order_core. eapply core_z; [|exact C1]. intro id. rewrite Hids, in_app_iff. cbn. tauto.
    - apply add_order_ne. eapply nonempty_update; [apply (li_ne _ _ _ _ H)|exact P1|exact P2|].
      right. rewrite exit_pos_entries. intro E. apply map_eq_nil in E. rewrite E in Ie. contradiction.
    - eapply led_delta; [|apply add_order_led; exact L1]. intro x.
      unfold dadd, dzero. rewrite Hs. destruct (Nat.eqb x s); [|lra]. destruct sd; cbn; lra.
    - intro sd'. rewrite PO. destruct (side_dec sd' sd) as [->|N].
      + rewrite P1, akeys_aset_in by auto. apply (li_keys _ _ _ _ H).
      + pose proof (flip_neq _ _ N) as ->. rewrite P2. apply (li_keys _ _ _ _ H).
    - intros sd' s'. rewrite Hids.
      destruct (side_dec sd' sd) as [->|Nsd]; [destruct (Nat.eq_dec s' s) as [->|Nss]|].
      + transitivity (ps_entries (exit_pos pos e (e_shares e))).
        { unfold entries_of. rewrite PO, P1, aget_aset_eq. reflexivity. }
        rewrite exit_pos_entries.
        assert (EQ : ps_entries pos = map (zero_if (ids evs)) (entries_of p sd s)).
        { rewrite <- (li_ent _ _ _ _ H). unfold entries_of. now rewrite Hg. }
        rewrite EQ. unfold upd_entry. rewrite map_map. apply map_ext_in. intros x Ix.
        rewrite zero_if_snoc, zero_if_id. destruct (Nat.eqb_spec (e_id x) (e_id e)) as [Ex|Nx]; [|reflexivity].
        assert (x = e) as ->.
        { eapply core_owns_inj; [exact HCp|apply owns_entries; exact Ix|apply owns_entries; exact Hp0|exact Ex]. }
        now rewrite zero_if_out by auto.
      + transitivity (entries_of q sd s').
        { unfold entries_of. rewrite PO, P1, aget_aset_neq by auto. reflexivity. }
        rewrite (li_ent _ _ _ _ H). apply map_ext_in. intros x Ix. rewrite zero_if_snoc.
        destruct (Nat.eqb_spec (e_id x) (e_id e)) as [Ex|Nx]; [|reflexivity]. exfalso. apply Nss.
        eapply core_owns_inj; [exact HCp|apply owns_entries; exact Ix|apply owns_entries; exact Hp0|exact Ex].
      + pose proof (flip_neq _ _ Nsd) as ->.
        transitivity (entries_of q (flip sd) s').
        { unfold entries_of. rewrite PO, P2. reflexivity. }
        rewrite (li_ent _ _ _ _ H). apply map_ext_in. intros x Ix. rewrite zero_if_snoc.
        destruct (Nat.eqb_spec (e_id x) (e_id e)) as [Ex|Nx]; [|reflexivity]. exfalso. apply Nsd.
        eapply core_owns_inj; [exact HCp|apply owns_entries; exact Ix|apply owns_entries; exact Hp0|exact Ex].
    - unfold q2. rewrite add_order_syms. unfold q1. rewrite exit_symbols. apply (li_syms _ _ _ _ H).
    - eapply qf_trans; [apply (li_frame _ _ _ _ H)|]. eapply qf_trans; [apply exit_qf|apply add_order_qf].
    - unfold q2. rewrite add_order_act. unfold q1. rewrite exit_active. apply (li_act _ _ _ _ H).
    - unfold q2. rewrite add_order_sd. unfold q1. rewrite exit_stop_data. apply (li_sdk _ _ _ _ H).
    - unfold q2. rewrite add_order_sd. unfold q1. rewrite exit_stop_data. apply (li_sds _ _ _ _ H).
    - unfold q2. rewrite add_order_sd. unfold q1. rewrite exit_stop_data. apply (li_vals _ _ _ _ H).
    - destruct (li_orders _ _ _ _ H) as [new [E F]]. unfold q2. rewrite add_order_orders.
      exists (new ++ [snd (add_order c date (ps_sym pos) (exit_oside sd) None (stop_order_type (st_type st)) it
              (e_shares e) (st_limit st) (Some m) (v_fill v) q1)]).
      unfold q1 at 1. rewrite exit_orders, E, app_assoc. split; auto.
      apply Forall2_app; auto. constructor; [|constructor]. rewrite add_order_rec. rewrite Hs. constructor; reflexivity.
    - destruct (li_trades _ _ _ _ H) as [new [E F]]. unfold q2. rewrite add_order_trades. unfold q1.
      rewrite exit_trades, E, <- app_assoc.
      exists (new ++ [exit_trade sd date e (e_shares e) (v_fill v) (Some (st_type st)) q]). split; auto.
      apply Forall2_app; auto. constructor; [|constructor].
      constructor; try reflexivity; cbn; apply Heok.
    - rewrite Hids. apply NoDup_app_snoc; auto. apply (li_nd _ _ _ _ H).
    - apply Forall_app. split; [apply (li_own _ _ _ _ H)|]. constructor; [|constructor].
      cbn. now apply owns_entries.
    - intro w. apply Forall_app. split; [now apply (li_fires _ _ _ _ H)|]. constructor; auto.
    - intros w id d I E. destruct (li_done _ _ _ _ H w id d I E) as [L|[x [X1 [X2 [X3 [u [X4 X5]]]]]]].
      + left. rewrite Hids, in_app_iff. auto.
      + right. exists x. split; auto. split; auto. split; auto. exists u. split; auto.
        unfold level, q2. rewrite add_order_sd. unfold q1. rewrite exit_stop_data. exact X5.
    - intros w sd' s' x Ho I. destruct (li_doneb _ _ _ _ H w sd' s' x Ho I) as [L|L]; auto.
      left. rewrite Hids, in_app_iff. auto.
    - intros _. unfold q2. destruct (add_order_caches c date (ps_sym pos) (exit_oside sd) None
        (stop_order_type (st_type st)) it (e_shares e) (st_limit st) (Some m) (v_fill v) q1) as [-> ->].
      apply exit_caches.
    - rewrite map_app, Qsum_app. cbn [map Qsum fold_right]. unfold q2. rewrite add_order_cash. unfold q1. rewrite exit_cash.
      rewrite (li_cash _ _ _ _ H). unfold ev_cash. cbn [v_sd v_sym v_entry v_fill v]. rewrite Hs. lra.
  Qed.

  Lemma is_triggered_ids eid evs : is_triggered eid (map trip evs) = true <-> In eid (ids evs).
  Proof.
    unfold is_triggered, ids. rewrite existsb_exists. split.
    - intros [x [I E]]. apply in_map_iff in I. destruct I as [v [<- I]]. apply Nat.eqb_eq in E. cbn in E.
      subst. now apply in_map.
    - intro I. apply in_map_iff in I. destruct I as [v [<- I]]. exists (trip v). split; [now apply in_map|].
      cbn. apply Nat.eqb_refl.
  Qed.

  Lemma find_entry_In eid es e : find_entry eid es = Some e -> In e es /\ e_id e = eid.
  Proof.
    unfold find_entry. intro H. apply find_some in H. destruct H as [I E]. apply Nat.eqb_eq in E. auto.
  Qed.

  (** Exceptions of the loops: never [EInput], and never an inconsistency of the registries. *)
  Definition clean (x : exn) : Prop := x <> EInput /\ (W -> x <> EModel).

  Lemma find_entry_some e es : In e es -> find_entry (e_id e) es <> None.
  Proof.
    unfold find_entry. intros I H. pose proof (find_none _ _ H e I) as X. cbn in X.
    rewrite Nat.eqb_refl in X. discriminate.
  Qed.

  Lemma LI_find done doneb evs q sd s e : LI done doneb evs q -> owns p sd s e -> ~ In (e_id e) (ids evs) ->
    exists pos, aget s (poss sd q) = Some pos /\ In e (ps_entries pos).
  Proof.
    intros H Ho N. apply owns_entries in Ho.
    assert (I : In e (entries_of q sd s)).
    { rewrite (li_ent _ _ _ _ H). apply in_map_iff. exists e. split; auto. now apply zero_if_out. }
    now apply owns_entries in I.
  Qed.

  Lemma decides_fun e st v m1 m2 : decides sc e st v m1 -> decides sc e st v m2 -> m1 = m2.
  Proof.
    unfold decides. destruct (st_type st); [congruence|..];
    intros [v1 [E1 T1]] [v2 [E2 T2]]; congruence.
  Qed.

  Lemma check_price_stop_LI done doneb evs q s id :
    LI done doneb evs q -> sc_can_price sc s = true -> (W -> ~ In id done) ->
    (W -> exists d, aget id (p_stop_data p) = Some d /\ st_sym (sd_stop d) = s) ->
    match check_price_stop c date sc sm s id (Ret q (map trip evs)) with
    | Ret q' ex' => exists evs', ex' = map trip evs' /\ LI (id :: done) doneb evs' q'
    | Raise _ x => clean x
    end.
  Proof.
    intros H Hcan ND HX. cbn [check_price_stop].
    assert (HS : W -> forall d, aget id (p_stop_data p) = Some d -> st_sym (sd_stop d) = s).
    { intros w d E. destruct (HX w) as [d' [E1 E2]]. congruence. }
    destruct (aget id (p_stop_data q)) as [d|] eqn:Hd.
    2:{ split; [discriminate|]. intro w. exfalso. destruct (HX w) as [d' [E1 E2]].
        rewrite (li_vals _ _ _ _ H w id) in Hd; auto. congruence. }
    assert (Hdp : W -> aget id (p_stop_data p) = Some d).
    { intro w. rewrite <- (li_vals _ _ _ _ H w id); auto. }
    destruct (is_triggered (sd_entry d) (map trip evs)) eqn:Et.
    { apply is_triggered_ids in Et. exists evs. split; auto. eapply LI_skip; [exact H|cbn; auto| |].
      - intros w id' d' [<-|I] N E; [|tauto]. rewrite (Hdp w) in E. injection E as <-. auto.
      - intros w sd s' e Ho I N. tauto. }
    assert (Nt : ~ In (sd_entry d) (ids evs)).
    { intro I. apply is_triggered_ids in I. congruence. }
    destruct (aget s (poss (st_pos (sd_stop d)) q)) as [pos|] eqn:Hg.
    2:{ exists evs. split; auto. eapply LI_skip; [exact H|cbn; auto| |].
        - intros w id' d' [<-|I] N E; [|tauto]. exfalso.
          rewrite (Hdp w) in E. injection E as <-.
          destruct (si_reg _ (HW w) _ _ (Hdp w)) as [_ [_ [e [[pos [Ho _]] _]]]].
          rewrite (HS w _ (Hdp w)) in Ho. apply aget_None in Hg. apply Hg.
          rewrite (li_keys _ _ _ _ H). eapply aget_Some_key; eauto.
        - intros w sd s' e Ho I N. tauto. }
    destruct (find_entry (sd_entry d) (ps_entries pos)) as [e|] eqn:Hf.
    2:{ split; [discriminate|]. intro w. exfalso.
        destruct (si_reg _ (HW w) _ _ (Hdp w)) as [_ [_ [e [Ho [E _]]]]].
        rewrite (HS w _ (Hdp w)) in Ho.
        destruct (LI_find _ _ _ _ _ _ _ H Ho) as [pos' [G1 G2]]; [congruence|].
        rewrite Hg in G1. injection G1 as <-. rewrite <- E in Hf. now apply find_entry_some in Hf. }
    apply find_entry_In in Hf. destruct Hf as [Ie Eid].
    destruct (Nat.eqb_spec (st_sym (sd_stop d)) s) as [Hss|]; cbn [negb].
    2:{ split; [discriminate|]. intro w. exfalso. auto. }
    set (st := sd_stop d) in *.
    assert (Hoe : owns p (st_pos st) s e).
    { apply owns_entries. eapply LI_entry; [exact H| |now rewrite Eid]. unfold entries_of. now rewrite Hg. }
    assert (HWf : W -> st_id st = id /\ st_type st <> SBar /\ In st (e_stops e)).
    { intro w. destruct (si_reg _ (HW w) _ _ (Hdp w)) as [G1 [G2 [e0 [G3 [G4 G5]]]]].
      split; auto. split; auto. fold st in G3, G5. rewrite Hss in G3.
      destruct (core_owns_inj _ _ _ _ _ _ _ _ HCp G3 Hoe) as [_ [_ ->]]; auto. congruence. }
    assert (Hlev : W -> level q (st_id st) = Some (sd_value d) /\ level p (st_id st) = Some (sd_value d)).
    { intro w. destruct (HWf w) as [-> _]. unfold level. now rewrite Hd, (Hdp w). }
    assert (Hback : forall held : held_back sc sm e st (Some (sd_value d)) -> next_level sc st (sd_value d) = Some (sd_value d) -> Prop, True) by auto.
    clear Hback.
    assert (SK : (W -> held_back sc sm e st (Some (sd_value d)) /\ next_level sc st (sd_value d) = Some (sd_value d)) ->
      LI (id :: done) doneb evs q).
    { intro HB. eapply LI_skip; [exact H|cbn; auto| |].
      - intros w id' d' [<-|I] N E; [|tauto]. rewrite (Hdp w) in E. injection E as <-.
        right. exists e. fold st. rewrite Hss. destruct (HB w). auto.
      - intros w sd s' x Ho I N. tauto. }
    rewrite <- Hss in Hg at 1.
    pose proof (trigger_stop_cases c date sc sm pos e st q Hg) as HT.
    destruct (trigger_stop c date sc sm pos e st q) as [q' b|q' x] eqn:Ets;
      inversion HT as [q0 x0 Hx|Nt' Hq|m Hm Hr|d' v T Hd' Htr Hra|m Hm Hr q1 q2 Eq]; subst.
    - (* quiet *)
      exists evs. split; auto. apply SK. intro w. destruct (HWf w) as [F1 [F2 F3]]. destruct (Hlev w) as [L1 L2].
      rewrite L1 in Hq. unfold held_back, decides, next_level.
      destruct (st_type st); try congruence;
      destruct Hq as [v [Ev Tv]]; injection Ev as <-; rewrite ?Tv; (split; [split; [discriminate|]|reflexivity]);
      intros m [v [Ev Tm]]; injection Ev as <-; congruence.
    - (* rejected *)
      exists evs. split; auto. apply SK. intro w. destruct (HWf w) as [F1 [F2 F3]]. destruct (Hlev w) as [L1 L2].
      rewrite L1 in Hm. split.
      + split; [congruence|]. intros m' Hm'. now rewrite (decides_fun _ _ _ _ _ Hm' Hm).
      + unfold next_level. unfold decides in Hm. destruct (st_type st); try reflexivity.
        destruct Hm as [v [Ev Tv]]. injection Ev as <-. now rewrite Tv.
    - (* ratchet *)
      exists evs. split; auto. eapply LI_skip; [apply (LI_ratchet done doneb evs q (st_id st) d' v H)| | |].
      + intro w. destruct (HWf w) as [-> _]. auto.
      + auto.
      + intros w Hid. destruct (HWf w) as [F1 [F2 F3]]. rewrite F1, Hd in Hd'. injection Hd' as <-. fold st.
        right. exists e. split; auto. split; auto. split.
        * split; [congruence|]. intros m Hm. unfold decides in Hm. rewrite T in Hm. destruct Hm as [v' [Ev Tv]].
          injection Ev as <-. congruence.
        * unfold next_level. now rewrite T, Htr.
      + intros w i. destruct (HWf w) as [-> _]. auto.
      + intros w i d2. destruct (HWf w) as [-> _]. tauto.
      + intros w sd s' x Ho I N. tauto.
    - (* fires *)
      exists (evs ++ [mkEv (st_pos st) (st_sym st) e st m (slip_stop_fill sm st e m)]). split.
      { rewrite map_app. cbn. unfold trip, v_id. cbn. now rewrite Eid. }
      eapply LI_skip.
      + eapply LI_fire; eauto.
        * now rewrite Eid.
        * intro w. destruct (HWf w) as [F1 [F2 F3]]. destruct (Hlev w) as [L1 L2].
          constructor; cbn; auto. now rewrite L2, <- L1.
      + cbn. auto.
      + intros w id' d2 [<-|I] N E; [|tauto]. rewrite (Hdp w) in E. injection E as <-.
        left. unfold ids. rewrite map_app, in_app_iff. cbn. right. left. unfold v_id. cbn. auto.
      + intros w sd s' x Ho I N. tauto.
    - destruct Hx as [-> | ->]; split; discriminate.
  Qed.

  Lemma cps_raise s l q x : fold_left (fun st id => check_price_stop c date sc sm s id st) l (Raise q x) = Raise q x.
  Proof. induction l; cbn; auto. Qed.

  Lemma price_ids_LI s : sc_can_price sc s = true -> forall l done doneb evs q,
    LI done doneb evs q -> (W -> NoDup l) -> (W -> forall id, In id l -> ~ In id done) ->
    (W -> forall id, In id l -> exists d, aget id (p_stop_data p) = Some d /\ st_sym (sd_stop d) = s) ->
    match fold_left (fun st id => check_price_stop c date sc sm s id st) l (Ret q (map trip evs)) with
    | Ret q' ex' => exists evs', ex' = map trip evs' /\ LI (rev l ++ done) doneb evs' q'
    | Raise _ x => clean x
    end.
  Proof.
    intros Hcan. induction l as [|id l IH]; intros done doneb evs q H ND DJ HS.
    { cbn. eauto. }
    cbn [fold_left].
    pose proof (check_price_stop_LI done doneb evs q s id H Hcan) as S.
    destruct (check_price_stop c date sc sm s id (Ret q (map trip evs))) as [q' ex'|q' x].
    2:{ rewrite cps_raise. apply S; intros w; [apply (DJ w); cbn; auto|apply (HS w); cbn; auto]. }
    destruct S as [evs' [-> H']].
    { intro w. apply (DJ w). cbn; auto. }
    { intros w. apply (HS w). cbn; auto. }
    cbn [rev]. rewrite <- app_assoc. apply IH; auto.
    - intro w. specialize (ND w). inversion ND; auto.
    - intros w i Hi [<-|J]; [specialize (ND w); inversion ND; auto|]. apply (DJ w i); cbn; auto.
    - intros w i Hi. apply (HS w). cbn; auto.
  Qed.

  Lemma price_loop_raise l q x : price_loop c date sc sm l (Raise q x) = Raise q x.
  Proof.
    unfold price_loop. induction l as [|kv l IH]; cbn; auto.
    destruct (sc_can_price sc (fst kv)); auto. now rewrite cps_raise.
  Qed.

  Lemma price_loop_LI : forall l done doneb evs q,
    LI done doneb evs q ->
    (W -> forall s ll id, In (s, ll) l -> In id ll -> exists d, aget id (p_stop_data p) = Some d /\ st_sym (sd_stop d) = s) ->
    (W -> forall s ll, In (s, ll) l -> NoDup ll) -> (W -> NoDup (akeys l)) ->
    (W -> forall id d, In id done -> aget id (p_stop_data p) = Some d -> ~ In (st_sym (sd_stop d)) (akeys l)) ->
    match price_loop c date sc sm l (Ret q (map trip evs)) with
    | Ret q' ex' => exists evs' done', ex' = map trip evs' /\ LI done' doneb evs' q' /\
        (forall id, In id done -> In id done') /\
        (forall s ll id, In (s, ll) l -> sc_can_price sc s = true -> In id ll -> In id done') /\
        (W -> forall id, In id done' -> In id done \/ exists s ll, In (s, ll) l /\ sc_can_price sc s = true /\ In id ll)
    | Raise _ x => clean x
    end.
  Proof.
    induction l as [|[s ll] l IH]; intros done doneb evs q H R ND NK DJ.
    { cbn. exists evs, done. split; auto. split; auto. split; auto. split; auto. intros s ll id []. }
    change (price_loop c date sc sm ((s, ll) :: l) (Ret q (map trip evs))) with
      (price_loop c date sc sm l (if sc_can_price sc s
        then fold_left (fun st id => check_price_stop c date sc sm s id st) ll (Ret q (map trip evs))
        else Ret q (map trip evs))).
    destruct (sc_can_price sc s) eqn:Hcan.
    - pose proof (price_ids_LI s Hcan ll done doneb evs q H) as S.
      assert (A1 : W -> NoDup ll) by (intro w; apply (ND w s); cbn; auto).
      assert (A2 : W -> forall id, In id ll -> ~ In id done).
      { intros w id I J. destruct (R w s ll id) as [d [Hd Es]]; cbn; auto.
        apply (DJ w id d J Hd). rewrite Es. cbn. auto. }
      assert (A3 : W -> forall id d, In id ll -> aget id (p_stop_data p) = Some d -> st_sym (sd_stop d) = s).
      { intros w id d I Hd. destruct (R w s ll id) as [d' [Hd' Es]]; cbn; auto. congruence. }
      specialize (S A1 A2 (fun w id I => R w s ll id (or_introl eq_refl) I)).
      destruct (fold_left (fun st id => check_price_stop c date sc sm s id st) ll (Ret q (map trip evs))) as [q' ex'|q' x].
      2:{ now rewrite price_loop_raise. }
      destruct S as [evs' [-> H']].
      specialize (IH (rev ll ++ done) doneb evs' q' H').
      destruct (price_loop c date sc sm l _) as [q2 ex2|q2 x].
      + destruct IH as [evs2 [done2 [-> [H2 [I1 [I2 I3]]]]]].
        * intros w s' ll' id I. apply (R w). cbn; auto.
        * intros w s' ll' I. apply (ND w s'). cbn; auto.
        * intro w. specialize (NK w). now inversion NK.
        * intros w id d I Hd J. apply in_app_iff in I. destruct I as [I|I].
          -- apply in_rev in I. rewrite (A3 w id d I Hd) in J. specialize (NK w). now inversion NK.
          -- apply (DJ w id d I Hd). cbn; auto.
        * exists evs2, done2. split; auto. split; auto. split; [|split].
          -- intros id I. apply I1. apply in_app_iff; auto.
          -- intros s' ll' id [E|I] C' J; [|eauto]. injection E as <- <-. apply I1. apply in_app_iff. left.
             now apply -> in_rev.
          -- intros w id I. destruct (I3 w id I) as [J|[s' [l' [J1 [J2 J3]]]]].
             ++ apply in_app_iff in J. destruct J as [J|J]; auto. right. exists s, ll. cbn.
                apply in_rev in J. auto.
             ++ right. exists s', l'. cbn. auto.
      + apply IH.
        * intros w s' ll' id I. apply (R w). cbn; auto.
        * intros w s' ll' I. apply (ND w s'). cbn; auto.
        * intro w. specialize (NK w). now inversion NK.
        * intros w id d I Hd J. apply in_app_iff in I. destruct I as [I|I].
          -- apply in_rev in I. rewrite (A3 w id d I Hd) in J. specialize (NK w). now inversion NK.
          -- apply (DJ w id d I Hd). cbn; auto.
    - specialize (IH done doneb evs q H).
      destruct (price_loop c date sc sm l _) as [q2 ex2|q2 x].
      + destruct IH as [evs2 [done2 [-> [H2 [I1 [I2 I3]]]]]].
        * intros w s' ll' id I. apply (R w). cbn; auto.
        * intros w s' ll' I. apply (ND w s'). cbn; auto.
        * intro w. specialize (NK w). now inversion NK.
        * intros w id d I Hd J. apply (DJ w id d I Hd). cbn; auto.
        * exists evs2, done2. split; auto. split; auto. split; [|split]; auto.
          -- intros s' ll' id [E|I] C' J; [|eauto]. injection E as <- <-. congruence.
          -- intros w id I. destruct (I3 w id I) as [J|[s' [l' [J1 [J2 J3]]]]]; auto.
             right. exists s', l'. cbn. auto.
      + apply IH.
        * intros w s' ll' id I. apply (R w). cbn; auto.
        * intros w s' ll' I. apply (ND w s'). cbn; auto.
        * intro w. specialize (NK w). now inversion NK.
        * intros w id d I Hd J. apply (DJ w id d I Hd). cbn; auto.
  Qed.

  (** The BAR stops of one entry. *)
  Lemma bar_stops_LI sd s x : sc_can_price sc s = true -> forall ss done doneb evs q,
    LI done doneb evs q -> ~ In (e_id x) (ids evs) ->
    owns p sd s x -> (W -> incl ss (e_stops x)) ->
    match bar_stops_loop c date sc sm sd s (e_id x) ss (Ret q (map trip evs)) with
    | Ret q' ex' => exists evs', ex' = map trip evs' /\ LI done doneb evs' q' /\
        (In (e_id x) (ids evs') \/
         (W -> forall st, In st ss -> st_type st = SBar -> held_back sc sm x st None))
    | Raise _ y => clean y
    end.
  Proof.
    intro Hcan. induction ss as [|st ss IH]; intros done doneb evs q H Nx Ho HI.
    { cbn. exists evs. split; auto. split; auto. right. intros _ st []. }
    assert (IH0 : match bar_stops_loop c date sc sm sd s (e_id x) ss (Ret q (map trip evs)) with
      | Ret q' ex' => exists evs', ex' = map trip evs' /\ LI done doneb evs' q' /\
          (In (e_id x) (ids evs') \/
           (W -> forall st, In st ss -> st_type st = SBar -> held_back sc sm x st None))
      | Raise _ y => clean y
      end).
    { apply IH; auto. intros w y Iy. apply (HI w). cbn; auto. }
    cbn [bar_stops_loop].
    assert (HB : (W -> st_type st = SBar -> held_back sc sm x st None) ->
      match bar_stops_loop c date sc sm sd s (e_id x) ss (Ret q (map trip evs)) with
      | Ret q' ex' => exists evs', ex' = map trip evs' /\ LI done doneb evs' q' /\
          (In (e_id x) (ids evs') \/
           (W -> forall st', In st' (st :: ss) -> st_type st' = SBar -> held_back sc sm x st' None))
      | Raise _ y => clean y
      end).
    { intro Hb. destruct (bar_stops_loop _ _ _ _ _ _ _ _ _) as [q' ex'|q' y]; auto.
      destruct IH0 as [evs' [-> [H' [I|I]]]]; exists evs'; split; auto; split; auto.
      right. intros w st' [<-|J] T; auto. }
    destruct (st_type st) eqn:T; try (apply HB; intros; discriminate).
    destruct (LI_find _ _ _ _ _ _ _ H Ho Nx) as [pos [Hg Ix]]. rewrite Hg.
    destruct (find_entry (e_id x) (ps_entries pos)) as [e|] eqn:Hf; [|now apply find_entry_some in Hf].
    apply find_entry_In in Hf. destruct Hf as [Ie Eid].
    assert (Hp0 : In e (entries_of p sd s)).
    { eapply LI_entry; [exact H|unfold entries_of; now rewrite Hg|now rewrite Eid]. }
    assert (e = x) as ->.
    { eapply core_owns_inj; [exact HCp|apply owns_entries; exact Hp0|exact Ho|exact Eid]. }
    destruct (Nat.eqb_spec (st_sym st) s) as [Hss|]; cbn [negb andb].
    2:{ split; [discriminate|]. intro w. exfalso. apply n. apply (si_own _ (HW w) sd s x st Ho). apply (HI w). cbn; auto. }
    destruct (side_eqb (st_pos st) sd) eqn:Hsp; cbn [negb].
    2:{ split; [discriminate|]. intro w. exfalso. destruct (si_own _ (HW w) sd s x st Ho) as [_ E]; [apply (HI w); cbn; auto|].
        rewrite E, side_eqb_refl in Hsp. discriminate. }
    assert (Hps : st_pos st = sd) by (destruct (st_pos st), sd; cbn in Hsp; congruence).
    pose proof Hg as Hg'. rewrite <- Hss, <- Hps in Hg'.
    pose proof (trigger_stop_cases c date sc sm pos x st q Hg') as HT.
    destruct (trigger_stop c date sc sm pos x st q) as [q' b|q' y] eqn:Ets;
      inversion HT as [q0 x0 Hx|Nt' Hq|m Hm Hr|d' v Tt Hd' Htr Hra|m Hm Hr q1 q2 Eq]; subst.
    - apply HB. intros _ _. rewrite T in Hq. split; [congruence|]. intros m Hm. unfold decides in Hm. rewrite T in Hm. congruence.
    - apply HB. intros _ _. split; [intros _; unfold decides in Hm; rewrite T in Hm; congruence|].
      intros m' Hm'. unfold decides in Hm, Hm'. rewrite T in Hm, Hm'.
      rewrite Hm in Hm'. injection Hm' as <-. exact Hr.
    - congruence.
    - exists (evs ++ [mkEv (st_pos st) (st_sym st) x st m (slip_stop_fill sm st x m)]). split.
      { rewrite map_app. reflexivity. }
      split.
      + eapply LI_fire; eauto.
        intro w. constructor; cbn; auto.
        * apply (HI w). cbn; auto.
        * unfold decides in Hm |- *. rewrite T in Hm |- *. exact Hm.
      + left. unfold ids. rewrite map_app, in_app_iff. right. cbn. auto.
    - destruct Hx as [-> | ->]; split; discriminate.
  Qed.

  Definition like (sd : side) (s : sym) (es : list entry) : Prop :=
    forall y, In y es -> exists x, owns p sd s x /\ same_stops x y.

  Lemma bel_raise sd s es q y : bar_entries_loop c date sc sm sd s es (Raise q y) = Raise q y.
  Proof. unfold bar_entries_loop. induction es; cbn; auto. Qed.

  Lemma bar_entries_LI sd s : sc_can_price sc s = true -> forall es done doneb evs q,
    LI done doneb evs q -> like sd s es ->
    match bar_entries_loop c date sc sm sd s es (Ret q (map trip evs)) with
    | Ret q' ex' => exists evs', ex' = map trip evs' /\ LI done (map e_id es ++ doneb) evs' q'
    | Raise _ y => clean y
    end.
  Proof.
    intro Hcan. induction es as [|y es IH]; intros done doneb evs q H HL.
    { cbn. eauto. }
    assert (HL' : like sd s es) by (intros z I; apply HL; cbn; auto).
    destruct (HL y) as [x [Ho [Eid Est]]]; [cbn; auto|].
    assert (LISK : forall evs1 q1, LI done doneb evs1 q1 ->
      (W -> In (e_id x) (ids evs1) \/ forall st, In st (e_stops x) -> st_type st = SBar -> held_back sc sm x st None) ->
      match bar_entries_loop c date sc sm sd s es (Ret q1 (map trip evs1)) with
      | Ret q' ex' => exists evs', ex' = map trip evs' /\ LI done (e_id y :: map e_id es ++ doneb) evs' q'
      | Raise _ y => clean y
      end).
    { intros evs1 q1 H1 HB.
      specialize (IH done (e_id y :: doneb) evs1 q1).
      destruct (bar_entries_loop c date sc sm sd s es (Ret q1 (map trip evs1))) as [q' ex'|q' z].
      - destruct IH as [evs' [-> H']]; auto.
        + eapply LI_skip; [exact H1|auto|intros; tauto|].
          intros w sd' s' e Hoe [I|I] N; [|tauto].
          assert (e = x) as -> by (eapply core_owns_inj; [exact HCp|eauto|eauto|congruence]). auto.
        + exists evs'. split; auto. eapply LI_skip; [exact H'|auto|intros; tauto|].
          intros w sd' s' e Hoe I N. exfalso. apply N. rewrite in_app_iff in *. cbn in *. rewrite in_app_iff in I. tauto.
      - apply IH; auto.
        eapply LI_skip; [exact H1|auto|intros; tauto|].
        intros w sd' s' e Hoe [I|I] N; [|tauto].
        assert (e = x) as -> by (eapply core_owns_inj; [exact HCp|eauto|eauto|congruence]). auto. }
    change (bar_entries_loop c date sc sm sd s (y :: es) (Ret q (map trip evs))) with
      (bar_entries_loop c date sc sm sd s es
        (if is_triggered (e_id y) (map trip evs) then Ret q (map trip evs)
         else bar_stops_loop c date sc sm sd s (e_id y) (e_stops y) (Ret q (map trip evs)))).
    destruct (is_triggered (e_id y) (map trip evs)) eqn:Et.
    - apply is_triggered_ids in Et. apply LISK; auto. intro w. left. congruence.
    - assert (Nx : ~ In (e_id x) (ids evs)).
      { intro I. rewrite <- Eid in I. apply is_triggered_ids in I. congruence. }
      pose proof (bar_stops_LI sd s x Hcan (e_stops y) done doneb evs q H Nx Ho) as S.
      rewrite Eid.
      destruct (bar_stops_loop c date sc sm sd s (e_id x) (e_stops y) (Ret q (map trip evs))) as [q1 ex1|q1 z].
      + destruct S as [evs1 [-> [H1 HB]]].
        { intros w st. now rewrite Est. }
        cbn [map]. apply LISK; auto. intro w. destruct HB as [HB|HB]; auto.
        right. intros st I. apply (HB w). now rewrite Est.
      + rewrite bel_raise. apply S. intros w st. now rewrite Est.
  Qed.

  Lemma bl_raise sd l q y : bar_loop c date sc sm sd l (Raise q y) = Raise q y.
  Proof.
    unfold bar_loop. induction l as [|kv l IH]; cbn; auto.
    destruct (sc_can_price sc (ps_sym (snd kv))); auto. now rewrite bel_raise.
  Qed.

  Lemma bar_loop_LI sd : forall l done doneb evs q,
    LI done doneb evs q ->
    (forall s pos, In (s, pos) l -> ps_sym pos = s /\ like sd s (ps_entries pos)) ->
    match bar_loop c date sc sm sd l (Ret q (map trip evs)) with
    | Ret q' ex' => exists evs' doneb', ex' = map trip evs' /\ LI done doneb' evs' q' /\
        incl doneb doneb' /\
        forall s pos, In (s, pos) l -> sc_can_price sc s = true -> incl (map e_id (ps_entries pos)) doneb'
    | Raise _ y => clean y
    end.
  Proof.
    induction l as [|[s pos] l IH]; intros done doneb evs q H HL.
    { cbn. exists evs, doneb. split; auto. split; auto. split; [apply incl_refl|]. intros s pos []. }
    destruct (HL s pos) as [Es Hl]; [cbn; auto|].
    assert (HL' : forall s0 pos0, In (s0, pos0) l -> ps_sym pos0 = s0 /\ like sd s0 (ps_entries pos0))
      by (intros; apply HL; cbn; auto).
    change (bar_loop c date sc sm sd ((s, pos) :: l) (Ret q (map trip evs))) with
      (bar_loop c date sc sm sd l
        (if sc_can_price sc (ps_sym pos) then bar_entries_loop c date sc sm sd s (ps_entries pos) (Ret q (map trip evs))
         else Ret q (map trip evs))).
    rewrite Es. destruct (sc_can_price sc s) eqn:Hcan.
    - pose proof (bar_entries_LI sd s Hcan (ps_entries pos) done doneb evs q H Hl) as S.
      destruct (bar_entries_loop c date sc sm sd s (ps_entries pos) (Ret q (map trip evs))) as [q1 ex1|q1 y].
      2:{ now rewrite bl_raise. }
      destruct S as [evs1 [-> H1]].
      specialize (IH done (map e_id (ps_entries pos) ++ doneb) evs1 q1 H1 HL').
      unfold executed in *.
      destruct (bar_loop c date sc sm sd l (Ret q1 (map trip evs1))) as [q2 ex2|q2 y]; auto.
      destruct IH as [evs2 [doneb2 [-> [H2 [I1 I2]]]]].
      exists evs2, doneb2. split; auto. split; auto. split.
      + intros i I. apply I1. apply in_app_iff; auto.
      + intros s' pos' [E|I] C'; [|eauto]. injection E as <- <-. intros i Ii. apply I1. apply in_app_iff; auto.
    - specialize (IH done doneb evs q H HL').
      unfold executed in *.
      destruct (bar_loop c date sc sm sd l (Ret q (map trip evs))) as [q2 ex2|q2 y]; auto.
      destruct IH as [evs2 [doneb2 [-> [H2 [I1 I2]]]]].
      exists evs2, doneb2. split; auto. split; auto. split; auto.
      intros s' pos' [E|I] C'; [|eauto]. injection E as <- <-. congruence.
  Qed.

  (** Both loops together. *)
  Lemma loops_LI :
    match (let r1 := price_loop c date sc sm (p_active p) (Ret p []) in
           let r2 := match r1 with
            | Raise _ _ => r1
            | Ret p1 _ => bar_loop c date sc sm Long (p_longs p1) r1
            end in
           match r2 with
            | Raise _ _ => r2
            | Ret p2 _ => bar_loop c date sc sm Short (p_shorts p2) r2
            end) with
    | Ret q ex => exists evs done doneb, ex = map trip evs /\ LI done doneb evs q /\
        (W -> forall id d, aget id (p_stop_data p) = Some d ->
           (In id done <-> sc_can_price sc (st_sym (sd_stop d)) = true)) /\
        (forall sd s e, owns p sd s e -> sc_can_price sc s = true -> In (e_id e) doneb)
    | Raise _ x => clean x
    end.
  Proof.
    pose proof (price_loop_LI (p_active p) [] [] [] p LI_start) as S1. cbn [map] in S1. cbn zeta.
    assert (SL : forall done doneb evs q sd, LI done doneb evs q ->
      forall s pos, In (s, pos) (poss sd q) -> ps_sym pos = s /\ like sd s (ps_entries pos) /\
        map e_id (ps_entries pos) = map e_id (entries_of p sd s)).
    { intros done doneb evs q sd H s pos I.
      assert (Hg : aget s (poss sd q) = Some pos) by (apply In_aget; [apply (co_nodup _ _ (li_core _ _ _ _ H))|auto]).
      assert (EE : ps_entries pos = map (zero_if (ids evs)) (entries_of p sd s)).
      { rewrite <- (li_ent _ _ _ _ H). unfold entries_of. now rewrite Hg. }
      split; [apply (po_sym _ _ _ _ (co_pos _ _ (li_core _ _ _ _ H) _ _ _ Hg))|].
      rewrite EE. split.
      - intros y Iy. apply in_map_iff in Iy. destruct Iy as [x [<- Ix]]. exists x.
        split; [now apply owns_entries|]. split; [apply zero_if_id|apply zero_if_stops].
      - rewrite map_map. apply map_ext. apply zero_if_id. }
    assert (SK : forall done doneb evs q sd, LI done doneb evs q -> forall s e, owns p sd s e ->
       exists pos, In (s, pos) (poss sd q)).
    { intros done doneb evs q sd H s e [pos [Hg Ie]].
      assert (I : In s (akeys (poss sd q))).
      { rewrite (li_keys _ _ _ _ H). eapply aget_Some_key; eauto. }
      apply key_aget in I. destruct I as [pos' Hp]. exists pos'. now apply aget_In. }
    destruct (price_loop c date sc sm (p_active p) (Ret p [])) as [q1 ex1|q1 x1].
    2:{ apply S1; intros w; pose proof (si_ri _ (HW w)) as R.
        - intros s ll id I J. apply (proj1 (ri_act _ R s id)). exists ll. split; auto.
          apply In_aget; auto. apply R.
        - intros s ll I. apply (ri_list_nd _ R s). apply In_aget; auto. apply R.
        - apply R.
        - intros id d []. }
    destruct S1 as [evs1 [done1 [-> [H1 [_ [D1 D2]]]]]]; try (intros w; pose proof (si_ri _ (HW w)) as R).
    { intros s ll id I J. apply (proj1 (ri_act _ R s id)). exists ll. split; auto.
      apply In_aget; auto. apply R. }
    { intros s ll I. apply (ri_list_nd _ R s). apply In_aget; auto. apply R. }
    { apply R. }
    { intros id d []. }
    pose proof (bar_loop_LI Long (p_longs q1) done1 [] evs1 q1 H1) as S2.
    change (p_longs q1) with (poss Long q1) in *. unfold executed in *.
    destruct (bar_loop c date sc sm Long (poss Long q1) (Ret q1 (map trip evs1))) as [q2 ex2|q2 x2].
    2:{ apply S2. intros s pos I. destruct (SL _ _ _ _ Long H1 s pos I) as [E1 [E2 _]]. auto. }
    destruct S2 as [evs2 [doneb2 [-> [H2 [_ B2]]]]].
    { intros s pos I. destruct (SL _ _ _ _ Long H1 s pos I) as [E1 [E2 _]]. auto. }
    pose proof (bar_loop_LI Short (p_shorts q2) done1 doneb2 evs2 q2 H2) as S3.
    change (p_shorts q2) with (poss Short q2) in *. unfold executed in *.
    destruct (bar_loop c date sc sm Short (poss Short q2) (Ret q2 (map trip evs2))) as [q3 ex3|q3 x3].
    2:{ apply S3. intros s pos I. destruct (SL _ _ _ _ Short H2 s pos I) as [E1 [E2 _]]. auto. }
    destruct S3 as [evs3 [doneb3 [-> [H3 [M3 B3]]]]].
    { intros s pos I. destruct (SL _ _ _ _ Short H2 s pos I) as [E1 [E2 _]]. auto. }
    exists evs3, done1, doneb3. split; auto. split; auto. split.
    - intros w id d Hd. pose proof (si_ri _ (HW w)) as R.
      assert (A : is_active p (st_sym (sd_stop d)) id) by (apply (ri_act _ R); eauto).
      destruct A as [ll [A1 A2]]. split.
      + intro I. destruct (D2 w id I) as [[]|[s' [l' [I1 [I2 I3]]]]].
        assert (A' : is_active p s' id) by (exists l'; split; auto; apply In_aget; auto; apply R).
        apply (ri_act _ R) in A'. destruct A' as [d' [E1 E2]]. congruence.
      + intro Hcan. eapply D1; eauto. now apply aget_In.
    - intros sd s e Ho Hcan. assert (In (e_id e) (map e_id (entries_of p sd s))).
      { apply in_map. now apply owns_entries. }
      destruct sd.
      + destruct (SK _ _ _ _ Long H1 s e Ho) as [pos I].
        destruct (SL _ _ _ _ Long H1 s pos I) as [E1 [E2 E3]].
        apply M3. eapply B2; eauto. now rewrite E3.
      + destruct (SK _ _ _ _ Short H2 s e Ho) as [pos I].
        destruct (SL _ _ _ _ Short H2 s pos I) as [E1 [E2 E3]].
        eapply B3; eauto. now rewrite E3.
  Qed.
End Loop.
