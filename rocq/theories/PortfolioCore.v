(** The structural invariant of the positions and its preservation. *)
From Verif Require Export PortfolioExit.

(** [z] lists the ids of entries already exited in full but not yet removed
    (inside [check_stops]). *)
Record entry_ok (z : list nat) (sd : side) (s : sym) (e : entry) : Prop := mkEntryOk {
  eo_sym : e_sym e = s; eo_type : e_type e = sd; eo_price : 0 < e_price e;
  eo_zero : In (e_id e) z -> e_shares e == 0;
  eo_pos : ~ In (e_id e) z -> 0 < e_shares e;
  eo_mae : e_mae e <= 0; eo_mfe : 0 <= e_mfe e
}.

Record pos_ok (z : list nat) (sd : side) (s : sym) (pos : position) : Prop := mkPosOk {
  po_sym : ps_sym pos = s; po_type : ps_type pos = sd;
  po_shares : ps_shares pos == Qsum (map e_shares (ps_entries pos));
  po_notional : ps_notional pos == Qsum (map (fun e => e_shares e * e_price e) (ps_entries pos));
  po_nodup : NoDup (map e_id (ps_entries pos));
  po_entries : forall e, In e (ps_entries pos) -> entry_ok z sd s e
}.

Definition owns (p : port) (sd : side) (s : sym) (e : entry) : Prop :=
  exists pos, aget s (poss sd p) = Some pos /\ In e (ps_entries pos).

Record Core (z : list nat) (p : port) : Prop := mkCore {
  co_nodup : forall sd, NoDup (akeys (poss sd p));
  co_pos : forall sd s pos, aget s (poss sd p) = Some pos -> pos_ok z sd s pos;
  co_disj : forall sd s, In s (akeys (poss sd p)) -> ~ In s (akeys (poss (flip sd) p));
  co_syms_nodup : NoDup (p_symbols p);
  co_syms : forall s, In s (p_symbols p) <-> exists sd, In s (akeys (poss sd p));
  co_ids : forall sd1 s1 e1 sd2 s2 e2, owns p sd1 s1 e1 -> owns p sd2 s2 e2 ->
     e_id e1 = e_id e2 -> sd1 = sd2 /\ s1 = s2;
  co_bound : forall sd s e, owns p sd s e -> (e_id e <= p_entry_id p)%nat;
  co_en : forall sd, en sd p == asum ps_notional (poss sd p)
}.

(** Every position except possibly the one named by [x] has an entry. *)
Definition nonempty_but (x : option (side * sym)) (p : port) : Prop :=
  forall sd s pos, aget s (poss sd p) = Some pos -> x <> Some (sd, s) -> ps_entries pos <> [].

Lemma flip_neq sd sd' : sd' <> sd -> sd' = flip sd.
Proof. destruct sd, sd'; cbn; congruence. Qed.
Lemma flip_flip sd : flip (flip sd) = sd.
Proof. destruct sd; reflexivity. Qed.
Lemma side_dec (a b : side) : {a = b} + {a <> b}.
Proof. decide equality. Qed.

Lemma init_core c : Core [] (init c).
Proof.
  constructor; cbn.
  - intros []; constructor.
  - intros [] s pos H; discriminate H.
  - intros [] s H; exact (False_ind _ H).
  - constructor.
  - intros s; split; [tauto|]. intros [[] []].
  - intros sd1 s1 e1 sd2 s2 e2 [pos [H _]]. destruct sd1; discriminate H.
  - intros sd s e [pos [H _]]. destruct sd; discriminate H.
  - intros []; cbn; unfold asum; cbn; lra.
Qed.

(** ** One position replaced *)
Lemma pos_ok_z z z' sd s pos :
  (forall e, In e (ps_entries pos) -> (In (e_id e) z' <-> In (e_id e) z)) ->
  pos_ok z sd s pos -> pos_ok z' sd s pos.
Proof.
  intros H [A B C D E F]. constructor; auto.
  intros e I. destruct (F e I). specialize (H e I). constructor; auto; intuition.
Qed.

Lemma core_update z z' sd s pos pos' p p' :
  Core z p -> aget s (poss sd p) = Some pos ->
  poss sd p' = aset s pos' (poss sd p) ->
  poss (flip sd) p' = poss (flip sd) p ->
  p_symbols p' = p_symbols p -> p_entry_id p' = p_entry_id p ->
  pos_ok z' sd s pos' ->
  (forall id, (In id z' <-> In id z) \/ In id (map e_id (ps_entries pos))) ->
  (forall e, In e (ps_entries pos') -> exists e0, In e0 (ps_entries pos) /\ e_id e0 = e_id e) ->
  en sd p' == en sd p - ps_notional pos + ps_notional pos' ->
  en (flip sd) p' == en (flip sd) p ->
  Core z' p'.
Proof.
  intros HC Hg Hp Hf Hs Hi Hok Hz Hids He Hef.
  assert (Hk : akeys (poss sd p') = akeys (poss sd p)).
  { rewrite Hp. apply akeys_aset_in. eapply aget_Some_key; eauto. }
  assert (Hkk : forall sd', akeys (poss sd' p') = akeys (poss sd' p)).
  { intro sd'. destruct (side_dec sd' sd) as [->|N]; [auto|].
    rewrite (flip_neq _ _ N). congruence. }
  assert (Hown : forall sd' s' e, owns p' sd' s' e ->
     exists e0, owns p sd' s' e0 /\ e_id e0 = e_id e).
  { intros sd' s' e [q [Hq Iq]]. destruct (side_dec sd' sd) as [->|N].
    - rewrite Hp, aget_aset in Hq. destruct (Nat.eqb_spec s' s) as [->|Ns].
      + injection Hq as <-. destruct (Hids e Iq) as [e0 [I0 E0]].
        exists e0. split; auto. exists pos. auto.
      + exists e. split; auto. exists q. auto.
    - pose proof (flip_neq _ _ N) as ->. exists e. split; auto. exists q. rewrite Hf in Hq. auto. }
  constructor.
  - intro sd'. rewrite Hkk. apply (co_nodup _ _ HC).
  - intros sd' s' q Hq. destruct (side_dec sd' sd) as [->|N].
    + rewrite Hp, aget_aset in Hq. destruct (Nat.eqb_spec s' s) as [->|Ns].
      * injection Hq as <-. auto.
      * apply (pos_ok_z z); [|now apply (co_pos _ _ HC)].
        intros e I. destruct (Hz (e_id e)) as [Hz'|Hin]; auto.
        apply in_map_iff in Hin. destruct Hin as [e0 [E0 I0]]. exfalso. apply Ns.
        assert (O1 : owns p sd s' e) by (exists q; auto).
        assert (O2 : owns p sd s e0) by (exists pos; auto).
        now destruct (co_ids _ _ HC _ _ _ _ _ _ O1 O2 (eq_sym E0)).
    + pose proof (flip_neq _ _ N) as ->. rewrite Hf in Hq.
      apply (pos_ok_z z); [|now apply (co_pos _ _ HC)].
      intros e I. destruct (Hz (e_id e)) as [Hz'|Hin]; auto.
      apply in_map_iff in Hin. destruct Hin as [e0 [E0 I0]]. exfalso.
      assert (O1 : owns p (flip sd) s' e) by (exists q; auto).
      assert (O2 : owns p sd s e0) by (exists pos; auto).
      destruct (co_ids _ _ HC _ _ _ _ _ _ O1 O2 (eq_sym E0)) as [E _].
      destruct sd; discriminate E.
  - intros sd' s'. rewrite !Hkk. apply (co_disj _ _ HC).
  - rewrite Hs. apply (co_syms_nodup _ _ HC).
  - intro s'. rewrite Hs. rewrite (co_syms _ _ HC s').
    split; intros [sd' H]; exists sd'; [rewrite Hkk|rewrite Hkk in H]; auto.
  - intros sd1 s1 e1 sd2 s2 e2 O1 O2 E.
    destruct (Hown _ _ _ O1) as [f1 [P1 E1]], (Hown _ _ _ O2) as [f2 [P2 E2]].
    eapply (co_ids _ _ HC); eauto. congruence.
  - intros sd' s' e O. destruct (Hown _ _ _ O) as [f [P E]]. rewrite <- E, Hi.
    eapply (co_bound _ _ HC); eauto.
  - intro sd'. destruct (side_dec sd' sd) as [->|N].
    + rewrite He, Hp, (asum_aset_in _ _ _ _ _ Hg), (co_en _ _ HC sd). lra.
    + pose proof (flip_neq _ _ N) as ->. rewrite Hef, Hf. apply (co_en _ _ HC).
Qed.

Lemma nonempty_update x sd s pos' p p' :
  nonempty_but x p ->
  poss sd p' = aset s pos' (poss sd p) -> poss (flip sd) p' = poss (flip sd) p ->
  (x = Some (sd, s) \/ ps_entries pos' <> []) ->
  nonempty_but x p'.
Proof.
  intros H Hp Hf Hx sd' s' q Hq N. destruct (side_dec sd' sd) as [->|Ns].
  - rewrite Hp, aget_aset in Hq. destruct (Nat.eqb_spec s' s) as [->|Ns].
    + injection Hq as <-. destruct Hx; [congruence|auto].
    + eapply H; eauto.
  - pose proof (flip_neq _ _ Ns) as ->. rewrite Hf in Hq. eapply H; eauto.
Qed.

(** ** Positions changed pointwise without changing shares *)
Lemma asum_pointwise {V} (f : V -> Q) (l l' : list (nat * V)) :
  akeys l' = akeys l -> NoDup (akeys l) ->
  (forall k v v', aget k l = Some v -> aget k l' = Some v' -> f v' == f v) ->
  asum f l' == asum f l.
Proof.
  revert l'. induction l as [|[k v] r IH]; intros [|[k' v'] r'] Hk ND H; try discriminate; [reflexivity|].
  cbn in Hk. injection Hk as -> Hr. inversion ND as [|? ? Hn Hnd]; subst.
  unfold asum. cbn. fold (asum f r'). fold (asum f r).
  rewrite (IH r' Hr Hnd).
  - rewrite (H k v v'); [lra| |]; cbn; now rewrite Nat.eqb_refl.
  - intros j w w' Hj Hj'. apply (H j); cbn; destruct (Nat.eqb_spec j k) as [->|N]; auto.
    + exfalso. apply Hn. eapply aget_Some_key; eauto.
    + exfalso. apply Hn. apply aget_Some_key in Hj'. unfold akeys in Hj'. now rewrite Hr in Hj'.
Qed.

Lemma core_pointwise z p p' :
  Core z p ->
  (forall sd, akeys (poss sd p') = akeys (poss sd p)) ->
  (forall sd s pos', aget s (poss sd p') = Some pos' ->
     exists pos, aget s (poss sd p) = Some pos /\ pos_ok z sd s pos' /\
       map e_id (ps_entries pos') = map e_id (ps_entries pos) /\
       ps_notional pos' == ps_notional pos) ->
  p_symbols p' = p_symbols p -> p_entry_id p' = p_entry_id p ->
  (forall sd, en sd p' = en sd p) ->
  Core z p'.
Proof.
  intros HC Hk Hp Hs Hi He.
  assert (Hown : forall sd' s' e, owns p' sd' s' e ->
     exists e0, owns p sd' s' e0 /\ e_id e0 = e_id e).
  { intros sd' s' e [q [Hq Iq]]. destruct (Hp _ _ _ Hq) as [pos [Hg [_ [Hm _]]]].
    assert (I : In (e_id e) (map e_id (ps_entries pos))).
    { rewrite <- Hm. now apply in_map. }
    apply in_map_iff in I. destruct I as [e0 [E0 I0]]. exists e0. split; auto. exists pos; auto. }
  constructor.
  - intro sd. rewrite Hk. apply (co_nodup _ _ HC).
  - intros sd s q Hq. now destruct (Hp _ _ _ Hq) as [pos [_ [H _]]].
  - intros sd s. rewrite !Hk. apply (co_disj _ _ HC).
  - rewrite Hs. apply (co_syms_nodup _ _ HC).
  - intro s'. rewrite Hs, (co_syms _ _ HC s').
    split; intros [sd' H]; exists sd'; [rewrite Hk|rewrite Hk in H]; auto.
  - intros sd1 s1 e1 sd2 s2 e2 O1 O2 E.
    destruct (Hown _ _ _ O1) as [f1 [P1 E1]], (Hown _ _ _ O2) as [f2 [P2 E2]].
    eapply (co_ids _ _ HC); eauto. congruence.
  - intros sd' s' e O. destruct (Hown _ _ _ O) as [f [P E]]. rewrite <- E, Hi.
    eapply (co_bound _ _ HC); eauto.
  - intro sd. rewrite He, (co_en _ _ HC sd). symmetry. apply asum_pointwise; auto.
    + apply (co_nodup _ _ HC).
    + intros k v v' Hv Hv'. destruct (Hp _ _ _ Hv') as [pos [Hg [_ [_ Hn]]]].
      rewrite Hv in Hg. injection Hg as <-. auto.
Qed.

Lemma nonempty_pointwise x p p' :
  nonempty_but x p ->
  (forall sd s pos', aget s (poss sd p') = Some pos' ->
     exists pos, aget s (poss sd p) = Some pos /\
       map e_id (ps_entries pos') = map e_id (ps_entries pos)) ->
  nonempty_but x p'.
Proof.
  intros H Hp sd s q Hq N E. destruct (Hp _ _ _ Hq) as [pos [Hg Hm]].
  apply (H _ _ _ Hg N). rewrite E in Hm. cbn in Hm. symmetry in Hm. now apply map_eq_nil in Hm.
Qed.

(** States that agree on the position data. *)
Lemma core_ext z p p' :
  Core z p -> (forall sd, poss sd p' = poss sd p) -> p_symbols p' = p_symbols p ->
  p_entry_id p' = p_entry_id p -> (forall sd, en sd p' = en sd p) -> Core z p'.
Proof.
  intros HC Hp Hs Hi He. apply (core_pointwise z p); auto.
  - intro sd. now rewrite Hp.
  - intros sd s q Hq. rewrite Hp in Hq. exists q. split; auto. split; [now apply (co_pos _ _ HC)|].
    split; reflexivity.
Qed.
Lemma nonempty_ext x p p' :
  nonempty_but x p -> (forall sd, poss sd p' = poss sd p) -> nonempty_but x p'.
Proof. intros H Hp sd s q Hq. rewrite Hp in Hq. eauto. Qed.

(** ** Exits *)
Lemma exit_pos_full z sd s pos e :
  pos_ok z sd s pos -> In e (ps_entries pos) ->
  pos_ok (e_id e :: z) sd s (exit_pos pos e (e_shares e)).
Proof.
  intros H I. destruct H as [A B C D E F]. unfold exit_pos.
  constructor; rewrite ?clamp_sym, ?clamp_type, ?clamp_shares_f, ?clamp_entries, ?clamp_notional; cbn; auto.
  - rewrite upd_entry_sum by auto. rewrite C. cbn. lra.
  - rewrite (upd_entry_sum (fun e => e_shares e * e_price e)) by auto. rewrite D. cbn. lra.
  - now rewrite upd_entry_ids.
  - intros x Ix. apply In_upd_entry in Ix.
    destruct Ix as [[Ix Nx]|[y [Iy [Ey ->]]]].
    + destruct (F x Ix). constructor; auto; cbn; intuition congruence.
    + assert (y = e) by (eapply id_inj; eauto). subst y.
      destruct (F e I). constructor; cbn; auto.
      * intros _. lra.
      * intros Hn. exfalso. apply Hn. auto.
Qed.

Lemma exit_pos_partial z sd s pos e sh :
  pos_ok z sd s pos -> In e (ps_entries pos) -> 0 < sh -> sh < e_shares e ->
  pos_ok z sd s (exit_pos pos e sh).
Proof.
  intros H I Hp Hlt. destruct H as [A B C D E F]. unfold exit_pos.
  constructor; rewrite ?clamp_sym, ?clamp_type, ?clamp_shares_f, ?clamp_entries, ?clamp_notional; cbn; auto.
  - rewrite upd_entry_sum by auto. rewrite C. cbn. lra.
  - rewrite (upd_entry_sum (fun e => e_shares e * e_price e)) by auto. rewrite D. cbn. lra.
  - now rewrite upd_entry_ids.
  - intros x Ix. apply In_upd_entry in Ix.
    destruct Ix as [[Ix Nx]|[y [Iy [Ey ->]]]]; [auto|].
    assert (y = e) by (eapply id_inj; eauto). subst y.
    destruct (F e I) as [e1 e2 e3 ez e4 e5 e6]. constructor; cbn; auto.
    + intros Hin. specialize (ez Hin). lra.
    + intros _. lra.
Qed.

Lemma exit_pos_ids pos e sh :
  map e_id (ps_entries (exit_pos pos e sh)) = map e_id (ps_entries pos).
Proof. unfold exit_pos. rewrite clamp_entries. cbn. now apply upd_entry_ids. Qed.
Lemma exit_pos_notional pos e sh :
  ps_notional (exit_pos pos e sh) = ps_notional pos - sh * e_price e.
Proof. unfold exit_pos. now rewrite clamp_notional. Qed.
Lemma exit_pos_shares pos e sh :
  ps_shares (exit_pos pos e sh) = ps_shares pos - sh.
Proof. unfold exit_pos. now rewrite clamp_shares_f. Qed.
Lemma exit_pos_entries pos e sh :
  ps_entries (exit_pos pos e sh) =
  upd_entry (e_id e) (fun x => set_e_shares (e_shares x - sh) x) (ps_entries pos).
Proof. unfold exit_pos. now rewrite clamp_entries. Qed.

Lemma ids_in_exit pos e sh x :
  In x (ps_entries (exit_pos pos e sh)) ->
  exists e0, In e0 (ps_entries pos) /\ e_id e0 = e_id x.
Proof.
  intro H. assert (I : In (e_id x) (map e_id (ps_entries pos))).
  { rewrite <- (exit_pos_ids pos e sh). now apply in_map. }
  apply in_map_iff in I. destruct I as [e0 [A B]]. eauto.
Qed.

Lemma exit_core_full c z sd date pos e fill stp s p :
  Core z p -> aget s (poss sd p) = Some pos -> In e (ps_entries pos) ->
  Core (e_id e :: z) (snd (exit_entry c sd date pos e (e_shares e) fill stp p)).
Proof.
  intros HC Hg I. pose proof (co_pos _ _ HC _ _ _ Hg) as Hok.
  eapply (core_update z _ sd s pos (exit_pos pos e (e_shares e)) p); eauto.
  - rewrite exit_poss. now rewrite (po_sym _ _ _ _ Hok).
  - apply exit_poss_other.
  - apply exit_symbols.
  - apply exit_entry_id.
  - now apply exit_pos_full.
  - intro id. destruct (Nat.eq_dec id (e_id e)) as [->|N].
    + right. now apply in_map.
    + left. cbn. intuition congruence.
  - apply ids_in_exit.
  - rewrite exit_en, exit_pos_notional. lra.
  - now rewrite exit_en_other.
Qed.

Lemma exit_core_partial c z sd date pos e sh fill stp s p :
  Core z p -> aget s (poss sd p) = Some pos -> In e (ps_entries pos) ->
  0 < sh -> sh < e_shares e ->
  Core z (snd (exit_entry c sd date pos e sh fill stp p)).
Proof.
  intros HC Hg I H0 H1. pose proof (co_pos _ _ HC _ _ _ Hg) as Hok.
  eapply (core_update z _ sd s pos (exit_pos pos e sh) p); eauto.
  - rewrite exit_poss. now rewrite (po_sym _ _ _ _ Hok).
  - apply exit_poss_other.
  - apply exit_symbols.
  - apply exit_entry_id.
  - now apply exit_pos_partial.
  - intro id. left. tauto.
  - apply ids_in_exit.
  - rewrite exit_en, exit_pos_notional. lra.
  - now rewrite exit_en_other.
Qed.

(** Popping an entry that has been exited in full. *)
Lemma pop_core z sd s pos e es1 es2 p :
  Core (e_id e :: z) p -> ~ In (e_id e) z -> aget s (poss sd p) = Some pos ->
  ps_entries pos = es1 ++ e :: es2 ->
  Core z (set_poss sd (aset s (set_ps_entries (es1 ++ es2) pos) (poss sd p)) p).
Proof.
  intros HC Hz Hg He. pose proof (co_pos _ _ HC _ _ _ Hg) as Hok.
  destruct Hok as [A B C D E F].
  assert (Ie : In e (ps_entries pos)) by (rewrite He, in_app_iff; cbn; auto).
  assert (Z0 : e_shares e == 0) by (apply (eo_zero _ _ _ _ (F e Ie)); cbn; auto).
  assert (ND : NoDup (map e_id (es1 ++ es2)) /\ ~ In (e_id e) (map e_id (es1 ++ es2))).
  { rewrite He, map_app in E. cbn in E. apply NoDup_remove in E. now rewrite map_app. }
  eapply (core_update (e_id e :: z) z sd s pos (set_ps_entries (es1 ++ es2) pos) p); eauto.
  - apply poss_set_poss.
  - apply poss_set_poss_flip.
  - apply set_poss_symbols.
  - apply (sa_entry_id _ _ (set_poss_same sd _ p)).
  - constructor; cbn; auto.
    + rewrite C, He, !map_app, !Qsum_app. cbn. lra.
    + rewrite D, He, !map_app, !Qsum_app. cbn. rewrite Z0. lra.
    + apply ND.
    + intros x Ix.
      assert (Ix' : In x (ps_entries pos)).
      { rewrite He, in_app_iff. apply in_app_iff in Ix. cbn. tauto. }
      destruct (F x Ix') as [f1 f2 f3 fz f4 f5 f6]. constructor; auto.
      * intro H. apply fz. cbn. auto.
      * intro H. apply f4. cbn. intros [Q|Q]; [|auto].
        apply (proj2 ND). rewrite Q. now apply in_map.
  - intro id. destruct (Nat.eq_dec id (e_id e)) as [->|N].
    + right. now apply in_map.
    + left. cbn. intuition congruence.
  - intros x Ix. exists x. split; auto. rewrite He. apply in_app_iff in Ix.
    rewrite in_app_iff. cbn. tauto.
  - rewrite (sa_en _ _ (set_poss_same sd _ p)). cbn. lra.
  - now rewrite (sa_en _ _ (set_poss_same sd _ p)).
Qed.

(** ** [update_position] *)
Lemma remove_first_NoDup x l : NoDup l -> NoDup (remove_first x l).
Proof.
  induction l as [|y r IH]; cbn; auto. intro H. inversion H as [|? ? Hn Hr]; subst.
  destruct (Nat.eqb x y); auto. constructor; auto. intro I. apply Hn.
  clear - I. induction r as [|z r IH]; cbn in *; [tauto|].
  destruct (Nat.eqb x z); cbn in *; intuition.
Qed.
Lemma remove_first_In x y l : NoDup l -> (In y (remove_first x l) <-> In y l /\ y <> x).
Proof.
  induction l as [|z r IH]; cbn; [tauto|]. intro H. inversion H as [|? ? Hn Hr]; subst.
  destruct (Nat.eqb_spec x z) as [->|N].
  - split.
    + intro I. split; auto. intros ->. auto.
    + intros [[->|I] Ny]; [congruence|auto].
  - cbn. rewrite IH by auto. split; [|tauto].
    intros [->|[I Ny]]; auto.
Qed.

Lemma update_position_core z sd s pos p :
  Core z p -> nonempty_but (Some (sd, s)) p -> aget s (poss sd p) = Some pos ->
  let p' := update_position sd pos p in
  Core z p' /\ nonempty_but None p' /\
  poss (flip sd) p' = poss (flip sd) p /\
  (forall s', s' <> s -> aget s' (poss sd p') = aget s' (poss sd p)) /\
  aget s (poss sd p') = match ps_entries pos with [] => None | _ => Some pos end.
Proof.
  intros HC HN Hg p'. pose proof (co_pos _ _ HC _ _ _ Hg) as Hok.
  unfold p', update_position. destruct (ps_entries pos) as [|e es] eqn:He.
  - rewrite (po_sym _ _ _ _ Hok).
    set (q := set_poss sd (adel s (poss sd p)) p).
    assert (Hq1 : poss sd q = adel s (poss sd p)) by apply poss_set_poss.
    assert (Hq2 : poss (flip sd) q = poss (flip sd) p) by apply poss_set_poss_flip.
    assert (Hqs : p_symbols q = p_symbols p) by apply set_poss_symbols.
    assert (Hin : In s (akeys (poss sd p))) by (eapply aget_Some_key; eauto).
    assert (Hc : nmem s (p_symbols q) && negb (ahas s (p_longs q)) && negb (ahas s (p_shorts q)) = true).
    { rewrite !andb_true_iff, !negb_true_iff, nmem_In, !ahas_false, Hqs. repeat split.
      - apply (co_syms _ _ HC). eauto.
      - change (p_longs q) with (poss Long q). destruct sd; cbn [flip] in *.
        + rewrite Hq1. apply aget_adel_eq, (co_nodup _ _ HC).
        + rewrite Hq2. apply aget_None. apply (co_disj _ _ HC Short s Hin).
      - change (p_shorts q) with (poss Short q). destruct sd; cbn [flip] in *.
        + rewrite Hq2. apply aget_None. apply (co_disj _ _ HC Long s Hin).
        + rewrite Hq1. apply aget_adel_eq, (co_nodup _ _ HC). }
    rewrite Hc. clear Hc.
    set (r := set_p_symbols (remove_first s (p_symbols q)) q).
    assert (Hr : forall sd', poss sd' r = poss sd' q) by (intros []; reflexivity).
    assert (Hkk : forall sd' j, In j (akeys (poss sd' r)) -> In j (akeys (poss sd' p))).
    { intros sd' j. rewrite Hr. destruct (side_dec sd' sd) as [->|N].
      - rewrite Hq1. apply In_akeys_adel.
      - pose proof (flip_neq _ _ N) as ->. now rewrite Hq2. }
    assert (Hgg : forall sd' j q0, aget j (poss sd' r) = Some q0 ->
        aget j (poss sd' p) = Some q0 /\ (sd', j) <> (sd, s)).
    { intros sd' j q0. rewrite Hr. destruct (side_dec sd' sd) as [->|N].
      - rewrite Hq1, aget_adel by apply (co_nodup _ _ HC).
        destruct (Nat.eqb_spec j s); [discriminate|]. intros H. split; auto. congruence.
      - pose proof (flip_neq _ _ N) as ->. rewrite Hq2. intros H. split; auto.
        intro E. injection E as E _. destruct sd; discriminate E. }
    split; [|split; [|split; [|split]]].
    + constructor.
      * intro sd'. rewrite Hr. destruct (side_dec sd' sd) as [->|N].
        -- rewrite Hq1. apply NoDup_adel, (co_nodup _ _ HC).
        -- pose proof (flip_neq _ _ N) as ->. rewrite Hq2. apply (co_nodup _ _ HC).
      * intros sd' j q0 H. apply Hgg in H. now apply (co_pos _ _ HC).
      * intros sd' j H1 H2. apply Hkk in H1, H2. revert H2. now apply (co_disj _ _ HC).
      * cbn. apply remove_first_NoDup. rewrite Hqs. apply (co_syms_nodup _ _ HC).
      * intro j.
        assert (HNS : NoDup (p_symbols q)) by (rewrite Hqs; apply (co_syms_nodup _ _ HC)).
        change (p_symbols r) with (remove_first s (p_symbols q)). rewrite remove_first_In by auto.
        rewrite Hqs, (co_syms _ _ HC j). split.
        -- intros [[sd' H] Nj]. exists sd'. rewrite Hr.
           destruct (side_dec sd' sd) as [->|N].
           ++ rewrite Hq1. apply key_aget in H. destruct H as [v Hv].
              eapply aget_Some_key. rewrite aget_adel_neq; eauto.
           ++ pose proof (flip_neq _ _ N) as ->. now rewrite Hq2.
        -- intros [sd' H]. split; [exists sd'; now apply Hkk|].
           intros ->. apply key_aget in H. destruct H as [v Hv].
           apply Hgg in Hv. destruct Hv as [Hv Ne].
           assert (sd' = flip sd) as -> by (apply flip_neq; congruence).
           apply (co_disj _ _ HC sd s Hin). eapply aget_Some_key; eauto.
      * intros sd1 s1 e1 sd2 s2 e2 [q1 [G1 I1]] [q2 [G2 I2]] E.
        apply Hgg in G1, G2.
        apply (co_ids _ _ HC sd1 s1 e1 sd2 s2 e2); auto; [exists q1|exists q2]; intuition.
      * intros sd' j e0 [q0 [G I]]. apply Hgg in G.
        change (p_entry_id r) with (p_entry_id q).
        rewrite (sa_entry_id _ _ (set_poss_same sd (adel s (poss sd p)) p) : p_entry_id q = _).
        eapply (co_bound _ _ HC). exists q0. split; [apply G|exact I].
      * intro sd'. assert (Een : en sd' r = en sd' p).
        { transitivity (en sd' q); [destruct sd'; reflexivity|].
          apply (sa_en _ _ (set_poss_same sd (adel s (poss sd p)) p)). }
        rewrite Een, Hr. destruct (side_dec sd' sd) as [->|N].
        -- rewrite Hq1, (asum_adel _ _ _ _ Hg), (co_en _ _ HC).
           rewrite (po_notional _ _ _ _ Hok), He. cbn. lra.
        -- pose proof (flip_neq _ _ N) as ->. rewrite Hq2. apply (co_en _ _ HC).
    + intros sd' j q0 H _. apply Hgg in H. destruct H as [H Ne]. eapply HN; eauto. congruence.
    + rewrite Hr. auto.
    + intros j Nj. rewrite Hr, Hq1. now apply aget_adel_neq.
    + rewrite Hr, Hq1. apply aget_adel_eq, (co_nodup _ _ HC).
  - split; auto. split; [|split; [|split]]; auto.
    intros sd' j q0 H _. destruct (side_dec sd' sd) as [->|N].
    + destruct (Nat.eq_dec j s) as [->|Nj].
      * rewrite Hg in H. injection H as <-. rewrite He. discriminate.
      * eapply HN; eauto. congruence.
    + eapply HN; eauto. congruence.
Qed.
