(** Proofs for C111. *)
From Verif Require Import PortfolioMark FigureSpec.

Definition figs5 (pos : position) := (ps_close pos, ps_equity pos, ps_mv pos, ps_margin pos, ps_pnl pos).
Definition figs (pos : position) := (figs5 pos, ps_bars pos).
Definition fkeep (a b : position) : Prop := figs b = figs a.
Lemma fkeep_refl a : fkeep a a.
Proof. reflexivity. Qed.
Lemma fkeep_trans a b d : fkeep a b -> fkeep b d -> fkeep a d.
Proof. unfold fkeep. congruence. Qed.
Record fkept_in (p q : port) : Prop := mkKF {
  kf_nd : forall sd, NoDup (akeys (poss sd q));
  kf_pos : forall sd s b, aget s (poss sd q) = Some b ->
    ps_sym b = s /\ exists a, aget s (poss sd p) = Some a /\ fkeep a b
}.
Lemma kf_refl p : Core [] p -> fkept_in p p.
Proof.
  intro C. constructor; [intro; apply (co_nodup _ _ C)|]. intros sd s b H.
  split; [apply (po_sym _ _ _ _ (co_pos _ _ C _ _ _ H))|]. exists b. split; auto. apply fkeep_refl.
Qed.
Lemma kf_same p q r : (forall sd, poss sd r = poss sd q) -> fkept_in p q -> fkept_in p r.
Proof. intros E [A B]. constructor; intro sd; rewrite E; auto. Qed.
Lemma kf_put p q sd s a b : fkept_in p q -> aget s (poss sd q) = Some a -> fkeep a b -> ps_sym b = s ->
  forall r, poss sd r = aset s b (poss sd q) -> poss (flip sd) r = poss (flip sd) q -> fkept_in p r.
Proof.
  intros [A B] G K S r P1 P2. constructor.
  - intro sd1. destruct (side_dec sd1 sd) as [->|N]; [rewrite P1; apply NoDup_aset; auto|].
    rewrite (flip_neq _ _ N), P2. auto.
  - intros sd1 s1 b1 H. destruct (side_dec sd1 sd) as [->|N].
    + rewrite P1, aget_aset in H. destruct (Nat.eqb_spec s1 s) as [->|Ns].
      * injection H as <-. split; auto. destruct (B _ _ _ G) as [_ [a0 [G0 K0]]]. exists a0. split; auto. eapply fkeep_trans; eauto.
      * apply B in H. exact H.
    + pose proof (flip_neq _ _ N) as ->. rewrite P2 in H. apply B in H. exact H.
Qed.
Lemma clamp_figs pos : figs (clamp_unmarked pos) = figs pos.
Proof.
  unfold clamp_unmarked; destruct (Qle_bool (ps_un_shares pos) 0);
    [reflexivity|]; destruct (Qle_bool (ps_shares pos) 0); [reflexivity|];
    destruct (Qltb (ps_shares pos) (ps_un_shares pos)); reflexivity.
Qed.
Lemma fkeep_exit pos e sh : fkeep pos (exit_pos pos e sh).
Proof. unfold exit_pos, fkeep. now rewrite clamp_figs. Qed.
Lemma kf_trigger c date sc sm pos e st p q : fkept_in p q -> aget (st_sym st) (poss (st_pos st) q) = Some pos ->
  match trigger_stop c date sc sm pos e st q with Ret r _ => fkept_in p r | Raise _ _ => True end.
Proof.
  intros K G. unfold trigger_stop. destruct (negb _); [auto|].
  match goal with |- match (match ?d with Ret _ _ => _ | Raise _ _ => _ end) with _ => _ end => set (dc := d) end.
  assert (D : match dc with Ret r _ => forall sd, poss sd r = poss sd q | Raise _ _ => True end).
  { unfold dc. destruct (st_type st).
    - destruct (trigger_bar_stop st sc e); auto.
    - destruct (aget (st_id st) (p_stop_data q)); auto.
    - destruct (aget (st_id st) (p_stop_data q)); auto.
    - destruct (aget (st_id st) (p_stop_data q)) as [s|]; auto. destruct (trigger_price_stop st (sd_value s) sc); auto.
      destruct (ratchet st (sd_value s) sc); auto. }
  destruct dc as [r [m|]|r x]; auto; [|eapply kf_same; eauto].
  match goal with |- match (if ?b then _ else _) with _ => _ end => destruct b end; [eapply kf_same; eauto|].
  destruct (_ && _); auto.
  destruct (exit_entry _ _ _ _ _ _ _ _ _) as [pos1 p1] eqn:Ex.
  destruct (add_order _ _ _ _ _ _ _ _ _ _ _ _) as [p2 o] eqn:Ea.
  assert (P2 : forall sd, poss sd p2 = poss sd p1).
  { intro sd. change p2 with (fst (p2, o)). rewrite <- Ea. apply add_order_poss. }
  apply (kf_same _ p1); auto.
  assert (KR : fkept_in p r) by (eapply kf_same; eauto).
  assert (GR : aget (st_sym st) (poss (st_pos st) r) = Some pos) by now rewrite D.
  assert (E1 : p1 = snd (exit_entry c (st_pos st) date pos e (e_shares e) (slip_stop_fill sm st e m) (Some (st_type st)) r)) by now rewrite Ex.
  destruct (kf_pos _ _ KR _ _ _ GR) as [Hs _].
  apply (kf_put p r (st_pos st) (st_sym st) pos (exit_pos pos e (e_shares e)) KR GR (fkeep_exit _ _ _)).
  - now rewrite exit_sym.
  - rewrite E1, exit_poss, Hs. reflexivity.
  - rewrite E1. apply exit_poss_other.
Qed.
Definition kfres (p : port) (r : res executed) : Prop := match r with Ret q _ => fkept_in p q | Raise _ _ => True end.
Lemma kf_price c date sc sm s id p r : kfres p r -> kfres p (check_price_stop c date sc sm s id r).
Proof.
  intros K. unfold check_price_stop. destruct r as [q ex|]; [|exact I]. cbn in K.
  destruct (aget id (p_stop_data q)) as [d|]; [|exact I]. destruct (is_triggered _ _); [exact K|].
  destruct (aget s (poss (st_pos (sd_stop d)) q)) as [pos|] eqn:G; [|exact K].
  destruct (find_entry _ _) as [e|]; [|exact I].
  destruct (Nat.eqb_spec (st_sym (sd_stop d)) s) as [E|]; [|exact I]. cbn [negb].
  pose proof (kf_trigger c date sc sm pos e (sd_stop d) p q K) as H. rewrite E in H. specialize (H G).
  destruct (trigger_stop c date sc sm pos e (sd_stop d) q) as [r [|]|]; auto; exact I.
Qed.
Lemma kf_price_loop c date sc sm p active : forall r, kfres p r -> kfres p (price_loop c date sc sm active r).
Proof.
  unfold price_loop. induction active as [|[s l] a IH]; cbn; auto. intros r K. apply IH.
  destruct (sc_can_price sc s); auto. revert r K. induction l as [|i l IHl]; cbn; auto. intros r K. apply IHl. now apply kf_price.
Qed.
Lemma kf_bar_stops c date sc sm sd s eid p stops : forall r, kfres p r -> kfres p (bar_stops_loop c date sc sm sd s eid stops r).
Proof.
  induction stops as [|t l IH]; intros [q ex|]; cbn; auto. intro K.
  destruct (st_type t); auto. destruct (aget s (poss sd q)) as [pos|] eqn:G; [|exact I].
  destruct (find_entry _ _) as [e|]; [|exact I].
  destruct (Nat.eqb (st_sym t) s && side_eqb (st_pos t) sd) eqn:E; [|exact I]. cbn [negb].
  apply andb_true_iff in E. destruct E as [E1 E2]. apply Nat.eqb_eq in E1. apply side_eqb_eq in E2.
  pose proof (kf_trigger c date sc sm pos e t p q K) as H. rewrite E1, E2 in H. specialize (H G).
  destruct (trigger_stop c date sc sm pos e t q) as [r [|]|]; auto; exact I.
Qed.
Lemma kf_bar_loop c date sc sm sd p d : forall r, kfres p r -> kfres p (bar_loop c date sc sm sd d r).
Proof.
  unfold bar_loop. induction d as [|[s pos] d IH]; cbn; auto. intros r K. apply IH.
  destruct (sc_can_price sc (ps_sym pos)); auto. unfold bar_entries_loop. revert r K.
  induction (ps_entries pos) as [|e l IHl]; cbn; auto. intros r K. apply IHl. destruct r as [q ex|]; auto.
  destruct (is_triggered (e_id e) ex); auto. now apply kf_bar_stops.
Qed.
Lemma kf_update p q sd pos : fkept_in p q -> fkept_in p (update_position sd pos q).
Proof.
  intros [A B]. unfold update_position. destruct (ps_entries pos); [|constructor; auto].
  assert (X : forall r, (forall sd1, poss sd1 r = if side_eqb sd1 sd then adel (ps_sym pos) (poss sd q) else poss sd1 q) -> fkept_in p r).
  { intros r P. constructor.
    - intro sd1. rewrite P. destruct (side_eqb sd1 sd); auto. apply NoDup_adel. auto.
    - intros sd1 s1 b H. rewrite P in H. destruct (side_eqb sd1 sd) eqn:E; [|auto]. apply side_eqb_eq in E. subst sd1.
      rewrite aget_adel in H by auto. destruct (Nat.eqb s1 (ps_sym pos)); [discriminate|]. auto. }
  match goal with |- context [if ?b then _ else _] => destruct b end; apply X; intro sd1; destruct sd, sd1; reflexivity.
Qed.
Lemma kf_finish p q x : fkept_in p q -> fkept_in p (finish_exit q x).
Proof.
  intro K. destruct x as [[sd s] eid]. unfold finish_exit. destruct (aget s (poss sd q)) as [pos|] eqn:G; auto.
  destruct (find_entry eid (ps_entries pos)) as [e|]; auto. apply kf_update.
  eapply kf_same; [apply (sb_poss _ _ (remove_stop_data_sbs _ _))|].
  apply (kf_put p q sd s pos (set_ps_entries (remove_entry eid (ps_entries pos)) pos) K G).
  - split; auto.
  - apply (kf_pos _ _ K _ _ _ G).
  - apply poss_set_poss.
  - apply poss_set_poss_flip.
Qed.
Lemma fcheck_keeps c date sc sm p : Core [] p ->
  match check_stops c date sc sm p with Ret q _ => fkept_in p q | Raise _ _ => True end.
Proof.
  intro C. unfold check_stops.
  set (r1 := price_loop c date sc sm (p_active p) (Ret p [])).
  assert (K1 : kfres p r1) by (apply kf_price_loop; cbn; now apply kf_refl). clearbody r1.
  set (r2 := match r1 with Raise _ _ => r1 | Ret p1 _ => bar_loop c date sc sm Long (p_longs p1) r1 end).
  assert (K2 : kfres p r2) by (unfold r2; destruct r1; auto; now apply kf_bar_loop). clearbody r2.
  set (r3 := match r2 with Raise _ _ => r2 | Ret p1 _ => bar_loop c date sc sm Short (p_shorts p1) r2 end).
  assert (K3 : kfres p r3) by (unfold r3; destruct r2; auto; now apply kf_bar_loop). clearbody r3.
  destruct r3 as [q ex|]; auto. cbn in K3. revert q K3. induction ex as [|x ex IH]; cbn; auto.
  intros q K. apply IH. now apply kf_finish.
Qed.

(** ** Figures of one position *)
Definition Fg (f : Q * Q * Q * Q * Q * nat) (sd : side) (s : sym) (p : port) : Prop :=
  forall pos, aget s (poss sd p) = Some pos -> figs pos = f.
Lemma Fg_same f sd s p p' : aget s (poss sd p') = aget s (poss sd p) -> Fg f sd s p -> Fg f sd s p'.
Proof. intros E H pos. rewrite E. apply H. Qed.
Lemma full_step_Fg c f sd date s fill pos e es p : Core [] p -> Fg f sd s p ->
  aget s (poss sd p) = Some pos -> ps_entries pos = e :: es -> Fg f sd s (full_step c sd date s fill pos e p).
Proof.
  intros C H Hg He. pose proof (co_pos _ _ C _ _ _ Hg) as Ok. pose proof (po_sym _ _ _ _ Ok) as Hs.
  intros pos' Hg'. rewrite poss_full_step, aget_aset_eq in Hg' by auto. injection Hg' as <-.
  transitivity (figs (exit_pos pos e (e_shares e))); [reflexivity|]. rewrite (fkeep_exit pos e (e_shares e)). auto.
Qed.
Lemma part_step_Fg c f sd date s fill pos e rem p : Core [] p -> Fg f sd s p ->
  aget s (poss sd p) = Some pos -> Fg f sd s (part_step c sd date fill pos e rem p).
Proof.
  intros C H Hg. pose proof (co_pos _ _ C _ _ _ Hg) as Ok. pose proof (po_sym _ _ _ _ Ok) as Hs.
  intros pos' Hg'. unfold part_step in Hg'. rewrite exit_poss, Hs, aget_aset_eq in Hg'. injection Hg' as <-.
  rewrite (fkeep_exit pos e rem). auto.
Qed.
Lemma close_Fg c m sd date s shares fill p filled rem p1 : cfg_ok c -> Core [] p -> nonempty_but None p -> Led c dzero p -> 0 < shares ->
  close_existing c sd date s shares fill p = (filled, rem, p1) -> Fg m sd s p -> Fg m sd s p1.
Proof.
  intros K C N L Sh E H. pose proof (close_existing_ok c sd date s shares fill p K C N L Sh) as CL. rewrite E in CL.
  pose proof (cf_entry_id _ _ _ _ (cl_frame _ _ _ _ _ _ _ _ CL)) as FE. unfold close_existing in E.
  destruct (aget s (poss sd p)) as [pos|] eqn:Hg; [|now injection E as _ _ <-].
  destruct (match sd with Long => false | Short => Qle_bool shares 0 end); [now injection E as _ _ <-|].
  pose proof (fifo_principle c sd date fill s (fun r q => Core [] q /\ Fg m sd s q)) as FP.
  specialize (FP (fun r q X => proj1 X)).
  specialize (FP (fun r q ps e es X G0 E0 _ _ => conj (full_step_core c sd date s fill ps e es q (proj1 X) G0 E0) (full_step_Fg c m sd date s fill ps e es q (proj1 X) (proj2 X) G0 E0))).
  assert (HP : forall r q ps e es, Core [] q /\ Fg m sd s q -> aget s (poss sd q) = Some ps -> ps_entries ps = e :: es ->
     0 < r -> r < e_shares e -> Core [] (part_step c sd date fill ps e r q) /\ Fg m sd s (part_step c sd date fill ps e r q)).
  { intros r q ps e es [X1 X2] G0 E0 R1 R2. split; [|eapply part_step_Fg; eauto].
    eapply exit_core_partial; eauto; rewrite ?E0; cbn; auto. }
  specialize (FP HP (ps_entries pos) shares pos p (conj C H) Hg eq_refl).
  destruct (fifo_loop c sd date fill (ps_entries pos) shares pos p) as [[rem' pos'] p'].
  destruct FP as [[C' M'] [G' _]]. injection E as _ _ <-.
  assert (FE' : p_entry_id (update_position sd pos' p') = p_entry_id p') by apply update_position_same.
  unfold update_position in *. destruct (ps_entries pos'); [|auto].
  pose proof (po_sym _ _ _ _ (co_pos _ _ C' _ _ _ G')) as Hs. rewrite Hs in *.
  intros b Hb. exfalso.
  match goal with H : context [if ?b then _ else _] |- _ => destruct b end;
  (assert (X : aget s (adel s (poss sd p')) = None) by (apply aget_adel_eq, (co_nodup _ _ C')));
  destruct sd; cbn in *; congruence.
Qed.

Lemma place_Fg c o a p p' r m sd s : cfg_ok c -> Good c p -> place c o a p = Ret p' r ->
  Fg m sd s p -> (aget s (poss sd p) = None -> m = (0, 0, 0, 0, 0, 0%nat)) -> Fg m sd s p'.
Proof.
  intros K G E H HN.
  destruct (Nat.eq_dec s (a_sym a)) as [->|Ns].
  2:{ destruct (place_frame _ _ _ _ _ _ K G E) as [_ [_ [_ [_ F]]]]. exact (Fg_same m sd s p p' (F sd s Ns) H). }
  destruct (place_ret _ _ _ _ _ _ K G E) as [[_ [CO _]]|[p2 [filled [bought [Hsh [_ [_ [HF [_ [-> _]]]]]]]]]].
  - apply (Fg_same m sd (a_sym a) p p'); auto. now rewrite (cc_poss _ _ CO).
  - assert (X : Fg m sd (a_sym a) p2).
    2:{ unfold the_order in *. eapply Fg_same; [|exact X]. now rewrite add_order_poss. }
    clear E. destruct HF as [_ _ _ _ _ _ [rem [p1 [ECl [HCl Hop]]]]].
    pose proof (cl_frame _ _ _ _ _ _ _ _ HCl) as F.
    assert (M1 : Fg m sd (a_sym a) p1).
    { destruct (side_dec sd (closes o)) as [->|N].
      - destruct G as [GC GN GL]. exact (close_Fg _ _ _ _ _ _ _ _ _ _ _ K GC GN GL Hsh ECl H).
      - eapply Fg_same; [|exact H]. rewrite (flip_neq _ _ N). now rewrite (cf_flip _ _ _ _ F). }
    destruct Hop as [[_ CO]|[[_ _ [q [o' [CO [_ [_ HO]]]]]] _]].
    + eapply Fg_same; [|exact M1]. now rewrite (cc_poss _ _ CO).
    + assert (Mq : Fg m sd (a_sym a) q).
      { eapply Fg_same; [|exact M1]. now rewrite (cc_poss _ _ CO). }
      destruct (side_dec sd (opens o)) as [->|N].
      * assert (Pq : poss (opens o) q = poss (opens o) p).
        { rewrite (cc_poss _ _ CO), <- flip_closes. apply (cf_flip _ _ _ _ F). }
        intros pos Hg. rewrite (op_poss _ _ _ _ _ _ _ _ _ HO), aget_aset_eq in Hg. injection Hg as <-.
        unfold opened. destruct (aget (a_sym a) (poss (opens o) q)) as [b|] eqn:Gb.
        -- exact (Mq b Gb).
        -- rewrite HN by (now rewrite <- Pq). reflexivity.
      * apply (Fg_same m sd (a_sym a) q p2); auto. rewrite (flip_neq _ _ N). now rewrite (op_flip _ _ _ _ _ _ _ _ _ HO).
Qed.
Lemma strips_Fg m sd s p p' : strips p p' -> Fg m sd s p -> Fg m sd s p'.
Proof.
  intros [A _ P] H pos Hg. specialize (P sd s). destruct (aget s (poss sd p)) as [a|] eqn:Ga; [|congruence].
  destruct P as [es [E F]]. rewrite E in Hg. injection Hg as <-. exact (H a Ga).
Qed.

Definition upnl (sd : side) (x : Q) (es : list entry) : Q := Qsum (map (entry_upnl sd x) es).
Definition fg_of (m : option (port * Q)) (sd : side) (s : sym) : Q * Q * Q * Q * Q :=
  match m with
  | None => (0, 0, 0, 0, 0)
  | Some (q, x) =>
      match aget s (poss sd q) with
      | None => (0, 0, 0, 0, 0)
      | Some a =>
          let g := upnl (ps_type a) x (ps_entries a) in
          match sd with
          | Long => (x, ps_shares a * x, ps_shares a * x, 0, g)
          | Short => (x, 0, x * ps_shares a + g, x * ps_shares a, g)
          end
      end
  end.
Lemma fg_unused m sd s pos : figs5 pos = fg_of m sd s ->
  match sd with Long => ps_margin pos = 0 | Short => ps_equity pos = 0 end.
Proof.
  unfold figs5, fg_of. destruct m as [[q x]|]; [destruct (aget s (poss sd q)) as [a|]|]; destruct sd; intros H; injection H as H1 H2 H3 H4 H5; auto.
Qed.
Lemma last_priced_snoc c ops p o p' : history c (ops ++ [o]) = history c ops ++ [(p, o, p')] ->
  forall sd s, last_priced c (ops ++ [o]) sd s =
    match position_of p' sd s with
    | None => None
    | Some _ => match o with
                | OpCapture _ bar => match close_of bar s with Some x => Some (p, x) | None => last_priced c ops sd s end
                | _ => last_priced c ops sd s
                end
    end.
Proof. intros H sd s. unfold last_priced at 1. rewrite H, fold_left_app. reflexivity. Qed.

Lemma bars_held_snoc c ops p o p' : history c (ops ++ [o]) = history c ops ++ [(p, o, p')] ->
  forall sd s, bars_held c (ops ++ [o]) sd s =
    match position_of p' sd s with
    | None => 0%nat
    | Some _ => match o with OpIncr _ => S (bars_held c ops sd s) | _ => bars_held c ops sd s end
    end.
Proof. intros H sd s. unfold bars_held at 1. rewrite H, fold_left_app. reflexivity. Qed.

Lemma figures_history c ops p : cfg_ok c -> run c ops = Some p -> forall sd s,
  Fg (fg_of (last_priced c ops sd s) sd s, bars_held c ops sd s) sd s p /\
  (position_of p sd s = None -> last_priced c ops sd s = None /\ bars_held c ops sd s = 0%nat).
Proof.
  intro K. revert ops p.
  apply (hist_ind c (fun ops p => forall sd s,
    Fg (fg_of (last_priced c ops sd s) sd s, bars_held c ops sd s) sd s p /\
  (position_of p sd s = None -> last_priced c ops sd s = None /\ bars_held c ops sd s = 0%nat)) K).
  { intros sd s. split; auto. intros pos H. destruct sd; discriminate. }
  intros ops p o p' R G IH E G' Hh sd s.
  destruct (IH sd s) as [M N]. clear IH. rewrite (last_priced_snoc _ _ _ _ _ Hh), (bars_held_snoc _ _ _ _ _ Hh).
  destruct (position_of p' sd s) as [pos'|] eqn:Hp'; [|split; auto; intros x Hx; unfold position_of in Hp'; congruence].
  split; [|discriminate].
  assert (N' : aget s (poss sd p) = None -> (fg_of (last_priced c ops sd s) sd s, bars_held c ops sd s) = (0, 0, 0, 0, 0, 0%nat)).
  { intros X. destruct (N X) as [-> ->]. reflexivity. }
  unfold exec in E. destruct o as [a|a|d x b sl sm|d sc sm|d bar|hb|id|v t|ml ms]; cbn [step] in E.
  - rewrite buy_place in E. pose proof (place_good c OBuy a p K G) as H. destruct (place c OBuy a p) as [q r|q []] eqn:Ep; cbn in E; inversion E; subst; auto.
    exact (place_Fg _ _ _ _ _ _ _ _ _ K G Ep M N').
  - rewrite sell_place in E. pose proof (place_good c OSell a p K G) as H. destruct (place c OSell a p) as [q r|q []] eqn:Ep; cbn in E; inversion E; subst; auto.
    exact (place_Fg _ _ _ _ _ _ _ _ _ K G Ep M N').
  - pose proof (exit_flat c ops p d x b sl sm K R) as H.
    destruct (exit_position c d x b sl sm p) as [q r|q []]; inversion E; subst; auto.
    destruct H as [H1 [H2 _]]. destruct (Nat.eq_dec s x) as [->|Ns]; [rewrite H1 in Hp'; discriminate|].
    eapply Fg_same; [|exact M]. apply H2. auto.
  - pose proof (check_stops_ok c d sc sm p K G) as H. pose proof (fcheck_keeps c d sc sm p (gd_core _ _ G)) as KI.
    destruct (check_stops c d sc sm p) as [q r|q []] eqn:Ec; inversion E; subst; [|destruct H; congruence].
    intros pos Hg. destruct (kf_pos _ _ KI _ _ _ Hg) as [_ [a [Ga K1]]]. rewrite K1. auto.
  - injection E as <-. pose proof (capture_ok c d bar p K G) as CA. intros pos Hg.
    rewrite (ca_pos _ _ _ _ _ CA) in Hg. destruct (aget s (poss sd p)) as [a|] eqn:Ga; [|discriminate]. cbn in Hg. injection Hg as <-.
    assert (MA := M a Ga). unfold figs in MA. injection MA as MA MB. pose proof (fg_unused _ _ _ _ MA) as U. unfold close_of.
    destruct (bar s) as [[[cl lo] hi]|] eqn:Eb; [|exact (M a Ga)].
    unfold fg_of. rewrite Ga. unfold figs, figs5, mark. destruct sd; cbn; rewrite U, MB; reflexivity.
  - injection E as <-. intros pos Hg. rewrite incr_poss, mapv_get in Hg.
    destruct (aget s (poss sd p)) as [a|] eqn:Ga; [|discriminate]. cbn in Hg. injection Hg as <-. assert (MA := M a Ga). unfold figs in *. injection MA as MA MB. rewrite <- MA, <- MB. reflexivity.
  - injection E as <-. eapply strips_Fg; [apply remove_stop_strips|exact M].
  - injection E as <-. eapply strips_Fg; [apply remove_stops_strips|exact M].
  - injection E as <-. eapply Fg_same; [|exact M]; destruct sd; reflexivity.
Qed.
Lemma priced_in c ops p : cfg_ok c -> run c ops = Some p -> forall sd s q x,
  last_priced c ops sd s = Some (q, x) -> exists a, aget s (poss sd q) = Some a /\ ps_type a = sd.
Proof.
  intro K. revert ops p.
  apply (hist_ind c (fun ops p => forall sd s q x,
    last_priced c ops sd s = Some (q, x) -> exists a, aget s (poss sd q) = Some a /\ ps_type a = sd) K).
  { discriminate. }
  intros ops p o p' R G IH E G' Hh sd s q x. rewrite (last_priced_snoc _ _ _ _ _ Hh).
  destruct (position_of p' sd s) as [pos'|] eqn:Hp'; [|discriminate].
  destruct o as [a|a|d y b sl sm|d sc sm|d bar|hb|id|v t|ml ms]; try (apply IH).
  destruct (close_of bar s) as [y|]; [|apply IH]. intros H. injection H as <- <-.
  cbn in E. injection E as <-. pose proof (capture_ok c d bar p K G) as CA. unfold position_of in Hp'.
  rewrite (ca_pos _ _ _ _ _ CA) in Hp'. destruct (aget s (poss sd p)) as [a|] eqn:Ga; [|discriminate].
  exists a. split; auto. apply (po_type _ _ _ _ (co_pos _ _ (gd_core _ _ G) _ _ _ Ga)).
Qed.
Lemma upnl_gain sd x es : upnl sd x es == Qsum (map (fun e => e_shares e * gain sd (e_price e) x) es).
Proof.
  unfold upnl. induction es as [|e l IH]; [reflexivity|]. unfold Qsum in *. cbn [map fold_right]. rewrite IH.
  unfold entry_upnl, gain. destruct sd; ring.
Qed.

Theorem figures_of c ops p sd s pos : cfg_ok c -> run c ops = Some p -> position_of p sd s = Some pos ->
  match last_priced c ops sd s with
  | None => no_figures pos
  | Some (q, x) => figures_at q sd s x pos
  end.
Proof.
  intros K R H. destruct (figures_history c ops p K R sd s) as [M _]. specialize (M pos H). unfold figs in M. injection M as M _.
  destruct (last_priced c ops sd s) as [[q x]|] eqn:L.
  - destruct (priced_in c ops p K R sd s q x L) as [a [Ga Ta]]. unfold fg_of in M. rewrite Ga, Ta in M.
    unfold figures_at, gain_of, shares_held, queue, position_of. pose proof (upnl_gain sd x (ps_entries a)) as U.
    unfold figs5 in M. destruct sd; injection M as -> -> -> -> ->; cbv beta iota; rewrite !Ga; repeat split; try reflexivity; try exact U; try ring.
    rewrite U. ring.
  - unfold no_figures. unfold fg_of, figs5 in M. injection M as -> -> -> -> ->. repeat split; reflexivity.
Qed.

(** No call but [capture_bar] changes the figures of a position. *)
Lemma figures_kept c ops p o p' sd s a b : cfg_ok c -> run c ops = Some p -> exec c (Some p) o = Some p' ->
  (forall d bar, o = OpCapture d bar -> close_of bar s = None) ->
  position_of p sd s = Some a -> position_of p' sd s = Some b ->
  ps_close b = ps_close a /\ ps_equity b = ps_equity a /\ ps_mv b = ps_mv a /\ ps_margin b = ps_margin a /\ ps_pnl b = ps_pnl a.
Proof.
  intros K R E NC Ha Hb.
  assert (R' : run c (ops ++ [o]) = Some p') by (unfold run in *; rewrite fold_left_app, R; exact E).
  assert (Hh : history c (ops ++ [o]) = history c ops ++ [(p, o, p')]).
  { apply (history_snoc c ops o p p' R E). }
  destruct (figures_history c ops p K R sd s) as [M _]. destruct (figures_history c _ p' K R' sd s) as [M' _].
  specialize (M a Ha). specialize (M' b Hb). unfold figs in M, M'. injection M as M _. injection M' as M' _. rewrite (last_priced_snoc _ _ _ _ _ Hh), Hb in M'.
  assert (X : figs5 b = figs5 a).
  { rewrite M, M'. destruct o; try reflexivity. now rewrite (NC _ _ eq_refl). }
  unfold figs5 in X. injection X as X1 X2 X3 X4 X5. auto.
Qed.

Theorem bars_of c ops p sd s pos : cfg_ok c -> run c ops = Some p -> position_of p sd s = Some pos ->
  ps_bars pos = bars_held c ops sd s.
Proof.
  intros K R H. destruct (figures_history c ops p K R sd s) as [M _]. specialize (M pos H).
  unfold figs in M. now injection M.
Qed.

(** ** Shares not yet marked *)
Section Kept.
Variable R : position -> position -> Prop.
Hypothesis RR : forall a, R a a.
Record ukept_in (p q : port) : Prop := mkKU {
  ku_nd : forall sd, NoDup (akeys (poss sd q));
  ku_pos : forall sd s b, aget s (poss sd q) = Some b ->
    ps_sym b = s /\ exists a, aget s (poss sd p) = Some a /\ R a b
}.
Lemma ku_refl p : Core [] p -> ukept_in p p.
Proof.
  intro C. constructor; [intro; apply (co_nodup _ _ C)|]. intros sd s b H.
  split; [apply (po_sym _ _ _ _ (co_pos _ _ C _ _ _ H))|]. exists b. split; [auto|apply RR].
Qed.
Lemma ku_same p q r : (forall sd, poss sd r = poss sd q) -> ukept_in p q -> ukept_in p r.
Proof. intros E [A B]. constructor; intro sd; rewrite E; auto. Qed.
Lemma ku_put p q sd s a b : ukept_in p q -> aget s (poss sd q) = Some a -> (forall a0, R a0 a -> R a0 b) -> ps_sym b = s ->
  forall r, poss sd r = aset s b (poss sd q) -> poss (flip sd) r = poss (flip sd) q -> ukept_in p r.
Proof.
  intros [A B] G K S r P1 P2. constructor.
  - intro sd1. destruct (side_dec sd1 sd) as [->|N]; [rewrite P1; apply NoDup_aset; auto|].
    rewrite (flip_neq _ _ N), P2. auto.
  - intros sd1 s1 b1 H. destruct (side_dec sd1 sd) as [->|N].
    + rewrite P1, aget_aset in H. destruct (Nat.eqb_spec s1 s) as [->|Ns].
      * injection H as <-. split; auto. destruct (B _ _ _ G) as [_ [a0 [G0 K0]]]. exists a0. split; auto.
      * apply B in H. exact H.
    + pose proof (flip_neq _ _ N) as ->. rewrite P2 in H. apply B in H. exact H.
Qed.
Lemma ku_update p q sd pos : ukept_in p q -> ukept_in p (update_position sd pos q).
Proof.
  intros [A B]. unfold update_position. destruct (ps_entries pos); [|constructor; auto].
  assert (X : forall r, (forall sd1, poss sd1 r = if side_eqb sd1 sd then adel (ps_sym pos) (poss sd q) else poss sd1 q) -> ukept_in p r).
  { intros r P. constructor.
    - intro sd1. rewrite P. destruct (side_eqb sd1 sd); auto. apply NoDup_adel. auto.
    - intros sd1 s1 b H. rewrite P in H. destruct (side_eqb sd1 sd) eqn:E; [|auto]. apply side_eqb_eq in E. subst sd1.
      rewrite aget_adel in H by auto. destruct (Nat.eqb s1 (ps_sym pos)); [discriminate|]. auto. }
  match goal with |- context [if ?b then _ else _] => destruct b end; apply X; intro sd1; destruct sd, sd1; reflexivity.
Qed.
Lemma ku_finish (RF : forall a0 a es, R a0 a -> R a0 (set_ps_entries es a)) p q x : ukept_in p q -> ukept_in p (finish_exit q x).
Proof.
  intro K. destruct x as [[sd s] eid]. unfold finish_exit. destruct (aget s (poss sd q)) as [pos|] eqn:G; auto.
  destruct (find_entry eid (ps_entries pos)) as [e|]; auto. apply ku_update.
  eapply ku_same; [apply (sb_poss _ _ (remove_stop_data_sbs _ _))|].
  apply (ku_put p q sd s pos (set_ps_entries (remove_entry eid (ps_entries pos)) pos) K G).
  - intros a0. apply RF.
  - apply (ku_pos _ _ K _ _ _ G).
  - apply poss_set_poss.
  - apply poss_set_poss_flip.
Qed.
Section Loops.
Hypothesis RX : forall a0 pos e, In e (ps_entries pos) -> R a0 pos -> R a0 (exit_pos pos e (e_shares e)).
Lemma ku_trigger c date sc sm pos e st p q : ukept_in p q -> aget (st_sym st) (poss (st_pos st) q) = Some pos -> In e (ps_entries pos) ->
  match trigger_stop c date sc sm pos e st q with Ret r _ => ukept_in p r | Raise _ _ => True end.
Proof.
  intros K G IE. unfold trigger_stop. destruct (negb _); [auto|].
  match goal with |- match (match ?d with Ret _ _ => _ | Raise _ _ => _ end) with _ => _ end => set (dc := d) end.
  assert (D : match dc with Ret r _ => forall sd, poss sd r = poss sd q | Raise _ _ => True end).
  { unfold dc. destruct (st_type st).
    - destruct (trigger_bar_stop st sc e); auto.
    - destruct (aget (st_id st) (p_stop_data q)); auto.
    - destruct (aget (st_id st) (p_stop_data q)); auto.
    - destruct (aget (st_id st) (p_stop_data q)) as [s|]; auto. destruct (trigger_price_stop st (sd_value s) sc); auto.
      destruct (ratchet st (sd_value s) sc); auto. }
  destruct dc as [r [m|]|r x]; auto; [|eapply ku_same; eauto].
  match goal with |- match (if ?b then _ else _) with _ => _ end => destruct b end; [eapply ku_same; eauto|].
  destruct (_ && _); auto.
  destruct (exit_entry _ _ _ _ _ _ _ _ _) as [pos1 p1] eqn:Ex.
  destruct (add_order _ _ _ _ _ _ _ _ _ _ _ _) as [p2 o] eqn:Ea.
  assert (P2 : forall sd, poss sd p2 = poss sd p1).
  { intro sd. change p2 with (fst (p2, o)). rewrite <- Ea. apply add_order_poss. }
  apply (ku_same _ p1); auto.
  assert (KR : ukept_in p r) by (eapply ku_same; eauto).
  assert (GR : aget (st_sym st) (poss (st_pos st) r) = Some pos) by now rewrite D.
  assert (E1 : p1 = snd (exit_entry c (st_pos st) date pos e (e_shares e) (slip_stop_fill sm st e m) (Some (st_type st)) r)) by now rewrite Ex.
  destruct (ku_pos _ _ KR _ _ _ GR) as [Hs _].
  apply (ku_put p r (st_pos st) (st_sym st) pos (exit_pos pos e (e_shares e)) KR GR (fun a0 => RX a0 pos e IE)).
  - now rewrite exit_sym.
  - rewrite E1, exit_poss, Hs. reflexivity.
  - rewrite E1. apply exit_poss_other.
Qed.
Definition kures (p : port) (r : res executed) : Prop := match r with Ret q _ => ukept_in p q | Raise _ _ => True end.
Lemma ku_price c date sc sm s id p r : kures p r -> kures p (check_price_stop c date sc sm s id r).
Proof.
  intros K. unfold check_price_stop. destruct r as [q ex|]; [|exact I]. cbn in K.
  destruct (aget id (p_stop_data q)) as [d|]; [|exact I]. destruct (is_triggered _ _); [exact K|].
  destruct (aget s (poss (st_pos (sd_stop d)) q)) as [pos|] eqn:G; [|exact K].
  destruct (find_entry _ _) as [e|] eqn:FE; [|exact I]. apply find_some in FE. destruct FE as [FE _].
  destruct (Nat.eqb_spec (st_sym (sd_stop d)) s) as [E|]; [|exact I]. cbn [negb].
  pose proof (ku_trigger c date sc sm pos e (sd_stop d) p q K) as H. rewrite E in H. specialize (H G FE).
  destruct (trigger_stop c date sc sm pos e (sd_stop d) q) as [r [|]|]; auto; exact I.
Qed.
Lemma ku_price_loop c date sc sm p active : forall r, kures p r -> kures p (price_loop c date sc sm active r).
Proof.
  unfold price_loop. induction active as [|[s l] a IH]; cbn; auto. intros r K. apply IH.
  destruct (sc_can_price sc s); auto. revert r K. induction l as [|i l IHl]; cbn; auto. intros r K. apply IHl. now apply ku_price.
Qed.
Lemma ku_bar_stops c date sc sm sd s eid p stops : forall r, kures p r -> kures p (bar_stops_loop c date sc sm sd s eid stops r).
Proof.
  induction stops as [|t l IH]; intros [q ex|]; cbn; auto. intro K.
  destruct (st_type t); auto. destruct (aget s (poss sd q)) as [pos|] eqn:G; [|exact I].
  destruct (find_entry _ _) as [e|] eqn:FE; [|exact I]. apply find_some in FE. destruct FE as [FE _].
  destruct (Nat.eqb (st_sym t) s && side_eqb (st_pos t) sd) eqn:E; [|exact I]. cbn [negb].
  apply andb_true_iff in E. destruct E as [E1 E2]. apply Nat.eqb_eq in E1. apply side_eqb_eq in E2.
  pose proof (ku_trigger c date sc sm pos e t p q K) as H. rewrite E1, E2 in H. specialize (H G FE).
  destruct (trigger_stop c date sc sm pos e t q) as [r [|]|]; auto; exact I.
Qed.
Lemma ku_bar_loop c date sc sm sd p d : forall r, kures p r -> kures p (bar_loop c date sc sm sd d r).
Proof.
  unfold bar_loop. induction d as [|[s pos] d IH]; cbn; auto. intros r K. apply IH.
  destruct (sc_can_price sc (ps_sym pos)); auto. unfold bar_entries_loop. revert r K.
  induction (ps_entries pos) as [|e l IHl]; cbn; auto. intros r K. apply IHl. destruct r as [q ex|]; auto.
  destruct (is_triggered (e_id e) ex); auto. now apply ku_bar_stops.
Qed.
End Loops.
End Kept.

(** All shares of the position are unmarked. *)
Definition unm (a : position) : Prop := ps_un_shares a == ps_shares a /\ ps_un_notional a == ps_notional a.
Definition unms (a : position) : Prop := unm a /\ ps_shares a == tot (ps_entries a) /\ ps_notional a == totc (ps_entries a)
  /\ NoDup (map e_id (ps_entries a)) /\ (forall e, In e (ps_entries a) -> 0 <= e_shares e).
Lemma unms_exit a e x : In e (ps_entries a) -> 0 <= x -> x <= e_shares e -> unms a -> unms (exit_pos a e x).
Proof.
  intros I X1 X2 ((U1 & U2) & S & N & D & P).
  set (es := upd_entry (e_id e) (fun y => set_e_shares (e_shares y - x) y) (ps_entries a)).
  assert (T : tot es == tot (ps_entries a) - x).
  { unfold tot, es. rewrite (upd_entry_sum e_shares) by auto. cbn. lra. }
  assert (TC : totc es == totc (ps_entries a) - x * e_price e).
  { unfold totc, es. rewrite (upd_entry_sum cost) by auto. unfold cost. cbn. ring. }
  assert (P' : forall y, In y es -> 0 <= e_shares y).
  { intros y Hy. apply In_upd_entry in Hy. destruct Hy as [(Hy & _)|(z & Hz & Ez & ->)]; [auto|].
    rewrite (id_inj _ z e D Hz I Ez). cbn. lra. }
  assert (D' : NoDup (map e_id es)) by (unfold es; rewrite upd_entry_ids; auto).
  pose proof (tot_nonneg es P') as TN.
  unfold unms, unm, exit_pos. rewrite clamp_shares_f, clamp_notional, clamp_entries. cbn [ps_shares ps_notional ps_entries set_ps_notional set_ps_entries set_ps_shares].
  fold es. split; [|split; [rewrite T; lra|split; [rewrite TC; lra|auto]]].
  unfold clamp_unmarked. cbn [ps_un_shares ps_un_notional ps_shares ps_notional ps_entries set_ps_notional set_ps_entries set_ps_shares]. fold es.
  destruct (Qle_bool (ps_un_shares a) 0) eqn:B1; qb.
  { cbn. assert (Z : x == 0) by lra. rewrite U1, U2, Z. split; lra. }
  destruct (Qle_bool (ps_shares a - x) 0) eqn:B2; qb.
  { cbn. assert (TZ : tot es <= 0) by lra. pose proof (totc_zero es P' TZ). split; lra. }
  destruct (Qltb (ps_shares a - x) (ps_un_shares a)) eqn:B3; qb.
  { cbn. split; [reflexivity|]. rewrite clamp_loop_all.
    - rewrite totc_rev, TC. lra.
    - intros y Hy. apply P'. now apply in_rev.
    - rewrite tot_rev, T. lra. }
  cbn. assert (Z : x == 0) by lra. rewrite U1, U2, Z. split; lra.
Qed.
Lemma unms_of p sd s a : Core [] p -> aget s (poss sd p) = Some a -> unm a -> unms a.
Proof.
  intros G H U. pose proof (co_pos _ _ G _ _ _ H) as Ok. split; [exact U|]. split; [apply Ok|]. split; [apply Ok|]. split; [apply Ok|].
  intros e I. apply Qlt_le_weak, (eo_pos _ _ _ _ (po_entries _ _ _ _ Ok e I)). intros [].
Qed.

Definition Ua (sd : side) (s : sym) (p : port) : Prop := forall pos, aget s (poss sd p) = Some pos -> unm pos.
Lemma Ua_same sd s p p' : aget s (poss sd p') = aget s (poss sd p) -> Ua sd s p -> Ua sd s p'.
Proof. intros E H pos. rewrite E. apply H. Qed.
Lemma full_step_U c sd date s fill pos e es p : Core [] p -> Ua sd s p ->
  aget s (poss sd p) = Some pos -> ps_entries pos = e :: es -> Ua sd s (full_step c sd date s fill pos e p).
Proof.
  intros C H Hg He. pose proof (co_pos _ _ C _ _ _ Hg) as Ok. pose proof (po_sym _ _ _ _ Ok) as Hs.
  pose proof (unms_of _ _ _ _ C Hg (H _ Hg)) as U. assert (I : In e (ps_entries pos)) by (rewrite He; now left).
  assert (P : 0 <= e_shares e) by (apply U; exact I).
  intros pos' Hg'. rewrite poss_full_step, aget_aset_eq in Hg' by auto. injection Hg' as <-.
  destruct (unms_exit pos e (e_shares e) I P (Qle_refl _) U) as [[U1 U2] _]. split; [exact U1 | exact U2].
Qed.
Lemma part_step_U c sd date s fill pos e es rem p : Core [] p -> Ua sd s p ->
  aget s (poss sd p) = Some pos -> ps_entries pos = e :: es -> 0 < rem -> rem < e_shares e ->
  Ua sd s (part_step c sd date fill pos e rem p).
Proof.
  intros C H Hg He R1 R2. pose proof (co_pos _ _ C _ _ _ Hg) as Ok. pose proof (po_sym _ _ _ _ Ok) as Hs.
  pose proof (unms_of _ _ _ _ C Hg (H _ Hg)) as U. assert (I : In e (ps_entries pos)) by (rewrite He; now left).
  intros pos' Hg'. unfold part_step in Hg'. rewrite exit_poss, Hs, aget_aset_eq in Hg'. injection Hg' as <-.
  apply (unms_exit pos e rem I); auto; lra.
Qed.
Lemma close_U c sd date s shares fill p filled rem p1 : cfg_ok c -> Core [] p -> nonempty_but None p -> Led c dzero p -> 0 < shares ->
  close_existing c sd date s shares fill p = (filled, rem, p1) -> Ua sd s p -> Ua sd s p1.
Proof.
  intros K C N L Sh E H. pose proof (close_existing_ok c sd date s shares fill p K C N L Sh) as CL. rewrite E in CL.
  pose proof (cf_entry_id _ _ _ _ (cl_frame _ _ _ _ _ _ _ _ CL)) as FE. unfold close_existing in E.
  destruct (aget s (poss sd p)) as [pos|] eqn:Hg; [|now injection E as _ _ <-].
  destruct (match sd with Long => false | Short => Qle_bool shares 0 end); [now injection E as _ _ <-|].
  pose proof (fifo_principle c sd date fill s (fun r q => Core [] q /\ Ua sd s q)) as FP.
  specialize (FP (fun r q X => proj1 X)).
  specialize (FP (fun r q ps e es X G0 E0 _ _ => conj (full_step_core c sd date s fill ps e es q (proj1 X) G0 E0) (full_step_U c sd date s fill ps e es q (proj1 X) (proj2 X) G0 E0))).
  assert (HP : forall r q ps e es, Core [] q /\ Ua sd s q -> aget s (poss sd q) = Some ps -> ps_entries ps = e :: es ->
     0 < r -> r < e_shares e -> Core [] (part_step c sd date fill ps e r q) /\ Ua sd s (part_step c sd date fill ps e r q)).
  { intros r q ps e es [X1 X2] G0 E0 R1 R2. split; [|eapply part_step_U; eauto].
    eapply exit_core_partial; eauto; rewrite ?E0; cbn; auto. }
  specialize (FP HP (ps_entries pos) shares pos p (conj C H) Hg eq_refl).
  destruct (fifo_loop c sd date fill (ps_entries pos) shares pos p) as [[rem' pos'] p'].
  destruct FP as [[C' M'] [G' _]]. injection E as _ _ <-.
  assert (FE' : p_entry_id (update_position sd pos' p') = p_entry_id p') by apply update_position_same.
  unfold update_position in *. destruct (ps_entries pos'); [|auto].
  pose proof (po_sym _ _ _ _ (co_pos _ _ C' _ _ _ G')) as Hs. rewrite Hs in *.
  intros b Hb. exfalso.
  match goal with H : context [if ?b then _ else _] |- _ => destruct b end;
  (assert (X : aget s (adel s (poss sd p')) = None) by (apply aget_adel_eq, (co_nodup _ _ C')));
  destruct sd; cbn in *; congruence.
Qed.

Lemma place_U c o a p p' r sd s : cfg_ok c -> Good c p -> place c o a p = Ret p' r ->
  Ua sd s p -> Ua sd s p'.
Proof.
  intros K G E H.
  destruct (Nat.eq_dec s (a_sym a)) as [->|Ns].
  2:{ destruct (place_frame _ _ _ _ _ _ K G E) as [_ [_ [_ [_ F]]]]. exact (Ua_same sd s p p' (F sd s Ns) H). }
  destruct (place_ret _ _ _ _ _ _ K G E) as [[_ [CO _]]|[p2 [filled [bought [Hsh [_ [_ [HF [_ [-> _]]]]]]]]]].
  - apply (Ua_same sd (a_sym a) p p'); auto. now rewrite (cc_poss _ _ CO).
  - assert (X : Ua sd (a_sym a) p2).
    2:{ unfold the_order in *. eapply Ua_same; [|exact X]. now rewrite add_order_poss. }
    clear E. destruct HF as [_ _ _ _ _ _ [rem [p1 [ECl [HCl Hop]]]]].
    pose proof (cl_frame _ _ _ _ _ _ _ _ HCl) as F.
    assert (M1 : Ua sd (a_sym a) p1).
    { destruct (side_dec sd (closes o)) as [->|N].
      - destruct G as [GC GN GL]. exact (close_U _ _ _ _ _ _ _ _ _ _ K GC GN GL Hsh ECl H).
      - eapply Ua_same; [|exact H]. rewrite (flip_neq _ _ N). now rewrite (cf_flip _ _ _ _ F). }
    destruct Hop as [[_ CO]|[[_ _ [q [o' [CO [_ [_ HO]]]]]] _]].
    + eapply Ua_same; [|exact M1]. now rewrite (cc_poss _ _ CO).
    + assert (Mq : Ua sd (a_sym a) q).
      { eapply Ua_same; [|exact M1]. now rewrite (cc_poss _ _ CO). }
      destruct (side_dec sd (opens o)) as [->|N].
      * assert (Pq : poss (opens o) q = poss (opens o) p).
        { rewrite (cc_poss _ _ CO), <- flip_closes. apply (cf_flip _ _ _ _ F). }
        intros pos Hg. rewrite (op_poss _ _ _ _ _ _ _ _ _ HO), aget_aset_eq in Hg. injection Hg as <-.
        unfold opened. destruct (aget (a_sym a) (poss (opens o) q)) as [b|] eqn:Gb.
        -- destruct (Mq b Gb) as [U1 U2]. split; cbn; rewrite ?U1, ?U2; reflexivity.
        -- split; cbn; ring.
      * apply (Ua_same sd (a_sym a) q p2); auto. rewrite (flip_neq _ _ N). now rewrite (op_flip _ _ _ _ _ _ _ _ _ HO).
Qed.
Lemma strips_U sd s p p' : strips p p' -> Ua sd s p -> Ua sd s p'.
Proof.
  intros [A _ P] H pos Hg. specialize (P sd s). destruct (aget s (poss sd p)) as [a|] eqn:Ga; [|congruence].
  destruct P as [es [E F]]. rewrite E in Hg. injection Hg as <-. exact (H a Ga).
Qed.
Lemma check_U c date sc sm p q u sd s : Core [] p -> check_stops c date sc sm p = Ret q u -> Ua sd s p -> Ua sd s q.
Proof.
  intros C E H. unfold check_stops in E.
  set (R := fun a b : position => unms a -> unms b).
  assert (RR : forall a, R a a) by (intros a X; exact X).
  assert (RX : forall a0 pos e, In e (ps_entries pos) -> R a0 pos -> R a0 (exit_pos pos e (e_shares e))).
  { intros a0 pos e I K X. apply unms_exit; [exact I| |apply Qle_refl|exact (K X)]. apply (K X). exact I. }
  set (r1 := price_loop c date sc sm (p_active p) (Ret p [])) in *.
  assert (K1 : kures R p r1) by (apply ku_price_loop; [exact RX|]; cbn; now apply ku_refl). clearbody r1.
  set (r2 := match r1 with Raise _ _ => r1 | Ret p1 _ => bar_loop c date sc sm Long (p_longs p1) r1 end) in *.
  assert (K2 : kures R p r2) by (unfold r2; destruct r1; auto; now apply ku_bar_loop). clearbody r2.
  set (r3 := match r2 with Raise _ _ => r2 | Ret p1 _ => bar_loop c date sc sm Short (p_shorts p1) r2 end) in *.
  assert (K3 : kures R p r3) by (unfold r3; destruct r2; auto; now apply ku_bar_loop). clearbody r3.
  destruct r3 as [q3 ex|]; [|discriminate]. injection E as <- _. cbn in K3.
  set (R2 := fun a b : position => unms a -> unm b).
  assert (K4 : ukept_in R2 p q3).
  { destruct K3 as [A B]. constructor; [exact A|]. intros sd1 s1 b Hb. destruct (B _ _ _ Hb) as [B1 [a [B2 B3]]].
    split; [exact B1|]. exists a. split; [exact B2|]. intros X. apply (B3 X). }
  assert (K5 : forall ex q, ukept_in R2 p q -> ukept_in R2 p (fold_left finish_exit ex q)).
  { clear. intros ex. induction ex as [|x ex IH]; cbn; auto. intros q K. apply IH. apply ku_finish; [|exact K].
    intros a0 a es X Y. exact (X Y). }
  intros b Hb. destruct (ku_pos _ _ _ (K5 ex q3 K4) _ _ _ Hb) as [_ [a [Ga Ka]]]. apply Ka.
  apply (unms_of p sd s); auto.
Qed.

Lemma unmarked_history c ops p : cfg_ok c -> run c ops = Some p -> forall sd s, last_mark c ops sd s = None -> Ua sd s p.
Proof.
  intro K. revert ops p.
  apply (hist_ind c (fun ops p => forall sd s, last_mark c ops sd s = None -> Ua sd s p) K).
  { intros sd s _ pos H. destruct sd; discriminate. }
  intros ops p o p' R G IH E G' Hh sd s. rewrite (last_mark_snoc _ _ _ _ _ Hh).
  destruct (position_of p' sd s) as [pos'|] eqn:Hp'; [|intros _ x Hx; unfold position_of in Hp'; congruence].
  specialize (IH sd s).
  unfold exec in E. destruct o as [a|a|d x b sl sm|d sc sm|d bar|hb|id|v t|ml ms]; cbn [step] in E.
  - intros L. specialize (IH L). rewrite buy_place in E. pose proof (place_good c OBuy a p K G) as H. destruct (place c OBuy a p) as [q r|q []] eqn:Ep; cbn in E; inversion E; subst; auto.
    exact (place_U _ _ _ _ _ _ _ _ K G Ep IH).
  - intros L. specialize (IH L). rewrite sell_place in E. pose proof (place_good c OSell a p K G) as H. destruct (place c OSell a p) as [q r|q []] eqn:Ep; cbn in E; inversion E; subst; auto.
    exact (place_U _ _ _ _ _ _ _ _ K G Ep IH).
  - intros L. specialize (IH L). pose proof (exit_flat c ops p d x b sl sm K R) as H.
    destruct (exit_position c d x b sl sm p) as [q r|q []]; inversion E; subst; auto.
    destruct H as [H1 [H2 _]]. destruct (Nat.eq_dec s x) as [->|Ns]; [rewrite H1 in Hp'; discriminate|].
    eapply Ua_same; [|exact IH]. apply H2. auto.
  - intros L. specialize (IH L). pose proof (check_stops_ok c d sc sm p K G) as H.
    destruct (check_stops c d sc sm p) as [q r|q []] eqn:Ec; inversion E; subst; [|destruct H; congruence].
    exact (check_U _ _ _ _ _ _ _ _ _ (gd_core _ _ G) Ec IH).
  - injection E as <-. unfold close_of. destruct (bar s) as [[[cl lo] hi]|] eqn:Eb; [discriminate|].
    intros L. specialize (IH L). pose proof (capture_ok c d bar p K G) as CA. intros pos Hg.
    rewrite (ca_pos _ _ _ _ _ CA), Eb in Hg. destruct (aget s (poss sd p)) as [a|] eqn:Ga; [|discriminate]. cbn in Hg. injection Hg as <-.
    exact (IH a Ga).
  - intros L. specialize (IH L). injection E as <-. intros pos Hg. rewrite incr_poss, mapv_get in Hg.
    destruct (aget s (poss sd p)) as [a|] eqn:Ga; [|discriminate]. cbn in Hg. injection Hg as <-. exact (IH a Ga).
  - intros L. injection E as <-. eapply strips_U; [apply remove_stop_strips|auto].
  - intros L. injection E as <-. eapply strips_U; [apply remove_stops_strips|auto].
  - intros L. injection E as <-. eapply Ua_same; [|exact (IH L)]; destruct sd; reflexivity.
Qed.

Theorem unmarked_of c ops p sd s pos : cfg_ok c -> run c ops = Some p -> checks_marked c ops -> position_of p sd s = Some pos ->
  let es := made_since (last_mark c ops sd s) (ps_entries pos) in
  ps_un_shares pos == Qsum (map e_shares es) /\ ps_un_notional pos == Qsum (map (fun e => e_shares e * e_price e) es).
Proof.
  intros K R CM H. cbn zeta. destruct (last_mark c ops sd s) as [[x n]|] eqn:L.
  - destruct (mark_history c ops p K R CM sd s) as [M _]. destruct (M pos H) as [_ X]. rewrite L in X.
    destruct X as [_ [_ [U1 U2]]]. split; [exact U1 | exact U2].
  - destruct (unmarked_history c ops p K R sd s L pos H) as [U1 U2].
    pose proof (co_pos _ _ (gd_core _ _ (run_good _ _ _ K R)) _ _ _ H) as Ok.
    assert (F : made_since None (ps_entries pos) = ps_entries pos).
    { unfold made_since. induction (ps_entries pos) as [|e l IH]; [reflexivity|]. cbn [filter]. now rewrite IH. }
    rewrite F, U1, U2. split; [apply (po_shares _ _ _ _ Ok) | apply (po_notional _ _ _ _ Ok)].
Qed.
