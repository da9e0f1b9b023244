(** Property C14: the value of a position between marks. *)
From Coq Require Export Sorting.Sorted.
From Verif Require Export PortfolioSeen PortfolioSend.

(** ** What a stop check leaves of a position *)
Definition keep (a b : position) : Prop :=
  ps_close b = ps_close a /\
  (ps_un_shares a <= 0 -> ps_un_shares b = ps_un_shares a /\ ps_un_notional b = ps_un_notional a).
Lemma keep_refl a : keep a a.
Proof. split; auto. Qed.
Lemma keep_trans a b d : keep a b -> keep b d -> keep a d.
Proof.
  intros [A1 A2] [B1 B2]. split; [congruence|]. intro H. destruct (A2 H) as [E1 E2].
  assert (H' : ps_un_shares b <= 0) by now rewrite E1. destruct (B2 H'). split; congruence.
Qed.
Record kept_in (p q : port) : Prop := mkKI {
  ki_nd : forall sd, NoDup (akeys (poss sd q));
  ki_pos : forall sd s b, aget s (poss sd q) = Some b ->
    ps_sym b = s /\ exists a, aget s (poss sd p) = Some a /\ keep a b
}.
Lemma ki_refl p : Core [] p -> kept_in p p.
Proof.
  intro C. constructor; [intro; apply (co_nodup _ _ C)|]. intros sd s b H.
  split; [apply (po_sym _ _ _ _ (co_pos _ _ C _ _ _ H))|]. exists b. split; auto. apply keep_refl.
Qed.
Lemma ki_same p q r : (forall sd, poss sd r = poss sd q) -> kept_in p q -> kept_in p r.
Proof. intros E [A B]. constructor; intro sd; rewrite E; auto. Qed.
Lemma ki_put p q sd s a b : kept_in p q -> aget s (poss sd q) = Some a -> keep a b -> ps_sym b = s ->
  forall r, poss sd r = aset s b (poss sd q) -> poss (flip sd) r = poss (flip sd) q -> kept_in p r.
Proof.
  intros [A B] G K S r P1 P2. constructor.
  - intro sd1. destruct (side_dec sd1 sd) as [->|N]; [rewrite P1; apply NoDup_aset; auto|].
    rewrite (flip_neq _ _ N), P2. auto.
  - intros sd1 s1 b1 H. destruct (side_dec sd1 sd) as [->|N].
    + rewrite P1, aget_aset in H. destruct (Nat.eqb_spec s1 s) as [->|Ns].
      * injection H as <-. split; auto. destruct (B _ _ _ G) as [_ [a0 [G0 K0]]]. exists a0. split; auto. eapply keep_trans; eauto.
      * apply B in H. exact H.
    + pose proof (flip_neq _ _ N) as ->. rewrite P2 in H. apply B in H. exact H.
Qed.
Lemma keep_exit pos e sh : keep pos (exit_pos pos e sh).
Proof.
  unfold exit_pos, keep. rewrite clamp_close. split; [reflexivity|]. intro H.
  unfold clamp_unmarked. cbn. assert (E : Qle_bool (ps_un_shares pos) 0 = true) by now apply Qle_bool_iff.
  rewrite E. auto.
Qed.
Lemma ki_trigger c date sc sm pos e st p q : kept_in p q -> aget (st_sym st) (poss (st_pos st) q) = Some pos ->
  match trigger_stop c date sc sm pos e st q with Ret r _ => kept_in p r | Raise _ _ => True end.
Proof.
  intros K G. unfold trigger_stop. destruct (negb _); [auto|].
  match goal with |- match (match ?d with Ret _ _ => _ | Raise _ _ => _ end) with _ => _ end => set (dc := d) end.
  assert (D : match dc with Ret r _ => forall sd, poss sd r = poss sd q | Raise _ _ => True end).
  { unfold dc. destruct (st_type st).
    - destruct (trigger_bar_stop st sc e); auto.
    - destruct (aget (st_id st) (p_stop_data q)); auto.
    - destruct (aget (st_id st) (p_stop_data q)); auto.
    - destruct (aget (st_id st) (p_stop_data q)) as [s|]; auto. destruct (trigger_price_stop st (sd_value s) sc); auto.
      destruct (ratchet st (sd_value s) sc); auto. }
  destruct dc as [r [m|]|r x]; auto; [|eapply ki_same; eauto].
  match goal with |- match (if ?b then _ else _) with _ => _ end => destruct b end; [eapply ki_same; eauto|].
  destruct (_ && _); auto.
  destruct (exit_entry _ _ _ _ _ _ _ _ _) as [pos1 p1] eqn:Ex.
  destruct (add_order _ _ _ _ _ _ _ _ _ _ _ _) as [p2 o] eqn:Ea.
  assert (P2 : forall sd, poss sd p2 = poss sd p1).
  { intro sd. change p2 with (fst (p2, o)). rewrite <- Ea. apply add_order_poss. }
  apply (ki_same _ p1); auto.
  assert (KR : kept_in p r) by (eapply ki_same; eauto).
  assert (GR : aget (st_sym st) (poss (st_pos st) r) = Some pos) by now rewrite D.
  assert (E1 : p1 = snd (exit_entry c (st_pos st) date pos e (e_shares e) (slip_stop_fill sm st e m) (Some (st_type st)) r)) by now rewrite Ex.
  destruct (ki_pos _ _ KR _ _ _ GR) as [Hs _].
  apply (ki_put p r (st_pos st) (st_sym st) pos (exit_pos pos e (e_shares e)) KR GR (keep_exit _ _ _)).
  - now rewrite exit_sym.
  - rewrite E1, exit_poss, Hs. reflexivity.
  - rewrite E1. apply exit_poss_other.
Qed.
Definition kires (p : port) (r : res executed) : Prop := match r with Ret q _ => kept_in p q | Raise _ _ => True end.
Lemma ki_price c date sc sm s id p r : kires p r -> kires p (check_price_stop c date sc sm s id r).
Proof.
  intros K. unfold check_price_stop. destruct r as [q ex|]; [|exact I]. cbn in K.
  destruct (aget id (p_stop_data q)) as [d|]; [|exact I]. destruct (is_triggered _ _); [exact K|].
  destruct (aget s (poss (st_pos (sd_stop d)) q)) as [pos|] eqn:G; [|exact K].
  destruct (find_entry _ _) as [e|]; [|exact I].
  destruct (Nat.eqb_spec (st_sym (sd_stop d)) s) as [E|]; [|exact I]. cbn [negb].
  pose proof (ki_trigger c date sc sm pos e (sd_stop d) p q K) as H. rewrite E in H. specialize (H G).
  destruct (trigger_stop c date sc sm pos e (sd_stop d) q) as [r [|]|]; auto; exact I.
Qed.
Lemma ki_price_loop c date sc sm p active : forall r, kires p r -> kires p (price_loop c date sc sm active r).
Proof.
  unfold price_loop. induction active as [|[s l] a IH]; cbn; auto. intros r K. apply IH.
  destruct (sc_can_price sc s); auto. revert r K. induction l as [|i l IHl]; cbn; auto. intros r K. apply IHl. now apply ki_price.
Qed.
Lemma ki_bar_stops c date sc sm sd s eid p stops : forall r, kires p r -> kires p (bar_stops_loop c date sc sm sd s eid stops r).
Proof.
  induction stops as [|t l IH]; intros [q ex|]; cbn; auto. intro K.
  destruct (st_type t); auto. destruct (aget s (poss sd q)) as [pos|] eqn:G; [|exact I].
  destruct (find_entry _ _) as [e|]; [|exact I].
  destruct (Nat.eqb (st_sym t) s && side_eqb (st_pos t) sd) eqn:E; [|exact I]. cbn [negb].
  apply andb_true_iff in E. destruct E as [E1 E2]. apply Nat.eqb_eq in E1. apply side_eqb_eq in E2.
  pose proof (ki_trigger c date sc sm pos e t p q K) as H. rewrite E1, E2 in H. specialize (H G).
  destruct (trigger_stop c date sc sm pos e t q) as [r [|]|]; auto; exact I.
Qed.
Lemma ki_bar_loop c date sc sm sd p d : forall r, kires p r -> kires p (bar_loop c date sc sm sd d r).
Proof.
  unfold bar_loop. induction d as [|[s pos] d IH]; cbn; auto. intros r K. apply IH.
  destruct (sc_can_price sc (ps_sym pos)); auto. unfold bar_entries_loop. revert r K.
  induction (ps_entries pos) as [|e l IHl]; cbn; auto. intros r K. apply IHl. destruct r as [q ex|]; auto.
  destruct (is_triggered (e_id e) ex); auto. now apply ki_bar_stops.
Qed.
Lemma ki_update p q sd pos : kept_in p q -> kept_in p (update_position sd pos q).
Proof.
  intros [A B]. unfold update_position. destruct (ps_entries pos); [|constructor; auto].
  assert (X : forall r, (forall sd1, poss sd1 r = if side_eqb sd1 sd then adel (ps_sym pos) (poss sd q) else poss sd1 q) -> kept_in p r).
  { intros r P. constructor.
    - intro sd1. rewrite P. destruct (side_eqb sd1 sd); auto. apply NoDup_adel. auto.
    - intros sd1 s1 b H. rewrite P in H. destruct (side_eqb sd1 sd) eqn:E; [|auto]. apply side_eqb_eq in E. subst sd1.
      rewrite aget_adel in H by auto. destruct (Nat.eqb s1 (ps_sym pos)); [discriminate|]. auto. }
  match goal with |- context [if ?b then _ else _] => destruct b end; apply X; intro sd1; destruct sd, sd1; reflexivity.
Qed.
Lemma ki_finish p q x : kept_in p q -> kept_in p (finish_exit q x).
Proof.
  intro K. destruct x as [[sd s] eid]. unfold finish_exit. destruct (aget s (poss sd q)) as [pos|] eqn:G; auto.
  destruct (find_entry eid (ps_entries pos)) as [e|]; auto. apply ki_update.
  eapply ki_same; [apply (sb_poss _ _ (remove_stop_data_sbs _ _))|].
  apply (ki_put p q sd s pos (set_ps_entries (remove_entry eid (ps_entries pos)) pos) K G).
  - split; auto.
  - apply (ki_pos _ _ K _ _ _ G).
  - apply poss_set_poss.
  - apply poss_set_poss_flip.
Qed.
Lemma check_keeps c date sc sm p : Core [] p ->
  match check_stops c date sc sm p with Ret q _ => kept_in p q | Raise _ _ => True end.
Proof.
  intro C. unfold check_stops.
  set (r1 := price_loop c date sc sm (p_active p) (Ret p [])).
  assert (K1 : kires p r1) by (apply ki_price_loop; cbn; now apply ki_refl). clearbody r1.
  set (r2 := match r1 with Raise _ _ => r1 | Ret p1 _ => bar_loop c date sc sm Long (p_longs p1) r1 end).
  assert (K2 : kires p r2) by (unfold r2; destruct r1; auto; now apply ki_bar_loop). clearbody r2.
  set (r3 := match r2 with Raise _ _ => r2 | Ret p1 _ => bar_loop c date sc sm Short (p_shorts p1) r2 end).
  assert (K3 : kires p r3) by (unfold r3; destruct r2; auto; now apply ki_bar_loop). clearbody r3.
  destruct r3 as [q ex|]; auto. cbn in K3. revert q K3. induction ex as [|x ex IH]; cbn; auto.
  intros q K. apply IH. now apply ki_finish.
Qed.

(** ** Unmarked shares *)
Definition newer (n : nat) (es : list entry) : list entry := filter (fun e => Nat.ltb n (e_id e)) es.
Definition cost (e : entry) : Q := e_shares e * e_price e.
Definition tot (es : list entry) : Q := Qsum (map e_shares es).
Definition totc (es : list entry) : Q := Qsum (map cost es).
(** The unmarked shares are those of the entries above [n]. *)
Definition UM (n : nat) (pos : position) : Prop :=
  ps_un_shares pos == tot (newer n (ps_entries pos)) /\ ps_un_notional pos == totc (newer n (ps_entries pos)).
Definition sorted (es : list entry) : Prop := StronglySorted lt (map e_id es).

Lemma tot_nonneg es : (forall e, In e es -> 0 <= e_shares e) -> 0 <= tot es.
Proof. intro H. apply Qsum_nonneg. apply Forall_forall. intros x I. apply in_map_iff in I. destruct I as [e [<- I]]. auto. Qed.
Lemma totc_zero es : (forall e, In e es -> 0 <= e_shares e) -> tot es <= 0 -> totc es == 0.
Proof.
  unfold tot, totc. induction es as [|e r IH]; cbn; [intros; lra|]. intros H L.
  assert (0 <= e_shares e) by (apply H; now left).
  assert (0 <= tot r) by (apply tot_nonneg; intros x I; apply H; now right). unfold tot, Qsum in *.
  rewrite IH; [|intros x I; apply H; now right|lra]. unfold cost. assert (E : e_shares e == 0) by lra. rewrite E. lra.
Qed.
Lemma clamp_loop_all es : forall rem a, (forall e, In e es -> 0 <= e_shares e) -> rem == tot es ->
  clamp_loop es rem a == a + totc es.
Proof.
  induction es as [|e r IH]; cbn [clamp_loop]; intros rem a H E; [unfold totc; cbn; lra|].
  assert (E0 : 0 <= e_shares e) by (apply H; now left).
  assert (Hr : forall x, In x r -> 0 <= e_shares x) by (intros x I; apply H; now right).
  pose proof (tot_nonneg r Hr) as T. change (tot (e :: r)) with (e_shares e + tot r) in E.
  change (totc (e :: r)) with (cost e + totc r).
  destruct (Qle_bool rem 0) eqn:B; qb.
  - rewrite (totc_zero r Hr) by lra. unfold cost. assert (Z : e_shares e == 0) by lra. rewrite Z. lra.
  - assert (M : Qmin rem (e_shares e) == e_shares e) by (destruct (Qmin_cases rem (e_shares e)); lra).
    rewrite IH; [|auto|rewrite M; lra]. rewrite M. unfold cost. lra.
Qed.
Lemma tot_rev es : tot (rev es) == tot es.
Proof. unfold tot. apply Qsum_perm. apply Permutation_map. symmetry. apply Permutation_rev. Qed.
Lemma totc_rev es : totc (rev es) == totc es.
Proof. unfold totc. apply Qsum_perm. apply Permutation_map. symmetry. apply Permutation_rev. Qed.
Lemma newer_all n e es : sorted (e :: es) -> (n < e_id e)%nat -> newer n (e :: es) = e :: es.
Proof.
  intros S L. inversion S as [|? ? S1 F]; subst. unfold newer. cbn [filter].
  destruct (Nat.ltb_spec n (e_id e)) as [_|]; [|lia]. f_equal. rewrite Forall_forall in F.
  clear S S1. induction es as [|y r IH]; [reflexivity|]. cbn [filter].
  assert (e_id e < e_id y)%nat by (apply F; now left).
  destruct (Nat.ltb_spec n (e_id y)); [|lia]. f_equal. apply IH. intros z I. apply F. now right.
Qed.
Lemma newer_tot n es : (forall e, In e es -> 0 <= e_shares e) -> tot (newer n es) <= tot es.
Proof.
  unfold tot, newer. induction es as [|e r IH]; cbn [filter map]; [lra|]. intro H.
  assert (0 <= e_shares e) by (apply H; now left).
  assert (Qsum (map e_shares (filter (fun e0 => Nat.ltb n (e_id e0)) r)) <= Qsum (map e_shares r)) by (apply IH; intros x I; apply H; now right).
  destruct (Nat.ltb n (e_id e)); cbn [map]; unfold Qsum in *; cbn [fold_right]; lra.
Qed.

Lemma exit_unmarked n pos e es x :
  sorted (ps_entries pos) -> (forall y, In y (ps_entries pos) -> 0 < e_shares y) ->
  ps_shares pos == tot (ps_entries pos) -> ps_entries pos = e :: es ->
  UM n pos -> 0 < x -> x <= e_shares e ->
  UM n (exit_pos pos e x) /\
  ps_un_shares (exit_pos pos e x) == tot (newer n (set_e_shares (e_shares e - x) e :: es)) /\
  ps_un_notional (exit_pos pos e x) == totc (newer n (set_e_shares (e_shares e - x) e :: es)) /\
  ps_entries (exit_pos pos e x) = set_e_shares (e_shares e - x) e :: es.
Proof.
  intros S Pos Sh E [U1 U2] X1 X2. rewrite E in *.
  set (e' := set_e_shares (e_shares e - x) e).
  assert (ND : ~ In (e_id e) (map e_id es)).
  { inversion S as [|? ? _ F]; subst. rewrite Forall_forall in F. intro I. apply F in I. lia. }
  assert (EE : ps_entries (exit_pos pos e x) = e' :: es).
  { unfold exit_pos. rewrite clamp_entries. cbn. rewrite E. cbn. rewrite Nat.eqb_refl. f_equal. now apply upd_entry_notin. }
  assert (S' : sorted (e' :: es)) by exact S.
  assert (Pos' : forall y, In y (e' :: es) -> 0 <= e_shares y).
  { intros y [<-|I]; [cbn; lra|]. apply Qlt_le_weak, Pos. now right. }
  assert (Pes : forall y, In y es -> 0 <= e_shares y) by (intros y I; apply Pos'; now right).
  pose proof (tot_nonneg es Pes) as Tes.
  change (tot (e :: es)) with (e_shares e + tot es) in Sh.
  assert (T' : tot (e' :: es) == ps_shares pos - x) by (change (tot (e' :: es)) with (e_shares e - x + tot es); rewrite Sh; lra).
  enough (G : ps_un_shares (exit_pos pos e x) == tot (newer n (e' :: es)) /\
              ps_un_notional (exit_pos pos e x) == totc (newer n (e' :: es))).
  { destruct G as [G1 G2]. unfold UM. rewrite EE. repeat split; auto. }
  destruct (Nat.lt_ge_cases n (e_id e)) as [L|L].
  - rewrite newer_all in U1, U2 by auto. rewrite newer_all by auto.
    change (tot (e :: es)) with (e_shares e + tot es) in U1.
    unfold exit_pos, clamp_unmarked. cbn [ps_un_shares set_ps_notional set_ps_entries set_ps_shares ps_shares ps_entries ps_un_notional].
    destruct (Qle_bool (ps_un_shares pos) 0) eqn:B1; qb; [lra|].
    destruct (Qle_bool (ps_shares pos - x) 0) eqn:B2; qb.
    + cbn [ps_un_shares ps_un_notional set_ps_un_notional set_ps_un_shares]. pose proof (tot_nonneg _ Pos'). rewrite totc_zero by (auto; lra). split; lra.
    + destruct (Qltb (ps_shares pos - x) (ps_un_shares pos)) eqn:B3; qb; [|lra].
      cbn [ps_un_shares set_ps_un_notional ps_un_notional set_ps_un_shares]. split; [lra|].
      rewrite E. cbn [upd_entry map]. rewrite Nat.eqb_refl. fold (upd_entry (e_id e) (fun y => set_e_shares (e_shares y - x) y) es).
      rewrite upd_entry_notin by auto. fold e'. rewrite clamp_loop_all; [rewrite totc_rev; lra| |rewrite tot_rev; lra].
      intros y I. apply in_rev in I. auto.
  - assert (N1 : newer n (e' :: es) = newer n es).
    { unfold newer. cbn [filter]. change (e_id e') with (e_id e). destruct (Nat.ltb_spec n (e_id e)); [lia|reflexivity]. }
    assert (N2 : newer n (e :: es) = newer n es).
    { unfold newer. cbn [filter]. destruct (Nat.ltb_spec n (e_id e)); [lia|reflexivity]. }
    rewrite N1. rewrite N2 in U1, U2. pose proof (newer_tot n es Pes).
    unfold exit_pos, clamp_unmarked. cbn [ps_un_shares set_ps_notional set_ps_entries set_ps_shares ps_shares ps_entries ps_un_notional].
    destruct (Qle_bool (ps_un_shares pos) 0) eqn:B1; qb; [split; auto|].
    destruct (Qle_bool (ps_shares pos - x) 0) eqn:B2; qb; [lra|].
    destruct (Qltb (ps_shares pos - x) (ps_un_shares pos)) eqn:B3; qb; [lra|]. split; auto.
Qed.

(** ** Marks of one position *)
Definition Mk (m : option (Q * nat)) (sd : side) (s : sym) (p : port) : Prop :=
  forall pos, aget s (poss sd p) = Some pos ->
    sorted (ps_entries pos) /\
    match m with
    | None => ps_close pos = 0
    | Some (x, n) => ps_close pos = x /\ (n <= p_entry_id p)%nat /\ UM n pos
    end.
Lemma Mk_same m sd s p p' : aget s (poss sd p') = aget s (poss sd p) -> p_entry_id p' = p_entry_id p ->
  Mk m sd s p -> Mk m sd s p'.
Proof. intros E1 E2 H pos. rewrite E1, E2. apply H. Qed.
Lemma Mk_grow m sd s p p' : aget s (poss sd p') = aget s (poss sd p) -> (p_entry_id p <= p_entry_id p')%nat ->
  Mk m sd s p -> Mk m sd s p'.
Proof.
  intros E1 E2 H pos Hg. rewrite E1 in Hg. destruct (H pos Hg) as [A B]. split; auto.
  destruct m as [[x n]|]; auto. destruct B as [B1 [B2 B3]]. split; [auto|split; [lia|auto]].
Qed.
Lemma sorted_tail e es : sorted (e :: es) -> sorted es.
Proof. intro H. now inversion H. Qed.

Lemma full_step_Mk c m sd date s fill pos e es p : Core [] p -> Mk m sd s p ->
  aget s (poss sd p) = Some pos -> ps_entries pos = e :: es -> Mk m sd s (full_step c sd date s fill pos e p).
Proof.
  intros C H Hg He. pose proof (co_pos _ _ C _ _ _ Hg) as Ok. pose proof (po_sym _ _ _ _ Ok) as Hs.
  assert (Pos : forall y, In y (ps_entries pos) -> 0 < e_shares y).
  { intros y I. apply (eo_pos _ _ _ _ (po_entries _ _ _ _ Ok y I)). intros []. }
  assert (Pe : 0 < e_shares e) by (apply Pos; rewrite He; now left).
  destruct (H _ Hg) as [S M]. intros pos' Hg'.
  rewrite poss_full_step, aget_aset_eq in Hg' by auto. injection Hg' as <-.
  assert (S' : sorted es) by (rewrite He in S; now apply sorted_tail in S).
  cbn [ps_entries set_ps_entries ps_close]. rewrite He. cbn [tl]. split; auto.
  assert (Cl : ps_close (exit_pos pos e (e_shares e)) = ps_close pos) by (unfold exit_pos; now rewrite clamp_close).
  destruct m as [[x n]|]; [|now rewrite Cl]. destruct M as [M1 [M2 M3]]. rewrite Cl. split; auto.
  split; [now rewrite (cf_entry_id _ _ _ _ (full_step_frame c sd date s fill pos e p Hg Hs))|].
  destruct (exit_unmarked n pos e es (e_shares e) S Pos (po_shares _ _ _ _ Ok) He M3 Pe) as [_ [U1 [U2 _]]]; [lra|].
  unfold UM. cbn [ps_un_shares ps_un_notional set_ps_entries ps_entries]. rewrite U1, U2.
  unfold newer. cbn [filter e_id set_e_shares]. destruct (Nat.ltb n (e_id e)); [|split; reflexivity].
  split; unfold tot, totc, cost, Qsum; cbn [map fold_right set_e_shares e_shares e_price]; [lra|].
  setoid_replace ((e_shares e - e_shares e) * e_price e) with 0 by ring. lra.
Qed.
Lemma part_step_Mk c m sd date s fill pos e es rem p : Core [] p -> Mk m sd s p ->
  aget s (poss sd p) = Some pos -> ps_entries pos = e :: es -> 0 < rem -> rem < e_shares e ->
  Mk m sd s (part_step c sd date fill pos e rem p).
Proof.
  intros C H Hg He R1 R2. pose proof (co_pos _ _ C _ _ _ Hg) as Ok. pose proof (po_sym _ _ _ _ Ok) as Hs.
  assert (Pos : forall y, In y (ps_entries pos) -> 0 < e_shares y).
  { intros y I. apply (eo_pos _ _ _ _ (po_entries _ _ _ _ Ok y I)). intros []. }
  destruct (H _ Hg) as [S M]. intros pos' Hg'. unfold part_step in Hg'.
  rewrite exit_poss, Hs, aget_aset_eq in Hg'. injection Hg' as <-.
  assert (Cl : ps_close (exit_pos pos e rem) = ps_close pos) by (unfold exit_pos; now rewrite clamp_close).
  split.
  { unfold sorted, exit_pos. rewrite clamp_entries. cbn. rewrite upd_entry_ids; auto. }
  destruct m as [[x n]|]; [|now rewrite Cl]. destruct M as [M1 [M2 M3]]. rewrite Cl. split; auto.
  split; [unfold part_step; now rewrite exit_entry_id|].
  apply (exit_unmarked n pos e es rem S Pos (po_shares _ _ _ _ Ok) He M3 R1). lra.
Qed.
Lemma close_Mk c m sd date s shares fill p filled rem p1 : cfg_ok c -> Core [] p -> nonempty_but None p -> Led c dzero p -> 0 < shares ->
  close_existing c sd date s shares fill p = (filled, rem, p1) -> Mk m sd s p -> Mk m sd s p1.
Proof.
  intros K C N L Sh E H. pose proof (close_existing_ok c sd date s shares fill p K C N L Sh) as CL. rewrite E in CL.
  pose proof (cf_entry_id _ _ _ _ (cl_frame _ _ _ _ _ _ _ _ CL)) as FE. unfold close_existing in E.
  destruct (aget s (poss sd p)) as [pos|] eqn:Hg; [|now injection E as _ _ <-].
  destruct (match sd with Long => false | Short => Qle_bool shares 0 end); [now injection E as _ _ <-|].
  pose proof (fifo_principle c sd date fill s (fun r q => Core [] q /\ Mk m sd s q)) as FP.
  specialize (FP (fun r q X => proj1 X)).
  specialize (FP (fun r q ps e es X G0 E0 _ _ => conj (full_step_core c sd date s fill ps e es q (proj1 X) G0 E0) (full_step_Mk c m sd date s fill ps e es q (proj1 X) (proj2 X) G0 E0))).
  assert (HP : forall r q ps e es, Core [] q /\ Mk m sd s q -> aget s (poss sd q) = Some ps -> ps_entries ps = e :: es ->
     0 < r -> r < e_shares e -> Core [] (part_step c sd date fill ps e r q) /\ Mk m sd s (part_step c sd date fill ps e r q)).
  { intros r q ps e es [X1 X2] G0 E0 R1 R2. split; [|eapply part_step_Mk; eauto].
    eapply exit_core_partial; eauto; rewrite ?E0; cbn; auto. }
  specialize (FP HP (ps_entries pos) shares pos p (conj C H) Hg eq_refl).
  destruct (fifo_loop c sd date fill (ps_entries pos) shares pos p) as [[rem' pos'] p'].
  destruct FP as [[C' M'] [G' _]]. injection E as _ _ <-.
  assert (FE' : p_entry_id (update_position sd pos' p') = p_entry_id p') by apply update_position_same.
  unfold update_position in *. destruct (ps_entries pos'); [|auto].
  pose proof (po_sym _ _ _ _ (co_pos _ _ C' _ _ _ G')) as Hs. rewrite Hs in *.
  intros b Hb. exfalso.
  match goal with H : context [if ?b then _ else _] |- _ => destruct b end;
  (assert (X : aget s (adel s (poss sd p')) = None) by (apply aget_adel_eq, (co_nodup _ _ C')));
  destruct sd; cbn in *; congruence.
Qed.

Lemma sorted_snoc es e : sorted es -> (forall y, In y es -> (e_id y < e_id e)%nat) -> sorted (es ++ [e]).
Proof.
  unfold sorted. rewrite map_app. cbn [map]. induction es as [|x r IH]; cbn; intros S F.
  - constructor; constructor.
  - inversion S as [|? ? S1 F1]; subst. constructor; [apply IH; auto|]. apply Forall_app. split; auto.
Qed.
Lemma opened_Mk m sd s shares fill e p : Core [] p -> Mk m sd s p -> (aget s (poss sd p) = None -> m = None) ->
  e_id e = S (p_entry_id p) -> e_shares e = shares -> e_price e = fill ->
  let pos := opened sd s shares fill e p in
  sorted (ps_entries pos) /\
    match m with None => ps_close pos = 0 | Some (x, n) => ps_close pos = x /\ (n <= p_entry_id p)%nat /\ UM n pos end.
Proof.
  intros C H HN Ei Es Ep pos. unfold pos, opened. destruct (aget s (poss sd p)) as [q|] eqn:Hg.
  - destruct (H q Hg) as [S M]. cbn [ps_entries set_ps_notional set_ps_entries add_unmarked set_ps_un_notional set_ps_un_shares set_ps_shares ps_close].
    split.
    + apply sorted_snoc; auto. intros y I. rewrite Ei.
      assert (e_id y <= p_entry_id p)%nat; [|lia]. eapply (co_bound _ _ C). exists q. eauto.
    + destruct m as [[x n]|]; auto. destruct M as [M1 [M2 [M3 M4]]]. split; auto. split; auto.
      unfold UM. cbn [ps_un_shares ps_un_notional ps_entries set_ps_notional set_ps_entries add_unmarked set_ps_un_notional set_ps_un_shares set_ps_shares].
      unfold newer in *. rewrite filter_app. cbn [filter]. destruct (Nat.ltb_spec n (e_id e)) as [_|]; [|lia].
      unfold tot, totc in *. rewrite !map_app, !Qsum_app. rewrite M3, M4. cbn [map]. unfold cost. rewrite Es, Ep. unfold Qsum. cbn [fold_right]. split; lra.
  - rewrite (HN eq_refl). cbn. split; [|reflexivity]. unfold sorted. cbn. constructor; constructor.
Qed.
Lemma place_Mk c o a p p' r m sd s : cfg_ok c -> Good c p -> place c o a p = Ret p' r ->
  Mk m sd s p -> (aget s (poss sd p) = None -> m = None) -> Mk m sd s p'.
Proof.
  intros K G E H HN. pose proof (place_eid _ _ _ _ _ _ K G E) as EI.
  destruct (Nat.eq_dec s (a_sym a)) as [->|Ns].
  2:{ destruct (place_frame _ _ _ _ _ _ K G E) as [_ [_ [_ [_ F]]]]. exact (Mk_grow m sd s p p' (F sd s Ns) EI H). }
  destruct (place_ret _ _ _ _ _ _ K G E) as [[_ [CO _]]|[p2 [filled [bought [Hsh [_ [_ [HF [_ [-> _]]]]]]]]]].
  - apply (Mk_grow m sd (a_sym a) p p'); auto. now rewrite (cc_poss _ _ CO).
  - assert (X : Mk m sd (a_sym a) p2).
    2:{ unfold the_order in *. eapply Mk_same; [|apply add_order_eid|exact X]. now rewrite add_order_poss. }
    clear E EI. destruct HF as [_ _ _ _ _ _ [rem [p1 [ECl [HCl Hop]]]]].
    pose proof (cl_frame _ _ _ _ _ _ _ _ HCl) as F.
    assert (M1 : Mk m sd (a_sym a) p1).
    { destruct (side_dec sd (closes o)) as [->|N].
      - destruct G as [GC GN GL]. exact (close_Mk _ _ _ _ _ _ _ _ _ _ _ K GC GN GL Hsh ECl H).
      - eapply Mk_same; [|apply (cf_entry_id _ _ _ _ F)|exact H]. rewrite (flip_neq _ _ N). now rewrite (cf_flip _ _ _ _ F). }
    destruct Hop as [[_ CO]|[[_ _ [q [o' [CO [_ [_ HO]]]]]] _]].
    + eapply Mk_same; [|apply (sa_entry_id _ _ (cc_acct _ _ CO))|exact M1]. now rewrite (cc_poss _ _ CO).
    + assert (Mq : Mk m sd (a_sym a) q).
      { eapply Mk_same; [|apply (sa_entry_id _ _ (cc_acct _ _ CO))|exact M1]. now rewrite (cc_poss _ _ CO). }
      assert (EI : (p_entry_id q <= p_entry_id p2)%nat) by (rewrite (op_eid _ _ _ _ _ _ _ _ _ HO); lia).
      destruct (side_dec sd (opens o)) as [->|N].
      * assert (Cq : Core [] q) by (eapply core_cache; eauto; apply (cl_core _ _ _ _ _ _ _ _ HCl)).
        assert (Pq : poss (opens o) q = poss (opens o) p).
        { rewrite (cc_poss _ _ CO), <- flip_closes. apply (cf_flip _ _ _ _ F). }
        intros pos Hg. rewrite (op_poss _ _ _ _ _ _ _ _ _ HO), aget_aset_eq in Hg. injection Hg as <-.
        pose proof (opened_Mk m (opens o) (a_sym a) bought (a_fill a)
          (new_entry (opens o) (a_date a) (a_sym a) bought (a_fill a) (stops_of (a_stops a)) q) q Cq Mq) as X.
        rewrite Pq in X. specialize (X HN eq_refl eq_refl eq_refl). cbn zeta in X. destruct X as [X1 X2]. split; auto.
        destruct m as [[x n]|]; auto. destruct X2 as [X2 [X3 X4]]. split; auto. split; [lia|auto].
      * apply (Mk_grow m sd (a_sym a) q p2); auto. rewrite (flip_neq _ _ N). now rewrite (op_flip _ _ _ _ _ _ _ _ _ HO).
Qed.
Lemma Forall2_sums n (es es' : list entry) : Forall2 stripped es es' ->
  map e_id es' = map e_id es /\ tot (newer n es') = tot (newer n es) /\ totc (newer n es') = totc (newer n es).
Proof.
  induction 1 as [|x y l l' R F [I1 [I2 I3]]]; [auto|]. destruct R as [R _].
  assert (Ei : e_id y = e_id x) by now rewrite R. assert (Es : e_shares y = e_shares x) by now rewrite R.
  assert (Ep : e_price y = e_price x) by now rewrite R.
  cbn [map]. rewrite I1, Ei. split; auto. unfold newer in *. cbn [filter]. rewrite Ei.
  destruct (Nat.ltb n (e_id x)); auto. unfold tot, totc, cost, Qsum in *. cbn [map fold_right]. rewrite I2, I3, Es, Ep. auto.
Qed.
Lemma strips_Mk m sd s p p' : strips p p' -> Mk m sd s p -> Mk m sd s p'.
Proof.
  intros [A _ P] H pos Hg. specialize (P sd s). destruct (aget s (poss sd p)) as [a|] eqn:Ga; [|congruence].
  destruct P as [es [E F]]. rewrite E in Hg. injection Hg as <-. destruct (H a Ga) as [S M].
  cbn [ps_entries set_ps_entries ps_close]. split; [unfold sorted; destruct (Forall2_sums 0 _ _ F) as [-> _]; exact S|].
  destruct m as [[x n]|]; auto. destruct M as [M1 [M2 [M3 M4]]]. rewrite (sa_entry_id _ _ A). split; auto. split; auto.
  unfold UM. cbn [ps_entries set_ps_entries ps_un_shares ps_un_notional]. destruct (Forall2_sums n _ _ F) as [_ [-> ->]]. auto.
Qed.
Lemma last_mark_snoc c ops p o p' : history c (ops ++ [o]) = history c ops ++ [(p, o, p')] ->
  forall sd s, last_mark c (ops ++ [o]) sd s =
    match position_of p' sd s with
    | None => None
    | Some _ => match o with
                | OpCapture _ bar => match close_of bar s with Some x => Some (x, p_entry_id p) | None => last_mark c ops sd s end
                | _ => last_mark c ops sd s
                end
    end.
Proof. intros H sd s. unfold last_mark at 1. rewrite H, fold_left_app. reflexivity. Qed.
Lemma sorted_filter f es : sorted es -> sorted (filter f es).
Proof.
  unfold sorted. induction es as [|x r IH]; cbn; auto. intro S. inversion S as [|? ? S1 F]; subst.
  destruct (f x); auto. cbn. constructor; auto. rewrite Forall_forall in *. intros i I. apply F.
  apply in_map_iff in I. destruct I as [y [<- I]]. apply filter_In in I. now apply in_map.
Qed.
Lemma newer_none n es : (forall e, In e es -> (e_id e <= n)%nat) -> newer n es = [].
Proof.
  unfold newer. induction es as [|x r IH]; [reflexivity|]. intro H. cbn [filter].
  destruct (Nat.ltb_spec n (e_id x)) as [L|_]; [|apply IH; intros e I; apply H; now right].
  assert (e_id x <= n)%nat by (apply H; now left). lia.
Qed.

Lemma mark_history c ops p : cfg_ok c -> run c ops = Some p -> checks_marked c ops -> forall sd s,
  Mk (last_mark c ops sd s) sd s p /\ (position_of p sd s = None -> last_mark c ops sd s = None).
Proof.
  intro K. revert ops p.
  apply (hist_ind c (fun ops p => checks_marked c ops -> forall sd s,
    Mk (last_mark c ops sd s) sd s p /\ (position_of p sd s = None -> last_mark c ops sd s = None)) K).
  { intros _ sd s. split; auto. intros pos H. destruct sd; discriminate. }
  intros ops p o p' R G IH E G' Hh CM sd s.
  assert (CM0 : checks_marked c ops).
  { intros l1 d sc sm l2 q Eq. apply (CM l1 d sc sm (l2 ++ [o]) q). rewrite Eq, <- app_assoc. reflexivity. }
  destruct (IH CM0 sd s) as [M N]. clear IH. rewrite (last_mark_snoc _ _ _ _ _ Hh).
  destruct (position_of p' sd s) as [pos'|] eqn:Hp'; [|split; auto; intros x Hx; unfold position_of in Hp'; congruence].
  split; [|discriminate].
  unfold exec in E. destruct o as [a|a|d x b sl sm|d sc sm|d bar|hb|id|v t|ml ms]; cbn [step] in E.
  - rewrite buy_place in E. pose proof (place_good c OBuy a p K G) as H. destruct (place c OBuy a p) as [q r|q []] eqn:Ep; cbn in E; inversion E; subst; auto.
    exact (place_Mk _ _ _ _ _ _ _ _ _ K G Ep M N).
  - rewrite sell_place in E. pose proof (place_good c OSell a p K G) as H. destruct (place c OSell a p) as [q r|q []] eqn:Ep; cbn in E; inversion E; subst; auto.
    exact (place_Mk _ _ _ _ _ _ _ _ _ K G Ep M N).
  - pose proof (exit_flat c ops p d x b sl sm K R) as H. pose proof (step_entry c (OpExit d x b sl sm) p p' K G) as SE.
    unfold exec in SE. cbn [step] in SE. specialize (SE E). destruct SE as [EI _].
    destruct (exit_position c d x b sl sm p) as [q r|q []]; inversion E; subst; auto.
    destruct H as [H1 [H2 _]]. destruct (Nat.eq_dec s x) as [->|Ns]; [rewrite H1 in Hp'; discriminate|].
    eapply Mk_grow; [|exact EI|exact M]. apply H2. auto.
  - pose proof (check_stops_ok c d sc sm p K G) as H. pose proof (check_keeps c d sc sm p (gd_core _ _ G)) as KI.
    destruct (check_stops c d sc sm p) as [q r|q []] eqn:Ec; inversion E; subst; [|destruct H; congruence].
    destruct H as [evs [H _]]. pose proof (so_ent _ _ _ _ _ _ _ H sd s) as Ent.
    assert (Hold : forall e y n, last_mark c ops sd s = Some (y, n) -> In e (queue p sd s) -> (e_id e <= n)%nat).
    { intros e y n. apply (CM ops d sc sm [] p); auto. }
    intros pos Hg. destruct (ki_pos _ _ KI _ _ _ Hg) as [_ [a [Ga [K1 K2]]]]. destruct (M a Ga) as [S Mx].
    unfold entries_of in Ent. rewrite Hg, Ga in Ent. rewrite Ent. split; [now apply sorted_filter|].
    destruct (last_mark c ops sd s) as [[y n]|]; [|congruence].
    destruct Mx as [A1 [A2 [A3 A4]]]. split; [congruence|].
    split; [destruct (so_frame _ _ _ _ _ _ _ H); lia|].
    assert (Z : forall e, In e (ps_entries a) -> (e_id e <= n)%nat).
    { intros e I. apply (Hold e y n eq_refl). unfold queue, position_of. now rewrite Ga. }
    rewrite (newer_none n _ Z) in A3, A4. destruct K2 as [K2 K3]; [rewrite A3; unfold tot; cbn; lra|].
    unfold UM. rewrite K2, K3, Ent, newer_none; auto. intros e I. apply filter_In in I. apply Z, I.
  - injection E as <-. pose proof (capture_ok c d bar p K G) as CA. intros pos Hg.
    rewrite (ca_pos _ _ _ _ _ CA) in Hg. destruct (aget s (poss sd p)) as [a|] eqn:Ga; [|discriminate]. cbn in Hg. injection Hg as <-.
    destruct (M a Ga) as [S Mx].
    assert (Ei : map e_id (ps_entries (mark sd (bar s) a)) = map e_id (ps_entries a)).
    { unfold mark. destruct (bar s) as [[[cl lo] hi]|]; auto.
      unfold calculate_pnl_mae_mfe. destruct sd; cbn; rewrite map_map; apply map_ext; intro e; apply entry_mark_same. }
    split; [unfold sorted; now rewrite Ei|].
    unfold close_of. rewrite (ca_eid _ _ _ _ _ CA).
    destruct (bar s) as [[[cl lo] hi]|] eqn:Eb; [|exact Mx].
    assert (Z : newer (p_entry_id p) (ps_entries (mark sd (Some (cl, lo, hi)) a)) = []).
    { apply newer_none. intros e I. apply (in_map e_id) in I. rewrite Ei in I. apply in_map_iff in I. destruct I as [e0 [<- I]].
      eapply (co_bound _ _ (gd_core _ _ G)). exists a. eauto. }
    split; [destruct sd; reflexivity|]. split; auto. unfold UM. rewrite Z. unfold tot, totc. cbn [map].
    destruct sd; cbn; split; lra.
  - injection E as <-. intros pos Hg. rewrite incr_poss, mapv_get in Hg.
    destruct (aget s (poss sd p)) as [a|] eqn:Ga; [|discriminate]. cbn in Hg. injection Hg as <-. destruct (M a Ga) as [S Mx].
    assert (F : forall n, map e_id (ps_entries (incr_pos hb a)) = map e_id (ps_entries a) /\
       tot (newer n (ps_entries (incr_pos hb a))) = tot (newer n (ps_entries a)) /\
       totc (newer n (ps_entries (incr_pos hb a))) = totc (newer n (ps_entries a))).
    { clear S Mx Ga. intro n. unfold incr_pos. cbn [ps_entries set_ps_entries set_ps_bars]. generalize (hb (ps_sym a)). intro hb'.
      induction (ps_entries a) as [|e l [I1 [I2 I3]]]; [auto|]. cbn [map]. rewrite I1.
      assert (X1 : e_id (incr_entry hb' e) = e_id e) by (unfold incr_entry; destruct hb'; reflexivity).
      assert (X2 : e_shares (incr_entry hb' e) = e_shares e) by (unfold incr_entry; destruct hb'; reflexivity).
      assert (X3 : e_price (incr_entry hb' e) = e_price e) by (unfold incr_entry; destruct hb'; reflexivity).
      rewrite X1. split; auto. unfold newer in *. cbn [filter]. rewrite X1. destruct (Nat.ltb n (e_id e)); auto.
      unfold tot, totc, cost, Qsum in *. cbn [map fold_right]. rewrite I2, I3, X2, X3. auto. }
    split; [unfold sorted; destruct (F 0%nat) as [-> _]; exact S|].
    destruct (last_mark c ops sd s) as [[y n]|]; [|exact Mx]. destruct Mx as [A1 [A2 [A3 A4]]]. split; [exact A1|]. split; [exact A2|].
    unfold UM. destruct (F n) as [_ [-> ->]]. split; assumption.
  - injection E as <-. eapply strips_Mk; [apply remove_stop_strips|exact M].
  - injection E as <-. eapply strips_Mk; [apply remove_stops_strips|exact M].
  - injection E as <-. eapply Mk_same; [..|exact M]; [destruct sd; reflexivity|reflexivity].
Qed.

Lemma value_split x n es : value_since (Some (x, n)) es == (tot es - tot (newer n es)) * x + totc (newer n es).
Proof.
  unfold value_since, newer, tot, totc. induction es as [|e l IH]; [cbn; lra|]. cbn [map filter].
  destruct (Nat.leb_spec (e_id e) n); destruct (Nat.ltb_spec n (e_id e)); try lia; unfold Qsum, cost in *; cbn [map fold_right];
  rewrite IH; ring.
Qed.

(** C14, for marks above zero and stop checks on fully marked positions. *)
Theorem value_between_marks c ops p sd s pos : cfg_ok c -> run c ops = Some p -> checks_marked c ops ->
  position_of p sd s = Some pos -> (forall x n, last_mark c ops sd s = Some (x, n) -> 0 < x) ->
  marked_value pos == value_since (last_mark c ops sd s) (ps_entries pos).
Proof.
  intros K R CM Hp HX. pose proof (run_good _ _ _ K R) as G.
  destruct (mark_history c ops p K R CM sd s) as [M _]. destruct (M pos Hp) as [_ Mx].
  pose proof (co_pos _ _ (gd_core _ _ G) _ _ _ Hp) as Ok.
  unfold marked_value. destruct (last_mark c ops sd s) as [[x n]|].
  - specialize (HX x n eq_refl). destruct Mx as [A1 [A2 [A3 A4]]]. rewrite A1, value_split.
    destruct (Qle_bool x 0) eqn:B; qb; [lra|].
    pose proof (po_shares _ _ _ _ Ok) as Sh. change (ps_shares pos == tot (ps_entries pos)) in Sh.
    assert (Pos : forall y, In y (ps_entries pos) -> 0 <= e_shares y).
    { intros y I. apply Qlt_le_weak, (eo_pos _ _ _ _ (po_entries _ _ _ _ Ok y I)). intros []. }
    pose proof (newer_tot n _ Pos) as T.
    destruct (Qle_bool (ps_shares pos - ps_un_shares pos) 0) eqn:B2; qb.
    + rewrite A4. assert (Z : tot (ps_entries pos) - tot (newer n (ps_entries pos)) == 0) by lra. rewrite Z. lra.
    + rewrite A4, A3, Sh. reflexivity.
  - rewrite Mx. cbn [Qle_bool]. change (Qle_bool 0 0) with true. cbn [negb].
    rewrite (po_notional _ _ _ _ Ok). reflexivity.
Qed.
