(** Stop records: recording is passive, and every record is accounted for. *)
From Coq Require Import List Bool Arith Lia ZArith QArith Lqa.
From Verif Require Export RecordRows.
From Verif Require Import Prelude Lemmas PortfolioFacts PortfolioRun.
Import ListNotations.
Open Scope list_scope.
Open Scope Q_scope.

Definition rfst {A B} (r : res (A * B)) : res A := match r with Ret p x => Ret p (fst x) | Raise p e => Raise p e end.
Section Erase.
Variable c : cfg.
Lemma trigger_erase d sc sm pos e st p : rfst (trigger_stop_rec c d sc sm pos e st p) = trigger_stop c d sc sm pos e st p.
Proof.
  unfold trigger_stop_rec, trigger_stop. destruct (negb _); [reflexivity|].
  match goal with |- rfst (match ?x with _ => _ end) = _ => set (r := x) end. clearbody r. destruct r as [q [m|]|q x]; try reflexivity.
  destruct (match st_limit st with Some _ => _ | None => _ end); [reflexivity|]. destruct (_ && _); [reflexivity|].
  destruct (exit_entry c _ _ _ _ _ _ _ q) as [pos' q']. destruct (add_order c _ _ _ _ _ _ _ _ _ _ q') as [q'' o]. reflexivity.
Qed.
Lemma price_erase rec d sc sm s id r : rfst (check_price_stop_rec c rec d sc sm s id r) = check_price_stop c d sc sm s id (rfst r).
Proof.
  destruct r as [p [ex log]|p x]; [|reflexivity]. cbn [rfst fst]. unfold check_price_stop_rec, check_price_stop. destruct (aget id _) as [sd|]; [|reflexivity].
  destruct (is_triggered _ _); [reflexivity|]. destruct (aget s _) as [pos|]; [|reflexivity]. destruct (find_entry _ _) as [e|]; [|reflexivity].
  destruct (negb _); [reflexivity|]. rewrite <- trigger_erase. destruct (trigger_stop_rec c d sc sm pos e (sd_stop sd) p) as [q [[|] fl]|q x]; reflexivity.
Qed.
Lemma price_loop_erase rec d sc sm l : forall r, rfst (price_loop_rec c rec d sc sm l r) = price_loop c d sc sm l (rfst r).
Proof.
  unfold price_loop_rec, price_loop. induction l as [|[s ids] l IH]; intro r; [reflexivity|]. cbn [fold_left fst snd]. rewrite IH. f_equal.
  destruct (sc_can_price sc s); [|reflexivity]. revert r. induction ids as [|i ids IHi]; intro r; [reflexivity|]. cbn [fold_left]. now rewrite IHi, price_erase.
Qed.
Lemma bar_stops_erase rec d sc sm sd s eid l : forall r, rfst (bar_stops_loop_rec c rec d sc sm sd s eid l r) = bar_stops_loop c d sc sm sd s eid l (rfst r).
Proof.
  induction l as [|t l IH]; intro r; [destruct r as [p [ex log]|p x]; reflexivity|]. destruct r as [p [ex log]|p x]; [|reflexivity].
  cbn [rfst fst bar_stops_loop_rec bar_stops_loop]. destruct (st_type t); try apply IH. destruct (aget s _) as [pos|]; [|reflexivity].
  destruct (find_entry _ _) as [e|]; [|reflexivity]. destruct (negb _); [reflexivity|]. rewrite <- trigger_erase.
  destruct (trigger_stop_rec c d sc sm pos e t p) as [q [[|] fl]|q x]; cbn [rfst fst]; try reflexivity. apply IH.
Qed.
Lemma bar_entries_erase rec d sc sm sd s l : forall r, rfst (bar_entries_loop_rec c rec d sc sm sd s l r) = bar_entries_loop c d sc sm sd s l (rfst r).
Proof.
  unfold bar_entries_loop_rec, bar_entries_loop. induction l as [|e l IH]; intro r; [reflexivity|]. cbn [fold_left]. rewrite IH. f_equal.
  destruct r as [p [ex log]|p x]; [|reflexivity]. cbn [rfst fst]. destruct (is_triggered _ _); [reflexivity|]. apply bar_stops_erase.
Qed.
Lemma bar_loop_erase rec d sc sm sd l : forall r, rfst (bar_loop_rec c rec d sc sm sd l r) = bar_loop c d sc sm sd l (rfst r).
Proof.
  unfold bar_loop_rec, bar_loop. induction l as [|kv l IH]; intro r; [reflexivity|]. cbn [fold_left]. rewrite IH. f_equal.
  destruct (sc_can_price _ _); [|reflexivity]. apply bar_entries_erase.
Qed.
Lemma check_erase rec d sc sm p log : match check_stops_rec c rec d sc sm p log with Ret q _ => Ret q tt | Raise q x => Raise q x end = check_stops c d sc sm p.
Proof.
  unfold check_stops_rec, check_stops. cbn zeta.
  replace (price_loop c d sc sm (p_active p) (Ret p [])) with (rfst (price_loop_rec c rec d sc sm (p_active p) (Ret p ([], log)))) by apply (price_loop_erase rec d sc sm (p_active p) (Ret p ([], log))).
  destruct (price_loop_rec c rec d sc sm (p_active p) (Ret p ([], log))) as [p1 [e1 l1]|p1 x1]; [|reflexivity]. cbn [rfst fst].
  replace (bar_loop c d sc sm Long (p_longs p1) (Ret p1 e1)) with (rfst (bar_loop_rec c rec d sc sm Long (p_longs p1) (Ret p1 (e1, l1)))) by apply bar_loop_erase.
  destruct (bar_loop_rec c rec d sc sm Long (p_longs p1) (Ret p1 (e1, l1))) as [p2 [e2 l2]|p2 x2]; [|reflexivity]. cbn [rfst fst].
  replace (bar_loop c d sc sm Short (p_shorts p2) (Ret p2 e2)) with (rfst (bar_loop_rec c rec d sc sm Short (p_shorts p2) (Ret p2 (e2, l2)))) by apply bar_loop_erase.
  destruct (bar_loop_rec c rec d sc sm Short (p_shorts p2) (Ret p2 (e2, l2))) as [p3 [e3 l3]|p3 x3]; reflexivity.
Qed.
Lemma exec_erase f b o : option_map k_port (exec_rec c f (Some b) o) = exec c (Some (k_port b)) o.
Proof.
  unfold exec_rec, exec. destruct o; try (destruct (step c _ (k_port b)) as [q u|q [| | |]]; reflexivity).
  - cbn [step]. rewrite <- (check_erase (f_stops f) date sc sm (k_port b) (k_stops b)).
    destruct (check_stops_rec c (f_stops f) date sc sm (k_port b) (k_stops b)) as [q l|q [| | |]]; reflexivity.
  - cbn [step]. pose proof (capture_rec_port c (f_rows f) (f_bars f) date bar (k_port b) (k_rows b) (k_bars b)) as X.
    destruct (capture_bar_rec c (f_rows f) (f_bars f) date bar (k_port b) (k_rows b) (k_bars b)) as [[q rows] bars]. cbn [fst] in X. now rewrite <- X.
Qed.
Lemma run_erase_from f ops : forall r, option_map k_port (fold_left (exec_rec c f) ops r) = fold_left (exec c) ops (option_map k_port r).
Proof.
  induction ops as [|o ops IH]; intro r; [reflexivity|]. cbn [fold_left]. rewrite IH. f_equal. destruct r as [b|]; [|reflexivity]. apply exec_erase.
Qed.
Lemma run_erase f ops : option_map k_port (run_rec c f ops) = run c ops.
Proof. apply run_erase_from. Qed.
End Erase.

(** ** Every stop record is accounted for *)
Definition proj (e : entry) : nat * list stop * nat := (e_id e, e_stops e, e_symbars e).
Definition shape (l : list (sym * position)) : list (sym * sym * list (nat * list stop * nat)) :=
  map (fun kv => (fst kv, ps_sym (snd kv), map proj (ps_entries (snd kv)))) l.
Lemma shape_aset s pos pos' l : aget s l = Some pos -> ps_sym pos' = ps_sym pos -> map proj (ps_entries pos') = map proj (ps_entries pos) -> shape (aset s pos' l) = shape l.
Proof.
  induction l as [|[k v] l IH]; [discriminate|]. cbn [aget aset]. destruct (Nat.eqb_spec s k) as [->|N].
  - intros [= ->] A B. unfold shape. cbn. now rewrite A, B.
  - intros A B C. unfold shape in *. cbn [map fst snd]. now rewrite IH.
Qed.
Lemma shape_get l l' s pos : shape l = shape l' -> aget s l = Some pos -> exists pos', aget s l' = Some pos' /\ ps_sym pos' = ps_sym pos /\ map proj (ps_entries pos') = map proj (ps_entries pos).
Proof.
  revert l'. induction l as [|[k v] l IH]; intros [|[k' v'] l'] E; try discriminate. unfold shape in E. cbn in E. injection E as <- A B C.
  cbn [aget]. destruct (Nat.eqb s k); [intros [= ->]; eauto|]. now apply IH.
Qed.
Lemma upd_proj i f l : (forall x, proj (f x) = proj x) -> map proj (upd_entry i f l) = map proj l.
Proof.
  intro H. unfold upd_entry. induction l as [|x l IH]; [reflexivity|]. cbn. rewrite IH. destruct (Nat.eqb _ _); now rewrite ?H.
Qed.
Section Log.
Variable c : cfg.
Lemma clamp_shape p : ps_sym (clamp_unmarked p) = ps_sym p /\ map proj (ps_entries (clamp_unmarked p)) = map proj (ps_entries p).
Proof. unfold clamp_unmarked. destruct (Qle_bool _ _); [split; reflexivity|]. destruct (Qle_bool _ _); [split; reflexivity|]. destruct (Qltb _ _); split; reflexivity. Qed.
Lemma exit_frame sd d pos e sh f stp p : aget (ps_sym pos) (poss sd p) = Some pos -> let r := exit_entry c sd d pos e sh f stp p in
  p_orders (snd r) = p_orders p /\ p_stop_data (snd r) = p_stop_data p /\ ps_sym (fst r) = ps_sym pos /\ forall sd', shape (poss sd' (snd r)) = shape (poss sd' p).
Proof.
  intros G r. unfold r, exit_entry. cbn zeta. cbn [fst snd].
  match goal with |- context [clamp_unmarked ?x] => destruct (clamp_shape x) as [A B]; set (pos' := clamp_unmarked x) in *; clearbody pos'; cbn [ps_sym ps_entries set_ps_shares set_ps_entries set_ps_notional] in A, B end.
  rewrite upd_proj in B by reflexivity.
  assert (SH : shape (aset (ps_sym pos') pos' (poss sd p)) = shape (poss sd p)) by (rewrite A; apply (shape_aset _ pos); auto).
  unfold add_trade. destruct (Qltb 0 _), sd; (split; [reflexivity|split; [reflexivity|split; [exact A|]]]); intros [|]; try reflexivity; exact SH.
Qed.
Definition tightened (sd : side) (st : stop) (fill : option Q) (v v' : Q) : Prop := not_looser sd v v' /\ (st_type st <> STrailing \/ fill <> None -> v' = v).
Record stepped (d : Z) (p q : port) (e : entry) (st : stop) (t : bool) (fill : option Q) : Prop := mkStepped {
  se_shape : forall sd, shape (poss sd q) = shape (poss sd p);
  se_other : forall id, id <> st_id st -> aget id (p_stop_data q) = aget id (p_stop_data p);
  se_nd : NoDup (akeys (p_stop_data p)) -> NoDup (akeys (p_stop_data q));
  se_bar : st_type st = SBar -> p_stop_data q = p_stop_data p;
  se_level : st_type st <> SBar -> exists v v', level p (st_id st) = Some v /\ level q (st_id st) = Some v' /\ tightened (st_pos st) st fill v v';
  se_order : exists o, p_orders q = p_orders p ++ (match o with Some o => [o] | None => [] end) /\ accounted (record_stop d q e st fill) o /\ (t = true <-> o <> None)
}.
Lemma nl_refl sd v : not_looser sd v v.
Proof. destruct sd; cbn; lra. Qed.
Lemma ratchet_tight st v sc v' : ratchet st v sc = Some v' -> not_looser (st_pos st) v v'.
Proof.
  unfold ratchet. destruct (st_pos st); destruct (stop_amount _ _); try discriminate; intros [= <-]; cbn; [apply Q.le_max_r|apply Q.le_min_r].
Qed.
Lemma trigger_stepped d sc sm pos e st p q t fill : ps_sym pos = st_sym st -> aget (st_sym st) (poss (st_pos st) p) = Some pos ->
  trigger_stop_rec c d sc sm pos e st p = Ret q (t, fill) -> stepped d p q e st t fill.
Proof.
  intros SY GP. unfold trigger_stop_rec.
  assert (HAS : ahas (st_sym st) (poss (st_pos st) p) = true) by (unfold ahas; now rewrite GP).
  rewrite HAS. cbn [negb].
  set (dec := match st_type st with SBar => _ | _ => _ end).
  (* what the decision does to the account *)
  assert (DEC : match dec with
                | Raise _ _ => True
                | Ret r m => (forall sd, poss sd r = poss sd p) /\ p_orders r = p_orders p /\ (forall id, id <> st_id st -> aget id (p_stop_data r) = aget id (p_stop_data p)) /\
                    (NoDup (akeys (p_stop_data p)) -> NoDup (akeys (p_stop_data r))) /\
                    (st_type st = SBar -> p_stop_data r = p_stop_data p) /\
                    (st_type st <> SBar -> exists v v', level p (st_id st) = Some v /\ level r (st_id st) = Some v' /\ tightened (st_pos st) st m v v')
                end).
  { assert (PLAIN : forall m, (forall sd, poss sd p = poss sd p) /\ p_orders p = p_orders p /\ (forall id, id <> st_id st -> aget id (p_stop_data p) = aget id (p_stop_data p)) /\
      (NoDup (akeys (p_stop_data p)) -> NoDup (akeys (p_stop_data p))) /\
      (st_type st = SBar -> p_stop_data p = p_stop_data p) /\
      (st_type st <> SBar -> (exists v, level p (st_id st) = Some v) -> exists v v', level p (st_id st) = Some v /\ level p (st_id st) = Some v' /\ tightened (st_pos st) st m v v')).
    { intro m. repeat split; auto. intros _ [v L]. exists v, v. repeat split; auto. apply nl_refl. }
    unfold dec. destruct (st_type st) eqn:T.
    - destruct (trigger_bar_stop _ _ _); cbn; auto; destruct (PLAIN (Some (0))) as [A [B [C [N0 [D E]]]]]; repeat split; auto; congruence.
    - destruct (aget (st_id st) (p_stop_data p)) as [sd|] eqn:G; [|exact I]. destruct (PLAIN (trigger_price_stop st (sd_value sd) sc)) as [A [B [C [N0 [D E]]]]].
      split; [auto|]. split; [auto|]. split; [auto|]. split; [auto|]. split; [auto|]. intros N. apply E; auto. exists (sd_value sd). unfold level. now rewrite G.
    - destruct (aget (st_id st) (p_stop_data p)) as [sd|] eqn:G; [|exact I]. destruct (PLAIN (trigger_price_stop st (sd_value sd) sc)) as [A [B [C [N0 [D E]]]]].
      split; [auto|]. split; [auto|]. split; [auto|]. split; [auto|]. split; [auto|]. intros N. apply E; auto. exists (sd_value sd). unfold level. now rewrite G.
    - destruct (aget (st_id st) (p_stop_data p)) as [sd|] eqn:G; [|exact I]. destruct (trigger_price_stop st (sd_value sd) sc) as [m|].
      + destruct (PLAIN (Some m)) as [A [B [C [N0 [D E]]]]].
        split; [auto|]. split; [auto|]. split; [auto|]. split; [auto|]. split; [auto|]. intros N. apply E; auto. exists (sd_value sd). unfold level. now rewrite G.
      + destruct (ratchet st (sd_value sd) sc) as [v'|] eqn:R; [|exact I].
        split; [intros [|]; reflexivity|]. split; [reflexivity|]. cbn [p_stop_data set_p_stop_data]. split; [intros id N; now rewrite aget_aset_neq by auto|]. split; [apply NoDup_aset|].
        split; [congruence|]. intros _. exists (sd_value sd), v'. unfold level. cbn [p_stop_data set_p_stop_data]. rewrite G, aget_aset_eq. split; [reflexivity|]. split; [reflexivity|].
        split; [eapply ratchet_tight; eauto|]. intros [X|X]; congruence. }
  clearbody dec. destruct dec as [q0 [m|]|q0 x]; [| |discriminate].
  - destruct DEC as [D1 [D2 [D3 [DN [D4 D5]]]]].
    assert (D5' : forall f, st_type st <> SBar -> exists v v', level p (st_id st) = Some v /\ level q0 (st_id st) = Some v' /\ tightened (st_pos st) st f v v').
    { intros f N. destruct (D5 N) as [v [v' [A [B [C D]]]]]. assert (v' = v) as -> by (apply D; right; discriminate). exists v, v. repeat split; auto. }
    destruct (match st_limit st with Some _ => _ | None => _ end) eqn:REJ.
    { intros E. injection E as <- <- <-. constructor; auto.
      - intro sd. now rewrite D1.
      - exists None. rewrite D2, app_nil_r. split; auto. split; [|split; congruence]. cbn. right. exists (slip_stop_fill sm st e m). split; auto.
        unfold beyond_limit. destruct (st_limit st) as [l|]; [|discriminate]. destruct (st_pos st); cbn; qb; auto. }
    destruct (_ && _); [discriminate|].
    assert (GP0 : aget (ps_sym pos) (poss (st_pos st) q0) = Some pos) by (now rewrite D1, SY).
    destruct (exit_frame (st_pos st) d pos e (e_shares e) (slip_stop_fill sm st e m) (Some (st_type st)) q0 GP0) as [EO [ED [ES EP]]].
    destruct (exit_entry c _ _ _ _ _ _ _ q0) as [pos' q1]. cbn [fst snd] in EO, ED, ES, EP.
    unfold add_order. cbn zeta. intros E. injection E as <- <- <-.
    assert (FR : forall q2, p_stop_data q2 = p_stop_data q1 -> (forall sd, poss sd q2 = poss sd q1) -> (exists o, p_orders q2 = p_orders q1 ++ [o] /\ accounted (record_stop d q2 e st (Some (slip_stop_fill sm st e m))) (Some o)) ->
      stepped d p q2 e st true (Some (slip_stop_fill sm st e m))).
    { intros q2 F1 F2 [o [F3 F4]]. constructor.
      - intro sd. now rewrite F2, EP, D1.
      - intros id N. now rewrite F1, ED, D3.
      - rewrite F1, ED. exact DN.
      - intros T. now rewrite F1, ED, D4.
      - unfold level. rewrite F1, ED. apply D5'.
      - exists (Some o). rewrite F3, EO, D2. split; auto. split; auto. split; congruence. }
    apply FR; [destruct (c_fee_mode c); reflexivity|intros [|]; destruct (c_fee_mode c); reflexivity|].
    eexists. split; [destruct (c_fee_mode c); cbn; reflexivity|].
    cbn. rewrite ES, SY. destruct (st_pos st), (st_type st); repeat split; reflexivity.
  - destruct DEC as [D1 [D2 [D3 [DN [D4 D5]]]]]. intros E. injection E as <- <- <-. constructor; auto.
    + intro sd. now rewrite D1.
    + exists None. rewrite D2, app_nil_r. split; auto. split; [|split; congruence]. cbn. now left.
Qed.
End Log.
