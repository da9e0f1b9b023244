(** [capture_bar], [incr_bars], [remove_stop(s)]: what they change, and
    preservation of the invariants. *)
From Verif Require Export PortfolioFinish.
From Coq Require Import Permutation.

(** ** Interest *)
Lemma bar_rate_nonneg c : cfg_ok c -> 0 <= bar_rate c.
Proof.
  intro K. unfold bar_rate. destruct (c_bpy c) as [b|] eqn:E; [|lra].
  destruct (Qle_bool (c_rate c) 0) eqn:E2; [lra|]. qb. pose proof (ck_bpy _ K _ E).
  apply Qle_shift_div_l; [assumption|]. rewrite Qmult_0_l. apply Qle_shift_div_l; lra.
Qed.

Record interest_frame (p q : port) : Prop := mkIF {
  if_longs : p_longs q = p_longs p; if_shorts : p_shorts q = p_shorts p;
  if_syms : p_symbols q = p_symbols p; if_fees : p_fees q = p_fees p;
  if_orders : p_orders q = p_orders p; if_trades : p_trades q = p_trades p;
  if_pnl : p_pnl q = p_pnl p; if_bars : p_bars q = p_bars p; if_wins : p_wins q = p_wins p;
  if_oid : p_order_id q = p_order_id p; if_eid : p_entry_id q = p_entry_id p; if_tid : p_trade_id q = p_trade_id p;
  if_len : p_long_en q = p_long_en p; if_sen : p_short_en q = p_short_en p;
  if_clong : p_clong q = p_clong p; if_cshort : p_cshort q = p_cshort p;
  if_sd : p_stop_data q = p_stop_data p; if_act : p_active q = p_active p;
  if_ml : p_max_long q = p_max_long p; if_ms : p_max_short q = p_max_short p
}.
Lemma if_refl p : interest_frame p p. Proof. constructor; reflexivity. Qed.
Lemma if_trans p q r : interest_frame p q -> interest_frame q r -> interest_frame p r.
Proof. intros [] []. constructor; congruence. Qed.

Lemma sweep_ok c p : 0 <= p_accrued p ->
  interest_frame p (sweep p) /\ net_cash c (sweep p) == net_cash c p /\ 0 <= p_accrued (sweep p) /\
  p_accrued (sweep p) <= p_accrued p.
Proof.
  intro H. unfold sweep. destruct (Qle_bool (p_accrued p) 0 || Qle_bool (p_cash p) 0) eqn:E.
  - split; [apply if_refl|]. repeat split; lra.
  - apply orb_false_iff in E. destruct E as [E1 E2]. qb. split; [constructor; reflexivity|].
    assert (M : Qmin (p_cash p) (p_accrued p) <= p_accrued p) by apply Q.le_min_r.
    assert (M0 : 0 <= Qmin (p_cash p) (p_accrued p)) by (apply Q.min_glb; lra).
    cbn [set_p_accrued set_p_cash p_accrued]. split; [|split; lra].
    unfold net_cash, margin_loan. cbn. destruct (Qle_bool (c_leverage c) 1); lra.
Qed.

Lemma apply_interest_ok c p : cfg_ok c -> 0 <= p_accrued p ->
  interest_frame p (apply_interest c p) /\
  net_cash c (apply_interest c p) == net_cash c p * (1 + bar_rate c) /\
  0 <= p_accrued (apply_interest c p).
Proof.
  intros K H. pose proof (bar_rate_nonneg c K) as Hr. unfold apply_interest. unfold bar_rate in *.
  destruct (c_bpy c) as [bpy|] eqn:Eb; [|split; [apply if_refl|split; [lra|auto]]].
  destruct (Qle_bool (c_rate c) 0) eqn:Er; [split; [apply if_refl|split; [lra|auto]]|].
  destruct (sweep_ok c p H) as [F [N [A _]]]. set (q := sweep p) in *.
  set (r := c_rate c / 100 / bpy) in *.
  destruct (Qeq_bool (net_cash c q) 0) eqn:E0.
  { apply Qeq_bool_eq in E0. split; auto. split; auto. rewrite <- N, E0. lra. }
  destruct (Qltb (net_cash c q) 0) eqn:El.
  - qb. pose proof (Qabs_neg (net_cash c q) ltac:(lra)) as Ha.
    assert (Hi : Qabs (net_cash c q) * r == - net_cash c q * r) by (now rewrite Ha).
    set (i := Qabs (net_cash c q) * r) in *. clearbody i.
    split; [eapply if_trans; [exact F|constructor; reflexivity]|]. split.
    + rewrite <- N. transitivity (net_cash c q - i); [|lra].
      unfold net_cash, margin_loan. cbn. destruct (Qle_bool (c_leverage c) 1); lra.
    + cbn. assert (0 <= - net_cash c q * r) by (apply Qmult_le_0_compat; lra). lra.
  - qb. pose proof (Qabs_pos (net_cash c q) ltac:(lra)) as Ha.
    assert (Hi : Qabs (net_cash c q) * r == net_cash c q * r) by (now rewrite Ha).
    set (i := Qabs (net_cash c q) * r) in *. clearbody i.
    split; [eapply if_trans; [exact F|constructor; reflexivity]|]. split.
    + rewrite <- N. transitivity (net_cash c q + i); [|lra].
      unfold net_cash, margin_loan. cbn. destruct (Qle_bool (c_leverage c) 1); lra.
    + cbn. exact A.
Qed.

(** ** Marking *)
Definition mark (sd : side) (bar : option (Q * option Q * option Q)) (pos : position) : position :=
  match bar with
  | None => pos
  | Some (close, low, high) =>
      let pos := calculate_pnl_mae_mfe pos close low high in
      match sd with
      | Long =>
          let pos := set_ps_equity (ps_shares pos * close) pos in
          let pos := set_ps_mv (ps_equity pos) pos in
          let pos := set_ps_close close pos in clear_unmarked pos
      | Short =>
          let pos := set_ps_close close pos in
          let pos := set_ps_margin (close * ps_shares pos) pos in
          let pos := set_ps_mv (ps_margin pos + ps_pnl pos) pos in clear_unmarked pos
      end
  end.

(** Contributions of one symbol to the accumulators. *)
Definition long_part (bar : bar_fn) (p : port) (s : sym) : Q :=
  match aget s (p_longs p) with
  | None => 0
  | Some pos => match bar s with
                | Some (close, _, _) => ps_shares pos * close
                | None => marked_value pos
                end
  end.
Definition short_eq (p : port) (s : sym) : Q :=
  match aget s (p_shorts p) with None => 0 | Some pos => ps_notional pos end.
Definition short_mkt (bar : bar_fn) (p : port) (s : sym) : Q :=
  match aget s (p_shorts p) with
  | None => 0
  | Some pos => match bar s with
                | Some (close, _, _) => ps_notional pos + Qsum (map (entry_upnl (ps_type pos) close) (ps_entries pos))
                | None => 2 * ps_notional pos - marked_value pos
                end
  end.
Definition short_margin (bar : bar_fn) (p : port) (s : sym) : Q :=
  match aget s (p_shorts p) with
  | None => 0
  | Some pos => match bar s with
                | Some (close, _, _) => close * ps_shares pos
                | None => ps_margin pos
                end
  end.

Definition cap_step (bar : bar_fn) (st : acc * port) (s : sym) : acc * port :=
  capture_short s (bar s) (capture_long s (bar s) st).

(** Everything but the positions. *)
Record cap_frame (p q : port) : Prop := mkCapF {
  cp_acct : same_acct p q; cp_syms : p_symbols q = p_symbols p;
  cp_sd : p_stop_data q = p_stop_data p; cp_act : p_active q = p_active p
}.
Lemma cap_refl p : cap_frame p p. Proof. constructor; try reflexivity. apply same_acct_refl. Qed.
Lemma cap_trans p q r : cap_frame p q -> cap_frame q r -> cap_frame p r.
Proof. intros [] []. constructor; try congruence. eapply same_acct_trans; eauto. Qed.

Lemma cap_step_ok bar a p s :
  let '(a', q) := cap_step bar (a, p) s in
  cap_frame p q /\
  (forall sd, akeys (poss sd q) = akeys (poss sd p)) /\
  (forall sd s', aget s' (poss sd q) = if Nat.eqb s' s then option_map (mark sd (bar s)) (aget s' (poss sd p)) else aget s' (poss sd p)) /\
  ac_eq a' == ac_eq a + (long_part bar p s + short_eq p s) /\
  ac_mv a' == ac_mv a + (long_part bar p s + short_mkt bar p s) /\
  ac_margin a' == ac_margin a + short_margin bar p s /\
  ac_long a' == ac_long a + long_part bar p s.
Proof.
  unfold cap_step.
  assert (HL : let '(a1, q1) := capture_long s (bar s) (a, p) in
    cap_frame p q1 /\ p_shorts q1 = p_shorts p /\ akeys (p_longs q1) = akeys (p_longs p) /\
    (forall s', aget s' (p_longs q1) = if Nat.eqb s' s then option_map (mark Long (bar s)) (aget s' (p_longs p)) else aget s' (p_longs p)) /\
    ac_eq a1 == ac_eq a + long_part bar p s /\ ac_mv a1 == ac_mv a + long_part bar p s /\
    ac_margin a1 = ac_margin a /\ ac_long a1 == ac_long a + long_part bar p s).
  { unfold capture_long, long_part. destruct (aget s (p_longs p)) as [pos|] eqn:Hg.
    - destruct (bar s) as [[[close low] high]|].
      + cbn. split; [|split; [reflexivity|split; [|split; [|repeat split; lra]]]].
        * constructor; try reflexivity. constructor; try reflexivity; intros []; reflexivity.
        * apply akeys_aset_in. eapply aget_Some_key; eauto.
        * intro s'. rewrite aget_aset. destruct (Nat.eqb_spec s' s) as [->|]; auto. rewrite Hg. reflexivity.
      + cbn. split; [apply cap_refl|]. split; auto. split; auto. split; [|repeat split; lra].
        intro s'. destruct (Nat.eqb_spec s' s) as [->|]; auto. now rewrite Hg.
    - split; [apply cap_refl|]. split; auto. split; auto. split; [|repeat split; lra].
      intro s'. destruct (Nat.eqb_spec s' s) as [->|]; auto. now rewrite Hg. }
  destruct (capture_long s (bar s) (a, p)) as [a1 q1].
  destruct HL as [F1 [S1 [K1 [G1 [E1 [M1 [R1 L1]]]]]]].
  assert (HS : let '(a2, q2) := capture_short s (bar s) (a1, q1) in
    cap_frame q1 q2 /\ p_longs q2 = p_longs q1 /\ akeys (p_shorts q2) = akeys (p_shorts q1) /\
    (forall s', aget s' (p_shorts q2) = if Nat.eqb s' s then option_map (mark Short (bar s)) (aget s' (p_shorts q1)) else aget s' (p_shorts q1)) /\
    ac_eq a2 == ac_eq a1 + short_eq q1 s /\ ac_mv a2 == ac_mv a1 + short_mkt bar q1 s /\
    ac_margin a2 == ac_margin a1 + short_margin bar q1 s /\ ac_long a2 == ac_long a1).
  { unfold capture_short, short_eq, short_mkt, short_margin. destruct (aget s (p_shorts q1)) as [pos|] eqn:Hg.
    - destruct (bar s) as [[[close low] high]|].
      + cbn. split; [|split; [reflexivity|split; [|split; [|repeat split; lra]]]].
        * constructor; try reflexivity. constructor; try reflexivity; intros []; reflexivity.
        * apply akeys_aset_in. eapply aget_Some_key; eauto.
        * intro s'. rewrite aget_aset. destruct (Nat.eqb_spec s' s) as [->|]; auto. rewrite Hg. reflexivity.
      + cbn. split; [apply cap_refl|]. split; auto. split; auto. split; [|repeat split; lra].
        intro s'. destruct (Nat.eqb_spec s' s) as [->|]; auto. now rewrite Hg.
    - split; [apply cap_refl|]. split; auto. split; auto. split; [|repeat split; lra].
      intro s'. destruct (Nat.eqb_spec s' s) as [->|]; auto. now rewrite Hg. }
  destruct (capture_short s (bar s) (a1, q1)) as [a2 q2].
  destruct HS as [F2 [S2 [K2 [G2 [E2 [M2 [R2 L2]]]]]]].
  assert (X1 : short_eq q1 s = short_eq p s) by (unfold short_eq; now rewrite S1).
  assert (X2 : short_mkt bar q1 s = short_mkt bar p s) by (unfold short_mkt; now rewrite S1).
  assert (X3 : short_margin bar q1 s = short_margin bar p s) by (unfold short_margin; now rewrite S1).
  rewrite X1 in E2. rewrite X2 in M2. rewrite X3 in R2. rewrite R1 in R2.
  split; [eapply cap_trans; eauto|]. split; [|split; [|repeat split; lra]].
  - intros []; [change (akeys (p_longs q2) = akeys (p_longs p)); now rewrite S2|change (akeys (p_shorts q2) = akeys (p_shorts p)); now rewrite K2, S1].
  - intros [] s'; cbn; [rewrite S2; apply G1|]. rewrite G2, S1. reflexivity.
Qed.

Lemma cap_fold_ok bar : forall l a p, NoDup l ->
  let '(a', q) := fold_left (cap_step bar) l (a, p) in
  cap_frame p q /\
  (forall sd, akeys (poss sd q) = akeys (poss sd p)) /\
  (forall sd s', aget s' (poss sd q) = if nmem s' l then option_map (mark sd (bar s')) (aget s' (poss sd p)) else aget s' (poss sd p)) /\
  ac_eq a' == ac_eq a + Qsum (map (fun s => long_part bar p s + short_eq p s) l) /\
  ac_mv a' == ac_mv a + Qsum (map (fun s => long_part bar p s + short_mkt bar p s) l) /\
  ac_margin a' == ac_margin a + Qsum (map (short_margin bar p) l) /\
  ac_long a' == ac_long a + Qsum (map (long_part bar p) l).
Proof.
  induction l as [|s l IH]; intros a p ND.
  - cbn. split; [apply cap_refl|]. split; auto. split; auto. repeat split; lra.
  - inversion ND as [|? ? Hn Hr]; subst. cbn [fold_left].
    pose proof (cap_step_ok bar a p s) as S1. destruct (cap_step bar (a, p) s) as [a1 q1].
    destruct S1 as [F1 [K1 [G1 [E1 [M1 [R1 L1]]]]]].
    specialize (IH a1 q1 Hr). destruct (fold_left (cap_step bar) l (a1, q1)) as [a2 q2].
    destruct IH as [F2 [K2 [G2 [E2 [M2 [R2 L2]]]]]].
    assert (X : forall s', In s' l -> forall sd, aget s' (poss sd q1) = aget s' (poss sd p)).
    { intros s' I sd. rewrite G1. destruct (Nat.eqb_spec s' s) as [->|]; [contradiction|auto]. }
    assert (XL : forall s', In s' l -> aget s' (p_longs q1) = aget s' (p_longs p)) by (intros s' I; apply (X s' I Long)).
    assert (XS : forall s', In s' l -> aget s' (p_shorts q1) = aget s' (p_shorts p)) by (intros s' I; apply (X s' I Short)).
    assert (Y1 : map (fun s => long_part bar q1 s + short_eq q1 s) l = map (fun s => long_part bar p s + short_eq p s) l).
    { apply map_ext_in. intros s' I. unfold long_part, short_eq. now rewrite XL, XS by auto. }
    assert (Y2 : map (fun s => long_part bar q1 s + short_mkt bar q1 s) l = map (fun s => long_part bar p s + short_mkt bar p s) l).
    { apply map_ext_in. intros s' I. unfold long_part, short_mkt. now rewrite XL, XS by auto. }
    assert (Y3 : map (short_margin bar q1) l = map (short_margin bar p) l).
    { apply map_ext_in. intros s' I. unfold short_margin. now rewrite XS by auto. }
    assert (Y4 : map (long_part bar q1) l = map (long_part bar p) l).
    { apply map_ext_in. intros s' I. unfold long_part. now rewrite XL by auto. }
    rewrite Y1 in E2. rewrite Y2 in M2. rewrite Y3 in R2. rewrite Y4 in L2.
    split; [eapply cap_trans; eauto|]. split; [intro sd; congruence|]. split.
    + intros sd s'. rewrite G2, G1. unfold nmem. cbn [existsb].
      destruct (Nat.eqb_spec s' s) as [->|N]; cbn [orb]; auto.
      apply nmem_notIn in Hn. unfold nmem in Hn. now rewrite Hn.
    + cbn [map Qsum]. rewrite E2, M2, R2, L2, E1, M1, R1, L1. repeat split; lra.
Qed.

Lemma insert_nat_perm x l : Permutation (x :: l) (insert_nat x l).
Proof.
  induction l as [|y r IH]; cbn; auto. destruct (Nat.leb x y); auto. rewrite perm_swap. now constructor.
Qed.
Lemma sort_nat_perm l : Permutation l (sort_nat l).
Proof. induction l as [|x r IH]; cbn; auto. rewrite <- insert_nat_perm. now constructor. Qed.

Lemma entry_mark_same sd low high e :
  e_id (entry_mark sd low high e) = e_id e /\ e_shares (entry_mark sd low high e) = e_shares e /\
  e_price (entry_mark sd low high e) = e_price e /\ e_stops (entry_mark sd low high e) = e_stops e /\
  e_sym (entry_mark sd low high e) = e_sym e /\ e_type (entry_mark sd low high e) = e_type e /\
  e_date (entry_mark sd low high e) = e_date e /\ e_bars (entry_mark sd low high e) = e_bars e /\
  e_symbars (entry_mark sd low high e) = e_symbars e /\
  e_mae (entry_mark sd low high e) <= e_mae e /\ e_mfe e <= e_mfe (entry_mark sd low high e).
Proof.
  unfold entry_mark.
  generalize (match sd with Long => option_map (fun l => l - e_price e) low
              | Short => option_map (fun h => e_price e - h) high end) as loss.
  generalize (match sd with Long => option_map (fun h => h - e_price e) high
              | Short => option_map (fun l => e_price e - l) low end) as profit.
  intros profit loss. cbn zeta.
  assert (A : let e1 := match loss with Some d => if Qltb d 0 && Qltb d (e_mae e) then set_e_mae d e else e | None => e end in
    e_id e1 = e_id e /\ e_shares e1 = e_shares e /\ e_price e1 = e_price e /\ e_stops e1 = e_stops e /\ e_sym e1 = e_sym e /\
    e_type e1 = e_type e /\ e_date e1 = e_date e /\ e_bars e1 = e_bars e /\ e_symbars e1 = e_symbars e /\ e_mae e1 <= e_mae e /\ e_mfe e1 = e_mfe e).
  { cbn zeta. destruct loss as [d|]; [|repeat split; lra].
    destruct (Qltb d 0 && Qltb d (e_mae e)) eqn:E; [|repeat split; lra].
    apply andb_true_iff in E. destruct E as [E1 E2]. qb. cbn. repeat split; lra. }
  cbn zeta in A.
  set (e1 := match loss with Some d => if Qltb d 0 && Qltb d (e_mae e) then set_e_mae d e else e | None => e end) in *.
  clearbody e1.
  destruct A as [A1 [A2 [A3 [A4 [A5 [A6 [A7 [A8 [A9 [A10 A11]]]]]]]]]].
  assert (A12 : e_mfe e <= e_mfe e1) by (rewrite A11; apply Qle_refl).
  destruct profit as [d|]; [|auto 20].
  destruct (Qltb 0 d && Qltb (e_mfe e1) d) eqn:E; [|auto 20].
  apply andb_true_iff in E. destruct E as [E1 E2]. qb. cbn. do 10 (split; [auto|]). rewrite <- A11. lra.
Qed.

Lemma mark_pos_ok sd s bar pos : pos_ok [] sd s pos -> pos_ok [] sd s (mark sd bar pos) /\
  map e_id (ps_entries (mark sd bar pos)) = map e_id (ps_entries pos) /\
  ps_notional (mark sd bar pos) = ps_notional pos /\ ps_shares (mark sd bar pos) = ps_shares pos.
Proof.
  intros H. destruct bar as [[[close low] high]|]; [|cbn; auto].
  assert (E : ps_entries (mark sd (Some (close, low, high)) pos) = map (entry_mark (ps_type pos) low high) (ps_entries pos)).
  { destruct sd; reflexivity. }
  assert (E2 : ps_shares (mark sd (Some (close, low, high)) pos) = ps_shares pos) by (destruct sd; reflexivity).
  assert (E3 : ps_notional (mark sd (Some (close, low, high)) pos) = ps_notional pos) by (destruct sd; reflexivity).
  assert (E4 : ps_type (mark sd (Some (close, low, high)) pos) = ps_type pos) by (destruct sd; reflexivity).
  assert (E5 : ps_sym (mark sd (Some (close, low, high)) pos) = ps_sym pos) by (destruct sd; reflexivity).
  set (m := mark sd (Some (close, low, high)) pos) in *. clearbody m.
  assert (I : map e_id (ps_entries m) = map e_id (ps_entries pos)).
  { rewrite E, map_map. apply map_ext. intro x. apply entry_mark_same. }
  split; [|auto]. destruct H as [h1 h2 h3 h4 h5 h6]. constructor; try congruence.
  - rewrite E2, E, map_map, h3. erewrite map_ext; [reflexivity|]. intro x. cbn.
    now destruct (entry_mark_same (ps_type pos) low high x) as [_ [-> _]].
  - rewrite E3, E, map_map, h4. erewrite map_ext; [reflexivity|]. intro x. cbn.
    now destruct (entry_mark_same (ps_type pos) low high x) as [_ [-> [-> _]]].
  - intros y Iy. rewrite E in Iy. apply in_map_iff in Iy. destruct Iy as [x [<- Ix]].
    destruct (h6 x Ix) as [f1 f2 f3 f4 f5 f6 f7].
    destruct (entry_mark_same (ps_type pos) low high x) as [A1 [A2 [A3 [A4 [A5 [A6 [A7 [A8 [A9 [A10 A11]]]]]]]]]].
    constructor; rewrite ?A1, ?A2, ?A3, ?A5, ?A6; auto; lra.
Qed.

(** What capturing a bar did. *)
Record captured (c : cfg) (date : Z) (bar : bar_fn) (p p' : port) : Prop := mkCapd {
  ca_pos : forall sd s, aget s (poss sd p') = option_map (mark sd (bar s)) (aget s (poss sd p));
  ca_keys : forall sd, akeys (poss sd p') = akeys (poss sd p);
  ca_net : net_cash c p' == net_cash c p * (1 + bar_rate c);
  ca_accrued : 0 <= p_accrued p';
  ca_eq : p_equity p' == net_cash c p' + Qsum (map (fun s => long_part bar p s + short_eq p s) (p_symbols p));
  ca_mv : p_mv p' == net_cash c p' + Qsum (map (fun s => long_part bar p s + short_mkt bar p s) (p_symbols p));
  ca_margin : p_margin p' == Qsum (map (short_margin bar p) (p_symbols p));
  ca_en : forall sd, en sd p' = en sd p;
  ca_syms : p_symbols p' = p_symbols p;
  ca_fees : p_fees p' = p_fees p; ca_orders : p_orders p' = p_orders p; ca_trades : p_trades p' = p_trades p;
  ca_pnl : p_pnl p' = p_pnl p; ca_wins : p_wins p' = p_wins p;
  ca_oid : p_order_id p' = p_order_id p; ca_eid : p_entry_id p' = p_entry_id p; ca_tid : p_trade_id p' = p_trade_id p;
  ca_sd : p_stop_data p' = p_stop_data p; ca_act : p_active p' = p_active p;
  ca_ml : p_max_long p' = p_max_long p; ca_ms : p_max_short p' = p_max_short p;
  ca_c1 : p_clong p' = None; ca_c2 : p_cshort p' = None;
  ca_bars : exists b, p_bars p' = p_bars p ++ [b] /\ b_date b = date /\ b_cash b = p_cash p' /\
     b_equity b = p_equity p' /\ b_margin b = p_margin p' /\ b_loan b = margin_loan c p' /\
     b_net_cash b = net_cash c p' /\ b_mv b = p_mv p' /\ b_fees b = p_fees p'
     /\ b_upnl b = p_mv p' - p_equity p' /\ b_pnl b = p_equity p' - c_cash c
     /\ b_notional b == Qsum (map (long_part bar p) (p_symbols p)) + p_margin p'
}.

Lemma perm_Qsum f (l l' : list nat) : Permutation l l' -> Qsum (map f l) == Qsum (map f l').
Proof. induction 1; cbn; try lra. Qed.

Lemma capture_ok c date bar p : cfg_ok c -> Good c p -> captured c date bar p (capture_bar c date bar p).
Proof.
  intros K HG. destruct HG as [HC HN HL].
  destruct (apply_interest_ok c p K (ld_accrued _ _ _ HL)) as [F0 [N0 A0]].
  unfold capture_bar. set (p1 := apply_interest c p) in *.
  pose proof (cap_fold_ok bar (sort_nat (p_symbols p1)) (mkAcc (p_cash p1 - margin_loan c p1) (p_cash p1 - margin_loan c p1) 0 0) p1) as S.
  fold (cap_step bar).
  change (fun st s => capture_short s (bar s) (capture_long s (bar s) st)) with (cap_step bar).
  destruct (fold_left (cap_step bar) (sort_nat (p_symbols p1)) (mkAcc (p_cash p1 - margin_loan c p1) (p_cash p1 - margin_loan c p1) 0 0, p1)) as [a q].
  destruct S as [F [Ks [G [E [M [R L]]]]]].
  { rewrite (if_syms _ _ F0). eapply Permutation_NoDup; [apply sort_nat_perm|apply (co_syms_nodup _ _ HC)]. }
  cbn [ac_eq ac_mv ac_margin ac_long] in E, M, R, L.
  destruct F as [FA FS FD FT].
  assert (PL : forall sd, poss sd p1 = poss sd p).
  { intros []; cbn; [apply (if_longs _ _ F0)|apply (if_shorts _ _ F0)]. }
  assert (PE : forall sd, en sd q = en sd p).
  { intro sd. rewrite (sa_en _ _ FA). destruct sd; cbn; [apply (if_len _ _ F0)|apply (if_sen _ _ F0)]. }
  assert (ML : margin_loan c q = margin_loan c p1).
  { unfold margin_loan. pose proof (PE Long) as X1. pose proof (PE Short) as X2. cbn in X1, X2.
    rewrite (sa_accrued _ _ FA), X1, X2, (if_len _ _ F0), (if_sen _ _ F0). reflexivity. }
  assert (NC : net_cash c q = net_cash c p1).
  { unfold net_cash. now rewrite ML, (sa_cash _ _ FA). }
  assert (LP : forall s, long_part bar p1 s = long_part bar p s).
  { intro s. unfold long_part. now rewrite (if_longs _ _ F0). }
  assert (SE : forall s, short_eq p1 s = short_eq p s).
  { intro s. unfold short_eq. now rewrite (if_shorts _ _ F0). }
  assert (SM : forall s, short_mkt bar p1 s = short_mkt bar p s).
  { intro s. unfold short_mkt. now rewrite (if_shorts _ _ F0). }
  assert (SG : forall s, short_margin bar p1 s = short_margin bar p s).
  { intro s. unfold short_margin. now rewrite (if_shorts _ _ F0). }
  assert (PS : forall f, Qsum (map f (sort_nat (p_symbols p1))) == Qsum (map f (p_symbols p))).
  { intro f. rewrite (if_syms _ _ F0). symmetry. apply perm_Qsum, sort_nat_perm. }
  rewrite PS in E, M, R, L.
  erewrite map_ext in E; [|intro; now rewrite LP, SE].
  erewrite map_ext in M; [|intro; now rewrite LP, SM].
  erewrite map_ext in R; [|intro; now rewrite SG].
  erewrite map_ext in L; [|intro; now rewrite LP].
  assert (PP : forall (b : pbar) (x y z : Q), forall sd,
    poss sd (set_p_bars (p_bars q ++ [b]) (invalidate (set_p_margin x (set_p_mv y (set_p_equity z q))))) = poss sd q).
  { intros b x y z []; reflexivity. }
  constructor; cbn -[Qplus margin_loan net_cash].
  - intros sd s.
    change (aget s (poss sd (set_p_bars (p_bars q ++ [mkBar date (p_cash q) (ac_eq a) (ac_long a + ac_margin a) (ac_margin a)
       (margin_loan c (invalidate (set_p_margin (ac_margin a) (set_p_mv (ac_mv a) (set_p_equity (ac_eq a) q)))))
       (net_cash c (invalidate (set_p_margin (ac_margin a) (set_p_mv (ac_mv a) (set_p_equity (ac_eq a) q)))))
       (ac_mv a) (ac_eq a - c_cash c) (ac_mv a - ac_eq a) (p_fees q)])
       (invalidate (set_p_margin (ac_margin a) (set_p_mv (ac_mv a) (set_p_equity (ac_eq a) q)))))) = option_map (mark sd (bar s)) (aget s (poss sd p))).
    rewrite PP, G, PL.
    destruct (nmem s (sort_nat (p_symbols p1))) eqn:Em; auto.
    apply nmem_notIn in Em. destruct (aget s (poss sd p)) as [pos|] eqn:Hg; auto. exfalso. apply Em.
    rewrite (if_syms _ _ F0). eapply Permutation_in; [apply sort_nat_perm|].
    apply (co_syms _ _ HC). exists sd. eapply aget_Some_key; eauto.
  - intros sd. transitivity (akeys (poss sd q)); [destruct sd; reflexivity|]. now rewrite Ks, PL.
  - change (net_cash c q == net_cash c p * (1 + bar_rate c)). now rewrite NC.
  - rewrite (sa_accrued _ _ FA). exact A0.
  - change (ac_eq a == net_cash c q + Qsum (map (fun s => long_part bar p s + short_eq p s) (p_symbols p))).
    rewrite NC. exact E.
  - change (ac_mv a == net_cash c q + Qsum (map (fun s => long_part bar p s + short_mkt bar p s) (p_symbols p))).
    rewrite NC. exact M.
  - rewrite R. lra.
  - intros sd. transitivity (en sd q); [destruct sd; reflexivity|]. apply PE.
  - now rewrite FS, (if_syms _ _ F0).
  - now rewrite (sa_fees _ _ FA), (if_fees _ _ F0).
  - now rewrite (sa_orders _ _ FA), (if_orders _ _ F0).
  - now rewrite (sa_trades _ _ FA), (if_trades _ _ F0).
  - now rewrite (sa_pnl _ _ FA), (if_pnl _ _ F0).
  - now rewrite (sa_wins _ _ FA), (if_wins _ _ F0).
  - now rewrite (sa_order_id _ _ FA), (if_oid _ _ F0).
  - now rewrite (sa_entry_id _ _ FA), (if_eid _ _ F0).
  - now rewrite (sa_trade_id _ _ FA), (if_tid _ _ F0).
  - now rewrite FD, (if_sd _ _ F0).
  - now rewrite FT, (if_act _ _ F0).
  - now rewrite (sa_ml _ _ FA), (if_ml _ _ F0).
  - now rewrite (sa_ms _ _ FA), (if_ms _ _ F0).
  - reflexivity.
  - reflexivity.
  - eexists. split; [rewrite (sa_bars _ _ FA), (if_bars _ _ F0); reflexivity|]. cbn -[Qplus margin_loan net_cash].
    repeat split. rewrite L. lra.
Qed.
