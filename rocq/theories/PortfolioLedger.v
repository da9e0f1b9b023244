(** The ledger invariant: logs, running totals, conservation of money, and the
    agreement of the order log with the holdings; and its preservation by exits. *)
From Verif Require Export PortfolioCore.

(** Shares held of a symbol on one side. *)
Definition held (sd : side) (p : port) (s : sym) : Q :=
  match aget s (poss sd p) with Some pos => ps_shares pos | None => 0 end.
Definition net_held (p : port) (s : sym) : Q := held Long p s - held Short p s.
Definition sgn (sd : side) : Q := match sd with Long => 1 | Short => -1 end.
Definition osgn (o : oside) : Q := match o with OBuy => 1 | OSell => -1 end.
(** Signed order volume of a symbol. *)
Definition order_flow (s : sym) (l : list order) : Q :=
  Qsum (map (fun o => if Nat.eqb (o_sym o) s then osgn (o_side o) * o_shares o else 0) l).

(** Per-bar interest rate; 0 when interest is disabled. *)
Definition bar_rate (c : cfg) : Q :=
  match c_bpy c with
  | Some bpy => if Qle_bool (c_rate c) 0 then 0 else c_rate c / 100 / bpy
  | None => 0
  end.
(** Interest over the captured bars, from the net cash recorded on each. *)
Definition interest_total (c : cfg) (bars : list pbar) : Q :=
  Qsum (map (fun b => bar_rate c / (1 + bar_rate c) * b_net_cash b) bars).

Definition count_wins (l : list trade) : nat := length (filter (fun t => Qltb 0 (t_pnl t)) l).

(** Per-share result of a trade. *)
Definition per_share (t : trade) : Q :=
  match t_type t with Long => t_exit t - t_entry t | Short => t_entry t - t_exit t end.

Record trade_ok (t : trade) : Prop := mkTradeOk {
  to_shares : 0 < t_shares t; to_entry : 0 < t_entry t;
  to_pnl : t_pnl t == t_shares t * per_share t;
  to_mae0 : t_mae t <= 0; to_mfe0 : 0 <= t_mfe t;
  to_mae : t_mae t <= per_share t; to_mfe : per_share t <= t_mfe t
}.

Definition total_cache_ok (p : port) : Prop :=
  (forall v, p_clong p = Some v -> v == total_marked (p_longs p)) /\
  (forall v, p_cshort p = Some v -> v == total_marked (p_shorts p)).

(** [d] is the signed volume executed but not yet logged as an order. *)
Record Led (c : cfg) (d : sym -> Q) (p : port) : Prop := mkLed {
  ld_oid : map o_id (p_orders p) = seq 1 (length (p_orders p));
  ld_ocnt : p_order_id p = length (p_orders p);
  ld_tid : map t_id (p_trades p) = seq 1 (length (p_trades p));
  ld_tcnt : p_trade_id p = length (p_trades p);
  ld_pnl : p_pnl p == Qsum (map t_pnl (p_trades p));
  ld_agg : forall l1 t l2, p_trades p = l1 ++ t :: l2 ->
             t_agg t == Qsum (map t_pnl l1) + t_pnl t;
  ld_fees : p_fees p == Qsum (map o_fees (p_orders p));
  ld_wins : p_wins p == inject_Z (Z.of_nat (count_wins (p_trades p)));
  ld_net : forall s, order_flow s (p_orders p) + d s == net_held p s;
  ld_money : p_cash p - margin_loan c p + en Long p + en Short p ==
             c_cash c + p_pnl p - p_fees p + interest_total c (p_bars p);
  ld_trades : Forall trade_ok (p_trades p);
  ld_accrued : 0 <= p_accrued p;
  ld_cache : total_cache_ok p
}.

Definition dzero : sym -> Q := fun _ => 0.
Definition dadd (s : sym) (q : Q) (d : sym -> Q) : sym -> Q :=
  fun x => if Nat.eqb x s then d x + q else d x.

Lemma init_led c : cfg_ok c -> Led c dzero (init c).
Proof.
  intro K. constructor; cbn; try reflexivity.
  - intros l1 t l2 H. destruct l1; discriminate H.
  - unfold margin_loan. cbn. destruct (Qle_bool (c_leverage c) 1) eqn:E.
    + unfold interest_total. cbn. lra.
    + qb. unfold interest_total. cbn. field. lra.
  - constructor.
  - lra.
  - split; discriminate.
Qed.

(** ** Facts about the ledger pieces *)
Lemma lev_cases c : cfg_ok c ->
  (Qltb 1 (c_leverage c) = true /\ Qle_bool (c_leverage c) 1 = false /\ 1 < c_leverage c) \/
  (Qltb 1 (c_leverage c) = false /\ Qle_bool (c_leverage c) 1 = true /\ c_leverage c == 1).
Proof.
  intro K. unfold Qltb. destruct (Qle_bool (c_leverage c) 1) eqn:E; [right|left]; qb;
  repeat split; auto. pose proof (ck_lev c K). lra.
Qed.

Lemma money_ext c p p' :
  p_accrued p' == p_accrued p -> en Long p' + en Short p' == en Long p + en Short p ->
  margin_loan c p' == margin_loan c p.
Proof.
  intros A E. unfold margin_loan. destruct (Qle_bool (c_leverage c) 1); [auto|].
  change (p_long_en p' + p_short_en p') with (en Long p' + en Short p').
  change (p_long_en p + p_short_en p) with (en Long p + en Short p).
  rewrite A, E. lra.
Qed.

Lemma Qsum_en sd p : en Long p + en Short p == en sd p + en (flip sd) p.
Proof. destruct sd; cbn; lra. Qed.

Lemma count_wins_app l t :
  inject_Z (Z.of_nat (count_wins (l ++ [t]))) ==
  inject_Z (Z.of_nat (count_wins l)) + (if Qltb 0 (t_pnl t) then 1 else 0).
Proof.
  unfold count_wins. rewrite filter_app, app_length, Nat2Z.inj_add, inject_Z_plus. cbn.
  destruct (Qltb 0 (t_pnl t)); cbn;
    [change (inject_Z 1) with 1|change (inject_Z 0) with 0]; lra.
Qed.

Lemma seq_app1 n : seq 1 (n + 1) = seq 1 n ++ [S n].
Proof. rewrite seq_app. reflexivity. Qed.

Lemma aggs_snoc (l : list trade) (t : trade) :
  (forall l1 x l2, l = l1 ++ x :: l2 -> t_agg x == Qsum (map t_pnl l1) + t_pnl x) ->
  t_agg t == Qsum (map t_pnl l) + t_pnl t ->
  forall l1 x l2, l ++ [t] = l1 ++ x :: l2 -> t_agg x == Qsum (map t_pnl l1) + t_pnl x.
Proof.
  intros H Ht l1 x l2 E.
  destruct l2 as [|y l2 _] using rev_ind.
  - apply app_inj_tail in E. destruct E as [-> ->]. auto.
  - replace (l1 ++ x :: l2 ++ [y]) with ((l1 ++ x :: l2) ++ [y]) in E
      by (rewrite <- app_assoc; reflexivity).
    apply app_inj_tail in E. destruct E as [-> ->]. eapply H; reflexivity.
Qed.

Lemma exit_trade_ok sd s z date e sh fill stp p :
  entry_ok z sd s e -> 0 < sh -> trade_ok (exit_trade sd date e sh fill stp p).
Proof.
  intros [A B C _ D E F] H.
  assert (P : per_share (exit_trade sd date e sh fill stp p) =
     match sd with Long => fill - e_price e | Short => e_price e - fill end).
  { unfold per_share, exit_trade. cbn. rewrite B. destruct sd; reflexivity. }
  constructor; rewrite ?P; cbn; auto.
  - unfold exit_pnl. destruct sd; lra.
  - destruct sd; match goal with |- (if ?a && ?b then _ else _) <= 0 => destruct a eqn:?; destruct b eqn:?; cbn end; qb; lra.
  - destruct sd; match goal with |- 0 <= (if ?a && ?b then _ else _) => destruct a eqn:?; destruct b eqn:?; cbn end; qb; lra.
  - destruct sd; match goal with |- (if ?a && ?b then _ else _) <= _ => destruct a eqn:?; destruct b eqn:?; cbn end; qb; lra.
  - destruct sd; match goal with |- _ <= (if ?a && ?b then _ else _) => destruct a eqn:?; destruct b eqn:?; cbn end; qb; lra.
Qed.

Lemma held_update sd s pos' p p' s' :
  poss sd p' = aset s pos' (poss sd p) ->
  held sd p' s' = if Nat.eqb s' s then ps_shares pos' else held sd p s'.
Proof.
  intro H. unfold held. rewrite H, aget_aset. destruct (Nat.eqb s' s); reflexivity.
Qed.
Lemma held_same sd p p' s : poss sd p' = poss sd p -> held sd p' s = held sd p s.
Proof. unfold held. now intros ->. Qed.
Lemma net_held_sd sd p s : net_held p s == sgn sd * (held sd p s - held (flip sd) p s).
Proof. unfold net_held. destruct sd; cbn; lra. Qed.

Lemma exit_led c d z sd date pos e sh fill stp s p :
  cfg_ok c -> Led c d p -> aget s (poss sd p) = Some pos -> ps_sym pos = s ->
  entry_ok z sd s e -> 0 < sh ->
  Led c (dadd s (- sgn sd * sh) d) (snd (exit_entry c sd date pos e sh fill stp p)).
Proof.
  intros K H Hg Hs He Hsh.
  set (p' := snd (exit_entry c sd date pos e sh fill stp p)).
  set (t := exit_trade sd date e sh fill stp p).
  assert (HT : p_trades p' = p_trades p ++ [t]) by apply exit_trades.
  assert (Htp : t_pnl t = exit_pnl sd e sh fill) by reflexivity.
  assert (HP : p_pnl p' = p_pnl p + exit_pnl sd e sh fill) by apply exit_pnl_f.
  assert (HO : p_orders p' = p_orders p) by apply exit_orders.
  assert (HF : p_fees p' = p_fees p) by apply exit_fees.
  constructor; fold p'.
  - rewrite HO. apply (ld_oid _ _ _ H).
  - rewrite HO. unfold p'. rewrite exit_order_id. apply (ld_ocnt _ _ _ H).
  - rewrite HT, map_app, app_length, (ld_tid _ _ _ H). cbn.
    rewrite seq_app1. do 2 f_equal. rewrite (ld_tcnt _ _ _ H). reflexivity.
  - rewrite HT, app_length. unfold p'. rewrite exit_trade_id, (ld_tcnt _ _ _ H). cbn. lia.
  - rewrite HP, HT, map_app, Qsum_app, (ld_pnl _ _ _ H). cbn. lra.
  - rewrite HT. apply aggs_snoc; [apply (ld_agg _ _ _ H)|].
    unfold t. cbn. rewrite (ld_pnl _ _ _ H). lra.
  - rewrite HO, HF. apply (ld_fees _ _ _ H).
  - rewrite HT, count_wins_app. unfold p'. rewrite exit_wins. fold t.
    pose proof (ld_wins _ _ _ H). destruct (Qltb 0 (t_pnl t)); lra.
  - intro s'. rewrite HO. rewrite (net_held_sd sd p').
    rewrite (held_same (flip sd) p p') by apply exit_poss_other.
    rewrite (held_update sd s (exit_pos pos e sh) p p')
      by (unfold p'; rewrite exit_poss, Hs; reflexivity).
    pose proof (ld_net _ _ _ H s') as N. rewrite (net_held_sd sd p) in N.
    unfold dadd. destruct (Nat.eqb_spec s' s) as [->|Ns]; [|exact N].
    rewrite exit_pos_shares. unfold held at 1 in N. rewrite Hg in N.
    destruct sd; cbn [sgn] in *; lra.
  - pose proof (ld_money _ _ _ H) as M. rewrite HP, HF.
    assert (HB : p_bars p' = p_bars p) by apply exit_bars. rewrite HB.
    pose proof (Qsum_en sd p) as E1. pose proof (Qsum_en sd p') as E2.
    assert (En : en sd p' = en sd p - sh * e_price e) by apply exit_en.
    assert (Ef : en (flip sd) p' = en (flip sd) p) by apply exit_en_other.
    assert (Ac : p_accrued p' = p_accrued p) by apply exit_accrued.
    assert (Ca : p_cash p' = p_cash p +
     (if Qltb 1 (c_leverage c) then sh * e_price e / c_leverage c + exit_pnl sd e sh fill
      else sh * e_price e + exit_pnl sd e sh fill)) by apply exit_cash.
    rewrite Ca. clear Ca HP HF HO HT.
    unfold margin_loan in *.
    change (p_long_en p' + p_short_en p') with (en Long p' + en Short p').
    change (p_long_en p + p_short_en p) with (en Long p + en Short p) in M.
    set (X := sh * e_price e) in *. set (Y := exit_pnl sd e sh fill) in *.
    rewrite Ac. rewrite En, Ef in E2. clearbody p'.
    destruct (lev_cases c K) as [[A [B L]]|[A [B L]]]; rewrite A, B in *.
    + assert (E3 : en Long p' + en Short p' == en Long p + en Short p - X) by lra.
      rewrite <- Qplus_assoc, E3.
      transitivity (p_cash p - (en Long p + en Short p - (en Long p + en Short p) / c_leverage c + p_accrued p)
                    + en Long p + en Short p + Y); [field; lra|]. rewrite M. lra.
    + lra.
  - rewrite HT. apply Forall_app. split; [apply (ld_trades _ _ _ H)|].
    constructor; [|constructor]. eapply exit_trade_ok; eauto.
  - unfold p'. rewrite exit_accrued. apply (ld_accrued _ _ _ H).
  - destruct (exit_caches c sd date pos e sh fill stp p) as [C1 C2]. fold p' in C1, C2.
    split; rewrite ?C1, ?C2; discriminate.
Qed.

(** States that agree on everything the ledger reads. *)
Lemma led_ext c d p p' :
  Led c d p -> same_acct p p' -> (forall s, net_held p' s == net_held p s) ->
  total_cache_ok p' -> Led c d p'.
Proof.
  intros H S Hn Hc. destruct S, H. constructor;
    rewrite ?sa_cash, ?sa_orders, ?sa_order_id, ?sa_trades, ?sa_trade_id, ?sa_pnl,
      ?sa_fees, ?sa_wins, ?sa_bars, ?sa_accrued; auto.
  - intro s. rewrite Hn. auto.
  - rewrite !sa_en. rewrite (money_ext c p p'); [auto|now rewrite sa_accrued|now rewrite !sa_en].
Qed.

Lemma led_delta c d d' p : (forall s, d s == d' s) -> Led c d p -> Led c d' p.
Proof.
  intros E H. destruct H. constructor; auto. intro s. rewrite <- E. auto.
Qed.

Lemma net_held_ext p p' : (forall sd, poss sd p' = poss sd p) -> forall s, net_held p' s == net_held p s.
Proof. intros H s. unfold net_held. rewrite !(held_same _ p p') by auto. reflexivity. Qed.

Lemma cache_ok_sbs p p' : same_but_stops p p' -> total_cache_ok p -> total_cache_ok p'.
Proof.
  intros S [A B]. destruct S as [_ P _ C1 C2].
  pose proof (P Long) as PL. pose proof (P Short) as PS. cbn in PL, PS.
  split; intro v; [rewrite C1, PL|rewrite C2, PS]; auto.
Qed.

Lemma led_sbs c d p p' : same_but_stops p p' -> Led c d p -> Led c d p'.
Proof.
  intros S H. apply (led_ext c d p); auto.
  - apply (sb_acct _ _ S).
  - apply net_held_ext. apply (sb_poss _ _ S).
  - eapply cache_ok_sbs; eauto. apply H.
Qed.
Lemma core_sbs z p p' : same_but_stops p p' -> Core z p -> Core z p'.
Proof.
  intros S H. apply (core_ext z p); auto; try apply S.
Qed.
