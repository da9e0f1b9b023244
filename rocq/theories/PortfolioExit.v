(** Field-by-field descriptions of the portfolio primitives. *)
From Verif Require Export Lemmas PortfolioModel.

Lemma side_eqb_refl sd : side_eqb sd sd = true.
Proof. destruct sd; reflexivity. Qed.
Lemma side_eqb_eq a b : side_eqb a b = true <-> a = b.
Proof. destruct a, b; cbn; split; congruence. Qed.
Definition flip (sd : side) : side := match sd with Long => Short | Short => Long end.

(** ** [clamp_unmarked] only touches the unmarked fields. *)
Section Clamp.
  Variable pos : position.
  Ltac t := unfold clamp_unmarked; destruct (Qle_bool (ps_un_shares pos) 0);
    [reflexivity|]; destruct (Qle_bool (ps_shares pos) 0); [reflexivity|];
    destruct (Qltb (ps_shares pos) (ps_un_shares pos)); reflexivity.
  Lemma clamp_sym : ps_sym (clamp_unmarked pos) = ps_sym pos. Proof. t. Qed.
  Lemma clamp_shares_f : ps_shares (clamp_unmarked pos) = ps_shares pos. Proof. t. Qed.
  Lemma clamp_type : ps_type (clamp_unmarked pos) = ps_type pos. Proof. t. Qed.
  Lemma clamp_entries : ps_entries (clamp_unmarked pos) = ps_entries pos. Proof. t. Qed.
  Lemma clamp_notional : ps_notional (clamp_unmarked pos) = ps_notional pos. Proof. t. Qed.
  Lemma clamp_close : ps_close (clamp_unmarked pos) = ps_close pos. Proof. t. Qed.
  Lemma clamp_margin : ps_margin (clamp_unmarked pos) = ps_margin pos. Proof. t. Qed.
  Lemma clamp_pnl : ps_pnl (clamp_unmarked pos) = ps_pnl pos. Proof. t. Qed.
End Clamp.

(** ** [exit_entry] *)
Definition exit_pos (pos : position) (e : entry) (shares : Q) : position :=
  clamp_unmarked
    (set_ps_notional (ps_notional pos - shares * e_price e)
      (set_ps_entries
        (upd_entry (e_id e) (fun x => set_e_shares (e_shares x - shares) x) (ps_entries pos))
        (set_ps_shares (ps_shares pos - shares) pos))).

Definition exit_pnl (sd : side) (e : entry) (shares fill : Q) : Q :=
  match sd with
  | Long => shares * fill - shares * e_price e
  | Short => shares * e_price e - shares * fill
  end.

Definition exit_trade (sd : side) (date : Z) (e : entry) (shares fill : Q)
    (stp : option stop_type) (p : port) : trade :=
  let entry_pnl := exit_pnl sd e shares fill in
  let pnl := match sd with Long => fill - e_price e | Short => e_price e - fill end in
  mkTrade (S (p_trade_id p)) (e_type e) (e_sym e) (e_date e) date (e_price e) fill shares
    entry_pnl
    (match sd with
     | Long => (fill / e_price e - 1) * 100
     | Short => (e_price e / fill - 1) * 100 end)
    (p_pnl p + entry_pnl) (e_bars e)
    (match e_bars e with
     | O => entry_pnl
     | n => entry_pnl / inject_Z (Z.of_nat n) end)
    stp
    (if Qltb pnl 0 && Qltb pnl (e_mae e) then pnl else e_mae e)
    (if Qltb 0 pnl && Qltb (e_mfe e) pnl then pnl else e_mfe e).

Section Exit.
  Variables (c : cfg) (sd : side) (date : Z) (pos : position) (e : entry)
    (shares fill : Q) (stp : option stop_type) (p : port).
  Let p' := snd (exit_entry c sd date pos e shares fill stp p).
  Let tr := exit_trade sd date e shares fill stp p.

  Ltac t := unfold p', tr, exit_entry, exit_trade, exit_pnl, add_trade, invalidate, release_collateral;
    destruct sd; cbn;
    try match goal with |- context [if Qltb 0 ?x then set_p_wins _ _ else _] => destruct (Qltb 0 x) end;
    reflexivity.

  Lemma exit_fst : fst (exit_entry c sd date pos e shares fill stp p) = exit_pos pos e shares.
  Proof. unfold exit_entry, exit_pos. destruct sd; reflexivity. Qed.
  Lemma exit_sym : ps_sym (exit_pos pos e shares) = ps_sym pos.
  Proof. unfold exit_pos. now rewrite clamp_sym. Qed.
  Lemma exit_poss : poss sd p' = aset (ps_sym pos) (exit_pos pos e shares) (poss sd p).
  Proof.
    rewrite <- exit_sym. unfold p', exit_entry, exit_pos, add_trade, invalidate, release_collateral.
    destruct sd; cbn;
    try match goal with |- context [if Qltb 0 ?x then set_p_wins _ _ else _] => destruct (Qltb 0 x) end;
    reflexivity.
  Qed.
  Lemma exit_poss_other : poss (flip sd) p' = poss (flip sd) p.
  Proof. t. Qed.
  Lemma exit_cash : p_cash p' = p_cash p +
     (if Qltb 1 (c_leverage c) then shares * e_price e / c_leverage c + exit_pnl sd e shares fill
      else shares * e_price e + exit_pnl sd e shares fill).
  Proof.
    unfold p', exit_entry, exit_pnl, add_trade, invalidate, release_collateral.
    destruct sd; cbn; destruct (Qltb 1 (c_leverage c));
    try match goal with |- context [if Qltb 0 ?x then set_p_wins _ _ else _] => destruct (Qltb 0 x) end;
    reflexivity.
  Qed.
  Lemma exit_en : en sd p' = en sd p - shares * e_price e.
  Proof. t. Qed.
  Lemma exit_en_other : en (flip sd) p' = en (flip sd) p.
  Proof. t. Qed.
  Lemma exit_pnl_f : p_pnl p' = p_pnl p + exit_pnl sd e shares fill.
  Proof. t. Qed.
  Lemma exit_trades : p_trades p' = p_trades p ++ [tr].
  Proof. t. Qed.
  Lemma exit_trade_id : p_trade_id p' = S (p_trade_id p).
  Proof. t. Qed.
  Lemma exit_wins : p_wins p' = if Qltb 0 (t_pnl tr) then p_wins p + 1 else p_wins p.
  Proof. t. Qed.
  Lemma exit_accrued : p_accrued p' = p_accrued p. Proof. t. Qed.
  Lemma exit_fees : p_fees p' = p_fees p. Proof. t. Qed.
  Lemma exit_orders : p_orders p' = p_orders p. Proof. t. Qed.
  Lemma exit_order_id : p_order_id p' = p_order_id p. Proof. t. Qed.
  Lemma exit_entry_id : p_entry_id p' = p_entry_id p. Proof. t. Qed.
  Lemma exit_symbols : p_symbols p' = p_symbols p. Proof. t. Qed.
  Lemma exit_bars : p_bars p' = p_bars p. Proof. t. Qed.
  Lemma exit_stop_data : p_stop_data p' = p_stop_data p. Proof. t. Qed.
  Lemma exit_active : p_active p' = p_active p. Proof. t. Qed.
  Lemma exit_equity : p_equity p' = p_equity p. Proof. t. Qed.
  Lemma exit_mv : p_mv p' = p_mv p. Proof. t. Qed.
  Lemma exit_margin : p_margin p' = p_margin p. Proof. t. Qed.
  Lemma exit_caps : p_max_long p' = p_max_long p /\ p_max_short p' = p_max_short p.
  Proof. split; t. Qed.
  Lemma exit_caches : p_clong p' = None /\ p_cshort p' = None.
  Proof. split; t. Qed.
End Exit.

(** ** Everything except the positions and the stop registries. *)
Record same_acct (p p' : port) : Prop := mkSameAcct {
  sa_cash : p_cash p' = p_cash p; sa_equity : p_equity p' = p_equity p;
  sa_mv : p_mv p' = p_mv p; sa_fees : p_fees p' = p_fees p;
  sa_orders : p_orders p' = p_orders p; sa_trades : p_trades p' = p_trades p;
  sa_margin : p_margin p' = p_margin p; sa_accrued : p_accrued p' = p_accrued p;
  sa_pnl : p_pnl p' = p_pnl p; sa_bars : p_bars p' = p_bars p; sa_wins : p_wins p' = p_wins p;
  sa_order_id : p_order_id p' = p_order_id p; sa_entry_id : p_entry_id p' = p_entry_id p;
  sa_trade_id : p_trade_id p' = p_trade_id p;
  sa_en : forall sd, en sd p' = en sd p;
  sa_ml : p_max_long p' = p_max_long p; sa_ms : p_max_short p' = p_max_short p
}.
Lemma same_acct_refl p : same_acct p p.
Proof. constructor; reflexivity. Qed.
Lemma same_acct_trans p q r : same_acct p q -> same_acct q r -> same_acct p r.
Proof.
  intros A B. destruct A, B. constructor; congruence.
Qed.

(** [pop_stop], [remove_stop_data] touch only the stop registries. *)
Record same_but_stops (p p' : port) : Prop := mkSBS {
  sb_acct : same_acct p p';
  sb_poss : forall sd, poss sd p' = poss sd p;
  sb_symbols : p_symbols p' = p_symbols p;
  sb_clong : p_clong p' = p_clong p; sb_cshort : p_cshort p' = p_cshort p
}.
Lemma sbs_refl p : same_but_stops p p.
Proof. constructor; try reflexivity. apply same_acct_refl. Qed.
Lemma sbs_trans p q r : same_but_stops p q -> same_but_stops q r -> same_but_stops p r.
Proof.
  intros A B. destruct A, B. constructor; try congruence.
  eapply same_acct_trans; eauto.
Qed.
Lemma pop_stop_sbs id s p : same_but_stops p (pop_stop id s p).
Proof.
  unfold pop_stop. cbn. destruct (aget s (p_active p)) as [l|].
  - destruct (remove_first id l); constructor; try constructor; try reflexivity; intros []; reflexivity.
  - constructor; try constructor; try reflexivity; intros []; reflexivity.
Qed.
Lemma remove_stop_data_sbs stops : forall p, same_but_stops p (remove_stop_data stops p).
Proof.
  induction stops as [|st r IH]; cbn; intro p; [apply sbs_refl|].
  destruct (ahas (st_id st) (p_stop_data p)); [|auto].
  eapply sbs_trans; [apply pop_stop_sbs|apply IH].
Qed.

(** [set_poss] *)
Lemma poss_set_poss sd d p : poss sd (set_poss sd d p) = d.
Proof. destruct sd; reflexivity. Qed.
Lemma poss_set_poss_flip sd d p : poss (flip sd) (set_poss sd d p) = poss (flip sd) p.
Proof. destruct sd; reflexivity. Qed.
Lemma poss_set_poss_if sd sd' d p :
  poss sd' (set_poss sd d p) = if side_eqb sd' sd then d else poss sd' p.
Proof. destruct sd, sd'; reflexivity. Qed.
Lemma set_poss_same sd d p : same_acct p (set_poss sd d p).
Proof. destruct sd; constructor; try reflexivity; intros []; reflexivity. Qed.
Lemma set_poss_symbols sd d p : p_symbols (set_poss sd d p) = p_symbols p.
Proof. destruct sd; reflexivity. Qed.
Lemma set_poss_clong sd d p : p_clong (set_poss sd d p) = p_clong p.
Proof. destruct sd; reflexivity. Qed.
Lemma set_poss_cshort sd d p : p_cshort (set_poss sd d p) = p_cshort p.
Proof. destruct sd; reflexivity. Qed.
Lemma set_poss_stop_data sd d p : p_stop_data (set_poss sd d p) = p_stop_data p.
Proof. destruct sd; reflexivity. Qed.
Lemma set_poss_active sd d p : p_active (set_poss sd d p) = p_active p.
Proof. destruct sd; reflexivity. Qed.

(** [update_position] *)
Lemma update_position_same sd pos p : same_acct p (update_position sd pos p).
Proof.
  unfold update_position. destruct (ps_entries pos); [|apply same_acct_refl].
  match goal with |- context [if ?b then _ else _] => destruct b end.
  - eapply same_acct_trans; [apply (set_poss_same sd)|].
    constructor; try reflexivity.
  - apply set_poss_same.
Qed.

(** ** Uniqueness-based facts about [upd_entry]. *)
Lemma upd_entry_ids id f es : (forall e, e_id (f e) = e_id e) ->
  map e_id (upd_entry id f es) = map e_id es.
Proof.
  intro H. induction es as [|e r IH]; cbn; auto. f_equal; auto.
  destruct (Nat.eqb (e_id e) id); auto.
Qed.
Lemma upd_entry_notin id f es : ~ In id (map e_id es) -> upd_entry id f es = es.
Proof.
  induction es as [|e r IH]; cbn; auto. intro H.
  destruct (Nat.eqb_spec (e_id e) id); [exfalso; auto|]. f_equal. auto.
Qed.
Lemma upd_entry_sum (g : entry -> Q) f e es : NoDup (map e_id es) -> In e es ->
  Qsum (map g (upd_entry (e_id e) f es)) == Qsum (map g es) - g e + g (f e).
Proof.
  induction es as [|x r IH]; cbn; [tauto|]. intros ND [->|H];
    inversion ND as [|? ? Hn Hr]; subst.
  - rewrite Nat.eqb_refl. fold (upd_entry (e_id e) f r). rewrite upd_entry_notin by auto. lra.
  - destruct (Nat.eqb_spec (e_id x) (e_id e)) as [E|N].
    + exfalso. apply Hn. rewrite E. now apply in_map.
    + fold (upd_entry (e_id e) f r). rewrite (IH Hr H). lra.
Qed.
Lemma In_upd_entry x id f es : In x (upd_entry id f es) ->
  (In x es /\ e_id x <> id) \/ (exists y, In y es /\ e_id y = id /\ x = f y).
Proof.
  unfold upd_entry. intro H. apply in_map_iff in H. destruct H as [y [E I]].
  destruct (Nat.eqb_spec (e_id y) id) as [Ey|N]; subst; eauto.
Qed.
Lemma id_inj es e1 e2 : NoDup (map e_id es) -> In e1 es -> In e2 es -> e_id e1 = e_id e2 -> e1 = e2.
Proof.
  induction es as [|x r IH]; cbn; [tauto|]. intros ND H1 H2 E.
  inversion ND as [|? ? Hn Hr]; subst.
  destruct H1 as [->|H1], H2 as [->|H2]; auto.
  - exfalso. apply Hn. rewrite E. now apply in_map.
  - exfalso. apply Hn. rewrite <- E. now apply in_map.
Qed.
