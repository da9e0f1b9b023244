(** [buy], [sell], [exit_position] preserve the account invariant. *)
From Verif Require Export PortfolioOpen.

Record Good (c : cfg) (p : port) : Prop := mkGood {
  gd_core : Core [] p; gd_ne : nonempty_but None p; gd_led : Led c dzero p
}.

Lemma init_good c : cfg_ok c -> Good c (init c).
Proof.
  intro K. constructor; [apply init_core| |now apply init_led].
  intros [] s pos H; discriminate H.
Qed.

Lemma core_cache z p p' : cache_only p p' -> Core z p -> Core z p'.
Proof. intros C H. apply (core_ext z p); auto; try apply C. all: apply (cc_acct _ _ C). Qed.
Lemma nonempty_cache x p p' : cache_only p p' -> nonempty_but x p -> nonempty_but x p'.
Proof. intros C H. eapply nonempty_ext; eauto. apply C. Qed.
Lemma led_cache c d p p' : cache_only p p' -> Led c d p -> Led c d p'.
Proof.
  intros C H. apply (led_ext c d p); auto; try apply C.
  - now apply net_held_ext, C.
  - apply H.
Qed.
Lemma good_cache c p p' : cache_only p p' -> Good c p -> Good c p'.
Proof.
  intros C [A B D]. constructor; [eapply core_cache|eapply nonempty_cache|eapply led_cache]; eauto.
Qed.

(** ** The order log *)
Section AddOrder.
  Variables (c : cfg) (date : Z) (s : sym) (o : oside) (created : option Z) (ot : order_type)
    (it : intent) (shares : Q) (limit market : option Q) (fill : Q) (p : port).
  Let r := add_order c date s o created ot it shares limit market fill p.
  Let p' := fst r.

  Lemma add_order_rec : snd r = mkOrder (S (p_order_id p)) o s date created ot it shares limit
     (match market with Some m => m | None => fill end) fill (calculate_fees c s fill shares o).
  Proof. reflexivity. Qed.
  Lemma add_order_orders : p_orders p' = p_orders p ++ [snd r].
  Proof. unfold p', r, add_order. cbn. destruct (c_fee_mode c); reflexivity. Qed.
  Lemma add_order_poss sd : poss sd p' = poss sd p.
  Proof. unfold p', r, add_order. cbn. destruct (c_fee_mode c), sd; reflexivity. Qed.
  Lemma add_order_en sd : en sd p' = en sd p.
  Proof. unfold p', r, add_order. cbn. destruct (c_fee_mode c), sd; reflexivity. Qed.
  Lemma add_order_fees : p_fees p' = p_fees p + calculate_fees c s fill shares o.
  Proof. unfold p', r, add_order. cbn. destruct (c_fee_mode c); reflexivity. Qed.
  Lemma add_order_cash : p_cash p' == p_cash p - calculate_fees c s fill shares o.
  Proof.
    unfold p', r, add_order, calculate_fees. cbn. destruct (c_fee_mode c) eqn:E; cbn; [lra|].
    lra.
  Qed.
  Ltac t := unfold p', r, add_order; cbn; destruct (c_fee_mode c); reflexivity.
  Lemma add_order_id : p_order_id p' = S (p_order_id p). Proof. t. Qed.
  Lemma add_order_trades : p_trades p' = p_trades p. Proof. t. Qed.
  Lemma add_order_tid : p_trade_id p' = p_trade_id p. Proof. t. Qed.
  Lemma add_order_pnl : p_pnl p' = p_pnl p. Proof. t. Qed.
  Lemma add_order_wins : p_wins p' = p_wins p. Proof. t. Qed.
  Lemma add_order_accrued : p_accrued p' = p_accrued p. Proof. t. Qed.
  Lemma add_order_bars : p_bars p' = p_bars p. Proof. t. Qed.
  Lemma add_order_syms : p_symbols p' = p_symbols p. Proof. t. Qed.
  Lemma add_order_eid : p_entry_id p' = p_entry_id p. Proof. t. Qed.
  Lemma add_order_sd : p_stop_data p' = p_stop_data p. Proof. t. Qed.
  Lemma add_order_act : p_active p' = p_active p. Proof. t. Qed.
  Lemma add_order_caches : p_clong p' = p_clong p /\ p_cshort p' = p_cshort p. Proof. split; t. Qed.
  Lemma add_order_caps : p_max_long p' = p_max_long p /\ p_max_short p' = p_max_short p. Proof. split; t. Qed.
  Lemma add_order_marks : p_equity p' = p_equity p /\ p_mv p' = p_mv p /\ p_margin p' = p_margin p.
  Proof. repeat split; t. Qed.

  Lemma add_order_core z : Core z p -> Core z p'.
  Proof.
    intro H. apply (core_ext z p); auto.
    - apply add_order_poss. - apply add_order_syms. - apply add_order_eid. - apply add_order_en.
  Qed.
  Lemma add_order_ne x : nonempty_but x p -> nonempty_but x p'.
  Proof. intro H. eapply nonempty_ext; eauto. apply add_order_poss. Qed.
  Lemma add_order_led d : Led c d p -> Led c (dadd s (- osgn o * shares) d) p'.
  Proof.
    intro H. destruct H.
    pose proof add_order_orders as A1. rewrite add_order_rec in A1.
    pose proof add_order_poss as A2. pose proof add_order_en as A3.
    pose proof add_order_fees as A4. pose proof add_order_cash as A5.
    pose proof add_order_id as A6. pose proof add_order_trades as A7. pose proof add_order_tid as A8.
    pose proof add_order_pnl as A9. pose proof add_order_wins as A10.
    pose proof add_order_accrued as A11. pose proof add_order_bars as A12.
    destruct add_order_caches as [A13 A14].
    clearbody p'. clear r. constructor; rewrite ?A7, ?A8, ?A9, ?A10, ?A11; auto.
    - rewrite A1, map_app, app_length, ld_oid. cbn [length map o_id].
      rewrite seq_app1. now rewrite ld_ocnt.
    - rewrite A1, app_length, A6, ld_ocnt. cbn. lia.
    - rewrite A1, map_app, Qsum_app, A4, ld_fees. cbn. lra.
    - intro x. rewrite (net_held_ext p p' A2), <- (ld_net x).
      unfold order_flow. rewrite A1, map_app, Qsum_app. cbn.
      unfold dadd. rewrite (Nat.eqb_sym s x). destruct (Nat.eqb x s); lra.
    - rewrite A5, !A3, A4, A12.
      rewrite (money_ext c p p'); [|now rewrite A11|now rewrite !A3]. lra.
    - destruct ld_cache as [A B].
      pose proof (A2 Long) as PL. pose proof (A2 Short) as PS. cbn in PL, PS.
      split; intro v; [rewrite A13, PL|rewrite A14, PS]; auto.
  Qed.
End AddOrder.

(** ** [buy] and [sell] *)
(** The side an order closes, and the side it opens. *)
Definition closes (o : oside) : side := match o with OBuy => Short | OSell => Long end.
Definition opens (o : oside) : side := match o with OBuy => Long | OSell => Short end.
Lemma flip_closes o : flip (closes o) = opens o.
Proof. destruct o; reflexivity. Qed.
Lemma flip_opens o : flip (opens o) = closes o.
Proof. destruct o; reflexivity. Qed.
Lemma sgn_opens o : sgn (opens o) = osgn o.
Proof. destruct o; reflexivity. Qed.
Lemma sgn_closes o : - sgn (closes o) == osgn o.
Proof. destruct o; cbn; lra. Qed.

Definition open_side (c : cfg) (o : oside) :=
  match o with OBuy => long_ c | OSell => short_ c end.
Definition place (c : cfg) (o : oside) (a : oargs) (p : port) : res (option order) :=
  match o with OBuy => buy c a p | OSell => sell c a p end.
Definition limit_rejects (o : oside) (fill : Q) (limit : option Q) : bool :=
  match limit with
  | Some l => match o with OBuy => Qltb l fill | OSell => Qltb fill l end
  | None => false
  end.

Definition allows (c : cfg) (sd : side) : Prop :=
  match sd with Long => c_mode c <> PMShortOnly | Short => c_mode c <> PMLongOnly end.
Definition cap (sd : side) (p : port) : option nat :=
  match sd with Long => p_max_long p | Short => p_max_short p end.

(** Everything a filled or unfilled order does, before the order is logged. *)
Record fill_ok (c : cfg) (o : oside) (a : oargs) (p : port) (filled bought : Q) (p2 : port) : Prop := mkFill {
  fo_core : Core [] p2; fo_ne : nonempty_but None p2;
  fo_led : Led c (dadd (a_sym a) (osgn o * (filled + bought)) dzero) p2;
  fo_f0 : 0 <= filled; fo_b0 : 0 <= bought; fo_le : filled + bought <= a_shares a;
  fo_close : exists rem p1,
     close_existing c (closes o) (a_date a) (a_sym a) (a_shares a) (a_fill a) p = (filled, rem, p1) /\
     closed_ok c (closes o) (a_sym a) (a_shares a) p filled rem p1 /\
     ((bought = 0 /\ cache_only p1 p2) \/
      (opening c (opens o) (a_date a) (a_sym a) rem (a_fill a) (a_stops a) bought p1 p2 /\
       allows c (opens o) /\
       at_cap (cap (opens o) p1) (a_sym a) (poss (opens o) p1) = false))
}.

Definition the_order (c : cfg) (o : oside) (a : oargs) (filled bought : Q) (p2 : port) : port * order :=
  add_order c (a_date a) (a_sym a) o (a_created a) (a_otype a)
    (match o with
     | OBuy => if Qis0 bought then BuyToClose else BuyToOpen
     | OSell => if Qis0 bought then SellToClose else SellToOpen end)
    (filled + bought) (a_limit a) (a_market a) (a_fill a) p2.

Lemma place_unfold c o a p :
  place c o a p =
  if verify_input_raises (a_shares a) (a_fill a) (a_limit a) then Raise p EInput
  else if limit_rejects o (a_fill a) (a_limit a) then Ret p None
  else if Qeq_bool (a_shares a) 0 then Ret p None
  else
    let '(filled, rem, p1) := close_existing c (closes o) (a_date a) (a_sym a) (a_shares a) (a_fill a) p in
    match open_side c o (a_date a) (a_sym a) rem (a_fill a) (a_stops a) p1 with
    | Raise p e => Raise p e
    | Ret p2 bought =>
        if Qis0 filled && Qis0 bought then Ret p2 None
        else let '(p3, ord) := the_order c o a filled bought p2 in Ret p3 (Some ord)
    end.
Proof. destruct o; reflexivity. Qed.

Lemma verify_ok shares fill limit : verify_input_raises shares fill limit = false ->
  0 <= shares /\ 0 < fill /\ (forall l, limit = Some l -> 0 < l).
Proof.
  unfold verify_input_raises. intro H. qb. repeat split; auto.
  intros l ->. now apply Qle_bool_false.
Qed.

Lemma open_cases c o date s req fill stops p :
  match open_side c o date s req fill stops p with
  | Ret p' b => (b = 0 /\ cache_only p p') \/
                (opening c (opens o) date s req fill stops b p p' /\ allows c (opens o) /\
                 at_cap (cap (opens o) p) s (poss (opens o) p) = false)
  | Raise _ e => e = EStop
  end.
Proof. destruct o; [apply long_cases|apply short_cases]. Qed.

Lemma clamp_le c s fill req o p : fst (clamp_shares c s fill req o p) <= Qmax req 0.
Proof. apply clamp_shares_ok. Qed.

Inductive placed (c : cfg) (o : oside) (a : oargs) (p : port) : res (option order) -> Prop :=
| PlRaise : verify_input_raises (a_shares a) (a_fill a) (a_limit a) = true ->
    placed c o a p (Raise p EInput)
| PlReject : verify_input_raises (a_shares a) (a_fill a) (a_limit a) = false ->
    limit_rejects o (a_fill a) (a_limit a) = true \/ a_shares a == 0 ->
    placed c o a p (Ret p None)
| PlStop p' : placed c o a p (Raise p' EStop)
| PlNone p2 filled bought :
    0 < a_shares a -> 0 < a_fill a -> limit_rejects o (a_fill a) (a_limit a) = false ->
    fill_ok c o a p filled bought p2 -> filled == 0 -> bought == 0 ->
    placed c o a p (Ret p2 None)
| PlFill p2 filled bought :
    0 < a_shares a -> 0 < a_fill a -> limit_rejects o (a_fill a) (a_limit a) = false ->
    fill_ok c o a p filled bought p2 -> ~ (filled == 0 /\ bought == 0) ->
    placed c o a p (Ret (fst (the_order c o a filled bought p2)) (Some (snd (the_order c o a filled bought p2)))).

Lemma opening_good c sd date s req fill stops b p p' d :
  cfg_ok c -> Core [] p -> nonempty_but None p -> Led c d p -> 0 < fill ->
  (0 < req -> aget s (poss (flip sd) p) = None) ->
  opening c sd date s req fill stops b p p' ->
  Core [] p' /\ nonempty_but None p' /\ Led c (dadd s (sgn sd * b) d) p'.
Proof.
  intros K HC HN HL Hf Hflip [B0 B1 [q [o [CO [_ [_ HO]]]]]].
  assert (Hq : aget s (poss (flip sd) q) = None) by (rewrite (cc_poss _ _ CO); apply Hflip; lra).
  pose proof (core_cache _ _ _ CO HC) as HC'.
  split; [|split].
  - eapply open_core; eauto.
  - eapply open_nonempty; eauto. eapply nonempty_cache; eauto.
  - eapply open_led; eauto. eapply led_cache; eauto.
Qed.

Lemma place_ok c o a p : cfg_ok c -> Good c p -> placed c o a p (place c o a p).
Proof.
  intros K [HC HN HL]. rewrite place_unfold.
  destruct (verify_input_raises (a_shares a) (a_fill a) (a_limit a)) eqn:Ev; [now apply PlRaise|].
  destruct (limit_rejects o (a_fill a) (a_limit a)) eqn:El; [apply PlReject; auto|].
  destruct (verify_ok _ _ _ Ev) as [Hs0 [Hf _]].
  destruct (Qeq_bool (a_shares a) 0) eqn:E0; [apply PlReject; qb; auto|]. qb.
  assert (Hs : 0 < a_shares a).
  { destruct (Qlt_le_dec 0 (a_shares a)); auto. exfalso. apply E0. lra. }
  pose proof (close_existing_ok c (closes o) (a_date a) (a_sym a) (a_shares a) (a_fill a) p K HC HN HL Hs) as HCl.
  destruct (close_existing c (closes o) (a_date a) (a_sym a) (a_shares a) (a_fill a) p) as [[filled rem] p1] eqn:Ecl.
  pose proof (open_cases c o (a_date a) (a_sym a) rem (a_fill a) (a_stops a) p1) as HOp.
  destruct (open_side c o (a_date a) (a_sym a) rem (a_fill a) (a_stops a) p1) as [p2 b|p2 e];
    [|subst e; apply PlStop].
  assert (HF : fill_ok c o a p filled b p2).
  { destruct HCl as [c1 c2 c3 c4 c5 c6 c7 c8 c9].
    destruct HOp as [[Hb CO]|[HO [HA Hcap]]].
    - constructor; try lra.
      + eapply core_cache; eauto.
      + eapply nonempty_cache; eauto.
      + eapply led_delta; [|eapply led_cache; eauto]. intro x. apply dadd_proper.
        rewrite sgn_closes, Hb. lra.
      + rewrite Hb. lra.
      + rewrite Hb. lra.
      + exists rem, p1. split; auto. split; [constructor; auto|]. left. auto.
    - destruct (opening_good c (opens o) (a_date a) (a_sym a) rem (a_fill a) (a_stops a) b p1 p2 _ K c1 c2 c3 Hf) as [G1 [G2 G3]]; auto.
      { rewrite flip_opens. auto. }
      constructor; auto; try lra.
      + eapply led_delta; [|exact G3]. intro x. cbn. rewrite dadd_dadd. apply dadd_proper.
        rewrite sgn_opens, sgn_closes. lra.
      + pose proof (og_shares _ _ _ _ _ _ _ _ _ _ HO). lra.
      + pose proof (og_le _ _ _ _ _ _ _ _ _ _ HO). lra.
      + exists rem, p1. split; auto. split; [constructor; auto|]. right. auto. }
  destruct (Qis0 filled && Qis0 b) eqn:Ez.
  - qb. eapply PlNone; eauto.
  - destruct (the_order c o a filled b p2) as [p3 ord] eqn:Eo.
    replace p3 with (fst (the_order c o a filled b p2)) by (now rewrite Eo).
    replace ord with (snd (the_order c o a filled b p2)) by (now rewrite Eo).
    apply PlFill; auto. intros [A B]. apply andb_false_iff in Ez.
    destruct Ez as [Ez|Ez]; qb; auto.
Qed.

Lemma fill_none_cache c o a p filled bought p2 :
  Good c p -> fill_ok c o a p filled bought p2 -> filled == 0 -> bought == 0 -> 0 < a_shares a ->
  cache_only p p2.
Proof.
  intros [HC HN HL] [_ _ _ _ _ _ [rem [p1 [Ecl [HCl Hop]]]]] Hf Hb Hs.
  assert (E1 : p1 = p).
  { unfold close_existing in Ecl. destruct (aget (a_sym a) (poss (closes o) p)) as [pos|] eqn:Hg.
    - exfalso. destruct HCl as [c1 c2 c3 c4 c5 c6 c7 c8 c9].
      assert (Hgone : aget (a_sym a) (poss (closes o) p1) = None) by (apply c7; lra).
      assert (Hh : held (closes o) p1 (a_sym a) == 0) by (unfold held; rewrite Hgone; lra).
      rewrite c8 in Hh. unfold held in Hh. rewrite Hg in Hh.
      pose proof (co_pos _ _ HC _ _ _ Hg) as Hok.
      assert (0 < ps_shares pos); [|lra].
      rewrite (po_shares _ _ _ _ Hok). apply Qsum_pos.
      + intro E. apply map_eq_nil in E. eapply HN; eauto. discriminate.
      + apply Forall_forall. intros x Ix. apply in_map_iff in Ix. destruct Ix as [e [<- Ie]].
        apply (eo_pos _ _ _ _ (po_entries _ _ _ _ Hok e Ie)). auto.
    - now injection Ecl. }
  subst p1. destruct Hop as [[_ CO]|[HO _]]; auto.
  pose proof (og_shares _ _ _ _ _ _ _ _ _ _ HO). lra.
Qed.

Lemma place_good c o a p :
  cfg_ok c -> Good c p ->
  match place c o a p with
  | Ret p' _ => Good c p'
  | Raise p' EInput => p' = p
  | Raise _ e => e = EStop
  end.
Proof.
  intros K G. pose proof (place_ok c o a p K G) as H. inversion H; subst; auto.
  - eapply good_cache; [eapply fill_none_cache; eauto|auto].
  - rename H4 into HF. destruct HF. constructor.
    + now apply add_order_core.
    + now apply add_order_ne.
    + eapply led_delta; [|apply add_order_led; eauto]. intro x. cbn. rewrite dadd_dadd.
      unfold dadd, dzero. destruct (Nat.eqb x (a_sym a)); lra.
Qed.

Lemma buy_place c a p : buy c a p = place c OBuy a p. Proof. reflexivity. Qed.
Lemma sell_place c a p : sell c a p = place c OSell a p. Proof. reflexivity. Qed.

Lemma exit_position_good c date s bf sf sm p :
  cfg_ok c -> Good c p ->
  match exit_position c date s bf sf sm p with
  | Ret p' _ => Good c p'
  | Raise p' EInput => Good c p'
  | Raise _ e => e = EStop
  end.
Proof.
  intros K G. unfold exit_position.
  assert (B : forall q, Good c q ->
    match (match aget s (p_shorts q) with
      | None => Ret q tt
      | Some pos =>
          match slip_price sm OBuy s (ps_shares pos) bf with
          | None => Raise q EInput
          | Some fill =>
              match buy c (mkOArgs date s (ps_shares pos) fill None None None OMarket (Some bf)) q with
              | Ret p _ => Ret p tt
              | Raise p e => Raise p e
              end
          end
      end) with
    | Ret p' _ => Good c p'
    | Raise p' EInput => Good c p'
    | Raise _ e => e = EStop
    end).
  { intros q Gq. destruct (aget s (p_shorts q)) as [pos|]; [|auto].
    destruct (slip_price sm OBuy s (ps_shares pos) bf) as [f|]; [|auto].
    rewrite buy_place. set (a := mkOArgs _ _ _ _ _ _ _ _ _).
    pose proof (place_good c OBuy a q K Gq) as H.
    destruct (place c OBuy a q) as [p' r|p' []]; auto. now subst. }
  destruct (aget s (p_longs p)) as [pos|].
  - destruct (slip_price sm OSell s (ps_shares pos) sf) as [f|]; [|auto].
    rewrite sell_place. set (a := mkOArgs _ _ _ _ _ _ _ _ _).
    pose proof (place_good c OSell a p K G) as H.
    destruct (place c OSell a p) as [p' r|p' []]; try discriminate; auto; [apply (B p' H)|now subst].
  - now apply B.
Qed.
