(** Valuation, buying power and the cash account. *)
From Verif Require Export PortfolioSend.
From Coq Require Import Permutation.

(** ** Win rate *)
Lemma win_rate_ok c ops p : cfg_ok c -> run c ops = Some p -> p_trades p <> [] ->
  win_rate p == inject_Z (Z.of_nat (length (filter (fun t => Qltb 0 (t_pnl t)) (p_trades p)))) / inject_Z (Z.of_nat (length (p_trades p))) /\
  win_rate p + loss_rate p == 1.
Proof.
  intros K R N. destruct (logs c ops p K R) as [_ [_ [_ [_ [_ W]]]]]. unfold loss_rate, win_rate.
  destruct (p_trades p) as [|t r]; [congruence|]. split; [now rewrite W|]. ring.
Qed.

(** ** Sums over symbols and over positions *)
Lemma filter_sum (g : nat -> Q) k syms : NoDup syms -> In k syms ->
  Qsum (map g syms) == g k + Qsum (map g (filter (fun x => negb (Nat.eqb x k)) syms)).
Proof.
  induction syms as [|x r IH]; intros N I; [destruct I|]. inversion N; subst. cbn.
  destruct (Nat.eqb_spec x k) as [->|Nx].
  - cbn. assert (E : filter (fun x => negb (Nat.eqb x k)) r = r).
    { clear -H1. induction r as [|y r IH]; cbn; auto. destruct (Nat.eqb_spec y k) as [->|]; [exfalso; apply H1; now left|].
      cbn. f_equal. apply IH. intro I. apply H1. now right. }
    rewrite E. lra.
  - destruct I as [->|I]; [congruence|]. cbn. rewrite (IH H2 I). lra.
Qed.
Lemma sum_keys {V} (f : nat -> V -> Q) (d : list (nat * V)) : NoDup (akeys d) -> forall syms, NoDup syms ->
  incl (akeys d) syms ->
  Qsum (map (fun s => match aget s d with Some v => f s v | None => 0 end) syms) ==
  Qsum (map (fun kv => f (fst kv) (snd kv)) d).
Proof.
  induction d as [|[k v] r IH]; intros N syms NS I.
  - cbn. clear NS I. induction syms; cbn in *; lra.
  - cbn in N. inversion N; subst.
    assert (Ik : In k syms) by (apply I; now left).
    rewrite (filter_sum _ k syms NS Ik). cbn [aget map fst snd Qsum fold_right]. rewrite Nat.eqb_refl.
    apply Qplus_comp; [reflexivity|].
    transitivity (Qsum (map (fun s => match aget s r with Some v => f s v | None => 0 end) (filter (fun x => negb (Nat.eqb x k)) syms))).
    + apply Qsum_map_ext. intros s Is. apply filter_In in Is. destruct Is as [_ Ns].
      apply negb_true_iff in Ns. rewrite Ns. reflexivity.
    + apply IH; auto.
      * now apply NoDup_filter.
      * intros x Ix. apply filter_In. split; [apply I; now right|].
        destruct (Nat.eqb_spec x k) as [->|]; auto.
Qed.
Lemma side_sum c p sd (f : nat -> position -> Q) : Good c p ->
  Qsum (map (fun s => match aget s (poss sd p) with Some v => f s v | None => 0 end) (p_symbols p)) ==
  Qsum (map (fun kv => f (fst kv) (snd kv)) (poss sd p)).
Proof.
  intros [HC _ _]. apply sum_keys; [apply HC|apply HC|]. intros s I. apply (co_syms _ _ HC). eauto.
Qed.

(** ** Captured value *)
Lemma gain_value c p sd s pos x : Good c p -> aget s (poss sd p) = Some pos ->
  ps_shares pos * x == ps_notional pos + match sd with Long => position_gain Long x pos | Short => - position_gain Short x pos end.
Proof.
  intros G H. pose proof (co_pos _ _ (gd_core _ _ G) _ _ _ H) as Ok.
  rewrite (po_shares _ _ _ _ Ok), (po_notional _ _ _ _ Ok). unfold position_gain.
  clear. destruct sd; induction (ps_entries pos) as [|e r IH]; cbn in *; unfold gain in *; lra.
Qed.
Lemma upnl_gain sd x pos : Qsum (map (entry_upnl sd x) (ps_entries pos)) == position_gain sd x pos.
Proof.
  unfold position_gain. apply Qsum_map_ext. intros e _. unfold entry_upnl, gain. destruct sd; lra.
Qed.

Section Captured.
Variables (c : cfg) (ops : list op) (p : port) (d : Z) (bar : bar_fn).
Hypothesis K : cfg_ok c.
Hypothesis R : run c ops = Some p.
Let p' := capture_bar c d bar p.
Let G := run_good _ _ _ K R.
Let CA := capture_ok c d bar p K G.

Lemma cap_run : run c (ops ++ [OpCapture d bar]) = Some p'.
Proof. rewrite run_snoc, R. reflexivity. Qed.

Lemma cap_cost : open_cost p' == open_cost p.
Proof.
  rewrite (open_cost_en c p' (run_good _ _ _ K cap_run)), (open_cost_en c p G).
  now rewrite !(ca_en _ _ _ _ _ CA).
Qed.
Definition val_part (s : sym) (pos : position) : Q :=
  match bar s with Some (x, _, _) => ps_shares pos * x | None => marked_value pos end.
Lemma long_sum : Qsum (map (long_part bar p) (p_symbols p)) == Qsum (map (fun kv => val_part (fst kv) (snd kv)) (p_longs p)).
Proof.
  change (p_longs p) with (poss Long p). rewrite <- (side_sum c p Long val_part G).
  apply Qsum_map_ext. intros s _. unfold long_part, val_part. cbn [poss].
  destruct (aget s (p_longs p)) as [pos|]; [|reflexivity]. destruct (bar s) as [[[x l] h]|]; reflexivity.
Qed.
Lemma short_sum : Qsum (map (short_mkt bar p) (p_symbols p)) ==
  Qsum (map (fun kv => 2 * ps_notional (snd kv) - val_part (fst kv) (snd kv)) (p_shorts p)).
Proof.
  change (p_shorts p) with (poss Short p).
  rewrite <- (side_sum c p Short (fun s pos => 2 * ps_notional pos - val_part s pos) G).
  apply Qsum_map_ext. intros s _. unfold short_mkt, val_part. cbn [poss].
  destruct (aget s (p_shorts p)) as [pos|] eqn:E; [|reflexivity]. destruct (bar s) as [[[x l] h]|]; [|reflexivity].
  assert (T : ps_type pos = Short) by (apply (po_type _ _ _ _ (co_pos _ _ (gd_core _ _ G) Short s pos E))).
  rewrite T, upnl_gain, (gain_value c p Short s pos x G E). lra.
Qed.
Lemma cost_sum : Qsum (map (short_eq p) (p_symbols p)) == Qsum (map (fun kv => ps_notional (snd kv)) (p_shorts p)).
Proof.
  change (p_shorts p) with (poss Short p). rewrite <- (side_sum c p Short (fun _ pos => ps_notional pos) G). reflexivity.
Qed.
Lemma cap_mv : p_mv p' == net_balance c p' + Qsum (map (fun kv => val_part (fst kv) (snd kv)) (p_longs p))
  + Qsum (map (fun kv => 2 * ps_notional (snd kv) - val_part (fst kv) (snd kv)) (p_shorts p)).
Proof.
  unfold p'. rewrite (ca_mv _ _ _ _ _ CA), Qsum_map_plus, long_sum, short_sum. unfold net_balance, net_cash. lra.
Qed.
Lemma cap_eq : p_equity p' == net_balance c p' + Qsum (map (fun kv => val_part (fst kv) (snd kv)) (p_longs p))
  + Qsum (map (fun kv => ps_notional (snd kv)) (p_shorts p)).
Proof.
  unfold p'. rewrite (ca_eq _ _ _ _ _ CA), Qsum_map_plus, long_sum, cost_sum. unfold net_balance, net_cash. lra.
Qed.

Hypothesis A : all_closes bar p.
Lemma val_long : Qsum (map (fun kv => val_part (fst kv) (snd kv)) (p_longs p)) ==
  Qsum (map (fun kv => ps_notional (snd kv)) (p_longs p)) + unrealized bar p Long.
Proof.
  unfold unrealized. cbn [poss]. rewrite <- Qsum_map_plus. apply Qsum_map_ext. intros [s pos] I. cbn [fst snd].
  pose proof (In_aget _ _ _ (co_nodup _ _ (gd_core _ _ G) Long) I) as Hg.
  assert (N : close_of bar s <> None). { apply (A Long). unfold position_of. rewrite Hg. discriminate. }
  unfold val_part, close_of in *. destruct (bar s) as [[[x l] h]|]; [|congruence].
  apply (gain_value c p Long s pos x G Hg).
Qed.
Lemma val_short : Qsum (map (fun kv => 2 * ps_notional (snd kv) - val_part (fst kv) (snd kv)) (p_shorts p)) ==
  Qsum (map (fun kv => ps_notional (snd kv)) (p_shorts p)) + unrealized bar p Short.
Proof.
  unfold unrealized. cbn [poss]. rewrite <- Qsum_map_plus. apply Qsum_map_ext. intros [s pos] I. cbn [fst snd].
  pose proof (In_aget _ _ _ (co_nodup _ _ (gd_core _ _ G) Short) I) as Hg.
  assert (N : close_of bar s <> None). { apply (A Short). unfold position_of. rewrite Hg. discriminate. }
  unfold val_part, close_of in *. destruct (bar s) as [[[x l] h]|]; [|congruence].
  rewrite (gain_value c p Short s pos x G Hg). lra.
Qed.
Lemma captured_value :
  p_mv p' == c_cash c + realized p - fees_paid p + interest_paid c (ops ++ [OpCapture d bar])
             + unrealized bar p Long + unrealized bar p Short /\
  p_equity p' == p_mv p' - unrealized bar p Short /\
  exists b, p_bars p' = p_bars p ++ [b] /\ b_date b = d /\ b_mv b = p_mv p' /\ b_equity b = p_equity p' /\
    b_cash b = p_cash p' /\ b_fees b = p_fees p' /\ b_loan b = margin_loan c p' /\ b_upnl b == unrealized bar p Short.
Proof.
  pose proof (conservation _ _ _ K cap_run) as C. rewrite cap_cost in C.
  assert (C1 : realized p' = realized p) by (unfold realized, p'; now rewrite (ca_trades _ _ _ _ _ CA)).
  assert (C2 : fees_paid p' = fees_paid p) by (unfold fees_paid, p'; now rewrite (ca_orders _ _ _ _ _ CA)).
  rewrite C1, C2 in C. unfold open_cost in C.
  pose proof cap_mv as M. pose proof cap_eq as E. rewrite val_long in M, E. rewrite val_short in M.
  split; [lra|]. split; [lra|].
  destruct (ca_bars _ _ _ _ _ CA) as [b [B1 [B2 [B3 [B4 [B5 [B6 [B7 [B8 [B9 [B10 _]]]]]]]]]]].
  exists b. fold p' in B1, B3, B4, B5, B6, B7, B8, B9, B10. do 7 (split; [assumption|]). rewrite B10. lra.
Qed.
End Captured.

Lemma marked_after sd x l h pos : 0 < ps_shares pos -> 0 < x ->
  marked_value (mark sd (Some (x, l, h)) pos) == ps_shares pos * x.
Proof.
  intros Hs Hx. destruct sd; unfold marked_value, mark; cbn.
  - destruct (Qle_bool x 0) eqn:E; qb; [lra|]. destruct (Qle_bool (ps_shares pos - 0) 0) eqn:E2; qb; lra.
  - destruct (Qle_bool x 0) eqn:E; qb; [lra|]. destruct (Qle_bool (ps_shares pos - 0) 0) eqn:E2; qb; lra.
Qed.
Lemma map_aget {V W} (f : V -> W) (g : nat -> V -> Q) (h : W -> Q) (d : list (nat * V)) d' :
  NoDup (akeys d) -> akeys d' = akeys d -> (forall s v w, aget s d = Some v -> aget s d' = Some w -> h w == g s v) ->
  Qsum (map (fun kv => h (snd kv)) d') == Qsum (map (fun kv => g (fst kv) (snd kv)) d).
Proof.
  revert d'. induction d as [|[k v] r IH]; intros d' N E H.
  - destruct d'; [reflexivity|discriminate].
  - destruct d' as [|[k' w] r']; [discriminate|]. cbn in E. injection E as -> E. inversion N; subst. cbn.
    apply Qplus_comp.
    + apply (H k v w); cbn; now rewrite Nat.eqb_refl.
    + apply IH; auto. intros s v0 w0 E1 E2. apply H; cbn.
      * destruct (Nat.eqb_spec s k) as [->|]; auto. exfalso. apply H2. eapply aget_Some_key; eauto.
      * destruct (Nat.eqb_spec s k) as [->|]; auto. exfalso. apply H2. unfold akeys. rewrite <- E. eapply aget_Some_key; eauto.
Qed.
Lemma live_account c p : Good c p -> live_value c p == account_value c p.
Proof.
  intro G. unfold live_value, account_value, net_balance, total_marked.
  change (p_short_en p) with (en Short p). rewrite (co_en _ _ (gd_core _ _ G) Short). unfold asum, avals. cbn [poss].
  assert (S : forall d : list (nat * position), Qsum (map (fun kv => 2 * ps_notional (snd kv) - marked_value (snd kv)) d) ==
    2 * Qsum (map (fun kv => ps_notional (snd kv)) d) - Qsum (map (fun kv => marked_value (snd kv)) d)).
  { induction d as [|kv r IH]; cbn in *; lra. }
  rewrite S. lra.
Qed.
Lemma live_mv_account c ops p : cfg_ok c -> run c ops = Some p ->
  fst (live_mv c p) == account_value c p /\
  fst (buying_power c p) == if Qle_bool (c_leverage c) 1 then Qmax (p_cash p) 0
                            else Qmax (account_value c p * c_leverage c - committed p) 0.
Proof.
  intros K R. pose proof (run_good _ _ _ K R) as G. pose proof (ld_cache _ _ _ (gd_led _ _ G)) as TC. split.
  - rewrite (proj2 (live_mv_ok c p) TC). now apply live_account.
  - rewrite (proj2 (buying_power_ok c p) TC). unfold power. destruct (Qle_bool (c_leverage c) 1); [reflexivity|].
    apply Qmax_proper. rewrite (live_account c p G). reflexivity.
Qed.
Lemma live_captured c ops p d bar : cfg_ok c -> run c ops = Some p ->
  (forall sd s x, position_of p sd s <> None -> close_of bar s = Some x -> 0 < x) ->
  account_value c (capture_bar c d bar p) == p_mv (capture_bar c d bar p).
Proof.
  intros K R P. pose proof (run_good _ _ _ K R) as G. pose proof (capture_ok c d bar p K G) as CA.
  pose proof (run_good _ _ _ K (cap_run c ops p d bar R)) as G'.
  set (p' := capture_bar c d bar p) in *.
  rewrite <- (live_account c p' G').
  unfold live_value. pose proof (cap_mv c ops p d bar K R) as M. fold p' in M. rewrite M.
  assert (V : forall sd s pos w, aget s (poss sd p) = Some pos -> aget s (poss sd p') = Some w -> marked_value w == val_part bar s pos).
  { intros sd s pos w E1 E2. rewrite (ca_pos _ _ _ _ _ CA), E1 in E2. cbn in E2. injection E2 as <-.
    unfold val_part. destruct (bar s) as [[[x l] h]|] eqn:Eb; [|reflexivity].
    apply marked_after; [eapply position_shares_pos; eauto|]. apply (P sd s x); [unfold position_of; rewrite E1; discriminate|].
    unfold close_of. now rewrite Eb. }
  assert (XL : total_marked (p_longs p') == Qsum (map (fun kv => val_part bar (fst kv) (snd kv)) (p_longs p))).
  { apply (map_aget (fun x => x) (val_part bar) marked_value (p_longs p) (p_longs p')); [apply (co_nodup _ _ (gd_core _ _ G) Long)|apply (ca_keys _ _ _ _ _ CA Long)|].
    intros s v w. apply (V Long). }
  assert (XS : total_marked (p_shorts p') == Qsum (map (fun kv => val_part bar (fst kv) (snd kv)) (p_shorts p))).
  { apply (map_aget (fun x => x) (val_part bar) marked_value (p_shorts p) (p_shorts p')); [apply (co_nodup _ _ (gd_core _ _ G) Short)|apply (ca_keys _ _ _ _ _ CA Short)|].
    intros s v w. apply (V Short). }
  rewrite XL, XS. change (p_short_en p') with (en Short p'). rewrite (ca_en _ _ _ _ _ CA), (co_en _ _ (gd_core _ _ G) Short).
  unfold net_balance, asum. cbn [poss].
  assert (S : Qsum (map (fun kv => 2 * ps_notional (snd kv) - val_part bar (fst kv) (snd kv)) (p_shorts p)) ==
    2 * Qsum (map (fun kv => ps_notional (snd kv)) (p_shorts p)) - Qsum (map (fun kv => val_part bar (fst kv) (snd kv)) (p_shorts p))).
  { clear. induction (p_shorts p) as [|kv r IH]; cbn in *; lra. }
  rewrite S. unfold avals in *. lra.
Qed.
