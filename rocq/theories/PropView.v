(** C91: what an execution sees of the account. *)
From Verif Require Import Tac PortfolioSpec PortfolioDemo PortfolioFacts Lemmas ViewSpec PropPortfolio.
From Coq Require Import Lia Lqa.

Lemma net_signed s l : net s l == signed_volume s l.
Proof.
  unfold signed_volume. induction l as [|o l IH]; [reflexivity|]. cbn [net map Qsum].
  destruct (Nat.eqb (o_sym o) s); [destruct (o_side o); cbn [dir]|]; rewrite IH; lra.
Qed.
Lemma shares_pos c ops p sd s pos : cfg_ok c -> run c ops = Some p -> position_of p sd s = Some pos ->
  ps_sym pos = s /\ ps_type pos = sd /\ 0 < ps_shares pos.
Proof.
  intros K R E. destruct (position_facts c ops p sd s pos K R E) as (A & B & N & F & S & _).
  split; [exact A|]. split; [exact B|]. rewrite S. apply Qsum_pos; [destruct (ps_entries pos); [contradiction | discriminate]|].
  apply Forall_map. eapply Forall_impl; [|exact F]. intros e (H & _). exact H.
Qed.
Lemma pos_long p s : ctx_pos p s PosLong = Some (position_of p Long s).
Proof. unfold ctx_pos, position_of, ahas. cbn. destruct (aget s (p_longs p)); reflexivity. Qed.
Lemma pos_short p s : ctx_pos p s PosShort = Some (position_of p Short s).
Proof. unfold ctx_pos, position_of, ahas. cbn. destruct (aget s (p_shorts p)); reflexivity. Qed.

(** The position of a symbol is what the orders seen add up to: long with as many
    shares as were bought more than sold, short with as many as were sold more than
    bought, and no position when they cancel. Only "long" and "short" are types. *)
Theorem C91_pos : forall c ops p s, cfg_ok c -> run c ops = Some p ->
  let held := net s (ctx_orders p) in
  (0 < held -> (exists x, ctx_pos p s PosLong = Some (Some x) /\ ps_sym x = s /\ ps_type x = Long /\ ps_shares x == held) /\
               ctx_pos p s PosShort = Some None) /\
  (held < 0 -> (exists x, ctx_pos p s PosShort = Some (Some x) /\ ps_sym x = s /\ ps_type x = Short /\ ps_shares x == - held) /\
               ctx_pos p s PosLong = Some None) /\
  (held == 0 -> ctx_pos p s PosLong = Some None /\ ctx_pos p s PosShort = Some None) /\
  ctx_pos p s PosOther = None.
Proof.
  intros c ops p s K R held. rewrite pos_long, pos_short.
  assert (H : held == shares_held p Long s - shares_held p Short s).
  { unfold held, ctx_orders. rewrite net_signed. apply (order_log c ops p s K R). }
  destruct (one_side c ops p s K R) as (O & _). unfold shares_held in H.
  destruct (position_of p Long s) as [l|] eqn:L.
  - destruct O as [O|O]; [discriminate|]. rewrite O in *.
    destruct (shares_pos c ops p Long s l K R L) as (A & B & P).
    split; [intros _; split; [exists l; repeat split; trivial; lra | reflexivity]|].
    split; [intros X; exfalso; lra|]. split; [intros X; exfalso; lra | reflexivity].
  - destruct (position_of p Short s) as [x|] eqn:S.
    + destruct (shares_pos c ops p Short s x K R S) as (A & B & P).
      split; [intros X; exfalso; lra|]. split; [intros _; split; [exists x; repeat split; trivial; lra | reflexivity]|].
      split; [intros X; exfalso; lra | reflexivity].
    + split; [intros X; exfalso; lra|]. split; [intros X; exfalso; lra|]. split; [intros _; split; reflexivity | reflexivity].
Qed.
Print Assumptions C91_pos.

Lemma listed c ops p sd x : cfg_ok c -> run c ops = Some p ->
  (In x (avals (poss sd p)) <-> ps_type x = sd /\ position_of p sd (ps_sym x) = Some x).
Proof.
  intros K R. destruct (one_side c ops p (ps_sym x) K R) as (_ & NL & NS & _).
  assert (N : NoDup (akeys (poss sd p))) by (destruct sd; assumption).
  unfold avals, position_of. rewrite in_map_iff. split.
  - intros ((k & y) & E & I). cbn in E. subst y. apply (In_aget k x _ N) in I.
    destruct (shares_pos c ops p sd k x K R I) as (A & B & _). subst k. split; [exact B | exact I].
  - intros (_ & E). exists (ps_sym x, x). split; [reflexivity | apply aget_In, E].
Qed.
Lemma syms_keys c ops p sd : cfg_ok c -> run c ops = Some p -> map ps_sym (avals (poss sd p)) = akeys (poss sd p).
Proof.
  intros K R. destruct (one_side c ops p 0%nat K R) as (_ & NL & NS & _).
  assert (N : NoDup (akeys (poss sd p))) by (destruct sd; assumption).
  unfold avals, akeys. rewrite map_map. apply map_ext_in. intros (k & x) I.
  apply (In_aget k x _ N) in I. apply (shares_pos c ops p sd k x K R I).
Qed.

(** [positions] lists exactly the positions asked for, each symbol once. *)
Theorem C91_positions : forall c ops p so t, cfg_ok c -> run c ops = Some p ->
  (ctx_positions p so t = None <-> t = Some PosOther) /\
  forall l, ctx_positions p so t = Some l ->
    NoDup (map ps_sym l) /\
    forall x, In x l <-> asked_symbol so x /\ asked_type t x /\
                         (ctx_pos p (ps_sym x) PosLong = Some (Some x) \/ ctx_pos p (ps_sym x) PosShort = Some (Some x)).
Proof.
  intros c ops p so t K R. split.
  { destruct t as [[]|]; cbn; split; try discriminate; reflexivity. }
  intros l E. unfold ctx_positions in E.
  assert (T : t <> Some PosOther) by (intros ->; discriminate E).
  assert (E' : l = match so with
     | None => (if is_short t then [] else avals (p_longs p)) ++ (if is_long t then [] else avals (p_shorts p))
     | Some s => (if negb (is_short t) && ahas s (p_longs p) then one s (p_longs p) else []) ++
                 (if negb (is_long t) && ahas s (p_shorts p) then one s (p_shorts p) else [])
     end) by (destruct t as [[]|]; cbn [verify_pos_type negb] in E; try (exfalso; exact (T eq_refl)); injection E as <-; reflexivity).
  clear E. subst l.
  assert (TY : forall sd x s, position_of p sd s = Some x -> ps_sym x = s /\ ps_type x = sd).
  { intros sd x s E. destruct (shares_pos c ops p sd s x K R E) as (A & B & _). split; assumption. }
  split.
  - destruct so as [s|].
    + unfold ahas, one. destruct (one_side c ops p s K R) as (O & _). unfold position_of in O. cbn [poss] in O.
      destruct (aget s (p_longs p)) as [x|], (aget s (p_shorts p)) as [y|];
        rewrite ?andb_true_r, ?andb_false_r; try (destruct O; discriminate);
        destruct (is_short t), (is_long t); cbn; repeat constructor; intros [].
    + destruct (one_side c ops p 0%nat K R) as (_ & NL & NS & _).
      pose proof (syms_keys c ops p Long K R) as SL. pose proof (syms_keys c ops p Short K R) as SS. cbn [poss] in SL, SS.
      rewrite map_app. destruct (is_short t), (is_long t); cbn [map app]; rewrite ?app_nil_r, ?SL, ?SS; try assumption; try constructor.
      assert (D : forall k, In k (akeys (p_longs p)) -> ~ In k (akeys (p_shorts p))).
      { intros k I J. apply key_aget in I as (x & I). apply key_aget in J as (y & J).
        destruct (one_side c ops p k K R) as ([O|O] & _); unfold position_of in O; cbn [poss] in O; congruence. }
      clear -NL NS D. induction (p_longs p) as [|(k, x) r IH]; cbn in *; [exact NS|].
      inversion NL; subst. constructor.
      * intros I. apply in_app_or in I as [I|I]; [contradiction | exact (D k (or_introl eq_refl) I)].
      * apply IH; [assumption | intros z I; apply D; right; exact I].
  - intros x. rewrite pos_long, pos_short.
    assert (G : forall sd, In x (match so with None => avals (poss sd p) | Some s => if ahas s (poss sd p) then one s (poss sd p) else [] end) <->
                asked_symbol so x /\ position_of p sd (ps_sym x) = Some x).
    { intros sd. destruct so as [s|].
      - unfold asked_symbol, ahas, one. destruct (aget s (poss sd p)) as [y|] eqn:E.
        + destruct (TY sd y s E) as (A & B). split.
          * intros [<-|[]]. split; [intros z [= <-]; exact A | rewrite A; exact E].
          * intros (H & F). specialize (H s eq_refl). rewrite H in F. unfold position_of in F. left. congruence.
        + split; [intros []|]. intros (H & F). specialize (H s eq_refl). rewrite H in F. unfold position_of in F. congruence.
      - rewrite (listed c ops p sd x K R). split; [intros (_ & F); split; [intros z X; discriminate X | exact F]|].
        intros (_ & F). split; [apply (TY sd x _ F) | exact F]. }
    pose proof (G Long) as GL. pose proof (G Short) as GS. cbn [poss] in GL, GS.
    assert (S2 : forall o : option position, Some o = Some (Some x) <-> o = Some x) by (intros o; split; congruence).
    rewrite !S2.
    assert (TL : position_of p Long (ps_sym x) = Some x -> ps_type x = Long) by (intros F; apply (TY Long x _ F)).
    assert (TS : position_of p Short (ps_sym x) = Some x -> ps_type x = Short) by (intros F; apply (TY Short x _ F)).
    destruct t as [[]|]; [| |contradiction|]; destruct so as [s|]; cbn [is_short is_long negb andb asked_type app];
      rewrite ?app_nil_r, ?in_app_iff, ?GL, ?GS; split; intros H;
      try (destruct H as [H|H]; destruct H as (H1 & H2); tauto);
      try (destruct H as (H1 & H2 & [H3|H3]); [first [tauto | specialize (TL H3); congruence] | first [tauto | specialize (TS H3); congruence]]);
      try (destruct H as (H1 & H2); tauto).
Qed.
Print Assumptions C91_positions.

(** The shorthands: [long_pos] and [short_pos] with the context's own symbol as the
    default, [long_positions], [short_positions], and whether there are any. *)
Theorem C91_shorthands : forall c ops p own so, cfg_ok c -> run c ops = Some p ->
  (forall s, (so = Some s \/ so = None /\ own = Some s) ->
     ctx_long_pos p own so = ctx_pos p s PosLong /\ ctx_short_pos p own so = ctx_pos p s PosShort) /\
  (so = None -> own = None -> ctx_long_pos p own so = None /\ ctx_short_pos p own so = None) /\
  ctx_long_positions p so = ctx_positions p so (Some PosLong) /\ ctx_short_positions p so = ctx_positions p so (Some PosShort) /\
  (ctx_has_long p = true <-> exists s, 0 < net s (ctx_orders p)) /\
  (ctx_has_short p = true <-> exists s, net s (ctx_orders p) < 0).
Proof.
  intros c ops p own so K R. split; [|split; [|split; [reflexivity | split; [reflexivity | split]]]].
  - intros s H. rewrite pos_long, pos_short. destruct H as [->|(-> & ->)]; split; reflexivity.
  - intros -> ->. split; reflexivity.
  - unfold ctx_has_long. split.
    + intros H. destruct (p_longs p) as [|(s, x) r] eqn:E; [discriminate|]. exists s.
      destruct (C91_pos c ops p s K R) as (_ & B & Z & _). rewrite pos_long in *.
      assert (N : position_of p Long s <> None) by (unfold position_of; cbn [poss]; rewrite E; cbn; rewrite Nat.eqb_refl; discriminate).
      destruct (Q_dec (net s (ctx_orders p)) 0) as [[L|L]|L]; [destruct (B L) as (_ & X); congruence | exact L | destruct (Z L) as (X & _); congruence].
    + intros (s & L). destruct (C91_pos c ops p s K R) as (A & _). destruct (A L) as ((x & X & _) & _). rewrite pos_long in X.
      unfold position_of in X. cbn [poss] in X. destruct (p_longs p); [discriminate | reflexivity].
  - unfold ctx_has_short. split.
    + intros H. destruct (p_shorts p) as [|(s, x) r] eqn:E; [discriminate|]. exists s.
      destruct (C91_pos c ops p s K R) as (A & _ & Z & _). rewrite pos_short in *.
      assert (N : position_of p Short s <> None) by (unfold position_of; cbn [poss]; rewrite E; cbn; rewrite Nat.eqb_refl; discriminate).
      destruct (Q_dec (net s (ctx_orders p)) 0) as [[L|L]|L]; [exact L | destruct (A L) as (_ & X); congruence | destruct (Z L) as (_ & X); congruence].
    + intros (s & L). destruct (C91_pos c ops p s K R) as (_ & B & _). destruct (B L) as ((x & X & _) & _). rewrite pos_short in X.
      unfold position_of in X. cbn [poss] in X. destruct (p_shorts p); [discriminate | reflexivity].
Qed.
Print Assumptions C91_shorthands.

(** The account adds up from what is seen: the balance and the cost of the positions
    are the initial cash, the results of the trades and the interest, less the fees of
    the orders; the win rate is the share of winning trades. *)
Theorem C91_account : forall c ops p l, cfg_ok c -> run c ops = Some p -> ctx_positions p None None = Some l ->
  ctx_net_cash_balance c p + Qsum (map ps_notional l) ==
    c_cash c + Qsum (map t_pnl (ctx_trades p)) - Qsum (map o_fees (ctx_orders p)) + interest_paid c ops /\
  (ctx_trades p <> [] ->
     ctx_win_rate p * inject_Z (Z.of_nat (length (ctx_trades p))) ==
       inject_Z (Z.of_nat (length (filter (fun t => Qltb 0 (t_pnl t)) (ctx_trades p)))) /\
     ctx_loss_rate p == 1 - ctx_win_rate p).
Proof.
  intros c ops p l K R E. split.
  - pose proof (C01_account_conservation c ops p K R) as H. unfold net_balance, open_cost, realized, fees_paid in H.
    cbn in E. injection E as <-. unfold avals. rewrite map_app, !map_map, Qsum_app.
    unfold ctx_net_cash_balance, net_cash, ctx_trades, ctx_orders. lra.
  - intros N. destruct (C08_win_rate c ops p K R N) as (A & B). unfold ctx_win_rate, ctx_loss_rate, ctx_trades. split; [|rewrite <- B; ring].
    rewrite A. field. unfold ctx_trades in N. destruct (p_trades p) as [|t r]; [contradiction|].
    intros X. assert (Y : inject_Z 0 < inject_Z (Z.of_nat (length (t :: r)))) by (rewrite <- Zlt_Qlt; cbn [length]; lia).
    rewrite X in Y. exact (Qlt_irrefl _ Y).
Qed.
Print Assumptions C91_account.

Example C91_example : let p := state demo_cfg demo in
  cfg_ok demo_cfg /\ run demo_cfg demo = Some p /\
  net 0 (ctx_orders p) == 5 /\ net 1 (ctx_orders p) == -20 /\ net 7 (ctx_orders p) == 0 /\
  option_map (map ps_sym) (ctx_positions p None None) = Some [0; 1]%nat /\
  option_map (map ps_sym) (ctx_positions p (Some 1%nat) None) = Some [1]%nat /\
  option_map (map ps_sym) (ctx_long_positions p (Some 1%nat)) = Some [] /\
  ctx_positions p None (Some PosOther) = None /\
  ctx_has_long p = true /\ ctx_trades p <> [].
Proof. split; [exact demo_cfg_ok|]. conj; comp. Qed.
