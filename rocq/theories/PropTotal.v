(** * C112: an account never fails on calls that leave nothing to fail *)
From Verif Require Import TotalProofs TotalLoop PortfolioDemo LoopDemo RotationDemo.

Local Ltac comp := vm_compute; try reflexivity; try discriminate.

(** Whatever the orders, exits, bars and removals, in whatever order: a history whose stops
    have new ids, the symbol and side of their order, a distance or a number of bars, and whose
    stops are checked at positive prices, runs to its end. *)
Theorem C112_history c ops : cfg_ok c -> stops_wf ops -> Forall fair_call ops -> exists p, run c ops = Some p.
Proof. exact (run_total c ops). Qed.
Print Assumptions C112_history.

(** In particular checking stops always returns, whatever slippage is applied. *)
Theorem C112_stops_checked c ops p date sc sm : cfg_ok c -> run c ops = Some p -> stops_wf ops ->
  (forall o st, In o ops -> In st (op_stops o) -> usable_stop st) -> priced sc ->
  exists p', check_stops c date sc sm p = Ret p' tt.
Proof. exact (checked_total c ops p date sc sm). Qed.
Print Assumptions C112_stops_checked.

Example C112_example : cfg_ok demo_cfg /\ stops_wf demo /\ Forall fair_call demo /\
  (2 <= length (filter (fun o => match o with OpCheckStops _ _ _ => true | _ => false end) demo))%nat /\
  (exists st, In st (flat_map op_stops demo) /\ st_type st = SBar) /\
  (exists st, In st (flat_map op_stops demo) /\ st_type st = STrailing).
Proof.
  split; [constructor; [comp|comp|intros b [= <-]; comp]|].
  split.
  { split.
    - cbn. repeat constructor; cbn; intuition discriminate.
    - cbv [demo demo1 demo2 app]; repeat apply Forall_cons; try apply Forall_nil; cbn; try exact I;
      intros st H; repeat (destruct H as [<-|H]); try (destruct H); split; reflexivity. }
  split.
  { assert (P : forall l1 h1 c1 l2 h2 c2, 0 < l1 -> 0 < h1 -> 0 < c1 -> 0 < l2 -> 0 < h2 -> 0 < c2 ->
      priced (scope_ (l1, h1, c1) (l2, h2, c2))).
    { intros l1 h1 c1 l2 h2 c2 A1 A2 A3 A4 A5 A6 s _.
      assert (M1 : 0 < (l1 + h1) / 2) by (apply Qlt_shift_div_l; lra).
      assert (M2 : 0 < (l2 + h2) / 2) by (apply Qlt_shift_div_l; lra).
      assert (T : forall t, 0 < sc_price (scope_ (l1, h1, c1) (l2, h2, c2)) s t).
      { intro t. destruct s, t; assumption. }
      split; [exact T|]. intros [q|t|n] S; [exact S|apply T|apply (T PTMiddle)]. }
    cbv [demo demo1 demo2 app]; repeat apply Forall_cons; try apply Forall_nil; split; cbn; try exact I;
    try (apply P; reflexivity);
    intros st H; repeat (destruct H as [<-|H]); try (destruct H);
    (split; [first [left; reflexivity|right; left; eexists; reflexivity|right; right; eexists; reflexivity]|]);
    intro E; try discriminate E; (split; [eexists; reflexivity|intros f [=]]). }
  split; [vm_compute; repeat constructor|].
  split; [exists short_bars|exists trail_stop]; (split; [cbn; auto 8|reflexivity]).
Qed.

(** The positive prices are needed: a bar stop that is due at a price of zero raises. *)
Theorem C112_needs_prices : exists c ops p date sc, cfg_ok c /\ run c ops = Some p /\ stops_wf ops /\
  (forall o st, In o ops -> In st (op_stops o) -> usable_stop st) /\
  (forall s t, 0 < sc_price sc s t) /\ exists p', check_stops c date sc None p = Raise p' EStop.
Proof.
  exists demo_cfg, [OpBuy (ord_ 1 0%nat 10 100 None (Some [mkStop 1 0%nat SBar Long None None (Some 1%nat) None None None])); OpIncr everyone].
  eexists. exists 2%Z, (mkScope everyone (fun _ _ => 1) (fun _ _ => 0)).
  split; [constructor; [comp|comp|intros b [= <-]; comp]|].
  split; [vm_compute; reflexivity|]. split.
  { split; [cbn; repeat constructor; cbn; tauto|].
    repeat apply Forall_cons; try apply Forall_nil; cbn; try exact I. intros st [<-|[]]. split; reflexivity. }
  split.
  { intros o st [<-|[<-|[]]] J; cbn in J; [|contradiction]. destruct J as [<-|[]]. split; [left; reflexivity|].
    intros _. split; [eexists; reflexivity|intros f [=]]. }
  split; [intros; reflexivity|]. eexists. vm_compute. reflexivity.
Qed.
Print Assumptions C112_needs_prices.

(** Whole backtests, window after window, with or without rotation: with positive prices,
    slippage models that answer with a positive price and no more shares than asked and clean
    signals (under rotation: scores, fill prices and stops), every bar of every window is
    processed. *)
Theorem C112_backtest c l k : cfg_ok c -> Forall (fun v => v_cfg v = c /\ tame v) l ->
  exists b, backtests l (fresh c k) = Some b.
Proof. exact (backtests_total c l k). Qed.
Print Assumptions C112_backtest.

(** Six bars of two symbols. On the first, ten shares of each are bought with a stop loss of 5
    points and a holding period of 3 bars; on every later bar whatever is held is sold. Half
    of the shares asked for are filled. *)
Definition total_sigs (i : nat) (p : port) (s : sym) : sig :=
  match i with
  | 0%nat => mkSig false false None None (Some 10) None None None None None None (Some 3%Z) None None None
               (Some 5) None None None None None None None None None None None
  | _ => match sell_all_shares p s no_signals with Some g => g | None => no_signals end
  end.
Definition rising (i : nat) (s : sym) : Q := inject_Z (100 + Z.of_nat (i + s)).
Definition total_env : env :=
  mkEnv run_cfg [1; 2; 3; 4; 5; 6]%Z [0; 1]%nat (fun s => match s with 0%nat => [1; 2; 3; 4; 5; 6]%Z | _ => [1; 3; 4; 6]%Z end)
    None 1 1 false false 0 (fun s => match s with 1%nat => Some 6%Z | _ => None end) (mkSettings None None None)
    (fun i => mkScope (fun _ => true) (fun s _ => rising i s) (fun s _ => rising i s))
    (fun i s => Some (rising i s, Some (rising i s), Some (rising i s)))
    (fun i s _ => Some (rising i s)) (fun i s => Some (rising i s)) (fun i s => (rising i s, rising i s))
    (SlipAny (fun _ _ _ n x => (n / 2, x))) (fun _ => None)
    (fun i _ p _ _ => mkUout [] (total_sigs i p)) None.
Example C112_backtest_example : cfg_ok run_cfg /\ Forall (fun v => v_cfg v = run_cfg /\ tame v) [total_env] /\
  exists b, backtests [total_env] (fresh run_cfg 0) = Some b /\ (4 <= length (p_trades (b_port b)))%nat.
Proof.
  assert (K : cfg_ok run_cfg) by (constructor; [comp|comp|discriminate]).
  split; [exact K|]. split; [|eexists; split; [vm_compute; reflexivity|vm_compute; repeat constructor]].
  constructor; [|constructor]. split; [reflexivity|].
  assert (R : forall i s, 0 < rising i s).
  { intros i s. unfold rising. change 0 with (inject_Z 0). rewrite <- Zlt_Qlt. lia. }
  assert (NO : forall g, g = no_signals -> clean_signals false g).
  { intros g ->. constructor; cbn; try discriminate; try (intros; discriminate).
    - intros [[_ [X|[X _]]]|[[_ [X|[X _]]]|[[_ [_ [X|X]]]|[[X _]|[X _]]]]]; try (now apply X).
      unfold some_stop in X. cbn in X. intuition congruence.
    - intros [[q [X _]]|[q [X _]]]; discriminate X. }
  constructor; cbn; auto.
  - intro X. now elim X.
  - discriminate.
  - intros i s _. split; intros; apply R.
  - intros i s f x _ [= <-]. apply R.
  - intros _ _ _ n x N X. cbn. split; [|split]; auto.
    + apply Qle_shift_div_l; lra.
    + apply Qle_shift_div_r; lra.
  - intros ops p i d _ _ s E. destruct i as [|i].
    + constructor; cbn; try (intros; discriminate).
      * intros [[X _]|[[_ [X|[X _]]]|[[X _]|[[_ X]|[X _]]]]]; try discriminate X; now apply X.
      * intros _ [X|[X|[[h [X Y]]|X]]]; try discriminate X.
        -- injection X as <-. lia.
        -- unfold bad_stop in X. cbn in X. intuition congruence.
      * intros q [= <-]. discriminate.
    + cbn. unfold sell_all_shares. destruct (aget s (p_longs p)) as [pos|] eqn:Ep; [|apply NO; reflexivity].
      constructor; cbn; try (intros; discriminate).
      * intros [[_ [X|[X _]]]|[[X _]|[[_ [X _]]|[[X _]|[X _]]]]]; try discriminate X; now apply X.
      * intros _ [X|[X|[[h [X Y]]|X]]]; try discriminate X. unfold bad_stop in X. cbn in X. intuition congruence.
      * intros q [= <-]. pose proof (run_good _ _ _ K E) as G. pose proof (co_pos _ _ (gd_core _ _ G) Long s pos Ep) as P.
        rewrite (po_shares _ _ _ _ P). apply Qsum_nonneg, Forall_forall. intros x Ix.
        apply in_map_iff in Ix. destruct Ix as [e [<- Ie]]. apply Qlt_le_weak, (eo_pos _ _ _ _ (po_entries _ _ _ _ P e Ie)). auto.
Qed.

(** The rotation of three symbols over five dates, one slot and a sizer that halves what is
    bought. *)
Definition halved (x : ctxs) (s : sym) : sig :=
  match aget s x with
  | Some g => mkSig (g_cover g) (g_exiting g) (g_exit g) (g_bfill g) (option_map (fun q => q / 2) (g_bshares g)) (g_blimit g) (g_btimeout g)
         (g_sfill g) (g_sshares g) (g_slimit g) (g_stimeout g) (g_hold g) (g_score g) (g_lscore g) (g_sscore g)
         (g_loss g) (g_loss_pct g) (g_loss_limit g) (g_loss_exit g) (g_profit g) (g_profit_pct g) (g_profit_limit g) (g_profit_exit g)
         (g_trail g) (g_trail_pct g) (g_trail_limit g) (g_trail_exit g)
  | None => no_signals
  end.
Definition sized_env : env :=
  mkEnv rot_cfg [1; 2; 3; 4; 5]%Z [0; 1; 2]%nat (fun _ => [1; 2; 3; 4; 5]%Z)
    None 1 1 true false 0 (fun _ => None) (mkSettings (Some 1%nat) None (Some 2%nat))
    (fun i => mkScope (fun _ => true) (fun s _ => 100) (fun s _ => 100))
    (fun i s => Some (100, Some 100, Some 100))
    (fun i s _ => Some 100) (fun i s => Some 100) (fun i s => (100, 100))
    SlipNone (fun _ => None)
    (fun i _ p _ _ => mkUout [] (rot_sigs i)) (Some (fun _ _ x _ _ => halved x)).
Example C112_rotation_example : cfg_ok rot_cfg /\ Forall (fun v => v_cfg v = rot_cfg /\ tame v) [rot_env; sized_env] /\
  (exists b, backtests [rot_env] (fresh rot_cfg 0) = Some b /\ p_trades (b_port b) <> []) /\
  (exists b, backtests [sized_env] (fresh rot_cfg 0) = Some b /\ p_trades (b_port b) <> []).
Proof.
  split; [constructor; [comp|comp|discriminate]|].
  split; [|split; (eexists; split; [vm_compute; reflexivity|vm_compute; discriminate])].
  assert (NS : clean_sized no_signals) by (constructor; cbn; try discriminate; auto; constructor; cbn; try discriminate; auto; unfold bad_stop; intuition congruence).
  repeat (constructor; [split; [reflexivity|]; constructor; cbn|]); [..|constructor].
  all: try (intros; discriminate).
  all: try (intros _; split; [repeat constructor; cbn; intuition discriminate|]; exists 0%nat; now left).
  all: try (intros i s _; split; [reflexivity|]; intros; reflexivity).
  all: try (intros i s f x _ [= <-]; reflexivity).
  all: try (intros; split; reflexivity).
  all: try (intros; exact I).
  all: try exact I.
  all: try (intros; unfold rot_sigs; constructor; cbn; try discriminate; try reflexivity; unfold bad_stop; intuition congruence).
  intros f ops p i x lr sr [= <-] _ C s g _. unfold halved. destruct (aget s x) as [h|] eqn:E; [|exact NS]. apply aget_In in E.
  destruct (C _ _ E) as [[U1 U2 U3 U4 U5 U6 U7] O B S L1 L2]. constructor; cbn; auto.
  - constructor; auto.
  - destruct O as [->|O]; auto.
  - intros q. destruct (g_bshares h) as [y|]; [|discriminate]. intros [= <-]. specialize (B y eq_refl). apply Qle_shift_div_l; lra.
  - intros l Hl. destruct (L1 l Hl) as [X Y]. split; auto. destruct (g_bshares h); [discriminate|congruence].
Qed.
(** A slot is needed: rotation with a limit of no position at all raises on its first bar. The
    setters of the strategy do not accept such a limit. *)
Theorem C112_needs_slots : exists c v k, cfg_ok c /\ v_cfg v = c /\ NoDup (v_syms v) /\
  z_max_long (v_settings v) = Some 0%nat /\ z_max_short (v_settings v) = None /\
  (forall i d p q x s, clean_scores (u_sigs (v_user v i d p q x) s)) /\ backtests [v] (fresh c k) = None.
Proof.
  exists rot_cfg, (mkEnv rot_cfg [1; 2; 3; 4; 5]%Z [0; 1; 2]%nat (fun _ => [1; 2; 3; 4; 5]%Z)
    None 1 1 true false 0 (fun _ => None) (mkSettings (Some 0%nat) None (Some 2%nat))
    (fun i => mkScope (fun _ => true) (fun s _ => 100) (fun s _ => 100))
    (fun i s => Some (100, Some 100, Some 100))
    (fun i s _ => Some 100) (fun i s => Some 100) (fun i s => (100, 100))
    SlipNone (fun _ => None)
    (fun i _ p _ _ => mkUout [] (rot_sigs i)) None), 0%nat.
  split; [constructor; [comp|comp|discriminate]|]. cbn [v_cfg v_syms v_settings z_max_long z_max_short v_user u_sigs].
  split; [reflexivity|]. split; [repeat constructor; cbn; intuition discriminate|].
  split; [reflexivity|]. split; [reflexivity|]. split; [|vm_compute; reflexivity].
  intros. unfold rot_sigs. constructor; cbn; try discriminate; try reflexivity; unfold bad_stop; intuition congruence.
Qed.
Print Assumptions C112_needs_slots.
