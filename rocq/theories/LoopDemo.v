(** A concrete backtest for the loop theorems: two symbols over six dates, the
    second without bars on dates 2 and 5. *)
From Verif Require Export LoopSpec Tac.

Definition run_cfg : cfg := mkCfg 10000 None None true PMDefault None None 1 0 None.
Definition price0 (i : nat) : Q := nth i [100; 102; 104; 106; 250; 108] 0.
Definition price_of (i : nat) (s : sym) : Q := match s with 0%nat => price0 i | _ => 50 end.
Definition with_limit (sell : bool) (x : Q) (t : Z) (g : sig) : sig :=
  if sell then mkSig (g_cover g) (g_exiting g) (g_exit g) (g_bfill g) (g_bshares g) (g_blimit g) (g_btimeout g)
    (g_sfill g) (g_sshares g) (Some (Some x)) (Some t) (g_hold g) (g_score g) (g_lscore g) (g_sscore g)
    None None None None None None None None None None None None
  else mkSig (g_cover g) (g_exiting g) (g_exit g) (g_bfill g) (g_bshares g) (Some (Some x)) (Some t)
    (g_sfill g) (g_sshares g) (g_slimit g) (g_stimeout g) (g_hold g) (g_score g) (g_lscore g) (g_sscore g)
    None None None None None None None None None None None None.
(** Bar 1: buy 10 of symbol 0, and 5 of symbol 1 at a limit that is never met,
    for one more bar. Bar 2: leave symbol 0 ([sell_all_shares]) at a limit of
    200, for ten more bars. Bar 3: sell it at market. Bar 4: buy 5 again. *)
Definition demo_sigs (i : nat) (p : port) (s : sym) : sig :=
  match i, s with
  | 0%nat, 0%nat => set_buy (Some 10) no_signals
  | 0%nat, _ => with_limit false 40 1 (set_buy (Some 5) no_signals)
  | 1%nat, 0%nat => with_limit true 200 10 (match sell_all_shares p 0%nat no_signals with Some g => g | None => no_signals end)
  | 2%nat, 0%nat => set_sell (Some 10) no_signals
  | 3%nat, 0%nat => set_buy (Some 5) no_signals
  | _, _ => no_signals
  end.
Definition demo_env (cancels : nat -> list cancel) : env :=
  mkEnv run_cfg [1; 2; 3; 4; 5; 6]%Z [0; 1]%nat (fun s => match s with 0%nat => [1; 2; 3; 4; 5; 6]%Z | _ => [1; 3; 4; 6]%Z end)
    None 1 1 false false 0 (fun _ => None) (mkSettings None None None)
    (fun i => mkScope (fun _ => true) (fun s _ => price_of i s) (fun s _ => price_of i s))
    (fun i s => Some (price_of i s, Some (price_of i s), Some (price_of i s)))
    (fun i s _ => Some (price_of i s)) (fun i s => Some (price_of i s)) (fun i s => (price_of i s, price_of i s))
    SlipNone (fun _ => None)
    (fun i _ p _ _ => mkUout (cancels i) (demo_sigs i p)) None.
Definition quiet_env : env := demo_env (fun _ => []).
Definition final (l : list env) : bstate := match backtests l (fresh run_cfg 0) with Some b => b | None => fresh run_cfg 0 end.
Lemma demo_ok f : windows_ok run_cfg [demo_env f].
Proof.
  split; [|split; [reflexivity|split; [constructor|exact I]]]. constructor.
  - cbn. repeat (split; [repeat apply Forall_cons; try apply Forall_nil; lia|]). exact I.
  - cbn. repeat constructor; cbn; intuition lia.
  - intros s _. split.
    + destruct s as [|s]; cbn; repeat (split; [repeat apply Forall_cons; try apply Forall_nil; lia|]); exact I.
    + destruct s as [|s]; cbn; intros x; cbn; intuition lia.
  - discriminate.
  - cbn. lia.
Qed.
