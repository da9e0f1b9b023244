(** A concrete rotation: three symbols over five dates, one long position, which
    may fall to rank two before it is given up. *)
From Verif Require Export LoopDemo BarOrders.

Definition rot_cfg : cfg := mkCfg 10000 None None true PMDefault (Some 1%nat) None 1 0 None.
Definition scored_sig (q : Q) : sig :=
  mkSig false false None None None None None None None None None None None (Some (ScNum q)) None
    None None None None None None None None None None None None.
(** Symbols 0, 1, 2 score 3, 2, 1; from the fourth bar on 1, 2, 3. *)
Definition rot_sigs (i : nat) (s : sym) : sig :=
  scored_sig (inject_Z (if Nat.ltb i 3 then 3 - Z.of_nat s else 1 + Z.of_nat s)).
Definition rot_env : env :=
  mkEnv rot_cfg [1; 2; 3; 4; 5]%Z [0; 1; 2]%nat (fun _ => [1; 2; 3; 4; 5]%Z)
    None 1 1 true false 0 (fun _ => None) (mkSettings (Some 1%nat) None (Some 2%nat))
    (fun i => mkScope (fun _ => true) (fun s _ => 100) (fun s _ => 100))
    (fun i s => Some (100, Some 100, Some 100))
    (fun i s _ => Some 100) (fun i s => Some 100) (fun i s => (100, 100))
    SlipNone (fun _ => None)
    (fun i _ p _ _ => mkUout [] (rot_sigs i)) None.
Definition rot_final : bstate := match backtests [rot_env] (fresh rot_cfg 0) with Some b => b | None => fresh rot_cfg 0 end.
Definition got (x : option bstate) : bstate := match x with Some b => b | None => fresh rot_cfg 0 end.
Lemma got_some x : given x = true -> x = Some (got x).
Proof. destruct x; [reflexivity|discriminate]. Qed.
(** Before and after the fourth bar. *)
Definition rot_before : bstate := got (bars_from rot_env 0 [1; 2; 3]%Z (start rot_env (fresh rot_cfg 0))).
Definition rot_after : bstate := got (bar rot_env 3 4 rot_before).
Lemma rot_ok : windows_ok rot_cfg [rot_env].
Proof.
  split; [|split; [reflexivity|split; [constructor|exact I]]]. constructor.
  - cbn. repeat (split; [repeat apply Forall_cons; try apply Forall_nil; lia|]). exact I.
  - cbn. repeat constructor; cbn; intuition lia.
  - intros s _. split.
    + cbn. repeat (split; [repeat apply Forall_cons; try apply Forall_nil; lia|]). exact I.
    + cbn. intros x; auto.
  - discriminate.
  - cbn. lia.
Qed.
Lemma rot_bar : bar_of rot_cfg 0 [rot_env] rot_env 3 4 rot_before rot_after.
Proof.
  exists [], [], (fresh rot_cfg 0), [1; 2; 3]%Z, [5]%Z. split; [reflexivity|]. split; [reflexivity|]. split; [reflexivity|]. split; [reflexivity|].
  split; apply got_some; vm_compute; reflexivity.
Qed.

(** A short of 10 shares and a long target of the whole equity. *)
Definition short_ops : list op := [OpSell (mkOArgs 1 0%nat 10 100 None None None OMarket (Some 100))].
Lemma target_ignores_other_side : exists c ops p s y target sd g', cfg_ok c /\ run c ops = Some p /\ 0 < y /\
  set_target_shares c p s (Some y) target sd no_signals = Some g' /\
  exists t, calc_target_shares c (p_equity p) target (Some y) None = Some t /\ ~ net_held p s + net_ordered g' == net_target sd t.
Proof.
  exists run_cfg, short_ops, (match run run_cfg short_ops with Some p => p | None => init run_cfg end), 0%nat, 100, 1, Long.
  eexists. split; [constructor; cbn; try discriminate; lra|]. split; [vm_compute; reflexivity|]. split; [lra|]. split; [vm_compute; reflexivity|].
  eexists. split; [vm_compute; reflexivity|]. vm_compute. discriminate.
Qed.
