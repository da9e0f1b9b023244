(** Properties of execution contexts: C29 (target sizing), C31 (results) and C32
    (signals are reset). *)
From Verif Require Import PortfolioDemo PortfolioFacts BarOrders RotationDemo BlankSpec ExitMarks.

(** ** C29 *)
(** [calc_target_shares] raises exactly for prices that are not positive numbers;
    its result is non-negative, costs at most [target] of the sizing base, and
    uses it up (with fractional shares) or is the largest such whole number. *)
Theorem C29_calc_target_shares c equity target price cash :
  match calc_target_shares c equity target price cash with
  | None => match price with Some x => x <= 0 | None => True end
  | Some t => exists x, price = Some x /\ 0 < x /\
      let base := match cash with Some b => b | None => equity * c_leverage c end in
      0 <= t /\ (0 <= base * target -> t * x <= base * target) /\ (base * target <= 0 -> t == 0) /\
      if c_fractional c then 0 <= base * target -> t * x == base * target
      else (exists z, t == inject_Z z) /\ forall z, 0 <= base * target -> inject_Z z * x <= base * target -> inject_Z z <= t
  end.
Proof. exact (calc_target_spec c equity target price cash). Qed.
Print Assumptions C29_calc_target_shares.
Example C29_calc_example :
  calc_target_shares (mkCfg 1000 None None false PMDefault None None 2 0 None) 1000 (1#3) (Some 7) None = Some 95 /\
  calc_target_shares run_cfg 1000 (1#2) (Some 100) (Some 300) = Some (300 * (1#2) / 100) /\
  calc_target_shares run_cfg 1000 (1#2) (Some 0) None = None.
Proof. repeat split. Qed.
(** [set_target_shares] asks for at most one order, and filling it in full leaves
    exactly the target. Partial: only when the symbol is not held on the other
    side. *)
Theorem C29_target_order_partial c p s y target sd g g' : g_bshares g = None -> g_sshares g = None -> 0 < y ->
  set_target_shares c p s (Some y) target sd g = Some g' ->
  position_of p (match sd with Long => Short | Short => Long end) s = None ->
  exists t, calc_target_shares c (p_equity p) target (Some y) None = Some t /\ (g_bshares g' = None \/ g_sshares g' = None) /\
    net_held p s + net_ordered g' == net_target sd t.
Proof. exact (order_toward c p s y target sd g g'). Qed.
Print Assumptions C29_target_order_partial.
(** A negative target is rejected, and without a usable price nothing is asked for. *)
Theorem C29_target_rejected c p s price target sd g :
  (set_target_shares c p s price target sd g = None <-> target < 0) /\
  (0 <= target -> match price with Some y => y <= 0 | None => True end -> set_target_shares c p s price target sd g = Some g).
Proof. exact (target_rejected c p s price target sd g). Qed.
Print Assumptions C29_target_rejected.
(** In terms of the account: once, in whatever happens next, the symbol's net
    traded volume has changed by the order, the target is held, on that side. *)
Theorem C29_target_reached_partial c ops p s y target sd g g' more p' : cfg_ok c -> run c ops = Some p ->
  position_of p (match sd with Long => Short | Short => Long end) s = None ->
  g_bshares g = None -> g_sshares g = None -> 0 < y -> set_target_shares c p s (Some y) target sd g = Some g' ->
  run c (ops ++ more) = Some p' -> signed_volume s (p_orders p') == signed_volume s (p_orders p) + net_ordered g' ->
  exists t, calc_target_shares c (p_equity p) target (Some y) None = Some t /\ shares_held p' sd s == t /\
    position_of p' (match sd with Long => Short | Short => Long end) s = None.
Proof. exact (target_reached c ops p s y target sd g g' more p'). Qed.
Print Assumptions C29_target_reached_partial.
(** Halving a position of 40: an order for 15 down to the target of 25. *)
Definition target_ops : list op := [OpBuy (ord_ 1 0%nat 40 100 None None); OpCapture 1 (fun _ => Some (100, Some 100, Some 100))].
Definition after_ops (ops : list op) : port := match run run_cfg ops with Some p => p | None => init run_cfg end.
Definition asked_for (ops : list op) (target : Q) : sig := match set_target_shares run_cfg (after_ops ops) 0 (Some 100) target Long no_signals with Some g => g | None => no_signals end.
Example C29_example : run run_cfg target_ops = Some (after_ops target_ops) /\ position_of (after_ops target_ops) Short 0 = None /\
  set_target_shares run_cfg (after_ops target_ops) 0 (Some 100) (1#4) Long no_signals = Some (asked_for target_ops (1#4)) /\
  Qred (share_count (g_sshares (asked_for target_ops (1#4)))) = 15 /\
  let more := [OpSell (ord_ 2 0%nat 15 100 None None)] in
  run run_cfg (target_ops ++ more) = Some (after_ops (target_ops ++ more)) /\
  signed_volume 0 (p_orders (after_ops (target_ops ++ more))) == signed_volume 0 (p_orders (after_ops target_ops)) + net_ordered (asked_for target_ops (1#4)).
Proof. cbv zeta. repeat (split; [vm_compute; reflexivity|]). vm_compute. reflexivity. Qed.
(** In general it fails: asked for a long target while a short is held, the order
    ignores the short and filling it leaves less than the target. *)
Theorem C29_target_order_refuted : exists c ops p s y target sd g', cfg_ok c /\ run c ops = Some p /\ 0 < y /\
  set_target_shares c p s (Some y) target sd no_signals = Some g' /\
  exists t, calc_target_shares c (p_equity p) target (Some y) None = Some t /\ ~ net_held p s + net_ordered g' == net_target sd t.
Proof. exact target_ignores_other_side. Qed.
Print Assumptions C29_target_order_refuted.

(** ** C31 *)
(** A context raises exactly when its attributes contradict each other or make its
    order unusable (ContextSpec.v). *)
Theorem C31_raises s date rot g n : to_result s date rot g n = ORaise <-> contradictory rot g \/ (wants g /\ unusable g).
Proof. exact (to_result_raises s date rot g n). Qed.
Print Assumptions C31_raises.
(** It gives no order exactly when it asks for no shares, or zero. *)
Theorem C31_no_order s date rot g n : to_result s date rot g n = ONone <-> ~ contradictory rot g /\ ~ wants g.
Proof. exact (to_result_none s date rot g n). Qed.
Print Assumptions C31_no_order.
(** Otherwise it gives a result with exactly one side's shares, with exactly the
    stops it describes, at most one of a kind, numbered on from the counter. *)
Theorem C31_result s date rot g n r n' : to_result s date rot g n = OResult r n' ->
  ~ contradictory rot g /\ wants g /\ ~ unusable g /\
  ((exists q, r_buy r = Some q /\ g_bshares g = Some q /\ r_sell r = None /\ ~ q == 0) \/
   (exists q, r_sell r = Some q /\ g_sshares g = Some q /\ r_buy r = None /\ ~ q == 0)) /\
  map st_id (result_stops r) = seq (S n) (length (result_stops r)) /\ n' = (n + length (result_stops r))%nat /\
  map shape_of (result_stops r) = described g /\ one_per_type (result_stops r).
Proof. exact (result_facts s date rot g n r n'). Qed.
Print Assumptions C31_result.
(** Over a whole run no two orders' stops share an id. *)
Theorem C31_stop_ids_unique c l k b : windows_ok c l -> backtests l (fresh c k) = Some b ->
  NoDup (map st_id (flat_map (fun n => match n_stops n with Some l => l | None => [] end) (entered (b_kops b)))) /\
  forall j, In j (map st_id (flat_map (fun n => match n_stops n with Some l => l | None => [] end) (entered (b_kops b)))) -> (j <= b_stop b)%nat.
Proof. exact (stop_ids_unique c l k b). Qed.
Print Assumptions C31_stop_ids_unique.
(** On every bar of every run, exactly the orders asked for are placed. *)
Theorem C31_orders_placed c k l v i d b b' : cfg_ok c -> windows_ok c l -> bar_of c k l v i d b b' ->
  exists m act us x, decision c v i d b b' m act us x.
Proof. exact (bar_decision c k l v i d b b'). Qed.
Print Assumptions C31_orders_placed.
(** Buying 10 with a trailing stop of 5 points and a holding period of 3 bars:
    two stops, ids 8 and 9. The same with sell shares as well is rejected. *)
Definition buy_sig (sell : option Q) : sig :=
  mkSig false false None None (Some 10) None None None sell None None (Some 3%Z) None None None
    None None None None None None None None (Some 5) None None None.
Example C31_example :
  (exists r, to_result 0 1 false (buy_sig None) 7 = OResult r 9 /\ map st_id (result_stops r) = [8; 9]%nat) /\
  to_result 0 1 false (buy_sig (Some 1)) 7 = ORaise /\ to_result 0 1 false (scored_sig 1) 7 = ONone.
Proof. split; [eexists; split; reflexivity|]. split; reflexivity. Qed.

(** ** C32 *)
(** What the contexts carry at the start of a bar has no effect on the account,
    the orders, or anything else, on that bar or any later one. *)
Theorem C32_no_carry_over v dates i b1 b2 : same_but_contexts b1 b2 ->
  match bars_from v i dates b1, bars_from v i dates b2 with
  | Some r1, Some r2 => same_but_contexts r1 r2
  | None, None => True
  | _, _ => False
  end.
Proof. exact (bars_same v dates i b1 b2). Qed.
Print Assumptions C32_no_carry_over.
(** On every bar of every run the user's functions find contexts without any
    signal. *)
Theorem C32_functions_start_clean c k l v i d b b' : cfg_ok c -> windows_ok c l -> bar_of c k l v i d b b' ->
  exists act p0 k0 m x us, us = u_sigs (v_user v i d p0 k0 (map (fun s => (s, no_signals)) act)) /\ (forall s, In s act <-> awake v d s) /\
    decision c v i d b b' m act us x.
Proof. exact (functions_start_clean c k l v i d b b'). Qed.
Print Assumptions C32_functions_start_clean.
(** At the start of a bar every attribute is cleared, whatever was set before. *)
Theorem C32_all_cleared g : blank (set_exec_ctx_data g) /\ set_exec_ctx_data g = no_signals.
Proof. split; [constructor; repeat split|reflexivity]. Qed.
Print Assumptions C32_all_cleared.
(** Contexts full of leftovers against empty ones: the rest of the run still
    trades, and alike. *)
Definition leftovers : bstate := set_ctx [(0%nat, buy_sig None); (1%nat, buy_sig (Some 4))] (b_stop rot_before) rot_before.
Example C32_example : same_but_contexts leftovers rot_before /\ b_ctx leftovers <> b_ctx rot_before /\
  given (bars_from rot_env 3 [4; 5]%Z leftovers) = true /\ given (bars_from rot_env 3 [4; 5]%Z rot_before) = true /\
  cfg_ok rot_cfg /\ windows_ok rot_cfg [rot_env] /\ bar_of rot_cfg 0 [rot_env] rot_env 3 4 rot_before rot_after.
Proof.
  split; [exact (same_set _ _)|]. split; [vm_compute; discriminate|]. split; [vm_compute; reflexivity|]. split; [vm_compute; reflexivity|].
  split; [constructor; cbn; try discriminate; lra|]. split; [exact rot_ok|exact rot_bar].
Qed.
