(** Properties of whole backtests: C24 (order delay), C25 (order life), C26 (exit
    orders), C53 (a backtest's account is a well-formed call history). A run [l]
    is a list of windows with arbitrary data and arbitrary execution functions;
    [backtests l (fresh c k) = Some b] says that the run ends without an
    exception, in state [b]. [entered (b_kops b)] are all orders ever placed,
    [attempts b i] the dates on which order [i] was tried and whether it filled,
    [own_bars l s] the dates of symbol [s] (LoopSpec.v). *)
From Verif Require Import PortfolioDemo LoopExit LoopDemo ExitMarks.

(** ** C24 *)
(** Every order was signalled on a bar of its symbol, is due exactly the
    configured number of the symbol's bars later, strictly after the signal, and
    is never tried before it is due nor on a date without a bar. *)
Theorem C24_order_delay c l k b n : windows_ok c l -> backtests l (fresh c k) = Some b -> In n (entered (b_kops b)) ->
  exists v, In v l /\ In (n_sym n) (v_syms v) /\ In (n_created n) (v_sdates v (n_sym n)) /\
    bars_later (calendar v (n_sym n)) (n_created n) (delay v (n_type n)) (n_exec n) /\ (n_created n < n_exec n)%Z /\
    forall x f, In (x, f) (attempts b (n_id n)) -> (n_exec n <= x)%Z /\ In x (own_bars l (n_sym n)).
Proof. exact (order_origin c l k b n). Qed.
Print Assumptions C24_order_delay.
(** Every buy and sell of the account was made for an order, on a date on which it
    was tried, with its limit and (if it filled) its stops, for no more shares
    than ordered, and later than the signal. *)
Theorem C24_calls_follow_orders c l k b ty a : windows_ok c l -> backtests l (fresh c k) = Some b -> In (order_call ty a) (b_ops b) ->
  exists n, In n (entered (b_kops b)) /\ made_for b ty a n /\ (n_created n < a_date a)%Z.
Proof. exact (call_origin c l k b ty a). Qed.
Print Assumptions C24_calls_follow_orders.
(** An order signalled on date [d], the current bar of its symbol, is placed
    exactly when the bar it is for exists. *)
Theorem C24_placed_iff v d k w r b : env_ok v -> In (r_sym r) (v_syms v) ->
  nth_error (v_sdates v (r_sym r)) (end_of b (r_sym r) - 1) = Some d -> (r_buy r <> None \/ r_sell r <> None) ->
  (exists x b' n, bars_later (calendar v (r_sym r)) d k x /\ schedule_order v d k w (Some b) r = Some b' /\
     entered (b_kops b') = entered (b_kops b) ++ [n] /\ n_sym n = r_sym r /\ n_created n = d /\ n_exec n = x /\
     n_type n = result_side r) \/
  (forall x, ~ bars_later (calendar v (r_sym r)) d k x) /\ schedule_order v d k w (Some b) r = Some b.
Proof. exact (schedule_complete v d k w r b). Qed.
Print Assumptions C24_placed_iff.
(** Five orders; the second, for a symbol without a bar on date 2, is due on its
    next bar, date 3. *)
Example C24_example : windows_ok run_cfg [quiet_env] /\ backtests [quiet_env] (fresh run_cfg 0) = Some (final [quiet_env]) /\
  map (fun n => (n_id n, n_sym n, n_created n, n_exec n)) (entered (b_kops (final [quiet_env]))) =
    [(1, 0, 1%Z, 2%Z); (2, 1, 1%Z, 3%Z); (3, 0, 2%Z, 3%Z); (4, 0, 3%Z, 4%Z); (5, 0, 4%Z, 5%Z)]%nat /\
  length (filter (fun o => match o with OpBuy _ | OpSell _ => true | _ => false end) (b_ops (final [quiet_env]))) = 7%nat.
Proof. split; [apply demo_ok|]. conj; comp. Qed.

(** ** C25 *)
(** An order is tried on consecutive bars of its symbol from the one it is due on,
    once on each, and on all of them while it is pending; a limit order with
    timeout [t >= 0] is tried at most [t + 1] times, one with a negative timeout
    without bound, any other order at most once; a fill is the last attempt and
    the order is gone after it. *)
Theorem C25_attempts c l k b n : windows_ok c l -> backtests l (fresh c k) = Some b -> In n (entered (b_kops b)) ->
  (exists rest, from n (own_bars l (n_sym n)) = map fst (attempts b (n_id n)) ++ rest /\ (pending_now b (n_id n) = true -> rest = [])) /\
  NoDup (map fst (attempts b (n_id n))) /\
  allowed_attempts n (length (attempts b (n_id n))) /\
  (forall l1 x l2, attempts b (n_id n) = l1 ++ x :: l2 -> snd x = true -> l2 = [] /\ pending_now b (n_id n) = false).
Proof. exact (order_attempts c l k b n). Qed.
Print Assumptions C25_attempts.
(** An order that is gone was cancelled by an execution function, filled, was to
    be tried once and has been, or was tried [t + 1] times and one more bar of
    its symbol came. *)
Theorem C25_gone_for_a_reason c l k b n : windows_ok c l -> backtests l (fresh c k) = Some b -> In n (entered (b_kops b)) ->
  pending_now b (n_id n) = false ->
  asked l n \/
  (exists l1 x, attempts b (n_id n) = l1 ++ [(x, true)]) \/
  (~ persistent n /\ length (attempts b (n_id n)) = 1%nat) \/
  (exists t, persistent n /\ n_timeout n = Some t /\ (0 <= t)%Z /\ Z.of_nat (length (attempts b (n_id n))) = (t + 1)%Z /\
     (length (attempts b (n_id n)) < length (from n (own_bars l (n_sym n))))%nat).
Proof. exact (order_gone c l k b n). Qed.
Print Assumptions C25_gone_for_a_reason.
(** Order 2 (timeout 1) was tried on two bars and is gone; order 3 (timeout 10)
    filled at its third attempt. Cancelled on date 4, it is not tried on date 5. *)
Example C25_example : 
  attempts (final [quiet_env]) 2 = [(3%Z, false); (4%Z, false)] /\ pending_now (final [quiet_env]) 2 = false /\
  attempts (final [quiet_env]) 3 = [(3%Z, false); (4%Z, false); (5%Z, true)] /\
  (let cancelling := demo_env (fun i => if Nat.eqb i 3 then [CanOrder 3] else []) in
   attempts (final [cancelling]) 3 = [(3%Z, false); (4%Z, false)]).
Proof. conj; comp. Qed.

(** ** C26 *)
(** Every buy or sell a run makes for an exit order ([exit_of]: created by
    [sell_all_shares] or [cover_all_shares]) fills at most what is held at that
    moment, reduces the position by what it fills and leaves no position on the
    other side ([reduced], LoopExit.v), or changes nothing. *)
Theorem C26_exit_never_flips c l k b l1 ty a l2 : cfg_ok c -> windows_ok c l -> backtests l (fresh c k) = Some b ->
  b_ops b = l1 ++ order_call ty a :: l2 ->
  exists n p p' x, In n (entered (b_kops b)) /\ made_for b ty a n /\ run c l1 = Some p /\ send c ty a p = Ret p' x /\
    (exit_of n -> match x with
       | Some _ => exists ord, p_orders p' = p_orders p ++ [ord] /\ o_sym ord = n_sym n /\ o_side ord = ty /\
           0 < o_shares ord /\ o_shares ord <= shares_held p (closing ty) (n_sym n) /\
           shares_held p' (closing ty) (n_sym n) == shares_held p (closing ty) (n_sym n) - o_shares ord /\
           position_of p' (opening_side ty) (n_sym n) = None
       | None => same_account p p'
       end).
Proof. exact (exit_calls c l k b l1 ty a l2). Qed.
Print Assumptions C26_exit_never_flips.
(** [sell_all_shares] and [cover_all_shares] ask for the whole position and mark
    the order as an exit of it, and raise exactly when there is none. A target
    marks one exactly when it reduces a position to nothing. *)
Theorem C26_exits_marked c p s g :
  match sell_all_shares p s g with
  | Some g' => exists pos, position_of p Long s = Some pos /\ g_sshares g' = Some (ps_shares pos) /\ g_bshares g' = g_bshares g /\ g_exit g' = Some Long /\ g_exiting g' = true
  | None => position_of p Long s = None
  end /\
  match cover_all_shares p s g with
  | Some g' => exists pos, position_of p Short s = Some pos /\ g_bshares g' = Some (ps_shares pos) /\ g_sshares g' = g_sshares g /\ g_exit g' = Some Short /\ g_exiting g' = true
  | None => position_of p Short s = None
  end /\
  forall y target sd g', 0 < y -> set_target_shares c p s (Some y) target sd g = Some g' -> g_exit g = None -> g_exiting g = false ->
    exists t, calc_target_shares c (p_equity p) target (Some y) None = Some t /\ (g_exit g' = None \/ g_exit g' = Some sd) /\
      (g_exit g' = Some sd <-> g_exiting g' = true) /\
      (g_exit g' = Some sd <-> exists pos, position_of p sd s = Some pos /\ t < ps_shares pos /\ t <= 0).
Proof. split; [exact (sell_all_marks p s g)|]. split; [exact (cover_all_marks p s g)|]. intros y target sd g'. exact (target_marks c p s y target sd g g'). Qed.
Print Assumptions C26_exits_marked.
(** Long 40: a target of a quarter of 10000 asks to sell 15, a target of nothing to
    sell 40, as an exit. *)
Example C26_marked_example : exists p, run run_cfg [OpBuy (ord_ 1 0%nat 40 100 None None); OpCapture 1 (fun _ => Some (100, Some 100, Some 100))] = Some p /\
  match set_target_shares run_cfg p 0 (Some 100) (1#4) Long no_signals, set_target_shares run_cfg p 0 (Some 100) 0 Long no_signals with
  | Some g1, Some g2 => option_map Qred (g_sshares g1) = Some 15 /\ g_exit g1 = None /\ option_map Qred (g_sshares g2) = Some 40 /\ g_exit g2 = Some Long
  | _, _ => False
  end.
Proof. eexists. split; [vm_compute; reflexivity|]. vm_compute. repeat split. Qed.
(** An attempt when nothing is held does nothing, and cancels the order unless it
    is a limit order with a timeout. *)
Theorem C26_nothing_held_partial c v i d n b b' : v_cfg v = c -> refined c b -> exit_of n ->
  position_of (b_port b) (closing (n_type n)) (n_sym n) = None -> attempt_and_settle v i d n b = Some b' ->
  b_port b' = b_port b /\ (pending_now b' (n_id n) = true -> persistent n).
Proof. exact (exit_nothing_held c v i d n b b'). Qed.
Print Assumptions C26_nothing_held_partial.
(** The rest of the claim is false: a limit exit with a timeout stays pending after
    an attempt with nothing held, and then closes a position opened later. Here
    order 3, created to leave the position of 10 bought by order 1, is tried on
    date 4 when that position is gone, and on date 5 sells the 5 shares order 5
    has just bought. *)
Theorem C26_cancelled_when_flat_refuted : exists c l b n, cfg_ok c /\ windows_ok c l /\ backtests l (fresh c 0) = Some b /\
  In n (entered (b_kops b)) /\ exit_of n /\
  (exists j sc sm p, nth_error (b_ops b) j = Some (OpCheckStops 5 sc sm) /\ run c (firstn j (b_ops b)) = Some p /\
     position_of p Long (n_sym n) = None) /\
  attempts b (n_id n) = [(3%Z, false); (4%Z, false); (5%Z, true)].
Proof.
  exists run_cfg, [quiet_env], (final [quiet_env]), (nth 2 (entered (b_kops (final [quiet_env]))) (with_id 0 (mkPadd OBuy 0%nat 0 0 0 None (FNum 0) 0%nat None None None))).
  split; [constructor; cbn; try discriminate; lra|]. split; [apply demo_ok|]. split; [vm_compute; reflexivity|].
  split; [vm_compute; tauto|]. split; [vm_compute; reflexivity|].
  split; [|vm_compute; reflexivity].
  exists 17%nat. eexists. eexists. exists (state run_cfg (firstn 17 (b_ops (final [quiet_env])))).
  conj; comp.
Qed.
Print Assumptions C26_cancelled_when_flat_refuted.
(** The call that fills the exit order of the demo, the fourth sale or purchase. *)
Example C26_example : exists l1 a l2 n, b_ops (final [quiet_env]) = l1 ++ order_call OSell a :: l2 /\
  In n (entered (b_kops (final [quiet_env]))) /\ made_for (final [quiet_env]) OSell a n /\ exit_of n /\ length l1 = 19%nat.
Proof.
  set (o := nth 19 (b_ops (final [quiet_env])) (OpIncr (fun _ => true))).
  exists (firstn 19 (b_ops (final [quiet_env]))), (match o with OpSell a => a | _ => mkOArgs 0 0%nat 0 0 None None None OMarket None end), (skipn 20 (b_ops (final [quiet_env]))),
    (nth 2 (entered (b_kops (final [quiet_env]))) (with_id 0 (mkPadd OBuy 0%nat 0 0 0 None (FNum 0) 0%nat None None None))).
  split; [vm_compute; reflexivity|]. split; [vm_compute; tauto|]. split; [|split; vm_compute; reflexivity].
  constructor; [vm_compute; reflexivity|vm_compute; reflexivity|vm_compute; reflexivity|vm_compute; reflexivity|left; vm_compute; reflexivity|..].
  - intros _. vm_compute. discriminate.
  - exists true. split; [vm_compute; tauto|discriminate].
Qed.

(** ** C53 *)
(** Whatever the data and the execution functions do, the account a run leaves is
    the result of a call history in which stop ids are never reused, every stop
    belongs to the order that carries it, an order carries at most one stop of
    each type, each with a size, and the position limits are never changed: the
    hypotheses of C01-C22 hold of every backtest. *)
Theorem C53_backtest_history c l k b : windows_ok c l -> backtests l (fresh c k) = Some b ->
  run c (b_ops b) = Some (b_port b) /\ stops_wf (b_ops b) /\ Forall keeps_caps (b_ops b) /\
  Forall (fun o => one_per_type (op_stops o) /\ Forall stop_sized (op_stops o)) (b_ops b) /\
  b_pend b = krun (b_kops b) /\ marks_live (b_kops b).
Proof. exact (backtest_history c l k b). Qed.
Print Assumptions C53_backtest_history.
Example C53_example : length (b_ops (final [quiet_env])) = 25%nat /\ p_cash (b_port (final [quiet_env])) == 10040 /\
  length (p_trades (b_port (final [quiet_env]))) = 2%nat.
Proof. conj; comp. Qed.
