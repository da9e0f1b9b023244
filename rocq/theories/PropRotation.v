(** Properties of scores and rotation: C27 and C28. [bar_of c k l v i d b b'] says
    that in the run [l] the bar [i] of window [v], of date [d], took the state [b]
    to [b']. *)
From Verif Require Import PortfolioDemo BarOrders RotationDemo RankProofs TermProofs TermDemo.
From Coq Require Import Sorting.Sorted.

(** ** C27 *)
(** On every bar of every run, the orders due on the date are tried in the order
    covers, sells, buys; within each, in the order of their scores if that side's
    position limit is configured ([taken], [ranked]: best first, equal scores in
    the order they were placed, none lost or added). Orders left from earlier
    bars come last: covers, sells, buys, oldest first. *)
Theorem C27_orders_taken_by_score c k l v i d b b' : windows_ok c l -> bar_of c k l v i d b b' ->
  exists tc ts tb ac as_ ab ar older, b_att b' = b_att b ++ ac ++ as_ ++ ab ++ ar /\
    taken v WCover (zget d (b_cover b)) tc /\ subseq (map Some (ids_of ac)) (map r_pid tc) /\
    taken v WSell (zget d (b_sell b)) ts /\ subseq (map Some (ids_of as_)) (map r_pid ts) /\
    taken v WBuy (zget d (b_buy b)) tb /\ subseq (map Some (ids_of ab)) (map r_pid tb) /\
    StronglySorted earlier older /\ subseq (ids_of ar) (map n_id older).
Proof. exact (bar_order c k l v i d b b'). Qed.
Print Assumptions C27_orders_taken_by_score.
(** A symbol's rank is one more than the number of symbols that outrank it;
    symbols without a score, or with NaN, have none. *)
Theorem C27_rank x sd s r : NoDup (akeys x) -> (aget s (rotation_ranks x sd) = Some r <-> has_rank x sd s r).
Proof. exact (rotation_rank x sd s r). Qed.
Print Assumptions C27_rank.
(** The ranks are 1, 2, 3, ..., one for each scored symbol. *)
Theorem C27_ranks_count_up x sd : NoDup (akeys x) ->
  map snd (rotation_ranks x sd) = seq 1 (length (rotation_ranks x sd)) /\ NoDup (map fst (rotation_ranks x sd)).
Proof. exact (ranks_count x sd). Qed.
Print Assumptions C27_ranks_count_up.
(** Three executions scheduled for one date: scores 1, missing and 1 sort the
    missing one (worth 0) last and keep the other two in order. *)
Definition scored_result (s : sym) (sc : option score) : result :=
  mkResult s 1 (FType PTMiddle) (FType PTMiddle) sc None None None (Some 1) None None None None None None None false (Some s) None.
Example C27_example : bar_of rot_cfg 0 [rot_env] rot_env 3 4 rot_before rot_after /\ windows_ok rot_cfg [rot_env] /\
  map r_sym (sort_desc buy_key [scored_result 0 (Some ScNaN); scored_result 1 (Some (ScNum 1)); scored_result 2 None; scored_result 3 (Some (ScNum 1)); scored_result 4 (Some ScPosInf)])
    = [4; 1; 3; 2; 0]%nat /\
  rotation_ranks (map (fun s => (s, rot_sigs 3 s)) [0; 1; 2]%nat) Long = [(2, 1); (1, 2); (0, 3)]%nat.
Proof. split; [exact rot_bar|]. split; [exact rot_ok|]. split; vm_compute; reflexivity. Qed.

(** ** C28 *)
(** On every bar of every run with rotation and without a sizer function:
    positions that have a bar and are not among the [worst] best ranked are left,
    free slots go to the best ranked symbols that are neither held nor pending, no
    symbol is entered twice, and these are exactly the orders of the bar
    ([decision], [selected], [decided]). *)
Theorem C28_rotation c k l v i d b b' worst : cfg_ok c -> windows_ok c l -> bar_of c k l v i d b b' ->
  z_worst (v_settings v) = Some worst -> v_sizer v = None ->
  exists m act us x, decision c v i d b b' m act us x /\
    exists size sel, rotation_target_size (v_settings v) = Some size /\
      (forall sd, selected (b_port m) (b_pend m) (map (fun s => (s, us s)) act) worst (limit_of (v_settings v) sd) sd (sel sd)) /\
      (forall s, ~ (enters (map (fun s => (s, us s)) act) Long (sel Long) (sel Short) s /\ enters (map (fun s => (s, us s)) act) Short (sel Short) (sel Long) s)) /\
      forall s g, aget s x = Some g -> decided c (b_port m) (b_pend m) (v_close v i s) (map (fun s => (s, us s)) act) (v_settings v) worst size sel s g.
Proof. exact (bar_rotates c k l v i d b b' worst). Qed.
Print Assumptions C28_rotation.
(** Rotation needs a limit on some side. *)
Theorem C28_target_size z size : rotation_target_size z = Some size ->
  exists n, (0 < n)%nat /\ n = (match z_max_long z with Some m => m | None => 0 end + match z_max_short z with Some m => m | None => 0 end)%nat /\
    size == 1 / inject_Z (Z.of_nat n).
Proof. exact (target_size_spec z size). Qed.
Print Assumptions C28_target_size.
(** On the fourth bar the held symbol 0 falls to rank 3 and is given up for
    symbol 2; symbol 1, rank 2, is not bought: there is one slot. *)
Example C28_example : cfg_ok rot_cfg /\ windows_ok rot_cfg [rot_env] /\ bar_of rot_cfg 0 [rot_env] rot_env 3 4 rot_before rot_after /\
  z_worst (v_settings rot_env) = Some 2%nat /\ v_sizer rot_env = None /\
  map (fun n => (n_sym n, n_created n, n_type n, Qred (n_shares n), n_exit n)) (entered (b_kops rot_after)) =
    [(0%nat, 1%Z, OBuy, 100, None); (2%nat, 4%Z, OBuy, 100, None); (0%nat, 4%Z, OSell, 100, Some Long)].
Proof.
  split; [constructor; cbn; try discriminate; lra|]. split; [exact rot_ok|]. split; [exact rot_bar|]. repeat (split; [reflexivity|]). vm_compute. reflexivity.
Qed.
(** On every such bar the orders rotation places are market orders with the user's fill
    price for that side and the user's stops; bars to hold apply to entries only; the
    user's own orders are discarded, and a symbol that is not traded carries nothing
    that could be rejected ([terms]). *)
Theorem C28_order_terms c k l v i d b b' worst : cfg_ok c -> windows_ok c l -> bar_of c k l v i d b b' ->
  z_worst (v_settings v) = Some worst -> v_sizer v = None ->
  exists m act us x, decision c v i d b b' m act us x /\ forall s g, aget s x = Some g -> terms (us s) g.
Proof. exact (bar_terms c k l v i d b b' worst). Qed.
Print Assumptions C28_order_terms.
(** The functions set, for every symbol, an order of 7 shares with a limit, fill prices
    (open to buy, close to sell), a stop-loss and 9 bars to hold. *)
Example C28_terms_example : cfg_ok rot_cfg /\ windows_ok rot_cfg [term_env] /\ bar_of rot_cfg 0 [term_env] term_env 3 4 term_before term_after /\
  z_worst (v_settings term_env) = Some 2%nat /\ v_sizer term_env = None /\
  map (fun n => (n_sym n, n_type n, Qred (n_shares n), n_limit n, n_fill n, n_exit n, map st_type (match n_stops n with Some l => l | None => [] end))) (entered (b_kops term_after)) =
    [(0%nat, OBuy, 100, None, FType PTOpen, None, [SBar; SLoss]); (2%nat, OBuy, 100, None, FType PTOpen, None, [SBar; SLoss]);
     (0%nat, OSell, 100, None, FType PTClose, Some Long, [SLoss])].
Proof.
  split; [constructor; cbn; try discriminate; lra|]. split; [exact term_ok|]. split; [exact term_bar|]. repeat (split; [reflexivity|]). vm_compute. reflexivity.
Qed.
