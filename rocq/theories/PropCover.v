(** Property C95: cover orders and sell orders. *)
From Verif Require Import CoverRun.
From Verif Require Import CoverDemo.
From Verif Require Import AttrSpec AttrProofs.

(** ** C95 *)
(** A function may set the attributes of its orders in any order and any number of times. The context
    then asks to cover exactly when a cover attribute was set or [cover_all_shares] called, and each
    attribute holds what was said last under its buy or its cover name. *)
Theorem C95_attributes : forall p s l g, set_attrs p s l no_signals = Some g ->
  (g_cover g = true <-> exists a, In a l /\ covering a) /\
  latest (buys p s) l (g_bshares g) /\ latest (sells p s) l (g_sshares g) /\
  latest buys_at l (g_bfill g) /\ latest sells_at l (g_sfill g) /\
  latest buy_limited l (g_blimit g) /\ latest sell_limited l (g_slimit g) /\
  latest buy_timed l (g_btimeout g) /\ latest sell_timed l (g_stimeout g) /\
  latest held_for l (g_hold g) /\ latest exits l (g_exit g).
Proof. intros p s l g E. destruct (set_attrs_good p s l g E). repeat split; try assumption; apply gd_cover. Qed.
Print Assumptions C95_attributes.
(** It raises exactly when all shares of a position that is not there are asked for, and every bar
    starts from cleared attributes. *)
Theorem C95_absent : forall p s l g, set_attrs p s l (set_exec_ctx_data g) = None <-> exists a, In a l /\ absent p s a.
Proof. intros p s l g. apply set_attrs_raises. Qed.
Print Assumptions C95_absent.
Example C95_attributes_example : forall p s pos, position_of p Short s = Some pos ->
  exists g, set_attrs p s [BuyShares (Some 5); SellLimit (Some (Some 9)); CoverLimit (Some (Some 7)); CoverAll; BuyLimit None] no_signals = Some g /\
    g_cover g = true /\ g_bshares g = Some (ps_shares pos) /\ g_blimit g = None /\ g_slimit g = Some (Some 9) /\ g_exit g = Some Short.
Proof.
  intros p s pos H. unfold position_of in H. cbn [poss] in H. unfold set_attrs. cbn [fold_left set_attr]. unfold cover_all_shares. rewrite H.
  eexists. split; [reflexivity|]. repeat split.
Qed.
(** Full property: on every bar, an order that was set through a cover attribute
    is not tried after a sell order. Proved for the bar the order is for, when
    that bar is in the window it was placed in (missing: the bars on which it is
    retried, and orders carried into the next window, where the code does
    otherwise). *)
Theorem C95_covers_before_sells_partial cf k l v d b b' e c c' n g : windows_ok cf l -> two_bars cf k l v d b b' e c c' ->
  placed_on b b' n -> n_type n = OBuy -> aget (n_sym n) (b_ctx b') = Some g -> g_cover g = true -> n_exec n = e -> In e (v_sdates v (n_sym n)) ->
  exists tried, b_att c' = b_att c ++ tried /\ before_sells tried n (entered (b_kops c)).
Proof. exact (covers_first cf k l v d b b' e c c' n g). Qed.
Print Assumptions C95_covers_before_sells_partial.
(** A cover order at a limit that is retried is tried after the sell orders that
    are retried with it. *)
Theorem C95_covers_before_sells_refuted : exists cf k l v d b b' e c c' n g, windows_ok cf l /\ two_bars cf k l v d b b' e c c' /\
  placed_on b b' n /\ n_type n = OBuy /\ aget (n_sym n) (b_ctx b') = Some g /\ g_cover g = true /\ In e (v_sdates v (n_sym n)) /\
  exists tried, b_att c' = b_att c ++ tried /\ ~ before_sells tried n (entered (b_kops c)).
Proof.
  exists run_cfg, 0%nat, [cover_env], cover_env, 2%Z, (after_bars 1), (after_bars 2), 4%Z, (after_bars 3), (after_bars 4), cover_order, (cover_sigs 1 0%nat).
  destruct cover_placed as [P1 [P2 [P3 [P4 P5]]]]. destruct cover_tries as [_ [T2 [T3 T4]]]. rewrite P3.
  split; [exact cover_ok|]. split; [exact cover_bars4|]. split; [exact P1|]. split; [exact P2|]. split; [exact P5|]. split; [reflexivity|]. split; [cbn; lia|].
  eexists. split; [exact T2|]. intro B.
  destruct (nth_error (entered (b_kops (after_bars 3))) 2) as [m|] eqn:M; [|vm_compute in M; discriminate].
  assert (X : (n_id m, n_type m) = (3%nat, OSell)).
  { apply (map_nth_error (fun n => (n_id n, n_type n))) in M. rewrite T3 in M. cbn [nth_error] in M. injection M as M1 M2. rewrite <- M1, <- M2. reflexivity. }
  injection X as X1 X2. specialize (B m [] 4%Z false [(2%nat, 4%Z, false)] (nth_error_In _ _ M) X2). rewrite X1, T4 in B. destruct (B eq_refl). cbn. auto.
Qed.
Print Assumptions C95_covers_before_sells_refuted.
Example C95_example : windows_ok run_cfg [cover_env] /\ two_bars run_cfg 0 [cover_env] cover_env 2 (after_bars 1) (after_bars 2) 3 (after_bars 2) (after_bars 3) /\
  placed_on (after_bars 1) (after_bars 2) cover_order /\ n_type cover_order = OBuy /\ aget (n_sym cover_order) (b_ctx (after_bars 2)) = Some (cover_sigs 1 0%nat) /\
  g_cover (cover_sigs 1 0%nat) = true /\ n_exec cover_order = 3%Z /\ In 3%Z (v_sdates cover_env (n_sym cover_order)) /\
  b_att (after_bars 3) = b_att (after_bars 2) ++ [(2%nat, 3%Z, false); (3%nat, 3%Z, false)].
Proof.
  destruct cover_placed as [P1 [P2 [P3 [P4 P5]]]]. destruct cover_tries as [T1 _]. rewrite P3.
  split; [exact cover_ok|]. split; [exact cover_bars3|]. split; [exact P1|]. split; [exact P2|]. split; [exact P5|]. split; [reflexivity|]. split; [exact P4|]. split; [cbn; lia|exact T1].
Qed.
