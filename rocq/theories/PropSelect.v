(** C72: walkforward with dynamic symbol selection. *)
From Verif Require Import SelectProofs SelectLogs LoopDemo LoopRun.

(** ** Resolving executions *)
(** With at least one selector, resolution succeeds exactly when the training
    window has rows and every execution resolves: fixed symbols stay as they are,
    a selector's symbols are some, all different, and all have a training row; and
    no symbol goes to two executions. *)
Theorem C72_resolve : forall (R : Type) (f : trows R) (l : list (symbols R)) ls, (exists g, In (Selector g) l) ->
  (resolve f l = Some ls <-> (exists s, has_rows f s) /\ Forall2 (resolves_to f) l ls /\ disjoint_lists ls).
Proof. intros R f l ls. apply resolve_ok. Qed.
Print Assumptions C72_resolve.

(** The executions are a set: the order in which they are visited does not change
    what each of them resolves to, nor whether resolution raises. *)
Lemma disjoint_swap (p p' : list (list sym)) : Permutation p p' -> disjoint_lists p -> disjoint_lists p'.
Proof.
  intro P. induction P as [|x l l' P IH|x z l|l l1 l2 P1 IH1 P2 IH2]; cbn; auto.
  - intros [A B]. split; auto. intros s q I J. apply (A s q I). eapply Permutation_in; [apply Permutation_sym, P|exact J].
  - intros [A [B C]]. split; [|split; auto].
    + intros s q I [<-|J]; [intro K; exact (A s x K (or_introl eq_refl) I)|apply (B s q I J)].
Qed.
Theorem C72_resolve_order : forall (R : Type) (f : trows R) (p p' : list (symbols R * list sym)), Permutation p p' ->
  resolve f (map fst p) = Some (map snd p) -> resolve f (map fst p') = Some (map snd p').
Proof.
  intros R f p p' P E. destruct (existsb is_selector (map fst p)) eqn:S.
  - assert (X : forall q, Forall2 (resolves_to f) (map fst q) (map snd q) <-> Forall (fun x => resolves_to f (fst x) (snd x)) q).
    { induction q as [|x q IH]; cbn; [split; constructor|]. split; intro H; inversion H; subst; constructor; auto; now apply IH. }
    apply existsb_exists in S. destruct S as [z [I J]]. destruct z as [z|g]; [discriminate|].
    apply resolve_ok in E; [|eauto]. destruct E as (E1 & E2 & E3). apply resolve_ok; [exists g; eapply Permutation_in; [apply Permutation_map, P|exact I]|].
    split; auto. split; [apply X; apply X in E2; eapply Permutation_Forall; eauto|]. eapply disjoint_swap; [apply Permutation_map, P|exact E3].
  - unfold resolve in *. rewrite S in E. assert (S' : existsb is_selector (map fst p') = false).
    { destruct (existsb is_selector (map fst p')) eqn:S'; auto. apply existsb_exists in S'. destruct S' as [z [I J]]. rewrite <- S. symmetry. apply existsb_exists. exists z. split; auto.
      eapply Permutation_in; [apply Permutation_sym, Permutation_map, P|exact I]. }
    rewrite S'. set (g := fun x : symbols R => match x with Fixed s => s | Selector _ => [] end) in *.
    assert (X : forall q, Some (map g (map fst q)) = Some (map snd q) <-> Forall (fun x => g (fst x) = snd x) q).
    { induction q as [|x q IH]; cbn; [split; constructor|]. split; intro H.
      - injection H as H1 H2. constructor; auto. apply IH. now rewrite H2.
      - inversion H as [|? ? H1 H2]; subst. apply IH in H2. injection H2 as H2. now rewrite H1, H2. }
    apply X. apply X in E. eapply Permutation_Forall; eauto.
Qed.
Print Assumptions C72_resolve_order.

(** ** The beginning of a window *)
(** Any run so far, any next window that is not empty and the strategy chosen for
    it. Pending orders of selected symbols stay, in their order, and all others
    are gone. Positions in selected symbols are untouched. A position in any
    other symbol is closed by exactly one order, on the symbol's first bar of the
    window or, if it has none, on its last bar up to the window's first date, at
    that bar's exit prices and slippage; it stays only if there is no such bar.
    Nothing else is ordered. When it raises instead, some held symbol that is not
    selected could not be exited. *)
Theorem C72_boundary : forall (U R : Type) (c : cfg) (order : list sym -> list sym) (stitched : bool)
    (plan : market R -> window -> option (strategy U R)) (m : market R) (u : U) (splits : list wsplit) b u' (y : strategy U R) (w : window),
  cfg_ok c -> well_formed m -> (forall l, Permutation l (order l)) ->
  (forall train z, plan m train = Some z -> y_cfg z = c) -> y_cfg y = c ->
  select_run order stitched plan m c u splits = Some (b, u') ->
  (exists d0, first_date m (y_all y) w d0) ->
  match liquidate y m order w b with
  | Some b' =>
      orders None None (b_pend b') = filter (fun n => existsb (Nat.eqb (n_sym n)) (y_syms y)) (orders None None (b_pend b)) /\
      (forall sd s, In s (y_syms y) -> position_of (b_port b') sd s = position_of (b_port b) sd s) /\
      (forall sd s, ~ In s (y_syms y) -> (exists d, leaves_on m (y_all y) w s d) -> position_of (b_port b') sd s = None) /\
      (forall sd s, ~ (exists d, leaves_on m (y_all y) w s d) -> position_of (b_port b') sd s = position_of (b_port b) sd s) /\
      exists new, p_orders (b_port b') = p_orders (b_port b) ++ new /\ NoDup (map o_sym new) /\
        (forall s, In s (map o_sym new) <-> ~ In s (y_syms y) /\ (exists sd pos, position_of (b_port b) sd s = Some pos) /\ exists d, leaves_on m (y_all y) w s d) /\
        (forall o, In o new -> exists sd pos d, position_of (b_port b) sd (o_sym o) = Some pos /\ leaves_on m (y_all y) w (o_sym o) d /\ closing_order y m w d sd pos o)
  | None => exists s sd pos d, ~ In s (y_syms y) /\ position_of (b_port b) sd s = Some pos /\ leaves_on m (y_all y) w s d
  end.
Proof.
  intros U R c order stitched plan m u splits b u' y w CO WF PERM PC YC RUN FD.
  assert (RF : refined c b). { apply (run_refined c CO order PERM stitched plan m PC splits (fresh c 0, u) (b, u')); auto. apply refined_fresh. }
  pose proof (liquidate_spec y m w c CO YC order PERM b RF) as L. assert (LV : forall s d, leave y m w s = Some d <-> leaves_on m (y_all y) w s d) by (intros s d; now apply leave_ok).
  destruct (liquidate y m order w b) as [b'|].
  2:{ destruct L as (s & sd & pos & d & A & B & C). exists s, sd, pos, d. split; auto. split; auto. now apply LV. }
  destruct L as (_ & K & OUT & STAY & new & N1 & N2 & N3 & N4). split; [exact K|]. split; [intros sd s I; apply STAY; now left|].
  split; [intros sd s NS [d D]; apply (OUT s d NS); now apply LV|]. split.
  { intros sd s ND. apply STAY. right. destruct (leave y m w s) as [d|] eqn:E; auto. destruct ND. exists d. now apply LV. }
  exists new. split; auto. split; auto. split.
  - intro s. split.
    + intro I. apply in_map_iff in I. destruct I as [o [<- I]]. destruct (N3 o I) as [A (sd & pos & d & P1 & P2 & _)]. split; auto. split; [eauto|]. exists d. now apply LV.
    + intros (NS & (sd & pos & H) & (d & D)). apply (N4 s sd pos d); auto. now apply LV.
  - intros o I. destruct (N3 o I) as [_ (sd & pos & d & P1 & P2 & P3)]. exists sd, pos, d. split; auto. split; auto. now apply LV.
Qed.
Print Assumptions C72_boundary.
(** It does not raise when prices are positive and there is no slippage model. *)
Theorem C72_boundary_returns : forall (U R : Type) (c : cfg) (order : list sym -> list sym) (stitched : bool)
    (plan : market R -> window -> option (strategy U R)) (m : market R) (u : U) (splits : list wsplit) b u' (y : strategy U R) (w : window),
  cfg_ok c -> (forall l, Permutation l (order l)) -> (forall train z, plan m train = Some z -> y_cfg z = c) -> y_cfg y = c ->
  select_run order stitched plan m c u splits = Some (b, u') ->
  (forall v s, y_sm y v = None /\ 0 < fst (y_exit_fill y v s) /\ 0 < snd (y_exit_fill y v s)) ->
  exists b', liquidate y m order w b = Some b'.
Proof.
  intros U R c order stitched plan m u splits b u' y w CO PERM PC YC RUN PR. apply (liquidate_returns y m w c CO YC order b PR).
  apply (run_refined c CO order PERM stitched plan m PC splits (fresh c 0, u) (b, u')); auto. apply refined_fresh.
Qed.
Print Assumptions C72_boundary_returns.

(** ** Later data *)
Lemma frame_same {R} (all : list sym) (train : window) (m m' : market R) (T : Z) : well_formed m -> well_formed m' -> same_past T m m' -> (snd train <= T)%Z ->
  frame_of all train m = frame_of all train m'.
Proof.
  intros WF WF' PA L. unfold frame_of. apply map_ext. intro s. f_equal. apply (ascending_unique fst); try (apply ascending_filter; auto).
  intro r. rewrite !filter_In, !inside_within. unfold within. split; intros [I W]; split; auto; apply (PA s r); auto; lia.
Qed.
(** The selectors, the models and the strategy of every window, and what the run
    has done up to [T] - the account, the pending orders, the contexts, the
    memory, and whether it has raised - do not depend on rows after [T].
    Partial: as in C71 the dates of the next bars must agree, and in both markets
    every symbol that trades in a test window must trade on its first date;
    [C72_lookahead_refuted] shows why. *)
Theorem C72_state_partial : forall (U R : Type) (all : list sym) (order : list sym -> list sym) (stitched : bool)
    (build : trows R -> list (list sym) -> strategy U R) (execs : list (symbols R)) (n : nat) (c : cfg) (u : U)
    (m m' : market R) (T : Z) (splits : list wsplit),
  well_formed m -> well_formed m' -> same_past T m m' -> same_next_dates n T m m' ->
  (forall train y, select_plan all build execs m train = Some y -> strategy_ok y /\ y_all y = all /\ (longest_delay y <= n)%nat) ->
  train_first splits -> Forall (fun sp => aligned m all (snd sp) /\ aligned m' all (snd sp)) splits ->
  option_map visible (select_run_until all order stitched (select_plan all build execs) m c u T splits) =
  option_map visible (select_run_until all order stitched (select_plan all build execs) m' c u T splits).
Proof.
  intros U R all order stitched build execs n c u m m' T splits WF WF' PA NX OK TF AL. rewrite Forall_forall in AL.
  pose proof (strip2_inv _ _ (plans_same all order stitched (select_plan all build execs) n m m' T WF WF' PA NX OK splits TF
    (fun train w I L => f_equal (fun f => option_map (build f) (resolve f execs)) (frame_same all train m m' T WF WF' PA (Z.lt_le_incl _ _ L)))
    (fun train w I => AL (train, w) I) (fresh c 0) (fresh c 0) u eq_refl)) as X.
  unfold select_run_until. destruct (windows_until all order stitched _ m T splits _) as [[b v]|], (windows_until all order stitched _ m' T splits _) as [[b' v']|]; try tauto; auto.
  destruct X as [X <-]. destruct (strip_fields _ _ X) as (P1 & P2 & P3 & P4 & P5 & _). cbn. unfold visible. cbn [fst snd]. now rewrite P1, P2, P4, P5.
Qed.
Print Assumptions C72_state_partial.
(** What completed runs report of the past - orders, closed trades, account bars
    up to [T] - does not depend on rows after [T]. Partial: moreover every symbol
    must trade in every test window; [C72_backdated_refuted] shows why. *)
Theorem C72_reported_partial : forall (U R : Type) (all : list sym) (order : list sym -> list sym) (stitched : bool)
    (build : trows R -> list (list sym) -> strategy U R) (execs : list (symbols R)) (n : nat) (c : cfg) (u : U)
    (m m' : market R) (T : Z) (splits : list wsplit) b v b' v',
  well_formed m -> well_formed m' -> same_past T m m' -> same_next_dates n T m m' -> (forall l, Permutation l (order l)) ->
  (forall k train y, k = m \/ k = m' -> select_plan all build execs k train = Some y -> strategy_ok y /\ y_all y = all /\ (longest_delay y <= n)%nat) ->
  train_first splits -> chronological (map snd splits) ->
  Forall (fun sp => aligned m all (snd sp) /\ aligned m' all (snd sp) /\ everyone_trades m all (snd sp) /\ everyone_trades m' all (snd sp)) splits ->
  select_run order stitched (select_plan all build execs) m c u splits = Some (b, v) ->
  select_run order stitched (select_plan all build execs) m' c u splits = Some (b', v') ->
  reported T b = reported T b'.
Proof.
  intros U R all order stitched build execs n c u m m' T splits b v b' v' WF WF' PA NX PERM OK TF CH AL E E'.
  assert (AL' : forall train w, In (train, w) splits -> aligned m all w /\ aligned m' all w /\ everyone_trades m all w /\ everyone_trades m' all w).
  { rewrite Forall_forall in AL. intros t w I. exact (AL (t, w) I). }
  destruct (splits_until all order stitched (select_plan all build execs) m T WF PERM (fun t y H => proj1 (proj2 (OK m t y (or_introl eq_refl) H))) splits CH
    (fun t w I => proj1 (proj2 (proj2 (AL' t w I)))) _ _ E) as [[x z] [C1 X1]].
  destruct (splits_until all order stitched (select_plan all build execs) m' T WF' PERM (fun t y H => proj1 (proj2 (OK m' t y (or_intror eq_refl) H))) splits CH
    (fun t w I => proj2 (proj2 (proj2 (AL' t w I)))) _ _ E') as [[x' z'] [C2 X2]]. cbn [fst] in X1, X2. rewrite X1, X2.
  pose proof (C72_state_partial U R all order stitched build execs n c u m m' T splits WF WF' PA NX (fun t y => OK m t y (or_introl eq_refl)) TF) as ST.
  unfold select_run_until in ST. rewrite C1, C2 in ST.
  assert (G : Some (visible (x, z)) = Some (visible (x', z'))).
  { apply ST. apply Forall_forall. intros [t w] I. cbn [snd]. destruct (AL' t w I) as (A1 & A2 & _). auto. }
  assert (P : b_port x = b_port x') by (unfold visible in G; cbn [fst snd] in G; congruence). unfold reported. now rewrite P.
Qed.
Print Assumptions C72_reported_partial.

(** ** A selection strategy *)
Definition px (w : view Q) (s : sym) : fnum :=
  match aget s (w_rows w) with
  | Some l => match rev l with r :: _ => Some (snd r) | [] => None end
  | None => None
  end.
Definition pxz (w : view Q) (s : sym) : Q := match px w s with Some q => q | None => 1 end.
(** Hold 10 of whatever is selected. *)
Definition hold (w : view Q) (p : port) (k : pscope) : uout :=
  mkUout [] (fun s => if has_orders k || (match aget s (p_longs p) with Some _ => true | None => false end) then no_signals else set_buy (Some 10) no_signals).
Definition holder (f : trows Q) (ls : list (list sym)) : strategy unit Q :=
  mkStrategy unit Q run_cfg [0; 1]%nat (nodup Nat.eq_dec (filter (fun s => Nat.ltb s 2) (concat ls))) 1 1 false false 0 NoExit (mkSettings None None None)
    (fun w => mkScope (fun _ => true) (fun s _ => pxz w s) (fun s _ => pxz w s))
    (fun w s => option_map (fun q => (q, Some q, Some q)) (px w s)) (fun w s _ => px w s) (fun w s => px w s)
    (fun w s => (pxz w s, pxz w s)) NoSlip (fun _ => None) tt (fun _ w p k _ => hold w p k) (fun u _ _ _ _ => u) None.
(** Select symbol 1 if its last training close is above 100, else symbol 0. *)
Definition last_close (f : trows Q) (s : sym) : Q := match aget s f with Some l => match rev l with r :: _ => snd r | [] => 0 end | None => 0 end.
Definition pick : symbols Q := Selector (fun f => Some [if Qltb 100 (last_close f 1) then 1%nat else 0%nat]).
Lemma holder_ok m train y : select_plan [0; 1]%nat holder [pick] m train = Some y -> strategy_ok y /\ y_all y = [0; 1]%nat /\ (longest_delay y <= 1)%nat /\ y_cfg y = run_cfg.
Proof.
  unfold select_plan. destruct (resolve _ _) as [ls|]; [|discriminate]. cbn [option_map]. intros [= <-]. split; [|cbn; auto]. unfold strategy_ok. cbn [holder y_syms y_all y_buy_delay y_sell_delay].
  split; [apply NoDup_nodup|]. split; [|split; lia]. intros s I. apply nodup_In, filter_In in I. destruct I as [_ I]. apply Nat.ltb_lt in I. destruct s as [|[|s]]; cbn; auto; lia.
Qed.
Definition idle : bstate := fresh run_cfg 0.
Definition outcome (o : option (bstate * unit)) : bstate * unit := match o with Some b => b | None => (idle, tt) end.
Definition mk (l0 l1 : list (Z * Q)) : market Q := fun s => match s with 0%nat => l0 | 1%nat => l1 | _ => [] end.
Ltac asc := intros [|[|?]]; cbn; repeat (split; [repeat (apply Forall_cons; [lia|]); apply Forall_nil|]); try exact I.
(** Two windows: symbol 0 is held in the first and dropped in the second. *)
Definition two_windows : list wsplit := [((1, 2), (3, 4)); ((3, 4), (5, 6))]%Z.

(** ** What a late first bar gives away *)
(** Symbol 0 is dropped for the window of dates 5 and 6, where it trades on date 6
    only. It is sold before the bar of date 5 at the price of date 6
    (strategy.py 2949-2953, 2980-2987): the account's bar of date 5 knows the
    price of date 6. *)
Definition late (q : Q) : market Q :=
  mk [(1%Z, 50); (2%Z, 50); (3%Z, 50); (4%Z, 50); (6%Z, q)] [(1%Z, 90); (2%Z, 90); (3%Z, 110); (4%Z, 110); (5%Z, 110); (6%Z, 110)].
Theorem C72_lookahead_refuted : exists (build : trows Q -> list (list sym) -> strategy unit Q) (execs : list (symbols Q)) (m m' : market Q) (T : Z) (splits : list wsplit) st st',
  (forall k train y, select_plan [0; 1]%nat build execs k train = Some y -> strategy_ok y /\ y_all y = [0; 1]%nat /\ (longest_delay y <= 1)%nat) /\
  well_formed m /\ well_formed m' /\ same_past T m m' /\ same_next_dates 1 T m m' /\ train_first splits /\ chronological (map snd splits) /\
  Forall (fun sp => everyone_trades m [0; 1]%nat (snd sp) /\ everyone_trades m' [0; 1]%nat (snd sp)) splits /\
  select_run (fun l => l) false (select_plan [0; 1]%nat build execs) m run_cfg tt splits = Some st /\
  select_run (fun l => l) false (select_plan [0; 1]%nat build execs) m' run_cfg tt splits = Some st' /\
  map b_cash (filter (fun r => Z.leb (b_date r) T) (p_bars (b_port (fst st)))) <>
  map b_cash (filter (fun r => Z.leb (b_date r) T) (p_bars (b_port (fst st')))).
Proof.
  exists holder, [pick], (late 50), (late 70), 5%Z, two_windows,
    (outcome (select_run (fun l => l) false (select_plan [0; 1]%nat holder [pick]) (late 50) run_cfg tt two_windows)),
    (outcome (select_run (fun l => l) false (select_plan [0; 1]%nat holder [pick]) (late 70) run_cfg tt two_windows)).
  split; [intros k train y E; destruct (holder_ok k train y E) as (A & B & C & _); auto|]. split; [asc|]. split; [asc|]. split; [|split; [|split; [|split; [|split]]]].
  - intros s r L. destruct s as [|[|s]]; cbn; [| |tauto]; split; intro H; repeat (destruct H as [<-|H]; [cbn in L; try lia; tauto|]); destruct H.
  - intros [|[|s]]; vm_compute; reflexivity.
  - repeat (apply Forall_cons; [cbn; lia|]). apply Forall_nil.
  - cbn. split; [apply Forall_cons; [cbn; lia|apply Forall_nil]|split; [apply Forall_nil|exact I]].
  - assert (X : forall q sp, In sp two_windows -> everyone_trades (late q) [0; 1]%nat (snd sp)).
    { intros q sp [<-|[<-|[]]]; cbn [snd]; (split; [|]).
      - exists 3%Z. split; [unfold within; cbn; lia|]. split; [exists 0%nat; split; [now left|]; exists 50; cbn; tauto|]. intros s d _ _ W. unfold within in W. cbn in W. lia.
      - intros [|[|s]] d [r I]; cbn in I; [| |destruct I]; (split; [cbn; tauto|]); exists 3%Z; (split; [|unfold within; cbn; lia]); [exists 50|exists 110]; cbn; tauto.
      - exists 5%Z. split; [unfold within; cbn; lia|]. split; [exists 1%nat; split; [right; now left|]; exists 110; cbn; tauto|]. intros s d _ _ W. unfold within in W. cbn in W. lia.
      - intros [|[|s]] d [r I]; cbn in I; [| |destruct I]; (split; [cbn; tauto|]); exists 6%Z; (split; [|unfold within; cbn; lia]); [exists q|exists 110]; cbn; tauto. }
    apply Forall_forall. intros sp I. auto.
  - split; [vm_compute; reflexivity|]. split; [vm_compute; reflexivity|]. vm_compute. discriminate.
Qed.
Print Assumptions C72_lookahead_refuted.

(** ** Orders that are dated back *)
(** Symbol 0 stops trading after date 4. Whether it is selected for the window of
    dates 7 and 8 is decided from training rows up to date 6, and if it is not, it
    is sold on date 4 (strategy.py 2954-2957, 2988-3002): the orders reported up
    to date 5 depend on the row of date 6. All symbols that trade in a window
    trade on its first date. *)
Definition gone (q : Q) : market Q :=
  mk [(1%Z, 50); (2%Z, 50); (3%Z, 50); (4%Z, 50)] [(1%Z, 90); (2%Z, 90); (3%Z, 90); (4%Z, 90); (5%Z, 90); (6%Z, q); (7%Z, 90); (8%Z, 90)].
Definition gap_windows : list wsplit := [((1, 2), (3, 4)); ((3, 6), (7, 8))]%Z.
Theorem C72_backdated_refuted : exists (build : trows Q -> list (list sym) -> strategy unit Q) (execs : list (symbols Q)) (m m' : market Q) (T : Z) (splits : list wsplit) st st',
  (forall k train y, select_plan [0; 1]%nat build execs k train = Some y -> strategy_ok y /\ y_all y = [0; 1]%nat /\ (longest_delay y <= 1)%nat) /\
  well_formed m /\ well_formed m' /\ same_past T m m' /\ same_next_dates 1 T m m' /\ train_first splits /\ chronological (map snd splits) /\
  Forall (fun sp => aligned m [0; 1]%nat (snd sp) /\ aligned m' [0; 1]%nat (snd sp)) splits /\
  select_run (fun l => l) false (select_plan [0; 1]%nat build execs) m run_cfg tt splits = Some st /\
  select_run (fun l => l) false (select_plan [0; 1]%nat build execs) m' run_cfg tt splits = Some st' /\
  map o_side (fst (fst (reported T (fst st)))) = [OBuy; OSell] /\ map o_side (fst (fst (reported T (fst st')))) = [OBuy].
Proof.
  exists holder, [pick], (gone 200), (gone 90), 5%Z, gap_windows,
    (outcome (select_run (fun l => l) false (select_plan [0; 1]%nat holder [pick]) (gone 200) run_cfg tt gap_windows)),
    (outcome (select_run (fun l => l) false (select_plan [0; 1]%nat holder [pick]) (gone 90) run_cfg tt gap_windows)).
  split; [intros k train y E; destruct (holder_ok k train y E) as (A & B & C & _); auto|]. split; [asc|]. split; [asc|]. split; [|split; [|split; [|split; [|split]]]].
  - intros s r L. destruct s as [|[|s]]; cbn; [tauto| |tauto]; split; intro H; repeat (destruct H as [<-|H]; [cbn in L; try lia; tauto|]); destruct H.
  - intros [|[|s]]; vm_compute; reflexivity.
  - repeat (apply Forall_cons; [cbn; lia|]). apply Forall_nil.
  - cbn. split; [apply Forall_cons; [cbn; lia|apply Forall_nil]|split; [apply Forall_nil|exact I]].
  - assert (X : forall q sp, In sp gap_windows -> aligned (gone q) [0; 1]%nat (snd sp)).
    { intros q sp [<-|[<-|[]]] s d d0 RO W F; cbn [snd] in *.
      - assert (d0 = 3%Z) as ->.
        { destruct F as (W0 & _ & F). assert (d0 <= 3)%Z; [apply (F 0%nat 3%Z); [now left|exists 50; cbn; tauto|unfold within; cbn; lia]|]. unfold within in W0. cbn in W0. lia. }
        destruct s as [|[|s]]; [exists 50; cbn; tauto|exists 90; cbn; tauto|destruct RO as [r []]].
      - assert (d0 = 7%Z) as ->.
        { destruct F as (W0 & _ & F). assert (d0 <= 7)%Z; [apply (F 1%nat 7%Z); [right; now left|exists 90; cbn; tauto|unfold within; cbn; lia]|]. unfold within in W0. cbn in W0. lia. }
        destruct s as [|[|s]]; [|exists 90; cbn; tauto|destruct RO as [r []]].
        destruct RO as [r I]. cbn in I. unfold within in W. cbn in W. repeat (destruct I as [I|I]; [injection I as <- _; lia|]). destruct I. }
    apply Forall_forall. intros sp I. auto.
  - split; [vm_compute; reflexivity|]. split; [vm_compute; reflexivity|]. split; vm_compute; reflexivity.
Qed.
Print Assumptions C72_backdated_refuted.

(** ** The hypotheses are met *)
(** Both symbols trade every day; 0 is bought in the first window and sold on the
    first bar of the second, where 1 is bought. The two markets differ on date 6. *)
Definition daily (q : Q) : market Q :=
  mk [(1%Z, 50); (2%Z, 50); (3%Z, 50); (4%Z, 50); (5%Z, 60); (6%Z, q)] [(1%Z, 90); (2%Z, 90); (3%Z, 110); (4%Z, 110); (5%Z, 110); (6%Z, q)].
Example ex_C72 :
  well_formed (daily 70) /\ well_formed (daily 30) /\ same_past 5 (daily 70) (daily 30) /\ same_next_dates 1 5 (daily 70) (daily 30) /\
  (forall l : list sym, Permutation l (rev l)) /\ train_first two_windows /\ chronological (map snd two_windows) /\
  Forall (fun sp => aligned (daily 70) [0; 1]%nat (snd sp) /\ aligned (daily 30) [0; 1]%nat (snd sp) /\ everyone_trades (daily 70) [0; 1]%nat (snd sp) /\ everyone_trades (daily 30) [0; 1]%nat (snd sp)) two_windows /\
  exists st st', select_run (@rev sym) false (select_plan [0; 1]%nat holder [pick]) (daily 70) run_cfg tt two_windows = Some st /\
    select_run (@rev sym) false (select_plan [0; 1]%nat holder [pick]) (daily 30) run_cfg tt two_windows = Some st' /\
    map (fun o => (o_date o, o_sym o, o_side o, o_fill o)) (p_orders (b_port (fst st))) = [(4%Z, 0%nat, OBuy, 50); (5%Z, 0%nat, OSell, 60); (6%Z, 1%nat, OBuy, 70)] /\
    map (fun o => (o_date o, o_sym o, o_side o, o_fill o)) (p_orders (b_port (fst st'))) = [(4%Z, 0%nat, OBuy, 50); (5%Z, 0%nat, OSell, 60); (6%Z, 1%nat, OBuy, 30)].
Proof.
  split; [asc|]. split; [asc|]. split; [|split; [|split; [|split; [|split; [|split]]]]].
  - intros s r L. destruct s as [|[|s]]; cbn; [| |tauto]; split; intro H; repeat (destruct H as [<-|H]; [cbn in L; try lia; tauto|]); destruct H.
  - intros [|[|s]]; vm_compute; reflexivity.
  - intro l. apply Permutation_rev.
  - repeat (apply Forall_cons; [cbn; lia|]). apply Forall_nil.
  - cbn. split; [apply Forall_cons; [cbn; lia|apply Forall_nil]|split; [apply Forall_nil|exact I]].
  - assert (X : forall q sp, In sp two_windows -> aligned (daily q) [0; 1]%nat (snd sp) /\ everyone_trades (daily q) [0; 1]%nat (snd sp)).
    { intros q sp H. assert (B : forall s d, row_on (daily q) s d -> In s [0; 1]%nat /\ row_on (daily q) s (fst (snd sp))).
      { intros [|[|s]] d [r I]; [split; [now left|]|split; [right; now left|]|destruct I]; destruct H as [<-|[<-|[]]]; cbn [fst snd]; unfold row_on; cbn; eauto 12. }
      assert (W1 : within (snd sp) (fst (snd sp))) by (destruct H as [<-|[<-|[]]]; unfold within; cbn; lia).
      assert (R0 : row_on (daily q) 0 (fst (snd sp))) by (apply (B 0%nat 1%Z); exists 50; now left).
      assert (F : forall d0, first_date (daily q) [0; 1]%nat (snd sp) d0 <-> d0 = fst (snd sp)).
      { intro d0. split.
        - intros (W & _ & F). specialize (F 0%nat (fst (snd sp)) (or_introl eq_refl) R0 W1). unfold within in W. lia.
        - intros ->. split; auto. split; [exists 0%nat; split; [now left|auto]|]. intros s d _ _ W. unfold within in W. lia. }
      split.
      - intros s d d0 RO W FD. apply F in FD. subst d0. now apply (B s d).
      - split; [exists (fst (snd sp)); now apply F|]. intros s d RO. destruct (B s d RO) as [I J]. split; auto. exists (fst (snd sp)). auto. }
    apply Forall_forall. intros sp I. destruct (X 70 sp I), (X 30 sp I). auto.
  - exists (outcome (select_run (@rev sym) false (select_plan [0; 1]%nat holder [pick]) (daily 70) run_cfg tt two_windows)),
      (outcome (select_run (@rev sym) false (select_plan [0; 1]%nat holder [pick]) (daily 30) run_cfg tt two_windows)).
    split; [vm_compute; reflexivity|]. split; [vm_compute; reflexivity|]. split; vm_compute; reflexivity.
Qed.
(** A selector picking a symbol without rows, or one another execution has, raises. *)
Example ex_C72_resolve :
  resolve [(0%nat, [(1%Z, 5)]); (1%nat, [])] [Fixed [3]%nat; Selector (fun f => Some [0]%nat)] = Some [[3]; [0]]%nat /\
  resolve [(0%nat, [(1%Z, 5)]); (1%nat, [])] [Fixed [3]%nat; Selector (fun f => Some [1]%nat)] = None /\
  resolve [(0%nat, [(1%Z, 5)]); (1%nat, [])] [Fixed [0]%nat; Selector (fun f => Some [0]%nat)] = None.
Proof. repeat split. Qed.
