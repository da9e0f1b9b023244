(** C71: what a backtest does and reports up to a date does not depend on later
    data. *)
From Verif Require Import MarketLogs LoopDemo.

(** ** The property *)
(** Two markets with the same rows up to [T] lead to the same reported past:
    same orders, same closed trades, same account bars up to [T], for every
    strategy, list of windows and later data. Partial: the dates (not the rows)
    of each symbol's next bars after [T], as many as the longest configured
    delay, must be the same too; [C71_calendar_refuted] shows that this
    cannot be dropped. *)
Theorem C71_reported_partial : forall (U R : Type) (y : strategy U R) (m m' : market R) (T : Z) (ws : list window) b u b' u',
  strategy_ok y -> well_formed m -> well_formed m' -> chronological ws ->
  same_past T m m' -> same_next_dates (longest_delay y) T m m' ->
  market_run y m ws = Some (b, u) -> market_run y m' ws = Some (b', u') ->
  reported T b = reported T b'.
Proof.
  intros U R y m m' T ws b u b' u' YO WF WF' CH PA NX E E'.
  destruct (run_until y m T ws _ _ CH E) as [[c z] [C1 X1]]. destruct (run_until y m' T ws _ _ CH E') as [[c' z'] [C1' X2]]. cbn [fst] in X1, X2. rewrite X1, X2.
  pose proof (until_same y m m' T YO WF WF' PA NX ws _ _ (y_init y) (eq_refl (strip (fresh (y_cfg y) 0)))) as UN.
  rewrite C1, C1' in UN. cbn in UN. injection UN as ? ? ? ? ? ? ? ? ? ? ?. unfold reported. congruence.
Qed.
Print Assumptions C71_reported_partial.

(** The same for the state after the last bar not later than [T] - the account,
    the pending orders, the contexts, the stop ids handed out - and for raising:
    one run raises by then if and only if the other does. No order of the windows
    is needed. *)
Theorem C71_state_partial : forall (U R : Type) (y : strategy U R) (m m' : market R) (T : Z) (ws : list window),
  strategy_ok y -> well_formed m -> well_formed m' ->
  same_past T m m' -> same_next_dates (longest_delay y) T m m' ->
  option_map visible (market_run_until y m T ws) = option_map visible (market_run_until y m' T ws).
Proof.
  intros U R y m m' T ws YO WF WF' PA NX.
  pose proof (until_same y m m' T YO WF WF' PA NX ws _ _ (y_init y) (eq_refl (strip (fresh (y_cfg y) 0)))) as UN.
  unfold market_run_until. destruct (muntil y m T ws _) as [[c z]|], (muntil y m' T ws _) as [[c' z']|]; cbn in *; try discriminate; auto.
  injection UN as ? ? ? ? ? ? ? ? ? ? ?. unfold visible. cbn [fst snd]. congruence.
Qed.
Print Assumptions C71_state_partial.

(** The stopped run is the beginning of the whole run: a completed run reports of
    the past what the account held at [T]. *)
Theorem C71_prefix : forall (U R : Type) (y : strategy U R) (m : market R) (T : Z) (ws : list window) b u,
  chronological ws -> market_run y m ws = Some (b, u) ->
  exists c z, market_run_until y m T ws = Some (c, z) /\ reported T b = reported T c.
Proof. intros U R y m T ws b u CH E. destruct (run_until y m T ws _ _ CH E) as [[c z] [C1 C2]]. exists c, z. auto. Qed.
Print Assumptions C71_prefix.

(** The bar loop with user functions that remember is, window by window, the bar
    loop of LoopModel.v on this market's calendar for some functions of the bar
    number; the theorems about [backtests] therefore hold of these runs. *)
Theorem C71_memory : forall (U R : Type) (y : strategy U R) (m : market R) (ws : list window) b u,
  strategy_ok y -> well_formed m -> market_run y m ws = Some (b, u) ->
  exists vs : list env,
    Forall env_ok vs /\ Forall2 (fun v w => v_dates v = all_dates y m w /\ v_syms v = y_syms y /\ v_sdates v = window_dates m w) vs ws /\
    backtests vs (fresh (y_cfg y) 0) = Some b.
Proof.
  intros U R y m ws b u YO WF E. destruct (mwindows_backtests y m ws _ _ _ E) as [l [L B]].
  exists (map (fun x => env_of y m (fst x) (snd x)) l). split; [|split; [|exact B]].
  - apply Forall_forall. intros v I. apply in_map_iff in I. destruct I as [x [<- _]]. now apply env_of_ok.
  - rewrite <- L. clear L B. induction l as [|x l IH]; constructor; auto.
Qed.
Print Assumptions C71_memory.

(** What the user's functions remember is handed from bar to bar through all the
    windows: a memory that is updated from the bar's view alone ends as the fold
    of its updates over the bars in order. *)
Theorem C71_sessions : forall (U R : Type) (y : strategy U R) (m : market R) (ws : list window) (g : U -> view R -> U) b u,
  (forall u w p k x, y_next y u w p k x = g u w) -> market_run y m ws = Some (b, u) ->
  u = fold_left g (bars_in_order y m ws) (y_init y).
Proof. intros U R y m ws g b u NX E. exact (mwindows_memory y m g NX ws _ _ E). Qed.
Print Assumptions C71_sessions.

(** ** A strategy on closing prices *)
Definition px (w : view Q) (s : sym) : fnum :=
  match aget s (w_rows w) with
  | Some l => match rev l with r :: _ => Some (snd r) | [] => None end
  | None => None
  end.
Definition pxz (w : view Q) (s : sym) : Q := match px w s with Some q => q | None => 1 end.
(** Date 1: buy 10 of symbol 0 and 5 of symbol 1. Date 2: buy 7 of symbol 1 if
    no order is pending and it closed above the close remembered from the bar
    before. *)
Definition demo_user (u : Q) (w : view Q) (p : port) (k : pscope) (x : ctxs) : uout :=
  mkUout [] (fun s =>
    match w_date w, s with
    | 1%Z, 0%nat => set_buy (Some 10) no_signals
    | 1%Z, _ => set_buy (Some 5) no_signals
    | 2%Z, 1%nat => if has_orders k || negb (Qltb u (pxz w 1)) then no_signals else set_buy (Some 7) no_signals
    | _, _ => no_signals
    end).
Definition demo : strategy Q Q :=
  mkStrategy Q Q run_cfg [0; 1]%nat [0; 1]%nat 1 1 false false 0 NoExit (mkSettings None None None)
    (fun w => mkScope (fun _ => true) (fun s _ => pxz w s) (fun s _ => pxz w s))
    (fun w s => option_map (fun q => (q, Some q, Some q)) (px w s)) (fun w s _ => px w s) (fun w s => px w s)
    (fun w s => (pxz w s, pxz w s)) NoSlip (fun _ => None) 0 demo_user (fun _ w _ _ _ => pxz w 1) None.
(** Symbol 0 trades on date 1 and perhaps once more; symbol 1 every day. *)
Definition two (l0 later : list (Z * Q)) : market Q :=
  fun s => match s with 0%nat => (1%Z, 100) :: l0 | 1%nat => [(1%Z, 50); (2%Z, 51); (3%Z, 52)] ++ later | _ => [] end.
Definition idle : bstate := fresh run_cfg 0.
Definition outcome (o : option (bstate * Q)) : bstate * Q := match o with Some b => b | None => (idle, 0) end.

(** ** What the calendar gives away *)
(** Whether an order is entered at all depends on whether its symbol has a later
    bar (strategy.py 1084-1118), and the pending orders are visible to the
    user's functions: two markets with the same rows up to date 3, the same
    strategy, and different orders by date 3. In one of them symbol 0 has a bar
    on date 9. *)
Theorem C71_calendar_refuted : exists (y : strategy Q Q) (m m' : market Q) (T : Z) (ws : list window) b b',
  strategy_ok y /\ well_formed m /\ well_formed m' /\ chronological ws /\ same_past T m m' /\
  market_run y m ws = Some b /\ market_run y m' ws = Some b' /\ reported T (fst b) <> reported T (fst b').
Proof.
  exists demo, (two [] [(4%Z, 53)]), (two [(9%Z, 100)] [(4%Z, 53)]), 3%Z, [(0%Z, 10%Z)],
    (outcome (market_run demo (two [] [(4%Z, 53)]) [(0%Z, 10%Z)])), (outcome (market_run demo (two [(9%Z, 100)] [(4%Z, 53)]) [(0%Z, 10%Z)])).
  split; [split; [apply NoDup_cons; [intros [H|[]]; discriminate|apply NoDup_cons; [intros []|constructor]]|split; [apply incl_refl|cbn; lia]]|].
  assert (W : forall l0, ascending (1%Z :: map fst l0) -> well_formed (two l0 [(4%Z, 53)])).
  { intros l0 A s. destruct s as [|[|s]]; cbn; auto. repeat (split; [repeat (apply Forall_cons; [lia|]); apply Forall_nil|]); try exact I. }
  split; [apply W; cbn; split; [apply Forall_nil|exact I]|]. split; [apply W; cbn; split; [apply Forall_cons; [lia|apply Forall_nil]|split; [apply Forall_nil|exact I]]|].
  split; [cbn; split; [apply Forall_nil|exact I]|]. split.
  - intros s r L. destruct s as [|s]; cbn; [|tauto]. split; [intros [<-|[]]; auto|]. intros [<-|[<-|[]]]; try (cbn in L; lia); auto.
  - split; [vm_compute; reflexivity|]. split; [vm_compute; reflexivity|]. vm_compute. discriminate.
Qed.
Print Assumptions C71_calendar_refuted.

(** ** The hypotheses are met by runs that differ later *)
Definition calm : market Q := two [(9%Z, 100)] [(4%Z, 53); (5%Z, 54)].
Definition wild : market Q := two [(9%Z, 777)] [(4%Z, 10); (7%Z, 11)].
Example ex_C71 :
  strategy_ok demo /\ well_formed calm /\ well_formed wild /\ chronological [(0%Z, 2%Z); (3%Z, 20%Z)] /\
  same_past 3 calm wild /\ same_next_dates (longest_delay demo) 3 calm wild /\
  (exists b b', market_run demo calm [(0%Z, 2%Z); (3%Z, 20%Z)] = Some b /\ market_run demo wild [(0%Z, 2%Z); (3%Z, 20%Z)] = Some b' /\
     map o_fill (p_orders (b_port (fst b))) = [51; 100] /\ map o_fill (p_orders (b_port (fst b'))) = [51; 777] /\
     map o_fill (fst (fst (reported 3 (fst b)))) = [51] /\ length (snd (reported 3 (fst b))) = 3%nat).
Proof.
  split; [split; [apply NoDup_cons; [intros [H|[]]; discriminate|apply NoDup_cons; [intros []|constructor]]|split; [apply incl_refl|cbn; lia]]|].
  assert (W : forall q a b x y, (4 < x)%Z -> well_formed (two [(9%Z, q)] [(4%Z, a); (x, b : Q)]) /\ y = y :> Z).
  { intros q a b x y L. split; auto. intro s. destruct s as [|[|s]]; cbn; auto; repeat (split; [repeat (apply Forall_cons; [lia|]); apply Forall_nil|]); try exact I. }
  split; [apply (W 100 53 54 5%Z 0%Z); lia|]. split; [apply (W 777 10 11 7%Z 0%Z); lia|]. split; [cbn; split; [apply Forall_cons; [cbn; lia|apply Forall_nil]|split; [apply Forall_nil|exact I]]|]. split.
  - intros s r L. destruct s as [|[|s]]; cbn; [| |tauto]; split; intro H; repeat (destruct H as [<-|H]; [cbn in L; try lia; tauto|]); destruct H.
  - split; [intros [|[|s]]; vm_compute; reflexivity|].
    exists (outcome (market_run demo calm [(0%Z, 2%Z); (3%Z, 20%Z)])), (outcome (market_run demo wild [(0%Z, 2%Z); (3%Z, 20%Z)])).
    repeat (split; [vm_compute; reflexivity|]). vm_compute. reflexivity.
Qed.
(** The demo remembers the close of symbol 1, and [C71_sessions] applies to it. *)
Example ex_C71_sessions : (forall u w p k x, y_next demo u w p k x = pxz w 1) /\
  exists b, market_run demo calm [(0%Z, 2%Z); (3%Z, 20%Z)] = Some (b, 54) /\ length (bars_in_order demo calm [(0%Z, 2%Z); (3%Z, 20%Z)]) = 6%nat.
Proof.
  split; [reflexivity|]. exists (fst (outcome (market_run demo calm [(0%Z, 2%Z); (3%Z, 20%Z)]))). split; vm_compute; reflexivity.
Qed.
