(** C73: hyperparameters optimized window by window. *)
From Verif Require HyperModel HyperSpec PropHyper.
From Verif Require Import OptWalkProofs LoopDemo LoopRun MarketLogs.

(** ** What an optimization returns *)
(** For every number of workers and order in which they take the windows: when the
    optimization of [splits] returns [q], every window has been studied on its own
    training rows, the windows have been replayed on their test rows one after the
    other, each with the symbols and values of its own study, from one account that
    has at first the limits of the first window, and the reported values and score
    are those of the last window. *)
Theorem C73_result : forall (U R : Type) (all : list sym) (order : list sym -> list sym) (execs : list (symbols R)) (base : cfg) (u : U)
    (build : trows R -> list (list sym) -> values -> option (strategy U R)) (score_fn : values -> trows R -> port -> HyperModel.res HyperModel.score)
    (search : window -> (values -> HyperModel.res HyperModel.score) -> HyperModel.res (list HyperModel.trial * (values * HyperModel.score)))
    (m : market R) (sched : list nat) (splits : list wsplit) (q : oresult U),
  everyone_studied (length splits) sched ->
  optimize_windows all order execs base u build score_fn search m sched splits = ok q ->
  exists train w rest first others y c,
    splits = (train, w) :: rest /\ q_windows q = first :: others /\
    Forall2 (fun sp r => studied all execs base u build score_fn search m (fst sp) r) splits (q_windows q) /\
    build (training_rows all train m) (ws_syms first) (ws_params first) = Some y /\ limits_of (y_settings y) base c /\
    replayed all order c u build m splits (q_windows q) (fresh c 0, u) (q_run q) /\
    exists before r, q_windows q = before ++ [r] /\ q_params q = ws_params r /\ q_score q = ws_score r.
Proof.
  intros U R all order execs base u build score_fn search m sched splits q C E. apply optimize_iff in E; auto.
  destruct E as (train & w & rest & r0 & others & c & S & Q & F & RC & W & P & SC). unfold replay_cfg in RC.
  destruct (build _ (ws_syms r0) (ws_params r0)) as [y|] eqn:B; [|discriminate]. cbn [option_map] in RC. injection RC as <-. exists train, w, rest, r0, others, y, (capped base (y_settings y)).
  split; auto. split; auto. split.
  - eapply Forall2_weaken; [|exact F]. intros [t x] r. cbn [fst]. intro H. apply study_iff in H. destruct H as [H1 H2]. split; [exact H1|].
    exists (objective all base u build score_fn m t (ws_syms r)). split; [|exact H2]. intros p s. apply objective_iff.
  - split; [exact B|]. split; [apply capped_limits|]. split.
    + clear -F W. unfold select_run in W. revert W. generalize (fresh (capped base (y_settings y)) 0, u) as st. generalize (capped base (y_settings y)) as c. intros c. induction F as [|[t x] r splits rs E F IH]; intros st W; cbn [windows_run] in W.
      * injection W as W. rewrite <- W. constructor.
      * cbn [fst] in E. unfold study_plan in W at 1. rewrite E in W. unfold replay in W at 1. destruct (build _ (ws_syms r) (ws_params r)) as [z|] eqn:B; [|discriminate]. cbn [option_map] in W.
        destruct (one_window order true m None _ x st) as [st1|] eqn:O; [|discriminate]. eapply replayed_one; [exact B|apply as_run_trades|exact O|]. now apply IH.
    + exists (removelast (q_windows q)), (last (q_windows q) r0). split; auto. rewrite Q. apply app_removelast_last. discriminate.
Qed.
Print Assumptions C73_result.
(** The schedule of the workers changes nothing. *)
Theorem C73_workers : forall (U R : Type) (all : list sym) (order : list sym -> list sym) (execs : list (symbols R)) (base : cfg) (u : U)
    (build : trows R -> list (list sym) -> values -> option (strategy U R)) (score_fn : values -> trows R -> port -> HyperModel.res HyperModel.score)
    (search : window -> (values -> HyperModel.res HyperModel.score) -> HyperModel.res (list HyperModel.trial * (values * HyperModel.score)))
    (m : market R) (sched sched' : list nat) (splits : list wsplit) (q : oresult U),
  everyone_studied (length splits) sched -> everyone_studied (length splits) sched' ->
  (optimize_windows all order execs base u build score_fn search m sched splits = ok q <-> optimize_windows all order execs base u build score_fn search m sched' splits = ok q).
Proof. intros. rewrite !optimize_iff by assumption. reflexivity. Qed.
Print Assumptions C73_workers.

(** ** Position limits *)
(** Throughout a window - after it ([T] is [None]) and after its last bar up to any
    date [T] - the limits in force are those of the window's own values, and no
    more positions are open than they allow or than were open before the window. *)
Theorem C73_limits : forall (U R : Type) (all : list sym) (order : list sym -> list sym) (c : cfg) (u : U)
    (build : trows R -> list (list sym) -> values -> option (strategy U R)) (m : market R) (before : list wsplit) (rs : list wresult) (st : bstate * U)
    (y z : strategy U R) (w : window) (T : option Z) (st' : bstate * U) (sd : side) (k : nat),
  cfg_ok c -> (forall l, Permutation l (order l)) -> replayed all order c u build m before rs (fresh c 0, u) st ->
  trades_as y c u LastOfData z -> one_window order true m T z w st = Some st' -> limit (y_settings y) sd = Some k ->
  max_positions (b_port (fst st')) sd = Some k /\ (n_positions (b_port (fst st')) sd <= Nat.max k (n_positions (b_port (fst st)) sd))%nat.
Proof.
  intros U R all order c u build m before rs st y z w T st' sd k CO PERM RP TR O LM.
  assert (RF : refined c (fst st)).
  { assert (X : forall l l' a a', replayed all order c u build m l l' a a' -> refined c (fst a) -> refined c (fst a')).
    { clear -CO PERM. induction 1 as [st|train w splits r rs y z [b v] st1 st' B TR O RP IH]; auto. intro RF. apply IH. apply trades_unique in TR. eapply (window_refined c CO order PERM true m z w b v); eauto. now subst z. }
    apply (X _ _ _ _ RP). apply refined_fresh. }
  destruct st as [b v]. cbn [fst] in *. assert (YC : y_cfg z = c) by apply TR. assert (LM' : limit (y_settings z) sd = Some k) by (apply trades_unique in TR; now subst z).
  pose proof (window_limit c CO order PERM m sd k z w T b v st' YC LM' RF O) as [_ H]. exact H.
Qed.
Print Assumptions C73_limits.

(** ** Later data *)
(** The symbols, the trials, the values and the score found by a window's study do
    not depend on rows after the training window. Partial: as in C71 the dates of
    the next bars must agree; [C73_calendar_refuted] shows why. *)
Theorem C73_study_partial : forall (U R : Type) (all : list sym) (execs : list (symbols R)) (base : cfg) (u : U)
    (build : trows R -> list (list sym) -> values -> option (strategy U R)) (score_fn : values -> trows R -> port -> HyperModel.res HyperModel.score)
    (search : window -> (values -> HyperModel.res HyperModel.score) -> HyperModel.res (list HyperModel.trial * (values * HyperModel.score)))
    (n : nat) (m m' : market R) (T : Z) (train : window),
  extensional search -> well_formed m -> well_formed m' -> same_past T m m' -> same_next_dates n T m m' ->
  (forall f ls p y, build f ls p = Some y -> strategy_ok y /\ y_all y = all /\ (longest_delay y <= n)%nat) ->
  (snd train <= T)%Z ->
  window_study all execs base u build score_fn search m train = window_study all execs base u build score_fn search m' train.
Proof. intros U R all execs base u build score_fn search n m m' T train EXT WF WF' PA NX OK L. eapply (study_same all execs); eauto. Qed.
Print Assumptions C73_study_partial.
(** One window: the study and what the test run reports up to [T]. *)
Theorem C73_once_partial : forall (U R : Type) (all : list sym) (execs : list (symbols R)) (base : cfg) (u : U)
    (build : trows R -> list (list sym) -> values -> option (strategy U R)) (score_fn : values -> trows R -> port -> HyperModel.res HyperModel.score)
    (search : window -> (values -> HyperModel.res HyperModel.score) -> HyperModel.res (list HyperModel.trial * (values * HyperModel.score)))
    (n : nat) (m m' : market R) (T : Z) (train test : window) r st r' st',
  extensional search -> well_formed m -> well_formed m' -> same_past T m m' -> same_next_dates n T m m' ->
  (forall f ls p y, build f ls p = Some y -> strategy_ok y /\ y_all y = all /\ (longest_delay y <= n)%nat) ->
  (snd train <= T)%Z ->
  optimize_once all execs base u build score_fn search m train test = ok (r, st) ->
  optimize_once all execs base u build score_fn search m' train test = ok (r', st') ->
  r = r' /\ reported T (fst st) = reported T (fst st').
Proof.
  intros U R all execs base u build score_fn search n m m' T train test r st r' st' EXT WF WF' PA NX OK L. unfold optimize_once.
  rewrite <- (study_same all execs base u build score_fn search EXT n m m' T WF WF' PA NX OK train L), <- (frame_past all m m' T WF WF' PA train L).
  destruct (window_study all execs base u build score_fn search m train) as [x|]; cbn [HyperModel.bind]; [|discriminate]. destruct (build _ _ _) as [y|] eqn:B; [|discriminate].
  destruct (OK _ _ _ _ B) as (YO & _ & LD). unfold alone. set (z := as_run u (capped base (y_settings y)) LastOfWindow y).
  destruct (market_run z m [test]) as [[b v]|] eqn:E; [|discriminate]. destruct (market_run z m' [test]) as [[b' v']|] eqn:E'; [|discriminate]. intros [= <- <-] [= <- <-]. split; auto. cbn [fst].
  assert (CH : chronological [test]) by (split; [apply Forall_nil|exact I]).
  destruct (run_until z m T [test] _ _ CH E) as [[c1 z1] [C1 X1]]. destruct (run_until z m' T [test] _ _ CH E') as [[c2 z2] [C2 X2]]. cbn [fst] in X1, X2. rewrite X1, X2.
  pose proof (until_same z m m' T YO WF WF' PA (next_fewer _ n T m m' LD NX) [test] _ _ (y_init z) (eq_refl (strip (fresh (y_cfg z) 0)))) as UN.
  rewrite C1, C2 in UN. cbn in UN. injection UN as ? ? ? ? ? ? ? ? ? ? ?. unfold reported. congruence.
Qed.
Print Assumptions C73_once_partial.
(** Many windows: the results of the windows whose training is over by [T], and
    what the stitched run reports up to [T]. Partial: as in C72 the markets must
    be aligned at the beginnings of the test windows and trade in each of them. *)
Theorem C73_reported_partial : forall (U R : Type) (all : list sym) (order : list sym -> list sym) (execs : list (symbols R)) (base : cfg) (u : U)
    (build : trows R -> list (list sym) -> values -> option (strategy U R)) (score_fn : values -> trows R -> port -> HyperModel.res HyperModel.score)
    (search : window -> (values -> HyperModel.res HyperModel.score) -> HyperModel.res (list HyperModel.trial * (values * HyperModel.score)))
    (n : nat) (m m' : market R) (T : Z) (sched : list nat) (splits : list wsplit) q q',
  extensional search -> well_formed m -> well_formed m' -> same_past T m m' -> same_next_dates n T m m' -> (forall l, Permutation l (order l)) ->
  (forall f ls p y, build f ls p = Some y -> strategy_ok y /\ y_all y = all /\ (longest_delay y <= n)%nat) ->
  everyone_studied (length splits) sched -> train_first splits -> chronological (map snd splits) ->
  Forall (fun sp => aligned m all (snd sp) /\ aligned m' all (snd sp) /\ everyone_trades m all (snd sp) /\ everyone_trades m' all (snd sp)) splits ->
  optimize_windows all order execs base u build score_fn search m sched splits = ok q ->
  optimize_windows all order execs base u build score_fn search m' sched splits = ok q' ->
  reported T (fst (q_run q)) = reported T (fst (q_run q')) /\
  forall i train w r r', nth_error splits i = Some (train, w) -> (snd train <= T)%Z -> nth_error (q_windows q) i = Some r -> nth_error (q_windows q') i = Some r' -> r = r'.
Proof.
  intros U R all order execs base u build score_fn search n m m' T sched splits q q' EXT WF WF' PA NX PERM OK ST TF CH AL E E'.
  apply optimize_iff in E; auto. apply optimize_iff in E'; auto.
  destruct E as (train & w & rest & r0 & others & c & S & Q & F & RC & W & _). destruct E' as (train' & w' & rest' & r0' & others' & c' & S' & Q' & F' & RC' & W' & _).
  pose proof (study_same all execs base u build score_fn search EXT n m m' T WF WF' PA NX OK) as SS. split.
  2:{ intros i t x r r' N L NR NR'. clear -F F' SS N L NR NR'. revert i N NR NR'. generalize dependent (q_windows q'). induction F as [|sp a l l1 E F IH]; intros l2 F2 i N NR NR'; [destruct i; discriminate|].
      inversion F2 as [|? b ? l3 E2 F3]; subst. destruct i as [|i]; cbn [nth_error] in *; [|eapply IH; eauto]. assert (sp = (t, x)) by congruence. subst sp. cbn [fst] in E, E2. rewrite <- (SS t L) in E2. congruence. }
  assert (AL' : forall t x, In (t, x) splits -> aligned m all x /\ aligned m' all x /\ everyone_trades m all x /\ everyone_trades m' all x).
  { rewrite Forall_forall in AL. intros t x I. exact (AL (t, x) I). }
  pose proof (plan_ok all order execs base u build score_fn search n OK) as PO.
  set (plan := study_plan all execs base u build score_fn search) in *.
  destruct (splits_until all order true (plan c) m T WF PERM (fun t y H => proj1 (proj2 (PO c m t y H))) splits CH (fun t x I => proj1 (proj2 (proj2 (AL' t x I)))) _ _ W) as [[x z] [C1 X1]].
  destruct (splits_until all order true (plan c') m' T WF' PERM (fun t y H => proj1 (proj2 (PO c' m' t y H))) splits CH (fun t x I => proj2 (proj2 (proj2 (AL' t x I)))) _ _ W') as [[x' z'] [C2 X2]].
  rewrite X1, X2. cbn [fst]. assert (train' = train /\ r0 :: others = q_windows q /\ r0' :: others' = q_windows q') as (-> & _) by (split; [congruence|auto]).
  destruct (Z.leb_spec (snd train) T) as [L|L].
  - assert (c' = c) as ->.
    { assert (r0' = r0) as ->. { rewrite S, Q in F. rewrite S, Q' in F'. inversion F as [|? ? ? ? G1 _]; subst. inversion F' as [|? ? ? ? G2 _]; subst. cbn [fst] in G1, G2. rewrite <- (SS train L) in G2. congruence. }
      unfold replay_cfg in RC, RC'. rewrite <- (frame_past all m m' T WF WF' PA train L) in RC'. congruence. }
    pose proof (strip2_inv _ _ (plans_same all order true (plan c) n m m' T WF WF' PA NX (fun t y H => let '(conj a (conj b (conj d _))) := PO c m t y H in conj a (conj b d)) splits TF
      (fun t w I L => plan_same all execs base u build score_fn search EXT n m m' T WF WF' PA NX OK c t (Z.lt_le_incl _ _ L))
      (fun t w I => let '(conj a (conj b _)) := AL' t w I in conj a b) (fresh c 0) (fresh c 0) u eq_refl)) as X.
    rewrite C1, C2 in X. destruct X as [X _]. destruct (strip_fields _ _ X) as (P1 & _). unfold reported. now rewrite P1.
  - assert (LT : Forall (fun sp => (T < fst (snd sp))%Z) splits).
    { rewrite S in TF, CH |- *. apply Forall_cons_iff in TF. destruct TF as [TF _]. cbn [map snd chronological fst] in CH, TF. destruct CH as [CH _]. apply Forall_cons; [cbn; lia|].
      assert (WW : (fst w <= snd w)%Z). { destruct (AL' train w) as (_ & _ & [[d0 (W0 & _)] _] & _); [rewrite S; now left|]. unfold within in W0. lia. }
      apply Forall_forall. intros sp I. rewrite Forall_forall in CH. specialize (CH (snd sp) (in_map snd _ _ I)). cbn beta in CH |- *. unfold window in *. lia. }
    rewrite (until_later all order true (plan c) m T splits _ LT) in C1. rewrite (until_later all order true (plan c') m' T splits _ LT) in C2. injection C1 as <- <-. injection C2 as <- <-. reflexivity.
Qed.
Print Assumptions C73_reported_partial.

(** ** The values are the best ones *)
(** With the default sampler, any number of workers and any order of the grid: a
    window's values are a combination of candidates, its score is what they earn on
    the training window, and no combination earns a better one there. *)
Theorem C73_best : forall (U R : Type) (all : list sym) (execs : list (symbols R)) (base : cfg) (u : U)
    (build : trows R -> list (list sym) -> values -> option (strategy U R)) (score_fn : values -> trows R -> port -> HyperModel.res HyperModel.score)
    (scale : nat) (specs : list (nat * HyperModel.hyper)),
  NoDup (map fst specs) -> (forall name h, In (name, h) specs -> HyperModel.post_init scale h = ok tt /\ HyperSpec.short scale h) ->
  exists fuel, forall more maximize shuffle workers sched (m : market R) (train : window) (r : wresult),
  (forall w l, Permutation (shuffle w l) l) -> (forall n, HyperSpec.complete n (sched n)) ->
  (forall ls p, exists s, scores all base u build score_fn m train ls p s) ->
  window_study all execs base u build score_fn (grid_search scale (fuel + more) maximize specs None shuffle workers sched) m train = ok r ->
  (exists p, HyperSpec.assigns scale specs p /\ HyperSpec.run_of specs p (ws_params r)) /\
  scores all base u build score_fn m train (ws_syms r) (ws_params r) (ws_score r) /\ HyperSpec.numeric (ws_score r) /\
  (forall p v s, HyperSpec.assigns scale specs p -> HyperSpec.run_of specs p v -> scores all base u build score_fn m train (ws_syms r) v s -> HyperSpec.numeric s ->
     HyperSpec.as_good maximize (ws_score r) s).
Proof.
  intros U R all execs base u build score_fn scale specs ND DC. destruct (PropHyper.C67_optimum scale specs ND DC) as [fuel F]. exists fuel.
  intros more maximize shuffle workers sched m train r SH CO NR E. apply study_iff in E. destruct E as [_ E]. unfold grid_search in E.
  destruct (F more maximize (shuffle train) workers sched (objective all base u build score_fn m train (ws_syms r)) (SH train) CO) as (st & _ & _ & _ & H).
  { intro p. destruct (NR (ws_syms r) p) as [s S]. exists s. now apply objective_iff. }
  destruct (HyperModel.optimize_grid _ _ _ _ _ _ _ _ _) as [[[st' [p s]]|]|e]; [|tauto|discriminate]. injection E as _ -> ->. destruct H as (_ & (p0 & A & RO & B & NU) & G).
  split; [eauto|]. split; [now apply objective_iff|]. split; auto. intros p v s' A' R' S' N'. apply (G p v s'); auto. now apply objective_iff.
Qed.
Print Assumptions C73_best.
(** Grid search looks at nothing but its objective. *)
Lemma bind_ext {A B} (x y : HyperModel.res A) (f g : A -> HyperModel.res B) : x = y -> (forall a, f a = g a) -> HyperModel.bind x f = HyperModel.bind y g.
Proof. intros -> H. destruct y; cbn; auto. Qed.
Lemma sequential_ext f g : (forall p, f p = g p) -> forall n grids st, HyperModel.grid_sequential f n grids st = HyperModel.grid_sequential g n grids st.
Proof. intro H. induction n as [|n IH]; intros grids st; cbn; auto. destruct (nth_error grids _); auto. apply bind_ext; auto. Qed.
Lemma pool_ext f g : (forall p, f p = g p) -> forall l points slots, HyperModel.pool_run f points l slots = HyperModel.pool_run g points l slots.
Proof. intro H. induction l as [|i l IH]; intros points slots; cbn; auto. destruct (nth_error points i); auto. apply bind_ext; auto. Qed.
Theorem C73_grid_extensional : forall scale fuel maximize specs n_trials shuffle workers sched,
  extensional (grid_search scale fuel maximize specs n_trials shuffle workers sched).
Proof.
  intros scale fuel maximize specs n_trials shuffle workers sched w f g H. unfold grid_search.
  assert (S : forall p, HyperModel.score_overrides specs f p = HyperModel.score_overrides specs g p) by (intro p; unfold HyperModel.score_overrides; apply bind_ext; auto).
  replace (HyperModel.optimize_grid scale fuel maximize specs n_trials (shuffle w) workers sched f) with (HyperModel.optimize_grid scale fuel maximize specs n_trials (shuffle w) workers sched g); auto.
  unfold HyperModel.optimize_grid. apply bind_ext; auto. intros [grid|]; auto. apply bind_ext; auto. intro n. apply bind_ext; auto.
  destruct (Nat.leb workers 1); [symmetry; now apply sequential_ext|]. unfold HyperModel.grid_parallel, HyperModel.pool. apply bind_ext; auto. apply bind_ext; auto. symmetry. now apply pool_ext.
Qed.
Print Assumptions C73_grid_extensional.

(** ** What the calendar gives away *)
(** A trial's orders depend on whether their symbols have bars after the training
    window (C71). The strategy of [PropMarket.demo] is one candidate, and scores
    the number of its orders; the other candidates score 3/2. On the training
    window of dates 0 to 3 a bar of symbol 0 on date 9 changes the best value. *)
From Verif Require PropMarket.
Definition count_orders (v : values) (_ : trows Q) (p : port) : HyperModel.res HyperModel.score :=
  ok (HyperModel.SNum (match HyperModel.dict_get v 2 with Some (HyperModel.PInt 5) => inject_Z (Z.of_nat (length (p_orders p))) | _ => 3 # 2 end)).
Definition hyper2 : list (nat * HyperModel.hyper) := [(2%nat, HyperModel.mk_hyper 2 (HyperModel.PInt 10) (HyperModel.PInt 5) (HyperModel.PInt 15) (HyperModel.PInt 5))].
Definition demo_build (_ : trows Q) (_ : list (list sym)) (_ : values) : option (strategy Q Q) := Some PropMarket.demo.
Definition demo_search := grid_search 0 10 true hyper2 None (fun _ l => l) 1 (seq 0).
Definition demo_study (m : market Q) (train : window) : HyperModel.res wresult :=
  window_study [0; 1]%nat [Fixed [0; 1]%nat] run_cfg 0 demo_build count_orders demo_search m train.
Lemma demo_ok f ls p y : demo_build f ls p = Some y -> strategy_ok y /\ y_all y = [0; 1]%nat /\ (longest_delay y <= 1)%nat.
Proof.
  intros [= <-]. split; [|split; [reflexivity|apply Nat.le_refl]]. split; [apply NoDup_cons; [intros [H|[]]; discriminate|apply NoDup_cons; [intros []|constructor]]|]. split; [apply incl_refl|cbn; lia].
Qed.
Theorem C73_calendar_refuted : exists (build : trows Q -> list (list sym) -> values -> option (strategy Q Q)) score_fn search (m m' : market Q) (train : window) r r',
  extensional search /\ (forall f ls p y, build f ls p = Some y -> strategy_ok y /\ y_all y = [0; 1]%nat /\ (longest_delay y <= 1)%nat) /\
  well_formed m /\ well_formed m' /\ same_past (snd train) m m' /\
  window_study [0; 1]%nat [Fixed [0; 1]%nat] run_cfg 0 build score_fn search m train = ok r /\
  window_study [0; 1]%nat [Fixed [0; 1]%nat] run_cfg 0 build score_fn search m' train = ok r' /\
  ws_params r = [(2%nat, HyperModel.PInt 5)] /\ ws_params r' = [(2%nat, HyperModel.PInt 10)].
Proof.
  exists demo_build, count_orders, demo_search, (PropMarket.two [] [(4%Z, 53)]), (PropMarket.two [(9%Z, 100)] [(4%Z, 53)]), (0%Z, 3%Z).
  assert (W : forall l0, ascending (1%Z :: map fst l0) -> well_formed (PropMarket.two l0 [(4%Z, 53)])).
  { intros l0 A s. destruct s as [|[|s]]; cbn; auto. repeat (split; [repeat (apply Forall_cons; [lia|]); apply Forall_nil|]); try exact I. }
  assert (X : forall k, demo_study k (0%Z, 3%Z) = demo_study k (0%Z, 3%Z)) by reflexivity.
  destruct (demo_study (PropMarket.two [] [(4%Z, 53)]) (0%Z, 3%Z)) as [r|e] eqn:E; [|vm_compute in E; discriminate].
  destruct (demo_study (PropMarket.two [(9%Z, 100)] [(4%Z, 53)]) (0%Z, 3%Z)) as [r'|e] eqn:E'; [|vm_compute in E'; discriminate]. exists r, r'.
  split; [apply C73_grid_extensional|]. split; [exact demo_ok|]. split; [apply W; cbn; split; [apply Forall_nil|exact I]|]. split; [apply W; cbn; split; [apply Forall_cons; [lia|apply Forall_nil]|split; [apply Forall_nil|exact I]]|].
  split; [intros s x L; destruct s as [|s]; cbn; [|tauto]; split; [intros [<-|[]]; auto|]; intros [<-|[<-|[]]]; try (cbn in L; lia); auto|].
  split; [exact E|]. split; [exact E'|]. split; [vm_compute in E; injection E as <-; reflexivity|vm_compute in E'; injection E' as <-; reflexivity].
Qed.
Print Assumptions C73_calendar_refuted.

(** ** The hypotheses are met *)
(** Two windows: the symbol is selected from the training rows (C72), the number of
    shares is tuned. The score counts shares of symbol 1 for and those of symbol 0
    against: the first window buys 5 of symbol 0, the second 15 of symbol 1, sold on the last bar of the data. The
    two markets differ on date 6. *)
From Verif Require PropSelect.
Definition tuned (v : values) : Q := match HyperModel.dict_get v 2 with Some (HyperModel.PInt z) => inject_Z z | _ => 1 end.
Definition sized (f : trows Q) (ls : list (list sym)) (v : values) : option (strategy unit Q) :=
  let y := PropSelect.holder f ls in
  Some (mkStrategy unit Q run_cfg (y_all y) (y_syms y) 1 1 false false 0 LastOfData (mkSettings (Some 1%nat) None None)
    (y_scope y) (y_bar y) (y_fetch y) (y_close y) (y_exit_fill y) NoSlip (fun _ => None) tt
    (fun _ w p k _ => mkUout [] (fun s => if has_orders k || (match aget s (p_longs p) with Some _ => true | None => false end) then no_signals else set_buy (Some (tuned v)) no_signals))
    (fun u _ _ _ _ => u) None).
Definition lean_on_1 (_ : values) (_ : trows Q) (p : port) : HyperModel.res HyperModel.score :=
  ok (HyperModel.SNum (fold_left (fun a o => if Nat.eqb (o_sym o) 1 then a + o_shares o else a - o_shares o) (filter (fun o => match o_side o with OBuy => true | OSell => false end) (p_orders p)) 0)).
Definition sized_run (m : market Q) := optimize_windows [0; 1]%nat (@rev sym) [PropSelect.pick] run_cfg tt sized lean_on_1 demo_search m [1; 0]%nat PropSelect.two_windows.
Example ex_C73 :
  extensional demo_search /\ everyone_studied (length PropSelect.two_windows) [1; 0]%nat /\
  (forall f ls p y, sized f ls p = Some y -> strategy_ok y /\ y_all y = [0; 1]%nat /\ (longest_delay y <= 1)%nat) /\
  NoDup (map fst hyper2) /\ (forall name h, In (name, h) hyper2 -> HyperModel.post_init 0 h = ok tt /\ HyperSpec.short 0 h) /\
  (forall n, HyperSpec.complete n (seq 0 n)) /\
  exists q q', sized_run (PropSelect.daily 70) = ok q /\ sized_run (PropSelect.daily 30) = ok q' /\
    map ws_params (q_windows q) = [[(2%nat, HyperModel.PInt 5)]; [(2%nat, HyperModel.PInt 15)]] /\ q_params q = [(2%nat, HyperModel.PInt 15)] /\
    map ws_syms (q_windows q) = [[[0%nat]]; [[1%nat]]] /\
    map (fun o => (o_date o, o_sym o, o_side o, o_shares o, o_fill o)) (p_orders (b_port (fst (q_run q)))) = [(4%Z, 0%nat, OBuy, 5, 50); (5%Z, 0%nat, OSell, 5, 60); (6%Z, 1%nat, OBuy, 15, 70); (6%Z, 1%nat, OSell, 15, 70)] /\
    map (fun o => (o_date o, o_sym o, o_side o, o_shares o, o_fill o)) (p_orders (b_port (fst (q_run q')))) = [(4%Z, 0%nat, OBuy, 5, 50); (5%Z, 0%nat, OSell, 5, 60); (6%Z, 1%nat, OBuy, 15, 30); (6%Z, 1%nat, OSell, 15, 30)].
Proof.
  split; [apply C73_grid_extensional|]. split; [intros [|[|i]] L; cbn in *; auto; lia|]. split.
  { intros f ls p y [= <-]. split; [|split; [reflexivity|apply Nat.le_refl]]. unfold strategy_ok. cbn [y_syms y_all y_buy_delay y_sell_delay PropSelect.holder].
    split; [apply NoDup_nodup|]. split; [|split; lia]. intros s I. apply nodup_In, filter_In in I. destruct I as [_ I]. apply Nat.ltb_lt in I. destruct s as [|[|s]]; cbn; auto; lia. }
  split; [apply NoDup_cons; [intros []|constructor]|]. split; [intros name h [[= <- <-]|[]]; split; vm_compute; reflexivity|]. split; [intros n i L; apply in_seq; lia|].
  destruct (sized_run (PropSelect.daily 70)) as [q|e] eqn:E; [|vm_compute in E; discriminate]. destruct (sized_run (PropSelect.daily 30)) as [q'|e] eqn:E'; [|vm_compute in E'; discriminate].
  exists q, q'. split; auto. split; auto. vm_compute in E. injection E as <-. vm_compute in E'. injection E' as <-. repeat (split; [vm_compute; reflexivity|]). vm_compute. reflexivity.
Qed.
