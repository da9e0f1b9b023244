(** Property C68: the indicators of a run. *)
From Coq Require Import List Bool Arith ZArith QArith Permutation Lia.
From Verif Require Import IndicatorSpec IndicatorCaches.
Import ListNotations.
Open Scope nat_scope.

(** C68: in every history of runs and optimisations, with and without disk cache,
    memo and workers: each computation gives exactly what was asked for, each as
    the indicator gives it alone; and raises only when something asked for raises
    alone. Guard ([steady]): runs over the same dates, timeframe, times and days
    see the same indicators and bars; see the refutations below. *)
Theorem C68_as_alone_partial : forall scale parse events,
  Forall accepted events -> steady parse (flat_map calls_of events) ->
  Forall2 (fun e outs => all_right parse (calls_of e) outs) events (snd (run scale parse (start []) events)).
Proof.
  intros scale parse events A S. pose proof (run_ok scale parse (flat_map calls_of events) S events (start []) A (fun x X => X)) as R.
  destruct (run scale parse (start []) events) as [st outs]. destruct R as (R & _); [easy|easy|intros k s []|exact R].
Qed.
Print Assumptions C68_as_alone_partial.

(** C68: the schedule of the workers changes neither the result nor the caches. *)
Theorem C68_workers : forall scale parse st w c, scheduled c -> forall st' d,
  compute_indicators scale parse st w c = (st', Ok d) <->
  compute_indicators scale parse st w (mk_call (c_syms c) (c_fields c) None (c_prebuilt c) (c_hyperparams c) (c_enabled c)) = (st', Ok d).
Proof.
  intros scale parse st w c Sc st' d. unfold compute_indicators. cbn [c_syms c_fields c_schedule c_prebuilt c_hyperparams c_enabled].
  destruct (c_syms c) as [|k l]; [reflexivity|]. destruct (w_store w) as [|x s] eqn:W; [reflexivity|].
  destruct (get_cached parse st w (c_enabled c) (k :: l) (c_fields c)) as [[found missing]|]; [|reflexivity].
  destruct (memo_loop scale parse st w (c_hyperparams c) missing found []) as [[f' [|m ms]]|]; [reflexivity| |reflexivity].
  set (store := if c_prebuilt c then _ else _).
  assert (E : forall r, run_indicators parse w store (m :: ms) (c_schedule c) (c_hyperparams c) = Ok r <-> run_indicators parse w store (m :: ms) None (c_hyperparams c) = Ok r).
  { intros r. unfold run_indicators. destruct (check_names parse w (m :: ms)); cbn [bind]; [|reflexivity]. destruct (c_schedule c) as [order|] eqn:O; [|reflexivity].
    destruct (length (names_by_sym (m :: ms)) =? 1); [reflexivity|].
    assert (P : forall b, in_pool (task parse w store (c_hyperparams c)) (order (length (names_by_sym (m :: ms)))) (names_by_sym (m :: ms)) = Ok b <->
                          in_turn (task parse w store (c_hyperparams c)) (names_by_sym (m :: ms)) = Ok b) by (intros b; rewrite in_pool_iff, in_turn_iff; [reflexivity|now apply Sc]).
    destruct (in_turn (task parse w store (c_hyperparams c)) (names_by_sym (m :: ms))) as [b|].
    - rewrite (proj2 (P b) eq_refl). reflexivity.
    - destruct (in_pool _ _ _) as [b|]; cbn [bind]; [|split; discriminate]. discriminate (proj1 (P b) eq_refl). }
  destruct (run_indicators parse w store (m :: ms) None (c_hyperparams c)) as [r|].
  - rewrite (proj2 (E r) eq_refl). reflexivity.
  - destruct (run_indicators parse w store (m :: ms) (c_schedule c) (c_hyperparams c)) as [r|]; [discriminate (proj1 (E r) eq_refl)|]. split; discriminate.
Qed.
Print Assumptions C68_workers.

Lemma memo_kept scale parse w max c : forall st, st_max st = max -> length (st_memo st) <= max ->
  let st1 := fst (compute_indicators scale parse st w c) in st_max st1 = max /\ length (st_memo st1) <= max.
Proof.
  assert (St : forall st k s hps st1, st_max st = max -> length (st_memo st) <= max -> set_memoized scale parse st w k s hps = Ok st1 -> st_max st1 = max /\ length (st_memo st1) <= max).
  { intros st k s hps st1 Mx L. unfold set_memoized. destruct (Nat.eqb_spec (st_max st) 0); [intros [= <-]; now split|]. destruct (memo_key_of parse w (fst k) (snd k) hps) as [[key|]|]; cbn [bind]; [| |discriminate]; intros [= <-]; [|now split].
    cbn. split; [exact Mx|]. pose proof (memo_put_length scale (if st_max st <=? length (st_memo st) then tl (st_memo st) else st_memo st) key s) as P.
    destruct (Nat.leb_spec (st_max st) (length (st_memo st))) as [G|G]; [|lia]. destruct (st_memo st); cbn in *; lia. }
  assert (Lp : forall results st found, st_max st = max -> length (st_memo st) <= max ->
     let st1 := fst (store_loop scale parse st w (c_enabled c) (c_fields c) (c_hyperparams c) results found) in st_max st1 = max /\ length (st_memo st1) <= max).
  { induction results as [|[k s] r IH]; intros st found Mx L; cbn [store_loop]; [now split|].
    destruct (set_memoized scale parse st w k s (c_hyperparams c)) as [st1|] eqn:E; [|now split]. destruct (St _ _ _ _ _ Mx L E) as [Mx1 L1].
    destruct (set_cached parse st1 w (c_enabled c) s k (c_fields c)) as [st2|] eqn:E2; [|now split]. apply IH.
    - unfold set_cached in E2. destruct (c_fields c); [destruct (c_enabled c)|]; try (injection E2 as <-; assumption).
      destruct (get_indicator w (fst (parse (fst k)))) as [ind|]; cbn [bind] in E2; [|discriminate]. injection E2 as <-. now destruct (hyperparam_names (i_kwargs ind)).
    - unfold set_cached in E2. destruct (c_fields c); [destruct (c_enabled c)|]; try (injection E2 as <-; assumption).
      destruct (get_indicator w (fst (parse (fst k)))) as [ind|]; cbn [bind] in E2; [|discriminate]. injection E2 as <-. now destruct (hyperparam_names (i_kwargs ind)). }
  assert (Cp : forall st, st_max st = max -> length (st_memo st) <= max ->
     let st1 := fst (compute_indicators scale parse st w c) in st_max st1 = max /\ length (st_memo st1) <= max).
  { intros st Mx L. unfold compute_indicators. destruct (c_syms c); [now split|]. destruct (w_store w); [now split|].
    destruct (get_cached _ _ _ _ _ _) as [[f m]|]; [|now split]. destruct (memo_loop _ _ _ _ _ _ _) as [[f' [|m0 ms]]|]; [now split| |now split].
    destruct (run_indicators _ _ _ _ _ _) as [res|]; [|now split]. now apply Lp. }
  exact Cp.
Qed.
(** C68: after every history of runs and optimisations the memo is empty and off;
    during the next [optimize] it never holds more than its maximum, after however
    many computations it stops. *)
Theorem C68_memo_bounded : forall scale parse d events st outs, run scale parse (start d) events = (st, outs) ->
  st_memo st = [] /\ st_max st = 0 /\
  forall w max calls, length (st_memo (fst (optimize_calls scale parse (mk_state (st_memo st) max (st_disk st)) w calls))) <= max.
Proof.
  intros scale parse d events st outs R.
  assert (Off : forall events st0, st_memo st0 = [] -> st_max st0 = 0 ->
    st_memo (fst (run scale parse st0 events)) = [] /\ st_max (fst (run scale parse st0 events)) = 0).
  { clear. induction events as [|e r IH]; intros st0 M0 X0; cbn [run]; [now split|].
    assert (st_memo (fst (step scale parse st0 e)) = [] /\ st_max (fst (step scale parse st0 e)) = 0) as [M1 X1].
    { destruct e as [w c|max w calls]; cbn [step].
      - destruct (memo_kept scale parse w 0 c st0 X0) as [X L]; [rewrite M0; cbn; lia|].
        destruct (compute_indicators scale parse st0 w c) as [st1 o]. cbn in *. destruct (st_memo st1); [now split|cbn in L; lia].
      - destruct (optimize_calls _ _ _ _ _). now split. }
    destruct (step scale parse st0 e) as [st1 o]. cbn [fst] in M1, X1. specialize (IH st1 M1 X1).
    destruct (run scale parse st1 r) as [st2 os]. exact IH. }
  destruct (Off events (start d) eq_refl eq_refl) as [M X]. rewrite R in M, X. cbn [fst] in M, X.
  split; [exact M|]. split; [exact X|]. intros w max calls.
  assert (G : forall st0, st_max st0 = max -> length (st_memo st0) <= max -> length (st_memo (fst (optimize_calls scale parse st0 w calls))) <= max).
  { clear. induction calls as [|c r IH]; intros st Mx L; cbn [optimize_calls]; [exact L|]. destruct (memo_kept scale parse w max c st Mx L) as [Mx1 L1].
    destruct (compute_indicators scale parse st w c) as [st1 [d|e]]; [|exact L1]. cbn in *. specialize (IH st1 Mx1 L1). now destruct (optimize_calls scale parse st1 w r). }
  apply G; [reflexivity|]. rewrite M. cbn. lia.
Qed.
Print Assumptions C68_memo_bounded.

(** ** A concrete history: an indicator with a hyperparameter and one without, two
    symbols, the disk cache on, a repeated run, and an optimisation. *)
Definition ex_parse (n : nat) : nat * option nat := if n <? 10 then (n, None) else (n - 10, Some 5).
Definition ex_len := mk_hyper 1 (PInt 2) (PInt 1) (PInt 3) (PInt 1).
(** Close times a factor; and the close itself. *)
Definition ex_times := mk_indicator [(7, KHyper ex_len)]
  (fun bars args => match bd_default bars, args with
                    | [(_, Some close)], [(_, PInt z)] => Ok (1, map (fun x => Some (x * inject_Z z)%Q) close)
                    | _, _ => Raise UserErr
                    end).
Definition ex_close := mk_indicator []
  (fun bars _ => match bd_default bars with [(_, Some close)] => Ok (1, map Some close) | _ => Raise UserErr end).
Definition ex_world (x : Q) := mk_world [(1, ([10; 11]%Z, [(4, [x; 3%Q])])); (2, ([10; 11]%Z, [(4, [5%Q; 6%Q])]))]
  [(1, 5, mk_bars [11%Z] [(4, Some [8%Q])] [])] [(1, ex_times); (2, ex_close)] [4] [].
Definition ex_fields := mk_fields 10 11 60 None None.
Definition ex_call syms schedule hps := mk_call syms (Some ex_fields) schedule false hps true.
Definition ex_events :=
  [Plain (ex_world 2) (ex_call [(2, 1); (1, 1); (12, 1)] None None);
   Optimize 1 (ex_world 2) [ex_call [(1, 1); (1, 2)] (Some (fun n => rev (seq 0 n))) (Some [(1, PInt 3)]); ex_call [(1, 2); (2, 1); (2, 2)] None (Some [(1, PInt 3)])];
   Plain (ex_world 2) (ex_call [(2, 1); (2, 2)] (Some (fun n => seq 0 n)) None)].
Lemma ex_declared x : declared_once (ex_world x).
Proof.
  intros base ind [[= <- <-]|[[= <- <-]|[]]]; (split; [intros key h key' h' I J E|intros key h I]); cbn in *.
  - destruct I as [[= <- <-]|[]], J as [[= <- <-]|[]]. easy.
  - destruct I as [[= <- <-]|[]]. exact I.
  - easy.
  - easy.
Qed.
Lemma ex_typed x syms schedule v : typed (ex_world x) (ex_call syms schedule (match v with Some z => Some [(1, PInt z)] | None => None end)).
Proof.
  intros p base ind key h u E [[= <- <-]|[[= <- <-]|[]]] I G; cbn in *; [|easy]. destruct I as [[= <- <-]|[]]. destruct v as [z|]; [|discriminate].
  injection E as <-. cbn in G. now injection G as <-.
Qed.
Lemma ex_ok x syms schedule v : (forall order, schedule = Some order -> forall n, complete n (order n)) -> syms <> [] ->
  let p := (ex_world x, ex_call syms schedule (match v with Some z => Some [(1, PInt z)] | None => None end)) in
  declared_once (fst p) /\ typed (fst p) (snd p) /\ scheduled (snd p) /\ c_syms (snd p) <> [] /\ w_store (fst p) <> [].
Proof. intros H N. split; [apply ex_declared|]. split; [apply ex_typed|]. split; [exact H|]. now split. Qed.
Lemma ex_accepted : Forall accepted ex_events.
Proof.
  apply Forall_cons; [|apply Forall_cons; [|apply Forall_cons; [|apply Forall_nil]]].
  - apply Forall_cons; [|apply Forall_nil]. now apply (ex_ok 2 _ _ None).
  - apply Forall_cons; [|apply Forall_cons; [|apply Forall_nil]].
    + apply (ex_ok 2 _ _ (Some 3%Z)); [|easy]. intros order [= <-] n i I. apply (proj1 (in_rev _ _)). apply in_seq. lia.
    + now apply (ex_ok 2 _ _ (Some 3%Z)).
  - apply Forall_cons; [|apply Forall_nil]. apply (ex_ok 2 _ _ None); [|easy]. intros order [= <-] n i I. apply in_seq. lia.
Qed.
Example ex_C68 : Forall accepted ex_events /\ steady ex_parse (flat_map calls_of ex_events) /\
  snd (run 2 ex_parse (start []) ex_events) =
  [[Ok [((1, 1), [(10%Z, Some (2 * 2)%Q); (11%Z, Some (3 * 2)%Q)]); ((2, 1), [(10%Z, Some 2%Q); (11%Z, Some 3%Q)]); ((12, 1), [(11%Z, Some 8%Q)])]];
   [Ok [((1, 1), [(10%Z, Some (2 * 3)%Q); (11%Z, Some (3 * 3)%Q)]); ((1, 2), [(10%Z, Some (5 * 3)%Q); (11%Z, Some (6 * 3)%Q)])];
    Ok [((2, 1), [(10%Z, Some 2%Q); (11%Z, Some 3%Q)]); ((1, 2), [(10%Z, Some (5 * 3)%Q); (11%Z, Some (6 * 3)%Q)]); ((2, 2), [(10%Z, Some 5%Q); (11%Z, Some 6%Q)])]];
   [Ok [((2, 1), [(10%Z, Some 2%Q); (11%Z, Some 3%Q)]); ((2, 2), [(10%Z, Some 5%Q); (11%Z, Some 6%Q)])]]].
Proof.
  split; [exact ex_accepted|]. split; [|vm_compute; reflexivity].
  assert (W : forall w c, In (w, c) (flat_map calls_of ex_events) -> w = ex_world 2) by (cbn; intros w c [[= <- _]|[[= <- _]|[[= <- _]|[[= <- _]|[]]]]]; easy).
  intros w c w' c' f k I J _ _ _ _ _ _. rewrite (W w c I), (W w' c' J). split; [easy|]. intros bars. reflexivity.
Qed.

(** C68, refuted without the guard: the cache key does not name the data. A run on
    other bars of the same symbol and dates is given the series of the first. *)
Theorem C68_other_data_refuted : exists scale parse w w' c st',
  Forall accepted [Plain w c; Plain w' c] /\ w_registry w' = w_registry w /\
  run scale parse (start []) [Plain w c; Plain w' c] = (st', [[Ok [((2, 1), [(10%Z, Some 2%Q); (11%Z, Some 3%Q)])]]; [Ok [((2, 1), [(10%Z, Some 2%Q); (11%Z, Some 3%Q)])]]]) /\
  alone parse w' (c_hyperparams c) (2, 1) [(10%Z, Some 7%Q); (11%Z, Some 3%Q)].
Proof.
  exists 2, ex_parse, (ex_world 2), (ex_world 7), (ex_call [(2, 1)] None None). eexists. split; [|split; [easy|split; [vm_compute; reflexivity|]]].
  - apply Forall_cons; [|apply Forall_cons; [|apply Forall_nil]]; (apply Forall_cons; [|apply Forall_nil]); now apply (ex_ok _ _ _ None).
  - exists ex_close, (mk_bars [10; 11]%Z [(4, Some [7%Q; 3%Q])] []), [], [Some 7%Q; Some 3%Q]. split; [easy|]. split; [|split; [constructor|easy]].
    split; [cbn; tauto|]. cbn. now exists [10; 11]%Z, [(4, [7%Q; 3%Q])].
Qed.
Print Assumptions C68_other_data_refuted.

(** C68, refuted without the guard: an indicator registered anew under its name is
    given the series of the old one. *)
Definition ex_double := mk_indicator []
  (fun bars _ => match bd_default bars with [(_, Some close)] => Ok (1, map (fun x => Some (x + x)%Q) close) | _ => Raise UserErr end).
Definition ex_world2 := mk_world (w_store (ex_world 2)) [] [(2, ex_double)] [4] [].
Theorem C68_new_indicator_refuted : exists scale parse w w' c st',
  Forall accepted [Plain w c; Plain w' c] /\ w_store w' = w_store w /\
  run scale parse (start []) [Plain w c; Plain w' c] = (st', [[Ok [((2, 1), [(10%Z, Some 2%Q); (11%Z, Some 3%Q)])]]; [Ok [((2, 1), [(10%Z, Some 2%Q); (11%Z, Some 3%Q)])]]]) /\
  alone parse w' (c_hyperparams c) (2, 1) [(10%Z, Some (2 + 2)%Q); (11%Z, Some (3 + 3)%Q)].
Proof.
  exists 2, ex_parse, (ex_world 2), ex_world2, (ex_call [(2, 1)] None None). eexists. split; [|split; [easy|split; [vm_compute; reflexivity|]]].
  - apply Forall_cons; [|apply Forall_cons; [|apply Forall_nil]]; (apply Forall_cons; [|apply Forall_nil]); [now apply (ex_ok _ _ _ None)|].
    split; [|split; [intros p base ind key h v [=]|split; [intros order [=]|easy]]].
    intros base ind [[= <- <-]|[]]. split; [intros key h key' h' []|intros key h []].
  - exists ex_double, (mk_bars [10; 11]%Z [(4, Some [2%Q; 3%Q])] []), [], [Some (2 + 2)%Q; Some (3 + 3)%Q]. split; [easy|]. split; [|split; [constructor|easy]].
    split; [cbn; tauto|]. cbn. now exists [10; 11]%Z, [(4, [2%Q; 3%Q])].
Qed.
Print Assumptions C68_new_indicator_refuted.
