(** Property C70: the models of a training window. *)
From Coq Require Import List Bool Arith ZArith QArith Sorted Lia.
From Verif Require Import TrainSpec TrainProofs TrainWindow.
Import ListNotations.
Open Scope nat_scope.

(** C70: in every history of windows, with and without model cache and workers: each
    window gets exactly the models asked for, each as it would be trained or loaded
    now; and raises only when one of them cannot be. Guard ([steady_training]):
    windows with the same training dates, timeframe, times and days train the model
    on the same frames; see the refutations below. *)
Theorem C70_as_trained_partial : forall {M} (picklable : M -> bool) parse iparse history,
  Forall (fun x => accepted_run (snd x)) history -> steady_training parse iparse history ->
  Forall2 (fun x out => right_models parse (fst x) (snd x) out) history (snd (windows picklable parse iparse [] history)).
Proof.
  intros M picklable parse iparse history A S. apply (windows_ok picklable parse iparse history S); [|intros key cm []].
  intros x I. split; [exact I|]. rewrite Forall_forall in A. now apply A.
Qed.
Print Assumptions C70_as_trained_partial.

(** C70: without the model cache there is no guard: a window does not depend on the
    others. *)
Theorem C70_uncached : forall {M} (picklable : M -> bool) parse iparse history,
  Forall (fun x => accepted_run (snd x) /\ c_cache (snd x) = false) history ->
  Forall2 (fun x out => right_models parse (fst x) (snd x) out) history (snd (windows picklable parse iparse [] history)).
Proof.
  intros M picklable parse iparse history A. apply (windows_ok picklable parse iparse history); [|intros x I|intros key cm []].
  - intros w c w' c' k I _ E. rewrite Forall_forall in A. destruct (A _ I) as [_ E']. cbn in E'. congruence.
  - split; [exact I|]. rewrite Forall_forall in A. now apply A.
Qed.
Print Assumptions C70_uncached.

(** C70: the schedule of the workers changes neither the models nor the cache. *)
Definition in_process (c : settings) : settings := mk_settings (c_execs c) (c_trained c) (c_secs c) (c_hours c) (c_weekdays c) (c_lookahead c) None (c_cache c).
Theorem C70_workers : forall {M} (picklable : M -> bool) parse iparse st w c, (forall order, c_pool c = Some order -> forall n, complete n (order n)) -> forall st' d,
  window_models picklable parse iparse st w c = (st', Ok d) <-> window_models picklable parse iparse st w (in_process c) = (st', Ok d).
Proof.
  intros M picklable parse iparse st w c C st' d. unfold window_models. cbn [in_process c_execs c_trained c_secs c_hours c_weekdays c_lookahead c_pool c_cache].
  destruct (pooled_groups parse w (c_trained c) (c_execs c)) as [gs|]; [|reflexivity]. unfold train_models. destruct (model_syms (c_execs c) (c_trained c)) as [|k l]; [reflexivity|].
  destruct (get_cached_models _ _ _ _ _ _ _ _ _) as [[found missing]|]; [|reflexivity]. destruct (match missing with [] => _ | _ => _ end); [reflexivity|].
  destruct (pooled_tasks _ _ _ _ _ _) as [[pt cov]|]; cbn [bind]; [|reflexivity]. destruct (symbol_tasks _ _ _ _ _ _) as [[sts lo]|]; cbn [bind]; [|reflexivity].
  assert (E : forall r, run_trainers (c_pool c) (pt ++ sts) = Ok r <-> run_trainers None (pt ++ sts) = Ok r) by (intros r; rewrite !run_trainers_iff; [reflexivity|discriminate|exact C]).
  destruct (run_trainers None (pt ++ sts)) as [r|].
  - rewrite (proj2 (E r) eq_refl). reflexivity.
  - destruct (run_trainers (c_pool c) (pt ++ sts)) as [r|]; [discriminate (proj1 (E r) eq_refl)|]. cbn. split; discriminate.
Qed.
Print Assumptions C70_workers.

(** C70: a window of an optimization gets the models, and leaves the cache, of a walkforward window
    over the same data with the same settings, trained in this process. *)
Lemma no_models_groups {M} parse (w : window (M := M)) ts es : existsb (fun e => match e_models e with [] => false | _ => true end) es = false -> pooled_groups parse w ts es = Ok [].
Proof.
  induction es as [|e es IH]; cbn [existsb pooled_groups]; [reflexivity|]. intros H. apply orb_false_iff in H. destruct H as [H1 H2].
  destruct (e_models e); [|discriminate]. destruct (filter _ _); [exact (IH H2)|]. cbn [exec_groups bind]. rewrite (IH H2). reflexivity.
Qed.
Lemma no_models_syms ts es : existsb (fun e => match e_models e with [] => false | _ => true end) es = false -> model_syms es ts = [].
Proof.
  intros H. unfold model_syms. replace (flat_map _ ts) with (@nil ind_sym); [reflexivity|]. symmetry.
  induction ts as [|t ts IH]; [reflexivity|]. cbn [flat_map]. rewrite IH, app_nil_r. clear IH.
  induction es as [|e es IH]; [reflexivity|]. cbn [existsb] in H. apply orb_false_iff in H. destruct H as [H1 H2]. cbn [flat_map]. rewrite (IH H2), app_nil_r.
  destruct (e_models e); [|discriminate]. cbn [map]. destruct (existsb (Nat.eqb t) (e_syms e)); reflexivity.
Qed.
Lemma no_rows_groups {M} parse (w : window (M := M)) es : pooled_groups parse w [] es = Ok [].
Proof.
  induction es as [|e es IH]; [reflexivity|]. cbn [pooled_groups]. replace (filter _ (e_syms e)) with (@nil nat); [exact IH|].
  symmetry. induction (e_syms e) as [|x l IHl]; [reflexivity|]. cbn. exact IHl.
Qed.
Theorem C70_optimize : forall {M} (picklable : M -> bool) parse iparse st w c,
  pretrained_models picklable parse iparse st w c = window_models picklable parse iparse st w (in_process c).
Proof.
  intros M picklable parse iparse st w c. unfold pretrained_models, window_models. cbn [in_process c_execs c_trained c_secs c_hours c_weekdays c_lookahead c_pool c_cache].
  destruct (existsb _ (c_execs c)) eqn:E; cbn [negb].
  - destruct (c_trained c) as [|t ts]; [|reflexivity]. rewrite no_rows_groups. reflexivity.
  - rewrite (no_models_groups parse w (c_trained c) (c_execs c) E), (no_models_syms (c_trained c) (c_execs c) E). reflexivity.
Qed.
Print Assumptions C70_optimize.

(** ** A concrete history: a pooled model (1), a model by symbol (2), also on an
    interval (12), and a loaded model (3), on three symbols in two executions, twice. *)
Definition ex_parse (n : nat) : nat * option nat := if n <? 10 then (n, None) else (n - 10, Some 5).
(** The sum of the values of all rows. *)
Definition total (i : input) : Q := fold_left (fun a r => fold_left (fun a v => (a + match v with Some x => x | None => 0 end)%Q) (snd r) a) (in_rows i) 0%Q.
Definition ex_train (syms : list nat) (tr te : input) : res (list nat * Q * Q * option (list nat)) := Ok (syms, total tr, total te, None).
Definition ex_sources : list (nat * source (M := list nat * Q * Q)) :=
  [(1, mk_source (Trainer true ex_train) [] 0 false); (2, mk_source (Trainer false ex_train) [7] 0 false);
   (3, mk_source (Loader None (fun sym s e => Ok ([sym], inject_Z s, inject_Z e, Some [4]))) [] 5 true)].
(** One row for each symbol; its value is the symbol plus [x]. *)
Definition ex_input (x : Q) (syms : list nat) : input := mk_input (map (fun s => (10%Z, [Some (inject_Z (Z.of_nat s) + x)%Q])) syms) None.
Definition ex_window (x y : Q) : window (M := list nat * Q * Q) :=
  mk_window ex_sources [(7, false)] (1%Z, 9%Z) (fun _ _ syms => Ok (ex_input x syms, ex_input y syms))
            (Some (fun _ _ syms la => Ok (ex_input (x + inject_Z (Z.of_nat la)) syms, ex_input y syms))).
Definition ex_settings schedule : settings :=
  mk_settings [mk_exec 0 [6; 4] [1; 2]; mk_exec 1 [5] [1; 3; 12]; mk_exec 2 [8] [1]] [4; 5; 6] 60 None None 2 schedule true.
Lemma ex_run schedule : (forall order, schedule = Some order -> forall n, complete n (order n)) -> accepted_run (ex_settings schedule).
Proof.
  intros C. split; [|split; [|exact C]].
  - intros e e' s I J K L. cbn in I, J. destruct I as [<-|[<-|[<-|[]]]], J as [<-|[<-|[<-|[]]]]; try reflexivity; cbn in K, L; lia.
  - intros e I. cbn in I. destruct I as [<-|[<-|[<-|[]]]]; cbn; [constructor; [intros [H|[]]; lia|]|..]; constructor; (easy || constructor).
Qed.
Definition ex_history := [(ex_window 1 0, ex_settings None); (ex_window 1 0, ex_settings (Some (fun n => rev (seq 0 n))))].
Definition ex_tm name syms a b : trained (M := list nat * Q * Q) := mk_trained name (syms, a, b) None None 0 false.
Definition ex_loaded : trained (M := list nat * Q * Q) := mk_trained 3 ([5], 1%Q, 9%Q) (Some [4]) None 5 true.
Definition ex_models := [(1, 6, ex_tm 1 [4; 6] 12 10); (1, 4, ex_tm 1 [4; 6] 12 10); (1, 5, ex_tm 1 [5] 6 5); (2, 4, ex_tm 2 [4] 5 4); (2, 6, ex_tm 2 [6] 7 6)].
Example ex_C70 : Forall (fun x => accepted_run (snd x)) ex_history /\ steady_training ex_parse ex_parse ex_history /\
  snd (windows (fun _ => true) ex_parse ex_parse [] ex_history) =
  [Ok (ex_models ++ [(12, 5, ex_tm 12 [5] 8 5); (3, 5, ex_loaded)]); Ok (ex_models ++ [(3, 5, ex_loaded); (12, 5, ex_tm 12 [5] 8 5)])].
Proof.
  split; [|split; [|vm_compute; reflexivity]].
  - apply Forall_cons; [now apply ex_run|]. apply Forall_cons; [|apply Forall_nil]. apply ex_run. intros order [= <-] n i I. apply (proj1 (in_rev _ _)). apply in_seq. lia.
  - intros w c w' c' k I J _ _ _ _ _ _ _ _ _ _. cbn in I, J. assert (w = ex_window 1 0 /\ w' = ex_window 1 0) as [-> ->] by (destruct I as [[= <- _]|[[= <- _]|[]]], J as [[= <- _]|[[= <- _]|[]]]; now split).
    split; [reflexivity|]. intros. reflexivity.
Qed.
(** And without workers or cache. *)
Example ex_C70_workers : window_models (fun _ => true) ex_parse ex_parse [] (ex_window 1 0) (ex_settings (Some (fun n => rev (seq 0 n)))) =
                         window_models (fun _ => true) ex_parse ex_parse [] (ex_window 1 0) (in_process (ex_settings (Some (fun n => rev (seq 0 n))))).
Proof. vm_compute. reflexivity. Qed.

(** C70, refuted without the guard: the cache key has the training dates only. A
    window with the same training dates and rows and other test rows (a training
    function is given both) gets the model of the first. *)
Definition ex_small : settings := mk_settings [mk_exec 0 [4] [2]] [4] 60 None None 1 None true.
Lemma ex_small_run : accepted_run ex_small.
Proof.
  split; [|split; [|discriminate]].
  - intros e e' s [<-|[]] [<-|[]] _ _. reflexivity.
  - intros e [<-|[]]. cbn. constructor; [easy|constructor].
Qed.
Theorem C70_other_test_data_refuted : exists parse w w' c d,
  accepted_run c /\ w_sources w' = w_sources w /\ w_dates w' = w_dates w /\
  (forall pooled name syms tr te, inputs parse w pooled name syms 1 tr te -> exists te', inputs parse w' pooled name syms 1 tr te') /\
  snd (windows (M := list nat * Q * Q) (fun _ => true) parse parse [] [(w, c); (w', c)]) = [Ok d; Ok d] /\ ~ right_models parse w' c (Ok d).
Proof.
  exists ex_parse, (ex_window 1 0), (ex_window 1 3), ex_small, [(2, 4, ex_tm 2 [4] 5 4)]. split; [exact ex_small_run|]. split; [reflexivity|]. split; [reflexivity|]. split; [|split; [vm_compute; reflexivity|]].
  - intros pooled name syms tr te H. exists (ex_input 3 syms). unfold inputs in *. destruct (snd (ex_parse name)); cbn in *.
    + destruct H as (g & [= <-] & [= <- <-]). eexists. split; [reflexivity|]. cbn. reflexivity.
    + now injection H as <- <-.
  - intros (_ & _ & R). destruct (R (2, 4) (ex_tm 2 [4] 5 4) (or_introl eq_refl)) as (src & m & cols & lags & D & F & E). cbn in D. injection D as <-. injection E as <- <- <-.
    inversion F as [train tr te m cols K I T|train g tr te m cols K P I T|lg load m cols K N L]; subst; cbn in K; [|discriminate|discriminate]. injection K as <-. cbn in I. injection I as <- <-. vm_compute in T. discriminate.
Qed.
Print Assumptions C70_other_test_data_refuted.
(** C70, refuted without the guard: a model registered anew under its name. *)
Theorem C70_new_model_refuted : exists parse w w' c d,
  accepted_run c /\ w_dates w' = w_dates w /\ (forall pooled name syms la tr te, inputs parse w pooled name syms la tr te <-> inputs parse w' pooled name syms la tr te) /\
  snd (windows (M := list nat * Q * Q) (fun _ => true) parse parse [] [(w, c); (w', c)]) = [Ok d; Ok d] /\ ~ right_models parse w' c (Ok d).
Proof.
  exists ex_parse, (ex_window 1 0), (mk_window [(2, mk_source (Trainer false (fun syms tr te => Ok (syms, total te, total tr, None))) [] 0 false)] [] (1%Z, 9%Z) (w_base (ex_window 1 0)) (w_compressed (ex_window 1 0))), ex_small, [(2, 4, ex_tm 2 [4] 5 4)].
  split; [exact ex_small_run|]. split; [reflexivity|]. split; [reflexivity|]. split; [vm_compute; reflexivity|].
  intros (_ & _ & R). destruct (R (2, 4) (ex_tm 2 [4] 5 4) (or_introl eq_refl)) as (src & m & cols & lags & D & F & E). cbn in D. injection D as <-. injection E as <- <- <-.
  inversion F as [train tr te m cols K I T|train g tr te m cols K P I T|lg load m cols K N L]; subst; cbn in K; [|discriminate|discriminate]. injection K as <-. cbn in I. injection I as <- <-. vm_compute in T. discriminate.
Qed.
Print Assumptions C70_new_model_refuted.
