(** Proofs about optimization window by window. *)
From Verif Require Import Lemmas PortfolioFacts PortfolioRun.
From Verif Require Export OptWalkSpec SelectProofs SelectLogs BarRun.
From Verif Require HyperModel.

Lemma Forall2_weaken {A B} (P Q : A -> B -> Prop) l l' : (forall x y, P x y -> Q x y) -> Forall2 P l l' -> Forall2 Q l l'.
Proof. intros H F. induction F; constructor; auto. Qed.
Lemma as_run_trades {U R} (u : U) c last (y : strategy U R) : trades_as y c u last (as_run u c last y).
Proof. unfold trades_as, as_run. cbn. repeat (split; [reflexivity|]). reflexivity. Qed.
Lemma trades_unique {U R} (y : strategy U R) c u last z : trades_as y c u last z -> z = as_run u c last y.
Proof. unfold trades_as, as_run. destruct z; cbn. intros H. decompose [and] H. subst. reflexivity. Qed.
Lemma capped_limits base z : limits_of z base (capped base z).
Proof. unfold limits_of, capped. cbn. repeat (split; [reflexivity|]). reflexivity. Qed.
Lemma limits_unique base z c : limits_of z base c -> c = capped base z.
Proof. unfold limits_of, capped. destruct c; cbn. intros H. decompose [and] H. subst. reflexivity. Qed.
Lemma alone_iff {U R} base (u : U) (m : market R) w y st : alone base u m w y = Some st <-> backtest_alone base u m w y st.
Proof.
  unfold alone, backtest_alone. split.
  - intro E. exists (capped base (y_settings y)), (as_run u (capped base (y_settings y)) LastOfWindow y). split; [apply capped_limits|]. split; [apply as_run_trades|exact E].
  - intros (c & z & L & T & E). apply limits_unique in L. subst c. apply trades_unique in T. now subst z.
Qed.
Lemma rows_same {R} all w (m : market R) : frame_of all w m = training_rows all w m.
Proof. reflexivity. Qed.
Lemma objective_iff {U R} all base (u : U) build score_fn (m : market R) train ls p s :
  objective all base u build score_fn m train ls p = ok s <-> scores all base u build score_fn m train ls p s.
Proof.
  unfold objective, scores. cbv zeta. rewrite rows_same. split.
  - destruct (build _ ls p) as [y|]; [|discriminate]. destruct (alone base u m train y) as [st|] eqn:A; [|discriminate]. intro E. exists y, st. split; auto. split; auto. now apply alone_iff.
  - intros (y & st & B & A & E). rewrite B. apply alone_iff in A. now rewrite A.
Qed.

(** ** The pool of windows *)
Section Pool.
Context {A B : Type}.
Variable study : A -> HyperModel.res B.
Fixpoint pool (items : list A) (sched : list nat) (slots : list (option B)) : HyperModel.res (list (option B)) :=
  match sched with
  | [] => ok slots
  | i :: r => match nth_error items i with
              | None => pool items r slots
              | Some a => HyperModel.bind (study a) (fun x => pool items r (HyperModel.write_slot slots i (Some x)))
              end
  end.
Lemma write_length {X} (l : list X) i x : length (HyperModel.write_slot l i x) = length l.
Proof. revert i. induction l as [|a l IH]; intros [|i]; cbn; auto. Qed.
Lemma write_nth {X} (l : list X) i x j : nth_error (HyperModel.write_slot l i x) j = if Nat.eqb i j then option_map (fun _ => x) (nth_error l j) else nth_error l j.
Proof. revert i j. induction l as [|a l IH]; intros [|i] [|j]; cbn; auto. now destruct (Nat.eqb i j). Qed.
(** What a slot holds is the study of its item. *)
Definition slots_ok (items : list A) (slots : list (option B)) : Prop :=
  length slots = length items /\ forall i a b, nth_error items i = Some a -> nth_error slots i = Some (Some b) -> study a = ok b.
Lemma pool_spec items sched : forall slots, slots_ok items slots ->
  match pool items sched slots with
  | ok out => slots_ok items out /\ forall i, (i < length items)%nat -> (In i sched \/ exists b, nth_error slots i = Some (Some b)) -> exists b, nth_error out i = Some (Some b)
  | raised _ => exists i a, In i sched /\ nth_error items i = Some a /\ forall b, study a <> ok b
  end.
Proof.
  induction sched as [|i r IH]; intros slots SO; cbn [pool].
  - split; auto. intros i _ [[]|H]; exact H.
  - destruct (nth_error items i) as [a|] eqn:N.
    + destruct (study a) as [x|e] eqn:E; cbn [HyperModel.bind].
      * assert (SO' : slots_ok items (HyperModel.write_slot slots i (Some x))).
        { destruct SO as [S1 S2]. split; [now rewrite write_length|]. intros j a' b Nj. rewrite write_nth. destruct (Nat.eqb_spec i j) as [->|D]; [|now apply S2].
          rewrite N in Nj. injection Nj as <-. destruct (nth_error slots j); cbn; [|discriminate]. congruence. }
        specialize (IH _ SO'). destruct (pool items r _) as [out|e]; [|destruct IH as (j & a' & I & J); exists j, a'; split; [now right|exact J]].
        destruct IH as [I1 I2]. split; auto. intros j L H. apply I2; auto. destruct (Nat.eq_dec i j) as [->|D].
        -- right. exists x. rewrite write_nth, Nat.eqb_refl. destruct (nth_error slots j) eqn:Z; [reflexivity|]. apply nth_error_None in Z. destruct SO. lia.
        -- destruct H as [[H|H]|[b H]]; [congruence|now left|right]. exists b. rewrite write_nth. destruct (Nat.eqb_spec i j); [congruence|exact H].
      * exists i, a. split; [now left|]. split; auto. intros b. congruence.
    + specialize (IH slots SO). destruct (pool items r slots) as [out|e]; [|destruct IH as (j & a' & I & J); exists j, a'; split; [now right|exact J]].
      destruct IH as [I1 I2]. split; auto. intros j L H. apply I2; auto. destruct H as [[->|H]|H]; auto. apply nth_error_None in N. lia.
Qed.
Lemma all_slots_some (l : list (option B)) out : HyperModel.all_slots l = Some out <-> l = map Some out.
Proof.
  revert out. induction l as [|[x|] l IH]; intro out; cbn.
  - split; [intros [= <-]; reflexivity|]. destruct out; [reflexivity|discriminate].
  - destruct (HyperModel.all_slots l) as [o|] eqn:E; cbn.
    + assert (L : l = map Some o) by (apply (IH o); reflexivity). split; [intros [= <-]; cbn; congruence|]. destruct out as [|y out]; [discriminate|]. cbn. intros [= -> H]. apply IH in H. congruence.
    + split; [discriminate|]. destruct out as [|y out]; [discriminate|]. cbn. intros [= -> H]. apply IH in H. congruence.
  - split; [discriminate|]. destruct out; discriminate.
Qed.
Lemma pool_all items sched out : (forall i, (i < length items)%nat -> In i sched) ->
  HyperModel.bind (pool items sched (map (fun _ => None) items)) (fun slots => match HyperModel.all_slots slots with Some l => ok l | None => raised HyperModel.UserErr end) = ok out <->
  Forall2 (fun a b => study a = ok b) items out.
Proof.
  intro C. assert (SO : slots_ok items (map (fun _ => None) items)).
  { split; [apply map_length|]. intros i a b _. rewrite nth_error_map. destruct (nth_error items i); discriminate. }
  assert (F2 : forall (l : list A) (o : list B), length o = length l -> (forall i a b, nth_error l i = Some a -> nth_error o i = Some b -> study a = ok b) -> Forall2 (fun a b => study a = ok b) l o).
  { induction l as [|a l IH]; intros [|b o] L H; try discriminate; constructor; [apply (H 0%nat); reflexivity|]. apply IH; [cbn in L; lia|]. intros i x y I J. exact (H (Datatypes.S i) x y I J). }
  assert (F2' : forall (l : list A) (o : list B), Forall2 (fun a b => study a = ok b) l o -> length o = length l /\ forall i a, nth_error l i = Some a -> exists b, nth_error o i = Some b /\ study a = ok b).
  { induction 1 as [|a b l o E F [IH1 IH2]]; cbn; [split; [reflexivity|]; intros [|i] ?; discriminate|]. split; [lia|]. intros [|i] x I; cbn in *; [injection I as <-; eauto|auto]. }
  pose proof (pool_spec items sched _ SO) as P. destruct (pool items sched _) as [slots|e]; cbn [HyperModel.bind].
  - destruct P as [[P1 P2] P3]. destruct (HyperModel.all_slots slots) as [o|] eqn:E.
    + apply all_slots_some in E. subst slots. rewrite map_length in P1. split.
      * intros [= <-]. apply F2; auto. intros i a b I J. apply (P2 i a b I). now rewrite nth_error_map, J.
      * intro F. f_equal. destruct (F2' _ _ F) as [L H]. clear -L P1 P2 H. assert (G : forall i, nth_error o i = nth_error out i).
        { intro i. destruct (nth_error items i) as [a|] eqn:N.
          - destruct (H i a N) as (b & Ob & Sb). rewrite Ob. destruct (nth_error o i) as [b'|] eqn:O'; [|apply nth_error_None in O'; assert (i < length items)%nat by (apply nth_error_Some; congruence); lia].
            assert (S' : study a = ok b') by (apply (P2 i a b' N); now rewrite nth_error_map, O'). congruence.
          - apply nth_error_None in N. assert (nth_error o i = None) as -> by (apply nth_error_None; lia). symmetry. apply nth_error_None. lia. }
        clear -G. revert out G. induction o as [|x o IH]; intros [|y out] G; auto; [discriminate (G 0%nat)|discriminate (G 0%nat)|]. f_equal; [specialize (G 0%nat); cbn in G; congruence|]. apply IH. intro i. exact (G (Datatypes.S i)).
    + exfalso. assert (X : forall i, (i < length slots)%nat -> exists b, nth_error slots i = Some (Some b)) by (intros i L; apply P3; [lia|left; apply C; lia]).
      clear -E X. induction slots as [|[x|] l IH]; [discriminate| |].
      * cbn in E. destruct (HyperModel.all_slots l) as [o|] eqn:E'; [discriminate|]. apply IH; auto. intros i L. apply (X (Datatypes.S i)). cbn. lia.
      * destruct (X 0%nat) as [b H]; cbn; [lia|]. discriminate.
  - split; [discriminate|]. intro F. destruct (F2' _ _ F) as [_ H]. destruct P as (i & a & _ & N & Z). destruct (H i a N) as (b & _ & Sb). destruct (Z b Sb).
Qed.
End Pool.

Section Studies.
Context {U R : Type}.
Variable all : list sym.
Variable order : list sym -> list sym.
Variable execs : list (symbols R).
Variable base : cfg.
Variable nothing : U.
Variable build : trows R -> list (list sym) -> values -> option (strategy U R).
Variable score_fn : values -> trows R -> port -> HyperModel.res HyperModel.score.
Variable search : window -> (values -> HyperModel.res HyperModel.score) -> HyperModel.res (list HyperModel.trial * (values * HyperModel.score)).
Notation window_study := (window_study all execs base nothing build score_fn search).
Notation objective := (objective all base nothing build score_fn).
Notation studies := (studies all execs base nothing build score_fn search).
Notation optimize_windows := (optimize_windows all order execs base nothing build score_fn search).

Lemma pool_windows_pool m splits sched : forall slots,
  pool_windows all execs base nothing build score_fn search m splits sched slots = pool (fun sp : wsplit => window_study m (fst sp)) splits sched slots.
Proof.
  induction sched as [|i r IH]; intro slots; cbn [pool_windows pool]; auto. destruct (nth_error splits i) as [[train w]|]; auto. cbn [fst].
  destruct (window_study m train) as [x|e]; cbn [HyperModel.bind]; [apply IH|reflexivity].
Qed.
Lemma studies_iff m sched splits rs : everyone_studied (length splits) sched -> (studies m sched splits = ok rs <-> Forall2 (fun sp r => window_study m (fst sp) = ok r) splits rs).
Proof. intro C. unfold studies. rewrite pool_windows_pool. now apply pool_all. Qed.
Lemma study_iff m train r : window_study m train = ok r <->
  resolve (frame_of all train m) execs = Some (ws_syms r) /\ search train (objective m train (ws_syms r)) = ok (ws_study r, (ws_params r, ws_score r)).
Proof.
  unfold window_study. destruct (resolve _ execs) as [ls|]; [|split; [discriminate|intros [? _]; discriminate]].
  destruct (search train (objective m train ls)) as [[ts [p s]]|e] eqn:S; cbn [HyperModel.bind fst snd].
  - split; [intros [= <-]; cbn; auto|]. destruct r as [ls' ts' p' s']. cbn. intros [[= <-] E]. rewrite S in E. injection E as -> -> ->. reflexivity.
  - split; [discriminate|]. intros [[= <-] E]. rewrite S in E. discriminate.
Qed.

(** ** The replay as a walk over plans *)
Definition study_plan (c : cfg) (m : market R) (train : window) : option (strategy U R) :=
  match window_study m train with ok r => replay all nothing build c m train r | raised _ => None end.
Lemma replay_is_plan c m splits : forall rs, Forall2 (fun sp r => window_study m (fst sp) = ok r) splits rs -> forall st,
  replay_windows all order nothing build c m splits rs st = windows_run order true (study_plan c) m splits st.
Proof.
  induction 1 as [|[train w] r splits rs E F IH]; intro st; cbn [replay_windows windows_run]; auto. cbn [fst] in E. unfold study_plan at 1. rewrite E.
  destruct (replay _ _ _ _ _ _ _) as [y|]; auto. destruct (one_window _ _ _ _ _ _ _); auto.
Qed.
Lemma optimize_iff m sched splits q : everyone_studied (length splits) sched -> (optimize_windows m sched splits = ok q <->
  exists train w rest r0 others c, splits = (train, w) :: rest /\ q_windows q = r0 :: others /\
    Forall2 (fun sp r => window_study m (fst sp) = ok r) splits (q_windows q) /\
    replay_cfg all base build m train r0 = Some c /\
    select_run order true (study_plan c) m c nothing splits = Some (q_run q) /\
    q_params q = ws_params (last (q_windows q) r0) /\ q_score q = ws_score (last (q_windows q) r0)).
Proof.
  intro C. unfold optimize_windows. split.
  - destruct (studies m sched splits) as [rs|e] eqn:E; cbn [HyperModel.bind]; [|discriminate]. apply studies_iff in E; auto.
    destruct splits as [|[train w] rest]; [discriminate|]. destruct rs as [|r0 others]; [discriminate|]. destruct (replay_cfg _ _ _ _ _ _) as [c|] eqn:RC; [|discriminate].
    rewrite (replay_is_plan c m _ _ E). destruct (windows_run _ _ _ _ _ _) as [st|] eqn:W; [|discriminate]. intros [= <-]. exists train, w, rest, r0, others, c.
    cbn [q_windows q_params q_score q_run]. repeat (split; [auto; reflexivity|]). reflexivity.
  - intros (train & w & rest & r0 & others & c & -> & Q & F & RC & W & P & S). assert (E : studies m sched ((train, w) :: rest) = ok (q_windows q)) by (now apply studies_iff).
    rewrite E. cbn [HyperModel.bind]. destruct q as [ws p s st]. cbn [q_windows q_params q_score q_run] in *. subst ws. rewrite RC, (replay_is_plan c m _ _ F). unfold select_run in W. rewrite W. now subst p s.
Qed.

(** ** Two markets with the same past *)
Hypothesis EXT : extensional search.
Variable n : nat.
Variables m m' : market R.
Variable T : Z.
Hypothesis WF : well_formed m.
Hypothesis WF' : well_formed m'.
Hypothesis PAST : same_past T m m'.
Hypothesis NEXT : same_next_dates n T m m'.
Hypothesis OK : forall f ls p y, build f ls p = Some y -> strategy_ok y /\ y_all y = all /\ (longest_delay y <= n)%nat.

Lemma frame_past train : (snd train <= T)%Z -> frame_of all train m = frame_of all train m'.
Proof.
  intro L. unfold frame_of. apply map_ext. intro s. f_equal. apply (ascending_unique fst); try (apply ascending_filter; auto).
  intro r. rewrite !filter_In, !inside_within. unfold within. split; intros [I W]; split; auto; apply (PAST s r); auto; lia.
Qed.
(** A run of a window that ends by [T] is the run stopped at [T]. *)
Lemma run_is_until (y : strategy U R) k w : (snd w <= T)%Z -> market_run_until y k T [w] = market_run y k [w].
Proof.
  intro L. unfold market_run_until, market_run. cbn [muntil mwindows]. rewrite (filter_id (fun d => Z.leb d T)); auto.
  intros d I. pose proof (dates_inside y k w d I). lia.
Qed.
Lemma alone_same (y : strategy U R) train : strategy_ok y -> (longest_delay y <= n)%nat -> (snd train <= T)%Z ->
  option_map visible (alone base nothing m train y) = option_map visible (alone base nothing m' train y).
Proof.
  intros YO LD L. unfold alone. set (z := as_run nothing (capped base (y_settings y)) LastOfWindow y).
  rewrite <- !(run_is_until z) by exact L.
  pose proof (until_same z m m' T YO WF WF' PAST (next_fewer _ n T m m' LD NEXT) [train] _ _ (y_init z) (eq_refl (strip (fresh (y_cfg z) 0)))) as UN.
  unfold market_run_until. destruct (muntil z m T [train] _) as [[b u]|], (muntil z m' T [train] _) as [[b' u']|]; cbn in *; try discriminate; auto.
  injection UN as ? ? ? ? ? ? ? ? ? ? ?. unfold visible. cbn [fst snd]. congruence.
Qed.
Lemma objective_same train ls p : (snd train <= T)%Z -> objective m train ls p = objective m' train ls p.
Proof.
  intro L. unfold objective. cbv zeta. rewrite <- (frame_past train L). destruct (build _ ls p) as [y|] eqn:B; auto. destruct (OK _ _ _ _ B) as (YO & _ & LD).
  pose proof (alone_same y train YO LD L) as A. destruct (alone base nothing m train y) as [[b u]|], (alone base nothing m' train y) as [[b' u']|]; cbn in A; try discriminate; auto.
  cbn [fst]. unfold visible in A. cbn [fst snd] in A. injection A as A _ _ _ _. now rewrite A.
Qed.
Lemma study_same train : (snd train <= T)%Z -> window_study m train = window_study m' train.
Proof.
  intro L. unfold window_study. rewrite <- (frame_past train L). destruct (resolve _ execs) as [ls|]; auto.
  rewrite (EXT train _ (objective m' train ls)); auto. intro p. now apply objective_same.
Qed.
Lemma plan_same c train : (snd train <= T)%Z -> study_plan c m train = study_plan c m' train.
Proof. intro L. unfold study_plan, replay. now rewrite <- study_same, <- frame_past. Qed.
Lemma plan_ok c k train y : study_plan c k train = Some y -> strategy_ok y /\ y_all y = all /\ (longest_delay y <= n)%nat /\ y_cfg y = c.
Proof.
  unfold study_plan, replay. destruct (window_study k train) as [r|]; [|discriminate]. destruct (build _ _ _) as [z|] eqn:B; [|discriminate]. cbn [option_map]. intros [= <-].
  destruct (OK _ _ _ _ B) as (A1 & A2 & A3). unfold strategy_ok, longest_delay in *. cbn. tauto.
Qed.
End Studies.

(** ** Position limits *)
Section Limits.
Context {U R : Type}.
Variable c : cfg.
Hypothesis CO : cfg_ok c.
Variable order : list sym -> list sym.
Hypothesis PERM : forall l, Permutation l (order l).
Variable m : market R.
Variable sd : side.
Variable k : nat.
Definition kept_limit (n0 : nat) (b : bstate) : Prop :=
  refined c b /\ max_positions (b_port b) sd = Some k /\ (n_positions (b_port b) sd <= Nat.max k n0)%nat.
Lemma one_call n0 ops p o p' : run c ops = Some p -> exec c (Some p) o = Some p' -> keeps_caps o ->
  max_positions p sd = Some k -> (n_positions p sd <= Nat.max k n0)%nat -> max_positions p' sd = Some k /\ (n_positions p' sd <= Nat.max k n0)%nat.
Proof.
  intros RR E KC M N. assert (R' : run c (ops ++ [o]) = Some p') by (eapply LoopRun.run_snoc; eauto).
  pose proof (exec_bound c o p p' CO (run_good _ _ _ CO RR) (run_good _ _ _ CO R') E) as B.
  assert (B' : side_bound c p p') by (destruct o; cbn in *; tauto || exact B). destruct B' as [B1 [_ B3]]. specialize (B3 sd k M). specialize (B1 sd). split; [|lia].
  destruct sd; cbn in *; congruence.
Qed.
Section Env.
Variable v : env.
Hypothesis CFG : v_cfg v = c.
Lemma limit_op n0 o b b' : kept_limit n0 b -> loop_op o -> do_op v o b = Some b' -> kept_limit n0 b'.
Proof.
  intros (RF & M & N) LO E. split; [eapply refined_op; eauto|]. unfold do_op in E. destruct (step (v_cfg v) o (b_port b)) as [p u|] eqn:S; [|discriminate]. injection E as <-. cbn [set_port b_port].
  destruct RF as [_ RR]. apply (one_call n0 _ _ o p RR); auto; [unfold exec; now rewrite <- CFG, S|destruct o; cbn in *; tauto].
Qed.
Lemma limit_attempt n0 i d x b b' : kept_limit n0 b -> get (n_id x) (b_pend b) = Some x -> attempt_and_settle v i d x b = Some b' -> kept_limit n0 b'.
Proof.
  intros (RF & M & N) G E. split; [eapply refined_attempt; eauto|]. unfold attempt_and_settle in E.
  destruct (attempt v i d x (set_pend (KMark (n_id x)) b)) as [[b1 f]|] eqn:A; [|discriminate].
  destruct (attempt_spec _ _ _ _ _ _ _ A) as [_ [_ H]]. destruct RF as [_ RR].
  assert (R1 : max_positions (b_port b1) sd = Some k /\ (n_positions (b_port b1) sd <= Nat.max k n0)%nat).
  { cbn [set_pend b_port b_ops] in H. destruct H as [[-> _]|[a [z [SE [_ _]]]]]; auto.
    pose proof (se_send _ _ _ _ _ _ _ _ SE) as S. rewrite CFG in S. cbn [set_pend b_port] in S.
    apply (one_call n0 _ _ (send_op (n_type x) a) _ RR); auto; [eapply exec_send; eauto|destruct (n_type x); exact I]. }
  destruct (f || negb (is_persistent_limit x)); injection E as <-; exact R1.
Qed.
Lemma limit_bars n0 dates i b b' : kept_limit n0 b -> bars_from v i dates b = Some b' -> kept_limit n0 b'.
Proof.
  apply (bars_pres v (kept_limit n0) (fun _ => kept_limit n0)); auto.
  - intros w x b0 [[C RR] H]. split; [split; [now apply core_sched|destruct w; exact RR]|destruct w; exact H].
  - intros e b0 [[C RR] H]. split; [split; [now apply core_ends|exact RR]|exact H].
  - intros x b0 [[C RR] H]. split; [split; [now apply core_ctx|exact RR]|exact H].
  - exact (limit_op n0).
  - intros o b0 [[C RR] H] KO. split; [|exact H]. split; [|exact RR]. apply kstate_set; auto. intros j ->. destruct KO.
  - exact (limit_attempt n0).
  - intros d x l cs bs ss z b0 [[C RR] H] _. split; [split; [now apply core_ctx|exact RR]|exact H].
  - intros d j w r l b0 b1 [RF H] E. split; [exact (refined_schedule v c d j w r b0 b1 RF E)|].
    destruct (schedule_order_spec _ _ _ _ _ _ _ E) as [->|[date [iw [a [_ [_ ->]]]]]]; auto. cbv zeta. destruct iw, w; exact H.
  - intros b0 i0 x [[C _] _]. now apply core_get.
  - intros b0 [[C _] _]. exact C.
Qed.
End Env.
Lemma liquidate_fewer (y : strategy U R) w b b' : y_cfg y = c -> refined c b -> liquidate y m order w b = Some b' -> refined c b' /\ (n_positions (b_port b') sd <= n_positions (b_port b) sd)%nat.
Proof.
  intros YC RF E. pose proof (liquidate_spec y m w c CO YC order PERM b RF) as L. rewrite E in L. destruct L as (R' & _ & OUT & STAY & _). split; auto.
  unfold n_positions. assert (G : Good c (b_port b')) by (destruct R' as [_ R']; exact (run_good _ _ _ CO R')).
  pose proof (co_nodup _ _ (gd_core _ _ G) sd) as ND.
  assert (IN : incl (akeys (poss sd (b_port b'))) (akeys (poss sd (b_port b)))).
  { intros s I. apply key_aget in I. destruct I as [pos P]. assert (S : position_of (b_port b') sd s = Some pos) by (destruct sd; exact P).
    destruct (in_dec Nat.eq_dec s (y_syms y)) as [Y|Y].
    - rewrite (STAY s (or_introl Y)) in S. apply (aget_Some_key s pos). destruct sd; exact S.
    - destruct (leave y m w s) as [d|] eqn:LV; [rewrite (OUT s d Y LV) in S; discriminate|]. rewrite (STAY s (or_intror LV)) in S. apply (aget_Some_key s pos). destruct sd; exact S. }
  pose proof (NoDup_incl_length ND IN) as X. unfold akeys in X. now rewrite !map_length in X.
Qed.
Lemma window_limit (y : strategy U R) w T b u st : y_cfg y = c -> limit (y_settings y) sd = Some k -> refined c b ->
  one_window order true m T y w (b, u) = Some st -> kept_limit (n_positions (b_port b) sd) (fst st).
Proof.
  intros YC LM RF. unfold one_window. cbn [fst snd]. destruct (liquidate y m order w b) as [b1|] eqn:L; [|discriminate]. destruct (liquidate_fewer y w b b1 YC RF L) as [R1 N1].
  cbv zeta. intro E. unfold mstart in E. destruct (mbars_bars y m w _ _ _ _ _ E) as [f F]. revert F. apply limit_bars; [exact YC|].
  assert (K : kept_limit (n_positions (b_port b) sd) (push_caps y true b1)).
  { split; [now apply push_refined|]. unfold push_caps. cbn [step]. cbn [b_port set_port]. destruct sd; cbn in *; (split; [exact LM|lia]). }
  destruct K as [[C RR] H]. split; [split; [now apply core_start|exact RR]|exact H].
Qed.
End Limits.
