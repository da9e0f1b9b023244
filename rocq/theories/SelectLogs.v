(** What a run with selection reports of the past. *)
From Verif Require Export SelectSame.

Section Logs.
Context {U R : Type}.
Variable all : list sym.
Variable order : list sym -> list sym.
Variable stitched : bool.
Variable plan : market R -> window -> option (strategy U R).
Variable m : market R.
Variable T : Z.
Hypothesis WF : well_formed m.
Hypothesis PERM : forall l, Permutation l (order l).

Lemma reported_adds d b b' : (T < d)%Z -> adds d (b_port b) (b_port b') -> reported T b' = reported T b.
Proof.
  intros L [[l1 [A1 B1]] [l2 [A2 B2]] [l3 [A3 B3]]]. unfold reported. rewrite A1, A2, A3, !filter_app.
  rewrite (filter_later o_date T d l1 L B1), (filter_later t_exit_date T d l2 L B2), (filter_later b_date T d l3 L B3). now rewrite !app_nil_r.
Qed.
Section One.
Variable y : strategy U R.
Variable w : window.
Lemma exits_later bar l : (forall s d, In s l -> bar s = Some d -> (T < d)%Z) -> forall b b', fold_left (exit_on y m w bar) l (Some b) = Some b' -> reported T b' = reported T b.
Proof.
  assert (NN : forall l, fold_left (exit_on y m w bar) l None = None) by (intro l0; induction l0 as [|s l0 IH]; auto).
  induction l as [|s l IH]; intros L b b' E; cbn [fold_left] in E; [now injection E as <-|].
  destruct (exit_on y m w bar (Some b) s) as [b1|] eqn:X; [|now rewrite NN in E]. rewrite (IH (fun s d I => L s d (or_intror I)) b1 b' E).
  unfold exit_on in X. destruct (bar s) as [d|] eqn:B; [|now injection X as <-].
  destruct (step (y_cfg y) _ (b_port b)) as [p u|p e] eqn:S; [|discriminate]. injection X as <-. apply (reported_adds d); [apply (L s d (or_introl eq_refl) B)|]. cbn [b_port set_port].
  eapply adds_step; [|exact S]. reflexivity.
Qed.
Lemma cancel_port b : b_port (cancel_stale y b) = b_port b.
Proof. unfold cancel_stale. generalize (sorted_set (filter (fun s => negb (chosen y s)) (map n_sym (orders None None (b_pend b))))) as l. intro l. revert b. induction l as [|s l IH]; intro b; cbn [fold_left]; auto. rewrite IH. reflexivity. Qed.
Lemma push_reported b : reported T (push_caps y stitched b) = reported T b.
Proof. unfold push_caps. destruct stitched; reflexivity. Qed.
Lemma liquidate_later b b' : (forall s d, first_bar m w s = Some d -> (T < d)%Z) -> (forall s, first_bar m w s = None -> last_bar y m w s = None) ->
  liquidate y m order w b = Some b' -> reported T b' = reported T b.
Proof.
  intros L1 L2. unfold liquidate. cbv zeta. set (D := dropped y (b_port (cancel_stale y b))).
  set (rest := filter (fun s => match first_bar m w s with Some _ => false | None => true end) D).
  assert (X : reported T (cancel_stale y b) = reported T b) by (unfold reported; now rewrite cancel_port).
  rewrite <- X. set (b0 := cancel_stale y b).
  assert (NN : forall bar l, fold_left (exit_on y m w bar) l None = None) by (intros bar l0; induction l0 as [|s l0 IH]; auto).
  destruct (fold_left (exit_on y m w (first_bar m w)) (order D) (Some b0)) as [b1|] eqn:E1; [|rewrite NN; discriminate].
  intro E2. rewrite <- (exits_later _ _ (fun s d _ => L1 s d) _ _ E1). eapply exits_later; [|exact E2].
  intros s d I B. exfalso. apply (Permutation_in s (Permutation_sym (PERM rest))) in I. unfold rest in I. apply filter_In in I. destruct I as [_ I].
  destruct (first_bar m w s) eqn:F; [discriminate|]. rewrite (L2 s F) in B. discriminate.
Qed.
Hypothesis ALL : y_all y = all.
Hypothesis EV : everyone_trades m all w.
Lemma first_date_of : exists d0, first_date m all w d0 /\ boundary y m w = Some d0.
Proof. destruct EV as [[d0 F] _]. exists d0. split; auto. apply boundary_ok. now rewrite ALL. Qed.
(** A window whose bars are all later than [T] changes nothing reported. *)
Lemma window_later st st' : begun all m T w = false -> one_window order stitched m None y w st = Some st' -> reported T (fst st') = reported T (fst st).
Proof.
  intros B E. destruct st as [b u]. unfold one_window in E. cbn [fst snd] in *. destruct (liquidate y m order w b) as [b1|] eqn:LQ; [|discriminate]. cbv zeta in E.
  assert (LATE : forall s d, In s all -> row_on m s d -> within w d -> (T < d)%Z).
  { intros s d I RO W. destruct (Z.ltb_spec T d); auto. exfalso. assert (X : begun all m T w = true); [|congruence]. apply (begun_iff all order). exists d, s. auto. }
  assert (F1 : forall s d, first_bar m w s = Some d -> (T < d)%Z).
  { intros s d F. apply (first_bar_ok m WF) in F. destruct F as (F2 & F3 & _). apply (LATE s d); auto. apply (proj2 EV s d F2). }
  assert (F2 : forall s, first_bar m w s = None -> last_bar y m w s = None).
  { intros s F. destruct (last_bar y m w s) as [d|] eqn:L; auto. exfalso. destruct first_date_of as (d0 & _ & BO). apply (last_bar_ok y m WF w s d d0 BO) in L. destruct L as [L _].
    destruct (proj2 EV s d L) as [_ (d' & J & K)]. rewrite first_bar_none in F. exact (F d' J K). }
  rewrite <- (liquidate_later b b1 F1 F2 LQ), <- (push_reported b1). transitivity (reported T (fst (mstart y m w (push_caps y stitched b1, u)))); [|reflexivity].
  eapply reported_bars; [|exact E].
  intros d I. apply all_dates_in in I. destruct I as [I [s [J K]]]. rewrite ALL in J. apply (LATE s d J); [now apply row_on_cal|now apply inside_within].
Qed.
Lemma window_cut_reported st st' : one_window order stitched m None y w st = Some st' ->
  exists c, one_window order stitched m (Some T) y w st = Some c /\ reported T (fst st') = reported T (fst c) /\ ((snd w <= T)%Z -> c = st').
Proof.
  intros E. unfold one_window in *. destruct (liquidate y m order w (fst st)) as [b1|]; [|discriminate]. cbv zeta in *.
  rewrite (cut T (all_dates y m w)) in E by apply unique_sorted_ok. rewrite mbars_app in E.
  destruct (mbars y m w 0 (filter (fun d => Z.leb d T) (all_dates y m w)) _) as [h|] eqn:H; [|discriminate]. exists h. split; auto. split.
  - eapply reported_bars; [|exact E]. intros d I. apply filter_In in I. lia.
  - intro L. rewrite (filter_nil (fun d => Z.ltb T d)) in E; [cbn [mbars] in E; congruence|]. intros d I. pose proof (dates_inside y m w d I). lia.
Qed.
End One.
Hypothesis OK : forall train y, plan m train = Some y -> y_all y = all.
Lemma splits_later splits : Forall (fun sp => (T < fst (snd sp))%Z) splits -> (forall train w, In (train, w) splits -> everyone_trades m all w) ->
  forall st st', windows_run order stitched plan m splits st = Some st' -> reported T (fst st') = reported T (fst st).
Proof.
  induction splits as [|[train w] r IH]; intros F EV st st' E; cbn [windows_run] in E; [now injection E as <-|].
  apply Forall_cons_iff in F. destruct F as [F1 F2]. cbn [fst snd] in F1. destruct (plan m train) as [y|] eqn:P; [|discriminate].
  destruct (one_window order stitched m None y w st) as [c|] eqn:O; [|discriminate]. rewrite (IH F2 (fun t x I => EV t x (or_intror I)) c st' E).
  apply (window_later y w (OK train y P) (EV train w (or_introl eq_refl)) st c); auto.
  destruct (begun all m T w) eqn:B; auto. exfalso. apply (begun_iff all order) in B. destruct B as (d & s & _ & _ & W & L). unfold within in W. lia.
Qed.
Lemma until_later splits st : Forall (fun sp => (T < fst (snd sp))%Z) splits -> windows_until all order stitched plan m T splits st = Some st.
Proof.
  induction splits as [|[train w] r IH]; intros F; cbn [windows_until]; auto. apply Forall_cons_iff in F. destruct F as [F1 F2]. cbn [fst snd] in F1.
  destruct (begun all m T w) eqn:B; [|auto]. exfalso. apply (begun_iff all order) in B. destruct B as (d & s & _ & _ & W & L). unfold within in W. lia.
Qed.
Lemma splits_until splits : chronological (map snd splits) -> (forall train w, In (train, w) splits -> everyone_trades m all w) ->
  forall st st', windows_run order stitched plan m splits st = Some st' ->
  exists c, windows_until all order stitched plan m T splits st = Some c /\ reported T (fst st') = reported T (fst c).
Proof.
  induction splits as [|[train w] r IH]; intros CH EV st st' E; cbn [windows_run windows_until] in *; [exists st; injection E as <-; auto|].
  cbn [map chronological snd] in CH. destruct CH as [C1 C2]. destruct (plan m train) as [y|] eqn:P; [|discriminate].
  destruct (one_window order stitched m None y w st) as [c1|] eqn:O; [|discriminate].
  pose proof (EV train w (or_introl eq_refl)) as EW. assert (ER : forall t x, In (t, x) r -> everyone_trades m all x) by (intros t x I; apply (EV t x); now right).
  destruct (Z.leb_spec (snd w) T) as [L|L].
  - assert (B : begun all m T w = true).
    { apply (begun_iff all order). destruct EW as [[d0 (W & [s [I J]] & _)] _]. exists d0, s. unfold within in *. split; auto. split; auto. split; auto. lia. }
    rewrite B. destruct (window_cut_reported y w st c1 O) as (c & C & _ & X). rewrite C, (X L). now apply IH.
  - assert (LT : Forall (fun sp => (T < fst (snd sp))%Z) r).
    { apply Forall_forall. intros sp I. rewrite Forall_forall in C1. specialize (C1 (snd sp) (in_map snd _ _ I)). lia. }
    rewrite (splits_later r LT ER c1 st' E). destruct (begun all m T w) eqn:B.
    + destruct (window_cut_reported y w st c1 O) as (c & C & X & _). rewrite C. exists c. split; auto. now apply until_later.
    + exists st. split; [now apply until_later|]. now apply (window_later y w (OK train y P) EW).
Qed.
End Logs.
