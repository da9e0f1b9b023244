(** The state at the beginning of a window. *)
From Verif Require Export SelectFacts.
From Verif Require Import PendingProofs PortfolioRaise LoopRun.

Section Leave.
Context {U R : Type}.
Variable y : strategy U R.
Variable m : market R.
Variable w : window.
Variable c : cfg.
Hypothesis CO : cfg_ok c.
Hypothesis YC : y_cfg y = c.

(** ** Pending orders *)
Lemma removes_spec l : forall b, refined c b ->
  let b' := fold_left (fun b s => set_pend (KRemoveAll (Some s)) b) l b in
  refined c b' /\ b_port b' = b_port b /\ live (b_kops b') = filter (fun n => negb (nmem (n_sym n) l)) (live (b_kops b)).
Proof.
  induction l as [|s l IH]; intros b RF; cbn [fold_left].
  - split; auto. split; auto. symmetry. rewrite <- (LoopRun.filter_all (live (b_kops b))) at 2. apply filter_ext. reflexivity.
  - assert (R1 : refined c (set_pend (KRemoveAll (Some s)) b)).
    { destruct RF as [C RR]. split; [|exact RR]. apply kstate_set; auto. discriminate. }
    destruct (IH _ R1) as [A [B D]]. split; auto. split; [rewrite B; reflexivity|]. rewrite D. cbn [set_pend b_kops]. rewrite live_snoc. cbn [live_step snd].
    generalize (live (b_kops b)) as L. induction L as [|n L IL]; auto. cbn [filter nmem existsb]. unfold nmem in *. cbn [existsb]. rewrite (Nat.eqb_sym (n_sym n) s).
    destruct (Nat.eqb s (n_sym n)); cbn [negb orb filter]; [exact IL|]. destruct (negb _); [f_equal|]; exact IL.
Qed.
Lemma live_orders b : core b -> orders None None (b_pend b) = live (b_kops b).
Proof. intros [P _ _]. rewrite P, orders_spec. cbn. apply LoopRun.filter_all. Qed.
Lemma cancel_spec b : refined c b ->
  refined c (cancel_stale y b) /\ b_port (cancel_stale y b) = b_port b /\
  orders None None (b_pend (cancel_stale y b)) = filter (fun n => nmem (n_sym n) (y_syms y)) (orders None None (b_pend b)).
Proof.
  intro RF. unfold cancel_stale. destruct (removes_spec (sorted_set (filter (fun s => negb (chosen y s)) (map n_sym (orders None None (b_pend b))))) b RF) as [A [B D]].
  split; auto. split; auto. rewrite (live_orders _ (proj1 A)), (live_orders b (proj1 RF)) in *. rewrite D. apply filter_ext_in. intros n I.
  rewrite <- (negb_involutive (nmem (n_sym n) (y_syms y))). f_equal. apply eq_iff_eq_true. rewrite nmem_in, sorted_set_in, filter_In. unfold chosen. split; [tauto|].
  intro H. split; auto. now apply in_map.
Qed.

(** ** Exits *)
Definition leaves (bar : sym -> option Z) (p : port) (o : order) : Prop :=
  exists sd pos d, position_of p sd (o_sym o) = Some pos /\ bar (o_sym o) = Some d /\ closing_order y m w d sd pos o.
Lemma one_exit bar b s : refined c b ->
  match exit_on y m w bar (Some b) s with
  | Some b' => refined c b' /\ b_pend b' = b_pend b /\ (bar s = None -> b' = b) /\
      (forall d, bar s = Some d -> forall sd, position_of (b_port b') sd s = None) /\
      (forall sd s', s' <> s -> position_of (b_port b') sd s' = position_of (b_port b) sd s') /\
      ((p_orders (b_port b') = p_orders (b_port b) /\ (forall sd pos d, position_of (b_port b) sd s = Some pos -> bar s = Some d -> False)) \/
       exists o, p_orders (b_port b') = p_orders (b_port b) ++ [o] /\ o_sym o = s /\ leaves bar (b_port b) o)
  | None => exists d, bar s = Some d
  end.
Proof.
  intro RF. unfold exit_on. destruct (bar s) as [d|] eqn:B; [|split; auto; split; auto; split; auto; split; [discriminate|]; split; auto; left; split; auto; discriminate].
  set (v := mkView R w d (rows_until (y_all y) d m)). cbn [step]. destruct RF as [C RR]. rewrite YC.
  pose proof (exit_flat_total c (b_ops b) (b_port b) d s (fst (y_exit_fill y v s)) (snd (y_exit_fill y v s)) (y_sm y v) CO RR) as X.
  cbn [step]. destruct (exit_position c d s _ _ _ (b_port b)) as [p' u|p' e] eqn:E; [|exists d; reflexivity]. destruct X as [X1 [X2 [X3 X4]]].
  split; [split|].
  - destruct C as [C1 C2 C3]. constructor; cbn; auto.
  - cbn [b_ops b_port set_port]. eapply run_snoc; eauto. unfold exec. cbn [step]. now rewrite E.
  - split; auto. split; [discriminate|]. split; [intros _ _; exact X1|]. split; [exact X2|]. cbn [b_port set_port].
    assert (HELD : (exists sd pos, position_of (b_port b) sd s = Some pos) \/ forall sd, position_of (b_port b) sd s = None).
    { destruct (position_of (b_port b) Long s) as [pos|] eqn:P1; [left; eauto|]. destruct (position_of (b_port b) Short s) as [pos|] eqn:P2; [left; eauto|]. right. intros []; auto. }
    destruct HELD as [[sd [pos H]]|H].
    + right. destruct (X3 sd pos H) as [o (O1 & O2 & O3 & O4 & O5 & O6 & O7)]. exists o. split; auto. split; auto. exists sd, pos, d. rewrite O2. split; auto. split; auto.
      unfold closing_order. cbv zeta. rewrite O2. change (view_on m (y_all y) w d) with v. auto.
    + left. split; [now rewrite (X4 H)|]. intros sd pos d0 H1. rewrite H in H1. discriminate.
Qed.
Lemma leaves_other bar p p' o : (forall sd, position_of p' sd (o_sym o) = position_of p sd (o_sym o)) -> leaves bar p' o -> leaves bar p o.
Proof. intros H (sd & pos & d & A & B). exists sd, pos, d. rewrite <- H. auto. Qed.
Lemma exit_none bar l : fold_left (exit_on y m w bar) l None = None.
Proof. induction l as [|s l IH]; auto. Qed.
Lemma exits_spec bar l : forall b, NoDup l -> refined c b ->
  match fold_left (exit_on y m w bar) l (Some b) with
  | Some b' => refined c b' /\ b_pend b' = b_pend b /\
      (forall s d, In s l -> bar s = Some d -> forall sd, position_of (b_port b') sd s = None) /\
      (forall s, ~ In s l \/ bar s = None -> forall sd, position_of (b_port b') sd s = position_of (b_port b) sd s) /\
      exists new, p_orders (b_port b') = p_orders (b_port b) ++ new /\ NoDup (map o_sym new) /\
        (forall o, In o new -> In (o_sym o) l /\ leaves bar (b_port b) o) /\
        (forall s sd pos d, In s l -> position_of (b_port b) sd s = Some pos -> bar s = Some d -> In s (map o_sym new))
  | None => exists s d, In s l /\ bar s = Some d
  end.
Proof.
  induction l as [|s l IH]; intros b ND RF; cbn [fold_left].
  - split; auto. split; auto. split; [intros s d []|]. split; auto. exists []. rewrite app_nil_r. split; auto. split; [constructor|]. split; [intros o []|intros s sd pos d []].
  - apply NoDup_cons_iff in ND. destruct ND as [NI ND']. pose proof (one_exit bar b s RF) as X. destruct (exit_on y m w bar (Some b) s) as [b1|]; [|rewrite exit_none; destruct X as [d X]; exists s, d; split; auto; now left].
    destruct X as (R1 & P1 & SAME & OUT & OTH & ORD). specialize (IH b1 ND' R1). destruct (fold_left _ l (Some b1)) as [b'|]; [|destruct IH as (s' & d & I & J); exists s', d; split; auto; now right].
    destruct IH as (R2 & P2 & OUT2 & OTH2 & new & N1 & N2 & N3 & N4). split; auto. split; [congruence|]. split; [|split].
    + intros s' d [<-|I] B sd; [|eauto]. rewrite OTH2 by (now left). eauto.
    + intros s' H sd. rewrite OTH2 by (destruct H as [H|H]; auto; left; intro; apply H; now right).
      destruct (Nat.eq_dec s' s) as [->|NE]; [|now apply OTH]. destruct H as [H|H]; [destruct H; now left|]. now rewrite (SAME H).
    + assert (OLD : forall o, In o new -> leaves bar (b_port b) o).
      { intros o I. destruct (N3 o I) as [J K]. eapply leaves_other; [|exact K]. intro sd. apply OTH. intro E. rewrite E in J. contradiction. }
      assert (SYM : forall s' sd pos d, In s' l -> position_of (b_port b) sd s' = Some pos -> bar s' = Some d -> In s' (map o_sym new)).
      { intros s' sd pos d I H B. apply (N4 s' sd pos d); auto. rewrite OTH; auto. intros ->. contradiction. }
      destruct ORD as [[E NO]|[o (E & OS & LV)]].
      * exists new. split; [congruence|]. split; auto. split; [intros o I; split; [right; now apply N3|auto]|]. intros s' sd pos d [<-|I] H B; [destruct (NO sd pos d H B)|eauto].
      * exists (o :: new). rewrite N1, E, <- app_assoc. split; auto. split.
        { cbn [map]. constructor; auto. rewrite OS. intro I. apply in_map_iff in I. destruct I as [o' [O1 O2]]. destruct (N3 o' O2) as [J _]. rewrite O1 in J. contradiction. }
        split; [intros o' [<-|I]; [split; auto; left; congruence|split; [right; now apply N3|auto]]|].
        intros s' sd pos d [<-|I] H B; cbn [map]; [now left|right; eauto].
Qed.

(** ** Both rounds *)
Variable order : list sym -> list sym.
Hypothesis PERM : forall l, Permutation l (order l).
Lemma order_in s l : In s (order l) <-> In s l.
Proof. split; intro I; [eapply Permutation_in; [apply Permutation_sym, PERM|exact I]|eapply Permutation_in; [apply PERM|exact I]]. Qed.
Lemma order_nodup l : NoDup l -> NoDup (order l).
Proof. intro H. eapply Permutation_NoDup; [apply PERM|exact H]. Qed.
Lemma dropped_in p s : In s (dropped y p) <-> ~ In s (y_syms y) /\ exists sd pos, position_of p sd s = Some pos.
Proof.
  unfold dropped. rewrite sorted_set_in, filter_In, in_app_iff. unfold chosen. rewrite negb_true_iff, <- not_true_iff_false, nmem_in. split.
  - intros [[I|I] H]; (split; [exact H|]); apply key_aget in I; destruct I as [pos I]; [exists Long|exists Short]; eauto.
  - intros [H [sd [pos P]]]. split; auto. apply aget_Some_key in P. destruct sd; [now left|now right].
Qed.
Definition rest (l : list sym) : list sym := filter (fun s => match first_bar m w s with Some _ => false | None => true end) l.
Lemma rest_in s l : In s (rest l) <-> In s l /\ first_bar m w s = None.
Proof. unfold rest. rewrite filter_In. destruct (first_bar m w s); split; intros [A B]; split; auto; discriminate. Qed.
Lemma NoDup_rest l : NoDup l -> NoDup (rest l). Proof. apply NoDup_filter. Qed.
Lemma liquidate_spec b : refined c b ->
  match liquidate y m order w b with
  | Some b' => refined c b' /\
      orders None None (b_pend b') = filter (fun n => nmem (n_sym n) (y_syms y)) (orders None None (b_pend b)) /\
      (forall s d, ~ In s (y_syms y) -> leave y m w s = Some d -> forall sd, position_of (b_port b') sd s = None) /\
      (forall s, In s (y_syms y) \/ leave y m w s = None -> forall sd, position_of (b_port b') sd s = position_of (b_port b) sd s) /\
      exists new, p_orders (b_port b') = p_orders (b_port b) ++ new /\ NoDup (map o_sym new) /\
        (forall o, In o new -> ~ In (o_sym o) (y_syms y) /\ leaves (leave y m w) (b_port b) o) /\
        (forall s sd pos d, ~ In s (y_syms y) -> position_of (b_port b) sd s = Some pos -> leave y m w s = Some d -> In s (map o_sym new))
  | None => exists s sd pos d, ~ In s (y_syms y) /\ position_of (b_port b) sd s = Some pos /\ leave y m w s = Some d
  end.
Proof.
  intro RF. unfold liquidate. destruct (cancel_spec b RF) as [R0 [P0 K0]]. cbv zeta. set (b0 := cancel_stale y b) in *.
  set (D := dropped y (b_port b0)). assert (DN : NoDup D) by apply sorted_set_nodup.
  assert (DI : forall s, In s D <-> ~ In s (y_syms y) /\ exists sd pos, position_of (b_port b) sd s = Some pos) by (intro s; unfold D; rewrite P0; apply dropped_in).
  pose proof (exits_spec (first_bar m w) (order D) b0 (order_nodup _ DN) R0) as X1. rewrite P0 in X1.
  assert (FL : forall s d, first_bar m w s = Some d -> leave y m w s = Some d) by (intros s d E; unfold leave; now rewrite E).
  assert (LL : forall s, first_bar m w s = None -> leave y m w s = last_bar y m w s) by (intros s E; unfold leave; now rewrite E).
  destruct (fold_left (exit_on y m w (first_bar m w)) (order D) (Some b0)) as [b1|].
  2:{ rewrite exit_none. destruct X1 as (s & d & I & F). apply (proj1 (order_in _ _)), DI in I. destruct I as [I [sd [pos J]]]. exists s, sd, pos, d. auto. }
  destruct X1 as (R1 & K1 & OUT1 & OTH1 & new1 & N1 & N2 & N3 & N4).
  fold (rest D). pose proof (exits_spec (last_bar y m w) (order (rest D)) b1 (order_nodup _ (NoDup_rest _ DN)) R1) as X2.
  destruct (fold_left (exit_on y m w (last_bar y m w)) (order (rest D)) (Some b1)) as [b2|].
  2:{ destruct X2 as (s & d & I & F). apply (proj1 (order_in _ _)), rest_in in I. destruct I as [I FB]. apply DI in I. destruct I as [I [sd [pos J]]]. exists s, sd, pos, d. rewrite LL; auto. }
  destruct X2 as (R2 & K2 & OUT2 & OTH2 & new2 & M1 & M2 & M3 & M4). split; auto. split; [congruence|].
  assert (RI : forall s, In s (order (rest D)) <-> In s D /\ first_bar m w s = None) by (intro s; rewrite order_in, rest_in; tauto).
  split; [|split].
  - intros s d NS LV sd. destruct (position_of (b_port b) sd s) as [pos|] eqn:H.
    + assert (I : In s D) by (apply DI; eauto). destruct (first_bar m w s) as [x|] eqn:F.
      * rewrite OTH2 by (left; rewrite RI, F; intros [_ ?]; discriminate). apply (OUT1 s x); auto. now apply order_in.
      * rewrite LL in LV by auto. apply (OUT2 s d); auto. apply RI. auto.
    + destruct (in_dec Nat.eq_dec s D) as [I|I].
      * destruct (first_bar m w s) as [x|] eqn:F.
        -- rewrite OTH2 by (left; rewrite RI, F; intros [_ ?]; discriminate). apply (OUT1 s x); auto. now apply order_in.
        -- rewrite LL in LV by auto. apply (OUT2 s d); auto. apply RI. auto.
      * rewrite OTH2 by (left; rewrite RI; tauto). rewrite OTH1 by (left; rewrite order_in; tauto). exact H.
  - intros s H sd. destruct H as [H|H].
    + rewrite OTH2 by (left; rewrite RI, DI; tauto). apply OTH1. left. rewrite order_in, DI. tauto.
    + unfold leave in H. destruct (first_bar m w s) eqn:F; [discriminate|]. rewrite OTH2 by (now right). apply OTH1. now right.
  - exists (new1 ++ new2). rewrite M1, N1, <- app_assoc. split; auto.
    assert (PS : forall s, first_bar m w s = None -> forall sd, position_of (b_port b1) sd s = position_of (b_port b) sd s) by (intros s F; apply OTH1; now right).
    split.
    { rewrite map_app. apply NoDup_join; auto. intros s I J. apply in_map_iff in I, J. destruct I as [o [<- I]], J as [o' [E J]].
      destruct (N3 o I) as [_ (sd & pos & d & _ & F & _)]. destruct (M3 o' J) as [G _]. apply RI in G. rewrite E in G. rewrite F in G. destruct G; discriminate. }
    split.
    { intros o I. apply in_app_iff in I. destruct I as [I|I].
      - destruct (N3 o I) as [J (sd & pos & d & A1 & A2 & A3)]. apply (proj1 (order_in _ _)), DI in J. split; [tauto|]. exists sd, pos, d. auto.
      - destruct (M3 o I) as [J (sd & pos & d & A1 & A2 & A3)]. apply RI in J. destruct J as [J F]. split; [apply DI in J; tauto|]. exists sd, pos, d. rewrite <- PS by auto. rewrite LL by auto. auto. }
    intros s sd pos d NS H LV. assert (I : In s D) by (apply DI; eauto). rewrite map_app. apply in_app_iff. destruct (first_bar m w s) as [x|] eqn:F.
    + left. apply (N4 s sd pos x); auto. now apply order_in.
    + right. apply (M4 s sd pos d); [apply RI; auto|rewrite PS; auto|rewrite <- LL; auto].
Qed.
(** With positive prices and no slippage model no exit raises. *)
Lemma exits_return bar l : (forall v s, y_sm y v = None /\ 0 < fst (y_exit_fill y v s) /\ 0 < snd (y_exit_fill y v s)) ->
  forall b, refined c b -> exists b', fold_left (exit_on y m w bar) l (Some b) = Some b' /\ refined c b'.
Proof.
  intros PR. induction l as [|s l IH]; intros b RF; cbn [fold_left]; [eauto|].
  pose proof (one_exit bar b s RF) as X. destruct (exit_on y m w bar (Some b) s) as [b1|] eqn:E; [apply IH; tauto|]. exfalso.
  unfold exit_on in E. destruct (bar s) as [d|]; [|discriminate]. set (v := mkView R w d (rows_until (y_all y) d m)) in *. cbn [step] in E. rewrite YC in E. destruct (PR v s) as [P1 [P2 P3]].
  destruct RF as [_ RR]. rewrite P1 in E. destruct (exit_returns c (b_ops b) (b_port b) d s _ _ CO RR P2 P3) as [p' X']. cbn [step] in E. rewrite X' in E. discriminate.
Qed.
Lemma liquidate_returns b : (forall v s, y_sm y v = None /\ 0 < fst (y_exit_fill y v s) /\ 0 < snd (y_exit_fill y v s)) -> refined c b ->
  exists b', liquidate y m order w b = Some b'.
Proof.
  intros PR RF. unfold liquidate. cbv zeta. destruct (cancel_spec b RF) as [R0 _]. destruct (exits_return (first_bar m w) (order (dropped y (b_port (cancel_stale y b)))) PR _ R0) as [b1 [E1 R1]].
  rewrite E1. destruct (exits_return (last_bar y m w) (order (rest (dropped y (b_port (cancel_stale y b))))) PR _ R1) as [b2 [E2 _]]. exists b2. exact E2.
Qed.
End Leave.

(** ** Every window *)
Section Every.
Context {U R : Type}.
Variable c : cfg.
Hypothesis CO : cfg_ok c.
Variable order : list sym -> list sym.
Hypothesis PERM : forall l, Permutation l (order l).
Variable stitched : bool.
Variable plan : market R -> window -> option (strategy U R).
Variable m : market R.
Hypothesis PLAN : forall train y, plan m train = Some y -> y_cfg y = c.
Lemma push_refined (y : strategy U R) b : y_cfg y = c -> refined c b -> refined c (push_caps y stitched b).
Proof.
  intros YC RF. unfold push_caps. destruct stitched; auto. destruct RF as [C RR]. cbn [step]. split.
  - destruct C as [C1 C2 C3]. constructor; cbn; auto.
  - cbn [b_ops b_port set_port]. eapply run_snoc; eauto.
Qed.
Lemma window_refined (y : strategy U R) w b u st : y_cfg y = c -> refined c b -> one_window order stitched m None y w (b, u) = Some st -> refined c (fst st).
Proof.
  intros YC RF. unfold one_window. cbn [fst snd]. pose proof (liquidate_spec y m w c CO YC order PERM b RF) as L. destruct (liquidate y m order w b) as [b1|]; [|discriminate]. destruct L as [L _].
  cbv zeta. set (b2 := push_caps y stitched b1). intro E. assert (R2 : refined c b2) by (now apply push_refined).
  unfold mstart in E. destruct (mbars_bars y m w _ _ _ _ _ E) as [f F]. apply (refined_backtest (env_of y m w f) c YC b2); auto.
Qed.
Lemma run_refined splits : forall st st', refined c (fst st) -> windows_run order stitched plan m splits st = Some st' -> refined c (fst st').
Proof.
  induction splits as [|[train w] r IH]; intros [b u] st' RF E; cbn [windows_run] in E; [now injection E as <-|].
  destruct (plan m train) as [y|] eqn:P; [|discriminate]. destruct (one_window order stitched m None y w (b, u)) as [st1|] eqn:O; [|discriminate].
  apply (IH st1); auto. eapply window_refined; eauto.
Qed.
End Every.
