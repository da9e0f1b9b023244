From Coq Require Import List String Bool Sorted Arith NArith Lia.
From Verif Require Import ColsModel ColsSpec.
Import ListNotations.
Local Open Scope string_scope.

Section Sets.
Lemma mem_in x l : mem x l = true <-> In x l.
Proof. unfold mem. rewrite existsb_exists. split; [intros (y & H & E); apply String.eqb_eq in E; subst; exact H | intros H; exists x; split; [exact H | apply String.eqb_refl]]. Qed.
Lemma mem_out x l : mem x l = false <-> ~ In x l.
Proof. rewrite <- mem_in. destruct (mem x l); split; intros H; try congruence; try tauto. Qed.
Lemma set_update_in x names s : In x (set_update s names) <-> In x s \/ In x names.
Proof.
  unfold set_update. revert s. induction names as [|n r IH]; intros s; cbn [fold_left].
  - cbn; tauto.
  - rewrite IH. destruct (mem n s) eqn:E; cbn [In].
    + apply mem_in in E. split; [intuition | intros [H|[H|H]]; subst; auto].
    + tauto.
Qed.
Lemma set_update_nodup names s : NoDup s -> NoDup (set_update s names).
Proof.
  unfold set_update. revert s. induction names as [|n r IH]; intros s H; cbn [fold_left]; [exact H|].
  apply IH. destruct (mem n s) eqn:E; [exact H|]. constructor; [apply mem_out; exact E | exact H].
Qed.
Lemma set_minus_in x names s : In x (set_minus s names) <-> In x s /\ ~ In x names.
Proof. unfold set_minus. rewrite filter_In, negb_true_iff, mem_out. tauto. Qed.
Lemma insert_in x y l : In x (insert y l) <-> x = y \/ In x l.
Proof.
  induction l as [|z r IH]; cbn [insert]; [cbn; intuition|].
  destruct (String.leb y z); cbn [In]; [intuition | rewrite IH; intuition].
Qed.
Lemma sorted_in x l : In x (sorted l) <-> In x l.
Proof. unfold sorted. induction l as [|y r IH]; cbn [fold_right]; [tauto|]. rewrite insert_in, IH. cbn. intuition. Qed.
Lemma compare_trans_lt a b c : String.compare a b = Lt -> String.compare b c = Lt -> String.compare a c = Lt.
Proof.
  revert b c. induction a as [|x a IH]; intros [|y b] [|z c] H H0; cbn in *; try congruence.
  unfold Ascii.compare in *.
  destruct (N.compare_spec (Ascii.N_of_ascii x) (Ascii.N_of_ascii y)) as [E|E|E]; try congruence;
  destruct (N.compare_spec (Ascii.N_of_ascii y) (Ascii.N_of_ascii z)) as [F|F|F]; try congruence;
  destruct (N.compare_spec (Ascii.N_of_ascii x) (Ascii.N_of_ascii z)) as [G|G|G]; try congruence; try lia.
  eapply IH; eauto.
Qed.
Lemma leb_cases a b : String.leb a b = true -> a = b \/ String.compare a b = Lt.
Proof. unfold String.leb. destruct (String.compare a b) eqn:E; intros H; auto; [left; apply String.compare_eq_iff; exact E | discriminate]. Qed.
Lemma leb_false a b : String.leb a b = false -> String.compare b a = Lt.
Proof. unfold String.leb. rewrite (String.compare_antisym b a). destruct (String.compare a b); cbn; congruence. Qed.
Lemma insert_sorted x l : StronglySorted before l -> ~ In x l -> StronglySorted before (insert x l).
Proof.
  induction l as [|y r IH]; intros H N; cbn [insert]; [repeat constructor|].
  inversion H as [|? ? H1 H2]; subst. destruct (String.leb x y) eqn:E.
  - apply leb_cases in E. destruct E as [E|E]; [subst; exfalso; apply N; left; reflexivity|].
    constructor; [exact H|]. constructor; [exact E|].
    rewrite Forall_forall in *. intros z Hz. eapply compare_trans_lt; [exact E | apply H2; exact Hz].
  - apply leb_false in E. constructor.
    + apply IH; [exact H1 | intros Q; apply N; right; exact Q].
    + rewrite Forall_forall in *. intros z Hz. apply insert_in in Hz. destruct Hz as [->|Hz]; [exact E | apply H2; exact Hz].
Qed.
Lemma sorted_sorted l : NoDup l -> StronglySorted before (sorted l).
Proof.
  unfold sorted. induction l as [|x r IH]; intros H; cbn [fold_right]; [constructor|].
  inversion H; subst. apply insert_sorted; [apply IH; assumption | intros Q; apply (proj1 (sorted_in x r)) in Q; contradiction].
Qed.
End Sets.

(** The registry after [es]. *)
Definition clean (s : scope) : Prop :=
  (frozen s = false /\ snap_all s = None /\ snap_ordered s = None /\ snap_bar s = None) \/
  (frozen s = true /\ snap_all s = Some (set_update default_cols (custom s)) /\ snap_ordered s = Some (build_ordered s) /\ snap_bar s = Some (build_ordered s)).
Definition holds (es : list event) (s : scope) : Prop :=
  NoDup (custom s) /\ clean s /\ (forall n, In n (custom s) <-> (said es n true /\ ~ In n standard)).

Definition quiet (e : event) : Prop := match e with Did_register _ _ | Did_unregister _ _ => False | _ => True end.
Lemma asks_in a args n : asks a args n <-> In n (all_names a args).
Proof.
  unfold asks, all_names. destruct a as [m|l]; cbn [In].
  - split; [intros [H|[(l & H & _)|H]]; [injection H; auto | discriminate | auto] | intros [->|H]; auto].
  - rewrite in_app_iff. split; [intros [H|[(l' & H & K)|H]]; [discriminate | injection H as ->; auto | auto] | intros [H|H]; eauto].
Qed.
Lemma said_quiet es e n b : quiet e -> said (es ++ [e]) n b <-> said es n b.
Proof.
  intros Q. split; intros H.
  - inversion H as [m E1|es' a args m H1 E1|es' a args m H1 E1|es' e' m b' H1 H2 E1].
    + destruct es; discriminate.
    + apply app_inj_tail in E1. destruct E1 as [_ <-]. destruct Q.
    + apply app_inj_tail in E1. destruct E1 as [_ <-]. destruct Q.
    + apply app_inj_tail in E1. destruct E1 as [<- _]. exact H2.
  - apply said_before; [|exact H]. intros a args [->| ->]; destruct Q.
Qed.
Lemma said_reg es a args n b : said (es ++ [Did_register a args]) n b <-> (In n (all_names a args) /\ b = true) \/ (~ In n (all_names a args) /\ said es n b).
Proof.
  rewrite <- asks_in. split.
  - intros H. inversion H as [m E1|es' a' args' m H1 E1|es' a' args' m H1 E1|es' e' m b' H1 H2 E1]; subst.
    + destruct es; discriminate.
    + apply app_inj_tail in E1. destruct E1 as [_ E1]. injection E1 as -> ->. left; auto.
    + apply app_inj_tail in E1. destruct E1 as [_ E1]. discriminate.
    + apply app_inj_tail in E1. destruct E1 as [-> ->]. right. split; [apply H1; left; reflexivity | exact H2].
  - intros [[H ->]|[H1 H2]]; [apply said_register; exact H|]. apply said_before; [|exact H2]. intros a' args' [E|E]; congruence.
Qed.
Lemma said_unreg es a args n b : said (es ++ [Did_unregister a args]) n b <-> (In n (all_names a args) /\ b = false) \/ (~ In n (all_names a args) /\ said es n b).
Proof.
  rewrite <- asks_in. split.
  - intros H. inversion H as [m E1|es' a' args' m H1 E1|es' a' args' m H1 E1|es' e' m b' H1 H2 E1]; subst.
    + destruct es; discriminate.
    + apply app_inj_tail in E1. destruct E1 as [_ E1]. discriminate.
    + apply app_inj_tail in E1. destruct E1 as [_ E1]. injection E1 as -> ->. left; auto.
    + apply app_inj_tail in E1. destruct E1 as [-> ->]. right. split; [apply H1; right; reflexivity | exact H2].
  - intros [[H ->]|[H1 H2]]; [apply said_unregister; exact H|]. apply said_before; [|exact H2]. intros a' args' [E|E]; congruence.
Qed.
Lemma holds_quiet es e s : quiet e -> holds es s -> holds (es ++ [e]) s.
Proof. intros Q (H1 & H2 & H3). repeat split; auto; intros; [apply said_quiet; auto; apply H3; auto | apply H3; auto | apply H3; rewrite <- (said_quiet es e n true Q); tauto]. Qed.
Lemma holds_init : holds [] init.
Proof.
  split; [constructor|]. split; [left; repeat split|]. intros n. cbn. split; [tauto|]. intros [H _].
  inversion H as [|es' a args m H1 E1|es' a args m H1 E1|es' e' m b' H1 H2 E1]; destruct es'; discriminate.
Qed.

Lemma in_dec_s (n : string) l : {In n l} + {~ In n l}.
Proof. apply in_dec, string_dec. Qed.
Lemma register_holds es s a args s' : holds es s -> register s a args = Some s' -> holds (es ++ [Did_register a args]) s'.
Proof.
  unfold register. intros (H1 & H2 & H3) E. destruct (frozen s) eqn:F; [discriminate|]. injection E as <-.
  split; cbn [custom]; [apply set_update_nodup; exact H1|]. split.
  - destruct H2 as [H2|[H2 _]]; [|congruence]. left. cbn. tauto.
  - intros n. rewrite set_update_in, H3, said_reg, filter_In. rewrite (negb_true_iff (mem n default_cols)), (mem_out n default_cols). change default_cols with standard.
    destruct (in_dec_s n (all_names a args)); tauto.
Qed.
Lemma unregister_holds es s a args s' : holds es s -> unregister s a args = Some s' -> holds (es ++ [Did_unregister a args]) s'.
Proof.
  unfold unregister. intros (H1 & H2 & H3) E. destruct (frozen s) eqn:F; [discriminate|]. injection E as <-.
  split; cbn [custom]; [apply NoDup_filter; exact H1|]. split.
  - destruct H2 as [H2|[H2 _]]; [|congruence]. left. cbn. tauto.
  - intros n. rewrite set_minus_in, H3, said_unreg. split; [tauto|]. intros [[[_ D]|D] D2]; [discriminate|tauto].
Qed.
Lemma look_clean s : clean s -> look s = mk_view (set_update default_cols (custom s)) (build_ordered s) (sorted (custom s)) (build_ordered s).
Proof.
  unfold look, all_cols, bar_cols, ordered_cols.
  intros [(E1 & E2 & E3 & E4)|(E1 & E2 & E3 & E4)]; rewrite E2, E3, E4; reflexivity.
Qed.
Lemma nodup_standard : NoDup default_cols.
Proof. unfold default_cols. repeat (constructor; [cbn; intuition discriminate|]). constructor. Qed.
Lemma look_sees es s : holds es s -> sees es (look s).
Proof.
  intros (H1 & H2 & H3). rewrite (look_clean s H2). unfold sees, build_ordered; cbn [v_all v_ordered v_custom v_bar]. split.
  - exists (sorted (custom s)). repeat split; auto.
    + apply sorted_sorted; exact H1.
    + apply H3, sorted_in; assumption.
    + apply H3, sorted_in; assumption.
    + intros [A B]. apply sorted_in, H3; auto.
  - split; [reflexivity|]. split; [apply set_update_nodup, nodup_standard|].
    intros n. rewrite set_update_in, in_app_iff, sorted_in. reflexivity.
Qed.
Lemma freeze_holds es s : holds es s -> holds es (freeze s).
Proof. intros (H1 & H2 & H3). split; [exact H1|]. split; [right; repeat split | exact H3]. Qed.
Lemma unfreeze_holds es s : holds es s -> holds es (unfreeze s).
Proof. intros (H1 & H2 & H3). split; [exact H1|]. split; [left; repeat split | exact H3]. Qed.

(** Readings along the way. *)
Definition reads (h es : list event) : Prop := forall es1 v es2, es = (es1 ++ Saw v :: es2)%list -> sees (h ++ es1) v.
Lemma reads_nil h : reads h [].
Proof. intros [|? ?] v es2 E; discriminate. Qed.
Lemma reads_app h a b : reads h a -> reads (h ++ a) b -> reads h (a ++ b).
Proof.
  intros Ha Hb es1 v es2 E.
  revert h Ha Hb es1 E. induction a as [|x a IH]; intros h Ha Hb es1 E; cbn [app] in *.
  - rewrite app_nil_r in Hb. apply (Hb es1 v es2 E).
  - destruct es1 as [|y es1]; cbn [app] in E; injection E as E0 E.
    + subst x. specialize (Ha [] v a eq_refl). exact Ha.
    + subst y. replace (h ++ x :: es1)%list with ((h ++ [x]) ++ es1)%list by (rewrite <- app_assoc; reflexivity).
      apply IH; [| |exact E].
      * intros c u d F. specialize (Ha (x :: c) u d). cbn [app] in Ha. rewrite <- app_assoc. cbn [app]. apply Ha. rewrite F. reflexivity.
      * rewrite <- app_assoc. exact Hb.
Qed.
Lemma reads_one_quiet h e : (forall v, e <> Saw v) -> reads h [e].
Proof. intros N [|x es1] v es2 E; cbn in E; injection E as E0 E; [congruence|]. destruct es1; discriminate. Qed.

Lemma eval_holds p : forall h s s' es r, holds h s -> eval p s = (s', es, r) -> holds (h ++ es) s' /\ reads h es.
Proof.
  induction p as [|a args|a args|k IH| |p IHp q IHq|p IHp q IHq|p IHp q IHq]; intros h s s' es r H E; cbn [eval] in E.
  - injection E as <- <- <-. rewrite app_nil_r. split; [exact H | apply reads_nil].
  - destruct (register s a args) as [s1|] eqn:R; injection E as <- <- <-.
    + split; [eapply register_holds; eauto | apply reads_one_quiet; discriminate].
    + split; [apply holds_quiet; [exact I|exact H] | apply reads_one_quiet; discriminate].
  - destruct (unregister s a args) as [s1|] eqn:R; injection E as <- <- <-.
    + split; [eapply unregister_holds; eauto | apply reads_one_quiet; discriminate].
    + split; [apply holds_quiet; [exact I|exact H] | apply reads_one_quiet; discriminate].
  - destruct (eval (k (look s)) s) as [[s1 es1] r1] eqn:E1. injection E as <- <- <-.
    destruct (IH (look s) (h ++ [Saw (look s)])%list s s1 es1 r1 (holds_quiet _ (Saw _) _ I H) E1) as [A B].
    rewrite <- app_assoc in A. cbn [app] in A. split; [exact A|].
    change (Saw (look s) :: es1) with ([Saw (look s)] ++ es1)%list. apply reads_app; [|exact B].
    intros [|x c] v d F; cbn in F; injection F as F0 F.
    + subst v. rewrite app_nil_r. apply look_sees; exact H.
    + destruct c; discriminate.
  - injection E as <- <- <-. rewrite app_nil_r. split; [exact H | apply reads_nil].
  - destruct (eval p s) as [[s1 es1] r1] eqn:E1. destruct (IHp _ _ _ _ _ H E1) as [A B]. destruct r1.
    + injection E as <- <- <-. auto.
    + destruct (eval q s1) as [[s2 es2] r2] eqn:E2. injection E as <- <- <-. destruct (IHq _ _ _ _ _ A E2) as [C D].
      rewrite app_assoc. split; [exact C | apply reads_app; assumption].
  - destruct (eval p s) as [[s1 es1] r1] eqn:E1. destruct (IHp _ _ _ _ _ H E1) as [A B]. destruct r1.
    + destruct (eval q s1) as [[s2 es2] r2] eqn:E2. injection E as <- <- <-. destruct (IHq _ _ _ _ _ A E2) as [C D].
      rewrite app_assoc. split; [exact C | apply reads_app; assumption].
    + injection E as <- <- <-. auto.
  - destruct (eval p s) as [[s1 es1] r1] eqn:E1. destruct (IHp _ _ _ _ _ H E1) as [A B]. destruct r1.
    + injection E as <- <- <-. auto.
    + destruct (eval q (freeze s1)) as [[s2 es2] r2] eqn:E2. injection E as <- <- <-.
      pose proof (freeze_holds _ _ (holds_quiet _ Started _ I A)) as A'.
      destruct (IHq _ _ _ _ _ A' E2) as [C D].
      pose proof (unfreeze_holds _ _ (holds_quiet _ Ended _ I C)) as C'.
      repeat rewrite <- app_assoc in C'. cbn [app] in C'. split; [exact C'|].
      apply reads_app; [exact B|].
      change (Started :: es2 ++ [Ended])%list with ([Started] ++ (es2 ++ [Ended]))%list.
      apply reads_app; [apply reads_one_quiet; discriminate|].
      apply reads_app; [exact D | apply reads_one_quiet; discriminate].
Qed.

(** Whether the columns are locked. *)
Lemma run_unfrozen p : forall s s' es r, frozen s = false -> eval p s = (s', es, r) -> frozen s' = false.
Proof.
  induction p as [|a args|a args|k IH| |p IHp q IHq|p IHp q IHq|p IHp q IHq]; intros s s' es r H E; cbn [eval] in E.
  - injection E as <- <- <-. exact H.
  - unfold register in E. rewrite H in E. injection E as <- <- <-. reflexivity.
  - unfold unregister in E. rewrite H in E. injection E as <- <- <-. reflexivity.
  - destruct (eval (k (look s)) s) as [[s1 es1] r1] eqn:E1. injection E as <- <- <-. eapply IH; eauto.
  - injection E as <- <- <-. exact H.
  - destruct (eval p s) as [[s1 es1] r1] eqn:E1. pose proof (IHp _ _ _ _ H E1) as A. destruct r1.
    + injection E as <- <- <-. auto.
    + destruct (eval q s1) as [[s2 es2] r2] eqn:E2. injection E as <- <- <-. eauto.
  - destruct (eval p s) as [[s1 es1] r1] eqn:E1. pose proof (IHp _ _ _ _ H E1) as A. destruct r1.
    + destruct (eval q s1) as [[s2 es2] r2] eqn:E2. injection E as <- <- <-. eauto.
    + injection E as <- <- <-. auto.
  - destruct (eval p s) as [[s1 es1] r1] eqn:E1. pose proof (IHp _ _ _ _ H E1) as A. destruct r1.
    + injection E as <- <- <-. auto.
    + destruct (eval q (freeze s1)) as [[s2 es2] r2] eqn:E2. injection E as <- <- <-. reflexivity.
Qed.

(** The depth of runs, from a depth. *)
Definition depth (d : nat) (es : list event) : nat := fold_left (fun n e => match e with Started => S n | Ended => pred n | _ => n end) es d.
Lemma depth_app d a b : depth d (a ++ b) = depth (depth d a) b.
Proof. apply fold_left_app. Qed.
Lemma eval_depth p : forall s s' es r d, eval p s = (s', es, r) -> depth d es = d.
Proof.
  induction p as [|a args|a args|k IH| |p IHp q IHq|p IHp q IHq|p IHp q IHq]; intros s s' es r d E; cbn [eval] in E.
  - injection E as <- <- <-. reflexivity.
  - destruct (register s a args); injection E as <- <- <-; reflexivity.
  - destruct (unregister s a args); injection E as <- <- <-; reflexivity.
  - destruct (eval (k (look s)) s) as [[s1 es1] r1] eqn:E1. injection E as <- <- <-. cbn. eapply IH; eauto.
  - injection E as <- <- <-. reflexivity.
  - destruct (eval p s) as [[s1 es1] r1] eqn:E1. destruct r1.
    + injection E as <- <- <-. eauto.
    + destruct (eval q s1) as [[s2 es2] r2] eqn:E2. injection E as <- <- <-. rewrite depth_app. rewrite (IHp _ _ _ _ d E1). eauto.
  - destruct (eval p s) as [[s1 es1] r1] eqn:E1. destruct r1.
    + destruct (eval q s1) as [[s2 es2] r2] eqn:E2. injection E as <- <- <-. rewrite depth_app. rewrite (IHp _ _ _ _ d E1). eauto.
    + injection E as <- <- <-. eauto.
  - destruct (eval p s) as [[s1 es1] r1] eqn:E1. destruct r1.
    + injection E as <- <- <-. eauto.
    + destruct (eval q (freeze s1)) as [[s2 es2] r2] eqn:E2. injection E as <- <- <-.
      rewrite depth_app. rewrite (IHp _ _ _ _ d E1). change (Started :: es2 ++ [Ended])%list with ([Started] ++ (es2 ++ [Ended]))%list.
      rewrite !depth_app. cbn. rewrite (IHq _ _ _ _ (S d) E2). reflexivity.
Qed.

(** Splitting what happened. *)
Definition each (P : nat -> event -> Prop) (d : nat) (es : list event) : Prop :=
  forall es1 e es2, es = (es1 ++ e :: es2)%list -> P (depth d es1) e.
Lemma each_nil P d : each P d [].
Proof. intros es1 e es2 E; destruct es1; discriminate. Qed.
Lemma each_cons (P : nat -> event -> Prop) d e es : P d e -> each P (depth d [e]) es -> each P d (e :: es).
Proof.
  intros H1 H2 [|x es1] f es2 E; cbn [app] in E; injection E as E0 E; [subst; exact H1|].
  subst x. change (e :: es1) with ([e] ++ es1)%list. rewrite depth_app. eapply H2; eauto.
Qed.
Lemma each_app (P : nat -> event -> Prop) d a b : each P d a -> each P (depth d a) b -> each P d (a ++ b).
Proof.
  revert d. induction a as [|x a IH]; intros d Ha Hb; [exact Hb|]. cbn [app]. apply each_cons.
  - apply (Ha [] x a eq_refl).
  - apply IH.
    + intros c e f F. specialize (Ha (x :: c) e f). cbn [app] in Ha. rewrite F in Ha. apply Ha; reflexivity.
    + change (depth (depth d [x]) a) with (depth d (x :: a)). exact Hb.
Qed.

Definition refused_inside (d : nat) (e : event) : Prop := e = Refused -> d > 0.
Lemma eval_refused p : forall s s' es r d, (frozen s = true -> d > 0) -> eval p s = (s', es, r) -> each refused_inside d es /\ (frozen s' = true -> d > 0).
Proof.
  induction p as [|a args|a args|k IH| |p IHp q IHq|p IHp q IHq|p IHp q IHq]; intros s s' es r d H E; cbn [eval] in E.
  - injection E as <- <- <-. split; [apply each_nil | exact H].
  - unfold register in E. destruct (frozen s) eqn:F; injection E as <- <- <-.
    + split; [apply each_cons; [intros _; auto | apply each_nil] | auto].
    + split; [apply each_cons; [intros D; discriminate | apply each_nil] | cbn; congruence].
  - unfold unregister in E. destruct (frozen s) eqn:F; injection E as <- <- <-.
    + split; [apply each_cons; [intros _; auto | apply each_nil] | auto].
    + split; [apply each_cons; [intros D; discriminate | apply each_nil] | cbn; congruence].
  - destruct (eval (k (look s)) s) as [[s1 es1] r1] eqn:E1. injection E as <- <- <-.
    destruct (IH _ _ _ _ _ d H E1) as [A B]. split; [|exact B]. apply each_cons; [intros D; discriminate | exact A].
  - injection E as <- <- <-. split; [apply each_nil | exact H].
  - destruct (eval p s) as [[s1 es1] r1] eqn:E1. destruct (IHp _ _ _ _ d H E1) as [A B]. destruct r1.
    + injection E as <- <- <-. auto.
    + destruct (eval q s1) as [[s2 es2] r2] eqn:E2. injection E as <- <- <-. destruct (IHq _ _ _ _ d B E2) as [C D].
      split; [|exact D]. apply each_app; [exact A|]. rewrite (eval_depth _ _ _ _ _ d E1). exact C.
  - destruct (eval p s) as [[s1 es1] r1] eqn:E1. destruct (IHp _ _ _ _ d H E1) as [A B]. destruct r1.
    + destruct (eval q s1) as [[s2 es2] r2] eqn:E2. injection E as <- <- <-. destruct (IHq _ _ _ _ d B E2) as [C D].
      split; [|exact D]. apply each_app; [exact A|]. rewrite (eval_depth _ _ _ _ _ d E1). exact C.
    + injection E as <- <- <-. auto.
  - destruct (eval p s) as [[s1 es1] r1] eqn:E1. destruct (IHp _ _ _ _ d H E1) as [A B]. destruct r1.
    + injection E as <- <- <-. auto.
    + destruct (eval q (freeze s1)) as [[s2 es2] r2] eqn:E2. injection E as <- <- <-.
      assert (F : frozen (freeze s1) = true -> S d > 0) by lia.
      destruct (IHq _ _ _ _ (S d) F E2) as [C D]. split; [|cbn; discriminate].
      apply each_app; [exact A|]. rewrite (eval_depth _ _ _ _ _ d E1).
      apply each_cons; [intros X; discriminate|]. cbn [depth fold_left].
      apply each_app; [exact C|]. apply each_cons; [intros X; discriminate | apply each_nil].
Qed.

(** Plain programs in locked columns. *)
Definition still (v : view) (e : event) : Prop := match e with Did_register _ _ | Did_unregister _ _ | Started | Ended => False | Saw w => w = v | Refused => True end.
Lemma plain_locked p : plain p -> forall s s' es r, frozen s = true -> eval p s = (s', es, r) -> s' = s /\ Forall (still (look s)) es.
Proof.
  induction 1 as [|a args|a args|k Hk IH| |p q Hp IHp Hq IHq|p q Hp IHp Hq IHq]; intros s s' es r F E; cbn [eval] in E.
  - injection E as <- <- <-. split; [reflexivity | constructor].
  - unfold register in E. rewrite F in E. injection E as <- <- <-. split; [reflexivity | repeat constructor].
  - unfold unregister in E. rewrite F in E. injection E as <- <- <-. split; [reflexivity | repeat constructor].
  - destruct (eval (k (look s)) s) as [[s1 es1] r1] eqn:E1. injection E as <- <- <-.
    destruct (IH _ _ _ _ _ F E1) as [A B]. split; [exact A | constructor; [reflexivity | exact B]].
  - injection E as <- <- <-. split; [reflexivity | constructor].
  - destruct (eval p s) as [[s1 es1] r1] eqn:E1. destruct (IHp _ _ _ _ F E1) as [-> A]. destruct r1.
    + injection E as <- <- <-. auto.
    + destruct (eval q s) as [[s2 es2] r2] eqn:E2. injection E as <- <- <-. destruct (IHq _ _ _ _ F E2) as [-> C].
      split; [reflexivity | apply Forall_app; auto].
  - destruct (eval p s) as [[s1 es1] r1] eqn:E1. destruct (IHp _ _ _ _ F E1) as [-> A]. destruct r1.
    + destruct (eval q s) as [[s2 es2] r2] eqn:E2. injection E as <- <- <-. destruct (IHq _ _ _ _ F E2) as [-> C].
      split; [reflexivity | apply Forall_app; auto].
    + injection E as <- <- <-. auto.
Qed.

(** What happens in a program whose runs start no runs: outside runs nothing is refused, and each
    run is a block in which nothing changes. *)
Inductive blocks : list event -> Prop :=
| b_nil : blocks []
| b_out e es : e <> Started -> e <> Ended -> e <> Refused -> blocks es -> blocks (e :: es)
| b_run v mid es : Forall (still v) mid -> blocks es -> blocks (Started :: mid ++ Ended :: es).
Lemma blocks_app a b : blocks a -> blocks b -> blocks (a ++ b).
Proof.
  induction 1 as [|e es H1 H2 H3 H IH|v mid es H1 H IH]; intros B; cbn [app]; [exact B| |].
  - apply b_out; auto.
  - rewrite <- app_assoc. cbn [app]. eapply b_run; eauto.
Qed.
Lemma plain_blocks p : plain p -> forall s s' es r, frozen s = false -> eval p s = (s', es, r) -> blocks es.
Proof.
  induction 1 as [|a args|a args|k Hk IH| |p q Hp IHp Hq IHq|p q Hp IHp Hq IHq]; intros s s' es r F E; cbn [eval] in E.
  - injection E as <- <- <-. constructor.
  - unfold register in E. rewrite F in E. injection E as <- <- <-. repeat constructor; discriminate.
  - unfold unregister in E. rewrite F in E. injection E as <- <- <-. repeat constructor; discriminate.
  - destruct (eval (k (look s)) s) as [[s1 es1] r1] eqn:E1. injection E as <- <- <-.
    apply b_out; try discriminate. eapply IH; eauto.
  - injection E as <- <- <-. constructor.
  - destruct (eval p s) as [[s1 es1] r1] eqn:E1. destruct r1.
    + injection E as <- <- <-. eauto.
    + destruct (eval q s1) as [[s2 es2] r2] eqn:E2. injection E as <- <- <-. apply blocks_app; [eauto|].
      eapply IHq; [eapply run_unfrozen; eauto | eauto].
  - destruct (eval p s) as [[s1 es1] r1] eqn:E1. destruct r1.
    + destruct (eval q s1) as [[s2 es2] r2] eqn:E2. injection E as <- <- <-. apply blocks_app; [eauto|].
      eapply IHq; [eapply run_unfrozen; eauto | eauto].
    + injection E as <- <- <-. eauto.
Qed.
Lemma one_blocks p : one_at_a_time p -> forall s s' es r, frozen s = false -> eval p s = (s', es, r) -> blocks es.
Proof.
  induction 1 as [p Hp|k Hk IH|p q Hp IHp Hq IHq|p q Hp IHp Hq IHq|p q Hp IHp Hq]; intros s s' es r F E.
  - eapply plain_blocks; eauto.
  - cbn [eval] in E. destruct (eval (k (look s)) s) as [[s1 es1] r1] eqn:E1. injection E as <- <- <-.
    apply b_out; try discriminate. eapply IH; eauto.
  - cbn [eval] in E. destruct (eval p s) as [[s1 es1] r1] eqn:E1. destruct r1.
    + injection E as <- <- <-. eauto.
    + destruct (eval q s1) as [[s2 es2] r2] eqn:E2. injection E as <- <- <-. apply blocks_app; [eauto|].
      eapply IHq; [eapply run_unfrozen; eauto | eauto].
  - cbn [eval] in E. destruct (eval p s) as [[s1 es1] r1] eqn:E1. destruct r1.
    + destruct (eval q s1) as [[s2 es2] r2] eqn:E2. injection E as <- <- <-. apply blocks_app; [eauto|].
      eapply IHq; [eapply run_unfrozen; eauto | eauto].
    + injection E as <- <- <-. eauto.
  - cbn [eval] in E. destruct (eval p s) as [[s1 es1] r1] eqn:E1. destruct r1.
    + injection E as <- <- <-. eauto.
    + destruct (eval q (freeze s1)) as [[s2 es2] r2] eqn:E2. injection E as <- <- <-.
      apply blocks_app; [eauto|]. destruct (plain_locked q Hq (freeze s1) s2 es2 r2 eq_refl E2) as [_ A].
      eapply b_run; [exact A | constructor].
Qed.

Lemma still_depth v d mid : Forall (still v) mid -> depth d mid = d.
Proof. induction 1 as [|e r H H' IH]; [reflexivity|]. destruct e; try destruct H; exact IH. Qed.
Definition lock_ok (d : nat) (e : event) : Prop := (forall a args, e = Did_register a args \/ e = Did_unregister a args -> d = 0) /\ (e = Refused -> d > 0).
Lemma blocks_locked es : blocks es -> each lock_ok 0 es.
Proof.
  induction 1 as [|e es H1 H2 H3 H IH|v mid es H1 H IH]; [apply each_nil| |].
  - apply each_cons; [split; [reflexivity | intros; congruence]|].
    replace (depth 0 [e]) with 0 by (destruct e; try reflexivity; congruence). exact IH.
  - apply each_cons; [split; [intros a args [D|D]; discriminate | discriminate]|]. cbn [depth fold_left].
    apply each_app.
    + clear -H1. induction H1 as [|e r K K' IHr]; [apply each_nil|]. apply each_cons.
      * split; [intros a args [->| ->]; destruct K | lia].
      * replace (depth 1 [e]) with 1 by (destruct e; try reflexivity; destruct K). exact IHr.
    + rewrite (still_depth v 1 mid H1). apply each_cons; [split; [intros a args [D|D]; discriminate | discriminate]|]. exact IH.
Qed.
Lemma blocks_constant es : blocks es -> constant_in_runs es.
Proof.
  induction 1 as [|e es H1 H2 H3 H IH|v mid es H1 H IH]; intros es1 m es2 a b E N Ia Ib.
  - destruct es1; discriminate.
  - destruct es1 as [|x es1]; cbn [app] in E; injection E as E0 E; [congruence|]. eapply IH; eauto.
  - destruct es1 as [|x es1]; cbn [app] in E.
    + injection E as E. assert (G : forall u, In (Saw u) m -> u = v).
      { clear -H1 E N. revert m E N. induction H1 as [|e r K K' IHr]; intros m E N u Iu.
        - destruct m as [|y m]; [destruct Iu|]. cbn [app] in E. injection E as E0 E. exfalso. subst y. specialize (N [Ended] m eq_refl). cbn in N. lia.
        - destruct m as [|y m]; [destruct Iu|]. cbn [app] in E. injection E as E0 E. subst y.
          destruct Iu as [->|Iu]; [exact K|]. eapply IHr; eauto. intros m1 m2 Hm. specialize (N (e :: m1) m2). cbn [app] in N. rewrite Hm in N. specialize (N eq_refl).
          destruct e; try destruct K; exact N. }
      rewrite (G a Ia), (G b Ib). reflexivity.
    + injection E as _ E. revert es1 E. induction H1 as [|e r K K' IHr]; intros es1 E.
      * cbn [app] in E. destruct es1 as [|y es1]; cbn [app] in E; injection E as E0 E; [discriminate|]. eapply IH; eauto.
      * cbn [app] in E. destruct es1 as [|y es1]; cbn [app] in E; injection E as E0 E; [subst e; destruct K|]. eapply IHr; eauto.
Qed.
