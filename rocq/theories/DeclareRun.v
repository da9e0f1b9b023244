(** Lemmas for C85: what a run prepares. *)
From Verif Require Import Tac NameProofs DeclareProofs.
From Verif Require Export DeclareSpec.
Open Scope list_scope.
Open Scope nat_scope.

(** ** Histories *)
Lemma known_step st e a : known st a -> known (event_step st e) a.
Proof.
  intros (K1 & K2 & K3). destruct e as [i|s|h|b]; cbn [event_step].
  - unfold register_ind. destruct (validate_source_name (i_name i)); cbn; [|now split].
    split; [exact K1|]. split; [|exact K3]. intros j t D. destruct (K2 j t D) as [r R]. eapply registered_keeps; eauto.
  - unfold register_source. destruct (validate_source_name (s_name s)); cbn; [|now split].
    split; [|split; [exact K2|exact K3]]. intros j t D. destruct (K1 j t D) as [r R]. eapply registered_keeps; eauto.
  - split; [exact K1|]. split; [exact K2|]. intros j D. destruct (K3 j D) as [r R]. eapply registered_keeps; eauto.
  - now split.
Qed.
Lemma run_from evs : forall st acc, sound st -> Forall2 declared_as acc (t_execs (st_strategy st)) -> Forall (known st) acc ->
  let st' := fold_left event_step evs st in
  sound st' /\ Forall2 declared_as (acc ++ accepted_from st evs) (t_execs (st_strategy st')) /\ Forall (known st') (acc ++ accepted_from st evs).
Proof.
  induction evs as [|e evs IH]; intros st acc S0 F K; cbn [fold_left accepted_from]; [rewrite app_nil_r; auto|].
  rewrite app_assoc. apply IH; [now apply sound_step| |].
  - destruct e as [i|s|h|a]; rewrite ?app_nil_r; cbn [event_step].
    + unfold register_ind. now destruct (validate_source_name (i_name i)).
    + unfold register_source. now destruct (validate_source_name (s_name s)).
    + exact F.
    + cbn [st_strategy]. destruct (add_step (st_scope st) a (st_strategy st)) as [(e & -> & -> & _)|(x & -> & -> & _ & D & _)].
      * now rewrite app_nil_r.
      * apply Forall2_app; [easy|]. constructor; [easy|constructor].
  - assert (K' : Forall (known (event_step st e)) acc) by (eapply Forall_impl; [|exact K]; intros b; apply known_step).
    destruct e as [i|s|h|a]; rewrite ?app_nil_r; try exact K'.
    destruct (add_step (st_scope st) a (st_strategy st)) as [(e & -> & _)|(x & -> & _ & _ & _ & _ & A)]; [now rewrite app_nil_r|].
    apply Forall_app. split; [exact K'|]. constructor; [|constructor]. exact (declared_known _ _ _ A).
Qed.
Lemma sound_start : sound start.
Proof.
  unfold sound. cbn. split; [now inversion 1|]. split; [now inversion 1|]. split; [intros [|] ? ? ?; discriminate|].
  split; [easy|constructor].
Qed.
Lemma run_all evs : sound (after evs) /\ Forall2 declared_as (accepted evs) (executions evs) /\ Forall (known (after evs)) (accepted evs).
Proof. apply (run_from evs start []); [apply sound_start|constructor|constructor]. Qed.

(** ** Windows *)
Definition same_but_symbols (x y : execution) : Prop :=
  x_id y = x_id x /\ x_models y = x_models x /\ x_inds y = x_inds x /\ x_intervals y = x_intervals x /\ x_hypers y = x_hypers x.
Lemma resolve_ok select loaded : forall execs seen w, resolve_executions select loaded execs seen = Ok w ->
  Forall2 (fun x y => same_but_symbols x y /\ exists l, x_symbols y = Some l /\ resolve_symbols select loaded x = Ok l) execs w /\
  (forall i y ly s, nth_error w i = Some y -> x_symbols y = Some ly -> In s ly -> ~ In s seen) /\
  (forall i j y z ly lz s, nth_error w i = Some y -> nth_error w j = Some z -> x_symbols y = Some ly -> x_symbols z = Some lz -> In s ly -> In s lz -> i = j).
Proof.
  induction execs as [|x execs IH]; intros seen w H; cbn [resolve_executions] in H.
  - injection H as <-. split; [constructor|]. split; intros [|]; discriminate.
  - apply bind_ok in H as (l & L & H). destruct (existsb (fun s => nmem s seen) l) eqn:E; [discriminate|].
    apply bind_ok in H as (t & T & [= <-]). destruct (IH _ _ T) as (F & D & U).
    assert (N : forall s, In s l -> ~ In s seen).
    { intros s I J. assert (existsb (fun s => nmem s seen) l = true); [|congruence]. apply existsb_exists. exists s. split; [easy|]. now apply nmem_iff. }
    split; [|split].
    + constructor; [|exact F]. split; [unfold same_but_symbols; cbn; auto|]. exists l. split; [reflexivity|easy].
    + intros [|i] y ly s Y Ey I J; cbn in Y.
      * injection Y as <-. cbn in Ey. injection Ey as <-. now apply (N s).
      * apply (D i y ly s Y Ey I). apply in_app_iff. now left.
    + intros [|i] [|j] y z ly lz s Y Z Ey Ez Iy Iz; cbn in Y, Z; [easy| | |].
      * injection Y as <-. cbn in Ey. injection Ey as <-. exfalso. apply (D j z lz s Z Ez Iz). apply in_app_iff. now right.
      * injection Z as <-. cbn in Ez. injection Ez as <-. exfalso. apply (D i y ly s Y Ey Iy). apply in_app_iff. now right.
      * f_equal. eapply U; eauto.
Qed.
(** The symbols an execution of a window runs for. *)
Definition window_symbols (select : nat -> option (list nat)) (loaded : list nat) (x y : execution) : Prop :=
  same_but_symbols x y /\ exists l, x_symbols y = Some l /\
    (x_symbols x = Some l \/ x_symbols x = None /\ select (x_id x) = Some l /\ l <> [] /\ forall s, In s l -> In s loaded).
Lemma repeats_iff l : repeats l = false <-> NoDup l.
Proof.
  induction l as [|s l IH]; cbn; [split; [constructor|reflexivity]|]. rewrite orb_false_iff, IH, NoDup_cons_iff, <- not_true_iff_false, nmem_iff. reflexivity.
Qed.
Lemma resolve_symbols_iff select loaded x l : resolve_symbols select loaded x = Ok l <->
  x_symbols x = Some l \/ x_symbols x = None /\ select (x_id x) = Some l /\ l <> [] /\ NoDup l /\ forall s, In s l -> In s loaded.
Proof.
  unfold resolve_symbols. destruct (x_symbols x) as [l0|].
  - split; [intros [= ->]; now left|]. intros [[= ->]|[H _]]; [reflexivity|discriminate].
  - destruct (select (x_id x)) as [[|s0 r]|] eqn:E.
    + split; [discriminate|]. intros [H|(_ & [= <-] & N & _)]; [discriminate|now destruct N].
    + destruct (repeats (s0 :: r)) eqn:R; cbn [orb].
      * split; [discriminate|]. intros [H|(_ & [= <-] & _ & N & _)]; [discriminate|]. apply repeats_iff in N. congruence.
      * apply repeats_iff in R. destruct (forallb (fun s => nmem s loaded) (s0 :: r)) eqn:Q; cbn [negb].
        -- rewrite forallb_forall in Q. split.
           ++ intros [= <-]. right. split; [easy|]. split; [easy|]. split; [discriminate|]. split; [exact R|]. intros s I. apply nmem_iff. now apply Q.
           ++ intros [H|(_ & [= <-] & _)]; [discriminate|reflexivity].
        -- split; [discriminate|]. intros [H|(_ & [= <-] & _ & _ & I)]; [discriminate|]. exfalso. apply not_true_iff_false in Q. apply Q.
           apply forallb_forall. intros s J. apply nmem_iff. now apply I.
    + split; [discriminate|]. intros [H|(_ & H & _)]; discriminate.
Qed.
Lemma resolve_symbols_ok select loaded x l : resolve_symbols select loaded x = Ok l ->
  x_symbols x = Some l \/ x_symbols x = None /\ select (x_id x) = Some l /\ l <> [] /\ forall s, In s l -> In s loaded.
Proof.
  unfold resolve_symbols. destruct (x_symbols x); [intros [= ->]; now left|]. destruct (select (x_id x)) as [[|s0 r]|] eqn:E; try discriminate.
  destruct (repeats (s0 :: r) || negb (forallb (fun s => nmem s loaded) (s0 :: r))) eqn:Q; [discriminate|]. intros [= <-]. right.
  apply orb_false_iff in Q as [_ Q]. apply negb_false_iff in Q. rewrite forallb_forall in Q. split; [easy|]. split; [easy|]. split; [discriminate|].
  intros s I. apply nmem_iff. auto.
Qed.
Lemma window_ok select loaded evs w : window_executions select loaded (executions evs) = Ok w ->
  Forall2 (window_symbols select loaded) (executions evs) w /\
  (forall i j y z ly lz s, nth_error w i = Some y -> nth_error w j = Some z -> x_symbols y = Some ly -> x_symbols z = Some lz -> In s ly -> In s lz -> i = j).
Proof.
  unfold window_executions. destruct (existsb is_selector (executions evs)) eqn:E; intro H.
  - apply resolve_ok in H as (F & _ & U). split; [|exact U]. clear U E. induction F as [|x y ? ? [M (l & L & R)]]; constructor; [|easy].
    split; [exact M|]. exists l. split; [easy|]. eapply resolve_symbols_ok; eauto.
  - injection H as <-. destruct (run_all evs) as ((_ & _ & U & _) & _ & _). split; [|exact U].
    clear U. induction (executions evs) as [|x l IH]; cbn in E; constructor.
    + apply orb_false_iff in E as [E _]. unfold is_selector in E. destruct (x_symbols x) as [l'|] eqn:X; [|discriminate].
      split; [unfold same_but_symbols; auto|]. exists l'. auto.
    + apply IH. now apply orb_false_iff in E.
Qed.
(** The symbols of an execution: its own or those its selector returns. *)
Definition picks (select : nat -> option (list nat)) (x : execution) (l : list nat) : Prop :=
  x_symbols x = Some l \/ x_symbols x = None /\ select (x_id x) = Some l.
Lemma resolve_accepts select loaded : forall execs seen,
  (forall x, In x execs -> x_symbols x = None -> exists l, select (x_id x) = Some l /\ l <> [] /\ NoDup l /\ forall s, In s l -> In s loaded) ->
  (forall i j x y lx ly s, nth_error execs i = Some x -> nth_error execs j = Some y -> picks select x lx -> picks select y ly -> In s lx -> In s ly -> i = j) ->
  (forall x l s, In x execs -> picks select x l -> In s l -> ~ In s seen) ->
  exists w, resolve_executions select loaded execs seen = Ok w.
Proof.
  induction execs as [|x execs IH]; intros seen V D S; cbn [resolve_executions]; [now exists []|].
  assert (R : exists l, resolve_symbols select loaded x = Ok l /\ picks select x l).
  { destruct (x_symbols x) as [l|] eqn:X.
    - exists l. split; [apply resolve_symbols_iff; now left|now left].
    - destruct (V x (or_introl eq_refl) X) as (l & E & N & ND & I). exists l. split; [apply resolve_symbols_iff; right; now repeat split|right; now split]. }
  destruct R as (l & R & P). rewrite R. cbn [bind].
  destruct (existsb (fun s => nmem s seen) l) eqn:E.
  { exfalso. apply existsb_exists in E as (s & I & J). apply nmem_iff in J. exact (S x l s (or_introl eq_refl) P I J). }
  destruct (IH (seen ++ l)) as [w W].
  - intros y Y. apply V. now right.
  - intros i j y z ly lz s Y Z Py Pz Iy Iz. assert (E2 : Datatypes.S i = Datatypes.S j); [|now injection E2]. exact (D (Datatypes.S i) (Datatypes.S j) y z ly lz s Y Z Py Pz Iy Iz).
  - intros y ly s Y Py Iy J. apply in_app_iff in J as [J|J]; [exact (S y ly s (or_intror Y) Py Iy J)|].
    apply In_nth_error in Y as [k Y]. pose proof (D (Datatypes.S k) 0%nat y x ly l s Y eq_refl Py P Iy J). discriminate.
  - rewrite W. cbn [bind]. now eexists.
Qed.
Lemma Forall2_compose {A B C} (P : A -> B -> Prop) (Q : B -> C -> Prop) l m n : Forall2 P l m -> Forall2 Q m n ->
  Forall2 (fun a c => exists b, P a b /\ Q b c) l n.
Proof. intro F. revert n. induction F; inversion 1; subst; constructor; eauto. Qed.
(** The executions of a window against the accepted requests. *)
Lemma window_declared select loaded evs w : window_executions select loaded (executions evs) = Ok w ->
  Forall2 (fun a y => exists x, declared_as a x /\ window_symbols select loaded x y) (accepted evs) w.
Proof. intro H. apply window_ok in H as [F _]. destruct (run_all evs) as (_ & G & _). eapply Forall2_compose; eauto. Qed.
Lemma declared_window select loaded a x y : declared_as a x -> window_symbols select loaded x y ->
  (forall n, In n (x_models y) <-> exists s t, declares_model a s t /\ variant_name (s_name s) t n) /\
  (forall n, In n (x_inds y) <-> exists i t, declares_ind a i t /\ variant_name (i_name i) t n) /\
  (forall j, In j (x_intervals y) <-> declares_interval a j) /\
  (forall n, In n (x_hypers y) <-> declares_hyper a n).
Proof. intros (_ & A & B & C & D) ((_ & -> & -> & -> & ->) & _). auto. Qed.

(** ** Intervals *)
Lemma existsb_interval j l : existsb (interval_eqb j) l = true <-> In j l.
Proof. rewrite existsb_exists. split; [intros (x & I & E); apply interval_eqb_iff in E; now subst|]. intro I. exists j. split; [easy|]. now apply interval_eqb_iff. Qed.
Lemma ctx_interval_ok x i j : ctx_interval x i = Ok j <-> normal_form i j /\ In j (x_intervals x).
Proof.
  unfold ctx_interval. destruct (normalize_interval i) as [k|] eqn:N.
  - apply normalize_iff in N. destruct (existsb (interval_eqb k) (x_intervals x)) eqn:E.
    + apply existsb_interval in E. split; [intros [= <-]; easy|]. intros [M I]. apply normalize_iff in N, M. congruence.
    + split; [discriminate|]. intros [M I]. assert (k = j) as -> by (apply normalize_iff in N, M; congruence). apply existsb_interval in I. congruence.
  - split; [discriminate|]. intros [M _]. apply normalize_iff in M. congruence.
Qed.
Lemma ctx_interval_raise x i : (forall j, normal_form i j -> ~ In j (x_intervals x)) -> ctx_interval x i = Raise ValueError.
Proof.
  intro H. unfold ctx_interval. destruct (normalize_interval i) as [k|] eqn:N; [|easy]. destruct (existsb (interval_eqb k) (x_intervals x)) eqn:E; [|easy].
  exfalso. apply existsb_interval in E. apply normalize_iff in N. eapply H; eauto.
Qed.
Lemma compressed_iff execs frame s j : In (s, j) (compressed_pairs execs frame) <->
  In s frame /\ exists x, In x execs /\ In j (x_intervals x) /\ (x_symbols x = None \/ exists l, x_symbols x = Some l /\ In s l).
Proof.
  unfold compressed_pairs. rewrite in_concat. split.
  - intros (l & I & J). apply in_map_iff in I as (s' & <- & I). apply in_map_iff in J as (j' & [= -> ->] & J). split; [easy|].
    unfold symbol_intervals in J. apply in_app_iff in J as [J|J].
    + apply in_concat in J as (l & X & J). apply in_map_iff in X as (x & E & X). destruct (nmem s (static_symbols x)) eqn:M; subst l; [|easy].
      exists x. split; [easy|]. split; [easy|]. apply nmem_iff in M. unfold static_symbols in M. destruct (x_symbols x); [right; eauto|easy].
    + destruct (nmem s frame); [|easy]. apply in_concat in J as (l & X & J). apply in_map_iff in X as (x & E & X).
      destruct (x_symbols x) eqn:Q; subst l; [easy|]. exists x. auto.
  - intros (I & x & X & J & K). eexists. split; [apply in_map_iff; eexists; split; [reflexivity|exact I]|]. apply in_map. unfold symbol_intervals.
    apply in_app_iff. destruct K as [K|(l & L & M)].
    + right. rewrite (proj2 (nmem_iff s frame) I). apply in_concat. exists (x_intervals x). split; [|easy]. apply in_map_iff. exists x. now rewrite K.
    + left. apply in_concat. exists (x_intervals x). split; [|easy]. apply in_map_iff. exists x. split; [|easy].
      unfold static_symbols. rewrite L. now rewrite (proj2 (nmem_iff s l) M).
Qed.
Lemma build_ok blank valid execs frame pairs : build_interval_data blank valid execs frame = Ok pairs ->
  (forall s j, In (s, j) pairs <-> In s frame /\ exists x, In x execs /\ In j (x_intervals x) /\ (x_symbols x = None \/ exists l, x_symbols x = Some l /\ In s l)) /\
  (forall x j, In x execs -> In j (x_intervals x) -> blank = false /\ valid j = true).
Proof.
  unfold build_interval_data. destruct (all_intervals execs) as [|j0 l] eqn:E.
  - assert (N : forall x j, In x execs -> In j (x_intervals x) -> False).
    { intros x j X J. assert (Q : In j (all_intervals execs)) by (apply in_concat; exists (x_intervals x); split; [now apply in_map|easy]). rewrite E in Q. exact Q. }
    intros [= <-]. split; [|intros; exfalso; eauto]. intros s j. split; [easy|]. intros (_ & x & X & J & _). exfalso. eauto.
  - rewrite <- E. clear E. destruct blank; [discriminate|]. destruct (forallb valid (all_intervals execs)) eqn:V; [|discriminate].
    intros [= <-]. split; [intros; apply compressed_iff|]. intros x j X J. split; [easy|]. rewrite forallb_forall in V. apply V.
    apply in_concat. exists (x_intervals x). split; [now apply in_map|easy].
Qed.
Lemma build_raise blank valid execs frame e : build_interval_data blank valid execs frame = Raise e ->
  e = ValueError /\ exists x j, In x execs /\ In j (x_intervals x) /\ (blank = true \/ valid j = false).
Proof.
  unfold build_interval_data. destruct (all_intervals execs) as [|j0 l] eqn:E; [discriminate|]. rewrite <- E.
  assert (M : forall j, In j (all_intervals execs) -> exists x, In x execs /\ In j (x_intervals x)).
  { intros j J. apply in_concat in J as (l' & I & J). apply in_map_iff in I as (x & <- & X). eauto. }
  destruct blank.
  - intros [= <-]. split; [easy|]. destruct (M j0) as (x & X & J); [rewrite E; now left|]. exists x, j0. auto.
  - destruct (forallb valid (all_intervals execs)) eqn:V; [discriminate|]. intros [= <-]. split; [easy|].
    clear E. assert (exists j, In j (all_intervals execs) /\ valid j = false) as (j & J & W).
    { induction (all_intervals execs) as [|y r IH]; cbn in V; [discriminate|]. destruct (valid y) eqn:Y; [|exists y; split; [now left|easy]].
      destruct IH as (j & J & W); [intros; apply M; now right|easy|]. exists j. split; [now right|easy]. }
    destruct (M j J) as (x & X & K). exists x, j. auto.
Qed.

(** ** Indicators and models *)
Lemma declares_normal a s j : declares_model a s (Some j) -> normal_form j j.
Proof. intros (e & _ & B). inversion B; subst. eapply normal_form_idem; eauto. Qed.
Lemma declares_normal_ind a i j : declares_ind a i (Some j) -> normal_form j j.
Proof. intros (e & _ & B). inversion B; subst. eapply normal_form_idem; eauto. Qed.
Lemma variant_of_ok t ind n : (forall j, t = Some j -> normal_form j j) -> (variant_of t ind = Ok n <-> variant_name ind t n).
Proof.
  intro N. destruct t as [j|]; cbn.
  - specialize (N j eq_refl). rewrite <- (name_iff ind j j n N). destruct (indicator_interval_name ind j); split; congruence.
  - split; [intros [= ->]; constructor|]. inversion 1; now subst.
Qed.
Lemma variant_of_total t ind : (forall j, t = Some j -> normal_form j j) -> exists n, variant_of t ind = Ok n.
Proof.
  intro N. destruct t as [j|]; cbn; [|eauto]. specialize (N j eq_refl).
  destruct (variant_exists ind j j N) as [n V]. apply (name_iff ind j j n N) in V. rewrite V. eauto.
Qed.
Lemma model_indicators_ok g s t name r : variant_name (s_name s) t name -> ~ In "@"%char (s_name s) -> (forall j, t = Some j -> normal_form j j) ->
  registered (s_name s) r (g_sources g) ->
  exists ns, model_indicators g name = Ok ns /\ forall n, In n ns <-> exists ind, In ind (s_indicators r) /\ variant_name ind t n.
Proof.
  intros V P N R. unfold model_indicators. rewrite (variant_parses _ _ _ P N V). rewrite (proj2 (sget_iff _ _ _) R).
  destruct (each_total (variant_of t) (s_indicators r)) as [ns E]; [intros; now apply variant_of_total|]. exists ns. split; [easy|].
  apply each_ok in E. intro n. split.
  - intro I. destruct (Forall2_r _ _ _ _ E I) as (ind & J & K). exists ind. split; [easy|]. now apply variant_of_ok.
  - intros (ind & J & K). destruct (Forall2_l _ _ _ _ E J) as (m & I & K'). apply (variant_of_ok t ind n N) in K. rewrite K in K'. now injection K' as ->.
Qed.
Section Window.
Variables (select : nat -> option (list nat)) (loaded : list nat) (evs : list event) (w : list execution).
Hypothesis W : window_executions select loaded (executions evs) = Ok w.

Lemma window_at k y : nth_error w k = Some y -> exists a x, nth_error (accepted evs) k = Some a /\ nth_error (executions evs) k = Some x /\ declared_as a x /\ window_symbols select loaded x y /\ known (after evs) a.
Proof.
  intro Y. destruct (run_all evs) as (_ & G & K). destruct (window_ok _ _ _ _ W) as [F _].
  destruct (Forall2_nth_r _ _ _ _ _ F Y) as (x & X & S0). destruct (Forall2_nth_r _ _ _ _ _ G X) as (a & A & D).
  exists a, x. split; [easy|]. split; [easy|]. split; [easy|]. split; [easy|]. rewrite Forall_forall in K. apply K. eapply nth_error_In; eauto.
Qed.
Lemma runs_at a y s : runs evs w a y s -> exists x l, In x (executions evs) /\ declared_as a x /\ window_symbols select loaded x y /\ known (after evs) a /\ In y w /\ x_symbols y = Some l /\ In s l.
Proof.
  intros (k & l & A & Y & L & I). destruct (window_at k y Y) as (a' & x & A' & X & D & S0 & K). assert (a' = a) as -> by congruence.
  exists x, l. split; [eapply nth_error_In; eauto|]. split; [easy|]. split; [easy|]. split; [easy|]. split; [eapply nth_error_In; eauto|]. auto.
Qed.
Lemma runs_of y s : In y w -> In s (static_symbols y) -> exists a, runs evs w a y s.
Proof.
  intros Y I. apply In_nth_error in Y as [k Y]. destruct (window_at k y Y) as (a & x & A & _ & _ & (_ & l & L & _) & _).
  unfold static_symbols in I. rewrite L in I. exists a, k, l. auto.
Qed.
Lemma source_plain n r : registered n r (g_sources (registry evs)) -> s_name r = n /\ ~ In "@"%char n.
Proof. destruct (run_all evs) as ((A & _) & _). apply A. Qed.
Lemma ind_plain n r : registered n r (g_inds (registry evs)) -> i_name r = n /\ ~ In "@"%char n.
Proof. destruct (run_all evs) as ((_ & A & _) & _). apply A. Qed.

Notation asks := (wants (registry evs)).
Lemma execution_indicators_ok a x y : declared_as a x -> window_symbols select loaded x y -> known (after evs) a ->
  exists l, execution_indicators (registry evs) y = Ok l /\ forall n s, In (n, s) l <-> In s (static_symbols y) /\ asks a n.
Proof.
  intros D S0 (K1 & _ & _). destruct (declared_window _ _ _ _ _ D S0) as (M & N & _ & _).
  assert (T : forall name, In name (x_models y) -> exists m t r, declares_model a m t /\ variant_name (s_name m) t name /\ registered (s_name m) r (g_sources (registry evs)) /\
     exists ns, model_indicators (registry evs) name = Ok ns /\ forall n, In n ns <-> exists ind, In ind (s_indicators r) /\ variant_name ind t n).
  { intros name I. apply M in I as (m & t & Dm & V). destruct (K1 m t Dm) as [r R]. exists m, t, r. split; [easy|]. split; [easy|]. split; [easy|].
    eapply model_indicators_ok; eauto; [exact (proj2 (source_plain _ _ R))|]. intros j ->. eapply declares_normal; eauto. }
  unfold execution_indicators. destruct (static_symbols y) as [|s0 syms]; [exists []; split; [easy|]; intros n s; cbn; tauto|].
  destruct (each_total (model_indicators (registry evs)) (x_models y)) as [ms E]; [intros name I; destruct (T name I) as (m & t & r & _ & _ & _ & ns & Q & _); eauto|].
  rewrite E. cbn [bind]. eexists. split; [reflexivity|]. apply each_ok in E. intros n s.
  assert (C : In n (concat ms ++ x_inds y) <-> asks a n).
  { rewrite in_app_iff, N. unfold wants. rewrite or_comm. apply or_iff_compat_l. rewrite in_concat. split.
    - intros (ns & I & J). destruct (Forall2_r _ _ _ _ E I) as (name & Nm & Q). destruct (T name Nm) as (m & t & r & Dm & V & R & ns' & Q' & H).
      assert (ns' = ns) as -> by congruence. apply H in J as (ind & J & U). exists m, t, r, ind. auto.
    - intros (m & t & r & ind & Dm & R & J & U).
      assert (Nt : forall j, t = Some j -> normal_form j j) by (intros j ->; eapply declares_normal; eauto).
      assert (exists name, variant_name (s_name m) t name) as [name V] by (destruct t as [j|]; [eapply variant_exists; eauto|eexists; constructor]).
      assert (Nm : In name (x_models y)) by (apply M; eauto).
      destruct (model_indicators_ok (registry evs) m t name r V (proj2 (source_plain _ _ R)) Nt R) as (ns & Q & H).
      destruct (Forall2_l _ _ _ _ E Nm) as (ns' & I & Q'). exists ns'. split; [easy|]. assert (ns' = ns) as -> by congruence. apply H. eauto. }
  rewrite <- C. rewrite in_concat. split.
  - intros (l & I & J). apply in_map_iff in I as (s' & <- & I). apply in_map_iff in J as (n' & [= -> ->] & J). auto.
  - intros (I & J). eexists. split; [apply in_map_iff; eexists; split; [reflexivity|exact I]|]. apply in_map_iff. exists n. auto.
Qed.
Lemma indicator_syms_ok : exists l, indicator_syms (registry evs) w = Ok l /\ forall n s, In (n, s) l <-> exists a x, runs evs w a x s /\ asks a n.
Proof.
  unfold indicator_syms. destruct (each_total (execution_indicators (registry evs)) w) as [ls E].
  { intros y Y. apply In_nth_error in Y as [k Y]. destruct (window_at k y Y) as (a & x & _ & _ & D & S0 & K).
    destruct (execution_indicators_ok a x y D S0 K) as (l & L & _). eauto. }
  rewrite E. cbn [bind]. eexists. split; [reflexivity|]. apply each_ok in E. intros n s. rewrite in_concat. split.
  - intros (l & I & J). destruct (Forall2_r _ _ _ _ E I) as (y & Y & Q). assert (Y' := Y). apply In_nth_error in Y as [k Y]. destruct (window_at k y Y) as (a & x & A & _ & D & S0 & K).
    destruct (execution_indicators_ok a x y D S0 K) as (l' & L & H). assert (l' = l) as -> by congruence. apply H in J. destruct J as [J0 As].
    exists a, y. split; [|easy]. destruct S0 as (_ & sl & SL & _). unfold static_symbols in J0. rewrite SL in J0. exists k, sl. auto.
  - intros (a & y & R & As). destruct (runs_at a y s R) as (x & sl & _ & D & S0 & K & Y & L & I).
    destruct (execution_indicators_ok a x y D S0 K) as (l & Q & H). destruct (Forall2_l _ _ _ _ E Y) as (l' & J & Q'). exists l'. split; [easy|].
    assert (l' = l) as -> by congruence. apply H. split; [|easy]. unfold static_symbols. now rewrite L.
Qed.
Lemma model_syms_ok train n s : In (n, s) (model_syms w train) <-> In s train /\ exists a x m t, runs evs w a x s /\ declares_model a m t /\ variant_name (s_name m) t n.
Proof.
  unfold model_syms. rewrite in_concat. split.
  - intros (l & I & J). apply in_map_iff in I as (s' & <- & I). apply in_concat in J as (l & X & J). apply in_map_iff in X as (y & E & Y).
    destruct (nmem s' (static_symbols y)) eqn:Q; subst l; [|easy]. apply in_map_iff in J as (m & Em & J). injection Em as -> ->. split; [easy|].
    apply nmem_iff in Q. destruct (runs_of y s Y Q) as [a R]. destruct (runs_at a y s R) as (x & sl & _ & D & S0 & _). destruct (declared_window _ _ _ _ _ D S0) as (M & _).
    destruct (proj1 (M _) J) as (m' & t & Dm & V). exists a, y, m', t. auto.
  - intros (I & a & y & m & t & R & Dm & V). destruct (runs_at a y s R) as (x & sl & _ & D & S0 & _ & Y & L & J). destruct (declared_window _ _ _ _ _ D S0) as (M & _).
    eexists. split; [apply in_map_iff; eexists; split; [reflexivity|exact I]|]. apply in_concat. exists (map (fun m => (m, s)) (x_models y)). split.
    + apply in_map_iff. exists y. split; [|easy]. unfold static_symbols. rewrite L. now rewrite (proj2 (nmem_iff s sl) J).
    + apply in_map_iff. exists n. split; [easy|]. apply M. eauto.
Qed.
End Window.

(** ** Hyperparameters *)
Lemma get_spec_ok g name p : get_spec g name = Ok p <-> exists h, p = (name, h) /\ registered name h (g_hypers g).
Proof.
  unfold get_spec. destruct (sget name (g_hypers g)) as [h|] eqn:E.
  - apply sget_iff in E. split; [intros [= <-]; eauto|]. intros (h' & -> & R). now rewrite (registered_fun _ _ _ _ R E).
  - split; [discriminate|]. intros (h & _ & R). apply sget_iff in R. congruence.
Qed.
Lemma specs_of g names l : each (get_spec g) names = Ok l -> (forall n h, In (n, h) l <-> In n names /\ registered n h (g_hypers g)) /\ (forall n, In n names -> exists h, registered n h (g_hypers g)).
Proof.
  intro E. apply each_ok in E. split.
  - intros n h. split.
    + intro I. destruct (Forall2_r _ _ _ _ E I) as (m & J & K). apply get_spec_ok in K as (h' & [= -> ->] & R). auto.
    + intros [I R]. destruct (Forall2_l _ _ _ _ E I) as (p & J & K). apply get_spec_ok in K as (h' & -> & R'). now rewrite (registered_fun _ _ _ _ R R').
  - intros n I. destruct (Forall2_l _ _ _ _ E I) as (p & J & K). apply get_spec_ok in K as (h' & -> & R'). eauto.
Qed.
Lemma indicator_specs_ok g n l : indicator_specs g n = Ok l ->
  exists r, registered (fst (parse_interval_name n)) r (g_inds g) /\
    (forall m h, In (m, h) l <-> In m (i_hypers r) /\ registered m h (g_hypers g)) /\ (forall m, In m (i_hypers r) -> exists h, registered m h (g_hypers g)).
Proof.
  unfold indicator_specs. destruct (sget (fst (parse_interval_name n)) (g_inds g)) as [r|] eqn:E; [|discriminate]. intro H. exists r.
  split; [now apply sget_iff|]. now apply specs_of.
Qed.

Lemma each_ok_iff {A B} (f : A -> res B) l : (exists r, each f l = Ok r) <-> forall x, In x l -> exists y, f x = Ok y.
Proof. apply (each_iff f (fun x => exists y, f x = Ok y)). tauto. Qed.
Section Collect.
Variable evs : list event.
Notation g := (registry evs).
Hypothesis P : plain_indicators g.
Definition ind_ready (b : str) : Prop := exists r, registered b r (g_inds g) /\ forall n, In n (i_hypers r) -> exists h, registered n h (g_hypers g).

Lemma spec_names names : (exists l, each (get_spec g) names = Ok l) <-> forall n, In n names -> exists h, registered n h (g_hypers g).
Proof.
  rewrite each_ok_iff. split; intros H n I; destruct (H n I) as [y Y].
  - apply get_spec_ok in Y as (h & _ & R). eauto.
  - exists (n, y). apply get_spec_ok. eauto.
Qed.
Lemma ind_specs_base n b : fst (parse_interval_name n) = b ->
  ((exists l, indicator_specs g n = Ok l) <-> ind_ready b) /\
  (forall l, indicator_specs g n = Ok l -> forall m h, In (m, h) l <-> registered m h (g_hypers g) /\ exists r, registered b r (g_inds g) /\ In m (i_hypers r)).
Proof.
  intro E. split.
  - unfold indicator_specs, ind_ready. rewrite E. destruct (sget b (g_inds g)) as [r|] eqn:G.
    + apply sget_iff in G. rewrite spec_names. split; [eauto|]. intros (r' & R & H). now rewrite (registered_fun _ _ _ _ G R).
    + split; [now intros []|]. intros (r & R & _). apply sget_iff in R. congruence.
  - intros l L m h. apply indicator_specs_ok in L as (r & R & H & _). rewrite E in R. rewrite H. split.
    + intros [I J]. split; [easy|]. eauto.
    + intros [J (r' & R' & I)]. rewrite (registered_fun _ _ _ _ R R'). auto.
Qed.
Lemma model_specs_base n r : registered (fst (parse_interval_name n)) r (g_sources g) ->
  ((exists l, model_specs g n = Ok l) <-> forall b, In b (s_indicators r) -> ind_ready b) /\
  (forall l, model_specs g n = Ok l -> forall m h, In (m, h) l <-> registered m h (g_hypers g) /\ exists b r', In b (s_indicators r) /\ registered b r' (g_inds g) /\ In m (i_hypers r')).
Proof.
  intro R. assert (Pb : forall b, In b (s_indicators r) -> fst (parse_interval_name b) = b) by (intros b I; rewrite name_plain; [easy|]; eapply P; eauto).
  unfold model_specs. rewrite (proj2 (sget_iff _ _ _) R). split.
  - split.
    + intros [l L] b I. apply bind_ok in L as (ls & E & _). apply each_ok in E. destruct (Forall2_l _ _ _ _ E I) as (y & _ & Y).
      apply (ind_specs_base b b (Pb b I)). eauto.
    + intro H. destruct (each_total (indicator_specs g) (s_indicators r)) as [ls E]; [|rewrite E; cbn; eauto].
      intros b I. apply (ind_specs_base b b (Pb b I)). auto.
  - intros l L m h. apply bind_ok in L as (ls & E & [= <-]). apply each_ok in E. rewrite in_concat. split.
    + intros (l & I & J). destruct (Forall2_r _ _ _ _ E I) as (b & B & Y). destruct (proj1 (proj2 (ind_specs_base b b (Pb b B)) l Y _ _) J) as (? & r' & ? & ?).
      split; [easy|]. exists b, r'. auto.
    + intros (G & b & r' & B & R' & I). destruct (Forall2_l _ _ _ _ E B) as (l & L & Y). exists l. split; [easy|].
      apply (proj2 (ind_specs_base b b (Pb b B)) l Y). split; [easy|]. eauto.
Qed.
Definition exec_ready (a : request) : Prop :=
  (forall b, uses g a b -> ind_ready b) /\ (forall m t r, declares_model a m t -> registered (s_name m) r (g_sources g) -> s_hypers r = []).
Lemma execution_specs_ok a x : declared_as a x -> known (after evs) a ->
  ((exists l, execution_specs g x = Ok l) <-> exec_ready a) /\
  (forall l, execution_specs g x = Ok l -> forall n h, In (n, h) l <-> registered n h (g_hypers g) /\
     (declares_hyper a n \/ exists b r, uses g a b /\ registered b r (g_inds g) /\ In n (i_hypers r))).
Proof.
  intros (_ & M & N & _ & H) (K1 & K2 & K3).
  assert (Pm : forall n, In n (x_models x) -> exists m t r, declares_model a m t /\ registered (s_name m) r (g_sources g) /\ fst (parse_interval_name n) = s_name m).
  { intros n I. apply M in I as (m & t & D & V). destruct (K1 m t D) as [r R]. exists m, t, r. split; [easy|]. split; [easy|].
    rewrite (variant_parses (s_name m) t n); [easy|exact (proj2 (source_plain evs _ _ R))| |easy]. intros j ->. eapply declares_normal; eauto. }
  assert (Pi : forall n, In n (x_inds x) -> exists i t, declares_ind a i t /\ fst (parse_interval_name n) = i_name i).
  { intros n I. apply N in I as (i & t & D & V). destruct (K2 i t D) as [r R]. exists i, t. split; [easy|].
    rewrite (variant_parses (i_name i) t n); [easy|exact (proj2 (ind_plain evs _ _ R))| |easy]. intros j ->. eapply declares_normal_ind; eauto. }
  assert (Qm : forall m t, declares_model a m t -> exists n, In n (x_models x) /\ fst (parse_interval_name n) = s_name m).
  { intros m t D. destruct (K1 m t D) as [r R]. assert (Nt : forall j, t = Some j -> normal_form j j) by (intros j ->; eapply declares_normal; eauto).
    assert (exists name, variant_name (s_name m) t name) as [name V] by (destruct t as [j|]; [eapply variant_exists; eauto|eexists; constructor]).
    exists name. split; [apply M; eauto|]. now rewrite (variant_parses _ _ _ (proj2 (source_plain evs _ _ R)) Nt V). }
  assert (Qi : forall i t, declares_ind a i t -> exists n, In n (x_inds x) /\ fst (parse_interval_name n) = i_name i).
  { intros i t D. destruct (K2 i t D) as [r R]. assert (Nt : forall j, t = Some j -> normal_form j j) by (intros j ->; eapply declares_normal_ind; eauto).
    assert (exists name, variant_name (i_name i) t name) as [name V] by (destruct t as [j|]; [eapply variant_exists; eauto|eexists; constructor]).
    exists name. split; [apply N; eauto|]. now rewrite (variant_parses _ _ _ (proj2 (ind_plain evs _ _ R)) Nt V). }
  unfold execution_specs. split; [split|].
  - intros [l L]. apply bind_ok in L as (ia & A & L). apply bind_ok in L as (mb & B & L). apply bind_ok in L as (hc & C & L). apply bind_ok in L as (u & U & _).
    apply each_ok in A, B, U. split.
    + intros b [(i & t & D & <-)|(m & t & r & D & R & I)].
      * destruct (Qi i t D) as (n & I & E). destruct (Forall2_l _ _ _ _ A I) as (y & _ & Y). apply (ind_specs_base n _ E). eauto.
      * destruct (Qm m t D) as (n & J & E). destruct (Forall2_l _ _ _ _ B J) as (y & _ & Y). rewrite <- E in R. eapply (model_specs_base n r R); eauto.
    + intros m t r D R. destruct (Qm m t D) as (n & J & E). destruct (Forall2_l _ _ _ _ U J) as (y & _ & Y). unfold no_model_hypers in Y.
      rewrite E, (proj2 (sget_iff _ _ _) R) in Y. now destruct (s_hypers r).
  - intros [U1 U2].
    destruct (proj2 (each_ok_iff (indicator_specs g) (x_inds x))) as [ia ->].
    { intros n I. destruct (Pi n I) as (i & t & D & E). apply (ind_specs_base n _ E). apply U1. left. eauto. }
    destruct (proj2 (each_ok_iff (model_specs g) (x_models x))) as [mb ->].
    { intros n I. destruct (Pm n I) as (m & t & r & D & R & E). assert (R0 := R). rewrite <- E in R0. apply (model_specs_base n r R0).
      intros b B. apply U1. right. exists m, t, r. auto. }
    destruct (proj2 (spec_names (x_hypers x))) as [hc ->].
    { intros n I. apply K3. now apply H. }
    destruct (proj2 (each_ok_iff (no_model_hypers g) (x_models x))) as [u ->]; [|cbn; eauto].
    intros n I. destruct (Pm n I) as (m & t & r & D & R & E). exists tt. unfold no_model_hypers. rewrite E, (proj2 (sget_iff _ _ _) R). now rewrite (U2 m t r D R).
  - intros l L n h. apply bind_ok in L as (ia & A & L). apply bind_ok in L as (mb & B & L). apply bind_ok in L as (hc & C & L). apply bind_ok in L as (u & U & [= <-]).
    apply each_ok in A, B, U. apply specs_of in C as [C _]. rewrite !in_app_iff, C, H, !in_concat. split.
    + intros [(l & I & J)|[(l & I & J)|[I R]]].
      * destruct (Forall2_r _ _ _ _ A I) as (m & Im & Y). destruct (Pi m Im) as (i & t & D & E). destruct (proj1 (proj2 (ind_specs_base m _ E) l Y _ _) J) as (G & r & R & K).
        split; [easy|]. right. exists (i_name i), r. split; [left; eauto|easy].
      * destruct (Forall2_r _ _ _ _ B I) as (m & Im & Y). destruct (Pm m Im) as (s & t & r & D & R & E). assert (R0 := R). rewrite <- E in R0.
        destruct (proj1 (proj2 (model_specs_base m r R0) l Y _ _) J) as (G & b & r' & Ib & R' & K). split; [easy|]. right. exists b, r'. split; [right; exists s, t, r; auto|easy].
      * auto.
    + intros (G & [I|(b & r & [(i & t & D & <-)|(m & t & r' & D & R' & Ib)] & R & I)]).
      * auto.
      * left. destruct (Qi i t D) as (m & Im & E). destruct (Forall2_l _ _ _ _ A Im) as (l & Il & Y). exists l. split; [easy|].
        apply (proj2 (ind_specs_base m _ E) l Y). split; [easy|]. eauto.
      * right. left. destruct (Qm m t D) as (m' & Im & E). destruct (Forall2_l _ _ _ _ B Im) as (l & Il & Y). exists l. split; [easy|].
        rewrite <- E in R'. apply (proj2 (model_specs_base m' r' R') l Y). split; [easy|]. exists b, r. auto.
Qed.
Lemma collect_ok settings :
  ((exists specs, collect_hyperparams g settings (executions evs) = Ok specs) <-> collectable evs settings) /\
  (forall specs, collect_hyperparams g settings (executions evs) = Ok specs -> forall n h, In (n, h) specs <-> registered n h (g_hypers g) /\ reachable evs settings n).
Proof.
  destruct (run_all evs) as (_ & F & K). rewrite Forall_forall in K.
  assert (T : forall h y, get_spec g (h_name h) = Ok y <-> exists r, y = (h_name h, r) /\ registered (h_name h) r (g_hypers g)) by (intros; apply get_spec_ok).
  unfold collect_hyperparams. split; [split|].
  - intros [l L]. apply bind_ok in L as (s & S0 & L). apply bind_ok in L as (ls & E & _). apply each_ok in S0, E. split; [|split].
    + intros h I. destruct (Forall2_l _ _ _ _ S0 I) as (y & _ & Y). apply T in Y as (r & _ & R). eauto.
    + intros a b A U. destruct (Forall2_l _ _ _ _ F A) as (x & X & D). destruct (Forall2_l _ _ _ _ E X) as (y & _ & Y).
      destruct (proj1 (proj1 (execution_specs_ok a x D (K a A)))) as [R _]; [eauto|]. now apply R.
    + intros a m t r A Dm R. destruct (Forall2_l _ _ _ _ F A) as (x & X & D). destruct (Forall2_l _ _ _ _ E X) as (y & _ & Y).
      destruct (proj1 (proj1 (execution_specs_ok a x D (K a A)))) as [_ U]; [eauto|]. eauto.
  - intros (C1 & C2 & C3). destruct (proj2 (each_ok_iff (fun h => get_spec g (h_name h)) settings)) as [s ->].
    { intros h I. destruct (C1 h I) as [r R]. exists (h_name h, r). apply T. eauto. }
    destruct (proj2 (each_ok_iff (execution_specs g) (executions evs))) as [ls ->]; [|cbn; eauto].
    intros x X. destruct (Forall2_r _ _ _ _ F X) as (a & A & D). apply (execution_specs_ok a x D (K a A)). split; [intros b U; exact (C2 a b A U)|intros m t r Dm R; exact (C3 a m t r A Dm R)].
  - intros specs L n h. apply bind_ok in L as (s & S0 & L). apply bind_ok in L as (ls & E & [= <-]). apply each_ok in S0, E. rewrite in_app_iff, in_concat. unfold reachable. split.
    + intros [I|(l & I & J)].
      * destruct (Forall2_r _ _ _ _ S0 I) as (h' & I' & Y). apply T in Y as (r & [= -> ->] & R). split; [easy|]. left. eauto.
      * destruct (Forall2_r _ _ _ _ E I) as (x & X & Y). destruct (Forall2_r _ _ _ _ F X) as (a & A & D).
        destruct (proj1 (proj2 (execution_specs_ok a x D (K a A)) l Y _ _) J) as [G Q]. split; [easy|]. right. eauto.
    + intros (G & [(h' & I & <-)|(a & A & Q)]).
      * left. destruct (Forall2_l _ _ _ _ S0 I) as (y & J & Y). apply T in Y as (r & -> & R). now rewrite (registered_fun _ _ _ _ G R).
      * right. destruct (Forall2_l _ _ _ _ F A) as (x & X & D). destruct (Forall2_l _ _ _ _ E X) as (l & J & Y). exists l. split; [easy|].
        apply (proj2 (execution_specs_ok a x D (K a A)) l Y). auto.
Qed.
Lemma reachable_known settings n : collectable evs settings -> reachable evs settings n -> exists h, registered n h (g_hypers g).
Proof.
  destruct (run_all evs) as (_ & _ & K). rewrite Forall_forall in K.
  intros (C1 & C2 & C3) [(h & I & <-)|(a & A & [D|(b & r & U & R & I)])]; [auto| |].
  - destruct (K a A) as (_ & _ & K3). now apply K3.
  - destruct (C2 a b A U) as (r' & R' & H). apply H. now rewrite (registered_fun _ _ _ _ R' R).
Qed.
End Collect.

(** The values of a run. *)
Lemma fold_set {V} (l : list (str * V)) : forall d, fold_left (fun d o => sset (fst o) (snd o) d) l d = rev l ++ d.
Proof. induction l as [|[k v] l IH]; intro d; cbn [fold_left rev]; [easy|]. rewrite IH, <- app_assoc. reflexivity. Qed.
Lemma registered_set' {V} k (v : V) k' v' l : registered k v ((k', v') :: l) -> (k = k' /\ v = v') \/ (k <> k' /\ registered k v l).
Proof. inversion 1; subst; auto. Qed.
Lemma registered_app {V} k (v : V) l m : registered k v (l ++ m) <-> registered k v l \/ (~ In k (map fst l) /\ registered k v m).
Proof.
  induction l as [|[k' v'] l IH]; cbn [app map fst In].
  - split; [auto|]. intros [H|[_ H]]; [inversion H|easy].
  - split.
    + intro H. apply registered_set' in H as [[-> ->]|[Nk H]]; [left; constructor|]. apply IH in H as [|[? ?]]; [left; now constructor|right; split; [intros [->|]; tauto|easy]].
    + intros [H|[N H]].
      * inversion H; subst; constructor; [easy|]. apply IH. now left.
      * constructor; [intros ->; tauto|]. apply IH. right. split; [tauto|easy].
Qed.
Lemma registered_in {V} k (v : V) l : registered k v l -> In (k, v) l.
Proof. induction 1; cbn; auto. Qed.
Lemma in_registered {V} k (v : V) l : NoDup (map fst l) -> In (k, v) l -> registered k v l.
Proof.
  induction l as [|[k' v'] l IH]; cbn; [easy|]. intros N [[= -> ->]|I]; [constructor|]. inversion N; subst. constructor; [|auto].
  intros ->. apply H1. now apply (in_map fst) in I.
Qed.
Lemma registered_dec {V} k (l : list (str * V)) : In k (map fst l) -> exists v, registered k v l.
Proof. intro I. apply sget_in in I as [v E]. exists v. now apply sget_iff. Qed.
Lemma build_run_ok specs overrides values : NoDup (map fst overrides) -> build_run specs overrides = Ok values ->
  forall n v, registered n v values <-> In (n, v) overrides \/ (~ In n (map fst overrides) /\ exists h, registered n h specs /\ v = h_default h).
Proof.
  intros N B n v. unfold build_run in B. destruct (forallb _ overrides); [|discriminate]. injection B as <-. rewrite fold_set, registered_app.
  assert (E : forall k, In k (map fst (rev overrides)) <-> In k (map fst overrides)) by (intro k; rewrite map_rev; symmetry; apply in_rev).
  rewrite E. assert (R : registered n v (rev overrides) <-> In (n, v) overrides).
  { rewrite in_rev. split; [apply registered_in|]. apply in_registered. rewrite map_rev. now apply NoDup_rev. }
  rewrite R. clear. assert (D : registered n v (map (fun s => (fst s, h_default (snd s))) specs) <-> exists h, registered n h specs /\ v = h_default h); [|now rewrite D].
  induction specs as [|[k h] l IH]; cbn [map fst snd].
  - split; [inversion 1|intros (h & H & _); inversion H].
  - split.
    + intro H. apply registered_set' in H as [[-> ->]|[Nk H]]; [exists h; split; [constructor|easy]|]. apply IH in H as (h' & ? & ?). exists h'. split; [now constructor|easy].
    + intros (h' & H & ->). inversion H; subst; [constructor|]. constructor; [easy|]. apply IH. eauto.
Qed.
Lemma build_run_accepts specs overrides : (exists values, build_run specs overrides = Ok values) <-> forall n v, In (n, v) overrides -> exists h, registered n h specs.
Proof.
  unfold build_run. destruct (forallb (fun o => shas (fst o) specs) overrides) eqn:E.
  - split; [|eauto]. intros _ n v I. rewrite forallb_forall in E. specialize (E _ I). unfold shas in E. cbn in E.
    destruct (sget n specs) as [h|] eqn:G; [|discriminate]. exists h. now apply sget_iff.
  - split; [now intros []|]. intro H. assert (forallb (fun o => shas (fst o) specs) overrides = true); [|congruence]. apply forallb_forall. intros [n v] I.
    destruct (H n v I) as [h G]. apply sget_iff in G. unfold shas. cbn. now rewrite G.
Qed.
