(** Proofs about the models of a window. *)
From Coq Require Import List Bool Arith ZArith QArith Permutation Sorted Lia.
From Verif Require Import IndSetProofs IndicatorCaches IndicatorProofs TrainSpec.
Import ListNotations.
Open Scope nat_scope.

Lemma ind_sym_eqb_eq a b : ind_sym_eqb a b = true <-> a = b.
Proof.
  destruct a as [a1 a2], b as [b1 b2]. unfold ind_sym_eqb. cbn. rewrite andb_true_iff, !Nat.eqb_eq. split; [now intros [-> ->]|now intros [= -> ->]].
Qed.
Lemma has_sym_in l k : has_sym l k = true <-> In k l.
Proof.
  unfold has_sym. rewrite existsb_exists. split; [intros (x & I & E); apply ind_sym_eqb_eq in E; now subst|]. intros I. exists k. split; [exact I|now apply ind_sym_eqb_eq].
Qed.
Lemma existsb_nat x l : existsb (Nat.eqb x) l = true <-> In x l.
Proof. rewrite existsb_exists. split; [intros (y & I & E); apply Nat.eqb_eq in E; now subst|]. intros I. exists x. split; [exact I|apply Nat.eqb_refl]. Qed.
Lemma sorted_lt_eq : forall a b, StronglySorted lt a -> StronglySorted lt b -> (forall s, In s a <-> In s b) -> a = b.
Proof.
  induction a as [|x a IH]; intros [|y b] A B E; [easy|destruct (proj2 (E y) (or_introl eq_refl))|destruct (proj1 (E x) (or_introl eq_refl))|].
  inversion A as [|? ? A1 A2]; inversion B as [|? ? B1 B2]; subst. rewrite Forall_forall in A2, B2.
  assert (x = y).
  { destruct (proj1 (E x) (or_introl eq_refl)) as [H|H]; [easy|]. destruct (proj2 (E y) (or_introl eq_refl)) as [H'|H']; [easy|]. apply A2 in H'. apply B2 in H. lia. }
  subst y. f_equal. apply IH; [exact A1|exact B1|]. intros s. split; intros I.
  - pose proof (A2 s I). destruct (proj1 (E s) (or_intror I)); [lia|easy].
  - pose proof (B2 s I). destruct (proj2 (E s) (or_intror I)); [lia|easy].
Qed.
Lemma sort_nats_in s l : In s (sort_nats l) <-> In s l.
Proof. split; apply Permutation_in; [apply sort_nats_perm|symmetry; apply sort_nats_perm]. Qed.

Lemma sorted_syms l k : In k (sort_syms l) <-> In k l.
Proof.
  induction l as [|x l IH]; [easy|]. cbn [sort_syms]. assert (G : forall l, In k (insert_sym x l) <-> k = x \/ In k l).
  { induction l0 as [|y l0 IH0]; cbn [insert_sym]; [cbn; intuition|]. destruct (ind_sym_leb x y); cbn; [intuition|]. rewrite IH0. intuition. }
  rewrite G, IH. cbn. intuition.
Qed.

Section Proofs.
Context {M : Type} (picklable : M -> bool) (parse iparse : nat -> nat * option nat).
Notation window := (window (M := M)).
Notation source := (source (M := M)).
Notation models := (models (M := M)).
Notation cached := (cached (M := M)).
Notation model_cache := (model_cache (M := M)).

(** ** Dicts *)
Lemma models_set_in : forall (d : models) k t k', In k' (map fst (models_set d k t)) <-> k' = k \/ In k' (map fst d).
Proof.
  induction d as [|[a b] d IH]; intros k t k'; cbn [models_set map In fst]; [intuition|]. destruct (ind_sym_eqb k a) eqn:E.
  - apply ind_sym_eqb_eq in E. subst. cbn. intuition.
  - cbn. rewrite IH. intuition.
Qed.
Lemma models_set_nodup : forall (d : models) k t, NoDup (map fst d) -> NoDup (map fst (models_set d k t)).
Proof.
  induction d as [|[a b] d IH]; intros k t N; cbn [models_set]; [repeat constructor; easy|]. inversion N; subst. destruct (ind_sym_eqb k a) eqn:E.
  - apply ind_sym_eqb_eq in E. subst. exact N.
  - cbn. constructor; [|now apply IH]. rewrite models_set_in. intros [->|I]; [|easy]. assert (ind_sym_eqb k k = true) by now apply ind_sym_eqb_eq. congruence.
Qed.
Lemma models_set_val : forall (d : models) k t x, In x (models_set d k t) -> x = (k, t) \/ In x d.
Proof.
  induction d as [|[a b] d IH]; intros k t x; cbn [models_set]; [intros [<-|[]]; now left|]. destruct (ind_sym_eqb k a).
  - intros [<-|I]; [now left|right; now right].
  - intros [<-|I]; [right; now left|]. destruct (IH _ _ _ I); [now left|right; now right].
Qed.
Lemma model_key_eqb_eq a b : model_key_eqb a b = true <-> a = b.
Proof.
  unfold model_key_eqb. rewrite !andb_true_iff, ind_key_eqb_eq. destruct a as [a1 a2 a3 a4 a5 a6 a7 a8 a9], b as [b1 b2 b3 b4 b5 b6 b7 b8 b9]. cbn. split.
  - intros (([= -> -> -> -> -> -> ->] & P) & L). f_equal.
    + destruct a8, b8; try easy. destruct (list_eq_dec Nat.eq_dec l l0); [now subst|discriminate].
    + destruct a9, b9; try easy. apply Nat.eqb_eq in L. now subst.
  - intros [= -> -> -> -> -> -> -> -> ->]. split; [split; [easy|]|].
    + destruct b8; [|easy]. now destruct (list_eq_dec Nat.eq_dec l l).
    + destruct b9; [apply Nat.eqb_refl|easy].
Qed.
Lemma cache_get_in : forall (m : model_cache) k c, cache_get m k = Some c -> In (k, c) m.
Proof.
  induction m as [|[k' c'] m IH]; intros k c; cbn [cache_get]; [discriminate|]. destruct (model_key_eqb k k') eqn:E.
  - apply model_key_eqb_eq in E. intros [= <-]. subst. now left.
  - intros H. right. now apply IH.
Qed.
Lemma cache_put_in : forall (m : model_cache) k c x, In x (cache_put m k c) -> In x m \/ x = (k, c).
Proof.
  induction m as [|[k' c'] m IH]; intros k c x; cbn [cache_put]; [intros [<-|[]]; now right|]. destruct (model_key_eqb k k') eqn:E.
  - apply model_key_eqb_eq in E. subst. intros [<-|I]; [now right|left; now right].
  - intros [<-|I]; [left; now left|]. destruct (IH _ _ _ I); [left; now right|now right].
Qed.

(** ** What is asked for *)
Lemma add_syms_in k : forall l acc, In k (fold_left add_sym l acc) <-> In k acc \/ In k l.
Proof.
  induction l as [|x l IH]; intros acc; cbn [fold_left]; [cbn; tauto|]. rewrite IH. unfold add_sym. destruct (has_sym acc x) eqn:E.
  - apply has_sym_in in E. cbn. intuition (subst; tauto).
  - rewrite in_app_iff. cbn. tauto.
Qed.
Lemma model_syms_in c k : In k (model_syms (c_execs c) (c_trained c)) <-> asked c k.
Proof.
  unfold model_syms, asked. rewrite add_syms_in, in_flat_map. split.
  - intros [[]|(s & S & I)]. apply in_flat_map in I. destruct I as (e & E & I). destruct (existsb (Nat.eqb s) (e_syms e)) eqn:X; [|easy]. apply existsb_nat in X.
    apply in_map_iff in I. destruct I as (m & <- & I). exists e. now cbn.
  - intros (e & E & A & B & C). right. exists (snd k). split; [exact C|]. apply in_flat_map. exists e. split; [exact E|]. apply existsb_nat in B. rewrite B. apply in_map_iff. exists (fst k). split; [now destruct k|exact A].
Qed.

(** ** Groups *)
Definition shared (c : settings) (e : execution) : list nat := filter (fun s => existsb (Nat.eqb s) (c_trained c)) (e_syms e).
Lemma shared_in c e s : In s (shared c e) <-> In s (e_syms e) /\ In s (c_trained c).
Proof. unfold shared. rewrite filter_In, existsb_nat. reflexivity. Qed.
Definition pooled_name (w : window) (name : nat) : Prop :=
  exists src train, dict_get (w_sources w) (fst (parse name)) = Some src /\ s_kind src = Trainer true train.
Definition groups_ok (w : window) (c : settings) (gs : groups) : Prop :=
  (forall g, In g gs -> exists e, In e (c_execs c) /\ In (fst (fst g)) (e_models e) /\ pooled_name w (fst (fst g)) /\ snd g = shared c e) /\
  (forall k, asked c k -> dict_get (w_sources w) (fst (parse (fst k))) <> None) /\
  (forall k, asked c k -> pooled_name w (fst k) -> exists g, In g gs /\ In k (group_syms g)).
Lemma exec_groups_ok (w : window) id syms : forall names,
  match exec_groups parse w id syms names with
  | Ok gs => (forall g, In g gs <-> exists n, In n names /\ pooled_name w n /\ g = (n, id, syms)) /\ forall n, In n names -> dict_get (w_sources w) (fst (parse n)) <> None
  | Raise _ => exists n, In n names /\ dict_get (w_sources w) (fst (parse n)) = None
  end.
Proof.
  induction names as [|n names IH]; cbn [exec_groups]; [split; [intros g; split; [easy|intros (n & [] & _)]|easy]|].
  unfold get_source. destruct (dict_get (w_sources w) (fst (parse n))) as [src|] eqn:D; cbn [bind]; [|exists n; split; [now left|exact D]].
  destruct (exec_groups parse w id syms names) as [gs|]; cbn [bind].
  - destruct IH as [IH1 IH2]. split; [|intros n' [<-|I]; [congruence|now apply IH2]].
    assert (P : pooled_name w n <-> exists train, s_kind src = Trainer true train).
    { unfold pooled_name. split; [intros (s & t & E & K)|intros (t & K)]; [rewrite D in E; injection E as <-; now exists t|now exists src, t]. }
    intros g. destruct (s_kind src) as [[] train|lags load] eqn:K.
    + cbn [In]. rewrite IH1. split.
      * intros [<-|(n' & I & Q & E)]; [exists n; split; [now left|split; [apply P; now exists train|easy]]|exists n'; split; [now right|now split]].
      * intros (n' & [<-|I] & Q & E); [left; now symmetry|right; now exists n'].
    + rewrite IH1. split; [intros (n' & I & Q); exists n'; split; [now right|exact Q]|]. intros (n' & [<-|I] & Q & E); [|now exists n']. apply P in Q. destruct Q as (t & Q). discriminate.
    + rewrite IH1. split; [intros (n' & I & Q); exists n'; split; [now right|exact Q]|]. intros (n' & [<-|I] & Q & E); [|now exists n']. apply P in Q. destruct Q as (t & Q). discriminate.
  - destruct IH as (n' & I & E). exists n'. split; [now right|exact E].
Qed.
Lemma pooled_groups_ok (w : window) c :
  match pooled_groups parse w (c_trained c) (c_execs c) with
  | Ok gs => groups_ok w c gs
  | Raise _ => exists k, asked c k /\ dict_get (w_sources w) (fst (parse (fst k))) = None
  end.
Proof.
  assert (G : forall es, (forall e, In e es -> In e (c_execs c)) -> match pooled_groups parse w (c_trained c) es with
    | Ok gs => (forall g, In g gs -> exists e, In e es /\ In (fst (fst g)) (e_models e) /\ pooled_name w (fst (fst g)) /\ snd g = shared c e) /\
        (forall e n, In e es -> In n (e_models e) -> shared c e <> [] -> dict_get (w_sources w) (fst (parse n)) <> None /\ (pooled_name w n -> In (n, e_id e, shared c e) gs))
    | Raise _ => exists k, asked c k /\ dict_get (w_sources w) (fst (parse (fst k))) = None
    end).
  { induction es as [|e es IH]; intros Sub; cbn [pooled_groups]; [now split|]. specialize (IH (fun e' I => Sub e' (or_intror I))). fold (shared c e).
    destruct (shared c e) as [|s0 sh] eqn:Sh.
    - destruct (pooled_groups parse w (c_trained c) es) as [gs|]; [|exact IH]. destruct IH as [A B]. split.
      + intros g I. destruct (A g I) as (e' & I' & R). exists e'. split; [now right|exact R].
      + intros e' n [<-|I] N X; [now rewrite Sh in X|now apply B].
    - pose proof (exec_groups_ok w (e_id e) (s0 :: sh) (e_models e)) as X. destruct (exec_groups parse w (e_id e) (s0 :: sh) (e_models e)) as [gs|]; cbn [bind].
      + destruct X as [X1 X2]. destruct (pooled_groups parse w (c_trained c) es) as [gs'|]; cbn [bind]; [|exact IH]. destruct IH as [A B]. split.
        * intros g I. apply in_app_iff in I. destruct I as [I|I]; [|destruct (A g I) as (e' & I' & R); exists e'; split; [now right|exact R]].
          apply X1 in I. destruct I as (n & N & P & ->). exists e. cbn. split; [now left|]. now rewrite Sh.
        * intros e' n [<-|I] N Y; [|destruct (B e' n I N Y) as [B1 B2]; split; [exact B1|intros P; apply in_app_iff; right; now apply B2]].
          split; [now apply X2|]. intros P. apply in_app_iff. left. apply X1. exists n. now rewrite Sh.
      + destruct X as (n & N & D). exists (n, s0). cbn. split; [|exact D]. exists e. cbn. assert (S : In s0 (shared c e)) by (rewrite Sh; now left). apply shared_in in S. split; [apply Sub; now left|tauto]. }
  specialize (G (c_execs c) (fun e I => I)). destruct (pooled_groups parse w (c_trained c) (c_execs c)) as [gs|]; [|exact G]. destruct G as [A B]. split; [exact A|].
  assert (Sh : forall (k : ind_sym) e, In (snd k) (e_syms e) -> In (snd k) (c_trained c) -> shared c e <> []).
  { intros k e I J E. assert (X : In (snd k) (shared c e)) by now apply shared_in. now rewrite E in X. }
  split.
  - intros k (e & E & N & S & T). apply (B e (fst k) E N). now apply (Sh k).
  - intros k (e & E & N & S & T) P. destruct (B e (fst k) E N (Sh k e S T)) as [_ X]. exists (fst k, e_id e, shared c e). split; [now apply X|]. unfold group_syms. cbn. apply in_map_iff. exists (snd k). split; [now destruct k|now apply shared_in].
Qed.
Lemma group_syms_in g k : In k (group_syms g) <-> fst k = fst (fst g) /\ In (snd k) (snd g).
Proof.
  unfold group_syms. rewrite in_map_iff. split; [intros (s & <- & I); now cbn|]. intros [E I]. exists (snd k). split; [|exact I]. rewrite <- E. now destruct k.
Qed.
Lemma group_of_some gs k l : group_of gs k = Some l -> exists g, In g gs /\ In k (group_syms g) /\ snd g = l.
Proof.
  induction gs as [|g gs IH]; cbn [group_of]; [discriminate|]. destruct (group_of gs k) as [l'|].
  - intros [= ->]. destruct (IH eq_refl) as (g' & I & R). exists g'. split; [now right|exact R].
  - destruct (has_sym (group_syms g) k) eqn:E; [|discriminate]. intros [= <-]. exists g. split; [now left|]. split; [now apply has_sym_in|easy].
Qed.
Lemma group_of_none gs k : group_of gs k = None -> forall g, In g gs -> ~ In k (group_syms g).
Proof.
  induction gs as [|g gs IH]; cbn [group_of]; intros H g' I; [easy|]. destruct (group_of gs k); [discriminate|]. destruct (has_sym (group_syms g) k) eqn:E; [discriminate|].
  destruct I as [<-|I]; [|now apply IH]. rewrite <- has_sym_in. congruence.
Qed.

(** ** What is trained *)
Lemma frames_iff (w : window) pooled name syms la tr te : frames parse w pooled name syms la = Ok (tr, te) <-> inputs parse w pooled name syms la tr te.
Proof.
  unfold frames, inputs. destruct (snd (parse name)); [|reflexivity]. destruct (w_compressed w) as [get|].
  - split; [intros H; now exists get|]. intros (g & [= <-] & H). exact H.
  - split; [discriminate|]. intros (g & [=] & _).
Qed.
(** The result of a model without its settings: [pooled] are its sorted symbols. *)
Inductive fit (w : window) (la : nat) (name sym : nat) : option (list nat) -> cached -> Prop :=
| fit_symbol src train tr te m cols : dict_get (w_sources w) (fst (parse name)) = Some src -> s_kind src = Trainer false train ->
    inputs parse w false name [sym] la tr te -> train [sym] tr te = Ok (m, cols) -> fit w la name sym None (mk_cached m cols (in_lag_cols tr))
| fit_pooled src train group tr te m cols : dict_get (w_sources w) (fst (parse name)) = Some src -> s_kind src = Trainer true train ->
    inputs parse w true name group la tr te -> train group tr te = Ok (m, cols) -> fit w la name sym (Some group) (mk_cached m cols (in_lag_cols tr))
| fit_loaded src lags load m cols : dict_get (w_sources w) (fst (parse name)) = Some src -> s_kind src = Loader lags load -> snd (parse name) = None ->
    load sym (fst (w_dates w)) (snd (w_dates w)) = Ok (m, cols) -> fit w la name sym None (mk_cached m cols lags).
(** The group as part of the settings. *)
Definition place (c : settings) (k : ind_sym) (pooled : option (list nat)) : Prop :=
  match pooled with None => True | Some g => pool_of c k g end.
Lemma fit_now (w : window) c k pooled cm src : fit w (c_lookahead c) (fst k) (snd k) pooled cm -> place c k pooled ->
  dict_get (w_sources w) (fst (parse (fst k))) = Some src ->
  trained_now parse w c k (mk_trained (fst k) (cm_model cm) (cm_cols cm) (cm_lags cm) (s_predict src) (s_per_bar src)).
Proof.
  intros F P D. exists src, (cm_model cm), (cm_cols cm), (cm_lags cm). split; [exact D|]. split; [|reflexivity].
  destruct F as [src' train tr te m cols D' K I T|src' train g tr te m cols D' K I T|src' lags load m cols D' K N L]; rewrite D in D'; injection D' as <-; cbn [cm_model cm_cols cm_lags].
  - now apply fresh_symbol with train te.
  - now apply fresh_pooled with train g te.
  - now apply fresh_loaded with load.
Qed.
Lemma pool_unique c k g g' : accepted_run c -> pool_of c k g -> pool_of c k g' -> g = g'.
Proof.
  intros (D & _) (S & e & E & N & I & H) (S' & e' & E' & N' & I' & H'). assert (e = e') by (now apply (D e e' (snd k))). subst e'.
  apply sorted_lt_eq; [exact S|exact S'|]. intros s. rewrite H, H'. reflexivity.
Qed.
Lemma group_pool w c gs k g : accepted_run c -> groups_ok w c gs -> In g gs -> In k (group_syms g) -> pool_of c k (sort_nats (snd g)) /\ asked c k /\ pooled_name w (fst k).
Proof.
  intros (D & N & _) (G & _) I K. apply group_syms_in in K. destruct K as [K1 K2]. destruct (G g I) as (e & E & F & P & Sh). rewrite Sh in *. apply shared_in in K2. split; [|split].
  - split; [apply sort_nats_sorted; unfold shared; apply NoDup_filter; now apply N|]. exists e. rewrite K1. split; [exact E|]. split; [exact F|]. split; [tauto|]. intros s. rewrite sort_nats_in. apply shared_in.
  - exists e. rewrite K1. tauto.
  - now rewrite K1.
Qed.
(** What the groups say about a model. *)
Definition key_pool (gs : groups) (k : ind_sym) : option (list nat) := option_map sort_nats (group_of gs k).
Lemma key_pool_place w c gs k : accepted_run c -> groups_ok w c gs -> place c k (key_pool gs k).
Proof.
  intros A G. unfold key_pool. destruct (group_of gs k) as [l|] eqn:E; [|exact I]. cbn. apply group_of_some in E. destruct E as (g & I & K & <-). now apply (group_pool w c gs).
Qed.
(** A fit of a model asked for has the group of that model. *)
Lemma fit_pool w c gs k pooled cm : accepted_run c -> groups_ok w c gs -> asked c k -> fit w (c_lookahead c) (fst k) (snd k) pooled cm -> place c k pooled -> pooled = key_pool gs k.
Proof.
  intros A G K F P. pose proof G as (G1 & G2 & G3).
  assert (No : (forall src train, dict_get (w_sources w) (fst (parse (fst k))) = Some src -> s_kind src <> Trainer true train) -> None = key_pool gs k).
  { intros H. unfold key_pool. destruct (group_of gs k) as [l|] eqn:E; [|easy]. apply group_of_some in E. destruct E as (g & I & J & _). destruct (group_pool w c gs k g A G I J) as (_ & _ & src & train & D & T). now elim (H src train). }
  destruct F as [src' train tr te m cols D' T I X|src' train g tr te m cols D' T I X|src' lags load m cols D' T N X].
  - apply No. intros src t D. rewrite D' in D. injection D as <-. rewrite T. discriminate.
  - unfold key_pool. destruct (group_of gs k) as [l|] eqn:E.
    + cbn. f_equal. apply group_of_some in E. destruct E as (g' & I' & J & <-). apply (pool_unique c k); [exact A|exact P|]. now apply (group_pool w c gs).
    + destruct (G3 k K) as (g' & I' & J); [now exists src', train|]. now elim (group_of_none gs k E g' I').
  - apply No. intros src t D. rewrite D' in D. injection D as <-. rewrite T. discriminate.
Qed.
Lemma now_fit w c gs k t : accepted_run c -> groups_ok w c gs -> asked c k -> trained_now parse w c k t -> exists cm, fit w (c_lookahead c) (fst k) (snd k) (key_pool gs k) cm.
Proof.
  intros A G K (src & m & cols & lags & D & F & _).
  assert (X : exists pooled cm, fit w (c_lookahead c) (fst k) (snd k) pooled cm /\ place c k pooled).
  { destruct F as [train tr te m cols T I X|train g tr te m cols T P I X|lags load m cols T N L].
    - exists None, (mk_cached m cols (in_lag_cols tr)). split; [now apply fit_symbol with src train te|exact Logic.I].
    - exists (Some g), (mk_cached m cols (in_lag_cols tr)). split; [now apply fit_pooled with src train te|exact P].
    - exists None, (mk_cached m cols lags). split; [now apply fit_loaded with src load|exact Logic.I]. }
  destruct X as (pooled & cm & F' & P). exists cm. now rewrite <- (fit_pool w c gs k pooled cm A G K F' P).
Qed.
Lemma tuned_iff (w : window) name : uses_hyperparams parse iparse w name = true <-> tuned parse iparse w name.
Proof.
  unfold uses_hyperparams, tuned. destruct (dict_get (w_sources w) (fst (parse name))) as [src|].
  - rewrite existsb_exists. split.
    + intros (i & I & E). exists src, i. split; [easy|]. split; [exact I|]. now destruct (dict_get (w_hyper w) (fst (iparse i))) as [[]|].
    + intros (src' & i & [= <-] & I & E). exists i. split; [exact I|]. now rewrite E.
  - split; [discriminate|]. intros (src & i & [=] & _).
Qed.

(** ** The cache *)
Definition fields_of (w : window) (c : settings) : date_fields := mk_fields (fst (w_dates w)) (snd (w_dates w)) (c_secs c) (c_hours c) (c_weekdays c).
Definition cache_ok (hist : list (window * settings)) (st : model_cache) : Prop :=
  forall key cm, In (key, cm) st -> exists w c k pooled, In (w, c) hist /\ c_cache c = true /\ accepted_run c /\ asked c k /\ ~ tuned parse iparse w (fst k) /\
    place c k pooled /\ fit w (c_lookahead c) (fst k) (snd k) pooled cm /\
    key = mk_model_key (snd k) (c_secs c) (fst (w_dates w)) (snd (w_dates w)) (c_hours c) (c_weekdays c) (fst k) pooled (cache_lookahead parse (fst k) (c_lookahead c)).
Lemma sort_nats_id l : StronglySorted lt l -> sort_nats l = l.
Proof.
  intros S. apply sorted_lt_eq; [|exact S|intros s; apply sort_nats_in]. apply sort_nats_sorted. induction S as [|x l S IH F]; constructor; [|exact IH]. rewrite Forall_forall in F. intros I. apply F in I. lia.
Qed.
Lemma fit_same w w' la la' name sym pooled cm : same_training parse w w' name -> w_dates w = w_dates w' -> cache_lookahead parse name la = cache_lookahead parse name la' ->
  fit w la name sym pooled cm -> fit w' la' name sym pooled cm.
Proof.
  intros (S & H) D L F.
  assert (Hi : forall p syms tr te, inputs parse w p name syms la tr te -> inputs parse w' p name syms la' tr te).
  { intros p syms tr te X. apply H in X. unfold inputs, cache_lookahead in *. destruct (snd (parse name)); [injection L as <-; exact X|exact X]. }
  destruct F as [src train tr te m cols D' T I X|src train g tr te m cols D' T I X|src lags load m cols D' T N X]; rewrite S in D'.
  - apply fit_symbol with src train te; auto.
  - apply fit_pooled with src train te; auto.
  - apply fit_loaded with src load; auto. now rewrite <- D.
Qed.
Lemma cache_hit hist st w c gs k pooled cm : steady_training parse iparse hist -> cache_ok hist st -> In (w, c) hist -> c_cache c = true -> accepted_run c -> groups_ok w c gs ->
  asked c k -> ~ tuned parse iparse w (fst k) -> (match pooled with None => None | Some l => Some (sort_nats l) end) = key_pool gs k ->
  cache_get st (model_key_of parse (snd k) (fst k) (fields_of w c) pooled (c_lookahead c)) = Some cm -> fit w (c_lookahead c) (fst k) (snd k) (key_pool gs k) cm.
Proof.
  intros S C I Ca A G K T P H. apply cache_get_in in H. destruct (C _ _ H) as (w' & c' & k' & pooled' & I' & Ca' & A' & K' & T' & P' & F & E). unfold model_key_of, fields_of in E. cbn in E.
  injection E as E1 E2 E3 E4 E5 E6 E7 E8 E9. assert (k' = k) by (destruct k, k'; cbn in *; congruence). subst k'. rewrite P in E8. rewrite <- E8 in F.
  assert (W : w_dates w' = w_dates w) by (destruct (w_dates w), (w_dates w'); cbn in *; congruence).
  apply (fit_same w' w (c_lookahead c')); auto. apply (S w' c' w c k); auto.
Qed.
Lemma cache_store hist st w c k pooled cm : cache_ok hist st -> In (w, c) hist -> accepted_run c -> asked c k ->
  place c k (match pooled with None => None | Some l => Some (sort_nats l) end) ->
  fit w (c_lookahead c) (fst k) (snd k) (match pooled with None => None | Some l => Some (sort_nats l) end) cm ->
  cache_ok hist (set_cached_model picklable parse iparse st w (c_cache c) cm k (fields_of w c) pooled (c_lookahead c)).
Proof.
  intros C I A K P F. unfold set_cached_model. destruct (c_cache c) eqn:Ca; cbn [negb]; [|exact C]. destruct (uses_hyperparams parse iparse w (fst k)) eqn:U; [exact C|].
  destruct (picklable (cm_model cm)); [|exact C]. intros key cm' J. apply cache_put_in in J. destruct J as [J|[= -> ->]]; [now apply C|].
  exists w, c, k, (match pooled with None => None | Some l => Some (sort_nats l) end). split; [exact I|]. split; [exact Ca|]. split; [exact A|]. split; [exact K|]. split; [rewrite <- tuned_iff; congruence|]. split; [exact P|]. now split.
Qed.
End Proofs.
