(** The models of one window, and of a history of windows. *)
From Coq Require Import List Bool Arith ZArith QArith Permutation Sorted Lia.
From Verif Require Import IndSetProofs IndicatorCaches IndicatorProofs TrainSpec TrainProofs.
Import ListNotations.
Open Scope nat_scope.

Section Window.
Context {M : Type} (picklable : M -> bool) (parse iparse : nat -> nat * option nat).
Notation window := (window (M := M)).
Notation source := (source (M := M)).
Notation models := (models (M := M)).
Notation cached := (cached (M := M)).
Notation model_cache := (model_cache (M := M)).
Notation task := (task (M := M)).
Context (hist : list (window * settings)) (w : window) (c : settings) (gs : groups).
Hypothesis (Hs : steady_training parse iparse hist) (Hw : In (w, c) hist) (Ha : accepted_run c) (Hg : groups_ok parse w c gs).
Notation fits k := (fit parse w (c_lookahead c) (fst k) (snd k) (key_pool gs k)).
Notation la := (c_lookahead c).
Definition good (found : models) : Prop := NoDup (map fst found) /\ forall k t, In (k, t) found -> asked c k /\ trained_now parse w c k t.
(** No result is possible for some model asked for. *)
Definition stuck : Prop := exists k, asked c k /\ forall t, ~ trained_now parse w c k t.

Lemma key_pool_in k g : In g gs -> In k (group_syms g) -> key_pool gs k = Some (sort_nats (snd g)).
Proof.
  intros I K. unfold key_pool. destruct (group_of gs k) as [l|] eqn:E; [|now elim (group_of_none gs k E g I)]. cbn. f_equal.
  apply group_of_some in E. destruct E as (g' & I' & K' & <-). apply (pool_unique c k); [exact Ha| |]; now apply (group_pool parse w c gs).
Qed.
Lemma key_pool_members k l : key_pool gs k = Some l -> exists g, In g gs /\ In k (group_syms g) /\ sort_nats (snd g) = l.
Proof.
  unfold key_pool. destruct (group_of gs k) as [l'|] eqn:E; [|discriminate]. intros [= <-]. apply group_of_some in E. destruct E as (g & I & K & <-). now exists g.
Qed.
Lemma asked_source k : asked c k -> exists src, dict_get (w_sources w) (fst (parse (fst k))) = Some src.
Proof. intros K. destruct Hg as (_ & G & _). specialize (G k K). destruct (dict_get (w_sources w) (fst (parse (fst k)))) as [s|]; [now exists s|easy]. Qed.
Lemma set_good found k t : good found -> asked c k -> trained_now parse w c k t -> good (models_set found k t).
Proof.
  intros (N & R) K T. split; [now apply models_set_nodup|]. intros k' t' I. apply models_set_val in I. destruct I as [[= -> ->]|I]; [now split|now apply R].
Qed.
Lemma stuck_fit k : asked c k -> (forall cm, ~ fits k cm) -> stuck.
Proof. intros K F. exists k. split; [exact K|]. intros t T. destruct (now_fit parse w c gs k t Ha Hg K T) as (cm & X). now apply (F cm). Qed.

(** ** Cached models *)
Section Cached.
Context (st : model_cache).
Hypothesis (Hc : cache_ok parse iparse hist st) (He : c_cache c = true).
Lemma group_hits_fit name l g : In g gs -> fst (fst g) = name -> snd g = l -> ~ tuned parse iparse w name -> forall syms, (forall s, In s syms -> In s l) ->
  forall hits, group_hits parse st name l (fields_of w c) la syms = Some hits -> map fst hits = syms /\ Forall (fun x => fits (name, fst x) (snd x) /\ asked c (name, fst x)) hits.
Proof.
  intros I Eg El T. induction syms as [|s syms IH]; intros Sub hits; cbn [group_hits]; [intros [= <-]; now split|].
  destruct (cache_get st (model_key_of parse s name (fields_of w c) (Some l) la)) as [cm|] eqn:E; [|discriminate].
  destruct (group_hits parse st name l (fields_of w c) la syms) as [h|]; [|discriminate]. cbn. intros [= <-]. destruct (IH (fun s' J => Sub s' (or_intror J)) h eq_refl) as [A B].
  assert (K : In (name, s) (group_syms g)) by (apply group_syms_in; cbn; split; [now symmetry|rewrite El; apply Sub; now left]).
  destruct (group_pool parse w c gs (name, s) g Ha Hg I K) as (_ & Ask & _). split; [cbn; now f_equal|]. constructor; [|exact B]. cbn [fst snd]. split; [|exact Ask].
  apply (cache_hit parse iparse hist st w c gs (name, s) (Some l) cm Hs Hc Hw He Ha Hg Ask T); [|exact E]. cbn [fst snd]. rewrite (key_pool_in (name, s) g I K). now rewrite El.
Qed.
Lemma load_group_ok name : forall hits found, Forall (fun x => fits (name, fst x) (snd x) /\ asked c (name, fst x)) hits -> good found ->
  exists found', load_group parse w name hits found = Ok found' /\ good found' /\ forall k, In k (map fst found') <-> In k (map fst found) \/ exists s, In s (map fst hits) /\ k = (name, s).
Proof.
  induction hits as [|[s cm] hits IH]; intros found F G; cbn [load_group]; [exists found; split; [easy|]; split; [exact G|]; intros k; split; [now left|intros [H|(s & [] & _)]; exact H]|].
  inversion F as [|? ? (F1 & Ask) F2]; subst. cbn [fst snd] in *. unfold from_cached, get_source. destruct (asked_source (name, s) Ask) as (src & D). cbn [fst] in D. rewrite D. cbn [bind].
  edestruct IH as (found' & E & G' & K); [exact F2| |exists found'; split; [exact E|]; split; [exact G'|]].
  - apply set_good; [exact G|exact Ask|]. apply (fit_now parse w c (name, s) (key_pool gs (name, s)) cm src); [exact F1|now apply (key_pool_place parse w)|exact D].
  - intros k. rewrite K, models_set_in. cbn [map In fst]. split.
    + intros [[->|H]|(s' & I & ->)]; [right; exists s; now split; [left|]|now left|right; exists s'; now split; [right|]].
    + intros [H|(s' & [<-|I] & ->)]; [left; now right|left; now left|right; now exists s'].
Qed.
Definition served (found : models) (missing : list ind_sym) (k : ind_sym) : Prop :=
  In k (map fst found) \/ exists k', In k' missing /\ fst k' = fst k /\ (k' = k \/ exists l, key_pool gs k = Some l /\ key_pool gs k' = Some l).
Lemma served_mono found missing found' missing' k : served found missing k -> (forall k, In k (map fst found) -> In k (map fst found')) -> (forall k, In k missing -> In k missing') -> served found' missing' k.
Proof. intros [H|(k' & I & H)] A B; [left; now apply A|right; exists k'; split; [now apply B|exact H]]. Qed.
Lemma cached_loop_ok : forall syms found missing processed, good found ->
  (forall k, In k syms -> asked c k /\ ~ tuned parse iparse w (fst k)) ->
  (forall p k, In p processed -> fst k = fst p -> asked c k -> key_pool gs k = Some (sort_nats (snd p)) -> served found missing k) ->
  exists found' missing', cached_loop parse st w (fields_of w c) gs la syms found missing processed = Ok (found', missing') /\ good found' /\
    (forall k, In k (map fst found) -> In k (map fst found')) /\ (forall k, In k missing -> In k missing') /\ (forall k, In k missing' -> In k missing \/ In k syms) /\ forall k, In k syms -> served found' missing' k.
Proof.
  induction syms as [|k syms IH]; intros found missing processed G K P; cbn [cached_loop].
  { exists found, missing. split; [easy|]. split; [exact G|]. split; [easy|]. split; [easy|]. split; [now left|easy]. }
  destruct (K k (or_introl eq_refl)) as [Ask T]. assert (K' : forall k, In k syms -> asked c k /\ ~ tuned parse iparse w (fst k)) by (intros k' I; apply K; now right).
  destruct (group_of gs k) as [l|] eqn:E.
  - destruct (group_of_some gs k l E) as (g & I & J & El). pose proof (key_pool_in k g I J) as Q. pose proof (proj1 (group_syms_in g k) J) as [J1 J2].
    destruct (existsb (same_group (fst k, l)) processed) eqn:X.
    + apply existsb_exists in X. destruct X as (p & Ip & X). unfold same_group in X. cbn [fst snd] in X. apply andb_prop in X. destruct X as [X1 X2]. apply Nat.eqb_eq in X1.
      destruct (list_eq_dec Nat.eq_dec (sort_nats l) (sort_nats (snd p))) as [X3|]; [|discriminate].
      destruct (IH found missing processed G K' P) as (f' & m' & R & G' & A & B & C & D). exists f', m'. split; [exact R|]. split; [exact G'|]. split; [exact A|]. split; [exact B|]. split; [intros k' H; destruct (C k' H); [now left|right; now right]|].
      intros k' [<-|H]; [|now apply D]. apply (served_mono found missing); [|exact A|exact B]. apply (P p); [exact Ip|exact X1|exact Ask|]. rewrite Q, El. now f_equal.
    + destruct (group_hits parse st (fst k) l (fields_of w c) la l) as [hits|] eqn:H.
      * destruct (group_hits_fit (fst k) l g I (eq_sym J1) El T l (fun s H => H) hits H) as [H1 H2]. destruct (load_group_ok (fst k) hits found H2 G) as (f1 & L & G1 & K1). rewrite L. cbn [bind].
        assert (Hall : forall k', fst k' = fst k -> asked c k' -> key_pool gs k' = Some (sort_nats l) -> In k' (map fst f1)).
        { intros k' Ek Ask' Q'. apply K1. right. exists (snd k'). rewrite H1. destruct (key_pool_members k' _ Q') as (g' & I' & M' & El'). apply group_syms_in in M'. destruct M' as [M1 M2].
          split; [|rewrite <- Ek; now destruct k']. apply sort_nats_in. rewrite <- El'. now apply sort_nats_in. }
        destruct (IH f1 missing ((fst k, l) :: processed) G1 K') as (f' & m' & R & G' & A & B & C & D).
        { intros p k' [<-|Ip] Ek Ask' Q'; [left; now apply Hall|]. apply (served_mono found missing); [now apply (P p)| |easy]. intros k'' H'. apply K1. now left. }
        exists f', m'. split; [exact R|]. split; [exact G'|]. split; [intros k' H'; apply A, K1; now left|]. split; [exact B|]. split; [intros k' H'; destruct (C k' H'); [now left|right; now right]|].
        intros k' [<-|H']; [|now apply D]. left. apply A. apply Hall; [easy|exact Ask|]. now rewrite Q, El.
      * destruct (IH found (missing ++ [k]) ((fst k, l) :: processed) G K') as (f' & m' & R & G' & A & B & C & D).
        { intros p k' [<-|Ip] Ek Ask' Q'; [|apply (served_mono found missing); [now apply (P p)|easy|intros k'' H'; apply in_app_iff; now left]].
          right. exists k. split; [apply in_app_iff; right; now left|]. split; [now symmetry|]. right. exists (sort_nats l). split; [exact Q'|now rewrite Q, El]. }
        exists f', m'. split; [exact R|]. split; [exact G'|]. split; [exact A|]. split; [intros k' H'; apply B, in_app_iff; now left|]. split.
        { intros k' H'. destruct (C k' H') as [H0|H0]; [apply in_app_iff in H0; destruct H0 as [H0|[<-|[]]]; [now left|right; now left]|right; now right]. }
        intros k' [<-|H']; [|now apply D]. right. exists k. split; [apply B, in_app_iff; right; now left|]. split; [easy|now left].
  - assert (Q : key_pool gs k = None) by (unfold key_pool; now rewrite E).
    destruct (cache_get st (model_key_of parse (snd k) (fst k) (fields_of w c) None la)) as [cm|] eqn:H.
    + assert (F : fits k cm) by (apply (cache_hit parse iparse hist st w c gs k None cm); auto). unfold from_cached, get_source. destruct (asked_source k Ask) as (src & D). rewrite D. cbn [bind].
      destruct (IH (models_set found k (mk_trained (fst k) (cm_model cm) (cm_cols cm) (cm_lags cm) (s_predict src) (s_per_bar src))) missing processed) as (f' & m' & R & G' & A & B & C & D').
      * apply set_good; [exact G|exact Ask|]. apply (fit_now parse w c k (key_pool gs k) cm src); [exact F|now apply (key_pool_place parse w)|exact D].
      * exact K'.
      * intros p k' Ip Ek Ask' Q'. apply (served_mono found missing); [now apply (P p)| |easy]. intros k'' H'. apply models_set_in. now right.
      * exists f', m'. split; [exact R|]. split; [exact G'|]. split; [intros k' H'; apply A, models_set_in; now right|]. split; [exact B|]. split; [intros k' H'; destruct (C k' H'); [now left|right; now right]|].
        intros k' [<-|H']; [|now apply D']. left. apply A, models_set_in. now left.
    + destruct (IH found (missing ++ [k]) processed G K') as (f' & m' & R & G' & A & B & C & D).
      { intros p k' Ip Ek Ask' Q'. apply (served_mono found missing); [now apply (P p)|easy|intros k'' H'; apply in_app_iff; now left]. }
      exists f', m'. split; [exact R|]. split; [exact G'|]. split; [exact A|]. split; [intros k' H'; apply B, in_app_iff; now left|]. split.
      { intros k' H'. destruct (C k' H') as [H0|H0]; [apply in_app_iff in H0; destruct H0 as [H0|[<-|[]]]; [now left|right; now left]|right; now right]. }
      intros k' [<-|H']; [|now apply D]. right. exists k. split; [apply B, in_app_iff; right; now left|]. split; [easy|now left].
Qed.
End Cached.
Lemma get_cached_ok st syms : cache_ok parse iparse hist st -> (forall k, In k syms -> asked c k) ->
  exists found missing, get_cached_models parse iparse st w (c_cache c) (fields_of w c) gs la syms = Ok (found, missing) /\ good found /\
    (forall k, In k missing -> In k syms) /\ forall k, In k syms -> served found missing k.
Proof.
  intros C K. unfold get_cached_models. destruct (c_cache c) eqn:E; cbn [negb].
  - destruct (cached_loop_ok st C E (filter (fun k => negb (uses_hyperparams parse iparse w (fst k))) (sort_syms syms)) [] [] []) as (f & m & R & G & _ & _ & Sub & Sv).
    + split; [constructor|easy].
    + intros k I. apply filter_In in I. destruct I as [I U]. apply (proj1 (sorted_syms _ _)) in I. split; [now apply K|]. rewrite <- tuned_iff. destruct (uses_hyperparams parse iparse w (fst k)); easy.
    + easy.
    + rewrite R. cbn [bind]. set (hyper := filter (fun k => uses_hyperparams parse iparse w (fst k)) (sort_syms syms)).
      assert (X : forall k, In k (match hyper with [] => m | _ => sort_syms (m ++ hyper) end) <-> In k m \/ In k hyper).
      { intros k. destruct hyper as [|h0 hyper]; [cbn; tauto|]. now rewrite sorted_syms, in_app_iff. }
      exists f, (match hyper with [] => m | _ => sort_syms (m ++ hyper) end). split; [easy|]. split; [exact G|]. split.
      * intros k I. apply X in I. destruct I as [I|I]; [destruct (Sub k I) as [[]|J]; apply filter_In in J; exact (proj1 (sorted_syms _ _) (proj1 J))|apply filter_In in I; exact (proj1 (sorted_syms _ _) (proj1 I))].
      * intros k I. destruct (uses_hyperparams parse iparse w (fst k)) eqn:U.
        -- right. exists k. split; [apply X; right; unfold hyper; apply filter_In; split; [now apply sorted_syms|exact U]|]. split; [easy|now left].
        -- apply (served_mono f m); [|easy|intros k' I'; apply X; now left]. apply Sv, filter_In. split; [now apply sorted_syms|now rewrite U].
  - exists [], (sort_syms syms). split; [easy|]. split; [split; [constructor|easy]|]. split; [intros k I; exact (proj1 (sorted_syms _ _) I)|]. intros k I. right. exists k. split; [now apply sorted_syms|]. split; [easy|now left].
Qed.

(** ** Tasks *)
Definition task_syms (t : task) : list nat := match tk_pooled t with Some l => l | None => [tk_symbol t] end.
Definition task_ok (t : task) : Prop :=
  dict_get (w_sources w) (fst (parse (tk_name t))) = Some (tk_source t) /\
  (exists s, In s (task_syms t)) /\
  (forall s, In s (task_syms t) -> asked c (tk_name t, s) /\ key_pool gs (tk_name t, s) = option_map sort_nats (tk_pooled t)) /\
  inputs parse w (match tk_pooled t with Some _ => true | None => false end) (tk_name t) (match tk_pooled t with Some l => sort_nats l | None => [tk_symbol t] end) la (tk_train t) (tk_test t) /\
  exists train, s_kind (tk_source t) = Trainer (match tk_pooled t with Some _ => true | None => false end) train.
Lemma pooled_frames_stuck g e : In g gs -> (exists s, In s (snd g)) -> frames parse w true (fst (fst g)) (sort_nats (snd g)) la = Raise e -> stuck.
Proof.
  intros I (s & S) F. assert (K : In (fst (fst g), s) (group_syms g)) by now apply group_syms_in. destruct (group_pool parse w c gs _ g Ha Hg I K) as (_ & Ask & _).
  apply (stuck_fit (fst (fst g), s) Ask). intros cm X. rewrite (key_pool_in _ g I K) in X. inversion X as [|src train gr tr te m cols D T J Y|]; subst. apply frames_iff in J. cbn [fst snd] in J. congruence.
Qed.
Lemma pooled_tasks_ok found missing : forall r, (forall g, In g r -> In g gs) ->
  match pooled_tasks parse w r found missing la with
  | Raise _ => stuck
  | Ok (tasks, covered) => Forall task_ok tasks /\ (forall k, In k covered -> exists t, In t tasks /\ fst k = tk_name t /\ In (snd k) (task_syms t)) /\
      forall g k k', In g r -> In k (group_syms g) -> ~ In k (map fst found) -> In k' (group_syms g) -> In k' missing -> In k covered
  end.
Proof.
  induction r as [|g r IH]; intros Sub; cbn [pooled_tasks]; [split; [constructor|easy]|]. specialize (IH (fun g' I => Sub g' (or_intror I))).
  pose proof (Sub g (or_introl eq_refl)) as Ig.
  destruct (forallb (has_sym (map fst found)) (group_syms g)) eqn:F1.
  { destruct (pooled_tasks parse w r found missing la) as [[tasks covered]|]; [|exact IH]. destruct IH as (A & B & C). split; [exact A|]. split; [exact B|].
    intros g' k k' [<-|I] K N K' J; [|now apply (C g' k k')]. rewrite forallb_forall in F1. apply F1, has_sym_in in K. easy. }
  destruct (existsb (has_sym missing) (group_syms g)) eqn:F2; cbn [negb].
  - destruct Hg as (G1 & _). destruct (G1 g Ig) as (e & _ & _ & (src & train & D & T) & _). unfold get_source. rewrite D. cbn [bind]. rewrite T.
    assert (Ne : exists s, In s (snd g)) by (apply existsb_exists in F2; destruct F2 as (k & K & _); apply group_syms_in in K; now exists (snd k)).
    destruct (frames parse w true (fst (fst g)) (sort_nats (snd g)) la) as [[tr te]|e'] eqn:F; cbn [bind]; [|now apply (pooled_frames_stuck g e')].
    destruct (pooled_tasks parse w r found missing la) as [[tasks covered]|]; cbn [bind]; [|exact IH]. destruct IH as (A & B & C).
    split; [constructor; [|exact A]|split].
    + split; [exact D|]. split; [exact Ne|]. split.
      * cbn [task_syms tk_pooled tk_name]. intros s S. assert (K : In (fst (fst g), s) (group_syms g)) by now apply group_syms_in. split; [now apply (group_pool parse w c gs _ g)|]. cbn. now apply key_pool_in.
      * cbn. split; [now apply frames_iff|now exists train].
    + intros k I. apply in_app_iff in I. destruct I as [I|I].
      * apply group_syms_in in I. destruct I as [I1 I2]. eexists. split; [now left|]. now cbn.
      * destruct (B k I) as (t & J & R). exists t. split; [now right|exact R].
    + intros g' k k' [<-|I] K N K' J; apply in_app_iff; [now left|right; now apply (C g' k k')].
  - destruct (pooled_tasks parse w r found missing la) as [[tasks covered]|]; [|exact IH]. destruct IH as (A & B & C). split; [exact A|]. split; [exact B|].
    intros g' k k' [<-|I] K N K' J; [|now apply (C g' k k')]. assert (existsb (has_sym missing) (group_syms g) = true); [|congruence]. apply existsb_exists. exists k'. split; [exact K'|now apply has_sym_in].
Qed.
Definition loader_ok (x : source * ind_sym) : Prop :=
  asked c (snd x) /\ dict_get (w_sources w) (fst (parse (fst (snd x)))) = Some (fst x) /\ snd (parse (fst (snd x))) = None /\ exists lags load, s_kind (fst x) = Loader lags load.
Lemma symbol_tasks_ok found covered : forall missing, (forall k, In k missing -> asked c k) ->
  (forall k, In k missing -> pooled_name parse w (fst k) -> In k (map fst found) \/ In k covered) ->
  match symbol_tasks parse w found covered la missing with
  | Raise _ => stuck
  | Ok (tasks, loaders) => Forall task_ok tasks /\ Forall loader_ok loaders /\
      forall k, In k missing -> In k (map fst found) \/ In k covered \/ (exists t, In t tasks /\ fst k = tk_name t /\ In (snd k) (task_syms t)) \/ In k (map snd loaders)
  end.
Proof.
  induction missing as [|k missing IH]; intros K P; cbn [symbol_tasks]; [split; [constructor|split; [constructor|easy]]|].
  specialize (IH (fun k' I => K k' (or_intror I)) (fun k' I => P k' (or_intror I))). pose proof (K k (or_introl eq_refl)) as Ask.
  destruct (has_sym (map fst found) k || has_sym covered k) eqn:E.
  - destruct (symbol_tasks parse w found covered la missing) as [[tasks loaders]|]; [|exact IH]. destruct IH as (A & B & C). split; [exact A|]. split; [exact B|].
    intros k' [<-|I]; [|now apply C]. apply orb_prop in E. destruct E as [E|E]; apply has_sym_in in E; [now left|right; now left].
  - apply orb_false_elim in E. destruct E as [E1 E2]. destruct (asked_source k Ask) as (src & D). unfold get_source. rewrite D. cbn [bind].
    assert (Np : ~ pooled_name parse w (fst k)).
    { intros Q. destruct (P k (or_introl eq_refl) Q) as [H|H]; apply has_sym_in in H; congruence. }
    assert (Kn : key_pool gs k = None).
    { destruct (key_pool gs k) as [l|] eqn:Q; [|easy]. apply key_pool_members in Q. destruct Q as (g & I & J & _). elim Np. now apply (group_pool parse w c gs k g). }
    destruct (s_kind src) as [[] train|lags load] eqn:T.
    + elim Np. now exists src, train.
    + assert (Ta : match bind (frames parse w false (fst k) [snd k] la) (fun '(tr, te) => bind (symbol_tasks parse w found covered la missing) (fun '(tasks, loaders) => Ok (mk_task None src (fst k) (snd k) tr te :: tasks, loaders))) with
        | Raise _ => stuck
        | Ok (tasks, loaders) => Forall task_ok tasks /\ Forall loader_ok loaders /\
            forall k', In k' (k :: missing) -> In k' (map fst found) \/ In k' covered \/ (exists t, In t tasks /\ fst k' = tk_name t /\ In (snd k') (task_syms t)) \/ In k' (map snd loaders)
        end); [|destruct (snd (parse (fst k))); exact Ta].
      destruct (frames parse w false (fst k) [snd k] la) as [[tr te]|e] eqn:F; cbn [bind].
      * destruct (symbol_tasks parse w found covered la missing) as [[tasks loaders]|]; cbn [bind]; [|exact IH]. destruct IH as (A & B & C). split; [|split; [exact B|]].
        -- constructor; [|exact A]. split; [exact D|]. split; [exists (snd k); now left|]. split; [|cbn; split; [now apply frames_iff|now exists train]].
           cbn [task_syms tk_pooled tk_symbol tk_name]. intros s [<-|[]]. replace (fst k, snd k) with k by (now destruct k). now split.
        -- intros k' [<-|I]; [right; right; left; eexists; split; [now left|]; cbn; split; [easy|now left]|].
           destruct (C k' I) as [H|[H|[(t & H1 & H2)|H]]]; [now left|right; now left|right; right; left; exists t; split; [now right|exact H2]|right; right; now right].
      * apply (stuck_fit k Ask). intros cm X. rewrite Kn in X. inversion X as [src' train' tr te m cols D' T' J Y| |src' lags load m cols D' T' J Y]; subst; rewrite D in D'; injection D' as <-; [|congruence]. apply frames_iff in J. congruence.
    + destruct (snd (parse (fst k))) as [n|] eqn:Pn.
      * apply (stuck_fit k Ask). intros cm X. rewrite Kn in X. inversion X as [src' train' tr te m cols D' T' J Y| |src' lags' load' m cols D' T' J Y]; subst; rewrite D in D'; injection D' as <-; congruence.
      * destruct (symbol_tasks parse w found covered la missing) as [[tasks loaders]|]; cbn [bind]; [|exact IH]. destruct IH as (A & B & C). split; [exact A|]. split.
        -- constructor; [|exact B]. split; [exact Ask|]. split; [exact D|]. split; [exact Pn|]. now exists lags, load.
        -- intros k' [<-|I]; [right; right; right; now left|]. destruct (C k' I) as [H|[H|[H|H]]]; [now left|right; now left|right; right; now left|right; right; right; now right].
Qed.

(** ** Running them *)
Definition result_ok (x : task * (M * option (list nat))) : Prop :=
  task_ok (fst x) /\ forall s, In s (task_syms (fst x)) -> fits (tk_name (fst x), s) (mk_cached (fst (snd x)) (snd (snd x)) (in_lag_cols (tk_train (fst x)))).
Lemma task_fit t m cols : task_ok t -> (exists s, In s (task_syms t)) -> (run_task t = Ok (t, (m, cols)) <-> result_ok (t, (m, cols))).
Proof.
  intros O (s0 & S0). pose proof O as (D & _ & S & I & train & T). unfold run_task. rewrite T. split.
  - intros R. destruct (train (match tk_pooled t with Some l => sort_nats l | None => [tk_symbol t] end) (tk_train t) (tk_test t)) as [[m' cols']|] eqn:X; cbn [bind] in R; [|discriminate]. injection R as -> ->.
    split; [exact O|]. cbn [fst snd]. intros s J. destruct (S s J) as [_ E]. rewrite E. unfold task_syms in J. destruct (tk_pooled t) as [l|]; cbn [option_map].
    + now apply fit_pooled with (tk_source t) train (tk_test t).
    + destruct J as [<-|[]]. now apply fit_symbol with (tk_source t) train (tk_test t).
  - intros (_ & F). cbn [fst snd] in F. specialize (F s0 S0). destruct (S s0 S0) as [_ E]. rewrite E in F. unfold task_syms in S0. destruct (tk_pooled t) as [l|]; cbn [option_map] in F.
    + inversion F as [|src' train' g tr te m' cols' D' T' J Y Z1|]; subst. rewrite D in D'. injection D' as <-. rewrite T in T'. injection T' as <-. apply frames_iff in J, I. rewrite I in J. injection J as <- <-. now rewrite Y.
    + destruct S0 as [<-|[]]. inversion F as [src' train' tr te m' cols' D' T' J Y| |src' lags load m' cols' D' T' J Y]; subst; rewrite D in D'; injection D' as <-; [|congruence]. rewrite T in T'. injection T' as <-. apply frames_iff in J, I. rewrite I in J. injection J as <- <-. now rewrite Y.
Qed.
Lemma run_task_raise t e : task_ok t -> run_task t = Raise e -> stuck.
Proof.
  intros O R. pose proof O as (D & (s & S0) & S & I & train & T). destruct (S s S0) as [Ask E]. apply (stuck_fit (tk_name t, s) Ask). intros cm F. rewrite E in F. cbn [fst snd] in F. unfold run_task in R. rewrite T in R.
  unfold task_syms in S0. destruct (tk_pooled t) as [l|]; cbn [option_map] in F.
  - inversion F as [|src' train' g tr te m' cols' D' T' J Y Z1|]; subst. rewrite D in D'. injection D' as <-. rewrite T in T'. injection T' as <-. apply frames_iff in J, I. rewrite I in J. injection J as <- <-. rewrite Y in R. discriminate.
  - destruct S0 as [<-|[]]. inversion F as [src' train' tr te m' cols' D' T' J Y| |src' lags load m' cols' D' T' J Y]; subst; rewrite D in D'; injection D' as <-; [|congruence]. rewrite T in T'. injection T' as <-. apply frames_iff in J, I. rewrite I in J. injection J as <- <-. rewrite Y in R. discriminate.
Qed.
Lemma run_trainers_iff schedule (tasks : list task) out : (forall order, schedule = Some order -> forall n, complete n (order n)) ->
  (run_trainers schedule tasks = Ok out <-> Forall2 (fun t r => run_task t = Ok r) tasks out).
Proof.
  intros C. unfold run_trainers. destruct schedule as [order|]; [|apply in_turn_iff]. destruct (1 <? length tasks); [|apply in_turn_iff]. apply in_pool_iff. now apply C.
Qed.
Lemma run_trainers_ok tasks : Forall task_ok tasks -> match run_trainers (c_pool c) tasks with
  | Raise _ => stuck
  | Ok results => Forall result_ok results /\ map fst results = tasks
  end.
Proof.
  intros O. destruct Ha as (_ & _ & C). destruct (run_trainers (c_pool c) tasks) as [out|e] eqn:R.
  - apply run_trainers_iff in R; [|exact C]. clear - O R. induction R as [|t r tasks out X _ IH]; [split; [constructor|easy]|]. inversion O as [|? ? O1 O2]; subst. destruct (IH O2) as [A B].
    assert (exists m cols, r = (t, (m, cols))) as (m & cols & ->).
    { unfold run_task in X. destruct (s_kind (tk_source t)) as [p train|]; [|discriminate]. destruct (train _ _ _) as [[m cols]|]; [|discriminate]. injection X as <-. now exists m, cols. }
    split; [constructor; [|exact A]|cbn; now f_equal]. apply task_fit; [exact O1|exact (proj1 (proj2 O1))|exact X].
  - assert (Y : (exists out, Forall2 (fun t r => run_task t = Ok r) tasks out) \/ stuck).
    { clear - O Ha Hg. induction O as [|t tasks O1 O2 IH]; [left; now exists []|]. destruct (run_task t) as [r|e] eqn:X; [|right; now apply (run_task_raise t e)]. destruct IH as [(out & F)|S]; [left; exists (r :: out); now constructor|now right]. }
    destruct Y as [(out & F)|S]; [|exact S]. apply (run_trainers_iff (c_pool c) tasks out C) in F. congruence.
Qed.
Lemma store_many_ok t m cols pooled : task_ok t -> result_ok (t, (m, cols)) -> tk_pooled t = pooled -> forall syms x, (forall s, In s syms -> In s (task_syms t)) ->
  cache_ok parse iparse hist (fst x) -> good (snd x) ->
  let y := fold_left (store_one picklable parse iparse w (c_cache c) (fields_of w c) la t (mk_cached m cols (in_lag_cols (tk_train t))) pooled) syms x in
  cache_ok parse iparse hist (fst y) /\ good (snd y) /\ forall k, In k (map fst (snd y)) <-> In k (map fst (snd x)) \/ fst k = tk_name t /\ In (snd k) syms.
Proof.
  intros O R E. induction syms as [|s syms IH]; intros x Sub C G; [split; [exact C|]; split; [exact G|]; cbn; tauto|]. cbn [fold_left].
  pose proof O as (D & _ & S & _). destruct (S s (Sub s (or_introl eq_refl))) as [Ask Q]. destruct R as (_ & F). pose proof (F s (Sub s (or_introl eq_refl))) as Fs. cbn [fst snd] in F, Fs.
  destruct (IH (store_one picklable parse iparse w (c_cache c) (fields_of w c) la t (mk_cached m cols (in_lag_cols (tk_train t))) pooled x s)) as (A & B & K).
  - intros s' I. apply Sub. now right.
  - cbn [store_one fst]. assert (Qp : key_pool gs (tk_name t, s) = match pooled with None => None | Some l => Some (sort_nats l) end) by (rewrite Q, E; now destruct pooled).
    apply (cache_store picklable parse iparse hist (fst x) w c (tk_name t, s) pooled); [exact C|exact Hw|exact Ha|exact Ask| |]; rewrite <- Qp; [now apply (key_pool_place parse w)|exact Fs].
  - cbn [store_one snd]. apply set_good; [exact G|exact Ask|]. apply (fit_now parse w c (tk_name t, s) (key_pool gs (tk_name t, s)) (mk_cached m cols (in_lag_cols (tk_train t))) (tk_source t)); [exact Fs|now apply (key_pool_place parse w)|exact D].
  - split; [exact A|]. split; [exact B|]. intros k. rewrite K. cbn [store_one snd]. rewrite models_set_in. cbn [In]. split.
    + intros [[->|H]|[H1 H2]]; [right; cbn; split; [easy|now left]|now left|right; split; [exact H1|now right]].
    + intros [H|[H1 [H2|H2]]]; [left; now right|left; left; destruct k; cbn in *; now subst|right; now split].
Qed.
Lemma store_results_ok : forall results x, Forall result_ok results -> cache_ok parse iparse hist (fst x) -> good (snd x) ->
  let y := store_results picklable parse iparse w (c_cache c) (fields_of w c) la results x in
  cache_ok parse iparse hist (fst y) /\ good (snd y) /\ forall k, In k (map fst (snd y)) <-> In k (map fst (snd x)) \/ exists t, In t (map fst results) /\ fst k = tk_name t /\ In (snd k) (task_syms t).
Proof.
  induction results as [|[t [m cols]] results IH]; intros x F C G.
  { cbn. split; [exact C|]. split; [exact G|]. intros k. split; [now left|intros [H|(t & [] & _)]; exact H]. }
  inversion F as [|? ? F1 F2]; subst. unfold store_results. cbn [fold_left].
  set (x1 := match tk_pooled t with Some _ => _ | None => _ end).
  assert (X : cache_ok parse iparse hist (fst x1) /\ good (snd x1) /\ forall k, In k (map fst (snd x1)) <-> In k (map fst (snd x)) \/ fst k = tk_name t /\ In (snd k) (task_syms t)).
  { pose proof (store_many_ok t m cols (tk_pooled t) (proj1 F1) F1 eq_refl (task_syms t) x (fun s I => I) C G) as Y. unfold x1, task_syms in *. destruct (tk_pooled t); exact Y. }
  destruct X as (C1 & G1 & K1). destruct (IH x1 F2 C1 G1) as (A & B & K). unfold store_results in *. split; [exact A|]. split; [exact B|]. intros k. rewrite K, K1. cbn [map fst In]. split.
  - intros [[H|H]|(t' & I & H)]; [now left|right; exists t; split; [now left|exact H]|right; exists t'; split; [now right|exact H]].
  - intros [H|(t' & [<-|I] & H)]; [left; now left|left; now right|right; now exists t'].
Qed.
Lemma run_loaders_ok : forall loaders st found, Forall loader_ok loaders -> cache_ok parse iparse hist st -> good found ->
  let y := run_loaders picklable parse iparse w (c_cache c) (fields_of w c) la loaders st found in
  cache_ok parse iparse hist (fst y) /\ match snd y with
  | Raise _ => stuck
  | Ok found' => good found' /\ forall k, In k (map fst found') <-> In k (map fst found) \/ In k (map snd loaders)
  end.
Proof.
  induction loaders as [|[src k] loaders IH]; intros st found F C G; cbn [run_loaders]; [cbn; split; [exact C|]; split; [exact G|]; tauto|].
  inversion F as [|? ? (Ask & D & N & lags & load & T) F2]; subst. cbn [fst snd] in *. rewrite T.
  assert (Kn : key_pool gs k = None).
  { destruct (key_pool gs k) as [l|] eqn:Q; [|easy]. apply key_pool_members in Q. destruct Q as (g & I & J & _). destruct (group_pool parse w c gs k g Ha Hg I J) as (_ & _ & src' & train & D' & T'). rewrite D in D'. injection D' as <-. congruence. }
  destruct (load (snd k) (fst (w_dates w)) (snd (w_dates w))) as [[m cols]|e] eqn:L.
  - assert (X : fits k (mk_cached m cols lags)) by (rewrite Kn; now apply fit_loaded with src load).
    destruct (IH (set_cached_model picklable parse iparse st w (c_cache c) (mk_cached m cols lags) k (fields_of w c) None la) (models_set found k (mk_trained (fst k) m cols lags (s_predict src) (s_per_bar src)))) as (A & B).
    + exact F2.
    + apply (cache_store picklable parse iparse hist st w c k None); [exact C|exact Hw|exact Ha|exact Ask|exact I|now rewrite <- Kn].
    + apply set_good; [exact G|exact Ask|]. apply (fit_now parse w c k (key_pool gs k) (mk_cached m cols lags) src); [exact X|now apply (key_pool_place parse w)|exact D].
    + split; [exact A|]. destruct (snd (run_loaders _ _ _ _ _ _ _ _ _ _)) as [found'|]; [|exact B]. destruct B as [B K]. split; [exact B|]. intros k'. rewrite K, models_set_in. cbn [map snd In]. intuition.
  - cbn. split; [exact C|]. apply (stuck_fit k Ask). intros cm X. rewrite Kn in X. inversion X as [src' train' tr te m cols D' T' J Y| |src' lags' load' m cols D' T' J Y]; subst; rewrite D in D'; injection D' as <-; [congruence|]. rewrite T in T'. injection T' as <- <-. congruence.
Qed.
Lemma train_models_ok st syms : cache_ok parse iparse hist st -> (forall k, In k syms <-> asked c k) ->
  let y := train_models picklable parse iparse st w (c_cache c) (fields_of w c) gs la (c_pool c) syms in
  cache_ok parse iparse hist (fst y) /\ right_models parse w c (snd y).
Proof.
  intros C K. unfold train_models. destruct syms as [|k0 syms']; [cbn; split; [exact C|]; split; [constructor|]; split; [exact K|easy]|]. set (syms := k0 :: syms') in *.
  destruct (get_cached_ok st syms C (fun k I => proj1 (K k) I)) as (found & missing & E & G & Sub & Sv). rewrite E.
  assert (Fin : forall found', good found' -> (forall k, asked c k -> In k (map fst found')) -> right_models parse w c (Ok found')).
  { intros found' (N & R) Al. split; [exact N|]. split; [|intros k t I; now apply R]. intros k. split; [|apply Al]. intros I. apply in_map_iff in I. destruct I as ([k' t] & <- & I). now apply (R k' t). }
  destruct (match missing with [] => negb (uncached_groups syms found gs) | _ => false end) eqn:X.
  - cbn. split; [exact C|]. apply Fin; [exact G|]. intros k Ask. destruct missing; [|discriminate]. destruct (Sv k (proj2 (K k) Ask)) as [H|(k' & [] & _)]. exact H.
  - clear X. pose proof (pooled_tasks_ok found missing gs (fun g I => I)) as P. destruct (pooled_tasks parse w gs found missing la) as [[ptasks covered]|]; cbn [bind]; [|now split].
    destruct P as (P1 & P2 & P3).
    assert (Pc : forall k, asked c k -> pooled_name parse w (fst k) -> In k (map fst found) \/ In k covered).
    { intros k Ask Pn. destruct (in_dec (fun a b : ind_sym => ltac:(decide equality; apply Nat.eq_dec)) k (map fst found)) as [H|H]; [now left|]. right.
      destruct Hg as (_ & _ & G3). destruct (G3 k Ask Pn) as (g & I & J). destruct (Sv k (proj2 (K k) Ask)) as [H'|(k' & Im & Ef & H')]; [easy|]. apply (P3 g k k'); auto. destruct H' as [->|(l & Q & Q')]; [exact J|].
      rewrite (key_pool_in k g I J) in Q. injection Q as <-. destruct (key_pool_members k' _ Q') as (g' & I' & J' & El). apply group_syms_in. apply group_syms_in in J. split; [destruct J; congruence|].
      apply sort_nats_in. rewrite <- El. apply sort_nats_in. now apply group_syms_in in J'. }
    pose proof (symbol_tasks_ok found covered missing (fun k I => proj1 (K k) (Sub k I)) (fun k I => Pc k (proj1 (K k) (Sub k I)))) as S. destruct (symbol_tasks parse w found covered la missing) as [[stasks loaders]|]; cbn [bind]; [|now split].
    destruct S as (S1 & S2 & S3). pose proof (run_trainers_ok (ptasks ++ stasks) (proj2 (Forall_app _ _ _) (conj P1 S1))) as R. destruct (run_trainers (c_pool c) (ptasks ++ stasks)) as [results|]; cbn [bind]; [|now split].
    destruct R as [R1 R2]. pose proof (store_results_ok results (st, found) R1 C G) as Z. cbn zeta in Z. destruct (store_results picklable parse iparse w (c_cache c) (fields_of w c) la results (st, found)) as [st' found'].
    cbn [fst snd] in Z. destruct Z as (C' & G' & K'). destruct (run_loaders_ok loaders st' found' S2 C' G') as [A B]. split; [exact A|]. destruct (snd (run_loaders _ _ _ _ _ _ _ _ _ _)) as [f|]; [|exact B]. destruct B as [B1 B2].
    apply Fin; [exact B1|]. intros k Ask. apply B2.
    assert (Y : In k (map fst found) \/ In k covered \/ (exists t, In t stasks /\ fst k = tk_name t /\ In (snd k) (task_syms t)) \/ In k (map snd loaders)).
    { destruct (Sv k (proj2 (K k) Ask)) as [H|(k' & Im & Ef & [->|(l & Q & Q')])]; [now left|now apply S3|]. destruct (key_pool_members k _ Q) as (g & I & J & _). destruct (Pc k Ask); [now apply (group_pool parse w c gs k g)|now left|right; now left]. }
    destruct Y as [H|[H|[(t & I & H)|H]]]; [left; apply K'; now left| | |now right]; left; apply K'; right; rewrite R2.
    + destruct (P2 k H) as (t & I & H'). exists t. split; [apply in_app_iff; now left|exact H'].
    + exists t. split; [apply in_app_iff; now right|exact H].
Qed.
End Window.
Section History.
Context {M : Type} (picklable : M -> bool) (parse iparse : nat -> nat * option nat).
Lemma window_ok (hist : list (window (M := M) * settings)) st w c : steady_training parse iparse hist -> In (w, c) hist -> accepted_run c -> cache_ok parse iparse hist st ->
  let y := window_models picklable parse iparse st w c in cache_ok parse iparse hist (fst y) /\ right_models parse w c (snd y).
Proof.
  intros S I A C. unfold window_models. pose proof (pooled_groups_ok parse iparse w c) as G. destruct (pooled_groups parse w (c_trained c) (c_execs c)) as [gs|].
  - apply (train_models_ok picklable parse iparse hist w c gs S I A G st); [exact C|]. intros k. apply model_syms_in.
  - cbn. split; [exact C|]. destruct G as (k & Ask & D). exists k. split; [exact Ask|]. intros t (src & m & cols & lags & E & _). congruence.
Qed.
Lemma windows_ok (hist : list (window (M := M) * settings)) : steady_training parse iparse hist -> forall l st, (forall x, In x l -> In x hist /\ accepted_run (snd x)) -> cache_ok parse iparse hist st ->
  Forall2 (fun x out => right_models parse (fst x) (snd x) out) l (snd (windows picklable parse iparse st l)).
Proof.
  intros S. induction l as [|[w c] l IH]; intros st A C; cbn [windows]; [constructor|]. destruct (A (w, c) (or_introl eq_refl)) as [I Ac].
  destruct (window_ok hist st w c S I Ac C) as [C' R]. destruct (window_models picklable parse iparse st w c) as [st' o]. cbn [fst snd] in *.
  specialize (IH st' (fun x J => A x (or_intror J)) C'). destruct (windows picklable parse iparse st' l) as [st'' os]. constructor; [exact R|exact IH].
Qed.
End History.
