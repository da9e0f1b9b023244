(** Proofs for C68, continued: the two caches and histories. *)
From Coq Require Import List Bool Arith ZArith QArith Permutation Lia.
From Verif Require Export IndicatorProofs.
Import ListNotations.
Open Scope nat_scope.

Section One.
Context (parse : nat -> nat * option nat).
Notation alone := (alone parse).
Notation source := (source parse).

Lemma interval_filter w sym token : forall l, (forall e, In e l -> In e (w_intervals w)) ->
  interval_get (filter (fun e => fst (fst e) =? sym) l) sym token = interval_get l sym token.
Proof.
  induction l as [|[[a t] b] l IH]; intros S; [easy|]. cbn [filter fst]. destruct (Nat.eqb_spec a sym) as [->|N].
  - cbn [interval_get]. rewrite Nat.eqb_refl. cbn [andb]. destruct (t =? token); [easy|]. apply IH. intros e E. apply S. now right.
  - cbn [interval_get]. destruct (Nat.eqb_spec a sym); [easy|]. cbn [andb]. apply IH. intros e E. apply S. now right.
Qed.
Lemma interval_get_iff : forall l sym token b, interval_get l sym token = Some b <->
  exists before after, l = before ++ (sym, token, b) :: after /\ forall b', ~ In (sym, token, b') before.
Proof.
  induction l as [|[[a t] b0] l IH]; intros sym token b; cbn [interval_get].
  - split; [discriminate|]. intros ([|x before] & after & E & _); discriminate.
  - destruct (Nat.eqb_spec a sym) as [->|N]; cbn [andb]; [destruct (Nat.eqb_spec t token) as [->|N]|].
    + split.
      * intros [= ->]. exists [], l. split; [easy|]. intros b' [].
      * intros ([|x before] & after & E & F); [now injection E as ->|]. injection E as <- E. destruct (F b0). now left.
    + rewrite IH. split.
      * intros (be & af & -> & F). exists ((sym, t, b0) :: be), af. split; [easy|]. intros b' [[= E]|I]; [congruence|now apply (F b')].
      * intros ([|x be] & af & E & F); [injection E as <- _ _; congruence|]. injection E as <- E. exists be, af. split; [exact E|]. intros b' I. apply (F b'). now right.
    + rewrite IH. split.
      * intros (be & af & -> & F). exists ((a, t, b0) :: be), af. split; [easy|]. intros b' [[= E]|I]; [congruence|now apply (F b')].
      * intros ([|x be] & af & E & F); [injection E as -> _ _; congruence|]. injection E as <- E. exists be, af. split; [exact E|]. intros b' I. apply (F b'). now right.
Qed.
Lemma args_iff w name sym arrays bars : dict_get (w_store w) sym = Some arrays ->
  (indicator_args parse w name sym arrays (symbol_intervals w sym) = Ok bars <-> source w (name, sym) bars).
Proof.
  intros D. unfold indicator_args, IndicatorSpec.source. cbn [fst snd].
  assert (K : In sym (map fst (w_store w))) by (apply dict_get_in in D; now apply (in_map fst) in D).
  destruct (snd (parse name)) as [token|].
  - rewrite <- interval_get_iff. unfold symbol_intervals.
    pose proof (interval_filter w sym token (w_intervals w) (fun e H => H)) as F. destruct (filter (fun e => fst (fst e) =? sym) (w_intervals w)) as [|x l].
    + cbn in F. rewrite <- F. split; [discriminate|intros [_ [=]]].
    + rewrite F. destruct (interval_get (w_intervals w) sym token) as [b|]; (split; [intros [= <-]; easy|intros [_ [= <-]]; easy]).
  - destruct arrays as [dates cols]. split.
    + intros [= <-]. split; [exact K|]. now exists dates, cols.
    + intros (_ & d & c & E & ->). rewrite D in E. now injection E as -> ->.
Qed.

(** One name and symbol. *)
Definition one (w : world) (store : list (nat * (list Z * list (nat * list Q)))) (hps : option params) (k : ind_sym) : res series :=
  match dict_get store (snd k) with
  | None => Raise KeyErr
  | Some arrays => bind (get_indicator w (fst (parse (fst k)))) (fun ind =>
      bind (indicator_args parse w (fst k) (snd k) arrays (symbol_intervals w (snd k))) (fun data => call_indicator ind data hps))
  end.
Lemma registered w base ind : dict_get (w_registry w) base = Some ind -> In (base, ind) (w_registry w).
Proof. apply dict_get_in. Qed.
Lemma one_iff w store hps k s : declared_once w -> dict_get store (snd k) = dict_get (w_store w) (snd k) ->
  (one w store hps k = Ok s <-> alone w hps k s).
Proof.
  intros D E. unfold one, IndicatorSpec.alone. rewrite E. destruct k as [name sym]. cbn [fst snd]. destruct (dict_get (w_store w) sym) as [arrays|] eqn:G.
  - unfold get_indicator. destruct (dict_get (w_registry w) (fst (parse name))) as [ind|] eqn:R; cbn [bind].
    + pose proof (args_iff w name sym arrays) as A. destruct (indicator_args parse w name sym arrays (symbol_intervals w sym)) as [bars|e]; cbn [bind].
      * rewrite call_iff by (apply (D _ _ (registered _ _ _ R))). split.
        -- intros (args & values & H). exists ind, bars, args, values. split; [easy|]. split; [now apply A|exact H].
        -- intros (ind' & bars' & args & values & [= <-] & S & H). apply A in S; [|exact G]. injection S as ->. now exists args, values.
      * split; [discriminate|]. intros (ind' & bars' & args & values & _ & S & _). apply A in S; [discriminate|exact G].
    + split; [discriminate|]. intros (ind' & bars' & args & values & [=] & _).
  - split; [discriminate|]. intros (ind' & bars' & args & values & _ & [S _] & _). apply dict_get_none in G. tauto.
Qed.
Lemma alone_fun w hps k s s' : declared_once w -> alone w hps k s -> alone w hps k s' -> s = s'.
Proof. intros D A B. apply (one_iff w (w_store w)) in A, B; [congruence|easy..]. Qed.

(** ** Running the missing ones *)
Lemma run_symbol_iff w store hps sym arrays : dict_get store sym = Some arrays -> forall names out,
  run_symbol parse w hps sym arrays names = Ok out <-> Forall2 (fun n r => fst r = (n, sym) /\ one w store hps (n, sym) = Ok (snd r)) names out.
Proof.
  intros D. induction names as [|n names IH]; intros out; cbn [run_symbol]; [split; [intros [= <-]; constructor|intros F; inversion F; easy]|].
  assert (O : one w store hps (n, sym) = bind (get_indicator w (fst (parse n))) (fun ind =>
      bind (indicator_args parse w n sym arrays (symbol_intervals w sym)) (fun data => call_indicator ind data hps))) by (unfold one; cbn [fst snd]; now rewrite D).
  destruct (get_indicator w (fst (parse n))) as [ind|e]; cbn [bind] in *; [|split; [discriminate|intros F; inversion F as [|a b c d (P & Q) R]; subst; congruence]].
  destruct (indicator_args parse w n sym arrays (symbol_intervals w sym)) as [bars|e]; cbn [bind] in *; [|split; [discriminate|intros F; inversion F as [|a b c d (P & Q) R]; subst; congruence]].
  rewrite <- O. clear O. destruct (one w store hps (n, sym)) as [s|e] eqn:O1; cbn [bind]; [|split; [discriminate|intros F; inversion F as [|a b c d (P & Q) R]; congruence]].
  split.
  - destruct (run_symbol parse w hps sym arrays names) as [t|] eqn:T; cbn [bind]; [|discriminate]. intros [= <-]. constructor; [easy|]. now apply IH.
  - intros F. inversion F as [|a [b1 b2] c d (P & Q) R]; subst. cbn in *. subst. rewrite O1 in Q. injection Q as <-. apply IH in R. rewrite R. reflexivity.
Qed.
Lemma add_name_in : forall d sym name s n, (exists l, In (s, l) (add_name d sym name) /\ In n l) <-> (exists l, In (s, l) d /\ In n l) \/ (s = sym /\ n = name).
Proof.
  induction d as [|[a l0] d IH]; intros sym name s n; cbn [add_name].
  - split.
    + intros (l & [[= <- <-]|[]] & [<-|[]]). now right.
    + intros [(l & [] & _)|[-> ->]]. exists [name]. split; now left.
  - destruct (Nat.eqb_spec a sym) as [->|N].
    + split.
      * intros (l & [[= <- <-]|I] & J); [apply in_app_iff in J; destruct J as [J|[<-|[]]]; [left; exists l0; split; [now left|exact J]|now right]|].
        left. exists l. split; [now right|exact J].
      * intros [(l & [[= <- <-]|I] & J)|[-> ->]].
        -- exists (l0 ++ [name]). split; [now left|]. apply in_app_iff. now left.
        -- exists l. split; [now right|exact J].
        -- exists (l0 ++ [name]). split; [now left|]. apply in_app_iff. right. now left.
    + specialize (IH sym name s n). split.
      * intros (l & [[= <- <-]|I] & J); [left; exists l0; split; [now left|exact J]|].
        destruct IH as [IH _]. destruct IH as [(l' & I' & J')|H]; [now exists l| |now right]. left. exists l'. split; [now right|exact J'].
      * intros [(l & [[= <- <-]|I] & J)|H].
        -- exists l0. split; [now left|exact J].
        -- destruct IH as [_ IH]. destruct IH as (l' & I' & J'); [left; now exists l|]. exists l'. split; [now right|exact J'].
        -- destruct IH as [_ IH]. destruct IH as (l' & I' & J'); [now right|]. exists l'. split; [now right|exact J'].
Qed.
Lemma names_by_sym_in syms s n : (exists l, In (s, l) (names_by_sym syms) /\ In n l) <-> In (n, s) syms.
Proof.
  unfold names_by_sym. enough (G : forall d, (exists l, In (s, l) (fold_left (fun d k => add_name d (snd k) (fst k)) syms d) /\ In n l) <->
    (exists l, In (s, l) d /\ In n l) \/ In (n, s) syms).
  { rewrite G. split; [intros [(l & [] & _)|I]; exact I|now right]. }
  induction syms as [|[n' s'] syms IH]; intros d; cbn [fold_left In fst snd]; [tauto|]. rewrite IH, add_name_in. split.
  - intros [[H|[-> ->]]|H]; [now left|right; now left|right; now right].
  - intros [H|[[= -> ->]|H]]; [left; now left|left; now right|now right].
Qed.
Lemma check_names_ok w syms : (forall k, In k syms -> exists ind, get_indicator w (fst (parse (fst k))) = Ok ind) -> check_names parse w syms = Ok tt.
Proof. induction syms as [|k r IH]; intros H; [easy|]. cbn. destruct (H k) as [ind ->]; [now left|]. apply IH. intros x I. apply H. now right. Qed.
Lemma check_names_inv w syms : check_names parse w syms = Ok tt -> forall k, In k syms -> exists ind, get_indicator w (fst (parse (fst k))) = Ok ind.
Proof.
  induction syms as [|k r IH]; intros H x I; [easy|]. cbn in H. destruct (get_indicator w (fst (parse (fst k)))) as [ind|] eqn:G; cbn in H; [|discriminate].
  destruct I as [<-|I]; [now exists ind|now apply IH].
Qed.
Definition schedule_ok (schedule : option (nat -> list nat)) : Prop := forall order, schedule = Some order -> forall n, complete n (order n).
Lemma run_indicators_ok w store syms schedule hps out : schedule_ok schedule -> run_indicators parse w store syms schedule hps = Ok out ->
  (forall k, In k (map fst out) <-> In k syms) /\ forall k s, In (k, s) out -> one w store hps k = Ok s.
Proof.
  intros Sc. unfold run_indicators. destruct (check_names parse w syms) as [[]|]; cbn [bind]; [|discriminate].
  set (x := match schedule with None => _ | Some order => _ end). destruct x as [batches|] eqn:B; cbn [bind]; [|discriminate]. intros [= <-].
  assert (F : Forall2 (fun t b => task parse w store hps t = Ok b) (names_by_sym syms) batches).
  { unfold x in B. destruct schedule as [order|]; [destruct (_ =? 1)|]; [now apply in_turn_iff| |now apply in_turn_iff]. apply in_pool_iff in B; [exact B|now apply Sc]. }
  clear x B. split.
  - intros [n s]. rewrite <- (names_by_sym_in syms s n). induction F as [|[s0 l0] b ts bs T F IH]; cbn [concat map]; [split; [easy|intros (l & [] & _)]|].
    rewrite map_app, in_app_iff, IH. unfold task in T. cbn [fst snd] in T. destruct (dict_get store s0) as [arrays|] eqn:D; [|discriminate].
    apply run_symbol_iff with (store := store) in T; [|exact D].
    assert (M : map fst b = map (fun n => (n, s0)) l0) by (clear - T; induction T as [|? ? ? ? (P & _) T IH]; [easy|]; cbn [map]; apply f_equal2; [exact P|exact IH]). rewrite M, in_map_iff. split.
    + intros [(n' & [= -> ->] & I)|(l & I & J)]; [exists l0; split; [now left|exact I]|exists l; split; [now right|exact J]].
    + intros (l & [[= <- <-]|I] & J); [left; now exists n|right; now exists l].
  - intros k s. induction F as [|[s0 l0] b ts bs T F IH]; cbn [concat]; [easy|]. rewrite in_app_iff. intros [I|I]; [|now apply IH].
    unfold task in T. cbn [fst snd] in T. destruct (dict_get store s0) as [arrays|] eqn:D; [|discriminate].
    apply run_symbol_iff with (store := store) in T; [|exact D]. clear - T I. induction T as [|? [k1 s1] ? ? (P & Q) T IH]; [easy|]. cbn in *.
    destruct I as [[= <- <-]|I]; [now rewrite P|now apply IH].
Qed.
Lemma run_indicators_total w store syms schedule hps : schedule_ok schedule -> (forall k, In k syms -> exists s, one w store hps k = Ok s) ->
  exists out, run_indicators parse w store syms schedule hps = Ok out.
Proof.
  intros Sc H. unfold run_indicators. rewrite check_names_ok.
  2:{ intros k I. destruct (H k I) as [s O]. unfold one in O. destruct (dict_get store (snd k)); [|discriminate].
      destruct (get_indicator w (fst (parse (fst k)))) as [ind|]; [now exists ind|discriminate]. }
  cbn [bind].
  assert (F : exists batches, Forall2 (fun t b => task parse w store hps t = Ok b) (names_by_sym syms) batches).
  { assert (G : forall s l, In (s, l) (names_by_sym syms) -> l <> [] /\ forall n, In n l -> In (n, s) syms).
    { intros s l I. split; [|intros n J; apply names_by_sym_in; now exists l].
      assert (N : Forall (fun x => snd x <> []) (names_by_sym syms)).
      { unfold names_by_sym. assert (Forall (fun x : nat * list nat => snd x <> []) []) as B by constructor. revert B. generalize ([] : list (nat * list nat)) as d.
        clear. induction syms as [|k r IH]; intros d B; cbn [fold_left]; [exact B|]. apply IH.
        clear - B. induction B as [|[a l] d P B IH]; cbn [add_name]; [repeat constructor; easy|]. destruct (a =? snd k); constructor; cbn in *; try easy. now destruct l. }
      rewrite Forall_forall in N. apply (N _ I). }
    assert (T : forall x, In x (names_by_sym syms) -> exists b, task parse w store hps x = Ok b).
    { intros [s l] I. destruct (G s l I) as [N J]. unfold task. cbn [fst snd]. destruct (dict_get store s) as [arrays|] eqn:D.
      - enough (exists b, Forall2 (fun n r => fst r = (n, s) /\ one w store hps (n, s) = Ok (snd r)) l b) as [b B].
        { exists b. now apply (run_symbol_iff w store). }
        clear - J H. induction l as [|n l IH]; [exists []; constructor|]. destruct (H (n, s)) as [v V]; [apply J; now left|]. destruct IH as [b B]; [intros m M; apply J; now right|].
        exists (((n, s), v) :: b). now constructor.
      - destruct l as [|n l]; [easy|]. destruct (H (n, s)) as [v V]; [apply J; now left|]. unfold one in V. cbn [fst snd] in V. now rewrite D in V. }
    clear - T. induction (names_by_sym syms) as [|x l IH]; [exists []; constructor|]. destruct (T x) as [b B]; [now left|]. destruct IH as [bs F]; [intros y Y; apply T; now right|].
    exists (b :: bs). now constructor. }
  destruct F as [batches F]. exists (concat batches).
  assert (X : match schedule with
     | None => in_turn (task parse w store hps) (names_by_sym syms)
     | Some order => if length (names_by_sym syms) =? 1 then in_turn (task parse w store hps) (names_by_sym syms)
                     else in_pool (task parse w store hps) (order (length (names_by_sym syms))) (names_by_sym syms)
     end = Ok batches).
  { destruct schedule as [order|]; [destruct (_ =? 1)|]; [now apply in_turn_iff| |now apply in_turn_iff]. apply in_pool_iff; [now apply Sc|exact F]. }
  rewrite X. reflexivity.
Qed.
End One.
