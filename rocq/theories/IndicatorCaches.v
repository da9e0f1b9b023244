(** Proofs for C68, continued: the memo, the disk cache, whole histories. *)
From Coq Require Import List Bool Arith ZArith QArith Permutation Lia.
From Verif Require Export IndicatorRun.
Import ListNotations.
Open Scope nat_scope.

Lemma dict_get_perm {V} (a b : list (nat * V)) : NoDup (map fst a) -> Permutation a b -> forall k, dict_get a k = dict_get b k.
Proof.
  intros N P k. assert (Nb : NoDup (map fst b)) by now rewrite <- P. destruct (dict_get a k) as [v|] eqn:E.
  - symmetry. apply dict_in_get; [exact Nb|]. rewrite <- P. now apply dict_get_in.
  - symmetry. apply dict_get_none. rewrite <- P. now apply dict_get_none.
Qed.
Lemma subset_iff : forall names p d, subset p names = Ok d -> map fst d = names /\ forall n, In n names -> dict_get d n = dict_get p n.
Proof.
  induction names as [|n names IH]; intros p d; cbn [subset]; [intros [= <-]; easy|].
  destruct (dict_get p n) as [v|] eqn:E; [|discriminate]. destruct (subset p names) as [t|] eqn:T; cbn [bind]; [|discriminate]. intros [= <-].
  destruct (IH p t T) as [K G]. split; [cbn; now rewrite K|]. intros m [<-|I]; cbn [dict_get]; [now rewrite Nat.eqb_refl|].
  destruct (Nat.eqb_spec m n) as [->|]; [now symmetry|now apply G].
Qed.
Lemma subset_raises : forall names p e, subset p names = Raise e -> exists n, In n names /\ dict_get p n = None.
Proof.
  induction names as [|n names IH]; intros p e; cbn [subset]; [discriminate|]. destruct (dict_get p n) as [v|] eqn:E; [|intros _; exists n; split; [now left|exact E]].
  destruct (subset p names) as [t|e'] eqn:T; cbn [bind]; [discriminate|]. intros _. destruct (IH p e' T) as (m & I & G). exists m. split; [now right|exact G].
Qed.

Section One.
Context (scale : nat) (parse : nat -> nat * option nat).
Notation alone := (alone parse).

Lemma key_some w name sym hps key : declared_once w -> memo_key_of parse w name sym hps = Ok (Some key) ->
  exists ind vals, dict_get (w_registry w) (fst (parse name)) = Some ind /\ key = (name, sym, vals) /\ given ind hps vals.
Proof.
  intros D. unfold memo_key_of, get_indicator. destruct (dict_get (w_registry w) (fst (parse name))) as [ind|] eqn:R; cbn [bind]; [|discriminate].
  destruct (D _ _ (dict_get_in _ _ _ R)) as [U _].
  destruct (hyperparam_names (i_kwargs ind)) as [|n ns] eqn:N; [discriminate|].
  set (sub := match hps with None => _ | Some p => _ end). destruct sub as [s|] eqn:E; cbn [bind]; [|discriminate]. intros [= <-].
  exists ind, (sort_names s). split; [easy|]. split; [easy|].
  assert (G : given ind hps s /\ NoDup (map fst s)).
  { unfold sub in E. destruct hps as [p|].
    - apply subset_iff in E. destruct E as [K G]. rewrite <- N in K, G. split; [|rewrite K; apply names_nodup]. intros key h I. apply G. apply names_in. now exists key, h.
    - cbn [build_run merge_overrides] in E. injection E as <-. destruct (specs_get ind U) as [S Nd]. split.
      + intros key h I. rewrite dict_get_map, (S key h I). easy.
      + rewrite map_map. erewrite map_ext; [exact Nd|]. now intros []. }
  destruct G as [G Nd]. intros key h I. rewrite <- (dict_get_perm s); [now apply (G key)|exact Nd|]. symmetry. apply sort_names_perm.
Qed.
Lemma key_raises w name sym hps e : memo_key_of parse w name sym hps = Raise e -> forall s, ~ alone w hps (name, sym) s.
Proof.
  unfold memo_key_of, get_indicator. intros E s (ind & bars & args & values & R & _ & A & _). cbn [fst] in R. rewrite R in E. cbn [bind] in E.
  destruct (hyperparam_names (i_kwargs ind)) as [|n ns] eqn:N; [discriminate|]. destruct hps as [p|]; [|cbn in E; discriminate].
  destruct (subset p (n :: ns)) as [t|e'] eqn:T; cbn [bind] in E; [discriminate|]. apply subset_raises in T. destruct T as (m & I & G). rewrite <- N in I.
  apply names_in in I. destruct I as (key & h & I & <-). unfold arguments in A. clear - A I G. induction A as [|x y l l' P A IH]; [easy|]. destruct I as [->|I]; [|now apply IH].
  destruct P as [_ P]. cbn in P. congruence.
Qed.

(** Values of the declared types. *)
Definition vals_typed (w : world) (name : nat) (vals : params) : Prop :=
  forall ind key h v, dict_get (w_registry w) (fst (parse name)) = Some ind -> In (key, KHyper h) (i_kwargs ind) -> dict_get vals (h_name h) = Some v -> same_type v (h_default h).
Lemma given_typed w c name ind vals : declared_once w -> typed w c -> dict_get (w_registry w) (fst (parse name)) = Some ind -> given ind (c_hyperparams c) vals -> vals_typed w name vals.
Proof.
  intros D T R G ind' key h v R' I E. rewrite R in R'. injection R' as <-. rewrite (G key h I) in E. pose proof (dict_get_in _ _ _ R) as J.
  destruct (c_hyperparams c) as [p|] eqn:H; [now apply (T p _ _ key h v H J I)|]. injection E as <-. now apply (proj2 (D _ _ J) key).
Qed.
Lemma values_eqb_get : forall a b n, values_eqb scale a b = true -> match dict_get a n, dict_get b n with Some v, Some v' => units scale v = units scale v' | None, None => True | _, _ => False end.
Proof.
  induction a as [|[x v] a IH]; intros [|[y v'] b] n; cbn [values_eqb dict_get]; try easy. rewrite !andb_true_iff. intros [[E P] V].
  apply Nat.eqb_eq in E. subst y. destruct (n =? x); [now apply Z.eqb_eq in P|now apply IH].
Qed.
Lemma alone_given w hps hps' name sym s :
  (forall ind key h, dict_get (w_registry w) (fst (parse name)) = Some ind -> In (key, KHyper h) (i_kwargs ind) ->
     match hps with Some p => dict_get p (h_name h) | None => Some (h_default h) end = match hps' with Some p => dict_get p (h_name h) | None => Some (h_default h) end) ->
  alone w hps (name, sym) s -> alone w hps' (name, sym) s.
Proof.
  intros H (ind & bars & args & values & R & S & A & rest). exists ind, bars, args, values. split; [exact R|]. split; [exact S|]. split; [|exact rest].
  cbn [fst] in R. specialize (H ind). unfold arguments in *.
  assert (G : forall m : list (nat * kwarg pynum), (forall key h, In (key, KHyper h) m -> match hps with Some p => dict_get p (h_name h) | None => Some (h_default h) end =
     match hps' with Some p => dict_get p (h_name h) | None => Some (h_default h) end) -> forall args : params,
     Forall2 (fun declared given => fst given = fst declared /\
    match snd declared with KVal v => snd given = v | KHyper h => match hps with Some p => dict_get p (h_name h) = Some (snd given) | None => snd given = h_default h end end) m args ->
     Forall2 (fun declared given => fst given = fst declared /\
    match snd declared with KVal v => snd given = v | KHyper h => match hps' with Some p => dict_get p (h_name h) = Some (snd given) | None => snd given = h_default h end end) m args).
  { clear. intros m H args F. induction F as [|[key k] y l l' (P & Q) F IH]; constructor.
    - split; [exact P|]. cbn [snd] in *. destruct k as [h|v]; [|exact Q]. specialize (H key h (or_introl eq_refl)). destruct hps, hps'; congruence.
    - apply IH. intros key0 h I. apply (H key0). now right. }
  apply G; [|exact A]. intros key h I. now apply (H key).
Qed.
Lemma alone_vals w name sym vals vals' s : values_eqb scale vals vals' = true -> vals_typed w name vals -> vals_typed w name vals' ->
  alone w (Some vals) (name, sym) s <-> alone w (Some vals') (name, sym) s.
Proof.
  intros E T T'.
  assert (G : forall ind key h, dict_get (w_registry w) (fst (parse name)) = Some ind -> In (key, KHyper h) (i_kwargs ind) -> dict_get vals (h_name h) = dict_get vals' (h_name h)).
  { intros ind key h R I. pose proof (values_eqb_get vals vals' (h_name h) E) as V. destruct (dict_get vals (h_name h)) as [v|] eqn:A, (dict_get vals' (h_name h)) as [v'|] eqn:B; try easy.
    f_equal. apply (units_inj scale); [|exact V]. apply same_type_trans with (h_default h); [now apply (T ind key)|]. apply same_type_sym. now apply (T' ind key). }
  split; apply alone_given; intros ind key h R I; [now apply (G ind key)|symmetry; now apply (G ind key)].
Qed.
Definition memo_ok (w : world) (m : memo) : Prop :=
  forall name sym vals s, In ((name, sym, vals), s) m -> vals_typed w name vals /\ alone w (Some vals) (name, sym) s.
Lemma memo_get_in : forall m k s, memo_get scale m k = Some s -> exists k', In (k', s) m /\ memo_key_eqb scale k k' = true.
Proof.
  induction m as [|[k' s'] m IH]; intros k s; cbn [memo_get]; [discriminate|]. destruct (memo_key_eqb scale k k') eqn:E.
  - intros [= <-]. exists k'. split; [now left|exact E].
  - intros H. destruct (IH k s H) as (k2 & I & G). exists k2. split; [now right|exact G].
Qed.
Lemma memo_put_in : forall m k s x, In x (memo_put scale m k s) -> In x m \/ (snd x = s /\ (fst x = k \/ exists k', fst x = k' /\ memo_key_eqb scale k k' = true /\ In k' (map fst m))).
Proof.
  induction m as [|[k' s'] m IH]; intros k s x; cbn [memo_put]; [intros [<-|[]]; right; split; [easy|now left]|].
  destruct (memo_key_eqb scale k k') eqn:E.
  - intros [<-|I]; [|left; now right]. right. split; [easy|]. right. exists k'. split; [easy|]. split; [exact E|now left].
  - intros [<-|I]; [left; now left|]. destruct (IH k s x I) as [H|[H [G|(k2 & G & K & J)]]]; [left; now right|right; split; [exact H|now left]|].
    right. split; [exact H|]. right. exists k2. split; [exact G|]. split; [exact K|now right].
Qed.
Lemma memo_put_length : forall m k s, length (memo_put scale m k s) <= S (length m).
Proof. induction m as [|[k' s'] m IH]; intros k s; cbn [memo_put length]; [lia|]. destruct (memo_key_eqb scale k k'); cbn [length]; [lia|]. specialize (IH k s). lia. Qed.
Lemma memo_key_eqb_parts n s v n' s' v' : memo_key_eqb scale (n, s, v) (n', s', v') = true -> n = n' /\ s = s' /\ values_eqb scale v v' = true.
Proof. unfold memo_key_eqb. cbn. rewrite !andb_true_iff, !Nat.eqb_eq. tauto. Qed.

Lemma memo_hit st w c k s : declared_once w -> typed w c -> (st_max st = 0 \/ memo_ok w (st_memo st)) ->
  get_memoized scale parse st w k (c_hyperparams c) = Ok (Some s) -> alone w (c_hyperparams c) k s.
Proof.
  intros D T M. unfold get_memoized. destruct (Nat.eqb_spec (st_max st) 0); [discriminate|]. destruct M as [M|M]; [congruence|]. destruct k as [name sym]. cbn [fst snd].
  destruct (memo_key_of parse w name sym (c_hyperparams c)) as [[key|]|] eqn:K; cbn [bind]; [|discriminate..]. intros [= G].
  apply key_some in K; [|exact D]. destruct K as (ind & vals & R & -> & Gv). apply memo_get_in in G. destruct G as ([[n' s'] v'] & I & E).
  apply memo_key_eqb_parts in E. destruct E as (<- & <- & E). destruct (M _ _ _ _ I) as [Tv A].
  apply (alone_vals w name sym vals v' s E) in A; [|now apply (given_typed w c name ind)|exact Tv].
  apply alone_given with (hps := Some vals); [|exact A]. intros ind' key h R' J. rewrite R in R'. injection R' as <-. now apply (Gv key).
Qed.
Lemma memo_raises st w c k e : get_memoized scale parse st w k (c_hyperparams c) = Raise e -> forall s, ~ alone w (c_hyperparams c) k s.
Proof.
  unfold get_memoized. destruct (st_max st =? 0); [discriminate|]. destruct k as [name sym]. cbn [fst snd].
  destruct (memo_key_of parse w name sym (c_hyperparams c)) as [key|e'] eqn:K; cbn [bind]; [discriminate|]. intros _. now apply (key_raises w name sym _ e').
Qed.
Lemma memo_store st w c k s : declared_once w -> typed w c -> (st_max st = 0 \/ (memo_ok w (st_memo st) /\ length (st_memo st) <= st_max st)) -> alone w (c_hyperparams c) k s ->
  exists st', set_memoized scale parse st w k s (c_hyperparams c) = Ok st' /\ st_max st' = st_max st /\ st_disk st' = st_disk st /\
    (st_max st' = 0 \/ (memo_ok w (st_memo st') /\ length (st_memo st') <= st_max st')).
Proof.
  intros D T M A. unfold set_memoized. destruct (Nat.eqb_spec (st_max st) 0) as [Z|Z]; [exists st; tauto|]. destruct M as [M|[M L]]; [congruence|].
  destruct k as [name sym]. cbn [fst snd]. destruct (memo_key_of parse w name sym (c_hyperparams c)) as [[key|]|e] eqn:K; cbn [bind].
  - eexists. split; [reflexivity|]. cbn. split; [easy|]. split; [easy|]. right.
    apply key_some in K; [|exact D]. destruct K as (ind & vals & R & -> & Gv).
    pose proof (given_typed w c name ind vals D T R Gv) as Tv.
    assert (Av : alone w (Some vals) (name, sym) s).
    { apply alone_given with (hps := c_hyperparams c); [|exact A]. intros ind' key h R' J. rewrite R in R'. injection R' as <-. symmetry. now apply (Gv key). }
    set (m := if st_max st <=? length (st_memo st) then tl (st_memo st) else st_memo st).
    assert (Sub : forall x, In x m -> In x (st_memo st)) by (unfold m; destruct (_ <=? _); [destruct (st_memo st); cbn; tauto|easy]).
    split.
    + intros n' s' v' s0 I. apply memo_put_in in I. destruct I as [I|[E [E2|(k' & E2 & K & J)]]]; [now apply M, Sub|cbn in *; injection E2 as -> -> ->; subst; easy|].
      cbn in *. subst k' s0. apply memo_key_eqb_parts in K. destruct K as (<- & <- & K). apply in_map_iff in J. destruct J as ([k3 s3] & J1 & J). cbn in J1. subst k3. apply Sub in J. apply M in J. destruct J as [Tv' _].
      split; [exact Tv'|]. now apply (alone_vals w name sym vals v' s K).
    + pose proof (memo_put_length m (name, sym, vals) s) as P. assert (length m < st_max st); [|lia].
      unfold m. destruct (Nat.leb_spec (st_max st) (length (st_memo st))); [|lia]. destruct (st_memo st); cbn in *; lia.
  - exists st. split; [easy|]. split; [easy|]. split; [easy|]. now right.
  - destruct (key_raises w name sym _ e K s A).
Qed.

(** ** The disk cache *)
Lemma ind_key_eqb_eq a b : ind_key_eqb a b = true <-> a = b.
Proof.
  destruct a as [s1 c1 a1 b1 t1 d1 n1], b as [s2 c2 a2 b2 t2 d2 n2]. unfold ind_key_eqb. cbn. rewrite !andb_true_iff, !Nat.eqb_eq, !Z.eqb_eq. split.
  - intros ((((((-> & ->) & ->) & ->) & T) & D) & ->). f_equal.
    + destruct t1 as [[]|], t2 as [[]|]; try easy. cbn in T. apply andb_true_iff in T. destruct T as [T1 T2]. apply Nat.eqb_eq in T1, T2. now subst.
    + destruct d1, d2; try easy. destruct (list_eq_dec Nat.eq_dec l l0); [now subst|discriminate].
  - intros [= -> -> -> -> -> -> ->]. repeat split.
    + destruct t2 as [[]|]; [|easy]. cbn. now rewrite !Nat.eqb_refl.
    + destruct d2; [|easy]. now destruct (list_eq_dec Nat.eq_dec l l).
Qed.
Lemma disk_get_in : forall m k s, disk_get m k = Some s -> In (k, s) m.
Proof.
  induction m as [|[k' s'] m IH]; intros k s; cbn [disk_get]; [discriminate|]. destruct (ind_key_eqb k k') eqn:E.
  - apply ind_key_eqb_eq in E. intros [= <-]. subst. now left.
  - intros H. right. now apply IH.
Qed.
Lemma disk_put_in : forall m k s x, In x (disk_put m k s) -> In x m \/ x = (k, s).
Proof.
  induction m as [|[k' s'] m IH]; intros k s x; cbn [disk_put]; [intros [<-|[]]; now right|]. destruct (ind_key_eqb k k') eqn:E.
  - apply ind_key_eqb_eq in E. subst. intros [<-|I]; [now right|left; now right].
  - intros [<-|I]; [left; now left|]. destruct (IH k s x I) as [H|H]; [left; now right|now right].
Qed.
Definition hyper_free (w : world) (name : nat) : Prop :=
  exists ind, dict_get (w_registry w) (fst (parse name)) = Some ind /\ hyperparam_names (i_kwargs ind) = [].
Lemma alone_free w hps hps' k s : hyper_free w (fst k) -> alone w hps k s -> alone w hps' k s.
Proof.
  intros (ind & R & N). destruct k as [name sym]. apply alone_given. intros ind' key h R' I. cbn [fst] in R. rewrite R in R'. injection R' as <-.
  assert (J : In (h_name h) (hyperparam_names (i_kwargs ind))) by (apply names_in; now exists key, h). now rewrite N in J.
Qed.
Definition disk_ok (hist : list (world * call)) (d : disk) : Prop :=
  forall key s, In (key, s) d -> exists w c f k, In (w, c) hist /\ c_enabled c = true /\ c_fields c = Some f /\ In k (c_syms c) /\
    key = from_date_fields (snd k) (fst k) f /\ hyper_free w (fst k) /\ alone w None k s.
Lemma from_fields_inj s n f s' n' f' : from_date_fields s n f = from_date_fields s' n' f' -> s = s' /\ n = n' /\ f = f'.
Proof. destruct f, f'. unfold from_date_fields. cbn. now intros [= -> -> -> -> -> -> ->]. Qed.
Lemma alone_same w w' hps k s : same_source parse w w' k -> alone w hps k s -> alone w' hps k s.
Proof.
  intros [R S] (ind & bars & args & values & R1 & S1 & H). exists ind, bars, args, values. split; [congruence|]. split; [now apply S|exact H].
Qed.
Lemma disk_hit hist st w c f k s : steady parse hist -> disk_ok hist (st_disk st) -> In (w, c) hist -> c_enabled c = true -> c_fields c = Some f -> In k (c_syms c) ->
  disk_get (st_disk st) (from_date_fields (snd k) (fst k) f) = Some s -> alone w (c_hyperparams c) k s.
Proof.
  intros St D I En F K G. apply disk_get_in in G. destruct (D _ _ G) as (w' & c' & f' & k' & I' & En' & F' & K' & E & Hf & A).
  apply from_fields_inj in E. destruct E as (E1 & E2 & <-). destruct k as [n y], k' as [n' y']. cbn in E1, E2. subst n' y'.
  pose proof (St w' c' w c f (n, y) I' I En' En F' F K' K) as SS. apply (alone_same w' w); [exact SS|]. now apply (alone_free w' None).
Qed.

(** ** The dict of results *)
Lemma data_set_in : forall d k s k', In k' (map fst (data_set d k s)) <-> k' = k \/ In k' (map fst d).
Proof.
  induction d as [|[a b] d IH]; intros k s k'; cbn [data_set map In fst]; [intuition|]. destruct (ind_sym_eqb k a) eqn:E.
  - cbn. assert (k = a). { unfold ind_sym_eqb in E. apply andb_true_iff in E. destruct E as [E1 E2]. apply Nat.eqb_eq in E1, E2. destruct k, a. cbn in *. congruence. } subst. intuition.
  - cbn. rewrite IH. intuition.
Qed.
Lemma data_set_nodup : forall d k s, NoDup (map fst d) -> NoDup (map fst (data_set d k s)).
Proof.
  induction d as [|[a b] d IH]; intros k s N; cbn [data_set]; [repeat constructor; easy|]. inversion N; subst. destruct (ind_sym_eqb k a) eqn:E.
  - assert (k = a). { unfold ind_sym_eqb in E. apply andb_true_iff in E. destruct E as [E1 E2]. apply Nat.eqb_eq in E1, E2. destruct k, a. cbn in *. congruence. } subst. exact N.
  - cbn. constructor; [|now apply IH]. change (fst (a, b)) with a in *. rewrite data_set_in. intros [->|J]; [|tauto].
    unfold ind_sym_eqb in E. now rewrite !Nat.eqb_refl in E.
Qed.
Lemma data_set_val : forall d k s x, In x (data_set d k s) -> x = (k, s) \/ In x d.
Proof.
  induction d as [|[a b] d IH]; intros k s x; cbn [data_set]; [intros [<-|[]]; now left|]. destruct (ind_sym_eqb k a).
  - intros [<-|I]; [now left|right; now right].
  - intros [<-|I]; [right; now left|]. destruct (IH k s x I); [now left|right; now right].
Qed.
Definition found_ok (w : world) (c : call) (d : data_dict) : Prop := NoDup (map fst d) /\ forall k s, In (k, s) d -> alone w (c_hyperparams c) k s.
Lemma found_set w c d k s : found_ok w c d -> alone w (c_hyperparams c) k s -> found_ok w c (data_set d k s).
Proof. intros [N F] A. split; [now apply data_set_nodup|]. intros k' s' I. apply data_set_val in I. destruct I as [[= -> ->]|I]; [exact A|now apply F]. Qed.

Lemma get_cached_loop_ok hist st w c f : steady parse hist -> disk_ok hist (st_disk st) -> In (w, c) hist -> c_enabled c = true -> c_fields c = Some f ->
  forall syms found missing, (forall k, In k syms -> In k (c_syms c)) -> found_ok w c found ->
  match get_cached_loop parse st w f syms found missing with
  | Ok (found', missing') => found_ok w c found' /\ (forall k, In k (map fst found') \/ In k missing' <-> In k (map fst found) \/ In k missing \/ In k syms) /\
      (forall k, In k missing' -> In k missing \/ In k syms)
  | Raise _ => exists k, In k syms /\ forall s, ~ alone w (c_hyperparams c) k s
  end.
Proof.
  intros St D I En F. induction syms as [|k r IH]; intros found missing Sub Fo; cbn [get_cached_loop].
  - split; [exact Fo|]. split; [intros k; cbn; tauto|tauto].
  - destruct (get_indicator w (fst (parse (fst k)))) as [ind|e] eqn:G; cbn [bind].
    2:{ exists k. split; [now left|]. intros s (ind & bars & args & values & R & _). unfold get_indicator in G. now rewrite R in G. }
    assert (Sub' : forall k, In k r -> In k (c_syms c)) by (intros x X; apply Sub; now right).
    assert (Miss : match get_cached_loop parse st w f r found (missing ++ [k]) with
      | Ok (found', missing') => found_ok w c found' /\ (forall k', In k' (map fst found') \/ In k' missing' <-> In k' (map fst found) \/ In k' missing \/ In k' (k :: r)) /\
          (forall k', In k' missing' -> In k' missing \/ In k' (k :: r))
      | Raise _ => exists k', In k' (k :: r) /\ forall s, ~ alone w (c_hyperparams c) k' s
      end).
    { specialize (IH found (missing ++ [k]) Sub' Fo). destruct (get_cached_loop parse st w f r found (missing ++ [k])) as [[f' m']|e].
      - destruct IH as (A & B & C). split; [exact A|]. split.
        + intros k'. rewrite B, in_app_iff. cbn. tauto.
        + intros k' J. destruct (C k' J) as [J'|J']; [apply in_app_iff in J'; cbn in *; tauto|cbn; tauto].
      - destruct IH as (x & X & Y). exists x. split; [now right|exact Y]. }
    destruct (hyperparam_names (i_kwargs ind)) as [|n ns]; [|exact Miss].
    destruct (disk_get (st_disk st) (from_date_fields (snd k) (fst k) f)) as [s|] eqn:Dg; [|exact Miss].
    assert (A : alone w (c_hyperparams c) k s) by (apply (disk_hit hist st w c f); try assumption; apply Sub; now left).
    specialize (IH (data_set found k s) missing Sub' (found_set w c found k s Fo A)). destruct (get_cached_loop parse st w f r (data_set found k s) missing) as [[f' m']|e].
    + destruct IH as (P & B & C). split; [exact P|]. split.
      * intros k'. rewrite B, data_set_in. cbn. intuition.
      * intros k' J. destruct (C k' J); [tauto|cbn; tauto].
    + destruct IH as (x & X & Y). exists x. split; [now right|exact Y].
Qed.
Lemma memo_loop_ok st w c : declared_once w -> typed w c -> (st_max st = 0 \/ memo_ok w (st_memo st)) ->
  forall syms found missing, found_ok w c found ->
  match memo_loop scale parse st w (c_hyperparams c) syms found missing with
  | Ok (found', missing') => found_ok w c found' /\ (forall k, In k (map fst found') \/ In k missing' <-> In k (map fst found) \/ In k missing \/ In k syms) /\
      (forall k, In k missing' -> In k missing \/ In k syms)
  | Raise _ => exists k, In k syms /\ forall s, ~ alone w (c_hyperparams c) k s
  end.
Proof.
  intros D T M. induction syms as [|k r IH]; intros found missing Fo; cbn [memo_loop].
  - split; [exact Fo|]. split; [intros k; cbn; tauto|tauto].
  - destruct (get_memoized scale parse st w k (c_hyperparams c)) as [[s|]|e] eqn:G; cbn [bind].
    + pose proof (memo_hit st w c k s D T M G) as A. specialize (IH (data_set found k s) missing (found_set w c found k s Fo A)).
      destruct (memo_loop scale parse st w (c_hyperparams c) r (data_set found k s) missing) as [[f' m']|e].
      * destruct IH as (P & B & C). split; [exact P|]. split.
        -- intros k'. rewrite B, data_set_in. cbn. intuition.
        -- intros k' J. destruct (C k' J); [tauto|cbn; tauto].
      * destruct IH as (x & X & Y). exists x. split; [now right|exact Y].
    + specialize (IH found (missing ++ [k]) Fo). destruct (memo_loop scale parse st w (c_hyperparams c) r found (missing ++ [k])) as [[f' m']|e].
      * destruct IH as (P & B & C). split; [exact P|]. split.
        -- intros k'. rewrite B, in_app_iff. cbn. tauto.
        -- intros k' J. destruct (C k' J) as [J'|J']; [apply in_app_iff in J'; cbn in *; tauto|cbn; tauto].
      * destruct IH as (x & X & Y). exists x. split; [now right|exact Y].
    + exists k. split; [now left|]. now apply (memo_raises st w c k e).
Qed.
Definition caches_ok (hist : list (world * call)) (w : world) (st : state) : Prop :=
  (st_max st = 0 \/ (memo_ok w (st_memo st) /\ length (st_memo st) <= st_max st)) /\ disk_ok hist (st_disk st).
Lemma store_loop_ok hist w c : declared_once w -> typed w c -> In (w, c) hist -> forall results st found,
  caches_ok hist w st -> found_ok w c found -> (forall k s, In (k, s) results -> In k (c_syms c) /\ alone w (c_hyperparams c) k s) ->
  exists st' d, store_loop scale parse st w (c_enabled c) (c_fields c) (c_hyperparams c) results found = (st', Ok d) /\
    caches_ok hist w st' /\ st_max st' = st_max st /\ found_ok w c d /\ forall k, In k (map fst d) <-> In k (map fst found) \/ In k (map fst results).
Proof.
  intros D T I. induction results as [|[k s] r IH]; intros st found [M Dk] Fo R; cbn [store_loop].
  - exists st, found. split; [easy|]. split; [now split|]. split; [easy|]. split; [exact Fo|]. intros k. cbn. tauto.
  - destruct (R k s) as [K A]; [now left|]. destruct (memo_store st w c k s D T M A) as (st1 & -> & Mx & Dx & M1).
    assert (S : exists st2, set_cached parse st1 w (c_enabled c) s k (c_fields c) = Ok st2 /\ st_max st2 = st_max st1 /\ caches_ok hist w st2).
    { unfold set_cached. destruct (c_fields c) as [f|] eqn:F; [destruct (c_enabled c) eqn:En|].
      - unfold get_indicator. destruct (dict_get (w_registry w) (fst (parse (fst k)))) as [ind|] eqn:Rg; cbn [bind].
        + destruct (hyperparam_names (i_kwargs ind)) eqn:N; eexists; (split; [reflexivity|]); (split; [easy|]); (split; [exact M1|]).
          * cbn. intros key s' J. apply disk_put_in in J. destruct J as [J|[= -> ->]]; [rewrite Dx in J; now apply Dk|].
            exists w, c, f, k. split; [exact I|]. split; [exact En|]. split; [exact F|]. split; [exact K|]. split; [easy|].
            assert (Hf : hyper_free w (fst k)) by now exists ind. split; [exact Hf|]. now apply (alone_free w (c_hyperparams c)).
          * now rewrite Dx.
        + destruct A as (ind & ? & ? & ? & Rg' & _). congruence.
      - exists st1. split; [easy|]. split; [easy|]. split; [exact M1|now rewrite Dx].
      - exists st1. split; [easy|]. split; [easy|]. split; [exact M1|now rewrite Dx]. }
    destruct S as (st2 & -> & Mx2 & C2). destruct (IH st2 (data_set found k s) C2 (found_set w c found k s Fo A)) as (st' & d & E & Cd & Mx' & Fd & Kd).
    { intros k' s' J. apply R. now right. }
    exists st', d. split; [exact E|]. split; [exact Cd|]. split; [congruence|]. split; [exact Fd|]. intros k'. rewrite Kd, data_set_in. cbn. intuition.
Qed.
Lemma sort_syms_in l k : In k (sort_syms l) <-> In k l.
Proof.
  induction l as [|x l IH]; [easy|]. cbn [sort_syms]. assert (G : forall l, In k (insert_sym x l) <-> k = x \/ In k l).
  { induction l0 as [|y l0 IH0]; cbn [insert_sym]; [cbn; intuition|]. destruct (ind_sym_leb x y); cbn; [intuition|]. rewrite IH0. intuition. }
  rewrite G, IH. cbn. intuition.
Qed.
Lemma dict_get_filter {V} (f : nat -> bool) (d : list (nat * V)) k : f k = true -> dict_get (filter (fun x => f (fst x)) d) k = dict_get d k.
Proof.
  intros E. induction d as [|[a b] d IH]; [easy|]. cbn [filter fst]. destruct (f a) eqn:F; cbn [dict_get]; [now rewrite IH|].
  destruct (Nat.eqb_spec k a) as [->|]; [congruence|exact IH].
Qed.
Lemma compute_ok hist st w c : steady parse hist -> In (w, c) hist -> declared_once w -> typed w c -> scheduled c -> c_syms c <> [] -> w_store w <> [] -> caches_ok hist w st ->
  let '(st', out) := compute_indicators scale parse st w c in right parse w c out /\ caches_ok hist w st' /\ st_max st' = st_max st.
Proof.
  intros St I D T Sc Ns Nw [M Dk]. unfold compute_indicators.
  destruct (c_syms c) as [|k0 syms0] eqn:Cs; [easy|]. destruct (w_store w) as [|x0 store0] eqn:Ws; [easy|]. rewrite <- Cs, <- Ws in *. clear Ns Nw.
  assert (Mo : st_max st = 0 \/ memo_ok w (st_memo st)) by tauto.
  assert (G : match get_cached parse st w (c_enabled c) (c_syms c) (c_fields c) with
    | Ok (found, missing) => found_ok w c found /\ (forall k, In k (map fst found) \/ In k missing <-> In k (c_syms c)) /\ forall k, In k missing -> In k (c_syms c)
    | Raise _ => exists k, In k (c_syms c) /\ forall s, ~ alone w (c_hyperparams c) k s
    end).
  { unfold get_cached. assert (Z : found_ok w c []) by (split; [constructor|easy]).
    assert (E : found_ok w c [] /\ (forall k, In k (map fst ([] : data_dict)) \/ In k (sort_syms (c_syms c)) <-> In k (c_syms c)) /\ forall k, In k (sort_syms (c_syms c)) -> In k (c_syms c)).
    { split; [exact Z|]. split; intros k; cbn; rewrite sort_syms_in; tauto. }
    destruct (c_fields c) as [f|] eqn:F; [|exact E]. destruct (c_enabled c) eqn:En; [|exact E].
    pose proof (get_cached_loop_ok hist st w c f St Dk I En F (sort_syms (c_syms c)) [] []) as L.
    destruct (get_cached_loop parse st w f (sort_syms (c_syms c)) [] []) as [[found missing]|e].
    - destruct L as (A & B & C); [intros k; now rewrite sort_syms_in|exact Z|]. split; [exact A|]. split.
      + intros k. rewrite B. cbn. rewrite sort_syms_in. tauto.
      + intros k J. destruct (C k J) as [[]|J']. now rewrite sort_syms_in in J'.
    - destruct L as (k & K & H); [intros k; now rewrite sort_syms_in|exact Z|]. exists k. now rewrite sort_syms_in in K. }
  destruct (get_cached parse st w (c_enabled c) (c_syms c) (c_fields c)) as [[found missing]|e]; [|split; [exact G|]; split; [now split|easy]].
  destruct G as (Fo & Gk & Gm). pose proof (memo_loop_ok st w c D T Mo missing found [] Fo) as L.
  destruct (memo_loop scale parse st w (c_hyperparams c) missing found []) as [[found' missing']|e].
  2:{ split; [|split; [now split|easy]]. destruct L as (k & K & H). exists k. split; [now apply Gm|exact H]. }
  destruct L as (Fo' & Lk & Lm).
  assert (Kk : forall k, In k (map fst found') \/ In k missing' <-> In k (c_syms c)) by (intros k; rewrite Lk, <- Gk; cbn; tauto).
  destruct missing' as [|m0 ms] eqn:Em.
  - split; [|split; [now split|easy]]. destruct Fo' as [N A]. split; [exact N|]. split; [|exact A]. intros k. rewrite <- Kk. cbn. tauto.
  - rewrite <- Em in *. set (store := if c_prebuilt c then w_store w else filter (fun x => existsb (Nat.eqb (fst x)) (map snd missing')) (w_store w)).
    assert (Sg : forall k, In k missing' -> dict_get store (snd k) = dict_get (w_store w) (snd k)).
    { intros k K. unfold store. destruct (c_prebuilt c); [easy|]. apply (dict_get_filter (fun n => existsb (Nat.eqb n) (map snd missing'))).
      apply existsb_exists. exists (snd k). split; [now apply in_map|apply Nat.eqb_refl]. }
    destruct (run_indicators parse w store missing' (c_schedule c) (c_hyperparams c)) as [results|e] eqn:R.
    + apply run_indicators_ok in R; [|exact Sc]. destruct R as [Rk Rv].
      destruct (store_loop_ok hist w c D T I results st found') as (st' & d & -> & Cd & Mx & [Nd Ad] & Kd); [now split|exact Fo'| |].
      { intros k s J. assert (K : In k missing') by (apply Rk; now apply (in_map fst) in J). split; [apply Kk; now right|].
        apply (one_iff parse w store); [exact D|now apply Sg|now apply Rv]. }
      split; [|now split]. split; [exact Nd|]. split; [|exact Ad]. intros k. rewrite Kd, Rk. apply Kk.
    + split; [|split; [now split|easy]]. destruct (Exists_dec (fun k => match one parse w store (c_hyperparams c) k with Ok _ => False | Raise _ => True end) missing') as [X|X].
      { intros k. destruct (one parse w store (c_hyperparams c) k); [now right|now left]. }
      * apply Exists_exists in X. destruct X as (k & K & O). exists k. split; [apply Kk; now right|]. intros s A.
        apply (one_iff parse w store) in A; [|exact D|now apply Sg]. now rewrite A in O.
      * destruct (run_indicators_total parse w store missing' (c_schedule c) (c_hyperparams c)) as [out O]; [exact Sc| |congruence].
        intros k K. destruct (one parse w store (c_hyperparams c) k) as [s|e'] eqn:O; [now exists s|]. destruct X. apply Exists_exists. exists k. split; [exact K|]. now rewrite O.
Qed.

(** ** Histories *)
Definition acc (x : world * call) : Prop := declared_once (fst x) /\ typed (fst x) (snd x) /\ scheduled (snd x) /\ c_syms (snd x) <> [] /\ w_store (fst x) <> [].
Lemma optimize_calls_ok hist w : steady parse hist -> forall calls st, Forall acc (map (fun c => (w, c)) calls) -> (forall c, In c calls -> In (w, c) hist) -> caches_ok hist w st ->
  let '(st', outs) := optimize_calls scale parse st w calls in all_right parse (map (fun c => (w, c)) calls) outs /\ caches_ok hist w st' /\ st_max st' = st_max st.
Proof.
  intros St. induction calls as [|c r IH]; intros st A H C; cbn [optimize_calls]; [easy|]. inversion A as [|x l (D & T & Sc & Ns & Nw) A']; subst. cbn [fst snd] in *.
  pose proof (compute_ok hist st w c St (H c (or_introl eq_refl)) D T Sc Ns Nw C) as O. destruct (compute_indicators scale parse st w c) as [st' [d|e]].
  - destruct O as (Rt & C' & Mx). specialize (IH st' A' (fun c' I => H c' (or_intror I)) C'). destruct (optimize_calls scale parse st' w r) as [st'' out].
    destruct IH as (Al & C'' & Mx'). cbn [map all_right]. split; [now split|]. split; [exact C''|congruence].
  - destruct O as (Rt & C' & Mx). cbn [map all_right]. split; [now split|]. now split.
Qed.
Lemma run_ok hist : steady parse hist -> forall events st, Forall accepted events -> (forall x, In x (flat_map calls_of events) -> In x hist) ->
  st_max st = 0 -> st_memo st = [] -> disk_ok hist (st_disk st) ->
  let '(st', outs) := run scale parse st events in Forall2 (fun e o => all_right parse (calls_of e) o) events outs /\ st_max st' = 0 /\ st_memo st' = [] /\ disk_ok hist (st_disk st').
Proof.
  intros St. induction events as [|e r IH]; intros st A H Mx Me D; cbn [run]; [split; [constructor|easy]|]. inversion A as [|x l Ae A']; subst.
  assert (G : let '(st', o) := step scale parse st e in all_right parse (calls_of e) o /\ st_max st' = 0 /\ st_memo st' = [] /\ disk_ok hist (st_disk st')).
  { assert (He : forall x, In x (calls_of e) -> In x hist) by (intros x X; apply H; cbn; apply in_app_iff; now left). destruct e as [w c|max w calls]; cbn [step calls_of] in *.
    - inversion Ae as [|x l (De & T & Sc & Ns & Nw) _]; subst. cbn [fst snd] in *.
      pose proof (compute_ok hist st w c St (He _ (or_introl eq_refl)) De T Sc Ns Nw) as O. destruct (compute_indicators scale parse st w c) as [st' d] eqn:E.
      destruct O as (Rt & [_ Dk] & Mx'); [split; [now left|exact D]|]. cbn [all_right]. split; [split; [exact Rt|]; now destruct d|].
      split; [congruence|]. split; [|exact Dk].
      (* the memo is off *)
      clear - E Mx Me. unfold compute_indicators in E. destruct (c_syms c) as [|k0 l0]; [injection E as <- _; exact Me|]. destruct (w_store w); [injection E as <- _; exact Me|].
      destruct (get_cached _ _ _ _ _ _) as [[f m]|]; [|injection E as <- _; exact Me]. destruct (memo_loop _ _ _ _ _ _ _) as [[f' m']|]; [|injection E as <- _; exact Me].
      destruct m'; [injection E as <- _; exact Me|]. destruct (run_indicators _ _ _ _ _ _) as [res|]; [|injection E as <- _; exact Me].
      revert f' st Mx Me E. induction res as [|[k s] res IH]; intros f' st Mx Me E; cbn [store_loop] in E; [injection E as <- _; exact Me|].
      unfold set_memoized in E. rewrite Mx in E. cbn [Nat.eqb] in E. unfold set_cached in E. destruct (c_fields c); [destruct (c_enabled c)|].
      + destruct (get_indicator w (fst (parse (fst k)))) as [ind|]; cbn [bind] in E; [|injection E as <- _; exact Me].
        destruct (hyperparam_names (i_kwargs ind)); eapply IH; [| |exact E| | |exact E]; easy.
      + eapply IH; [| |exact E]; easy.
      + eapply IH; [| |exact E]; easy.
    - assert (Hc : forall c, In c calls -> In (w, c) hist) by (intros c X; apply He; apply in_map_iff; now exists c).
      pose proof (optimize_calls_ok hist w St calls (mk_state (st_memo st) max (st_disk st)) Ae Hc) as O.
      destruct (optimize_calls scale parse (mk_state (st_memo st) max (st_disk st)) w calls) as [st' out]. destruct O as (Rt & [_ Dk] & _).
      { split; [|exact D]. cbn. rewrite Me. right. split; [easy|cbn; lia]. }
      cbn. now split. }
  destruct (step scale parse st e) as [st1 o]. destruct G as (Rt & Mx1 & Me1 & D1).
  specialize (IH st1 A' (fun x X => H x (proj2 (in_app_iff _ _ _) (or_intror X))) Mx1 Me1 D1). destruct (run scale parse st1 r) as [st2 os]. destruct IH as (F & rest).
  split; [now constructor|exact rest].
Qed.
End One.
