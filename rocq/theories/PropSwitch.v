(** * C93: switching caches on and off *)
From Verif Require Import SwitchSpec SwitchProofs CacheProofs.
From Coq Require Import List Bool Arith Ascii Lia.
From Coq Require Import String.
Import ListNotations.
Open Scope list_scope.

(** For every history of calls, with any clients' operations in between, every answer
    and every directory are those of caches without an in-memory level. *)
Theorem C93_transparent : forall repr, (forall a b, repr a = repr b -> a = b) -> forall disk calls,
  (forall d k, disk d k <> Some VNone) -> Forall (ordinary_call repr) calls ->
  let '(w, replies) := do_calls repr calls (start disk) in
  let '(p, plain_replies) := plain_calls repr calls (mk_plain (fun _ => None) disk) in
  replies = plain_replies /\ (forall d, w_disk w d = holds p d) /\ (forall k d, uses_dir w k d <-> in_use p k = Some d).
Proof.
  intros repr inj disk calls N F. destruct (start_good repr disk N) as (G & M). pose proof (calls_sim repr inj calls _ _ G M F) as S.
  destruct (do_calls repr calls (start disk)) as [w rs]. destruct (plain_calls repr calls _) as [p rs']. destruct S as (_ & (U & H) & E).
  split; [easy |]. split; [easy |]. intros k d. rewrite U. unfold uses_dir. destruct (w_cache w k) as [c |]; cbn.
  - split; [intros (x & [= <-] & <-); easy | intros [= <-]; eauto].
  - split; [intros (x & [=] & _) | easy].
Qed.
Print Assumptions C93_transparent.

(** What was stored under a namespace is found again after any calls, the cache having
    been switched off, pointed elsewhere, or its namespace used for the other kinds,
    provided nothing wrote the key while that directory was in use for that kind; and
    whether the cache is enabled anew in the same or with another capacity. *)
Theorem C93_kept : forall repr, (forall a b, repr a = repr b -> a = b) -> forall disk before k key v fates between cwd dir ns d m m' cwd' default,
  (forall d k, disk d k <> Some VNone) -> Forall (ordinary_call repr) (before ++ between) -> proper repr key -> v <> VNone ->
  get_cache_dir cwd dir ns k = Some d -> get_cache_dir cwd' dir ns k = Some d ->
  let w0 := fst (do_calls repr (before ++ [Enable cwd dir ns m true k]) (start disk)) in
  snd (use repr k (OSet key v) fates w0) = Result (RFlag true) ->
  let w1 := fst (use repr k (OSet key v) fates w0) in
  spares repr k d key between w1 ->
  let w2 := fst (do_calls repr between w1) in
  snd (do_calls repr [Enable cwd' dir ns m' true k; Use k (OGet key default) []] w2) = [Done_; Result (RVal v)].
Proof.
  intros repr inj disk before k key v fates between cwd dir ns d m m' cwd' default N F P NV D D' w0 ST w1 SP w2.
  apply Forall_app in F as (FB & FM).
  assert (G0 : good repr w0). { apply reachable_good; [easy | easy |]. apply Forall_app. split; [easy |]. repeat constructor. }
  assert (O : ordinary repr (OSet key v)). { split; [intros k' [= <-]; exact P | exact NV]. }
  destruct (plain_of w0) as (p0 & M0). pose proof (use_sim repr inj k (OSet key v) fates w0 p0 G0 M0 O) as S.
  assert (U0 : exists c, w_cache w0 k = Some c /\ c_dir c = d).
  { unfold w0. assert (A : forall cs w, do_calls repr (cs ++ [Enable cwd dir ns m true k]) w =
      let '(w', rs) := do_calls repr cs w in let '(w'', r) := enable cwd dir ns m true k w' in (w'', rs ++ [r])).
    { induction cs as [| c cs IH]; intros w; cbn [app do_calls do_call]; [destruct (enable _ _ _ _ _ _ w); easy |]. destruct (do_call repr c w) as [w' r]. rewrite IH.
      destruct (do_calls repr cs w') as [w'' rs]. destruct (enable _ _ _ _ _ _ w''). easy. }
    rewrite A. destruct (do_calls repr before (start disk)) as [w' rs]. unfold enable. rewrite D. cbn. rewrite upd_same. eauto. }
  destruct U0 as (c0 & C0 & D0).
  assert (W1 : good repr w1 /\ w_disk w1 d key = Some v).
  { unfold w1. destruct (use repr k (OSet key v) fates w0) as [w1' r1] eqn:EU. cbn [fst snd] in *. subst r1.
    destruct (plain_use repr k (OSet key v) fates p0) as [p1 r1'] eqn:EP. destruct S as (G1 & M1 & R1 & _). split; [exact G1 |].
    destruct M1 as (_ & H1). rewrite <- H1. unfold plain_use in EP. destruct M0 as (U0 & H0). rewrite U0, C0 in EP. cbn [option_map] in EP.
    rewrite D0 in EP. cbn [disk_op] in EP. injection EP as <- <-. cbn. unfold disk_at. destruct (list_eq_dec ascii_dec d d); [| easy].
    destruct (hd FOk fates); try discriminate R1. cbn. apply set_key_same. }
  destruct W1 as (G1 & V1).
  pose proof (spared repr inj k d key between w1 G1 FM SP (ex_intro _ cwd (ex_intro _ dir (ex_intro _ ns D)))) as V2. fold w2 in V2. rewrite V1 in V2.
  assert (G2 : good repr w2).
  { destruct (plain_of w1) as (p1 & M1). pose proof (calls_sim repr inj between w1 p1 G1 M1 FM) as S2. unfold w2. destruct (do_calls repr between w1). destruct (plain_calls repr between p1). apply S2. }
  destruct (plain_of w2) as (p2 & M2).
  assert (F2 : Forall (ordinary_call repr) [Enable cwd' dir ns m' true k; Use k (OGet key default) []]).
  { constructor; [easy |]. constructor; [| constructor]. split; [intros k' [= <-]; exact P | easy]. }
  pose proof (calls_sim repr inj _ w2 p2 G2 M2 F2) as S2. destruct (do_calls repr _ w2) as [w3 rs]. destruct M2 as (_ & H2).
  cbn [plain_calls plain_call] in S2. unfold plain_enable in S2. rewrite D' in S2. unfold plain_use in S2. cbn [in_use] in S2. rewrite replace_upd, upd_same in S2.
  cbn [disk_op holds] in S2. destruct S2 as (_ & _ & ->). cbn [snd]. unfold held. rewrite H2, V2. easy.
Qed.
Print Assumptions C93_kept.

(** A call changes no directory but those in use for its kinds. *)
Theorem C93_elsewhere : forall repr, (forall a b, repr a = repr b -> a = b) -> forall disk before c d,
  (forall d k, disk d k <> Some VNone) -> Forall (ordinary_call repr) (c :: before) ->
  let w := fst (do_calls repr before (start disk)) in
  (forall k, match c with Use k' _ _ | Clear k' _ => k' = k | ClearAll _ => True | _ => False end -> ~ uses_dir w k d) ->
  w_disk (fst (do_call repr c w)) d = w_disk w d.
Proof.
  intros repr inj disk before c d N F w X. inversion F as [| ? ? O FB]; subst. assert (G : good repr w) by now apply reachable_good.
  destruct (plain_of w) as (p & M). pose proof (call_sim repr inj c w p G M O) as S. destruct (do_call repr c w) as [w' r]. destruct (plain_call repr c p) as [p' r'].
  destruct S as (_ & _ & _ & FR). cbn. apply FR. exact X.
Qed.
Print Assumptions C93_elsewhere.

(** Two kinds never share a directory, whatever the arguments. *)
Theorem C93_kinds_apart : forall cwd dir ns k d cwd' dir' ns' k',
  get_cache_dir cwd dir ns k = Some d -> get_cache_dir cwd' dir' ns' k' = Some d -> k' = k.
Proof. intros. eapply dir_kind; eassumption. Qed.
Print Assumptions C93_kinds_apart.
(** Nor do two namespaces of one cache directory, if neither has a slash. Missing: those
    with one. *)
Theorem C93_namespaces_apart_partial : forall cwd dir ns ns' k d, ~ In "/"%char ns -> ~ In "/"%char ns' ->
  get_cache_dir cwd dir ns k = Some d -> get_cache_dir cwd dir ns' k = Some d -> ns = ns'.
Proof. intros cwd dir ns ns' k d I I' D D'. exact (dir_namespace cwd dir ns ns' k d I I' D D'). Qed.
Print Assumptions C93_namespaces_apart_partial.
(** With a slash two may share one; a leading slash leaves the cache directory
    altogether. *)
Theorem C93_namespaces_apart_refuted :
  (exists dir ns ns' k d, ns <> ns' /\ get_cache_dir [] (Some dir) ns k = Some d /\ get_cache_dir [] (Some dir) ns' k = Some d) /\
  (exists dir dir' ns k d, dir <> dir' /\ get_cache_dir [] (Some dir) ns k = Some d /\ get_cache_dir [] (Some dir') ns k = Some d).
Proof.
  split.
  - exists (lit "cache"%string), (lit "a"%string), (lit "a/"%string), KModel. eexists. split; [easy |]. split; reflexivity.
  - exists (lit "x"%string), (lit "y"%string), (lit "/n"%string), KModel. eexists. split; [easy |]. split; reflexivity.
Qed.
Print Assumptions C93_namespaces_apart_refuted.

(** Refusals change nothing: an empty namespace, clearing a cache that is off. A cache
    that is off is not used, also right after it is disabled. *)
Theorem C93_off : forall repr w,
  (forall cwd dir m opens k, do_call repr (Enable cwd dir [] m opens k) w = (w, ValueError)) /\
  (forall cwd dir m opens, do_call repr (EnableAll cwd dir [] m opens) w = (w, ValueError)) /\
  (forall k, (forall d, ~ uses_dir w k d) ->
    (forall fates, do_call repr (Clear k fates) w = (w, ValueError)) /\ (forall o fates, do_call repr (Use k o fates) w = (w, Off))) /\
  (forall k d, ~ uses_dir (fst (do_call repr (Disable k) w)) k d) /\ (forall k d, ~ uses_dir (fst (do_call repr DisableAll w)) k d).
Proof.
  intros repr w. split; [easy |]. split; [easy |]. split; [| split].
  - intros k X. assert (E : w_cache w k = None). { destruct (w_cache w k) as [c |] eqn:E; [| easy]. destruct (X (c_dir c)). exists c. easy. }
    split; intros; cbn; [unfold clear | unfold use]; now rewrite E.
  - intros k d (c & E & _). cbn in E. rewrite upd_same in E. discriminate E.
  - intros k d (c & E & _). destruct k; discriminate E.
Qed.
Print Assumptions C93_off.

(** [clear_caches] empties the directory of each kind up to the first that is off, then
    raises; it is done when none is off. *)
Theorem C93_clear_all : forall repr, (forall a b, repr a = repr b -> a = b) -> forall disk before,
  (forall d k, disk d k <> Some VNone) -> Forall (ordinary_call repr) before ->
  let w := fst (do_calls repr before (start disk)) in
  let '(w', r) := do_call repr (ClearAll (fun _ => [])) w in
  let on k := exists d, uses_dir w k d in
  let reached k := on k /\ match k with KData => True | KIndicator => on KData | KModel => on KData /\ on KIndicator end in
  (r = Done_ <-> forall k, on k) /\ (r = ValueError <-> ~ forall k, on k) /\
  forall k d, uses_dir w k d -> (reached k -> forall key, w_disk w' d key = None) /\ (~ reached k -> w_disk w' d = w_disk w d).
Proof.
  intros repr inj disk before N F w. assert (G : good repr w) by now apply reachable_good. destruct (plain_of w) as (p & M).
  pose proof (call_sim repr inj (ClearAll (fun _ => [])) w p G M I) as S. destruct (do_call repr _ w) as [w' r]. destruct (plain_call repr _ p) as [p' r'] eqn:EP.
  destruct S as (_ & (_ & H') & -> & _). destruct M as (U & H). cbn zeta.
  assert (APART : forall k1 k2 d1 d2, uses_dir w k1 d1 -> uses_dir w k2 d2 -> k1 <> k2 -> d1 <> d2).
  { intros k1 k2 d1 d2 (c1 & C1 & <-) (c2 & C2 & <-) X E. destruct G as (_ & G). destruct (G _ _ C1) as ((? & ? & ? & D1) & _). destruct (G _ _ C2) as ((? & ? & ? & D2) & _).
    rewrite E in D1. apply X. exact (dir_kind _ _ _ _ _ _ _ _ _ D1 D2). }
  assert (ON : forall k, (exists d, uses_dir w k d) <-> in_use p k <> None).
  { intros k. rewrite U. unfold uses_dir. destruct (w_cache w k) as [c |]; cbn; [split; [easy | eauto] | split; [intros (d & x & [=] & _) | easy]]. }
  assert (AT : forall k d, uses_dir w k d <-> in_use p k = Some d).
  { intros k d. rewrite U. unfold uses_dir. destruct (w_cache w k) as [c |]; cbn.
    - split; [intros (x & [= <-] & <-); easy | intros [= <-]; eauto].
    - split; [intros (x & [=] & _) | easy]. }
  cbn [plain_call] in EP. unfold kinds, in_turn, plain_clear, plain_use in EP.
  assert (ALL : (forall k, exists d, uses_dir w k d) <-> in_use p KData <> None /\ in_use p KIndicator <> None /\ in_use p KModel <> None).
  { split; [intros A; rewrite <- !ON; auto |]. rewrite <- !ON. intros (? & ? & ?) []; easy. }
  assert (NE : forall k1 k2 d1 d2, in_use p k1 = Some d1 -> in_use p k2 = Some d2 -> k1 <> k2 -> d1 <> d2).
  { intros k1 k2 d1 d2 E1 E2. apply APART; now apply AT. }
  rewrite ALL. destruct (in_use p KData) as [d1 |] eqn:E1.
  2: { injection EP as <- <-. split; [split; [discriminate | tauto] |]. split; [split; [tauto | easy] |]. intros k d A. rewrite <- H', H. split; [| easy].
       destruct k; rewrite !ON, E1; tauto. }
  cbn [disk_op raises hd in_use holds] in EP. destruct (in_use p KIndicator) as [d2 |] eqn:E2.
  2: { injection EP as <- <-. split; [split; [discriminate | tauto] |]. split; [split; [tauto | easy] |]. intros k d A. rewrite <- H'. cbn [holds]. unfold disk_at.
       apply AT in A. destruct k; rewrite !ON, E1, ?E2.
       - rewrite E1 in A. injection A as <-. destruct (list_eq_dec ascii_dec d1 d1); [| easy]. split; [easy |]. intros X. destruct X. easy.
       - congruence.
       - destruct (list_eq_dec ascii_dec d1 d) as [Z | Z]; [destruct (NE KData KModel d1 d E1 A); easy |]. rewrite H. split; [tauto | easy]. }
  cbn [disk_op raises hd in_use holds] in EP. destruct (in_use p KModel) as [d3 |] eqn:E3.
  2: { injection EP as <- <-. split; [split; [discriminate | tauto] |]. split; [split; [tauto | easy] |]. intros k d A. rewrite <- H'. cbn [holds]. unfold disk_at.
       apply AT in A. destruct k; rewrite !ON, E1, ?E2.
       - rewrite E1 in A. injection A as <-. destruct (list_eq_dec ascii_dec d2 d1) as [Z | Z]; [destruct (NE KData KIndicator d1 d2 E1 E2); easy |].
         destruct (list_eq_dec ascii_dec d1 d1); [| easy]. split; [easy |]. intros X. destruct X. easy.
       - rewrite E2 in A. injection A as <-. destruct (list_eq_dec ascii_dec d2 d2); [| easy]. split; [easy |]. intros X. destruct X. easy.
       - congruence. }
  cbn [disk_op raises hd in_use holds] in EP. injection EP as <- <-. split; [split; [intros _; easy | easy] |]. split; [split; [discriminate | intros X; destruct X; easy] |].
  intros k d A. rewrite <- H'. cbn [holds]. unfold disk_at. apply AT in A.
  destruct k; rewrite !ON, E1, ?E2, ?E3; [rewrite E1 in A | rewrite E2 in A | rewrite E3 in A]; injection A as <-; (split; [intros _ key | intros X; destruct X; easy]);
    repeat match goal with |- context [list_eq_dec ascii_dec ?a ?b] => destruct (list_eq_dec ascii_dec a b); try easy end.
Qed.
Print Assumptions C93_clear_all.

(** Where a namespace is kept: in a directory of its kind below that of the namespace,
    below the cache directory or [.pybrokercache] of the working directory. *)
Theorem C93_where : forall cwd base ns k, ns <> [] -> hd_error ns <> Some "/"%char ->
  (forall a, base <> a ++ ["/"%char]) -> base <> [] -> (forall a, ns <> a ++ ["/"%char]) -> (forall a, cwd <> a ++ ["/"%char]) -> cwd <> [] ->
  let folder := match k with KData => lit "/data_source"%string | KIndicator => lit "/indicator"%string | KModel => lit "/model"%string end in
  get_cache_dir cwd (Some base) ns k = Some (base ++ "/"%char :: ns ++ folder) /\
  get_cache_dir cwd None ns k = Some (cwd ++ lit "/.pybrokercache/"%string ++ ns ++ folder).
Proof.
  assert (J : forall a b, a <> [] -> (forall x, a <> x ++ ["/"%char]) -> b <> [] -> hd_error b <> Some "/"%char -> join a b = a ++ "/"%char :: b).
  { intros a b NA SA NB HB. unfold join. destruct b as [| c b]; [easy |]. destruct (ascii_dec c slash) as [-> | _]; [easy |]. destruct a as [| x a]; [easy |].
    replace (ends_with_slash (x :: a)) with false; [easy |]. symmetry. unfold ends_with_slash. destruct (rev (x :: a)) as [| y l] eqn:E; [easy |].
    destruct (ascii_dec y slash) as [-> | _]; [| easy]. destruct (SA (rev l)). rewrite <- (rev_involutive (x :: a)), E. easy. }
  intros cwd base ns k N HN SB NB SN SC NC folder.
  assert (SN' : forall b x, b ++ ns <> x ++ ["/"%char]).
  { intros b x E. destruct (exists_last N) as (ns' & y & ->). rewrite app_assoc in E. apply app_inj_tail in E as (_ & ->). now destruct (SN ns'). }
  assert (K : sub_dir k <> [] /\ hd_error (sub_dir k) <> Some "/"%char /\ folder = "/"%char :: sub_dir k) by now destruct k. destruct K as (K1 & K2 & ->).
  unfold get_cache_dir. destruct ns as [| n0 ns0] eqn:EN; [easy |]. rewrite <- EN in *. split.
  - rewrite (J base ns) by easy. rewrite J; [now rewrite <- !app_assoc | destruct base; easy | | easy | easy].
    intros x E. change ("/"%char :: ns) with (["/"%char] ++ ns) in E. rewrite app_assoc in E. exact (SN' _ _ E).
  - rewrite (J cwd _) by easy. rewrite (J _ ns); [| destruct cwd; easy | | easy | easy].
    + rewrite J; [now rewrite <- !app_assoc | destruct cwd; easy | | easy | easy].
      intros x E. change ("/"%char :: ns) with (["/"%char] ++ ns) in E. rewrite app_assoc in E. exact (SN' _ _ E).
    + intros x E. change (lit ".pybrokercache"%string) with (lit ".pybrokercach"%string ++ ["e"%char]) in E.
      change (cwd ++ ("/"%char :: lit ".pybrokercach"%string) ++ ["e"%char] = x ++ ["/"%char]) in E. rewrite app_assoc in E. apply app_inj_tail in E as (_ & E). discriminate E.
Qed.
Print Assumptions C93_where.

(** The namespace that the scope records is the one in use, and empty when off. Missing:
    directories that cannot be opened. *)
Theorem C93_recorded_partial : forall repr calls disk, Forall opening calls ->
  let w := fst (do_calls repr calls (start disk)) in
  forall k, (forall d, uses_dir w k d -> exists cwd dir, get_cache_dir cwd dir (w_ns w k) k = Some d) /\ ((forall d, ~ uses_dir w k d) -> w_ns w k = []).
Proof.
  intros repr calls disk F w k. assert (T : told w). { apply told_calls; [exact F | easy]. } specialize (T k). split.
  - intros d (c & C & <-). rewrite C in T. exact T.
  - intros X. destruct (w_cache w k) as [c |] eqn:C; [| exact T]. destruct (X (c_dir c)). exists c. easy.
Qed.
Print Assumptions C93_recorded_partial.
(** After a failed attempt the new namespace is recorded although the old directory is
    still in use. *)
Theorem C93_recorded_refuted : exists repr calls disk d,
  let w := fst (do_calls repr calls (start disk)) in
  uses_dir w KModel d /\ (forall cwd dir, get_cache_dir cwd dir (w_ns w KModel) KModel <> Some d).
Proof.
  exists (fun n => n), [Enable [] (Some (lit "c"%string)) (lit "one"%string) 2 true KModel; Enable [] (Some (lit "c"%string)) (lit "two"%string) 2 false KModel], (fun _ _ => None), (lit "c/one/model"%string).
  split; [exists (mk_cache (lit "c/one/model"%string) 2 []); easy |]. intros cwd dir H.
  assert (E : join (join (match dir with Some d => d | None => join cwd (lit ".pybrokercache"%string) end) (lit "two"%string)) (lit "model"%string) = lit "c/one/model"%string).
  { match type of H with ?l = ?r => change (Some (join (join (match dir with Some d => d | None => join cwd (lit ".pybrokercache"%string) end) (lit "two"%string)) (lit "model"%string)) = r) in H end. congruence. }
  assert (A : forall b, join b (lit "two"%string) = b ++ lit "two"%string \/ join b (lit "two"%string) = b ++ lit "/two"%string).
  { intros b. unfold join. cbn [lit list_ascii_of_string]. destruct (ascii_dec "t" slash) as [X | _]; [discriminate X |]. destruct (match b with [] => true | _ => ends_with_slash b end); auto. }
  assert (B : forall b x, exists y, join (b ++ x ++ lit "wo"%string) (lit "model"%string) = (y ++ lit "wo"%string) ++ lit "/model"%string).
  { intros b x. exists (b ++ x). unfold join. cbn [lit list_ascii_of_string]. destruct (ascii_dec "m" slash) as [X | _]; [discriminate X |].
    replace (match b ++ x ++ ["w"%char; "o"%char] with [] => true | _ => ends_with_slash (b ++ x ++ ["w"%char; "o"%char]) end) with false; [now rewrite <- !app_assoc |].
    assert (Z : ends_with_slash (b ++ x ++ ["w"%char; "o"%char]) = false). { unfold ends_with_slash. rewrite !rev_app_distr. reflexivity. }
    destruct (b ++ x ++ ["w"%char; "o"%char]) eqn:E0; [| now rewrite Z]. destruct b, x; discriminate E0. }
  revert E. generalize (match dir with Some d => d | None => join cwd (lit ".pybrokercache"%string) end). intros b E.
  assert (Y : exists y, (y ++ lit "wo"%string) ++ lit "/model"%string = lit "c/o"%string ++ lit "ne"%string ++ lit "/model"%string).
  { destruct (A b) as [R | R]; rewrite R in E.
    - destruct (B b (lit "t"%string)) as (y & Y). exists y. rewrite <- Y. exact E.
    - destruct (B b (lit "/t"%string)) as (y & Y). exists y. rewrite <- Y. exact E. }
  destruct Y as (y & Y). rewrite (app_assoc (lit "c/o"%string)) in Y. apply app_inv_tail in Y.
  change (y ++ [ "w"%char ] ++ ["o"%char] = lit "c/on"%string ++ ["e"%char]) in Y. rewrite app_assoc in Y. apply app_inj_tail in Y as (_ & Y). discriminate Y.
Qed.
Print Assumptions C93_recorded_refuted.

(** ** Not vacuous *)
Definition ex_key : key := Data 7.
Definition ex_calls : list call :=
  [Enable (lit "/home"%string) None (lit "one"%string) 2 true KIndicator; Use KIndicator (OSet ex_key (VObj 5)) [];
   Enable (lit "/home"%string) None (lit "two"%string) 2 true KIndicator; Use KIndicator (OGet ex_key VNone) []; ClearAll (fun _ => []);
   EnableAll (lit "/home"%string) None (lit "one"%string) 1024 (fun _ => true); Use KIndicator (OGet ex_key VNone) [];
   Disable KModel; ClearAll (fun _ => []); Use KIndicator (OGet ex_key VNone) []; Use KModel (OGet ex_key VNone) []].
Example C93_example :
  Forall (ordinary_call (fun n => n)) ex_calls /\
  snd (do_calls (fun n => n) ex_calls (start (fun _ _ => None))) =
    [Done_; Result (RFlag true); Done_; Result (RVal VNone); ValueError; Done_; Result (RVal (VObj 5)); Done_; ValueError; Result (RVal VNone); Off] /\
  get_cache_dir (lit "/home"%string) None (lit "one"%string) KIndicator = Some (lit "/home/.pybrokercache/one/indicator"%string).
Proof.
  split; [| split; reflexivity]. repeat constructor; try discriminate; try (intros k [= <-]; exact I).
Qed.
(** Between the two uses the cache is switched off and on under another namespace where
    the same key is overwritten and everything cleared. *)
Example C93_kept_example :
  let w0 := fst (do_calls (fun n => n) [Enable (lit "/home"%string) None (lit "one"%string) 2 true KModel] (start (fun _ _ => None))) in
  let w1 := fst (use (fun n => n) KModel (OSet ex_key (VObj 5)) [] w0) in
  spares (fun n => n) KModel (lit "/home/.pybrokercache/one/model"%string) ex_key
    [Disable KModel; EnableAll (lit "/home"%string) None (lit "two"%string) 2 (fun _ => true); Use KModel (OSet ex_key (VObj 6)) [];
     ClearAll (fun _ => []); DisableAll] w1.
Proof.
  cbn. repeat match goal with |- _ /\ _ => split end; try exact I.
  - intros _ (c & [= <-] & E). discriminate E.
  - intros (c & [= <-] & E). discriminate E.
Qed.
