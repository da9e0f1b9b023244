From Verif Require Export PoolSpec.
Import ListNotations.
Open Scope list_scope.

Lemma all_ok_spec {A} (l : list (res A)) xs : all_ok l = Ok xs <-> Forall2 (fun r x => r = Ok x) l xs.
Proof.
  revert xs. induction l as [|r l IH]; intros xs; cbn [all_ok].
  - split; [intros [= <-]; constructor|]. intros F. inversion F. reflexivity.
  - split.
    + destruct r as [a|e]; cbn [bind]; [|discriminate]. destruct (all_ok l) as [ys|e]; cbn [bind]; [|discriminate].
      intros [= <-]. constructor; [reflexivity|]. now apply IH.
    + intros F. inversion F as [|? x ? ys E F']; subst. apply IH in F'. cbn [bind]. rewrite F'. reflexivity.
Qed.

Section Work.
Context {S A : Type}.
Variable scope : S.
Lemma work_spec (fns : list (task S A)) : forall sched ws i x,
  In (i, x) (work sched ws (map (run_with_scope scope) fns)) <-> In i (map snd sched) /\ exists t, nth_error fns i = Some t /\ x = t scope.
Proof.
  induction sched as [|[w j] r IH]; intros ws i x; cbn [work map snd]; [cbn; tauto|].
  rewrite nth_error_map. destruct (nth_error fns j) as [t|] eqn:E; cbn [option_map].
  - unfold run_with_scope at 1. cbn [In]. rewrite IH. split.
    + intros [[= <- <-]|(I & H)]; [split; [now left|eauto]|split; [now right|exact H]].
    + intros ([<-|I] & t' & E' & ->).
      * left. rewrite E in E'. inversion E'. reflexivity.
      * right. split; [exact I|eauto].
  - rewrite IH. cbn [In]. split; [tauto|]. intros ([<-|I] & t' & E' & ->); [congruence|]. split; [exact I|eauto].
Qed.
Lemma work_keys (fns : list (task S A)) : forall sched ws, incl (map snd sched) (seq 0 (List.length fns)) ->
  map fst (work sched ws (map (run_with_scope scope) fns)) = map snd sched.
Proof.
  induction sched as [|[w j] r IH]; intros ws I; cbn [work map snd fst]; [reflexivity|].
  rewrite nth_error_map. destruct (nth_error fns j) as [t|] eqn:E; cbn [option_map].
  - cbn [run_with_scope map fst]. f_equal. apply IH. intros k K. apply I. right. exact K.
  - exfalso. apply nth_error_None in E. specialize (I j (or_introl eq_refl)). apply in_seq in I. cbn in I. lia.
Qed.
Lemma result_in (done : list (nat * res A)) i x : NoDup (map fst done) -> In (i, x) done -> result_of i done = x.
Proof.
  induction done as [|[j y] r IH]; intros N I; [contradiction|]. cbn [result_of]. inversion N as [|? ? Nj N']; subst.
  destruct (Nat.eqb_spec i j) as [->|D].
  - destruct I as [[= <-]|I]; [reflexivity|]. exfalso. apply Nj. apply in_map_iff. exists (j, x). auto.
  - destruct I as [[= E <-]|I]; [congruence|]. now apply IH.
Qed.
(** Whoever runs them, the results are those of the tasks in the caller's scope. *)
Lemma ordered_spec (fns : list (task S A)) sched ws : complete (List.length fns) sched ->
  map (fun i => result_of i (work sched ws (map (run_with_scope scope) fns))) (seq 0 (List.length (map (run_with_scope scope) fns))) = map (fun t => t scope) fns.
Proof.
  intros C. rewrite map_length. set (done := work _ _ _).
  assert (N : NoDup (map fst done)).
  { unfold done. rewrite work_keys. - apply (Permutation_NoDup (Permutation_sym C)), seq_NoDup. - intros k K. exact (Permutation_in _ C K). }
  apply nth_ext with (d := Raise RuntimeErr) (d' := Raise RuntimeErr); rewrite !map_length, seq_length; [reflexivity|].
  intros i L. rewrite (nth_indep _ _ (result_of 0 done)) by (rewrite map_length, seq_length; exact L).
  rewrite (map_nth (fun i => result_of i done)), seq_nth by exact L. cbn [plus].
  destruct (nth_error fns i) as [t|] eqn:E; [|apply nth_error_None in E; lia].
  rewrite (result_in done i (t scope) N).
  - symmetry. apply nth_error_nth. apply (map_nth_error (fun t : task S A => t scope) i fns E).
  - unfold done. apply work_spec. split; [|eauto]. apply (Permutation_in _ (Permutation_sym C)). apply in_seq. lia.
Qed.
Lemma alone_spec (fns : list (task S A)) xs : all_ok (map (fun t => t scope) fns) = Ok xs <-> alone scope fns xs.
Proof.
  rewrite all_ok_spec. unfold alone. revert xs. induction fns as [|t r IH]; intros xs; cbn [map].
  - split; intros F; inversion F; constructor.
  - split; intros F; inversion F; subst; constructor; try assumption; apply IH; assumption.
Qed.
End Work.

(** What an accepted configuration hands out keeps the order. *)
Definition ordered (p : pool) : Prop := pl_return p <> Some AsUnordered.
Lemma set_parallel_spec registered c q :
  (exists c', set_parallel registered c q = Ok c') <-> acceptable registered q.
Proof.
  unfold set_parallel, acceptable. destruct (rq_pool q) as [p|].
  - destruct (rq_jobs q), (rq_backend q).
    1-3: split; [intros (c' & H); discriminate|intros (H1 & H2 & _); discriminate].
    destruct (pl_return p) as [[]|]; (split; [intros (c' & H); try discriminate; repeat split; congruence|intros (_ & _ & H); try congruence; eauto]).
  - destruct (rq_backend q) as [b|]; cbn [bind].
    + destruct (String.eqb_spec b "multiprocessing") as [->|D]; cbn [bind].
      * split; [intros (c' & H); discriminate|]. intros H. destruct (H _ eq_refl). congruence.
      * destruct (registered b) eqn:R; cbn [bind].
        -- split; [|eauto]. intros _ b' [= <-]. auto.
        -- split; [intros (c' & H); discriminate|]. intros H. destruct (H _ eq_refl). congruence.
    + split; [|eauto]. intros _ b. discriminate.
Qed.
Lemma set_parallel_ok registered c q c' : set_parallel registered c q = Ok c' ->
  acceptable registered q /\ cf_pool c' = rq_pool q /\
  cf_jobs c' = match says_jobs q with Some n => n | None => cf_jobs c end /\
  cf_backend c' = match says_backend q with Some n => n | None => cf_backend c end.
Proof.
  intros E. split; [apply (set_parallel_spec registered c); eauto|].
  unfold set_parallel in E. unfold says_jobs, says_backend. destruct (rq_pool q) as [p|].
  - destruct (rq_jobs q), (rq_backend q); try discriminate. destruct (pl_return p) as [[]|]; try discriminate; inversion E; repeat split.
  - destruct (rq_backend q) as [b|].
    + destruct (String.eqb b "multiprocessing"); cbn [bind] in E; [discriminate|]. destruct (registered b); cbn [bind] in E; [|discriminate]. inversion E. repeat split.
    + cbn [bind] in E. inversion E. repeat split.
Qed.
Lemma after_call_spec c r q :
  (acceptable r q /\ cf_pool (after_call c (r, q)) = rq_pool q /\
   cf_jobs (after_call c (r, q)) = match says_jobs q with Some n => n | None => cf_jobs c end /\
   cf_backend (after_call c (r, q)) = match says_backend q with Some n => n | None => cf_backend c end) \/
  (~ acceptable r q /\ after_call c (r, q) = c).
Proof.
  unfold after_call. cbn [fst snd]. destruct (set_parallel r c q) as [c'|e] eqn:E.
  - left. exact (set_parallel_ok _ _ _ _ E).
  - right. split; [|reflexivity]. intros H. apply (set_parallel_spec r c) in H. destruct H as (c' & H). congruence.
Qed.
(** Any field that follows what accepted calls say. *)
Lemma field_in_force {V} (says : request -> option V) (field : config -> V) :
  (forall c r q, acceptable r q -> field (after_call c (r, q)) = match says q with Some v => v | None => field c end) ->
  forall calls, in_force says (field default_config) calls (field (configured calls)).
Proof.
  intros F calls. unfold configured. induction calls as [|[r q] calls IH] using rev_ind.
  - right. split; [reflexivity|]. intros r q [].
  - rewrite fold_left_app. cbn [fold_left]. set (c := fold_left after_call calls default_config) in *.
    assert ((acceptable r q /\ says q <> None) \/ ((acceptable r q -> says q = None) /\ field (after_call c (r, q)) = field c)) as [(Ac & Sq)|(Sq & Ec)].
    { destruct (after_call_spec c r q) as [(Ac & _)|(Na & ->)]; [|right; split; [tauto|reflexivity]].
      destruct (says q) as [v|] eqn:E; [left; split; [exact Ac|discriminate]|]. right. split; [reflexivity|]. rewrite (F _ _ _ Ac), E. reflexivity. }
    + left. exists calls, r, q, []. rewrite (F _ _ _ Ac). destruct (says q) as [v|]; [|congruence]. repeat split; [assumption|]. intros r' q' [].
    + rewrite Ec. destruct IH as [(before & r0 & q0 & later & -> & A0 & S0 & L)|(E0 & L)].
      * left. exists before, r0, q0, (later ++ [(r, q)]). rewrite <- app_assoc. split; [reflexivity|]. split; [exact A0|]. split; [exact S0|].
        intros r' q' I Ac. apply in_app_iff in I. destruct I as [I|[[= <- <-]|[]]]; [exact (L _ _ I Ac)|exact (Sq Ac)].
      * right. split; [exact E0|]. intros r' q' I Ac. apply in_app_iff in I. destruct I as [I|[[= <- <-]|[]]]; [exact (L _ _ I Ac)|exact (Sq Ac)].
Qed.
Lemma pool_ordered calls p : cf_pool (configured calls) = Some p -> ordered p.
Proof.
  destruct (field_in_force says_pool cf_pool) with (calls := calls) as [(before & r & q & later & _ & Ac & E & _)|(E & _)].
  - intros c r q Ac. destruct (after_call_spec c r q) as [(_ & E & _)|(N & _)]; [exact E|contradiction].
  - unfold says_pool in E. injection E as E. rewrite <- E. intros E'. unfold acceptable in Ac. rewrite E' in Ac. apply Ac.
  - rewrite E. discriminate.
Qed.

Section Sites.
Context {S A : Type}.
Lemma dispatch_spec calls (x : site S) (fns : list (task S A)) :
  s_config x = configured calls -> complete (List.length fns) (s_sched x) ->
  dispatch x fns = bind (all_ok (map (fun t => t (s_scope x)) fns)) (fun l => Ok (RList l)) \/
  (dispatch x fns = Ok (RGen (map (fun t => t (s_scope x)) fns)) /\ ~ no_generator (s_nested x) (s_config x)).
Proof.
  intros E C. unfold dispatch, call_pool. rewrite (ordered_spec (s_scope x) fns (s_sched x) (s_workers x) C).
  destruct (pl_return (open_pool (s_nested x) (s_config x))) as [[]|] eqn:R; [left; reflexivity| | |left; reflexivity].
  - right. split; [reflexivity|]. unfold open_pool in R. destruct (s_nested x); [discriminate|].
    destruct (cf_pool (s_config x)) as [p|] eqn:P; [|discriminate]. intros [H|H]; [discriminate|]. exact (H p P R).
  - exfalso. unfold open_pool in R. destruct (s_nested x); [discriminate|]. rewrite E in R.
    destruct (cf_pool (configured calls)) as [p|] eqn:P; [|discriminate]. exact (pool_ordered _ _ P R).
Qed.
Lemma iterate_spec calls (x : site S) (fns : list (task S A)) :
  s_config x = configured calls -> complete (List.length fns) (s_sched x) ->
  bind (dispatch x fns) iterate = all_ok (map (fun t => t (s_scope x)) fns).
Proof.
  intros E C. destruct (dispatch_spec calls x fns E C) as [->|(-> & _)]; [|reflexivity].
  destruct (all_ok _); reflexivity.
Qed.
Lemma bind_bind {X Y Z} (r : res X) (f : X -> res Y) (g : Y -> res Z) : bind (bind r f) g = bind r (fun a => bind (f a) g).
Proof. destruct r; reflexivity. Qed.
Lemma zipped_spec {B} calls (x : site S) (items : list B) (fns : list (task S A)) :
  s_config x = configured calls -> complete (List.length fns) (s_sched x) ->
  bind (dispatch x fns) (zipped items) = bind (all_ok (map (fun t => t (s_scope x)) fns)) (fun l => Ok (combine items l)).
Proof.
  intros E C. rewrite <- (iterate_spec calls x fns E C), bind_bind. reflexivity.
Qed.
Lemma pairs_ok {B} scope (items : list B) (fns : list (task S A)) out :
  bind (all_ok (map (fun t => t scope) fns)) (fun l => Ok (combine items l)) = Ok out <-> exists xs, alone scope fns xs /\ out = combine items xs.
Proof.
  split.
  - destruct (all_ok _) as [l|] eqn:E; cbn [bind]; [|discriminate]. intros [= <-]. exists l. split; [now apply alone_spec|reflexivity].
  - intros (xs & H & ->). apply alone_spec in H. rewrite H. reflexivity.
Qed.
Lemma all_ok_app {X} (a b : list (res X)) : all_ok (a ++ b) = bind (all_ok a) (fun u => bind (all_ok b) (fun v => Ok (u ++ v))).
Proof.
  induction a as [|r a IH]; cbn [all_ok app bind]; [destruct (all_ok b); reflexivity|].
  destruct r; cbn [bind]; [|reflexivity]. rewrite IH. destruct (all_ok a); cbn [bind]; [|reflexivity]. destruct (all_ok b); reflexivity.
Qed.
Lemma combine_app {X Y} (a b : list X) (u v : list Y) : List.length a = List.length u -> combine (a ++ b) (u ++ v) = combine a u ++ combine b v.
Proof. revert u. induction a as [|x a IH]; intros [|y u] L; try discriminate; [reflexivity|]. cbn. f_equal. apply IH. now injection L. Qed.
Lemma all_ok_length {X} (l : list (res X)) xs : all_ok l = Ok xs -> List.length xs = List.length l.
Proof. intros E. apply all_ok_spec in E. induction E; cbn; congruence. Qed.
Lemma batches_spec {B} calls (x : site S) size scheds : s_config x = configured calls -> 1 <= size ->
  (forall n, complete (Nat.min size n) (scheds n)) -> no_generator (s_nested x) (s_config x) ->
  forall fuel (points : list (B * task S A)), List.length points <= fuel ->
  batches fuel size false x scheds points = bind (all_ok (map (fun t => t (s_scope x)) (map snd points))) (fun l => Ok (combine (map fst points) l)).
Proof.
  intros E Sz C NG. induction fuel as [|k IH]; intros points L.
  - destruct points; [reflexivity|cbn in L; lia].
  - destruct points as [|p0 ps]; [reflexivity|]. set (points := p0 :: ps) in *. change (batches (Datatypes.S k) size false x scheds points) with
      (bind (dispatch (mk_site (s_nested x) (s_config x) (s_scope x) (scheds (List.length points)) (s_workers x)) (map snd (firstn size points))) (fun r =>
       bind (zipped (map fst (firstn size points)) r) (fun told =>
       bind (batches k size (match r with RGen _ => true | RList _ => false end) x scheds (skipn size points)) (fun rest => Ok (told ++ rest))))).
    set (x' := mk_site _ _ _ _ _).
    assert (C' : complete (List.length (map snd (firstn size points))) (s_sched x')) by (rewrite map_length, firstn_length; apply C).
    destruct (dispatch_spec calls x' (map snd (firstn size points)) E C') as [->|(_ & H)]; [|exfalso; exact (H NG)].
    assert (M1 : map snd points = map snd (firstn size points) ++ map snd (skipn size points)) by (rewrite <- map_app, firstn_skipn; reflexivity).
    assert (M2 : map fst points = map fst (firstn size points) ++ map fst (skipn size points)) by (rewrite <- map_app, firstn_skipn; reflexivity).
    rewrite M1, M2, map_app, all_ok_app. cbn [x' s_scope].
    destruct (all_ok (map (fun t => t (s_scope x)) (map snd (firstn size points)))) as [u|] eqn:U; cbn [bind]; [|reflexivity].
    unfold zipped. cbn [iterate bind]. rewrite IH.
    + destruct (all_ok (map _ (map snd (skipn size points)))) as [v|]; cbn [bind]; [|reflexivity].
      rewrite combine_app; [reflexivity|]. apply all_ok_length in U. rewrite !map_length in *. congruence.
    + rewrite skipn_length. clear - L Sz. unfold points in *. cbn [List.length] in *. lia.
Qed.
(** One batch is enough. *)
Lemma one_batch {B} calls (x : site S) size scheds (points : list (B * task S A)) fuel : s_config x = configured calls ->
  (forall n, complete (Nat.min size n) (scheds n)) -> List.length points <= size -> List.length points <= fuel ->
  batches fuel size false x scheds points = bind (all_ok (map (fun t => t (s_scope x)) (map snd points))) (fun l => Ok (combine (map fst points) l)).
Proof.
  intros E C L F. destruct points as [|p0 ps]; [destruct fuel; reflexivity|]. destruct fuel as [|k]; [cbn in F; lia|]. set (points := p0 :: ps) in *.
  change (batches (Datatypes.S k) size false x scheds points) with
      (bind (dispatch (mk_site (s_nested x) (s_config x) (s_scope x) (scheds (List.length points)) (s_workers x)) (map snd (firstn size points))) (fun r =>
       bind (zipped (map fst (firstn size points)) r) (fun told =>
       bind (batches k size (match r with RGen _ => true | RList _ => false end) x scheds (skipn size points)) (fun rest => Ok (told ++ rest))))).
  rewrite (firstn_all2 points) by exact L. rewrite (skipn_all2 points) by exact L.
  set (x' := mk_site _ _ _ _ _).
  assert (C' : complete (List.length (map snd points)) (s_sched x')) by (rewrite map_length; cbn [x' s_sched]; rewrite <- (Nat.min_r size (List.length points)) at 1 by exact L; apply C).
  change (s_scope x) with (s_scope x'). rewrite <- (zipped_spec calls x' (map fst points) (map snd points) E C').
  destruct (dispatch x' (map snd points)) as [r|]; cbn [bind]; [|reflexivity]. destruct (zipped (map fst points) r) as [told|]; cbn [bind]; [|reflexivity].
  destruct k; cbn [batches bind]; rewrite app_nil_r; reflexivity.
Qed.
End Sites.
