(** Proofs for C110. *)
From Verif Require Import FeatModel FeatSpec.

Lemma mem_in c l : mem c l = true <-> In c l.
Proof.
  unfold mem. rewrite existsb_exists. split.
  - intros (x & H & E). apply Nat.eqb_eq in E. subst. exact H.
  - intros H. exists c. rewrite Nat.eqb_refl. tauto.
Qed.
Lemma mem_not c l : mem c l = false <-> ~ In c l.
Proof. rewrite <- mem_in. destruct (mem c l); split; congruence. Qed.

Lemma fromkeys_in l : forall c, In c (fromkeys l) <-> In c l.
Proof.
  induction l as [|x l IH]; intros c; cbn; [tauto|]. rewrite filter_In, IH. split.
  - intros [H | [H _]]; auto.
  - intros [H | H]; auto. destruct (Nat.eqb_spec c x); [left; congruence | right; split; auto].
Qed.
Lemma fromkeys_nodup l : NoDup (fromkeys l).
Proof.
  induction l as [|x l IH]; cbn; [constructor|]. constructor; [|apply NoDup_filter, IH].
  rewrite filter_In, Nat.eqb_refl. cbn. intros [_ H]. discriminate.
Qed.
Lemma filter_all {A} (p : A -> bool) l : (forall x, In x l -> p x = true) -> filter p l = l.
Proof.
  induction l as [|x l IH]; cbn; intros H; [reflexivity|].
  rewrite (H x (or_introl eq_refl)), IH; [reflexivity|]. intros y Hy. apply H. now right.
Qed.
Lemma filter_same {A} (p q : A -> bool) l : (forall x, In x l -> p x = q x) -> filter p l = filter q l.
Proof.
  induction l as [|x l IH]; cbn; intros H; [reflexivity|].
  rewrite (H x (or_introl eq_refl)), IH; [reflexivity|]. intros y Hy. apply H. now right.
Qed.
Lemma filter_filter {A} (p q : A -> bool) l : filter p (filter q l) = filter (fun x => q x && p x) l.
Proof.
  induction l as [|x l IH]; cbn; [reflexivity|]. destruct (q x); cbn; [|exact IH]. now rewrite IH.
Qed.
Lemma filter_comm {A} (p q : A -> bool) l : filter p (filter q l) = filter q (filter p l).
Proof. rewrite !filter_filter. apply filter_same. intros. apply andb_comm. Qed.
Lemma fromkeys_id l : NoDup l -> fromkeys l = l.
Proof.
  induction 1 as [|x l H N IH]; cbn; [reflexivity|]. rewrite IH. f_equal.
  apply filter_all. intros y Hy. destruct (Nat.eqb_spec y x); [subst; contradiction | reflexivity].
Qed.
Lemma find_none_in {A} (p : A -> bool) l : (forall x, In x l -> p x = false) -> find p l = None.
Proof.
  induction l as [|x l IH]; cbn; intros H; [reflexivity|].
  rewrite (H x (or_introl eq_refl)). apply IH. intros y Hy. apply H. now right.
Qed.

(** The default columns are the registered ones. *)
Lemma ordered_in custom c : In c (ordered custom) <-> registered custom c.
Proof.
  unfold ordered, registered, date. cbn. split.
  - intros [H|[H|[H|[H|[H|[H|[H|H]]]]]]]; try (left; lia); try (right; left; lia); auto.
  - intros [H|[H|H]]; [lia | | tauto].
    assert (c = 2 \/ c = 3 \/ c = 4 \/ c = 5 \/ c = 6 \/ c = 7) by lia. intuition.
Qed.

Section Proofs.
Context {T : Type}.
Implicit Types (f : frame T) (d : data T) (src : source T).

Lemma lookup_none f c : lookup f c = None <-> ~ In c (names f).
Proof.
  induction f as [|(x, v) f IH]; cbn; [tauto|].
  destruct (Nat.eqb_spec x c) as [->|E]; [split; [discriminate | tauto]|].
  rewrite IH. tauto.
Qed.
Lemma lookup_in f c v : lookup f c = Some v -> In (c, v) f.
Proof.
  induction f as [|(x, w) f IH]; cbn; [discriminate|].
  destruct (Nat.eqb_spec x c) as [->|E]; [intros [= ->]; now left | auto].
Qed.
Lemma in_lookup f c v : NoDup (names f) -> In (c, v) f -> lookup f c = Some v.
Proof.
  induction f as [|(x, w) f IH]; cbn; [tauto|]. intros N [H|H]; inversion N; subst.
  - injection H as -> ->. now rewrite Nat.eqb_refl.
  - destruct (Nat.eqb_spec x c) as [->|E]; [|auto].
    exfalso. apply H2. change (In c (names f)). now apply (in_map fst) in H.
Qed.
Lemma lookup_some f c : In c (names f) -> exists v, lookup f c = Some v.
Proof.
  intros H. destruct (lookup f c) as [v|] eqn:E; [eauto|]. apply lookup_none in E. contradiction.
Qed.

Lemma dset_lookup f c v x : lookup (dset f c v) x = if Nat.eqb c x then Some v else lookup f x.
Proof.
  induction f as [|(y, w) f IH]; cbn; [reflexivity|].
  destruct (Nat.eqb_spec y c) as [->|E]; cbn.
  - destruct (Nat.eqb c x); reflexivity.
  - rewrite IH. destruct (Nat.eqb_spec y x) as [->|E']; [|reflexivity].
    destruct (Nat.eqb_spec c x); [congruence | reflexivity].
Qed.
Definition add (l : list nat) (c : nat) := if mem c l then l else l ++ [c].
Lemma dset_names f c v : names (dset f c v) = add (names f) c.
Proof.
  unfold add. induction f as [|(y, w) f IH]; cbn; [reflexivity|].
  rewrite (Nat.eqb_sym c y).
  destruct (Nat.eqb_spec y c) as [->|E]; cbn; [reflexivity|].
  change (map fst ?l) with (names l). rewrite IH.
  change (existsb (Nat.eqb c) (names f)) with (mem c (names f)). now destruct (mem c (names f)).
Qed.
Lemma add_fold cs : forall l, fold_left add cs l = l ++ filter (fun c => negb (mem c l)) (fromkeys cs).
Proof.
  induction cs as [|c cs IH]; intros l; cbn; [now rewrite app_nil_r|].
  rewrite IH. unfold add. rewrite filter_filter. destruct (mem c l) eqn:E; cbn.
  - f_equal. apply filter_same. intros x _. destruct (Nat.eqb_spec x c) as [->|H]; cbn; [|reflexivity].
    now rewrite E.
  - rewrite <- app_assoc. cbn. f_equal. f_equal. apply filter_same. intros x _.
    unfold mem. rewrite existsb_app. cbn. rewrite orb_false_r, negb_orb.
    fold (mem x l). now rewrite andb_comm.
Qed.

Lemma data_fold_lookup d cs : forall f x,
  lookup (fold_left (fun f c => match lookup (d_cols d) c with Some v => dset f c v | None => f end) cs f) x
  = match lookup (d_cols d) x with
    | Some v => if mem x cs then Some v else lookup f x
    | None => lookup f x
    end.
Proof.
  induction cs as [|c cs IH]; intros f x; [cbn; now destruct (lookup (d_cols d) x)|].
  cbn [fold_left]. rewrite IH. unfold mem. cbn [existsb]. rewrite (Nat.eqb_sym x c).
  destruct (Nat.eqb_spec c x) as [->|E]; cbn [orb].
  - destruct (lookup (d_cols d) x) as [v|] eqn:L; [|reflexivity].
    rewrite dset_lookup, Nat.eqb_refl. now destruct (existsb (Nat.eqb x) cs).
  - assert (K : lookup (match lookup (d_cols d) c with Some v => dset f c v | None => f end) x = lookup f x).
    { destruct (lookup (d_cols d) c); [|reflexivity]. rewrite dset_lookup.
      destruct (Nat.eqb_spec c x); [contradiction | reflexivity]. }
    rewrite K. reflexivity.
Qed.
Lemma ind_fold_lookup d cs : forall f x,
  lookup (fold_left (fun f c => dset f c (d_ind d c)) cs f) x
  = if mem x cs then Some (d_ind d x) else lookup f x.
Proof.
  induction cs as [|c cs IH]; intros f x; [reflexivity|].
  cbn [fold_left]. rewrite IH, dset_lookup. unfold mem. cbn [existsb]. rewrite (Nat.eqb_sym x c).
  destruct (Nat.eqb_spec c x) as [->|E]; cbn [orb]; [|reflexivity].
  now destruct (existsb (Nat.eqb x) cs).
Qed.
Lemma fetched_lookup src d cols x :
  lookup (fetched src d cols) x
  = if mem x (s_inds src) then Some (d_ind d x)
    else if mem x cols then lookup (d_cols d) x else None.
Proof.
  unfold fetched. rewrite ind_fold_lookup. destruct (mem x (s_inds src)); [reflexivity|].
  rewrite data_fold_lookup. cbn. destruct (lookup (d_cols d) x); destruct (mem x cols); reflexivity.
Qed.
Lemma fetched_names src d cols :
  names (fetched src d cols) = fromkeys (filter (fun c => mem c (names (d_cols d))) cols ++ s_inds src).
Proof.
  assert (H1 : forall cs f, names (fold_left (fun f c => dset f c (d_ind d c)) cs f) = fold_left add cs (names f)).
  { induction cs as [|c cs IH]; intros f; [reflexivity|]. cbn [fold_left]. now rewrite IH, dset_names. }
  assert (H2 : forall cs f,
    names (fold_left (fun f c => match lookup (d_cols d) c with Some v => dset f c v | None => f end) cs f)
    = fold_left add (filter (fun c => mem c (names (d_cols d))) cs) (names f)).
  { induction cs as [|c cs IH]; intros f; [reflexivity|]. cbn [fold_left filter]. rewrite IH.
    destruct (lookup (d_cols d) c) as [v|] eqn:L; destruct (mem c (names (d_cols d))) eqn:M; cbn [fold_left].
    - now rewrite dset_names.
    - apply lookup_in in L. apply (in_map fst) in L. apply mem_in in L. unfold names in M. cbn in L. congruence.
    - apply lookup_none in L. apply mem_in in M. contradiction.
    - reflexivity. }
  unfold fetched. rewrite H1, H2, <- fold_left_app. cbn. rewrite add_fold. cbn.
  apply filter_all. reflexivity.
Qed.

Lemma to_frame_in l h c (v : T) : In (c, v) (to_frame l h) <-> In c l /\ h c = Some v.
Proof.
  unfold to_frame. rewrite in_flat_map. split.
  - intros (x & Hx & H). apply (proj1 (fromkeys_in l x)) in Hx. destruct (h x) as [w|] eqn:E; [|contradiction].
    destruct H as [H|[]]. inversion H; subst. split; assumption.
  - intros (Hc & E). exists c. split; [now apply fromkeys_in|]. rewrite E. now left.
Qed.
Lemma flat_names (h : nat -> option T) l :
  map fst (flat_map (fun c => match h c with Some v => [(c, v)] | None => [] end) l)
  = filter (fun c => match h c with Some _ => true | None => false end) l.
Proof.
  induction l as [|c l IH]; cbn; [reflexivity|]. destruct (h c); cbn; now rewrite IH.
Qed.
Lemma to_frame_names l (h : nat -> option T) :
  map fst (to_frame l h) = filter (fun c => match h c with Some _ => true | None => false end) (fromkeys l).
Proof. apply flat_names. Qed.
Lemma to_frame_nodup l (h : nat -> option T) : NoDup (map fst (to_frame l h)).
Proof. rewrite to_frame_names. apply NoDup_filter, fromkeys_nodup. Qed.
Lemma flat_without (h1 h2 : nat -> option T) l :
  (forall c, In c l -> c <> 1 -> h1 c = h2 c) ->
  flat_map (fun c => match h1 c with Some v => [(c, v)] | None => [] end) (filter (fun c => negb (Nat.eqb c 1)) l)
  = without_symbol (flat_map (fun c => match h2 c with Some v => [(c, v)] | None => [] end) l).
Proof.
  unfold without_symbol. induction l as [|c l IH]; intros H; cbn; [reflexivity|].
  rewrite filter_app, <- IH by (intros x Hx; apply H; now right).
  destruct (Nat.eqb_spec c 1) as [->|E]; cbn.
  - destruct (h2 1); reflexivity.
  - rewrite (H c (or_introl eq_refl) E). destruct (h2 c); cbn; [|reflexivity].
    destruct (Nat.eqb_spec c 1); [contradiction | reflexivity].
Qed.

(** ** The training frame *)
Lemma columns_in custom src d c :
  In c (train_columns custom src d) <->
  (c = 1 /\ s_pooled src = true) \/ c = 0
  \/ (registered custom c /\ c <> 1 /\ In c (names (d_cols d))) \/ In c (s_inds src).
Proof.
  unfold train_columns, model_input_columns. rewrite fromkeys_in, !in_app_iff, filter_In, ordered_in.
  rewrite andb_true_iff, mem_in, negb_true_iff, orb_false_iff, !Nat.eqb_neq. unfold symbol, date.
  assert (O1 : 1 = c <-> c = 1) by (split; congruence).
  assert (O0 : 0 = c <-> c = 0) by (split; congruence).
  destruct (s_pooled src); cbn; destruct (Nat.eq_dec c 0), (Nat.eq_dec c 1); intuition congruence.
Qed.
Lemma columns_nodup custom src d : NoDup (train_columns custom src d).
Proof. apply fromkeys_nodup. Qed.

Lemma train_array_plain src d sv c : c <> 1 -> no_clash src d -> 
  train_array src d sv c = if mem c (s_inds src) then Some (d_ind d c) else lookup (d_cols d) c.
Proof.
  intros E N. unfold train_array. destruct (Nat.eqb_spec c symbol) as [->|_]; [now contradiction E|]. cbn.
  destruct (mem c (s_inds src)) eqn:M.
  - apply mem_in in M. destruct (N c M) as [_ H]. apply lookup_none in H. now rewrite H.
  - now destruct (lookup (d_cols d) c).
Qed.

Lemma infer_is custom src d : no_clash src d ->
  infer_input_cols custom (s_inds src) (train_columns custom src d) (s_pooled src)
  = filter (fun c => negb (Nat.eqb c 1)) (train_columns custom src d).
Proof.
  intros N. unfold infer_input_cols.
  assert (K : forall c, In c (train_columns custom src d) -> c <> 1 ->
                        mem c (ordered custom) || mem c (s_inds src) = true).
  { intros c H E. apply columns_in in H. apply orb_true_iff. rewrite !mem_in, ordered_in.
    destruct H as [[H _]|[->|[H|H]]]; [contradiction | left; now left | tauto | tauto]. }
  destruct (s_pooled src) eqn:P.
  - rewrite filter_filter. apply filter_same. intros c H. unfold symbol.
    destruct (Nat.eqb_spec c 1) as [->|E]; [apply andb_false_r|]. now rewrite (K c H E).
  - apply filter_same. intros c H. destruct (Nat.eqb_spec c 1) as [->|E]; cbn; [|exact (K c H E)].
    exfalso. apply columns_in in H. destruct H as [[_ H]|[H|[H|H]]]; [congruence | discriminate | tauto |].
    destruct (N 1 H); congruence.
Qed.

Lemma train_ok custom src d sv a tm : train custom src d sv a = Ok tm ->
  tm_cols tm = Some (match a with With cols => cols | Bare => infer_input_cols custom (s_inds src) (train_columns custom src d) (s_pooled src) end)
  /\ (s_lags src = false -> tm_lags tm = None)
  /\ (s_lags src = true -> exists l, tm_lags tm = Some l
      /\ ((s_lag_cols src = [] /\ l = default_lag_cols custom (s_inds src) (train_columns custom src d) (s_pooled src))
          \/ (s_lag_cols src <> [] /\ l = s_lag_cols src
              /\ forall c, In c l -> In c (train_columns custom src d) /\ train_array src d sv c <> None))).
Proof.
  unfold train. destruct (s_lags src) eqn:L.
  2:{ intros [= <-]. cbn. repeat split; auto. discriminate. }
  unfold lag_feature_cols. destruct (s_lag_cols src) as [|x xs] eqn:C.
  - intros [= <-]. cbn. repeat split; try discriminate. intros _. eexists. split; [reflexivity|]. now left.
  - set (p := fun c => negb _). destruct (find p (x :: xs)) eqn:F; [discriminate|].
    intros [= <-]. cbn. repeat split; try discriminate. intros _. eexists. split; [reflexivity|]. right.
    split; [discriminate|]. split; [reflexivity|]. intros c Hc.
    pose proof (find_none p (x :: xs) F c Hc) as H. unfold p in H. apply negb_false_iff in H.
    destruct (train_array src d sv c); [|discriminate]. apply mem_in in H. split; [exact H | discriminate].
Qed.

Lemma default_lags_in custom inds columns pooled c : In c (default_lag_cols custom inds columns pooled) ->
  In c columns /\ c <> 0 /\ ~ In c inds /\ (pooled = true -> c <> 1).
Proof.
  unfold default_lag_cols, infer_input_cols. rewrite filter_In, andb_true_iff, !negb_true_iff, Nat.eqb_neq, mem_not.
  intros (H & H0 & HI). unfold date in H0. destruct pooled.
  - rewrite !filter_In in H. destruct H as ((H & _) & K). apply negb_true_iff, Nat.eqb_neq in K. auto.
  - rewrite filter_In in H. destruct H as (H & _). repeat split; auto. discriminate.
Qed.

(** ** Prediction *)
(** With recorded columns that are all there, the frame is those columns. *)
Lemma predict_recorded custom src tm d cols :
  tm_cols tm = Some cols -> cols <> [] ->
  (s_lags src = true -> tm_lags tm <> None) -> (s_lags src = false -> tm_lags tm = None) ->
  In 0 (names (d_cols d)) ->
  let f := fetched src d (fetched_cols custom src tm (tm_lags tm)) in
  (forall c, In c cols -> lookup f c <> None) ->
  (forall l c, tm_lags tm = Some l -> In c l -> lookup f c <> None) ->
  predict_input custom src tm d
  = Ok (match s_fn src with None => to_frame cols (lookup f) | Some fn => fn (to_frame cols (lookup f)) end, tm_lags tm).
Proof.
  intros HC NE L1 L0 D f Hc Hl. unfold predict_input.
  assert (DF : s_lags src && match tm_lags tm with None => true | Some _ => false end
               && match tm_cols tm with None => true | Some _ => false end = false).
  { rewrite HC. apply andb_false_r. }
  rewrite DF.
  assert (R : resolve_lag_cols custom src tm None = Ok (tm_lags tm)).
  { unfold resolve_lag_cols. destruct (s_lags src); cbn; [|now rewrite L0].
    destruct (tm_lags tm); [reflexivity|]. now contradiction L1. }
  rewrite R. fold f.
  destruct (lookup_some (d_cols d) 0 D) as (v0 & E0). unfold date. rewrite E0.
  assert (M : forall c, lookup f c <> None -> negb (mem c (names f)) = false).
  { intros c H. apply negb_false_iff, mem_in. destruct (mem c (names f)) eqn:E; [now apply mem_in|].
    apply mem_not, lookup_none in E. contradiction. }
  assert (F1 : find (fun c => negb (mem c (names f))) (match tm_lags tm with Some l => l | None => [] end) = None).
  { apply find_none_in. intros c H. apply M. destruct (tm_lags tm) as [l|]; [|contradiction]. now apply (Hl l c). }
  assert (F2 : find (fun c => negb (mem c (names f))) cols = None).
  { apply find_none_in. intros c H. apply M, Hc, H. }
  assert (NF : to_frame cols (lookup f) <> []).
  { destruct cols as [|c cols]; [contradiction|]. destruct (lookup f c) as [v|] eqn:E.
    - intros H. assert (In (c, v) (to_frame (c :: cols) (lookup f))) as K.
      { apply to_frame_in. split; [now left | exact E]. }
      rewrite H in K. contradiction.
    - contradiction (Hc c (or_introl eq_refl)). }
  rewrite F1, HC, F2.
  destruct (lookup f 0); destruct (s_fn src) as [fn|] eqn:EF; destruct cols as [|c cols]; try contradiction;
    unfold prepare_input_data; rewrite ?EF; destruct (to_frame (c :: cols) (lookup f)); try contradiction; reflexivity.
Qed.

Lemma fetched_cols_recorded custom src tm cols l c :
  tm_cols tm = Some cols -> s_fn src = None -> 
  (In c cols \/ exists k, l = Some k /\ In c k) -> mem c (fetched_cols custom src tm l) = true.
Proof.
  intros HC HF H. unfold fetched_cols. rewrite HC, HF. apply mem_in, fromkeys_in, in_or_app. right.
  cbn. right. apply in_or_app. destruct H as [H|(k & -> & H)]; auto.
Qed.

Lemma same_columns custom src d sv tm :
  usable d -> no_clash src d -> ~ In 1 (s_lag_cols src) ->
  train custom src d sv Bare = Ok tm ->
  predict_input custom src tm d
  = Ok (match s_fn src with
        | None => without_symbol (train_frame custom src d sv)
        | Some fn => fn (without_symbol (train_frame custom src d sv))
        end, tm_lags tm).
Proof.
  intros (ND & D0 & D1) N NL H. destruct (train_ok _ _ _ _ _ _ H) as (HC & L0 & L1).
  rewrite infer_is in HC by exact N. set (cols := filter _ _) in HC.
  assert (IN : forall c, In c cols <-> In c (train_columns custom src d) /\ c <> 1).
  { intros c. unfold cols. now rewrite filter_In, negb_true_iff, Nat.eqb_neq. }
  assert (I0 : In 0 cols). { apply IN. split; [|discriminate]. apply columns_in. tauto. }
  set (f := fetched src d (fetched_cols custom src tm (tm_lags tm))).
  (* columns of the training frame that are not indicators are fetched *)
  assert (G : forall c, In c cols \/ (exists k, tm_lags tm = Some k /\ In c k) -> In c cols ->
                        lookup f c = train_array src d sv c).
  { intros c W Hc. apply IN in Hc. destruct Hc as (Hc & E1). unfold f. rewrite fetched_lookup.
    rewrite train_array_plain by assumption. destruct (mem c (s_inds src)) eqn:M; [reflexivity|].
    assert (K : mem c (fetched_cols custom src tm (tm_lags tm)) = true).
    { destruct (s_fn src) eqn:EF; [|now apply (fetched_cols_recorded custom src tm cols)].
      unfold fetched_cols. rewrite HC, EF. apply mem_in, ordered_in.
      apply columns_in in Hc. apply mem_not in M. destruct Hc as [[Hc _]|[->|[Hc|Hc]]]; try tauto. now left. }
    now rewrite K. }
  assert (S : forall c, In c cols -> train_array src d sv c <> None).
  { intros c Hc. apply IN in Hc. destruct Hc as (Hc & E1). rewrite train_array_plain by assumption.
    destruct (mem c (s_inds src)) eqn:M; [discriminate|]. rewrite lookup_none. apply mem_not in M.
    apply columns_in in Hc. destruct Hc as [[Hc _]|[->|[Hc|Hc]]]; try tauto. }
  assert (LG : forall l c, tm_lags tm = Some l -> In c l -> In c cols).
  { intros l c E Hc. destruct (s_lags src); [|rewrite L0 in E by reflexivity; discriminate].
    destruct (L1 eq_refl) as (l' & E' & W). rewrite E in E'. injection E' as <-. apply IN.
    destruct W as [(_ & ->)|(_ & -> & W)].
    - apply default_lags_in in Hc. destruct Hc as (Hc & _ & HI & HP). split; [exact Hc|]. intros ->.
      apply columns_in in Hc. destruct Hc as [[_ Hc]|[Hc|[Hc|Hc]]]; [now apply HP | discriminate | tauto | contradiction].
    - split; [now apply W|]. intros ->. contradiction. }
  rewrite (predict_recorded custom src tm d cols); [| exact HC | intros E; rewrite E in I0; contradiction | | exact L0 | exact D0 | |].
  - assert (Q : to_frame cols (lookup f) = without_symbol (train_frame custom src d sv)).
    { unfold train_frame, to_frame. rewrite (fromkeys_id (train_columns custom src d)) by apply columns_nodup.
      rewrite fromkeys_id by (apply NoDup_filter, columns_nodup). unfold cols.
      apply flat_without. intros c Hc E. apply G; [left|]; now apply IN. }
    fold f. now rewrite Q.
  - intros E. destruct (L1 E) as (l & -> & _). discriminate.
  - intros c Hc. fold f. rewrite G by auto. now apply S.
  - intros l c E Hc. fold f. pose proof (LG l c E Hc) as K. rewrite G by auto. now apply S.
Qed.

Lemma training_frame custom src d sv : usable d -> no_clash src d ->
  NoDup (map fst (train_frame custom src d sv))
  /\ forall c v, In (c, v) (train_frame custom src d sv) <->
       (s_pooled src = true /\ c = 1 /\ v = sv)
       \/ (registered custom c /\ In (c, v) (d_cols d)) \/ (In c (s_inds src) /\ v = d_ind d c).
Proof.
  intros (ND & D0 & D1) N. split; [apply to_frame_nodup|]. intros c v. unfold train_frame.
  rewrite to_frame_in, columns_in. destruct (Nat.eq_dec c 1) as [->|E].
  - unfold train_array, symbol. cbn.
    assert (L : lookup (d_cols d) 1 = None) by (apply lookup_none; exact D1). rewrite L.
    assert (~ In 1 (s_inds src)) as HI by (intros H; destruct (N 1 H); congruence).
    pose proof HI as M. apply mem_not in M. rewrite M.
    assert (D : ~ In (1, v) (d_cols d)) by (intros H; apply (in_map fst) in H; contradiction).
    destruct (s_pooled src); split.
    + intros (_ & [= ->]). auto.
    + intros [(_ & _ & ->)|[H|H]]; [split; auto | tauto | tauto].
    + intros (_ & H). discriminate.
    + intros [(H & _)|[H|H]]; [discriminate | tauto | tauto].
  - rewrite train_array_plain by assumption. destruct (mem c (s_inds src)) eqn:M.
    + apply mem_in in M. destruct (N c M) as (_ & K).
      assert (D : ~ In (c, v) (d_cols d)) by (intros H; apply (in_map fst) in H; contradiction).
      split; [intros (_ & [= <-]); auto|]. intros [H|[H|(_ & ->)]]; [tauto | tauto | auto].
    + apply mem_not in M. split.
      * intros (H & L). apply lookup_in in L. right. left. split; [|exact L].
        destruct H as [H|[->|[H|H]]]; try tauto. now left.
      * intros [H|[(R & H)|H]]; [tauto | | tauto]. split; [|now apply in_lookup].
        right. right. left. repeat split; auto. now apply (in_map fst) in H.
Qed.

Lemma trained_lags custom src d sv a tm : usable d -> no_clash src d -> train custom src d sv a = Ok tm ->
  tm_lags tm =
  if s_lags src then
    Some (match s_lag_cols src with
          | [] => filter (fun c => negb (Nat.eqb c 0) && negb (Nat.eqb c 1) && negb (existsb (Nat.eqb c) (s_inds src)))
                    (map fst (train_frame custom src d sv))
          | l => l
          end)
  else None.
Proof.
  intros U N H. destruct (train_ok _ _ _ _ _ _ H) as (_ & L0 & L1).
  destruct (s_lags src); [|auto]. destruct (L1 eq_refl) as (l & -> & [(E & ->)|(E & -> & _)]).
  2:{ destruct (s_lag_cols src); [contradiction | reflexivity]. }
  rewrite E. f_equal. unfold default_lag_cols. rewrite infer_is by exact N. rewrite filter_filter.
  unfold train_frame. rewrite to_frame_names, fromkeys_id by apply columns_nodup. rewrite filter_filter.
  apply filter_same. intros c Hc. fold (mem c (s_inds src)). unfold date.
  destruct (Nat.eqb_spec c 1) as [->|E1]; cbn; [now rewrite andb_false_r|]. rewrite andb_true_r.
  destruct (Nat.eqb_spec c 0) as [->|E0]; cbn; [now rewrite andb_false_r|].
  destruct (mem c (s_inds src)) eqn:M; cbn; [now rewrite andb_false_r|]. rewrite andb_true_r.
  rewrite train_array_plain by assumption. rewrite M. destruct (lookup (d_cols d) c) eqn:L; [reflexivity|].
  exfalso. apply lookup_none in L. apply mem_not in M. apply columns_in in Hc. tauto.
Qed.

(** What is fetched for a model with recorded columns. *)
Lemma recorded_lookup custom src tm d cols c :
  tm_cols tm = Some cols -> s_fn src = None ->
  (In c cols \/ exists k, tm_lags tm = Some k /\ In c k) ->
  lookup (fetched src d (fetched_cols custom src tm (tm_lags tm))) c
  = if mem c (s_inds src) then Some (d_ind d c) else lookup (d_cols d) c.
Proof.
  intros HC HF H. rewrite fetched_lookup. now rewrite (fetched_cols_recorded custom src tm cols).
Qed.
Lemma present_some src d c : In c (s_inds src) \/ In c (map fst (d_cols d)) ->
  (if mem c (s_inds src) then Some (d_ind d c) else lookup (d_cols d) c) <> None.
Proof.
  intros H. destruct (mem c (s_inds src)) eqn:M; [discriminate|].
  rewrite lookup_none. apply mem_not in M. destruct H; [contradiction | tauto].
Qed.

Lemma explicit custom src tm d cols :
  usable d -> tm_cols tm = Some cols -> cols <> [] -> s_fn src = None ->
  (s_lags src = true -> tm_lags tm <> None) -> (s_lags src = false -> tm_lags tm = None) ->
  (forall l c, tm_lags tm = Some l -> In c l -> In c (s_inds src) \/ In c (map fst (d_cols d))) ->
  (forall c, In c cols -> In c (s_inds src) \/ In c (map fst (d_cols d))) ->
  exists f, predict_input custom src tm d = Ok (f, tm_lags tm)
    /\ NoDup (map fst f) /\ (NoDup cols -> map fst f = cols)
    /\ forall c v, In (c, v) f <-> In c cols /\ holds src d c v.
Proof.
  intros (ND & D0 & D1) HC NE HF HL1 HL0 HT HP.
  set (g := fetched src d (fetched_cols custom src tm (tm_lags tm))).
  assert (G : forall c, In c cols -> lookup g c = if mem c (s_inds src) then Some (d_ind d c) else lookup (d_cols d) c).
  { intros c Hc. apply (recorded_lookup custom src tm d cols); auto. }
  assert (S : forall c, In c cols -> lookup g c <> None).
  { intros c Hc. rewrite G by exact Hc. now apply present_some, HP. }
  exists (to_frame cols (lookup g)). split; [|split; [|split]].
  - rewrite (predict_recorded custom src tm d cols); auto.
    + fold g. rewrite HF. reflexivity.
    + intros l c E Hc. rewrite (recorded_lookup custom src tm d cols) by eauto. apply present_some. eauto.
  - apply to_frame_nodup.
  - intros N. rewrite to_frame_names, fromkeys_id by exact N. apply filter_all. intros c Hc.
    pose proof (S c Hc). destruct (lookup g c); [reflexivity | contradiction].
  - intros c v. rewrite to_frame_in. split; intros (Hc & H); split; auto.
    + rewrite G in H by exact Hc. unfold holds. destruct (mem c (s_inds src)) eqn:M.
      * left. apply mem_in in M. injection H as <-. auto.
      * right. apply mem_not in M. split; [exact M | now apply lookup_in].
    + rewrite G by exact Hc. destruct H as [(H & ->)|(H & K)].
      * apply mem_in in H. now rewrite H.
      * apply mem_not in H. rewrite H. now apply in_lookup.
Qed.

Lemma explicit_missing custom src tm d cols :
  usable d -> tm_cols tm = Some cols -> s_fn src = None ->
  (s_lags src = true -> tm_lags tm <> None) -> (s_lags src = false -> tm_lags tm = None) ->
  (forall l c, tm_lags tm = Some l -> In c l -> In c (s_inds src) \/ In c (map fst (d_cols d))) ->
  (exists c, In c cols /\ ~ In c (s_inds src) /\ ~ In c (map fst (d_cols d))) ->
  exists c, predict_input custom src tm d = Err (EMissing c) /\ In c cols
    /\ ~ In c (s_inds src) /\ ~ In c (map fst (d_cols d)).
Proof.
  intros (ND & D0 & D1) HC HF HL1 HL0 HT (c & Hc & NI & NDc). unfold predict_input.
  assert (DF : s_lags src && match tm_lags tm with None => true | Some _ => false end
               && match tm_cols tm with None => true | Some _ => false end = false).
  { rewrite HC. apply andb_false_r. }
  rewrite DF.
  assert (R : resolve_lag_cols custom src tm None = Ok (tm_lags tm)).
  { unfold resolve_lag_cols. destruct (s_lags src); cbn; [|now rewrite HL0].
    destruct (tm_lags tm); [reflexivity|]. now contradiction HL1. }
  rewrite R. set (g := fetched src d (fetched_cols custom src tm (tm_lags tm))).
  destruct (lookup_some (d_cols d) 0 D0) as (v0 & E0). unfold date. rewrite E0.
  assert (F1 : find (fun c => negb (mem c (names g))) (match tm_lags tm with Some l => l | None => [] end) = None).
  { apply find_none_in. intros x H. destruct (tm_lags tm) as [l|] eqn:E; [|contradiction].
    apply negb_false_iff. destruct (mem x (names g)) eqn:M; [reflexivity|]. exfalso.
    apply mem_not, lookup_none in M. revert M. unfold g. rewrite <- E.
    rewrite (recorded_lookup custom src tm d cols) by eauto. apply present_some. eauto. }
  rewrite F1, HC.
  destruct (find (fun x => negb (mem x (names g))) cols) as [x|] eqn:F.
  - exists x. apply find_some in F. destruct F as (Hx & F). apply negb_true_iff, mem_not in F.
    apply lookup_none in F. unfold g in F. rewrite (recorded_lookup custom src tm d cols) in F by auto.
    split; [destruct (lookup g 0); reflexivity|]. split; [exact Hx|].
    destruct (mem x (s_inds src)) eqn:M; [discriminate|]. apply mem_not in M. split; [exact M|].
    now apply lookup_none in F.
  - exfalso. pose proof (find_none _ _ F c Hc) as K. cbn in K. apply negb_false_iff, mem_in in K.
    destruct (lookup_some g c K) as (v & L). unfold g in L. rewrite (recorded_lookup custom src tm d cols) in L by auto.
    apply mem_not in NI. rewrite NI in L.
    assert (Z : lookup (d_cols d) c = None) by (apply lookup_none; exact NDc). congruence.
Qed.

(** Columns lagged in training are in the data or indicators. *)
Lemma trained_lags_present custom src d sv a tm l c : usable d -> ~ In 1 (s_lag_cols src) ->
  train custom src d sv a = Ok tm -> tm_lags tm = Some l -> In c l ->
  In c (s_inds src) \/ In c (map fst (d_cols d)).
Proof.
  intros (ND & D0 & D1) NL H E Hc. destruct (train_ok _ _ _ _ _ _ H) as (_ & L0 & L1).
  destruct (s_lags src); [|rewrite L0 in E by reflexivity; discriminate].
  destruct (L1 eq_refl) as (l' & E' & W). rewrite E in E'. injection E' as <-.
  assert (K : In c (train_columns custom src d) /\ (c = 1 -> In 1 (s_inds src))).
  { destruct W as [(_ & ->)|(_ & -> & W)].
    - apply default_lags_in in Hc. destruct Hc as (Hc & _ & HI & HP). split; [exact Hc|]. intros ->.
      apply columns_in in Hc. destruct Hc as [[_ Hc]|[Hc|[Hc|Hc]]]; [now contradiction HP | discriminate | tauto | exact Hc].
    - split; [now apply W|]. intros ->. contradiction. }
  destruct K as (K & K1). apply columns_in in K. destruct K as [[-> _]|[->|[K|K]]]; auto. right. apply K.
Qed.

(** Recorded lag columns are the ones used. *)
Lemma lags_kept custom src tm d f k : predict_input custom src tm d = Ok (f, k) ->
  (s_lags src = false -> k = None) /\ (forall l, s_lags src = true -> tm_lags tm = Some l -> k = Some l).
Proof.
  intros H.
  assert (K : forall x, s_lags src && match tm_lags tm with None => true | Some _ => false end
                        && match tm_cols tm with None => true | Some _ => false end = false ->
                        resolve_lag_cols custom src tm None = Ok x -> k = x).
  { intros x DF R. unfold predict_input in H. rewrite DF, R in H. revert H.
    destruct (lookup _ date), (lookup (d_cols d) date); try discriminate;
      (destruct (find _ (match x with Some l => l | None => [] end)); [discriminate|]);
      destruct (tm_cols tm) as [[|c cols]|];
      repeat match goal with |- context [match find ?p ?l with _ => _ end] => destruct (find p l); [discriminate|] end;
      destruct (s_fn src);
      repeat match goal with |- context [match prepare_input_data ?y ?z with _ => _ end] => destruct (prepare_input_data y z); [|discriminate] end;
      intros H; injection H; congruence. }
  split.
  - intros E. apply K; [now rewrite E|]. unfold resolve_lag_cols. now rewrite E.
  - intros l E T0. apply K; [now rewrite T0, E|]. unfold resolve_lag_cols. now rewrite E, T0.
Qed.

(** A pretrained model that names no columns. *)
Lemma loaded_bare custom src d :
  usable d -> s_fn src = None -> s_lags src = false -> NoDup (s_inds src) -> 
  predict_input custom src (load src Bare) d = Ok (map (fun c => (c, d_ind d c)) (s_inds src), None).
Proof.
  intros (ND & D0 & D1) HF HL NI. unfold predict_input, resolve_lag_cols, load. rewrite HL. cbn [negb andb tm_cols tm_lags].
  unfold fetched_cols. cbn [tm_cols].
  set (g := fetched src d (ordered custom)).
  destruct (lookup_some (d_cols d) 0 D0) as (v0 & E0). unfold date. rewrite E0. cbn [find].
  assert (P : prepare_input_data src g = Ok (map (fun c => (c, d_ind d c)) (s_inds src))).
  { assert (L : forall c, lookup g c = if mem c (s_inds src) then Some (d_ind d c) else if mem c (ordered custom) then lookup (d_cols d) c else None)
      by (intros c; unfold g; apply fetched_lookup).
    assert (G0 : g <> []).
    { intros E. pose proof (L 0) as K. rewrite E in K. cbn in K.
      destruct (mem 0 (s_inds src)); [discriminate | congruence]. }
    unfold prepare_input_data. rewrite HF.
    assert (F : find (fun c => negb (mem c (names g))) (s_inds src) = None).
    { apply find_none_in. intros c Hc. apply negb_false_iff, mem_in.
      destruct (mem c (names g)) eqn:E; [now apply mem_in|]. apply mem_not, lookup_none in E. rewrite L in E.
      apply mem_in in Hc. rewrite Hc in E. discriminate. }
    rewrite F. destruct g as [|p g'] eqn:Eg; [contradiction|]. f_equal. unfold to_frame. rewrite fromkeys_id by exact NI.
    assert (K : forall l, (forall c, In c l -> In c (s_inds src)) ->
      flat_map (fun c => match lookup (p :: g') c with Some v => [(c, v)] | None => [] end) l = map (fun c => (c, d_ind d c)) l).
    { induction l as [|c l IH]; intros H; [reflexivity|]. cbn [flat_map map]. rewrite L.
      assert (M : mem c (s_inds src) = true) by (apply mem_in, H; now left). rewrite M, IH; [reflexivity|].
      intros x Hx. apply H. now right. }
    apply K. auto. }
  rewrite P. destruct (lookup g 0); reflexivity.
Qed.

(** The columns lagged by default are those a model trained with the same settings
    lags. *)
Lemma loaded_lags custom src d sv a tm l :
  usable d -> no_clash src d -> s_fn src = None -> s_lags src = true -> s_lag_cols src = [] ->
  train custom src d sv a = Ok tm -> tm_lags tm = Some l -> l <> [] ->
  exists f, predict_input custom src (load src Bare) d = Ok (f, Some l).
Proof.
  intros (ND & D0 & D1) N HF HL HC H HT NE. destruct (train_ok _ _ _ _ _ _ H) as (_ & _ & L1).
  destruct (L1 HL) as (l' & E & [(_ & E2)|(E2 & _)]); [|congruence].
  assert (E' : l = default_lag_cols custom (s_inds src) (train_columns custom src d) (s_pooled src)) by congruence.
  clear l' L1 E E2.
  unfold predict_input, load. rewrite HL, HC. cbn [negb andb tm_cols tm_lags].
  unfold resolve_lag_cols. rewrite HL. cbn [negb tm_lags]. unfold fetched_cols. cbn [tm_cols].
  set (g := fetched src d (ordered custom)).
  assert (NG : names g = fromkeys (filter (fun c => mem c (names (d_cols d))) (ordered custom) ++ s_inds src)).
  { unfold g. apply fetched_names. }
  assert (SAME : default_lag_cols custom (s_inds src) (names g) (s_pooled src) = l).
  { rewrite E', NG. unfold train_columns, model_input_columns.
    set (A := filter (fun c => mem c (names (d_cols d))) (ordered custom)).
    set (B := filter (fun c => negb (Nat.eqb c symbol || Nat.eqb c date) && mem c (names (d_cols d))) (ordered custom)).
    assert (HB : filter (fun c => negb (Nat.eqb c date)) (fromkeys (B ++ s_inds src))
                 = filter (fun c => negb (Nat.eqb c date)) (fromkeys (A ++ s_inds src))).
    { assert (Q : forall xs, filter (fun c => negb (Nat.eqb c date))
          (fromkeys (filter (fun c => negb (Nat.eqb c symbol || Nat.eqb c date) && mem c (names (d_cols d))) xs ++ s_inds src))
        = filter (fun c => negb (Nat.eqb c date)) (fromkeys (filter (fun c => mem c (names (d_cols d))) xs ++ s_inds src))).
      { induction xs as [|x xs IH]; [reflexivity|]. cbn [filter].
        destruct (Nat.eqb_spec x symbol) as [->|Ex]; cbn [orb negb andb].
        - assert (M : mem symbol (names (d_cols d)) = false) by (apply mem_not; exact D1). rewrite M. exact IH.
        - destruct (Nat.eqb_spec x date) as [->|Ey]; cbn [negb andb].
          + destruct (mem date (names (d_cols d))); [|exact IH]. cbn [app fromkeys filter]. rewrite Nat.eqb_refl. cbn [negb].
            rewrite IH, filter_filter. apply filter_same. intros c _. now destruct (Nat.eqb c date).
          + destruct (mem x (names (d_cols d))); [|exact IH]. cbn [app fromkeys filter].
            destruct (Nat.eqb_spec x date) as [?|_]; [contradiction|]. cbn [negb]. f_equal.
            rewrite !(filter_comm (fun c => negb (Nat.eqb c date)) (fun c => negb (Nat.eqb c x))).
            now rewrite IH. }
      apply Q. }
    assert (DL : forall columns, default_lag_cols custom (s_inds src) columns (s_pooled src)
      = filter (fun c => (mem c (ordered custom) || mem c (s_inds src)) && (negb (s_pooled src) || negb (Nat.eqb c symbol)) && negb (mem c (s_inds src)))
          (filter (fun c => negb (Nat.eqb c date)) columns)).
    { intros columns. unfold default_lag_cols, infer_input_cols. destruct (s_pooled src); cbn [negb orb].
      - rewrite !filter_filter. apply filter_same. intros c _.
        destruct (mem c (ordered custom)), (mem c (s_inds src)), (Nat.eqb c symbol), (Nat.eqb c date); reflexivity.
      - rewrite !filter_filter. apply filter_same. intros c _.
        destruct (mem c (ordered custom)), (mem c (s_inds src)), (Nat.eqb c date); reflexivity. }
    rewrite !DL.
    destruct (s_pooled src) eqn:P.
    - cbn [app fromkeys]. cbn [filter]. cbn [Nat.eqb symbol date negb].
      change (Nat.eqb symbol date) with false. change (Nat.eqb date date) with true. cbn [negb filter].
      rewrite Nat.eqb_refl. cbn [negb orb andb].
      change (Nat.eqb date symbol) with false. cbn [negb filter]. change (Nat.eqb date date) with true. cbn [negb].
      rewrite andb_false_r. cbn [andb].
      rewrite <- HB. rewrite !filter_filter. apply filter_same. intros c Hc.
      destruct (Nat.eqb_spec c date) as [->|E1]; cbn; [reflexivity|].
      destruct (Nat.eqb_spec c symbol) as [->|E2]; cbn; [now rewrite !andb_false_r|]. reflexivity.
    - cbn [app fromkeys filter]. change (Nat.eqb date date) with true. cbn [negb].
      rewrite <- HB. rewrite !filter_filter. apply filter_same. intros c _.
      destruct (Nat.eqb_spec c date) as [->|E1]; cbn; reflexivity. }
  rewrite SAME.
  destruct (lookup_some (d_cols d) 0 D0) as (v0 & E0). unfold date. rewrite E0.
  assert (RQ : require_lag_cols l = Ok (Some l)) by (destruct l; [contradiction | reflexivity]).
  rewrite RQ.
  assert (F : find (fun c => negb (mem c (names g))) l = None).
  { apply find_none_in. intros c Hc. rewrite <- SAME in Hc. apply default_lags_in in Hc.
    apply negb_false_iff, mem_in. tauto. }
  rewrite F.
  assert (PI : exists f, prepare_input_data src g = Ok f).
  { unfold prepare_input_data. rewrite HF. destruct g as [|p g'] eqn:EG; [eauto|].
    rewrite (find_none_in (fun c => negb (mem c (names (p :: g'))))); [eauto|].
    intros c Hc. apply negb_false_iff, mem_in. rewrite NG. apply fromkeys_in, in_or_app. now right. }
  destruct PI as (f & ->). exists f. destruct (lookup g 0); reflexivity.
Qed.

(** ** On a compressed interval *)
Lemma fromkeys_filter (p : nat -> bool) l : fromkeys (filter p l) = filter p (fromkeys l).
Proof.
  induction l as [|x l IH]; cbn; [reflexivity|]. destruct (p x) eqn:E; cbn; rewrite IH.
  - f_equal. apply filter_comm.
  - rewrite filter_comm. symmetry. apply filter_all. intros y Hy. apply filter_In in Hy.
    destruct (Nat.eqb_spec y x) as [->|]; [destruct Hy; congruence | reflexivity].
Qed.

Implicit Types b : cbars T.
Lemma built_is custom src b : built custom src b = compressed_arrays custom (s_inds src) b.
Proof. reflexivity. Qed.

Definition base_cols b : frame T :=
  let f := map (fun c => (c, cb_fixed b c)) [0; 2; 3; 4; 5; 6] in
  match cb_vwap b with Some v => dset f 7 v | None => f end.
Lemma base_lookup b c v : lookup (base_cols b) c = Some v <->
  ((c = 0 \/ 2 <= c <= 6) /\ v = cb_fixed b c) \/ (c = 7 /\ cb_vwap b = Some v).
Proof.
  assert (K : lookup (base_cols b) c = if mem c [0; 2; 3; 4; 5; 6] then Some (cb_fixed b c)
                                       else if Nat.eqb c 7 then cb_vwap b else None).
  { unfold base_cols. destruct (cb_vwap b) as [w|].
    - rewrite dset_lookup. do 8 (destruct c as [|c]; [reflexivity|]). reflexivity.
    - do 8 (destruct c as [|c]; [reflexivity|]). reflexivity. }
  rewrite K. destruct (mem c [0; 2; 3; 4; 5; 6]) eqn:M.
  - apply mem_in in M. cbn in M. split; [intros [= <-]; left; split; [lia | reflexivity]|].
    intros [(_ & ->)|(-> & _)]; [reflexivity | lia].
  - apply mem_not in M. cbn in M. destruct (Nat.eqb_spec c 7) as [->|E].
    + split; [auto|]. intros [(H & _)|(_ & H)]; [lia | exact H].
    + split; [discriminate|]. intros [(H & _)|(H & _)]; [lia | contradiction].
Qed.

Lemma compressed_lookup custom inds b c :
  lookup (compressed_arrays custom inds b) c
  = if mem c inds then Some (cb_ind b c)
    else match lookup (cb_custom b) c with
         | Some v => if mem c custom then Some v else lookup (base_cols b) c
         | None => lookup (base_cols b) c
         end.
Proof.
  unfold compressed_arrays. rewrite (ind_fold_lookup (mk_data (cb_custom b) (cb_ind b))). cbn [d_ind].
  destruct (mem c inds); [reflexivity|].
  exact (data_fold_lookup (mk_data (cb_custom b) (cb_ind b)) custom (base_cols b) c).
Qed.
Lemma compressed_in custom inds b c : In c (compressed_columns custom inds b) <->
  (c = 0 \/ 2 <= c <= 6) \/ (c = 7 /\ cb_vwap b <> None) \/ (In c custom /\ In c (names (cb_custom b))) \/ In c inds.
Proof.
  unfold compressed_columns. rewrite !in_app_iff, filter_In, mem_in. unfold date. cbn [In].
  destruct (cb_vwap b); cbn [In].
  - assert (Some t <> None) by discriminate. intuition lia.
  - intuition lia.
Qed.
Lemma compressed_some custom inds b c : In c (compressed_columns custom inds b) ->
  lookup (compressed_arrays custom inds b) c <> None.
Proof.
  intros H. rewrite compressed_lookup. destruct (mem c inds) eqn:M; [discriminate|]. apply mem_not in M.
  apply compressed_in in H.
  assert (B : lookup (base_cols b) c = None -> ~ (c = 0 \/ 2 <= c <= 6) /\ ~ (c = 7 /\ cb_vwap b <> None)).
  { intros E. split.
    - intros H1. assert (lookup (base_cols b) c = Some (cb_fixed b c)) by (apply base_lookup; auto). congruence.
    - intros (-> & H1). destruct (cb_vwap b) as [v|] eqn:V; [|contradiction].
      assert (lookup (base_cols b) 7 = Some v) by (apply base_lookup; auto). congruence. }
  destruct (lookup (cb_custom b) c) as [v|] eqn:L.
  - destruct (mem c custom) eqn:N; [discriminate|]. apply mem_not in N. intros E. apply B in E. tauto.
  - apply lookup_none in L. intros E. apply B in E. tauto.
Qed.

Section Interval.
Context (custom : list nat) (src : source T) (b : cbars T) (ACC : accepted custom src).
Lemma interval_in c : In c (interval_columns custom src b) <->
  In c (compressed_columns custom (s_inds src) b) \/ (c = 1 /\ s_pooled src = true).
Proof.
  unfold interval_columns. rewrite in_app_iff. unfold symbol. destruct (s_pooled src); cbn; intuition congruence.
Qed.
Lemma compressed_not_symbol : ~ In 1 (compressed_columns custom (s_inds src) b).
Proof.
  rewrite compressed_in. destruct ACC as (O & N). intros [H|[H|[(H & _)|H]]]; try lia.
  - apply O in H. lia.
  - destruct (N 1 H). congruence.
Qed.
Lemma interval_infer :
  infer_input_cols custom (s_inds src) (interval_columns custom src b) (s_pooled src)
  = filter (fun c => negb (Nat.eqb c 1)) (interval_columns custom src b).
Proof.
  unfold infer_input_cols.
  assert (K : forall c, In c (interval_columns custom src b) -> c <> 1 ->
                        mem c (ordered custom) || mem c (s_inds src) = true).
  { intros c H E. apply interval_in in H. destruct H as [H|(H & _)]; [|contradiction].
    apply orb_true_iff. rewrite !mem_in, ordered_in. unfold registered. apply compressed_in in H. intuition lia. }
  destruct (s_pooled src) eqn:P.
  - rewrite filter_filter. apply filter_same. intros c H. unfold symbol.
    destruct (Nat.eqb_spec c 1) as [->|E]; [apply andb_false_r|]. now rewrite (K c H E).
  - apply filter_same. intros c H. destruct (Nat.eqb_spec c 1) as [->|E]; cbn; [|exact (K c H E)].
    exfalso. apply interval_in in H. destruct H as [H|(_ & H)]; [now apply compressed_not_symbol in H | congruence].
Qed.

Lemma train_interval_ok sv a tm : train_interval custom src b sv a = Ok tm ->
  tm_cols tm = Some (match a with With cols => cols | Bare => infer_input_cols custom (s_inds src) (interval_columns custom src b) (s_pooled src) end)
  /\ (s_lags src = false -> tm_lags tm = None)
  /\ (s_lags src = true -> exists l, tm_lags tm = Some l
      /\ ((s_lag_cols src = [] /\ l = default_lag_cols custom (s_inds src) (interval_columns custom src b) (s_pooled src))
          \/ (s_lag_cols src <> [] /\ l = s_lag_cols src
              /\ forall c, In c l -> interval_array custom src b sv c <> None))).
Proof.
  unfold train_interval. destruct (s_lags src) eqn:L.
  2:{ intros [= <-]. cbn. repeat split; auto. discriminate. }
  unfold lag_feature_cols. destruct (s_lag_cols src) as [|x xs] eqn:C.
  - intros [= <-]. cbn. repeat split; try discriminate. intros _. eexists. split; [reflexivity|]. now left.
  - set (p := fun c => negb _). destruct (find p (x :: xs)) eqn:F; [discriminate|].
    intros [= <-]. cbn. repeat split; try discriminate. intros _. eexists. split; [reflexivity|]. right.
    split; [discriminate|]. split; [reflexivity|]. intros c Hc.
    pose proof (find_none p (x :: xs) F c Hc) as H. unfold p in H. apply negb_false_iff in H.
    destruct (interval_array custom src b sv c); [discriminate | discriminate].
Qed.

Lemma interval_same sv tm : ~ In 1 (s_lag_cols src) ->
  train_interval custom src b sv Bare = Ok tm ->
  predict_interval custom src tm b
  = Ok (match s_fn src with
        | None => without_symbol (interval_frame custom src b sv)
        | Some fn => fn (without_symbol (interval_frame custom src b sv))
        end, tm_lags tm).
Proof.
  intros NL H. destruct (train_interval_ok _ _ _ H) as (HC & L0 & L1). rewrite interval_infer in HC.
  set (cols := filter _ _) in HC.
  assert (IN : forall c, In c cols <-> In c (compressed_columns custom (s_inds src) b)).
  { intros c. unfold cols. rewrite filter_In, negb_true_iff, Nat.eqb_neq, interval_in.
    pose proof compressed_not_symbol. split; [tauto|]. intros K. split; [auto|]. intros ->. contradiction. }
  set (f := built custom src b).
  assert (SM : forall c, In c cols -> lookup f c <> None) by (intros c Hc; apply compressed_some, IN, Hc).
  assert (LG : forall l c, tm_lags tm = Some l -> In c l -> lookup f c <> None).
  { intros l c E Hc. destruct (s_lags src); [|rewrite L0 in E by reflexivity; discriminate].
    destruct (L1 eq_refl) as (l' & E' & W). rewrite E in E'. injection E' as <-.
    destruct W as [(_ & ->)|(_ & -> & W)].
    - apply default_lags_in in Hc. destruct Hc as (Hc & _ & _ & HP). apply interval_in in Hc.
      destruct Hc as [Hc|(-> & P)]; [now apply compressed_some | now contradiction HP].
    - specialize (W c Hc). unfold interval_array in W. destruct (Nat.eqb_spec c symbol) as [->|_]; [contradiction|]. exact W. }
  assert (M : forall c, lookup f c <> None -> negb (mem c (names f)) = false).
  { intros c K. apply negb_false_iff. destruct (mem c (names f)) eqn:E; [reflexivity|].
    apply mem_not, lookup_none in E. contradiction. }
  assert (R : resolve_lag_cols custom src tm (Some (names f)) = Ok (tm_lags tm)).
  { unfold resolve_lag_cols. destruct (s_lags src); cbn [negb]; [|now rewrite L0].
    destruct (L1 eq_refl) as (l & -> & _). reflexivity. }
  unfold predict_interval. fold f. rewrite R.
  assert (F1 : find (fun c => negb (mem c (names f))) (match tm_lags tm with Some l => l | None => [] end) = None).
  { apply find_none_in. intros c K. apply M. destruct (tm_lags tm) as [l|]; [|contradiction]. now apply (LG l c). }
  assert (F2 : find (fun c => negb (mem c (names f))) cols = None).
  { apply find_none_in. intros c K. apply M, SM, K. }
  assert (Q : to_frame cols (lookup f) = without_symbol (interval_frame custom src b sv)).
  { unfold interval_frame, to_frame, cols. rewrite fromkeys_filter. apply flat_without.
    intros c Hc E. unfold interval_array. destruct (Nat.eqb_spec c symbol); [contradiction|]. reflexivity. }
  assert (I0 : In 0 cols) by (apply IN, compressed_in; auto).
  assert (NF : to_frame cols (lookup f) <> []).
  { destruct (lookup f 0) as [v|] eqn:E; [|now contradiction (SM 0)].
    intros K. assert (In (0, v) (to_frame cols (lookup f))) as K' by (apply to_frame_in; auto).
    rewrite K in K'. contradiction. }
  rewrite F1, HC, F2. rewrite <- Q.
  assert (PF : forall fn, s_fn src = Some fn -> prepare_input_data src (to_frame cols (lookup f)) = Ok (fn (to_frame cols (lookup f)))).
  { intros fn EF. unfold prepare_input_data. rewrite EF. destruct (to_frame cols (lookup f)); [contradiction | reflexivity]. }
  destruct cols as [|c0 cs]; [contradiction|].
  destruct (s_fn src) as [fn|]; [|reflexivity].
  now rewrite (PF fn).
Qed.

Lemma interval_frame_is sv : NoDup (names (cb_custom b)) ->
  NoDup (map fst (interval_frame custom src b sv))
  /\ forall c v, In (c, v) (interval_frame custom src b sv) <->
       (s_pooled src = true /\ c = 1 /\ v = sv)
       \/ ((c = 0 \/ 2 <= c <= 6) /\ v = cb_fixed b c) \/ (c = 7 /\ cb_vwap b = Some v)
       \/ (In c custom /\ In (c, v) (cb_custom b)) \/ (In c (s_inds src) /\ v = cb_ind b c).
Proof.
  intros ND. split; [apply to_frame_nodup|]. intros c v. unfold interval_frame. rewrite to_frame_in, interval_in.
  pose proof compressed_not_symbol as NS. destruct ACC as (O & N). unfold interval_array.
  destruct (Nat.eqb_spec c symbol) as [->|E]; cbn [andb].
  - assert (NI : ~ In 1 (s_inds src)) by (intros H; destruct (N 1 H); congruence).
    assert (NC : ~ In 1 custom) by (intros H; apply O in H; lia).
    unfold symbol. destruct (s_pooled src).
    + split; [intros (_ & [= ->]); auto|]. intros [(_ & _ & ->)|[(H & _)|[(H & _)|[(H & _)|(H & _)]]]]; try lia; try contradiction; auto.
    + split; [intros ([H|(_ & H)] & _); [contradiction | discriminate]|].
      intros [(H & _)|[(H & _)|[(H & _)|[(H & _)|(H & _)]]]]; try lia; try contradiction; discriminate.
  - unfold symbol in E. rewrite compressed_lookup.
    assert (X : forall P : Prop, (In c (compressed_columns custom (s_inds src) b) \/ c = 1 /\ s_pooled src = true) /\ P
                <-> In c (compressed_columns custom (s_inds src) b) /\ P) by (intros; tauto).
    rewrite X, compressed_in. clear X.
    destruct (mem c (s_inds src)) eqn:M.
    + apply mem_in in M. destruct (N c M) as (NR & _). unfold registered in NR. split.
      * intros (_ & [= <-]). tauto.
      * intros [H|[(H & _)|[(H & _)|[(H & _)|(_ & ->)]]]]; try (exfalso; tauto || lia). auto.
    + apply mem_not in M. destruct (lookup (cb_custom b) c) as [w|] eqn:L.
      * pose proof (lookup_in _ _ _ L) as LI. destruct (mem c custom) eqn:MC.
        -- apply mem_in in MC. pose proof (O c MC). split.
           ++ intros (_ & [= <-]). auto 6.
           ++ intros [H1|[(H1 & _)|[(H1 & _)|[(_ & H1)|(H1 & _)]]]]; try lia; try contradiction.
              apply (in_lookup _ _ _ ND) in H1. split; [|congruence].
              right. right. left. split; [exact MC|]. now apply (in_map fst) in LI.
        -- apply mem_not in MC. rewrite base_lookup. split; [tauto|].
           intros [H1|[H1|[(H1 & H2)|[H1|H1]]]]; try tauto; try lia. split; [|auto]. right. left. rewrite H2. split; [exact H1 | discriminate].
      * apply lookup_none in L. rewrite base_lookup. split; [tauto|].
        intros [H1|[H1|[(H1 & H2)|[(_ & H1)|H1]]]]; try tauto; try lia.
        -- split; [|auto]. right. left. rewrite H2. split; [exact H1 | discriminate].
        -- apply (in_map fst) in H1. contradiction.
Qed.
Lemma compressed_only inds c v : lookup (compressed_arrays custom inds b) c = Some v ->
  In c (compressed_columns custom inds b).
Proof.
  rewrite compressed_lookup, compressed_in. destruct (mem c inds) eqn:M; [apply mem_in in M; auto|].
  assert (B : lookup (base_cols b) c = Some v -> (c = 0 \/ 2 <= c <= 6) \/ (c = 7 /\ cb_vwap b <> None)).
  { intros H. apply base_lookup in H. destruct H as [(H & _)|(H & E)]; [auto|]. right. rewrite E. split; [exact H | discriminate]. }
  destruct (lookup (cb_custom b) c) as [w|] eqn:L; [|intros H; apply B in H; tauto].
  destruct (mem c custom) eqn:N; [|intros H; apply B in H; tauto].
  intros _. apply mem_in in N. apply lookup_in, (in_map fst) in L. auto.
Qed.
Lemma plain_frame sv c v : In (c, v) (without_symbol (interval_frame custom src b sv)) <->
  lookup (built custom src b) c = Some v.
Proof.
  unfold without_symbol. rewrite filter_In. cbn [fst]. unfold interval_frame. rewrite to_frame_in, interval_in.
  rewrite negb_true_iff, Nat.eqb_neq. unfold interval_array, symbol.
  change (built custom src b) with (compressed_arrays custom (s_inds src) b). split.
  - intros ((_ & H) & E). destruct (Nat.eqb_spec c 1); [contradiction|]. exact H.
  - intros H. pose proof (compressed_only _ _ _ H) as K.
    assert (E : c <> 1) by (intros ->; now apply compressed_not_symbol in K).
    destruct (Nat.eqb_spec c 1); [contradiction|]. auto.
Qed.
Lemma plain_names sv c : In c (map fst (without_symbol (interval_frame custom src b sv))) <->
  lookup (built custom src b) c <> None.
Proof.
  rewrite in_map_iff. split.
  - intros ((c' & v) & <- & H). apply plain_frame in H. cbn. congruence.
  - intros H. destruct (lookup (built custom src b) c) as [v|] eqn:E; [|contradiction]. exists (c, v). split; [reflexivity|]. now apply (plain_frame sv).
Qed.

Lemma interval_named sv tm cols : ~ In 1 (s_lag_cols src) -> cols <> [] -> s_fn src = None ->
  train_interval custom src b sv (With cols) = Ok tm ->
  let w := without_symbol (interval_frame custom src b sv) in
  ((forall c, In c cols -> In c (map fst w)) ->
   exists f, predict_interval custom src tm b = Ok (f, tm_lags tm)
     /\ NoDup (map fst f) /\ (NoDup cols -> map fst f = cols)
     /\ forall c v, In (c, v) f <-> In c cols /\ In (c, v) w)
  /\ ((exists c, In c cols /\ ~ In c (map fst w)) ->
      exists c, predict_interval custom src tm b = Err (EMissing c) /\ In c cols /\ ~ In c (map fst w)).
Proof.
  intros NL NE HF H w. destruct (train_interval_ok _ _ _ H) as (HC & L0 & L1).
  set (f := built custom src b).
  assert (LG : forall l c, tm_lags tm = Some l -> In c l -> lookup f c <> None).
  { intros l c E Hc. destruct (s_lags src); [|rewrite L0 in E by reflexivity; discriminate].
    destruct (L1 eq_refl) as (l' & E' & W). rewrite E in E'. injection E' as <-.
    destruct W as [(_ & ->)|(_ & -> & W)].
    - apply default_lags_in in Hc. destruct Hc as (Hc & _ & _ & HP). apply interval_in in Hc.
      destruct Hc as [Hc|(-> & P)]; [now apply compressed_some | now contradiction HP].
    - specialize (W c Hc). unfold interval_array in W. destruct (Nat.eqb_spec c symbol) as [->|_]; [contradiction|]. exact W. }
  assert (M : forall c, lookup f c <> None <-> negb (mem c (names f)) = false).
  { intros c. rewrite negb_false_iff. destruct (mem c (names f)) eqn:E.
    - split; [auto|]. intros _ K. apply lookup_none in K. apply mem_in in E. contradiction.
    - apply mem_not, lookup_none in E. split; [contradiction | discriminate]. }
  assert (R : resolve_lag_cols custom src tm (Some (names f)) = Ok (tm_lags tm)).
  { unfold resolve_lag_cols. destruct (s_lags src); cbn [negb]; [|now rewrite L0].
    destruct (L1 eq_refl) as (l & -> & _). reflexivity. }
  unfold predict_interval. fold f. rewrite R.
  assert (F1 : find (fun c => negb (mem c (names f))) (match tm_lags tm with Some l => l | None => [] end) = None).
  { apply find_none_in. intros c K. apply M. destruct (tm_lags tm) as [l|]; [|contradiction]. now apply (LG l c). }
  rewrite F1, HC. split.
  - intros P.
    assert (F2 : find (fun c => negb (mem c (names f))) cols = None).
    { apply find_none_in. intros c K. apply M, (plain_names sv), P, K. }
    rewrite F2. exists (to_frame cols (lookup f)).
    destruct cols as [|c0 cs] eqn:EC; [contradiction|]. rewrite HF. rewrite <- EC in *. split; [reflexivity|]. split; [apply to_frame_nodup|]. split.
    + intros N. rewrite to_frame_names, fromkeys_id by exact N. apply filter_all. intros c Hc.
      assert (K : lookup f c <> None) by (apply (plain_names sv), P, Hc). destruct (lookup f c); [reflexivity | contradiction].
    + intros c v. rewrite to_frame_in. unfold w. now rewrite plain_frame.
  - intros (c & Hc & N).
    destruct (find (fun x => negb (mem x (names f))) cols) as [x|] eqn:F.
    + exists x. apply find_some in F. destruct F as (Hx & F). split; [reflexivity|]. split; [exact Hx|].
      intros K. apply (plain_names sv), M in K. congruence.
    + exfalso. pose proof (find_none _ _ F c Hc) as K. apply M, (plain_names sv) in K. contradiction.
Qed.
End Interval.
End Proofs.
