From Verif Require Export FrameSpec LagProofs.

Lemma fmap_r_ok {A B} (f : A -> fresult B) l ys : fmap_r f l = FOk ys <-> Forall2 (fun x y => f x = FOk y) l ys.
Proof.
  revert ys. induction l as [|x r IH]; intros ys; cbn [fmap_r].
  - split; [intros E; inversion E; constructor|intros F; inversion F; reflexivity].
  - split.
    + intros E. destruct (f x) as [y|e] eqn:Fx; cbn [fbind] in E; [|discriminate]. destruct (fmap_r f r) as [zs|e] eqn:Fr; cbn [fbind] in E; [|discriminate].
      inversion E; subst. constructor; [exact Fx|]. apply IH. reflexivity.
    + intros F. inversion F as [|? y ? zs H1 H2]; subst. rewrite H1. cbn [fbind]. rewrite (proj2 (IH zs) H2). reflexivity.
Qed.
Lemma fmap_r_all {A B} (f : A -> fresult B) l : (forall x, In x l -> exists y, f x = FOk y) -> exists ys, fmap_r f l = FOk ys.
Proof.
  induction l as [|x r IH]; intros H; [eexists; reflexivity|]. destruct (H x (or_introl eq_refl)) as (y & Y).
  destruct IH as (ys & E); [intros z I; apply H; right; exact I|]. exists (y :: ys). cbn [fmap_r]. rewrite Y. cbn [fbind]. rewrite E. reflexivity.
Qed.

Lemma Forall2_impl {A B} (R S : A -> B -> Prop) l m : (forall x y, R x y -> S x y) -> Forall2 R l m -> Forall2 S l m.
Proof. intros H. induction 1; constructor; auto. Qed.

(** Indicators. *)
Lemma monotonic_cons x l : monotonic (x :: l) = true -> monotonic l = true /\ forall y, In y l -> (x <= y)%Z.
Proof.
  revert x. induction l as [|y l IH]; intros x M; [split; [reflexivity|intros ? []]|]. cbn [monotonic] in M.
  apply andb_true_iff in M. destruct M as (L & M). split; [exact M|]. apply Z.leb_le in L. intros z [<-|I]; [exact L|].
  destruct (IH y M) as (_ & G). specialize (G z I). lia.
Qed.
Lemma monotonic_nth l : monotonic l = true -> forall p q x y, p < q -> nth_error l p = Some x -> nth_error l q = Some y -> (x <= y)%Z.
Proof.
  induction l as [|z r IH]; intros M p q x y L Hp Hq; [destruct p; discriminate|]. destruct (monotonic_cons _ _ M) as (M' & Ge).
  destruct q as [|q]; [lia|]. cbn in Hq. destruct p as [|p]; cbn in Hp.
  - inversion Hp; subst. apply Ge. exact (nth_error_In _ _ Hq).
  - apply (IH M' p q); auto. lia.
Qed.
Lemma searchsorted_spec l d : monotonic l = true ->
  (forall q, q < searchsorted l d -> exists x, nth_error l q = Some x /\ (x < d)%Z) /\
  (forall q x, searchsorted l d <= q -> nth_error l q = Some x -> (d <= x)%Z).
Proof.
  induction l as [|x l IH]; intros M; [split; [intros q Hq; cbn in Hq; lia|intros q x _ E; destruct q; discriminate]|].
  destruct (monotonic_cons _ _ M) as (M' & Ge).
  destruct (IH M') as (A & B). cbn [searchsorted]. destruct (Z.ltb_spec x d) as [L|L].
  - split.
    + intros [|q] Hq; [exists x; auto|]. cbn. apply A. lia.
    + intros [|q] y Hq E; [lia|]. cbn in E. apply (B q); [lia|exact E].
  - split; [intros q Hq; lia|]. intros [|q] y _ E; cbn in E; [inversion E; lia|]. specialize (Ge y (nth_error_In _ _ E)). lia.
Qed.
Lemma find_spec l d : match find_date l d with
  | Some p => nth_error l p = Some d /\ forall q, q < p -> nth_error l q <> Some d
  | None => ~ In d l end.
Proof.
  induction l as [|x l IH]; cbn [find_date]; [tauto|]. destruct (Z.eqb_spec x d) as [->|N]; [split; [reflexivity|intros q Hq; lia]|].
  destruct (find_date l d) as [p|]; cbn [option_map].
  - destruct IH as (A & B). split; [exact A|]. intros [|q] Hq; [cbn; congruence|]. cbn. apply B. lia.
  - intros [E|I]; [congruence|exact (IH I)].
Qed.
Lemma indicator_spec s dates l : indicator_values s dates = FOk l -> Forall2 (value_at s) dates l.
Proof.
  unfold indicator_values. intros E. destruct dates as [|d0 ds]; [inversion E; constructor|]. set (dates := d0 :: ds) in *.
  destruct (monotonic (x_index s)) eqn:M.
  - apply fmap_r_ok in E. revert E. apply Forall2_impl. intros d x H. cbv zeta in H.
    destruct (searchsorted_spec _ d M) as (A & B). set (p := searchsorted (x_index s) d) in *.
    assert (nth_error (x_index s) p <> Some d -> value_at s d None) as Miss.
    { intros N. right. split; [|reflexivity]. intros I. apply In_nth_error in I. destruct I as (q & Hq).
      destruct (Nat.lt_trichotomy q p) as [L|[->|L]].
      - destruct (A q L) as (y & Hy & Ly). rewrite Hq in Hy. inversion Hy; lia.
      - exact (N Hq).
      - pose proof (nth_some_lt _ _ _ Hq) as Lq. destruct (nth_lt_some (x_index s) p ltac:(lia)) as (y & Hy). pose proof (B p y (le_n _) Hy) as G1.
        pose proof (monotonic_nth _ M p q y d L Hy Hq) as G2.
        assert (y = d) by lia. subst. exact (N Hy). }
    destruct (nth_error (x_index s) p) as [d'|] eqn:Hp; [|inversion H; subst; apply Miss; congruence].
    destruct (Z.eqb_spec d' d) as [->|N]; [|inversion H; subst; apply Miss; congruence].
    destruct (nth_error (x_values s) p) as [y|] eqn:Hv; [|discriminate]. inversion H; subst y. left. exists p. split; [exact Hp|]. split; [exact Hv|].
    intros q Hq E. destruct (A q Hq) as (y & Hy & Ly). rewrite E in Hy. inversion Hy; lia.
  - destruct (distinct (x_index s)); [|discriminate]. apply fmap_r_ok in E. revert E. apply Forall2_impl. intros d x H. pose proof (find_spec (x_index s) d) as F.
    destruct (find_date (x_index s) d) as [p|]; [|inversion H; subst; right; auto].
    destruct F as (F1 & F2). destruct (nth_error (x_values s) p) as [y|] eqn:Hv; [|discriminate]. inversion H; subst. left. exists p. auto.
Qed.
Lemma distinct_nodup l : distinct l = true <-> NoDup l.
Proof.
  induction l as [|x l IH]; cbn [distinct]; [split; [constructor|reflexivity]|]. rewrite andb_true_iff, negb_true_iff, IH. unfold zmem. split.
  - intros (N & D). constructor; [|exact D]. intros I. assert (existsb (Z.eqb x) l = true) by (apply existsb_exists; exists x; rewrite Z.eqb_refl; auto). congruence.
  - intros D. inversion D as [|? ? N D']; subst. split; [|exact D']. apply not_true_is_false. intros E. apply existsb_exists in E. destruct E as (y & I & E). apply Z.eqb_eq in E. subst. exact (N I).
Qed.
Lemma indicator_defined s dates : NoDup (x_index s) -> length (x_values s) = length (x_index s) -> exists l, indicator_values s dates = FOk l.
Proof.
  intros ND L. unfold indicator_values. destruct dates as [|d0 ds]; [eauto|]. destruct (monotonic (x_index s)).
  - apply fmap_r_all. intros d _. cbv zeta. destruct (nth_error (x_index s) _) as [d'|] eqn:E; [|eauto]. destruct (d' =? d)%Z; [|eauto].
    apply nth_some_lt in E. rewrite <- L in E. destruct (nth_lt_some _ _ E) as (x & ->). eauto.
  - rewrite (proj2 (distinct_nodup _) ND). apply fmap_r_all. intros d _. pose proof (find_spec (x_index s) d) as F. destruct (find_date (x_index s) d) as [p|]; [|eauto].
    destruct F as (F & _). apply nth_some_lt in F. rewrite <- L in F. destruct (nth_lt_some _ _ F) as (x & ->). eauto.
Qed.
Lemma value_at_fun s d x y : value_at s d x -> value_at s d y -> x = y.
Proof.
  intros [(p & P1 & P2 & P3)|(N & ->)] [(q & Q1 & Q2 & Q3)|(N' & ->)]; try reflexivity.
  - assert (p = q) as ->. { destruct (Nat.lt_trichotomy p q) as [L|[E|L]]; [destruct (Q3 p L P1)|exact E|destruct (P3 q L Q1)]. } congruence.
  - destruct (N' (nth_error_In _ _ P1)).
  - destruct (N (nth_error_In _ _ Q1)).
Qed.
Lemma cell_fun st ind indicators sym i d c x y : cell st ind indicators sym i d c x -> cell st ind indicators sym i d c y -> x = y.
Proof.
  intros (sd & S1 & H1) (sd' & S2 & H2). rewrite S1 in S2. inversion S2; subst sd'. destruct (sd_column sd c); [congruence|].
  destruct H1 as (_ & s & I1 & V1), H2 as (_ & s' & I2 & V2). rewrite I1 in I2. inversion I2; subst s'. exact (value_at_fun _ _ _ _ V1 V2).
Qed.

(** Columns. *)
Lemma dedup_in seen l x : In x (dedup seen l) <-> In x l /\ ~ In x seen.
Proof.
  revert seen. induction l as [|y l IH]; intros seen; cbn [dedup]; [cbn; tauto|]. destruct (mem y seen) eqn:M.
  - apply mem_in in M. rewrite IH. cbn. intuition congruence.
  - assert (~ In y seen) as N by (intros I; apply mem_in in I; congruence). cbn [In]. rewrite IH. cbn [In]. split.
    + intros [->|(I & H)]; [auto|]. split; [auto|tauto].
    + intros ([->|I] & H); [auto|]. destruct (Nat.eq_dec y x) as [->|]; [auto|]. right. split; [exact I|]. intros [E|E]; [congruence|contradiction].
Qed.
Lemma dedup_nodup seen l : NoDup (dedup seen l).
Proof.
  revert seen. induction l as [|y l IH]; intros seen; cbn [dedup]; [constructor|]. destruct (mem y seen); [apply IH|]. constructor; [|apply IH].
  rewrite dedup_in. cbn. tauto.
Qed.
Lemma input_columns_ext dc ind a b : (forall c, a c = b c) -> input_columns dc ind a = input_columns dc ind b.
Proof. intros H. unfold input_columns. f_equal. f_equal. apply filter_ext. exact H. Qed.

(** Parts. *)
Lemma part_spec st ind indicators sym sd dates col v : st sym = Some sd -> bars st sym = dates -> store_ok st ->
  column_part ind indicators sym sd dates col = FOk (Some v) ->
  length v = length dates /\ forall i d x, nth_error dates i = Some d -> nth_error v i = Some x -> cell st ind indicators sym i d col x.
Proof.
  intros Hs Hb OK E. unfold column_part in E. destruct (sd_column sd col) as [w|] eqn:C.
  - inversion E; subst w. destruct (OK _ _ Hs) as (_ & L). split; [rewrite (L _ _ C), Hb; reflexivity|]. intros i d x _ Hx. exists sd. split; [exact Hs|]. rewrite C. exact Hx.
  - destruct (mem col indicators) eqn:M; [|discriminate]. apply mem_in in M. destruct (ind col sym) as [s|] eqn:I; [|discriminate].
    destruct (indicator_values s dates) as [w|e] eqn:V; cbn [fbind] in E; [|discriminate]. inversion E; subst w. apply indicator_spec in V.
    split; [symmetry; exact (Forall2_len _ _ _ V)|]. intros i d x Hd Hx. exists sd. split; [exact Hs|]. rewrite C. split; [exact M|]. exists s. split; [exact I|].
    destruct (Forall2_nth _ _ _ V _ _ Hd) as (y & Hy & A). rewrite Hx in Hy. inversion Hy; subst. exact A.
Qed.
Lemma with_rows_in st symbols s sd dates : In ((s, sd), dates) (with_rows st symbols) <-> In s symbols /\ st s = Some sd /\ sd_dates sd = Some dates /\ dates <> [].
Proof.
  unfold with_rows. rewrite in_flat_map. split.
  - intros (x & Ix & H). destruct (st x) as [sdx|] eqn:E; [|destruct H]. destruct (sd_dates sdx) as [[|d ds]|] eqn:D; try contradiction.
    destruct H as [H|[]]. inversion H; subst. rewrite E. split; [exact Ix|]. split; [reflexivity|]. split; [exact D|discriminate].
  - intros (Is & E & D & N). exists s. split; [exact Is|]. rewrite E, D. destruct dates; [congruence|]. left. reflexivity.
Qed.
Lemma bars_eq st s sd dates : st s = Some sd -> sd_dates sd = Some dates -> bars st s = dates.
Proof. intros E D. unfold bars. rewrite E, D. reflexivity. Qed.

(** The order. *)
Lemma place_perm x l : Permutation (place x l) (x :: l).
Proof. induction l as [|y l IH]; cbn [place]; [reflexivity|]. destruct (before _ _); [reflexivity|]. rewrite IH. apply perm_swap. Qed.
Lemma placed_perm l : Permutation (fold_right place [] l) l.
Proof. induction l as [|x l IH]; [reflexivity|]. cbn [fold_right]. rewrite place_perm. constructor. exact IH. Qed.
Definition key_le (a b : nat * Z) : Prop := before a b = true.
Lemma before_false a b : before a b = false -> before b a = true.
Proof.
  unfold before. rewrite !orb_true_iff, !andb_true_iff, orb_false_iff, andb_false_iff, !Nat.ltb_lt, Nat.ltb_ge, !Nat.eqb_eq, Nat.eqb_neq, Z.leb_le, Z.leb_gt. lia.
Qed.
Lemma before_trans a b c : before a b = true -> before b c = true -> before a c = true.
Proof. unfold before. rewrite !orb_true_iff, !andb_true_iff, !Nat.ltb_lt, !Nat.eqb_eq, !Z.leb_le. lia. Qed.
Lemma place_sorted x l : StronglySorted (fun a b => key_le (fst a) (fst b)) l -> StronglySorted (fun a b => key_le (fst a) (fst b)) (place x l).
Proof.
  induction 1 as [|y l HS IH F]; cbn [place]; [repeat constructor|]. destruct (before (fst x) (fst y)) eqn:B.
  - constructor; [constructor; assumption|]. constructor; [exact B|]. rewrite Forall_forall in *. intros z I. exact (before_trans _ _ _ B (F z I)).
  - constructor; [exact IH|]. rewrite Forall_forall in *. intros z I. apply (Permutation_in _ (place_perm x l)) in I. destruct I as [<-|I]; [apply before_false; exact B|exact (F z I)].
Qed.
Lemma placed_sorted l : StronglySorted (fun a b => key_le (fst a) (fst b)) (fold_right place [] l).
Proof. induction l as [|x l IH]; [constructor|]. cbn [fold_right]. apply place_sorted. exact IH. Qed.
Lemma combine_nth {A B} (l : list A) : forall (m : list B) i a b, nth_error (combine l m) i = Some (a, b) <-> nth_error l i = Some a /\ nth_error m i = Some b.
Proof.
  induction l as [|x l IH]; intros [|y m] [|i] a b; cbn; try (split; [discriminate|intros (H & H'); discriminate]).
  - split; [intros E; inversion E; auto|intros (E & E'); inversion E; inversion E'; reflexivity].
  - apply IH.
Qed.
Lemma take_all {A} (l : list A) order : (forall i, In i order -> i < length l) <-> exists r, take l order = FOk r.
Proof.
  unfold take. split.
  - intros H. apply fmap_r_all. intros i I. destruct (nth_lt_some l i (H i I)) as (x & ->). eauto.
  - intros (r & E) i I. apply fmap_r_ok in E. apply In_nth_error in I. destruct I as (p & Hp). destruct (Forall2_nth _ _ _ E _ _ Hp) as (x & _ & Hx).
    destruct (nth_error l i) as [y|] eqn:Hy; [|discriminate]. exact (nth_some_lt _ _ _ Hy).
Qed.
Lemma take_nth {A} (l : list A) order r : take l order = FOk r -> length r = length order /\ forall p i, nth_error order p = Some i -> nth_error r p = nth_error l i.
Proof.
  intros E. unfold take in E. apply fmap_r_ok in E. split; [symmetry; exact (Forall2_len _ _ _ E)|]. intros p i Hp. destruct (Forall2_nth _ _ _ E _ _ Hp) as (x & Hx & H).
  destruct (nth_error l i); [congruence|discriminate].
Qed.
Section order.
  Variable keys : list (nat * Z).
  Definition placed := fold_right place [] (combine keys (seq 0 (length keys))).
  Lemma placed_entry k i : In (k, i) placed -> nth_error keys i = Some k.
  Proof.
    intros I. apply (Permutation_in _ (placed_perm _)) in I. apply In_nth_error in I. destruct I as (p & Hp). apply combine_nth in Hp. destruct Hp as (Hk & Hi).
    pose proof (nth_some_lt _ _ _ Hi) as L. rewrite seq_length in L. rewrite nth_error_seq in Hi by exact L. inversion Hi; subst. exact Hk.
  Qed.
  Lemma order_perm : Permutation (lexsort keys) (seq 0 (length keys)).
  Proof.
    unfold lexsort. rewrite (Permutation_map snd (placed_perm _)).
    assert (forall (l : list (nat * Z)) (m : list nat), length l = length m -> map snd (combine l m) = m) as C.
    { induction l as [|x l IH]; intros [|y m] L; try discriminate L; [reflexivity|]. cbn. f_equal. apply IH. cbn in L. lia. }
    rewrite C by (rewrite seq_length; reflexivity). reflexivity.
  Qed.
  Lemma order_lt i : In i (lexsort keys) <-> i < length keys.
  Proof. split; intros H; [apply (Permutation_in _ order_perm) in H; apply in_seq in H; lia|]. apply (Permutation_in _ (Permutation_sym order_perm)). apply in_seq. lia. Qed.
  (** The keys in order. *)
  Lemma order_keys : Permutation (map fst placed) keys /\ StronglySorted key_le (map fst placed) /\
    length (lexsort keys) = length keys /\
    forall p i, nth_error (lexsort keys) p = Some i -> nth_error (map fst placed) p = nth_error keys i.
  Proof.
    assert (forall (l : list (nat * Z)) (m : list nat), length l = length m -> map fst (combine l m) = l) as C.
    { induction l as [|x l IH]; intros [|y m] L; try discriminate L; [reflexivity|]. cbn. f_equal. apply IH. cbn in L. lia. }
    split; [|split; [|split]].
    - unfold placed. rewrite (Permutation_map fst (placed_perm _)), C by (rewrite seq_length; reflexivity). reflexivity.
    - unfold placed. generalize (placed_sorted (combine keys (seq 0 (length keys)))). generalize (fold_right place [] (combine keys (seq 0 (length keys)))). intros l.
      induction 1 as [|x l HS IH F]; [constructor|]. cbn [map]. constructor; [exact IH|]. rewrite Forall_forall in *. intros k I. apply in_map_iff in I. destruct I as (y & <- & I). exact (F y I).
    - rewrite (Permutation_length order_perm). apply seq_length.
    - intros p i Hp. unfold lexsort in Hp. fold placed in Hp. rewrite nth_error_map in Hp |- *. destruct (nth_error placed p) as [[k j]|] eqn:E; [|discriminate].
      cbn in Hp |- *. inversion Hp; subst. symmetry. apply placed_entry. exact (nth_error_In _ _ E).
  Qed.
End order.

(** Several symbols. *)
Definition psyms (parts : list ((nat * sym_data) * list Z)) : list nat := flat_map (fun p => repeat (fst (fst p)) (length (snd p))) parts.
Definition pvals (vs : list (option (list value))) : list value := flat_map (fun v => match v with Some l => l | None => [] end) vs.
Lemma parts_nth parts vs : Forall2 (fun (p : (nat * sym_data) * list Z) (v : list value) => length v = length (snd p)) parts vs ->
  forall i s d, nth_error (psyms parts) i = Some s -> nth_error (flat_map snd parts) i = Some d ->
  exists q p v j, nth_error parts q = Some p /\ nth_error vs q = Some v /\ fst (fst p) = s /\ nth_error (snd p) j = Some d /\ nth_error (concat vs) i = nth_error v j.
Proof.
  induction 1 as [|p v parts vs L F IH]; intros i s d Hs Hd; [destruct i; discriminate|]. unfold psyms in Hs. cbn [flat_map concat] in *.
  destruct (Nat.lt_ge_cases i (length (snd p))) as [Hi|Hi].
  - rewrite nth_error_app1 in Hs by (rewrite repeat_length; exact Hi). rewrite nth_error_app1 in Hd by exact Hi. rewrite nth_error_repeat' in Hs by exact Hi.
    exists 0, p, v, i. split; [reflexivity|]. split; [reflexivity|]. split; [congruence|]. split; [exact Hd|]. apply nth_error_app1. lia.
  - rewrite nth_error_app2 in Hs by (rewrite repeat_length; exact Hi). rewrite nth_error_app2 in Hd by exact Hi. rewrite repeat_length in Hs.
    destruct (IH _ _ _ Hs Hd) as (q & p' & v' & j & H1 & H2 & H3 & H4 & H5). exists (S q), p', v', j. split; [exact H1|]. split; [exact H2|]. split; [exact H3|]. split; [exact H4|].
    rewrite nth_error_app2 by lia. rewrite L. exact H5.
Qed.
Lemma psyms_length parts : length (psyms parts) = length (flat_map snd parts).
Proof. unfold psyms. induction parts as [|p parts IH]; [reflexivity|]. cbn [flat_map]. rewrite !app_length, repeat_length, IH. reflexivity. Qed.
Lemma pkeys parts : combine (psyms parts) (flat_map snd parts) = flat_map (fun p => map (pair (fst (fst p))) (snd p)) parts.
Proof.
  induction parts as [|p parts IH]; [reflexivity|]. unfold psyms in *. cbn [flat_map]. rewrite <- IH. clear IH. generalize (flat_map (fun p => repeat (fst (fst p)) (length (snd p))) parts) (flat_map snd parts).
  intros a b. generalize (fst (fst p)). intros s. induction (snd p) as [|d l IHl]; [reflexivity|]. cbn. f_equal. exact IHl.
Qed.
Lemma rows_keys st symbols : flat_map (fun p => map (pair (fst (fst p))) (snd p)) (with_rows st symbols) = flat_map (fun s => map (pair s) (bars st s)) symbols.
Proof.
  induction symbols as [|s symbols IH]; [reflexivity|]. unfold with_rows in *. cbn [flat_map]. rewrite flat_map_app, IH. f_equal. unfold bars.
  destruct (st s) as [sd|]; [|reflexivity]. destruct (sd_dates sd) as [[|d ds]|]; try reflexivity. cbn [flat_map fst snd]. apply app_nil_r.
Qed.
Lemma parts_len_ge (parts : list ((nat * sym_data) * list Z)) vs :
  Forall2 (fun p v => forall l, v = Some l -> length l = length (snd p)) parts vs -> (forall p, In p parts -> snd p <> []) ->
  length (pvals vs) <= length (flat_map snd parts) /\
  (length (flat_map snd parts) <= length (pvals vs) -> Forall2 (fun p v => exists l, v = Some l /\ length l = length (snd p)) parts vs).
Proof.
  induction 1 as [|p v parts vs H F IH]; intros NE; [split; [auto|constructor]|]. destruct IH as (I1 & I2); [intros p' I; apply NE; right; exact I|].
  unfold pvals in *. cbn [flat_map]. rewrite !app_length. destruct v as [l|].
  - rewrite (H l eq_refl). split; [lia|]. intros L. constructor; [eauto|]. apply I2. lia.
  - pose proof (NE p (or_introl eq_refl)) as N. destruct (snd p) as [|d ds] eqn:E; [congruence|]. cbn [length]. split; [lia|]. intros L. lia.
Qed.
Definition pcolumns (st : store) (symbols indicators data_cols : list nat) : list nat :=
  input_columns data_cols indicators (fun c => existsb (fun s => match st s with Some sd => has (sd_column sd c) | None => false end) symbols).
Lemma pcolumns_in st symbols indicators data_cols c : In c (pcolumns st symbols indicators data_cols) <-> frame_column st symbols indicators data_cols c.
Proof.
  unfold pcolumns, input_columns, frame_column. rewrite dedup_in, in_app_iff, filter_In, existsb_exists. split.
  - intros ([(I & s & Is & H)|I] & _); [|auto]. right. split; [exact I|]. destruct (st s) as [sd|] eqn:E; [|discriminate]. exists s, sd. split; [exact Is|]. split; [exact E|].
    intros N. rewrite N in H. discriminate.
  - intros [I|(I & s & sd & Is & E & N)]; (split; [|intros []]); [auto|]. left. split; [exact I|]. exists s. split; [exact Is|]. rewrite E. destruct (sd_column sd c); [reflexivity|congruence].
Qed.
Definition part_ok ind indicators (p : (nat * sym_data) * list Z) (c : nat) : Prop :=
  exists v, column_part ind indicators (fst (fst p)) (snd (fst p)) (snd p) c = FOk (Some v).
Section pooled.
  Variables (st : store) (ind : indicator_data) (indicators data_cols : list nat).
  Hypothesis OK : store_ok st.
  Lemma part_in symbols p : In p (with_rows st symbols) ->
    In (fst (fst p)) symbols /\ st (fst (fst p)) = Some (snd (fst p)) /\ bars st (fst (fst p)) = snd p /\ snd p <> [].
  Proof.
    destruct p as [[s sd] dates]. cbn [fst snd]. intros I. apply with_rows_in in I. destruct I as (I1 & I2 & I3 & I4). split; [exact I1|]. split; [exact I2|]. split; [|exact I4].
    exact (bars_eq _ _ _ _ I2 I3).
  Qed.
  Lemma col_parts symbols c vs : fmap_r (fun p => column_part ind indicators (fst (fst p)) (snd (fst p)) (snd p) c) (with_rows st symbols) = FOk vs ->
    Forall2 (fun p v => forall l, v = Some l -> length l = length (snd p)) (with_rows st symbols) vs.
  Proof.
    intros E. apply fmap_r_ok in E. apply Forall2_intro; [exact (Forall2_len _ _ _ E)|]. intros i p v Hp Hv l ->.
    destruct (Forall2_nth _ _ _ E _ _ Hp) as (v' & Hv' & Ec). rewrite Hv in Hv'. inversion Hv'; subst v'.
    destruct (part_in symbols p (nth_error_In _ _ Hp)) as (_ & Hs & Hb & _). exact (proj1 (part_spec _ _ _ _ _ _ _ _ Hs Hb OK Ec)).
  Qed.
  Let keys symbols := combine (psyms (with_rows st symbols)) (flat_map snd (with_rows st symbols)).
  Lemma keys_length symbols : length (keys symbols) = length (flat_map snd (with_rows st symbols)).
  Proof. unfold keys. rewrite combine_length, psyms_length. lia. Qed.
  Lemma take_col symbols c vs l : fmap_r (fun p => column_part ind indicators (fst (fst p)) (snd (fst p)) (snd p) c) (with_rows st symbols) = FOk vs ->
    take (pvals vs) (lexsort (keys symbols)) = FOk l ->
    Forall2 (fun p v => exists w, v = Some w /\ length w = length (snd p)) (with_rows st symbols) vs.
  Proof.
    intros E T. pose proof (col_parts _ _ _ E) as F.
    destruct (parts_len_ge _ _ F) as (_ & G); [intros p I; exact (proj2 (proj2 (proj2 (part_in symbols p I))))|]. apply G.
    assert (forall i, In i (lexsort (keys symbols)) -> i < length (pvals vs)) as H by (apply take_all; eauto).
    rewrite <- keys_length. destruct (length (keys symbols)) as [|n] eqn:Ln; [lia|]. specialize (H n). rewrite order_lt, Ln in H. lia.
  Qed.
  Lemma somes {A} (R : A -> list value -> Prop) (l : list A) vs : Forall2 (fun p v => exists w, v = Some w /\ R p w) l vs ->
    exists ws, vs = map Some ws /\ pvals vs = concat ws /\ Forall2 R l ws.
  Proof.
    induction 1 as [|p v l vs (w & -> & H) F (ws & E1 & E2 & E3)]; [exists []; repeat split; constructor|]. exists (w :: ws).
    split; [cbn; congruence|]. split; [unfold pvals in *; cbn; congruence|]. constructor; assumption.
  Qed.
  Lemma nodup_app {A} (a b : list A) : NoDup a -> NoDup b -> (forall k, In k a -> ~ In k b) -> NoDup (a ++ b).
  Proof.
    induction 1 as [|x a NI ND IH]; intros Nb Dj; [exact Nb|]. cbn. constructor.
    - rewrite in_app_iff. intros [I|I]; [exact (NI I)|exact (Dj x (or_introl eq_refl) I)].
    - apply IH; [exact Nb|]. intros k I. apply Dj. right. exact I.
  Qed.
  Lemma bars_sorted s : StronglySorted Z.lt (bars st s).
  Proof. destruct (st s) as [sd|] eqn:Es; [exact (proj1 (OK _ _ Es))|]. unfold bars. rewrite Es. constructor. Qed.
  Lemma nodup_keys symbols : NoDup symbols -> NoDup (flat_map (fun s => map (pair s) (bars st s)) symbols).
  Proof.
    induction 1 as [|s symbols NI ND IH]; [constructor|]. cbn [flat_map]. apply nodup_app; [|exact IH|].
    - apply FinFun.Injective_map_NoDup; [intros a b E; congruence|]. generalize (bars_sorted s).
      induction 1 as [|x l HS IHl F]; constructor; auto. intros I. rewrite Forall_forall in F. specialize (F x I). lia.
    - intros k I J. apply in_map_iff in I. destruct I as (d & <- & _). apply in_flat_map in J. destruct J as (s' & Is' & J). apply in_map_iff in J. destruct J as (d' & E & _). inversion E; subst. exact (NI Is').
  Qed.
  Lemma strict l : StronglySorted key_le l -> NoDup l -> StronglySorted row_lt l.
  Proof.
    induction 1 as [|x l HS IH F]; intros ND; [constructor|]. inversion ND as [|? ? NI ND']; subst. constructor; [auto|]. rewrite Forall_forall in *. intros y I. specialize (F y I).
    unfold key_le, before in F. rewrite orb_true_iff, andb_true_iff, Nat.ltb_lt, Nat.eqb_eq, Z.leb_le in F. unfold row_lt.
    assert (x <> y) as N by congruence. destruct x as [a b], y as [a' b']; cbn [fst snd] in *. destruct F as [F|(-> & F)]; [auto|]. right. split; [reflexivity|].
    assert (b <> b') by congruence. lia.
  Qed.
  Definition frame_of (symbols : list nat) (m : input) : Prop :=
    exists syms, i_symbols m = Some syms /\ i_lags m = None /\ input_ok m /\
      StronglySorted row_lt (combine syms (i_dates m)) /\
      Permutation (combine syms (i_dates m)) (flat_map (fun s => map (pair s) (bars st s)) symbols) /\
      map fst (i_columns m) = pcolumns st symbols indicators data_cols /\
      forall p s d, nth_error syms p = Some s -> nth_error (i_dates m) p = Some d ->
        exists i, nth_error (bars st s) i = Some d /\
          forall c vals, In (c, vals) (i_columns m) -> exists x, nth_error vals p = Some x /\ cell st ind indicators s i d c x.
  Lemma pooled_frame symbols m : NoDup symbols -> pooled_input st symbols ind indicators data_cols = FOk m -> frame_of symbols m.
  Proof.
    intros ND E. unfold pooled_input in E. cbv zeta in E. fold (pcolumns st symbols indicators data_cols) in E.
    pose proof (rows_keys st symbols) as RK. rewrite <- pkeys in RK. fold (keys symbols) in RK.
    assert (with_rows st symbols = [] \/ with_rows st symbols <> []) as [W|W] by (destruct (with_rows st symbols); [auto|right; discriminate]).
    { unfold keys in RK. rewrite W in RK, E. inversion E; subst m. exists []. cbn [i_symbols i_lags i_dates i_columns empty_input]. split; [reflexivity|]. split; [reflexivity|].
      split. { split; [|split]; cbn; [intros l El; inversion El; reflexivity| |discriminate]. intros c Ic. apply in_map_iff in Ic. destruct Ic as (x & <- & _). reflexivity. }
      split; [constructor|]. split; [cbn in RK; rewrite <- RK; constructor|]. split; [rewrite map_map, map_id; reflexivity|]. intros [|p]; discriminate. }
    destruct (with_rows st symbols) as [|p0 ps] eqn:EW; [congruence|]. rewrite <- EW in *. clear W.
    change (flat_map (fun p => repeat (fst (fst p)) (length (snd p))) (with_rows st symbols)) with (psyms (with_rows st symbols)) in E.
    fold (keys symbols) in E. set (order := lexsort (keys symbols)) in *. set (parts := with_rows st symbols) in *.
    destruct (take (psyms parts) order) as [syms|e] eqn:TS; cbn [fbind] in E; [|discriminate].
    destruct (take (flat_map snd parts) order) as [dates|e] eqn:TD; cbn [fbind] in E; [|discriminate].
    destruct (fmap_r _ (pcolumns st symbols indicators data_cols)) as [cols|e] eqn:TC; cbn [fbind] in E; [|discriminate]. inversion E; subst m. clear E.
    destruct (order_keys (keys symbols)) as (OP & OS & OL & ON). fold order in OL, ON.
    destruct (take_nth _ _ _ TS) as (LS & NS). destruct (take_nth _ _ _ TD) as (LD & NDt).
    assert (combine syms dates = map fst (placed (keys symbols))) as CK.
    { apply nth_error_ext'; [rewrite combine_length, LS, LD, (Permutation_length OP), OL; lia|]. intros p Lp. rewrite combine_length, LS, LD in Lp.
      destruct (nth_lt_some order p ltac:(lia)) as (i & Hi). rewrite (ON p i Hi). pose proof (nth_error_In _ _ Hi) as Ii. apply order_lt in Ii.
      destruct (nth_lt_some _ _ Ii) as ([s d] & Hk). rewrite Hk. apply combine_nth. rewrite (NS p i Hi), (NDt p i Hi). apply combine_nth. exact Hk. }
    apply fmap_r_ok in TC.
    assert (forall c vals, In (c, vals) cols -> exists ws,
       fmap_r (fun p => column_part ind indicators (fst (fst p)) (snd (fst p)) (snd p) c) parts = FOk (map Some ws) /\ take (concat ws) order = FOk vals /\
       Forall2 (fun (p : (nat * sym_data) * list Z) w => length w = length (snd p)) parts ws) as Cs.
    { intros c vals Ic. destruct (Forall2_in_r _ _ _ TC _ Ic) as (c' & _ & H).
      destruct (fmap_r _ parts) as [vs|e] eqn:Ev; cbn [fbind] in H; [|discriminate]. fold (pvals vs) in H.
      destruct (take (pvals vs) order) as [l|e] eqn:Et; cbn [fbind] in H; [|discriminate]. inversion H; subst c' l.
      pose proof (take_col symbols c vs vals Ev Et) as F. apply somes in F. destruct F as (ws & -> & Ep & F). exists ws. rewrite Ep in Et. auto. }
    exists syms. cbn [i_symbols i_lags i_dates i_columns]. split; [reflexivity|]. split; [reflexivity|]. split; [|split; [|split; [|split]]].
    - split; [|split]; cbn; [intros l El; inversion El; subst; lia| |discriminate]. intros [c vals] Ic. destruct (Cs c vals Ic) as (ws & _ & T & _). cbn [snd]. rewrite (proj1 (take_nth _ _ _ T)). lia.
    - rewrite CK. apply strict; [exact OS|]. apply (Permutation_NoDup (Permutation_sym OP)). rewrite RK. apply nodup_keys. exact ND.
    - rewrite CK, OP, RK. reflexivity.
    - clear Cs. induction TC as [|c [c' l] cs cols H F IH]; [reflexivity|]. cbn [map fst]. f_equal; [|exact IH].
      destruct (fmap_r _ parts) as [vs|e]; cbn [fbind] in H; [|discriminate]. fold (pvals vs) in H. destruct (take (pvals vs) order); cbn [fbind] in H; [|discriminate]. inversion H; reflexivity.
    - intros p s d Hs Hd.
      assert (p < length order) as Lp by (apply nth_some_lt in Hs; lia). destruct (nth_lt_some _ _ Lp) as (i & Hi).
      rewrite (NS p i Hi) in Hs. rewrite (NDt p i Hi) in Hd.
      assert (Forall2 (fun (p : (nat * sym_data) * list Z) v => length v = length (snd p)) parts (map (fun p => map (fun _ => None : value) (snd p)) parts)) as F0.
      { clear. induction parts; cbn [map]; constructor; [apply map_length|assumption]. }
      destruct (parts_nth _ _ F0 i s d Hs Hd) as (q & pt & v0 & j & Hq & _ & Es & Hj & _).
      destruct (part_in symbols pt (nth_error_In _ _ Hq)) as (_ & Hst & Hb & _). rewrite Es in Hst, Hb. exists j. rewrite Hb. split; [exact Hj|].
      intros c vals Ic. destruct (Cs c vals Ic) as (ws & Ev & T & F). destruct (parts_nth _ _ F i s d Hs Hd) as (q' & pt' & w & j' & Hq' & Hw & Es' & Hj' & Ew).
      destruct (part_in symbols pt' (nth_error_In _ _ Hq')) as (_ & Hst' & Hb' & _). rewrite Es' in Hst', Hb'.
      assert (j' = j) as ->. { rewrite <- Hb in Hj. rewrite <- Hb' in Hj'. exact (sorted_nth_inj _ _ _ _ (bars_sorted s) Hj' Hj). }
      rewrite (proj2 (take_nth _ _ _ T) p i Hi), Ew.
      assert (j < length w) as Lj. { pose proof (nth_some_lt _ _ _ Hj'). destruct (Forall2_nth _ _ _ F _ _ Hq') as (w' & Hw' & Lw). rewrite Hw in Hw'. inversion Hw'; subst w'. lia. }
      destruct (nth_lt_some _ _ Lj) as (x & Hx). exists x. split; [exact Hx|]. apply fmap_r_ok in Ev. destruct (Forall2_nth _ _ _ Ev _ _ Hq') as (v & Hv & Ec).
      rewrite nth_error_map, Hw in Hv. cbn in Hv. inversion Hv; subst v. rewrite Es' in Ec.
      apply (proj2 (part_spec st ind indicators s (snd (fst pt')) (snd pt') c w Hst' Hb' OK Ec) j d x Hj' Hx).
  Qed.
  Lemma pooled_defined symbols : (exists m, pooled_input st symbols ind indicators data_cols = FOk m) <->
    forall p c, In p (with_rows st symbols) -> In c (pcolumns st symbols indicators data_cols) -> part_ok ind indicators p c.
  Proof.
    unfold pooled_input. cbv zeta. fold (pcolumns st symbols indicators data_cols).
    assert (with_rows st symbols = [] \/ with_rows st symbols <> []) as [W|W] by (destruct (with_rows st symbols); [auto|right; discriminate]).
    { rewrite W. split; [intros _ p c []|eauto]. }
    destruct (with_rows st symbols) as [|p0 ps] eqn:EW; [congruence|]. rewrite <- EW in *. clear W.
    change (flat_map (fun p => repeat (fst (fst p)) (length (snd p))) (with_rows st symbols)) with (psyms (with_rows st symbols)).
    fold (keys symbols). set (order := lexsort (keys symbols)) in *. set (parts := with_rows st symbols) in *.
    assert (exists r, take (psyms parts) order = FOk r) as (syms & ->).
    { apply take_all. intros i I. apply order_lt in I. rewrite keys_length in I. rewrite psyms_length. exact I. }
    assert (exists r, take (flat_map snd parts) order = FOk r) as (dates & ->).
    { apply take_all. intros i I. apply order_lt in I. rewrite keys_length in I. exact I. }
    cbn [fbind]. split.
    - intros (m & E) p c Ip Ic. destruct (fmap_r _ (pcolumns st symbols indicators data_cols)) as [cols|e] eqn:TC; cbn [fbind] in E; [|discriminate]. apply fmap_r_ok in TC.
      apply In_nth_error in Ic. destruct Ic as (n & Hc). destruct (Forall2_nth _ _ _ TC _ _ Hc) as (cl & _ & H).
      destruct (fmap_r _ parts) as [vs|e] eqn:Ev; cbn [fbind] in H; [|discriminate]. fold (pvals vs) in H.
      destruct (take (pvals vs) order) as [l|e] eqn:Et; cbn [fbind] in H; [|discriminate].
      pose proof (take_col symbols c vs l Ev Et) as F. apply In_nth_error in Ip. destruct Ip as (q & Hq). destruct (Forall2_nth _ _ _ F _ _ Hq) as (v & Hv & w & -> & _).
      apply fmap_r_ok in Ev. destruct (Forall2_nth _ _ _ Ev _ _ Hq) as (v' & Hv' & Ec). rewrite Hv in Hv'. inversion Hv'; subst v'. exists w. exact Ec.
    - intros H. assert (exists cols, fmap_r (fun c => fbind (fmap_r (fun p => column_part ind indicators (fst (fst p)) (snd (fst p)) (snd p) c) parts) (fun vs =>
               fbind (take (flat_map (fun v => match v with Some l => l | None => [] end) vs) order) (fun l => FOk (c, l)))) (pcolumns st symbols indicators data_cols) = FOk cols) as (cols & ->).
      { apply fmap_r_all. intros c Ic.
        assert (exists vs, fmap_r (fun p => column_part ind indicators (fst (fst p)) (snd (fst p)) (snd p) c) parts = FOk vs) as (vs & Ev).
        { apply fmap_r_all. intros p Ip. destruct (H p c Ip Ic) as (v & Hv). eauto. }
        rewrite Ev. cbn [fbind]. fold (pvals vs).
        assert (Forall2 (fun p v => exists w, v = Some w /\ length w = length (snd p)) parts vs) as F.
        { pose proof (col_parts symbols c vs Ev) as F0. apply fmap_r_ok in Ev. apply Forall2_intro; [exact (Forall2_len _ _ _ Ev)|]. intros i p v Hp Hv.
          destruct (H p c (nth_error_In _ _ Hp) Ic) as (w & Hw). destruct (Forall2_nth _ _ _ Ev _ _ Hp) as (v' & Hv' & Ec). rewrite Hv in Hv'. inversion Hv'; subst v'.
          destruct (Forall2_nth _ _ _ F0 _ _ Hp) as (v' & Hv2 & L). rewrite Hv in Hv2. inversion Hv2; subst v'. exists w. rewrite Hw in Ec. inversion Ec; subst v. auto. }
        apply somes in F. destruct F as (ws & _ & -> & F). assert (length (concat ws) = length (flat_map snd parts)) as L.
        { clear - F. induction F as [|p w ps ws L F IH]; [reflexivity|]. cbn. rewrite !app_length, L, IH. reflexivity. }
        assert (exists r, take (concat ws) order = FOk r) as (r & ->).
        { apply take_all. intros i I. apply order_lt in I. rewrite keys_length in I. rewrite L. exact I. }
        cbn [fbind]. eauto. }
      cbn [fbind]. eauto.
  Qed.
  (** At most one frame. *)
  Lemma sorted_unique l : forall l', StronglySorted row_lt l -> StronglySorted row_lt l' -> Permutation l l' -> l = l'.
  Proof.
    induction l as [|x l IH]; intros l' H1 H2 P; [apply Permutation_nil in P; congruence|]. destruct l' as [|y l']; [apply Permutation_sym, Permutation_nil in P; discriminate|].
    inversion H1 as [|? ? S1 F1]; inversion H2 as [|? ? S2 F2]; subst. rewrite Forall_forall in F1, F2.
    assert (x = y) as ->.
    { pose proof (Permutation_in _ P (or_introl eq_refl)) as I1. pose proof (Permutation_in _ (Permutation_sym P) (or_introl eq_refl)) as I2.
      destruct I1 as [E|I1]; [auto|]. destruct I2 as [E|I2]; [auto|]. specialize (F1 _ I2). specialize (F2 _ I1). unfold row_lt in *. lia. }
    f_equal. apply IH; auto. exact (Permutation_cons_inv P).
  Qed.
  Lemma frame_unique symbols symbols' m m' : Permutation symbols symbols' -> frame_of symbols m -> frame_of symbols' m' -> m = m'.
  Proof.
    intros P (s1 & E1 & G1 & (O1 & O1' & _) & S1 & P1 & C1 & V1) (s2 & E2 & G2 & (O2 & O2' & _) & S2 & P2 & C2 & V2).
    pose proof (O1 _ E1) as L1. pose proof (O2 _ E2) as L2.
    assert (combine s1 (i_dates m) = combine s2 (i_dates m')) as EK.
    { apply sorted_unique; auto. rewrite P1, P2. clear - P. induction P; cbn [flat_map]; [reflexivity| | |].
      - apply Permutation_app_head. exact IHP.
      - rewrite !app_assoc. apply Permutation_app_tail. apply Permutation_app_comm.
      - rewrite IHP1. exact IHP2. }
    assert (length (i_dates m) = length (i_dates m')) as LL.
    { pose proof (f_equal (@length _) EK) as Q. rewrite !combine_length in Q. lia. }
    assert (s1 = s2 /\ i_dates m = i_dates m') as (-> & ED).
    { split; apply nth_error_ext'; try lia; intros i Hi.
      - destruct (nth_lt_some s1 i Hi) as (s & Hs). destruct (nth_lt_some (i_dates m) i ltac:(lia)) as (d & Hd).
        pose proof (proj2 (combine_nth _ _ i s d) (conj Hs Hd)) as Q. rewrite EK in Q. apply combine_nth in Q. destruct Q. congruence.
      - destruct (nth_lt_some s1 i ltac:(lia)) as (s & Hs). destruct (nth_lt_some (i_dates m) i Hi) as (d & Hd).
        pose proof (proj2 (combine_nth _ _ i s d) (conj Hs Hd)) as Q. rewrite EK in Q. apply combine_nth in Q. destruct Q. congruence. }
    assert (map fst (i_columns m) = map fst (i_columns m')) as EC.
    { rewrite C1, C2. apply input_columns_ext. intros c. apply eq_true_iff_eq. rewrite !existsb_exists. split; intros (s & I & H); exists s; (split; [|exact H]); [exact (Permutation_in _ P I)|exact (Permutation_in _ (Permutation_sym P) I)]. }
    assert (i_columns m = i_columns m') as ECol.
    { apply nth_error_ext'; [rewrite <- (map_length fst (i_columns m)), EC, map_length; reflexivity|]. intros n Hn. destruct (nth_lt_some _ _ Hn) as ([c v] & Hc).
      assert (n < length (i_columns m')) as Hn' by (rewrite <- (map_length fst (i_columns m')), <- EC, map_length; exact Hn).
      destruct (nth_lt_some _ _ Hn') as ([c' v'] & Hc'). rewrite Hc, Hc'.
      pose proof (map_nth_error fst _ _ Hc) as N1. pose proof (map_nth_error fst _ _ Hc') as N2. rewrite EC, N2 in N1. inversion N1; subst c'. do 2 f_equal.
      pose proof (nth_error_In _ _ Hc) as I1. pose proof (nth_error_In _ _ Hc') as I2. pose proof (O1' _ I1) as Lv. pose proof (O2' _ I2) as Lv'. cbn [snd] in Lv, Lv'.
      apply nth_error_ext'; [lia|]. intros p Hp. destruct (nth_lt_some s2 p ltac:(lia)) as (s & Hs). destruct (nth_lt_some (i_dates m) p ltac:(lia)) as (d & Hd).
      destruct (V1 p s d Hs Hd) as (i & Hi & A). rewrite ED in Hd. destruct (V2 p s d Hs Hd) as (i' & Hi' & A').
      rewrite (sorted_nth_inj _ _ _ _ (bars_sorted s) Hi' Hi) in A'. destruct (A c v I1) as (x & -> & X). destruct (A' c v' I2) as (x' & -> & X'). f_equal. exact (cell_fun _ _ _ _ _ _ _ _ _ X X'). }
    destruct m, m'; cbn in *. congruence.
  Qed.
End pooled.

(** ** The order of the columns *)
Lemma earlier_dedup l c c' : forall seen, ~ In c seen -> ~ In c' seen -> earlier l c c' -> earlier (dedup seen l) c c'.
Proof.
  intros seen N N' (NE & l1 & l2 & -> & H1 & H2). split; [exact NE|]. revert seen N N'. induction l1 as [|x l1 IH]; intros seen N N'; cbn [app dedup].
  - destruct (mem c seen) eqn:M; [apply mem_in in M; contradiction|]. exists [], (dedup (c :: seen) l2). split; [reflexivity|]. split; [tauto|].
    apply dedup_in. split; [exact H2|]. cbn. intuition congruence.
  - assert (x <> c') as X by (intros ->; apply H1; now left). assert (~ In c' l1) as H1' by (intro; apply H1; now right).
    destruct (mem x seen) eqn:M; [now apply IH|]. destruct (Nat.eq_dec x c) as [->|XC].
    + exists [], (dedup (c :: seen) (l1 ++ c :: l2)). split; [reflexivity|]. split; [tauto|]. apply dedup_in. split; [apply in_app_iff; cbn; auto|]. cbn. intuition congruence.
    + destruct (IH H1' (x :: seen)) as (m1 & m2 & -> & M1 & M2); [cbn; intuition congruence..|]. exists (x :: m1), m2. split; [reflexivity|]. split; [|exact M2].
      cbn. intuition congruence.
Qed.
Lemma columns_as_asked indicators data_cols available stored : (forall c, available c = true <-> stored c) ->
  as_asked stored indicators data_cols (input_columns data_cols indicators available).
Proof.
  intro S. unfold input_columns. assert (A : forall c, In c (filter available data_cols) <-> stored c /\ In c data_cols) by (intro c; rewrite filter_In, S; tauto).
  constructor.
  - intros c c' C C' (NE & l1 & l2 & -> & H1 & H2). apply earlier_dedup; auto. split; [exact NE|].
    exists (filter available l1), (filter available l2 ++ indicators). rewrite filter_app. cbn [filter]. rewrite (proj2 (S c) C), <- app_assoc. split; [reflexivity|].
    split; [rewrite filter_In; tauto|]. apply in_app_iff. left. rewrite filter_In, S. auto.
  - intros c c' C I I' N. assert (c <> c') as NE by (intros ->; tauto). apply earlier_dedup; auto. split; [exact NE|].
    destruct (in_split c (filter available data_cols)) as (l1 & l2 & E); [apply A; auto|]. exists l1, (l2 ++ indicators). rewrite E, <- app_assoc. split; [reflexivity|].
    split; [|apply in_app_iff; auto]. intro J. apply N, A. rewrite E. apply in_app_iff. auto.
  - intros c c' N N' (NE & l1 & l2 & -> & H1 & H2). apply earlier_dedup; auto. split; [exact NE|]. exists (filter available data_cols ++ l1), l2.
    rewrite <- app_assoc. split; [reflexivity|]. split; [|exact H2]. rewrite in_app_iff, A. tauto.
Qed.
Lemma available_some {A} (o : option A) : has o = true <-> o <> None.
Proof. destruct o; cbn; split; congruence. Qed.
