From Coq Require Import Sorted.
From Verif Require Export DataSpec.

(** Sorting. *)
Lemma before_spec x y : before x y = true <-> (r_date x < r_date y)%Z \/ r_date x = r_date y /\ r_symbol x <= r_symbol y.
Proof. unfold before. rewrite orb_true_iff, andb_true_iff, Z.ltb_lt, Z.eqb_eq, Nat.leb_le. reflexivity. Qed.
Lemma before_false x y : before x y = false -> (r_date y < r_date x)%Z \/ r_date x = r_date y /\ r_symbol y < r_symbol x.
Proof.
  intros E. assert (~ before x y = true) as N by congruence. rewrite before_spec in N.
  destruct (Z.lt_trichotomy (r_date x) (r_date y)) as [H|[H|H]]; [tauto| |tauto].
  right. split; [exact H|]. destruct (Nat.lt_ge_cases (r_symbol y) (r_symbol x)) as [K|K]; [exact K|]. tauto.
Qed.
Definition keyf (s : nat) (d : Z) (x : row) : bool := (r_symbol x =? s) && (r_date x =? d)%Z.
Lemma keyf_spec s d x : keyf s d x = true <-> r_symbol x = s /\ r_date x = d.
Proof. unfold keyf. rewrite andb_true_iff, Nat.eqb_eq, Z.eqb_eq. reflexivity. Qed.
Lemma keyf_insert s d x l : filter (keyf s d) (insert x l) = filter (keyf s d) (x :: l).
Proof.
  induction l as [|y r IH]; [reflexivity|]. cbn [insert]. destruct (before x y) eqn:B; [reflexivity|].
  cbn [filter] in *. rewrite IH. destruct (keyf s d x) eqn:K; [|reflexivity].
  destruct (keyf s d y) eqn:K'; [|reflexivity].
  apply keyf_spec in K, K'. apply before_false in B. lia.
Qed.
Lemma keyf_sort s d l : filter (keyf s d) (sort_rows l) = filter (keyf s d) l.
Proof.
  induction l as [|x r IH]; [reflexivity|]. change (sort_rows (x :: r)) with (insert x (sort_rows r)).
  rewrite keyf_insert. cbn [filter]. rewrite IH. reflexivity.
Qed.
Definition le_row (x y : row) : Prop := (r_date x < r_date y)%Z \/ r_date x = r_date y /\ r_symbol x <= r_symbol y.
Lemma insert_sorted x l : StronglySorted le_row l -> StronglySorted le_row (insert x l).
Proof.
  induction l as [|y r IH]; intros HS; cbn [insert]; [repeat constructor|].
  inversion HS as [|? ? HS' F]; subst. destruct (before x y) eqn:B.
  - apply before_spec in B. constructor; [exact HS|]. constructor; [exact B|].
    eapply Forall_impl; [|exact F]. unfold le_row in *. intros z Hz. lia.
  - apply before_false in B. constructor; [apply IH; exact HS'|]. clear IH HS HS'.
    induction r as [|z r IH]; cbn [insert]; [constructor; [unfold le_row; lia|constructor]|].
    inversion F as [|? ? F1 F2]; subst. destruct (before x z); constructor; auto; try (unfold le_row in *; lia).
Qed.
Lemma sort_sorted l : StronglySorted le_row (sort_rows l).
Proof. induction l as [|x r IH]; [constructor|apply insert_sorted; exact IH]. Qed.
Lemma sorted_unique l l' : StronglySorted le_row l -> StronglySorted le_row l' ->
  (forall s d, filter (keyf s d) l = filter (keyf s d) l') -> l = l'.
Proof.
  revert l'. induction l as [|x r IH]; intros l' S1 S2 F.
  - destruct l' as [|y r']; [reflexivity|]. specialize (F (r_symbol y) (r_date y)). cbn [filter] in F.
    assert (keyf (r_symbol y) (r_date y) y = true) as K by (apply keyf_spec; auto). rewrite K in F. discriminate.
  - assert (forall a, keyf (r_symbol a) (r_date a) a = true) as K by (intros; apply keyf_spec; auto).
    destruct l' as [|y r'].
    { specialize (F (r_symbol x) (r_date x)). cbn [filter] in F. rewrite K in F. discriminate. }
    inversion S1 as [|? ? S1' F1]; subst. inversion S2 as [|? ? S2' F2]; subst.
    assert (In x (filter (keyf (r_symbol x) (r_date x)) (y :: r'))) as I1
      by (rewrite <- F; cbn [filter]; rewrite K; left; reflexivity).
    assert (In y (filter (keyf (r_symbol y) (r_date y)) (x :: r))) as I2
      by (rewrite F; cbn [filter]; rewrite K; left; reflexivity).
    apply filter_In in I1, I2. destruct I1 as [I1 _], I2 as [I2 _].
    assert (le_row y x) as L1 by (destruct I1 as [->|I1]; [right; lia|rewrite Forall_forall in F2; auto]).
    assert (le_row x y) as L2 by (destruct I2 as [->|I2]; [right; lia|rewrite Forall_forall in F1; auto]).
    assert (r_date x = r_date y /\ r_symbol x = r_symbol y) as [D Y] by (unfold le_row in *; lia).
    assert (x = y) as ->.
    { pose proof (F (r_symbol x) (r_date x)) as G. cbn [filter] in G. rewrite K in G.
      rewrite D, Y, K in G. congruence. }
    f_equal. apply IH; auto. intros s d. specialize (F s d). cbn [filter] in F. destruct (keyf s d y); congruence.
Qed.
Lemma sorted_in_order l : StronglySorted le_row l -> in_order l.
Proof.
  intros HS a x b y c ->. induction a as [|z a IH]; cbn [app] in HS; inversion HS as [|? ? HS' F]; subst; [|auto].
  rewrite Forall_forall in F. apply F. apply in_app_iff. right. left. reflexivity.
Qed.
Lemma in_order_sorted l : in_order l -> StronglySorted le_row l.
Proof.
  induction l as [|x r IH]; intros H; constructor.
  - apply IH. intros a x' b y c E. apply (H (x :: a) x' b y c). rewrite E. reflexivity.
  - apply Forall_forall. intros y I. destruct (in_split _ _ I) as (b & c & ->). apply (H [] x b y c). reflexivity.
Qed.
Lemma sort_cons_nil l : sort_rows l = [] <-> l = [].
Proof.
  split; [|intros ->; reflexivity]. destruct l as [|x r]; [auto|]. change (sort_rows (x :: r)) with (insert x (sort_rows r)).
  destruct (sort_rows r) as [|y t]; cbn [insert]; [discriminate|destruct (before x y); discriminate].
Qed.

(** Sets of columns and symbols. *)
Lemma mem_spec x l : mem x l = true <-> In x l.
Proof.
  unfold mem. rewrite existsb_exists. split; [intros (y & I & E); apply Nat.eqb_eq in E; subst; exact I|].
  intros I. exists x. split; [exact I|apply Nat.eqb_refl].
Qed.
Lemma mem_false x l : mem x l = false <-> ~ In x l.
Proof. rewrite <- mem_spec. destruct (mem x l); intuition congruence. Qed.
Lemma subset_spec a b : subset a b = true <-> forall c, In c a -> In c b.
Proof. unfold subset. rewrite forallb_forall. setoid_rewrite mem_spec. reflexivity. Qed.
Lemma same_cols_spec f g : same_cols f g = true <-> forall c, In c (f_cols f) <-> In c (f_cols g).
Proof. unfold same_cols. rewrite andb_true_iff, !subset_spec. firstorder. Qed.
Lemma concat2_cols f g c : In c (f_cols (concat2 f g)) <-> In c (f_cols f) \/ In c (f_cols g).
Proof.
  cbn [concat2 f_cols]. rewrite in_app_iff, filter_In, negb_true_iff, mem_false.
  destruct (in_dec Nat.eq_dec c (f_cols f)); tauto.
Qed.
Lemma concat_from l : forall f, (f_rows (fold_left concat2 l f) = f_rows f ++ flat_map f_rows l)
  /\ forall c, In c (f_cols (fold_left concat2 l f)) <-> In c (f_cols f) \/ exists g, In g l /\ In c (f_cols g).
Proof.
  induction l as [|g r IH]; intros f; cbn [fold_left flat_map].
  - rewrite app_nil_r. split; [reflexivity|]. intros c. split; [auto|]. intros [H|(g & [] & _)]; exact H.
  - destruct (IH (concat2 f g)) as [R C]. split.
    + rewrite R. cbn [concat2 f_rows]. rewrite app_assoc. reflexivity.
    + intros c. rewrite C, concat2_cols. split.
      * intros [[H|H]|(h & I & H)]; [auto|right; exists g; split; [left; reflexivity|exact H]|].
        right. exists h. split; [right; exact I|exact H].
      * intros [H|(h & [->|I] & H)]; eauto.
Qed.
Lemma concat_rows l : f_rows (concat l) = flat_map f_rows l.
Proof. exact (proj1 (concat_from l no_frame)). Qed.
Lemma concat_cols l c : In c (f_cols (concat l)) <-> exists g, In g l /\ In c (f_cols g).
Proof. unfold concat. rewrite (proj2 (concat_from l no_frame)). cbn. firstorder. Qed.

Lemma of_symbol_app s a b : of_symbol s (a ++ b) = of_symbol s a ++ of_symbol s b.
Proof. apply filter_app. Qed.
Lemma of_symbol_all s l : (forall x, In x l -> r_symbol x = s) -> of_symbol s l = l.
Proof.
  induction l as [|x r IH]; intros H; [reflexivity|]. cbn [of_symbol filter].
  rewrite (proj2 (Nat.eqb_eq _ _) (H x (or_introl eq_refl))). f_equal. apply IH. intros y I. apply H. right. exact I.
Qed.
Lemma of_symbol_none s t l : s <> t -> (forall x, In x l -> r_symbol x = t) -> of_symbol s l = [].
Proof.
  intros N. induction l as [|x r IH]; intros H; [reflexivity|]. cbn [of_symbol filter].
  destruct (Nat.eqb_spec (r_symbol x) s) as [E|E]; [rewrite (H x (or_introl eq_refl)) in E; congruence|].
  apply IH. intros y I. apply H. right. exact I.
Qed.
Lemma of_symbol_flat s g l : NoDup l -> (forall t x, In x (g t) -> r_symbol x = t) ->
  of_symbol s (flat_map g l) = if mem s l then g s else [].
Proof.
  intros ND H. induction l as [|t r IH]; [reflexivity|]. inversion ND as [|? ? N1 N2]; subst.
  cbn [flat_map]. rewrite of_symbol_app, (IH N2). cbn [mem existsb]. change (existsb (Nat.eqb s) r) with (mem s r).
  destruct (Nat.eqb_spec s t) as [->|N]; cbn [orb].
  - rewrite of_symbol_all by (intros; eapply H; eassumption). apply mem_false in N1. rewrite N1. apply app_nil_r.
  - rewrite (of_symbol_none s t) by (auto; intros; eapply H; eassumption). reflexivity.
Qed.
Lemma keyf_of_symbol s d l : filter (keyf s d) l = filter (fun x => (r_date x =? d)%Z) (of_symbol s l).
Proof.
  induction l as [|x r IH]; [reflexivity|]. cbn [filter of_symbol]. unfold keyf at 1.
  destruct (r_symbol x =? s); cbn [andb filter]; [|exact IH].
  destruct (r_date x =? d)%Z; [f_equal|]; exact IH.
Qed.
Lemma of_symbol_nil l : (forall s, of_symbol s l = []) -> l = [].
Proof.
  intros H. destruct l as [|x r]; [reflexivity|]. specialize (H (r_symbol x)). cbn [of_symbol filter] in H.
  rewrite Nat.eqb_refl in H. discriminate.
Qed.

(** The cache. *)
Lemma key_eqb_spec a b : key_eqb a b = true <-> a = b.
Proof.
  unfold key_eqb. rewrite !andb_true_iff, !Nat.eqb_eq, !Z.eqb_eq. destruct a, b; cbn. split.
  - intros (((((-> & ->) & ->) & ->) & ->) & ->). reflexivity.
  - intros E. inversion E. auto 10.
Qed.
Lemma cache_get_set k k' f c : cache_get k (cache_set k' f c) = if key_eqb k k' then Some f else cache_get k c.
Proof. reflexivity. Qed.
Lemma seen_in l : forall seen s, In s (seen_symbols seen l) -> of_symbol s l <> [].
Proof.
  induction l as [|x r IH]; intros seen s I; [destruct I|]. cbn [seen_symbols] in I. cbn [of_symbol filter].
  destruct (Nat.eqb_spec (r_symbol x) s) as [E|E]; [discriminate|].
  destruct (mem (r_symbol x) seen); [exact (IH _ _ I)|]. destruct I as [I|I]; [congruence|exact (IH _ _ I)].
Qed.
Lemma seen_all l : forall seen s, of_symbol s l <> [] -> ~ In s seen -> In s (seen_symbols seen l).
Proof.
  induction l as [|x r IH]; intros seen s H N; [destruct (H eq_refl)|]. cbn [seen_symbols]. cbn [of_symbol filter] in H.
  destruct (Nat.eqb_spec (r_symbol x) s) as [E|E].
  - subst. apply mem_false in N. rewrite N. left. reflexivity.
  - destruct (mem (r_symbol x) seen); [exact (IH _ _ H N)|]. right. apply IH; [exact H|]. intros [K|K]; [congruence|auto].
Qed.

Section Query.
Variable seconds : nat -> nat.
Notation ckey := (cache_key seconds).
Lemma ckey_inj q q' s s' : ckey q s = ckey q' s' -> s = s' /\ forall t, ckey q t = ckey q' t.
Proof. unfold cache_key. intros E. inversion E. split; [reflexivity|]. intros t. f_equal; assumption. Qed.
Lemma ckey_request q q' s s' : ckey q s = ckey q' s' -> same_request seconds q q'.
Proof. unfold cache_key, same_request. intros E. inversion E. auto. Qed.
Lemma ckey_same q q' s : same_request seconds q q' -> ckey q s = ckey q' s.
Proof. unfold cache_key, same_request. intros (-> & -> & -> & -> & ->). reflexivity. Qed.
Lemma ckey_fold q (F : nat -> frame) l : forall c k,
  cache_get k (fold_left (fun c s => cache_set (ckey q s) (F s) c) l c)
  = match find (fun s => key_eqb k (ckey q s)) (rev l) with Some s => Some (F s) | None => cache_get k c end.
Proof.
  induction l as [|s r IH]; intros c k; [reflexivity|]. cbn [fold_left rev]. rewrite IH, cache_get_set.
  generalize (rev r) as m. intros m. induction m as [|t m IHm]; cbn [app find].
  - destruct (key_eqb k (ckey q s)); reflexivity.
  - destruct (key_eqb k (ckey q t)); [reflexivity|exact IHm].
Qed.
Lemma set_cached_get c q df k : cache_get k (match set_cached seconds (Some c) q df with Some c' => c' | None => [] end)
  = match cache_get k c with
    | e => if empty df then e
           else if key_eqb k (ckey q (k_symbol k)) && negb (match of_symbol (k_symbol k) (f_rows df) with [] => true | _ => false end)
                then Some (mk_frame (f_cols df) (of_symbol (k_symbol k) (f_rows df))) else e
    end.
Proof.
  unfold set_cached. destruct (empty df); [reflexivity|]. rewrite ckey_fold.
  destruct (find _ _) as [s|] eqn:E.
  - apply find_some in E. destruct E as [I E]. apply key_eqb_spec in E. subst k.
    change (k_symbol (ckey q s)) with s. rewrite (proj2 (key_eqb_spec _ _) eq_refl).
    rewrite <- in_rev in I. apply seen_in in I. destruct (of_symbol s (f_rows df)); [congruence|reflexivity].
  - destruct (key_eqb k (ckey q (k_symbol k))) eqn:K; [|reflexivity].
    destruct (of_symbol (k_symbol k) (f_rows df)) eqn:O; [reflexivity|].
    exfalso. assert (In (k_symbol k) (rev (seen_symbols [] (f_rows df)))) as I.
    { apply -> in_rev. apply seen_all; [congruence|intros []]. }
    pose proof (find_none _ _ E _ I) as N. cbv beta in N. congruence.
Qed.

(** An honest vendor. *)
Section Honest.
Variable v : vendor seconds.
Variable fetch : list nat -> request -> option frame.
Hypothesis SV : serves v fetch.

(** Every entry is what the vendor has. *)
Definition trusted (c : cache) : Prop := forall q s f, cache_get (ckey q s) c = Some f ->
  f_rows f = v_rows v s q /\ f_rows f <> [] /\ (forall x, In x (f_cols f) <-> In x (v_cols v q)).
Definition trusted_world (w : world) : Prop := match w_cache w with Some c => trusted c | None => True end.

Definition hits (c : cache) q syms := filter (fun s => match cache_get (ckey q s) c with Some _ => true | None => false end) syms.
Definition misses (c : cache) q syms := filter (fun s => match cache_get (ckey q s) c with Some _ => false | None => true end) syms.
Lemma hits_misses c q syms s : In s syms <-> In s (hits c q syms) \/ In s (misses c q syms).
Proof. unfold hits, misses. rewrite !filter_In. destruct (cache_get (ckey q s) c); intuition congruence. Qed.
Lemma hit_not_miss c q syms s : In s (hits c q syms) -> In s (misses c q syms) -> False.
Proof. unfold hits, misses. rewrite !filter_In. destruct (cache_get (ckey q s) c); intuition congruence. Qed.

Lemma cached_rows c q syms : trusted c -> f_rows (fst (get_cached seconds (Some c) q syms)) = flat_map (fun s => v_rows v s q) (hits c q syms).
Proof.
  intros T. cbn [get_cached fst]. rewrite concat_rows. induction syms as [|s r IH]; [reflexivity|].
  cbn [flat_map hits filter]. destruct (cache_get (ckey q s) c) as [f|] eqn:G; cbn [app flat_map]; [|exact IH].
  rewrite (proj1 (T q s f G)). f_equal. exact IH.
Qed.
Lemma cached_cols c q syms x : trusted c ->
  In x (f_cols (fst (get_cached seconds (Some c) q syms))) <-> hits c q syms <> [] /\ In x (v_cols v q).
Proof.
  intros T. cbn [get_cached fst]. rewrite concat_cols. split.
  - intros (g & I & C). apply in_flat_map in I. destruct I as (s & I & G).
    destruct (cache_get (ckey q s) c) as [f|] eqn:E; [|destruct G]. destruct G as [->|[]].
    split; [|apply (T q s g E); exact C]. intros N.
    assert (In s (hits c q syms)) as K by (apply filter_In; rewrite E; auto). rewrite N in K. destruct K.
  - intros [N C]. destruct (hits c q syms) as [|s r] eqn:E; [congruence|].
    assert (In s (hits c q syms)) as K by (rewrite E; left; reflexivity). apply filter_In in K. destruct K as [I K].
    destruct (cache_get (ckey q s) c) as [f|] eqn:G; [|discriminate]. exists f. split.
    + apply in_flat_map. exists s. rewrite G. split; [exact I|left; reflexivity].
    + apply (T q s f G). exact C.
Qed.
Lemma cached_nonempty c q syms : trusted c -> hits c q syms <> [] -> f_rows (fst (get_cached seconds (Some c) q syms)) <> [].
Proof.
  intros T N. rewrite cached_rows by exact T. destruct (hits c q syms) as [|s r] eqn:E; [congruence|].
  assert (In s (hits c q syms)) as K by (rewrite E; left; reflexivity). apply filter_In in K. destruct K as [_ K].
  destruct (cache_get (ckey q s) c) as [f|] eqn:G; [|discriminate]. destruct (T q s f G) as (R & R' & _).
  cbn [flat_map]. rewrite R in R'. destruct (v_rows v s q); [congruence|discriminate].
Qed.
Lemma trusted_set c q df syms : trusted c -> 
  (forall s, of_symbol s (f_rows df) = if mem s syms then v_rows v s q else []) ->
  (f_rows df <> [] -> forall x, In x (f_cols df) <-> In x (v_cols v q)) ->
  match set_cached seconds (Some c) q df with Some c' => trusted c' | None => True end.
Proof.
  intros T R C. destruct (set_cached seconds (Some c) q df) as [c'|] eqn:E; [|exact I].
  intros q' s f G. pose proof (set_cached_get c q df (ckey q' s)) as H. rewrite E in H. rewrite G in H.
  change (k_symbol (ckey q' s)) with s in H.
  destruct (empty df); [exact (T _ _ _ (eq_sym H))|].
  destruct (key_eqb (ckey q' s) (ckey q s)) eqn:K; cbn [andb] in H; [|exact (T _ _ _ (eq_sym H))].
  destruct (of_symbol s (f_rows df)) as [|x l] eqn:O; cbn [negb] in H; [exact (T _ _ _ (eq_sym H))|].
  apply key_eqb_spec in K. inversion H; subst f; clear H. cbn [f_rows f_cols].
  pose proof (R s) as Rs. rewrite O in Rs. destruct (mem s syms); [|discriminate].
  apply ckey_request in K. rewrite (v_same_rows _ v s q' q K). rewrite (v_same_cols _ v q' q K).
  split; [exact Rs|]. split; [discriminate|]. apply C. intros N. rewrite N in O. discriminate.
Qed.

Definition good_frame syms q (f : frame) : Prop :=
  exactly_rows v syms q (f_rows f) /\ (f_rows f <> [] -> forall c, In c (f_cols f) <-> In c (v_cols v q)).
Lemma good_sorted syms q f :
  (forall s, of_symbol s (f_rows f) = if mem s syms then v_rows v s q else []) ->
  (f_rows f <> [] -> f_cols f <> [] /\ forall c, In c (f_cols f) <-> In c (v_cols v q)) ->
  good_frame syms q (sorted_unless_empty f).
Proof.
  intros R C. unfold sorted_unless_empty. destruct (empty f) eqn:E.
  - assert (f_rows f = []) as N.
    { unfold empty, empty_cols in E. destruct (f_rows f) as [|x l] eqn:F; [reflexivity|]. destruct (C ltac:(discriminate)) as [C1 _].
      destruct (f_cols f); [congruence|discriminate]. }
    split; [|rewrite N; congruence]. rewrite N in *. split; [intros a x b y c Q; destruct a; discriminate|].
    intros s d. specialize (R s). cbn in R. cbn [filter]. destruct (mem s syms); [rewrite <- R|]; reflexivity.
  - cbn [sort_values f_rows f_cols]. split.
    + split; [apply sorted_in_order, sort_sorted|]. intros s d.
      change (filter (keyf s d) (sort_rows (f_rows f)) = if mem s syms then filter (fun x => (r_date x =? d)%Z) (v_rows v s q) else []).
      rewrite keyf_sort, keyf_of_symbol, R. destruct (mem s syms); reflexivity.
    + cbn [f_rows f_cols]. intros N. apply C. intros K. apply N. apply sort_cons_nil. exact K.
Qed.

Variable order : list nat -> list nat.
Hypothesis EN : enumerates order.
Lemma mem_order l s : mem s (order l) = mem s l.
Proof. apply eq_true_iff_eq. rewrite !mem_spec. apply EN. Qed.

(** No entry goes away, and the symbols of an answered query that have data are in. *)
Definition keeps_entries (arg : symbols) q (w w' : world) (a : answer) : Prop :=
  forall c, w_cache w = Some c -> exists c', w_cache w' = Some c'
    /\ (forall k, cache_get k c <> None -> cache_get k c' <> None)
    /\ (forall f, a = Frame f -> forall s, In s (elements arg) -> v_rows v s q <> [] -> cache_get (ckey q s) c' <> None).
Lemma keeps_same arg q w e : keeps_entries arg q w w (Raises e).
Proof. intros c E. exists c. split; [exact E|]. split; [auto|discriminate]. Qed.

(** What one query does against a trusted cache. *)
Lemma honest_query n arg q w : trusted_world w ->
  exists a w', query seconds order fetch (S n) arg q w = (a, w') /\ trusted_world w'
    /\ (w_cache w = None <-> w_cache w' = None) /\ keeps_entries arg q w w' a
    /\ (if (q_end q <? q_start q)%Z then a = Raises Bad_dates
        else if (match elements arg with [] => true | _ => false end) then a = Raises No_symbols
        else exists f, a = Frame f /\ good_frame (elements arg) q f).
Proof.
  intros T. cbn [query]. destruct (q_end q <? q_start q)%Z; [eexists _, _; split; [reflexivity|]; pose proof keeps_same; split; [exact T|]; split; [tauto|]; auto|].
  destruct (EN (elements arg)) as [ND IN].
  assert ((match elements arg with [] => true | _ => false end) = match order (elements arg) with [] => true | _ => false end) as ->.
  { destruct (elements arg) as [|x l], (order _) as [|y m]; try reflexivity.
    - destruct (proj1 (IN y) (or_introl eq_refl)).
    - destruct (proj2 (IN x) (or_introl eq_refl)). }
  pose proof (mem_order (elements arg)) as MO.
  set (u := order (elements arg)) in *. clearbody u.
  destruct u as [|u0 ur] eqn:EU; [eexists _, _; split; [reflexivity|]; pose proof keeps_same; split; [exact T|]; split; [tauto|]; auto|]. rewrite <- EU in *. clear EU u0 ur.
  destruct w as [[c|] lg]; cbn [w_cache w_log].
  - unfold trusted_world in T. cbn [w_cache] in T.
    pose proof (cached_rows c q u T) as CR. pose proof (fun x => cached_cols c q u x T) as CC.
    pose proof (cached_nonempty c q u T) as CN.
    assert (snd (get_cached seconds (Some c) q u) = misses c q u) as M by reflexivity.
    destruct (get_cached seconds (Some c) q u) as [cached un]. cbn [fst snd] in *. subst un.
    assert (forall s, of_symbol s (f_rows cached) = if mem s (hits c q u) then v_rows v s q else []) as CS.
    { intros s. rewrite CR. apply of_symbol_flat; [apply NoDup_filter; exact ND|intros; eapply v_rows_sym; eassumption]. }
    assert (f_cols cached <> [] <-> hits c q u <> []) as CE.
    { split.
      - intros N K. destruct (f_cols cached) as [|x l]; [congruence|]. destruct (proj1 (CC x) (or_introl eq_refl)). congruence.
      - intros N K. assert (In SYMBOL (f_cols cached)) as K' by (apply CC; split; [exact N|apply v_cols_required; cbn; auto]).
        rewrite K in K'. destruct K'. }
    assert (f_rows cached <> [] -> hits c q u <> []) as CRN.
    { intros N K. apply N. rewrite CR, K. reflexivity. }
    destruct (misses c q u) as [|m0 mr] eqn:EM.
    + eexists _, _. split; [reflexivity|]. split; [exact T|]. split; [tauto|]. split.
      { intros c0 E0. inversion E0; subst c0. exists c. split; [reflexivity|]. split; [auto|]. intros f _ s I _ N.
        apply IN in I. apply (hits_misses c q u s) in I. rewrite EM in I. destruct I as [I|[]].
        apply filter_In in I. rewrite N in I. destruct I. discriminate. }
      eexists. split; [reflexivity|].
      apply good_sorted.
      * intros s. rewrite CS, <- MO. replace (mem s (hits c q u)) with (mem s u); [reflexivity|].
        apply eq_true_iff_eq. rewrite !mem_spec, (hits_misses c q u s), EM. cbn. tauto.
      * intros N. split; [apply CE, CRN; exact N|]. intros x. rewrite CC. specialize (CRN N). tauto.
    + rewrite <- EM. 
      destruct (SV (misses c q u) q) as (df & F & DR & DC). rewrite F.
      match goal with |- context [if ?b then query _ _ _ _ _ _ _ else _] => replace b with false end.
      2:{ symmetry. destruct (empty df) eqn:ED; [reflexivity|]. destruct (empty_cols cached) eqn:EC; [reflexivity|].
          cbn [negb andb]. apply negb_false_iff. apply same_cols_spec. intros x.
          destruct DC as [[D1 D2]|DC]; [unfold empty in ED; rewrite D2 in ED; discriminate|].
          rewrite DC, CC. assert (hits c q u <> []); [|tauto]. apply CE. unfold empty_cols in EC. destruct (f_cols cached); congruence. }
      set (df' := if empty df && empty_cols df then mk_frame required [] else df).
      assert (f_rows df' = f_rows df) as RD.
      { unfold df'. destruct (empty df && empty_cols df) eqn:E; [|reflexivity]. apply andb_true_iff in E. destruct E as [_ E].
        unfold empty_cols in E. destruct (f_cols df) as [|x l]; [|discriminate]. destruct DC as [[_ ->]|DC]; [reflexivity|].
        destruct (proj2 (DC SYMBOL)); apply v_cols_required; cbn; auto. }
      assert (forall x, In x required -> In x (f_cols df')) as CD.
      { unfold df'. destruct (empty df && empty_cols df) eqn:E; [auto|]. destruct DC as [[D1 D2]|DC].
        - unfold empty, empty_cols in E. rewrite D1, D2 in E. discriminate.
        - intros x I. apply DC. apply v_cols_required. exact I. }
      assert (f_rows df' <> [] -> forall x, In x (f_cols df') <-> In x (v_cols v q)) as CD'.
      { intros N. unfold df' in *. destruct (empty df && empty_cols df) eqn:E; [cbn in N; congruence|].
        destruct DC as [[D1 D2]|DC]; [congruence|exact DC]. }
      assert (forall s, of_symbol s (f_rows df') = if mem s (misses c q u) then v_rows v s q else []) as DR' by (intros; rewrite RD; apply DR).
      assert (empty df' = match f_rows df' with [] => true | _ => false end) as ED.
      { unfold empty, empty_cols. destruct (f_cols df') as [|y t]; [destruct (CD SYMBOL); cbn; auto|]. destruct (f_rows df'); reflexivity. }
      clearbody df'. clear RD DR DC F df. cbv zeta.
      rewrite (proj2 (subset_spec _ _) CD).
      eexists _, _. split; [reflexivity|]. split; [|split; [|split]].
      * unfold trusted_world. cbn [w_cache]. exact (trusted_set c q df' _ T DR' CD').
      * cbn [w_cache]. unfold set_cached. destruct (empty df'); split; discriminate.
      * intros c0 E0. inversion E0; subst c0. cbn [w_cache]. clear E0. pose proof (set_cached_get c q df') as G.
        destruct (set_cached seconds (Some c) q df') as [c'|] eqn:EC; [|unfold set_cached in EC; destruct (empty df'); discriminate].
        exists c'. split; [reflexivity|]. split.
        -- intros k N. rewrite G. destruct (empty df'); [exact N|].
           destruct (key_eqb k _ && negb _); [discriminate|exact N].
        -- intros f _ s I N. rewrite G. change (k_symbol (ckey q s)) with s. apply IN in I. apply (hits_misses c q u s) in I.
           destruct I as [I|I].
           ++ apply filter_In in I. destruct (cache_get (ckey q s) c); [|destruct I; discriminate].
              destruct (empty df'); [discriminate|]. destruct (key_eqb _ _ && negb _); discriminate.
           ++ pose proof (DR' s) as D. apply mem_spec in I. rewrite I in D. rewrite (proj2 (key_eqb_spec _ _) eq_refl), D.
              rewrite ED. destruct (f_rows df'); [cbn in D; congruence|]. destruct (v_rows v s q); [congruence|discriminate].
      * eexists. split; [reflexivity|].
        assert (forall s, of_symbol s (f_rows cached ++ f_rows df') = if mem s (elements arg) then v_rows v s q else []) as TOT.
        { intros s. rewrite of_symbol_app, CS, DR', <- MO.
          pose proof (hits_misses c q u s) as HM. pose proof (hit_not_miss c q u s) as HN. rewrite <- !mem_spec in *.
          destruct (mem s (hits c q u)), (mem s (misses c q u)), (mem s u); rewrite ?app_nil_r; try reflexivity; intuition congruence. }
        destruct (empty df' && negb (empty cached)) eqn:E.
        -- apply andb_true_iff in E. destruct E as [E _]. rewrite ED in E. destruct (f_rows df'); [|discriminate].
           rewrite app_nil_r in TOT. apply good_sorted; [exact TOT|]. intros N. split; [apply CE, CRN; exact N|].
           intros x. rewrite CC. specialize (CRN N). tauto.
        -- apply good_sorted; [exact TOT|]. intros N. cbn [concat2 f_rows] in N. split.
           ++ intros K. assert (In SYMBOL (f_cols (concat2 cached df'))) as K' by (apply concat2_cols; right; apply CD; cbn; auto).
              rewrite K in K'. destruct K'.
           ++ intros x. rewrite concat2_cols, CC.
              assert (f_rows cached <> [] \/ f_rows df' <> []) as [N'|N'] by (destruct (f_rows cached); [right; exact N|left; discriminate]).
              ** destruct (f_rows df') as [|y t] eqn:FD.
                 --- exfalso. rewrite ED in E. cbn [andb] in E. apply negb_false_iff in E. unfold empty, empty_cols in E.
                     pose proof (proj2 CE (CRN N')) as CE'. destruct (f_rows cached); [congruence|]. destruct (f_cols cached); congruence.
                 --- rewrite (CD' ltac:(discriminate)). tauto.
              ** rewrite (CD' N'). tauto.
  - destruct (get_cached seconds None q u) as [cached un] eqn:GC. cbn in GC. inversion GC; subst cached un. clear GC.
    destruct u as [|m0 mr] eqn:EU; [eexists _, _; split; [reflexivity|]; split; [exact T|]; split; [tauto|]; split; [discriminate|];
      eexists; split; [reflexivity|]; apply good_sorted; [intros s; rewrite <- MO; reflexivity|cbn; congruence]|].
    rewrite <- EU in *. destruct (SV u q) as (df & F & DR & DC). rewrite F. cbn [andb]. cbv zeta.
    set (df' := if empty df && empty_cols df then mk_frame required [] else df).
    assert (f_rows df' = f_rows df) as RD.
    { unfold df'. destruct (empty df && empty_cols df) eqn:E; [|reflexivity]. apply andb_true_iff in E. destruct E as [_ E].
      unfold empty_cols in E. destruct (f_cols df) as [|x l]; [|discriminate]. destruct DC as [[_ ->]|DC]; [reflexivity|].
      destruct (proj2 (DC SYMBOL)); apply v_cols_required; cbn; auto. }
    assert (forall x, In x required -> In x (f_cols df')) as CD.
    { unfold df'. destruct (empty df && empty_cols df) eqn:E; [auto|]. destruct DC as [[D1 D2]|DC].
      - unfold empty, empty_cols in E. rewrite D1, D2 in E. discriminate.
      - intros x I. apply DC. apply v_cols_required. exact I. }
    assert (f_rows df' <> [] -> forall x, In x (f_cols df') <-> In x (v_cols v q)) as CD'.
    { intros N. unfold df' in *. destruct (empty df && empty_cols df) eqn:E; [cbn in N; congruence|].
      destruct DC as [[D1 D2]|DC]; [congruence|exact DC]. }
    rewrite (proj2 (subset_spec _ _) CD). eexists _, _. split; [reflexivity|]. split; [|split; [|split]].
    + unfold trusted_world, set_cached. cbn [w_cache]. destruct (empty df'); exact I.
    + cbn [w_cache]. unfold set_cached. destruct (empty df'); tauto.
    + intros c0 E0. discriminate E0.
    + eexists. split; [reflexivity|]. replace (empty no_frame) with true by reflexivity. rewrite andb_false_r. apply good_sorted.
      * intros s. cbn [concat2 f_rows no_frame app]. rewrite RD, DR, MO. reflexivity.
      * intros N. cbn [concat2 no_frame f_rows app] in N. split.
        -- intros K. assert (In SYMBOL (f_cols (concat2 no_frame df'))) as K' by (apply concat2_cols; right; apply CD; cbn; auto).
           rewrite K in K'. destruct K'.
        -- intros x. rewrite concat2_cols, (CD' N). cbn. tauto.
Qed.
End Honest.

(** Any vendor. *)
Lemma query_more order fetch n : forall m arg q w a w', n <= m -> a <> Deeper ->
  query seconds order fetch n arg q w = (a, w') -> query seconds order fetch m arg q w = (a, w').
Proof.
  induction n as [|n IH]; intros m arg q w a w' L N E; [cbn in E; inversion E; congruence|].
  destruct m as [|m]; [lia|]. cbn [query] in E |- *.
  destruct (q_end q <? q_start q)%Z; [exact E|]. destruct (order (elements arg)) as [|u0 ur]; [exact E|].
  destruct (get_cached seconds (w_cache w) q (u0 :: ur)) as [cached [|m0 mr]]; [exact E|].
  destruct (fetch (m0 :: mr) q) as [df|]; [|exact E].
  destruct (_ && negb (same_cols cached df)) eqn:B; [|exact E]. apply IH; [lia|exact N|exact E].
Qed.
Lemma queries_unique order fetch arg q w a w' b w'' :
  queries seconds order fetch arg q w a w' -> queries seconds order fetch arg q w b w'' -> a = b /\ w' = w''.
Proof.
  intros (N & n & E) (N' & m & E').
  apply (query_more _ _ n (Nat.max n m)) in E; [|lia|exact N]. apply (query_more _ _ m (Nat.max n m)) in E'; [|lia|exact N'].
  rewrite E in E'. inversion E'. auto.
Qed.
Lemma get_cached_none q u : get_cached seconds None q u = (no_frame, u).
Proof. reflexivity. Qed.
Lemma get_cached_nil q u : get_cached seconds (Some []) q u = (no_frame, u).
Proof.
  cbn [get_cached]. f_equal.
  - replace (flat_map _ u) with (@nil frame); [reflexivity|]. induction u as [|x r IH]; [reflexivity|exact IH].
  - induction u as [|x r IH]; [reflexivity|]. cbn [filter cache_get]. f_equal. exact IH.
Qed.
(** With nothing cached a query fetches everything, once. *)
Lemma query_nil order fetch n arg q lg :
  exists a w', query seconds order fetch (S n) arg q (mk_world (Some []) lg) = (a, w') /\ a <> Deeper
    /\ (forall n' lg', fst (query seconds order fetch (S n') arg q (mk_world None lg')) = a)
    /\ w_log w' = lg ++ (if (q_end q <? q_start q)%Z then [] else match order (elements arg) with [] => [] | u => [Fetched u q] end)
    /\ (forall e, a = Raises e -> w_cache w' = Some []).
Proof.
  cbn [query]. destruct (q_end q <? q_start q)%Z.
  { eexists _, _. split; [reflexivity|]. rewrite app_nil_r. cbn [fst]. intuition congruence. }
  destruct (order (elements arg)) as [|u0 ur] eqn:EU.
  { eexists _, _. split; [reflexivity|]. rewrite app_nil_r. cbn [fst]. intuition congruence. }
  cbn [w_cache w_log]. rewrite get_cached_nil.
  destruct (fetch (u0 :: ur) q) as [df|] eqn:EF.
  2:{ eexists _, _. split; [reflexivity|]. split; [discriminate|]. cbn [w_log]. split; [|intuition congruence].
      intros n' lg'. rewrite get_cached_none, EF. reflexivity. }
  change (empty_cols no_frame) with true. change (empty no_frame) with true. cbn [negb andb]. rewrite !andb_false_r. cbn [andb].
  cbv zeta. destruct (subset required (f_cols (if empty df && empty_cols df then mk_frame required [] else df))) eqn:SB.
  - eexists _, _. split; [reflexivity|]. split; [discriminate|]. cbn [w_log]. split; [|intuition congruence].
    intros n' lg'. rewrite get_cached_none, EF. cbn [andb]. change (empty no_frame) with true. cbn [negb]. rewrite !andb_false_r, SB. reflexivity.
  - eexists _, _. split; [reflexivity|]. split; [discriminate|]. cbn [w_log]. split; [|intuition congruence].
    intros n' lg'. rewrite get_cached_none, EF. cbn [andb]. change (empty no_frame) with true. cbn [negb]. rewrite !andb_false_r, SB. reflexivity.
Qed.
(** What one query fetches and clears. *)
Lemma query_log order fetch arg q w n : exists a w' l,
  query seconds order fetch (S (S n)) arg q w = (a, w') /\ a <> Deeper /\ w_log w' = w_log w ++ l /\
  let todo := missing seconds order w arg q in
  ((l = [] /\ w_cache w' = w_cache w /\ ((q_end q < q_start q)%Z \/ todo = []))
   \/ (l = [Fetched todo q] /\ todo <> [] /\ (q_start q <= q_end q)%Z /\ forall e, a = Raises e -> w_cache w' = w_cache w)
   \/ (w_cache w <> None /\ todo <> [] /\ (q_start q <= q_end q)%Z
       /\ l = [Fetched todo q; Cleared] ++ (match order (elements (used arg)) with [] => [] | u => [Fetched u q] end)
       /\ (forall e, a = Raises e -> w_cache w' = Some [])
       /\ forall n' lg', fst (query seconds order fetch (S n') (used arg) q (mk_world None lg')) = a)).
Proof.
  cbv zeta. remember (S n) as m eqn:Em. cbn [query].
  destruct (q_end q <? q_start q)%Z eqn:ED.
  { apply Z.ltb_lt in ED. eexists _, _, []. split; [reflexivity|]. rewrite app_nil_r. split; [discriminate|]. split; [reflexivity|]. left. auto. }
  apply Z.ltb_ge in ED.
  assert (snd (get_cached seconds (w_cache w) q (order (elements arg))) = missing seconds order w arg q) as M.
  { unfold get_cached, missing. destruct (w_cache w) as [c|]; reflexivity. }
  destruct (order (elements arg)) as [|u0 ur] eqn:EU.
  { eexists _, _, []. split; [reflexivity|]. rewrite app_nil_r. split; [discriminate|]. split; [reflexivity|]. left.
    split; [reflexivity|]. split; [reflexivity|]. right. rewrite <- M. destruct (w_cache w); reflexivity. }
  destruct (get_cached seconds (w_cache w) q (u0 :: ur)) as [cached un]. cbn [snd] in M. subst un.
  destruct (missing seconds order w arg q) as [|m0 mr] eqn:EM.
  { eexists _, _, []. split; [reflexivity|]. rewrite app_nil_r. split; [discriminate|]. split; [reflexivity|]. left. auto. }
  destruct (fetch (m0 :: mr) q) as [df|] eqn:EF.
  2:{ eexists _, _, _. split; [reflexivity|]. split; [discriminate|]. split; [reflexivity|]. right. left.
      split; [reflexivity|]. split; [discriminate|]. split; [exact ED|]. reflexivity. }
  cbv zeta. destruct (_ && negb (same_cols cached df)) eqn:B.
  - subst m. cbn [w_log].
    destruct (query_nil order fetch n (used arg) q ((w_log w ++ [Fetched (m0 :: mr) q]) ++ [Cleared])) as (a & w' & EQ & N & U & L & R).
    eexists a, w', _. split; [exact EQ|]. split; [exact N|]. split; [rewrite L, <- !app_assoc; reflexivity|]. right. right.
    split; [destruct (w_cache w); [discriminate|cbn in B; discriminate]|]. split; [discriminate|]. split; [exact ED|].
    split; [|split; [exact R|]].
    2:{ intros n' lg'. etransitivity; [|exact (U n' lg')]. cbn [query].
        destruct (q_end q <? q_start q)%Z eqn:E'; [apply Z.ltb_lt in E'; lia|]. reflexivity. }
    destruct (q_end q <? q_start q)%Z eqn:E'; [apply Z.ltb_lt in E'; lia|]. reflexivity.
  - destruct (subset required _).
    + eexists _, _, _. split; [reflexivity|]. split; [discriminate|]. split; [reflexivity|]. right. left.
      split; [reflexivity|]. split; [discriminate|]. split; [exact ED|]. discriminate.
    + eexists _, _, _. split; [reflexivity|]. split; [discriminate|]. split; [reflexivity|]. right. left.
      split; [reflexivity|]. split; [discriminate|]. split; [exact ED|]. reflexivity.
Qed.

(** Histories. *)
Lemma reaches_trusted v fetch w w' : serves v fetch -> trusted_world v w -> reaches seconds fetch w w' ->
  trusted_world v w' /\ forall c, w_cache w = Some c -> exists c', w_cache w' = Some c'
    /\ forall k, cache_get k c <> None -> cache_get k c' <> None.
Proof.
  intros SV T R. induction R as [w|w w1 w2 order arg q a R IH EN (N & n & E)].
  - split; [exact T|]. intros c C. exists c. auto.
  - destruct (IH T) as [T1 K1]. destruct n as [|n]; [cbn in E; inversion E; congruence|].
    destruct (honest_query v fetch SV order EN n arg q w1 T1) as (a' & w' & E' & T2 & _ & K2 & _).
    rewrite E in E'. inversion E'; subst a' w'. split; [exact T2|]. intros c C.
    destruct (K1 c C) as (c1 & C1 & G1). destruct (K2 c1 C1) as (c2 & C2 & G2 & _). exists c2. auto.
Qed.
Lemma fresh_trusted v : trusted_world v fresh.
Proof. intros q s f. discriminate. Qed.
Lemma disabled_trusted v : trusted_world v disabled.
Proof. exact I. Qed.
Lemma exactly_unique (v : vendor seconds) syms q l l' : exactly_rows v syms q l -> exactly_rows v syms q l' -> l = l'.
Proof.
  intros [O F] [O' F']. apply sorted_unique; try (apply in_order_sorted; assumption).
  intros s d. exact (eq_trans (F s d) (eq_sym (F' s d))).
Qed.
End Query.

(** ** Columns *)
Definition has_required (f : frame) : Prop := forall c, In c required -> In c (f_cols f).
Definition sound_cache (c : cache) : Prop := forall k f, In (k, f) c -> has_required f.
Definition sound_world (w : world) : Prop := match w_cache w with Some c => sound_cache c | None => True end.
Lemma cache_get_in k c f : cache_get k c = Some f -> exists k', In (k', f) c.
Proof.
  induction c as [|[k' g] r IH]; cbn; [discriminate|]. destruct (key_eqb k k'); [intro E; injection E as ->; exists k'; now left|].
  intro E. destruct (IH E) as [k2 I]. exists k2. now right.
Qed.
Lemma cat2_cols f g c : In c (f_cols f) \/ In c (f_cols g) -> In c (f_cols (concat2 f g)).
Proof. apply concat2_cols. Qed.
Lemma cat_cols l c : forall a, In c (f_cols a) \/ (exists f, In f l /\ In c (f_cols f)) -> In c (f_cols (fold_left concat2 l a)).
Proof.
  induction l as [|g r IH]; intros a H; cbn.
  - destruct H as [H|(f & [] & _)]. exact H.
  - apply IH. destruct H as [H|(f & [->|I] & H)]; [left; apply cat2_cols; now left|left; apply cat2_cols; now right|right; now exists f].
Qed.
Lemma sorted_cols f : f_cols (sorted_unless_empty f) = f_cols f.
Proof. unfold sorted_unless_empty. now destruct (empty f). Qed.
Lemma set_cached_sound seconds c q df : has_required df -> match c with Some c => sound_cache c | None => True end ->
  match set_cached seconds c q df with Some c => sound_cache c | None => True end.
Proof.
  intros R S. unfold set_cached. destruct (empty df); [exact S|]. destruct c as [c|]; [|easy]. revert c S.
  induction (seen_symbols [] (f_rows df)) as [|s r IH]; intros c S; [exact S|]. cbn [fold_left]. apply IH.
  intros k f [I|I]; [injection I as _ <-; exact R|now apply (S k)].
Qed.
Lemma query_required seconds order fetch n : forall arg q w a w', query seconds order fetch n arg q w = (a, w') -> sound_world w ->
  sound_world w' /\ (forall f, a = Frame f -> has_required f).
Proof.
  induction n as [|n IH]; intros arg q w a w' E S; cbn [query] in E; [injection E as <- <-; easy|].
  destruct (q_end q <? q_start q)%Z; [injection E as <- <-; easy|].
  destruct (order (elements arg)) as [|s0 u0] eqn:O; [injection E as <- <-; easy|].
  destruct (get_cached seconds (w_cache w) q (s0 :: u0)) as [cached uncached] eqn:G.
  assert (Cc : empty_cols cached = false -> has_required cached).
  { unfold get_cached in G. unfold sound_world in S. destruct (w_cache w) as [c|]; [|injection G as <- _; discriminate].
    assert (Z : forall fr, (forall f, In f fr -> has_required f) -> empty_cols (concat fr) = false -> has_required (concat fr)).
    { clear. intros fr H. destruct fr as [|g r]; [discriminate|]. intros _ c I. apply cat_cols. right. exists g. split; [now left|]. apply (H g); [now left|easy]. }
    apply (f_equal fst) in G. cbn [fst] in G. subst cached. apply Z. intros f I. apply in_flat_map in I as (s & _ & I). destruct (cache_get _ c) as [g|] eqn:K; [|easy].
    destruct I as [<-|[]]. apply cache_get_in in K as [k K]. now apply (S k). }
  assert (Cn : uncached = [] -> has_required cached).
  { intros ->. unfold get_cached in G. unfold sound_world in S. destruct (w_cache w) as [c|]; [|discriminate G].
    assert (X : exists g, cache_get (cache_key seconds q s0) c = Some g).
    { apply (f_equal snd) in G. cbn [snd filter] in G. destruct (cache_get (cache_key seconds q s0) c) as [g|] eqn:K; [now exists g|discriminate]. }
    destruct X as [g K]. apply (f_equal fst) in G. cbn [fst] in G. subst cached. intros col I. apply cat_cols. right. exists g. split.
    - apply in_flat_map. exists s0. split; [now left|]. rewrite K. now left.
    - apply cache_get_in in K as [k K]. now apply (S k). }
  destruct uncached as [|s1 u1]; [injection E as <- <-; split; [exact S|]; intros f F; injection F as <-; intros c I; rewrite sorted_cols; now apply Cn|].
  destruct (fetch (s1 :: u1) q) as [df|]; [|injection E as <- <-; easy].
  destruct (_ && negb (empty df) && negb (empty_cols cached) && negb (same_cols cached df)) eqn:B.
  - apply (IH _ _ _ _ _ E). cbn. intros k f [].
  - set (d := if empty df && empty_cols df then mk_frame required [] else df) in *. destruct (subset required (f_cols d)) eqn:Sb; [|injection E as <- <-; easy].
    assert (D : has_required d) by exact (proj1 (subset_spec _ _) Sb).
    injection E as <- <-. split; [now apply set_cached_sound|]. intros f F. injection F as <-. intros c I. rewrite sorted_cols.
    destruct (empty d && negb (empty cached)) eqn:EE; [|apply cat2_cols; right; now apply D].
    apply andb_true_iff in EE as [_ EE]. apply Cc; [|easy]. unfold empty in EE. destruct (f_rows cached); [discriminate|]. now destruct (empty_cols cached).
Qed.
