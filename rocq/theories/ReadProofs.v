(** Proofs about the data read on a bar. *)
From Coq Require Import List ZArith Bool Arith Sorted Lia.
From Verif Require Import ReadModel ReadSpec.
Import ListNotations.
Open Scope nat_scope.

Section Dict.
Context {K V : Type} (eqb : K -> K -> bool) (eqb_ok : forall a b, eqb a b = true <-> a = b).
Lemma eqb_refl' a : eqb a a = true. Proof. apply eqb_ok. reflexivity. Qed.
Lemma eqb_neq a b : a <> b -> eqb a b = false.
Proof. intros N. destruct (eqb a b) eqn:E; [apply eqb_ok in E; contradiction|reflexivity]. Qed.
Lemma get_put_same (k : K) (v : V) l : get eqb k (put eqb k v l) = Some v.
Proof. induction l as [|[x u] l IH]; cbn; [rewrite eqb_refl'; reflexivity|]. destruct (eqb k x) eqn:E; cbn; rewrite E; [reflexivity|apply IH]. Qed.
Lemma get_put_other (k j : K) (v : V) l : j <> k -> get eqb j (put eqb k v l) = get eqb j l.
Proof.
  intros N. induction l as [|[x u] l IH]; cbn; [rewrite (eqb_neq _ _ N); reflexivity|].
  destruct (eqb k x) eqn:E; cbn.
  - apply eqb_ok in E. subst x. rewrite (eqb_neq _ _ N). reflexivity.
  - destruct (eqb j x); [reflexivity|apply IH].
Qed.
Lemma get_some_split (k : K) (v : V) l : get eqb k l = Some v -> exists l1 l2, l = l1 ++ (k, v) :: l2 /\ ~ In k (map fst l1).
Proof.
  induction l as [|[x u] l IH]; cbn; [discriminate|]. destruct (eqb k x) eqn:E.
  - intros [= ->]. apply eqb_ok in E. subst x. exists [], l. split; [reflexivity|intros []].
  - intros H. destruct (IH H) as (l1 & l2 & -> & N). exists ((x, u) :: l1), l2. split; [reflexivity|].
    cbn. intros [->|J]; [rewrite eqb_refl' in E; discriminate|exact (N J)].
Qed.
Lemma get_none_in (k : K) (l : list (K * V)) : get eqb k l = None -> ~ In k (map fst l).
Proof.
  induction l as [|[x u] l IH]; cbn; [intros _ []|]. destruct (eqb k x) eqn:E; [discriminate|].
  intros H [->|J]; [rewrite eqb_refl' in E; discriminate|exact (IH H J)].
Qed.
Lemma get_in_nodup (k : K) (v : V) l : NoDup (map fst l) -> In (k, v) l -> get eqb k l = Some v.
Proof.
  induction l as [|[x u] l IH]; cbn; [intros _ []|]. intros N. inversion N as [|? ? N1 N2]; subst.
  intros [[= -> ->]|J]; [rewrite eqb_refl'; reflexivity|].
  rewrite (eqb_neq k x); [exact (IH N2 J)|]. intros ->. apply N1. apply in_map_iff. exists (x, v). auto.
Qed.
Lemma get_in (k : K) (v : V) l : get eqb k l = Some v -> In (k, v) l.
Proof. intros H. destruct (get_some_split _ _ _ H) as (l1 & l2 & -> & _). apply in_or_app. right. left. reflexivity. Qed.
End Dict.
Lemma key_ok a b : key_eqb a b = true <-> a = b.
Proof.
  unfold key_eqb. rewrite andb_true_iff, Nat.eqb_eq, Z.eqb_eq. destruct a, b; cbn. split; [intros [-> ->]; reflexivity|intros [= -> ->]; auto].
Qed.
Lemma has_in x l : existsb (Z.eqb x) l = true <-> In x l.
Proof. rewrite existsb_exists. split; [intros (y & J & E); apply Z.eqb_eq in E; subst; exact J|intros J; exists x; split; [exact J|apply Z.eqb_refl]]. Qed.

(** ** Sorted dates *)
Definition cnt (d : Z) (l : list Z) : nat := length (filter (fun e => Z.leb e d) l).
Lemma filter_none {T} (f : T -> bool) l : (forall x, In x l -> f x = false) -> filter f l = [].
Proof. induction l as [|a l IH]; intros H; [reflexivity|]. cbn. rewrite (H a (or_introl eq_refl)). apply IH. intros x J. apply H. right. exact J. Qed.
Lemma sorted_gt a l : StronglySorted Z.lt (a :: l) -> forall e, In e l -> (a < e)%Z.
Proof. intros S e J. inversion S as [|? ? _ F]; subst. rewrite Forall_forall in F. apply F, J. Qed.
Lemma up_to_firstn {V} d l : StronglySorted Z.lt l -> forall v : list V, length v = length l -> up_to d l v = firstn (cnt d l) v.
Proof.
  unfold up_to, cnt. induction l as [|a l IH]; intros S v L.
  - destruct v; [reflexivity|discriminate].
  - destruct v as [|y v]; [discriminate|]. cbn. destruct (Z.leb_spec a d) as [G|G].
    + cbn. f_equal. apply IH; [inversion S; assumption|]. cbn in L. lia.
    + rewrite (filter_none (fun e => Z.leb e d) l).
      * rewrite filter_none; [reflexivity|]. intros [e q] J. cbn. apply Z.leb_gt. apply in_combine_l in J. pose proof (sorted_gt _ _ S e J). lia.
      * intros e J. apply Z.leb_gt. pose proof (sorted_gt _ _ S e J). lia.
Qed.
Lemma cnt_le d l : cnt d l <= length l.
Proof. unfold cnt. induction l as [|a l IH]; cbn; [lia|]. destruct (a <=? d)%Z; cbn; lia. Qed.
Lemma cnt_nth d l : StronglySorted Z.lt l -> In d l -> 0 < cnt d l /\ nth_error l (cnt d l - 1) = Some d.
Proof.
  unfold cnt. induction l as [|a l IH]; intros S J; [destruct J|]. cbn.
  destruct (Z.leb_spec a d) as [G|G].
  - cbn. split; [lia|]. destruct J as [->|J].
    + rewrite filter_none; [reflexivity|]. intros e J. apply Z.leb_gt. exact (sorted_gt _ _ S e J).
    + destruct (IH ltac:(inversion S; assumption) J) as [P Q].
      destruct (length (filter (fun e => (e <=? d)%Z) l)) as [|k]; [lia|]. cbn. cbn in Q. replace (k - 0) with k in Q by lia. exact Q.
  - destruct J as [->|J]; [lia|]. pose proof (sorted_gt _ _ S d J). lia.
Qed.
Lemma cnt_zero d l : cnt d l = 0 -> forall e, In e l -> (d < e)%Z.
Proof.
  unfold cnt. intros H e J. destruct (Z.leb_spec e d) as [G|G]; [|exact G].
  assert (In e (filter (fun e => (e <=? d)%Z) l)) by (apply filter_In; split; [exact J|apply Z.leb_le; exact G]).
  destruct (filter (fun e => (e <=? d)%Z) l); [contradiction|discriminate].
Qed.
Lemma sorted_nodup l : StronglySorted Z.lt l -> NoDup l.
Proof.
  induction l as [|a l IH]; intros S; [constructor|]. constructor.
  - intros J. pose proof (sorted_gt _ _ S a J). lia.
  - apply IH. inversion S; assumption.
Qed.
Lemma filter_len_ext {T} (f g : T -> bool) l : (forall x, In x l -> f x = g x) -> filter f l = filter g l.
Proof. apply filter_ext_in. Qed.
(** One more date seen. *)
Definition seen (pre l : list Z) : nat := length (filter (fun e => existsb (Z.eqb e) pre) l).
Lemma seen_snoc pre d l : NoDup l -> ~ In d pre -> seen (pre ++ [d]) l = seen pre l + (if existsb (Z.eqb d) l then 1 else 0).
Proof.
  intros N P. unfold seen. induction l as [|a l IH]; [reflexivity|]. inversion N as [|? ? N1 N2]; subst. specialize (IH N2). cbn [filter existsb].
  rewrite existsb_app. cbn [existsb]. rewrite orb_false_r.
  destruct (Z.eqb_spec d a) as [<-|Ne].
  - rewrite (Z.eqb_refl d), orb_true_r. cbn [length orb].
    assert (existsb (Z.eqb d) pre = false) as ->. { destruct (existsb (Z.eqb d) pre) eqn:E; [apply has_in in E; contradiction|reflexivity]. }
    assert (existsb (Z.eqb d) l = false) as F. { destruct (existsb (Z.eqb d) l) eqn:E; [apply has_in in E; contradiction|reflexivity]. }
    rewrite F in IH. rewrite IH. lia.
  - assert ((a =? d)%Z = false) as -> by (apply Z.eqb_neq; congruence). rewrite orb_false_r. cbn [orb].
    destruct (existsb (Z.eqb a) pre); cbn [length]; rewrite IH; lia.
Qed.
Lemma seen_cnt pre d post l : StronglySorted Z.lt (pre ++ d :: post) -> incl l (pre ++ d :: post) -> seen (pre ++ [d]) l = cnt d l.
Proof.
  intros S I0. unfold seen, cnt. f_equal. apply filter_len_ext. intros e J.
  assert (P : forall x, In x pre -> (x < d)%Z).
  { clear -S. induction pre as [|a pre IH]; intros x J; [destruct J|]. destruct J as [->|J].
    - apply (sorted_gt _ _ S). apply in_or_app. right. left. reflexivity.
    - apply IH; [inversion S; assumption|exact J]. }
  assert (Q : forall x, In x post -> (d < x)%Z).
  { clear -S. induction pre as [|a pre IH]; [exact (sorted_gt _ _ S)|]. apply IH. inversion S; assumption. }
  specialize (I0 e J). apply in_app_or in I0. destruct (Z.leb_spec e d) as [G|G].
  - apply has_in. apply in_or_app. destruct I0 as [H|[->|H]]; [left; exact H|right; left; reflexivity|]. specialize (Q e H). lia.
  - destruct (existsb (Z.eqb e) (pre ++ [d])) eqn:E; [|reflexivity]. apply has_in in E. apply in_app_or in E. destruct E as [H|[<-|[]]]; [specialize (P e H)|]; lia.
Qed.
Lemma notin_pre pre d post : StronglySorted Z.lt (pre ++ d :: post) -> ~ In d pre.
Proof.
  intros S J. apply sorted_nodup in S. apply NoDup_remove_2 in S. apply S. apply in_or_app. left. exact J.
Qed.

Section Read.
Context {A : Type} (w : window A) (WF : well_formed w).

Lemma data_in s x : data_of w s = Some x <-> In (s, x) (w_data w).
Proof.
  unfold data_of. split; [apply (get_in _ Nat.eqb_eq)|]. apply (get_in_nodup _ Nat.eqb_eq). apply WF.
Qed.

(** ** The symbols of a bar *)
Definition on (d : Z) (p : nat * sym_data A) : bool := existsb (Z.eqb d) (sd_dates (snd p)).
Definition dflt (o : option (list nat)) : list nat := match o with Some l => l | None => [] end.
Lemma inner_fold s d ds : NoDup ds -> forall m,
  dflt (get Z.eqb d (fold_left (fun m d => put Z.eqb d (match get Z.eqb d m with Some l => l ++ [s] | None => [s] end) m) ds m)) =
  dflt (get Z.eqb d m) ++ (if existsb (Z.eqb d) ds then [s] else []).
Proof.
  induction ds as [|e ds IH]; intros N m; cbn [fold_left existsb]; [rewrite app_nil_r; reflexivity|].
  inversion N as [|? ? N1 N2]; subst. rewrite (IH N2). destruct (Z.eqb_spec d e) as [->|Ne].
  - rewrite (get_put_same _ Z.eqb_eq). cbn [orb].
    destruct (existsb (Z.eqb e) ds) eqn:F; [apply has_in in F; contradiction|]. rewrite app_nil_r. destruct (get Z.eqb e m); reflexivity.
  - rewrite (get_put_other _ Z.eqb_eq) by exact Ne. reflexivity.
Qed.
Lemma outer_fold d (l : list (nat * sym_data A)) : forall m,
  dflt (get Z.eqb d (fold_left (fun m p => fold_left (fun m d => put Z.eqb d (match get Z.eqb d m with Some l => l ++ [fst p] | None => [fst p] end) m) (nodup Z.eq_dec (sd_dates (snd p))) m) l m)) =
  dflt (get Z.eqb d m) ++ map fst (filter (on d) l).
Proof.
  induction l as [|p l IH]; intros m; cbn [fold_left filter map]; [rewrite app_nil_r; reflexivity|].
  rewrite IH, inner_fold by apply NoDup_nodup. rewrite <- app_assoc. f_equal.
  assert (existsb (Z.eqb d) (nodup Z.eq_dec (sd_dates (snd p))) = on d p) as ->.
  { unfold on. apply eq_true_iff_eq. rewrite !has_in. apply nodup_In. }
  destruct (on d p); reflexivity.
Qed.
Lemma active_iter_eq d : In d (w_dates w) -> active_iter w d = map fst (filter (on d) (w_data w)).
Proof.
  intros J. unfold active_iter. destruct (aligned w) eqn:E.
  - f_equal. unfold aligned in E. symmetry. rewrite forallb_forall in E.
    assert (H : forall p, In p (w_data w) -> on d p = true).
    { intros p P. specialize (E p P). unfold same_set in E. apply andb_true_iff in E. destruct E as [_ E]. rewrite forallb_forall in E. exact (E d J). }
    clear -H. induction (w_data w) as [|p l IH]; [reflexivity|]. cbn. rewrite (H p (or_introl eq_refl)). f_equal. apply IH. intros q Q. apply H. right. exact Q.
  - pose proof (outer_fold d (w_data w) []) as H. cbn [get dflt app] in H. rewrite <- H. reflexivity.
Qed.
Lemma filter_fst_nodup (f : nat * sym_data A -> bool) l : NoDup (map fst l) -> NoDup (map fst (filter f l)).
Proof.
  induction l as [|p l IH]; cbn; [constructor|]. intros N. inversion N as [|? ? N1 N2]; subst. destruct (f p); [|apply IH, N2].
  cbn. constructor; [|apply IH, N2]. intros J. apply N1. apply in_map_iff in J. destruct J as (q & E & Q). apply filter_In in Q. apply in_map_iff. exists q. tauto.
Qed.
Lemma active_nodup d : In d (w_dates w) -> NoDup (active_iter w d).
Proof. intros J. rewrite (active_iter_eq d J). apply filter_fst_nodup. apply WF. Qed.
Lemma active_in d s : In d (w_dates w) -> In s (active_iter w d) <-> exists x, data_of w s = Some x /\ In d (sd_dates x).
Proof.
  intros J. rewrite (active_iter_eq d J), in_map_iff. split.
  - intros ([t x] & <- & P). apply filter_In in P. destruct P as [P Q]. exists x. cbn. split; [apply data_in; exact P|]. apply has_in. exact Q.
  - intros (x & P & Q). exists (s, x). split; [reflexivity|]. apply filter_In. split; [apply data_in; exact P|]. apply has_in. exact Q.
Qed.

(** ** The beginning of a bar *)
Definition getn (s : nat) (e : list (nat * nat)) : nat := match get Nat.eqb s e with Some n => n | None => 0 end.
Definition warm (n : nat) : bool := match w_warmup w with Some k => negb (Nat.eqb k 0) && Nat.leb n k | None => false end.
Lemma turns_ok d l : NoDup l -> forall st act st' act',
  fold_left (turn w d) l (st, act) = (st', act') ->
  (forall s, getn s (st_ends st') = getn s (st_ends st) + (if existsb (Nat.eqb s) l then 1 else 0)) /\
  act' = act ++ filter (fun s => negb (warm (S (getn s (st_ends st))))) l /\
  (forall s, In s act' -> ~ In s act -> get Nat.eqb s (st_ctx st') = Some (mk_ctx (Some d) None [])) /\
  (forall s, ~ In s l -> get Nat.eqb s (st_ctx st') = get Nat.eqb s (st_ctx st)) /\
  st_hb st' = st_hb st /\ st_ohlc st' = st_ohlc st.
Proof.
  induction l as [|s l IH]; intros N st act st' act' H.
  - cbn in H. injection H as <- <-. cbn. rewrite app_nil_r. split; [intros; lia|]. split; [reflexivity|]. split; [intros s J K; contradiction|]. auto.
  - inversion N as [|? ? N1 N2]; subst. cbn [fold_left] in H.
    destruct (turn w d (st, act) s) as [st1 act1] eqn:T.
    destruct (IH N2 _ _ _ _ H) as (E & Ea & Ec & Ek & Eh & Eo). clear IH H.
    assert (G : forall t, getn t (st_ends st1) = if Nat.eqb t s then S (getn s (st_ends st)) else getn t (st_ends st)).
    { intros t. unfold turn in T. fold (getn s (st_ends st)) in T.
      assert (st_ends st1 = put Nat.eqb s (S (getn s (st_ends st))) (st_ends st)) as ->.
      { destruct (match w_warmup w with Some k => _ | None => _ end); injection T as <- <-; reflexivity. }
      unfold getn at 1. destruct (Nat.eqb_spec t s) as [->|Ne]; [rewrite (get_put_same _ Nat.eqb_eq); reflexivity|].
      rewrite (get_put_other _ Nat.eqb_eq) by exact Ne. reflexivity. }
    assert (NS : forall t, In t l -> t <> s) by (intros t J ->; contradiction).
    assert (F : filter (fun t => negb (warm (S (getn t (st_ends st1))))) l = filter (fun t => negb (warm (S (getn t (st_ends st))))) l).
    { apply filter_len_ext. intros t J. rewrite G. destruct (Nat.eqb_spec t s) as [->|_]; [contradiction|reflexivity]. }
    rewrite F in Ea. unfold turn in T. fold (getn s (st_ends st)) in T. fold (warm (S (getn s (st_ends st)))) in T.
    split; [|split; [|split; [|split]]].
    + intros t. rewrite E, G. cbn [existsb]. destruct (Nat.eqb_spec t s) as [->|Ne]; cbn [orb]; [|reflexivity].
      assert (existsb (Nat.eqb s) l = false) as ->; [|lia].
      destruct (existsb (Nat.eqb s) l) eqn:X; [|reflexivity]. apply existsb_exists in X. destruct X as (q & Q & X). apply Nat.eqb_eq in X. subst q. contradiction.
    + cbn [filter]. destruct (warm (S (getn s (st_ends st)))); injection T as <- <-; cbn [negb]; rewrite Ea; [reflexivity|rewrite <- app_assoc; reflexivity].
    + intros t J K. destruct (warm (S (getn s (st_ends st)))) eqn:W; injection T as <- <-.
      * apply Ec; assumption.
      * destruct (Nat.eq_dec t s) as [->|Ne].
        -- rewrite Ek by exact N1. cbn. apply (get_put_same _ Nat.eqb_eq).
        -- apply Ec; [exact J|]. intros Q. apply in_app_or in Q. destruct Q as [Q|[Q|[]]]; [exact (K Q)|congruence].
    + intros t J. rewrite Ek by (intros Q; apply J; right; exact Q).
      assert (t <> s) by (intros ->; apply J; left; reflexivity).
      destruct (warm (S (getn s (st_ends st)))); injection T as <- <-; cbn; [reflexivity|apply (get_put_other _ Nat.eqb_eq); assumption].
    + rewrite Eh, Eo. destruct (warm (S (getn s (st_ends st)))); injection T as <- <-; auto.
Qed.

(** Between the bars: what has been counted. *)
Definition counted (pre : list Z) (st : state A) : Prop :=
  forall s, getn s (st_ends st) = match data_of w s with Some x => seen pre (sd_dates x) | None => 0 end.
(** Within the bar of [d]. *)
Definition current (d : Z) (act : list nat) (st : state A) : Prop :=
  (forall s, getn s (st_ends st) = match data_of w s with Some x => cnt d (sd_dates x) | None => 0 end) /\
  (forall c, In c act -> exists t f, get Nat.eqb c (st_ctx st) = Some (mk_ctx (Some d) t f) /\ (t = None \/ t = Some d) /\
     forall s b, get Nat.eqb s f = Some b -> exists x, data_of w s = Some x /\ b = bar_data_of w x (cnt d (sd_dates x))) /\
  (forall s e b, get key_eqb (s, e) (st_hb st) = Some b -> b = has_bar_on w st s e) /\
  (forall s e p, get key_eqb (s, e) (st_ohlc st) = Some p -> p = fetch_ohlc w (getn s (st_ends st)) s e).

Lemma begin_ok pre d post st st' act :
  w_dates w = pre ++ d :: post -> counted pre st -> begin_bar w d st = (st', act) ->
  current d act st' /\ counted (pre ++ [d]) st' /\
  act = filter (fun s => match data_of w s with Some x => negb (warm (cnt d (sd_dates x))) | None => false end) (active_iter w d).
Proof.
  intros W C B. unfold begin_bar in B.
  assert (J : In d (w_dates w)) by (rewrite W; apply in_or_app; right; left; reflexivity).
  destruct (turns_ok d _ (active_nodup d J) _ _ _ _ B) as (E & Ea & Ec & Ek & Eh & Eo). cbn [st_ends st_ctx st_hb st_ohlc app] in *.
  destruct WF as (Sd & Nd & X).
  assert (C' : counted (pre ++ [d]) st').
  { intros s. rewrite E, C. destruct (data_of w s) as [x|] eqn:D.
    - destruct (X s x (proj1 (data_in s x) D)) as (Sx & Ix & _).
      rewrite seen_snoc; [|apply sorted_nodup, Sx|apply (notin_pre pre d post); rewrite <- W; exact Sd].
      f_equal. assert (existsb (Nat.eqb s) (active_iter w d) = existsb (Z.eqb d) (sd_dates x)) as ->; [|reflexivity].
      apply eq_true_iff_eq. rewrite has_in, existsb_exists. split.
      + intros (t & T & Q). apply Nat.eqb_eq in Q. subst t. apply (active_in d s J) in T. destruct T as (x' & D' & T). rewrite D in D'. injection D' as <-. exact T.
      + intros T. exists s. split; [|apply Nat.eqb_refl]. apply (active_in d s J). exists x. auto.
    - assert (existsb (Nat.eqb s) (active_iter w d) = false) as ->; [|reflexivity].
      destruct (existsb (Nat.eqb s) (active_iter w d)) eqn:T; [|reflexivity]. apply existsb_exists in T. destruct T as (t & T & Q). apply Nat.eqb_eq in Q. subst t.
      apply (active_in d s J) in T. destruct T as (x' & D' & _). congruence. }
  assert (K : forall s x, data_of w s = Some x -> seen (pre ++ [d]) (sd_dates x) = cnt d (sd_dates x)).
  { intros s x D. apply (seen_cnt pre d post); [rewrite <- W; exact Sd|]. rewrite <- W. apply (X s x). apply data_in, D. }
  assert (G : forall s, getn s (st_ends st') = match data_of w s with Some x => cnt d (sd_dates x) | None => 0 end).
  { intros s. rewrite C'. destruct (data_of w s) as [x|] eqn:D; [apply (K s x D)|reflexivity]. }
  split; [|split; [exact C'|]].
  - split; [exact G|]. split; [|split].
    + intros c H. exists None, []. split; [apply Ec; [exact H|intros []]|]. split; [left; reflexivity|]. intros s b Q. discriminate Q.
    + rewrite Eh. intros s e b Q. discriminate Q.
    + rewrite Eo. intros s e b Q. discriminate Q.
  - rewrite Ea. apply filter_len_ext. intros s T. pose proof (E s) as Es. rewrite G in Es.
    assert (existsb (Nat.eqb s) (active_iter w d) = true) as Z1 by (apply existsb_exists; exists s; split; [exact T|apply Nat.eqb_refl]).
    rewrite Z1 in Es. apply (active_in d s J) in T. destruct T as (x & D & _). rewrite D in *. f_equal. f_equal. lia.
Qed.

(** ** The right answers *)
Lemma has_col_get (x : sym_data A) c : has_col x c (get Nat.eqb c (sd_cols x)).
Proof.
  unfold has_col. destruct (get Nat.eqb c (sd_cols x)) as [v|] eqn:G; [apply (get_some_split _ Nat.eqb_eq), G|apply (get_none_in _ Nat.eqb_eq), G].
Qed.
Section Sym.
Variables (d : Z) (s : nat) (x : sym_data A) (D : data_of w s = Some x).
Lemma col_up c v : get Nat.eqb c (sd_cols x) = Some v -> firstn (cnt d (sd_dates x)) v = up_to d (sd_dates x) v.
Proof.
  intros G. symmetry. destruct (proj2 (proj2 WF) s x (proj1 (data_in s x) D)) as (Sx & _ & L).
  apply up_to_firstn; [exact Sx|]. apply (L c). apply (get_in _ Nat.eqb_eq), G.
Qed.
Lemma dates_up : firstn (cnt d (sd_dates x)) (sd_dates x) = up_to d (sd_dates x) (sd_dates x).
Proof.
  symmetry. destruct (proj2 (proj2 WF) s x (proj1 (data_in s x) D)) as (Sx & _ & _). apply up_to_firstn; [exact Sx|reflexivity].
Qed.
Lemma count_up : cnt d (sd_dates x) = length (up_to d (sd_dates x) (sd_dates x)).
Proof. rewrite <- dates_up, firstn_length. pose proof (cnt_le d (sd_dates x)). lia. Qed.
Lemma shows_ok : shows d x (w_cols w) (bar_data_of w x (cnt d (sd_dates x))).
Proof.
  unfold bar_data_of. induction (w_cols w) as [|[c std] r IH]; cbn [flat_map fst snd]; [constructor|].
  pose proof (has_col_get x c) as H. destruct (get Nat.eqb c (sd_cols x)) as [v|] eqn:G.
  - cbn [app]. rewrite (col_up c v G). apply shows_col; assumption.
  - destruct std; cbn [app]; [apply shows_absent|apply shows_none]; assumption.
Qed.
Lemma fetch_ok c : fetch w s c (cnt d (sd_dates x)) = Column (option_map (up_to d (sd_dates x)) (get Nat.eqb c (sd_cols x))).
Proof. unfold fetch. rewrite D. destruct (get Nat.eqb c (sd_cols x)) as [v|] eqn:G; [|reflexivity]. cbn. rewrite (col_up c v G). reflexivity. Qed.
Lemma no_clip {T} (l : list T) n : n <= length l -> (if Nat.ltb (length l) n then length l else n) = n.
Proof. intros H. destruct (Nat.ltb_spec (length l) n); lia. Qed.
Lemma value_ok c : In d (sd_dates x) -> right w d (Value s c) (fetch_value w s c (cnt d (sd_dates x))).
Proof.
  intros J. cbn. exists x, (get Nat.eqb c (sd_cols x)). split; [apply data_in, D|]. split; [apply has_col_get|].
  unfold fetch_value. rewrite D. destruct (get Nat.eqb c (sd_cols x)) as [v|] eqn:G; [|reflexivity].
  destruct (proj2 (proj2 WF) s x (proj1 (data_in s x) D)) as (Sx & _ & L).
  pose proof (L c v (get_in _ Nat.eqb_eq _ _ _ G)) as Lv. destruct (cnt_nth d _ Sx J) as [P Q].
  pose proof (cnt_le d (sd_dates x)) as U. rewrite no_clip by lia.
  destruct (Nat.eqb_spec (cnt d (sd_dates x)) 0); [lia|].
  destruct (nth_error v (cnt d (sd_dates x) - 1)) as [y|] eqn:Y.
  - exists (cnt d (sd_dates x) - 1), y. auto.
  - apply nth_error_None in Y. lia.
Qed.
End Sym.

Lemma has_bar_ok d st s : (forall s, getn s (st_ends st) = match data_of w s with Some x => cnt d (sd_dates x) | None => 0 end) ->
  (has_bar_on w st s d = true <-> exists x, In (s, x) (w_data w) /\ In d (sd_dates x)).
Proof.
  intros G. unfold has_bar_on. fold (getn s (st_ends st)). rewrite G. split.
  - destruct (data_of w s) as [x|] eqn:D; [|discriminate].
    destruct (Nat.eqb (cnt d (sd_dates x)) 0); [discriminate|]. destruct (nth_error (sd_dates x) _) as [e|] eqn:N; [|discriminate].
    intros E. apply Z.eqb_eq in E. subst e. exists x. split; [apply data_in, D|]. eapply nth_error_In, N.
  - intros (x & I0 & J). rewrite (proj2 (data_in s x) I0).
    destruct (proj2 (proj2 WF) s x I0) as (Sx & _ & _). destruct (cnt_nth d _ Sx J) as [P Q].
    rewrite no_clip by apply cnt_le. destruct (Nat.eqb_spec (cnt d (sd_dates x)) 0); [lia|]. rewrite Q. apply Z.eqb_refl.
Qed.
Lemma ohlc_ok d s n : n = match data_of w s with Some x => cnt d (sd_dates x) | None => 0 end -> right w d (Bar_ohlc s d) (Prices (fetch_ohlc w n s d)).
Proof.
  intros -> _. unfold fetch_ohlc. destruct (data_of w s) as [x|] eqn:D.
  2:{ right. split; [reflexivity|]. intros x H. apply data_in in H. congruence. }
  destruct (proj2 (proj2 WF) s x (proj1 (data_in s x) D)) as (Sx & _ & _).
  assert (U : forall x', has_data w s x' -> x' = x) by (intros x' H; apply data_in in H; congruence).
  destruct (in_dec Z.eq_dec d (sd_dates x)) as [J|J].
  - destruct (cnt_nth d _ Sx J) as [P Q]. rewrite no_clip by apply cnt_le. destruct (Nat.eqb_spec (cnt d (sd_dates x)) 0); [lia|].
    rewrite Q, Z.eqb_refl. left. eexists x, _, _, _, _. split; [apply data_in, D|]. split; [exact Q|]. split; [reflexivity|].
    intros k y H. exists (get Nat.eqb k (sd_cols x)). split; [apply has_col_get|].
    destruct H as [[= <- <-]|[[= <- <-]|[[= <- <-]|[]]]]; reflexivity.
  - right. split; [|intros x' H; rewrite (U x' H); exact J].
    destruct (Nat.eqb (cnt d (sd_dates x)) 0); [reflexivity|]. destruct (nth_error (sd_dates x) _) as [e|] eqn:N; [|reflexivity].
    destruct (Z.eqb_spec e d) as [->|_]; [|reflexivity]. exfalso. apply J. eapply nth_error_In, N.
Qed.

Lemma getn_end_of s n e ends : end_of s ends = (n, e) -> n = getn s ends /\ forall t, getn t e = getn t ends.
Proof.
  unfold end_of, getn. destruct (get Nat.eqb s ends) as [k|] eqn:G; intros [= <- <-]; [auto|]. split; [reflexivity|]. intros t.
  destruct (Nat.eq_dec t s) as [->|Ne]; [rewrite (get_put_same _ Nat.eqb_eq), G; reflexivity|rewrite (get_put_other _ Nat.eqb_eq) by exact Ne; reflexivity].
Qed.
Lemma has_bar_on_ends st st' s e : (forall t, getn t (st_ends st') = getn t (st_ends st)) -> has_bar_on w st' s e = has_bar_on w st s e.
Proof. intros H. unfold has_bar_on. fold (getn s (st_ends st)) (getn s (st_ends st')). rewrite H. reflexivity. Qed.
Lemma current_ends d act st e : current d act st -> (forall t, getn t e = getn t (st_ends st)) -> current d act (set_ends e st).
Proof.
  intros (G & C & H & O) E. split; [intros s; cbn; rewrite E; apply G|]. split; [exact C|]. cbn. split.
  - intros s d' b Q. rewrite (H _ _ _ Q). symmetry. apply has_bar_on_ends. exact E.
  - intros s d' p Q. rewrite E. apply O, Q.
Qed.
Lemma no_bar_zero d act st s : current d act st -> getn s (st_ends st) = 0 -> no_bar_yet w s d.
Proof.
  intros (G & _) Z1 x e H J. rewrite G in Z1. rewrite (proj2 (data_in s x) H) in Z1. exact (cnt_zero d _ Z1 e J).
Qed.

(** One reading through a context of the bar. *)
Lemma read_right d act st r a st' :
  (forall c, In c act -> exists x, data_of w c = Some x /\ In d (sd_dates x)) ->
  current d act st -> do_read w r st = (a, st') ->
  current d act st' /\ (forall t, getn t (st_ends st') = getn t (st_ends st)) /\ ((forall c, through r = Some c -> In c act) -> right w d r a).
Proof.
  intros Act CU R. pose proof CU as (G & C & H & O). destruct r as [c s|c s col|c col|c col|c|c|c|s e|s e]; cbn [do_read] in R.
  - (* Foreign *)
    destruct (get Nat.eqb s (c_foreign _)) as [b|] eqn:F.
    + injection R as <- <-. split; [exact CU|]. split; [reflexivity|]. intros T. destruct (C c (T c eq_refl)) as (t & f & Q & _ & Ff). rewrite Q in F. cbn in F.
      destruct (Ff s b F) as (x & D & ->). left. exists x, (bar_data_of w x (cnt d (sd_dates x))). split; [apply data_in, D|]. split; [apply (shows_ok d s x D)|reflexivity].
    + destruct (get Nat.eqb s (st_ends st)) as [n|] eqn:N; [destruct (data_of w s) as [y|] eqn:D|].
      * pose proof (G s) as Gs. unfold getn in Gs. rewrite N, D in Gs. subst n. injection R as <- <-. split; [|split; [reflexivity|]].
        -- split; [exact G|]. split; [|split; [exact H|exact O]]. intros c' J. cbn. destruct (Nat.eq_dec c' c) as [->|Ne].
           ++ destruct (C c J) as (t & f & Q & Tt & Ff). rewrite Q. cbn. exists t, (put Nat.eqb s (bar_data_of w y (cnt d (sd_dates y))) f).
              split; [apply (get_put_same _ Nat.eqb_eq)|]. split; [exact Tt|]. intros s' b' Q'. destruct (Nat.eq_dec s' s) as [->|Ns].
              ** rewrite (get_put_same _ Nat.eqb_eq) in Q'. injection Q' as <-. exists y. auto.
              ** rewrite (get_put_other _ Nat.eqb_eq) in Q' by exact Ns. apply Ff, Q'.
           ++ rewrite (get_put_other _ Nat.eqb_eq) by exact Ne. apply C, J.
        -- intros _. left. exists y, (bar_data_of w y (cnt d (sd_dates y))). split; [apply data_in, D|]. split; [apply (shows_ok d s y D)|reflexivity].
      * injection R as <- <-. split; [exact CU|]. split; [reflexivity|]. intros _. right. split; [reflexivity|]. intros x e Hx. apply data_in in Hx. congruence.
      * injection R as <- <-. split; [exact CU|]. split; [reflexivity|]. intros _. right. split; [reflexivity|]. apply (no_bar_zero d act st s CU). unfold getn. rewrite N. reflexivity.
  - (* Foreign_col *)
    destruct (get Nat.eqb s (st_ends st)) as [n|] eqn:N; injection R as <- <-; (split; [exact CU|split; [reflexivity|]]); intros _.
    + pose proof (G s) as Gs. unfold getn in Gs. rewrite N in Gs. destruct (data_of w s) as [x|] eqn:D.
      * subst n. left. exists x, (get Nat.eqb col (sd_cols x)). split; [apply data_in, D|]. split; [apply has_col_get|apply (fetch_ok d s x D)].
      * right. split; [unfold fetch; rewrite D; reflexivity|]. intros x e Hx. apply data_in in Hx. congruence.
    + right. split; [reflexivity|]. apply (no_bar_zero d act st s CU). unfold getn. rewrite N. reflexivity.
  - (* Own *)
    destruct (end_of c (st_ends st)) as [n e] eqn:E. destruct (getn_end_of _ _ _ _ E) as [-> Ee]. injection R as <- <-.
    split; [apply current_ends; assumption|]. split; [exact Ee|]. intros T. destruct (Act c (T c eq_refl)) as (x & D & J). rewrite G, D.
    exists x, (get Nat.eqb col (sd_cols x)). split; [apply data_in, D|]. split; [apply has_col_get|apply (fetch_ok d c x D)].
  - (* Value *)
    destruct (end_of c (st_ends st)) as [n e] eqn:E. destruct (getn_end_of _ _ _ _ E) as [-> Ee]. injection R as <- <-.
    split; [apply current_ends; assumption|]. split; [exact Ee|]. intros T. destruct (Act c (T c eq_refl)) as (x & D & J). rewrite G, D. apply (value_ok d c x D col J).
  - (* Dates *)
    destruct (end_of c (st_ends st)) as [n e] eqn:E. destruct (getn_end_of _ _ _ _ E) as [-> Ee]. injection R as <- <-.
    split; [apply current_ends; assumption|]. split; [exact Ee|]. intros T. destruct (Act c (T c eq_refl)) as (x & D & J). rewrite G, D.
    exists x. split; [apply data_in, D|]. rewrite (dates_up d c x D). reflexivity.
  - (* Dt *)
    destruct (get Nat.eqb c (st_ctx st)) as [y|] eqn:Q.
    2:{ cbn in R. injection R as <- <-. split; [exact CU|]. split; [reflexivity|]. intros T. destruct (C c (T c eq_refl)) as (t & f & Q' & _). congruence. }
    destruct (c_date y) as [d0|] eqn:Y.
    2:{ injection R as <- <-. split; [exact CU|]. split; [reflexivity|]. intros T. destruct (C c (T c eq_refl)) as (t & f & Q' & _). rewrite Q in Q'. injection Q' as ->. discriminate. }
    injection R as <- <-. split; [|split; [reflexivity|]].
    + split; [exact G|]. split; [|split; [exact H|exact O]]. intros c' J. cbn. destruct (Nat.eq_dec c' c) as [->|Ne].
      * destruct (C c J) as (t & f & Q' & Tt & Ff). rewrite Q in Q'. injection Q' as ->. cbn in *. injection Y as <-.
        rewrite (get_put_same _ Nat.eqb_eq). eexists _, f. split; [reflexivity|]. split; [right; destruct Tt as [->| ->]; reflexivity|exact Ff].
      * rewrite (get_put_other _ Nat.eqb_eq) by exact Ne. apply C, J.
    + intros T. destruct (C c (T c eq_refl)) as (t & f & Q' & Tt & _). rewrite Q in Q'. injection Q' as ->. cbn in *. injection Y as <-. destruct Tt as [->| ->]; reflexivity.
  - (* Bars *)
    destruct (end_of c (st_ends st)) as [n e] eqn:E. destruct (getn_end_of _ _ _ _ E) as [-> Ee]. injection R as <- <-.
    split; [apply current_ends; assumption|]. split; [exact Ee|]. intros T. destruct (Act c (T c eq_refl)) as (x & D & J). rewrite G, D.
    exists x. split; [apply data_in, D|]. rewrite <- (count_up d c x D). reflexivity.
  - (* Has_bar_on *)
    assert (Z1 : forall b, b = has_bar_on w st s e -> right w d (Has_bar_on s e) (Truth b)).
    { intros b -> ->. exists (has_bar_on w st s d). split; [reflexivity|]. apply (has_bar_ok d st s G). }
    destruct (get key_eqb (s, e) (st_hb st)) as [b|] eqn:Q; injection R as <- <-.
    + split; [exact CU|]. split; [reflexivity|]. intros _. apply Z1, (H _ _ _ Q).
    + split; [|split; [reflexivity|intros _; apply Z1; reflexivity]]. split; [exact G|]. split; [exact C|]. split; [|exact O]. cbn. intros s' e' b Q'.
      change (has_bar_on w (mk_state (st_ends st) (st_ctx st) (put key_eqb (s, e) (has_bar_on w st s e) (st_hb st)) (st_ohlc st)) s' e') with (has_bar_on w st s' e').
      assert (Dec : (s', e') = (s, e) \/ (s', e') <> (s, e)) by (destruct (key_eqb (s', e') (s, e)) eqn:X; [left; apply key_ok, X|right; intros Y; apply key_ok in Y; congruence]).
      destruct Dec as [X|X]; [rewrite X in Q'; rewrite (get_put_same _ key_ok) in Q'; injection X as -> ->; congruence|].
      rewrite (get_put_other _ key_ok) in Q' by exact X. apply H, Q'.
  - (* Bar_ohlc *)
    destruct (get key_eqb (s, e) (st_ohlc st)) as [p|] eqn:Q.
    + injection R as <- <-. split; [exact CU|]. split; [reflexivity|]. intros _ ->. rewrite (O _ _ _ Q). apply (ohlc_ok d s _ (G s) eq_refl).
    + destruct (end_of s (st_ends st)) as [n e0] eqn:E. destruct (getn_end_of _ _ _ _ E) as [-> Ee]. injection R as <- <-.
      split; [|split; [exact Ee|intros _ ->; apply (ohlc_ok d s _ (G s) eq_refl)]].
      destruct (current_ends d act st e0 CU Ee) as (G' & C' & H' & O'). split; [exact G'|]. split; [exact C'|]. split; [exact H'|]. cbn. intros s' e' p Q'.
      assert (Dec : (s', e') = (s, e) \/ (s', e') <> (s, e)) by (destruct (key_eqb (s', e') (s, e)) eqn:X; [left; apply key_ok, X|right; intros Y; apply key_ok in Y; congruence]).
      destruct Dec as [X|X]; [rewrite X in Q'; rewrite (get_put_same _ key_ok) in Q'; injection X as -> ->; rewrite Ee; congruence|].
      rewrite (get_put_other _ key_ok) in Q' by exact X. exact (O' _ _ _ Q').
Qed.
Lemma reads_right d act : (forall c, In c act -> exists x, data_of w c = Some x /\ In d (sd_dates x)) ->
  forall rs st as_ st', current d act st -> do_reads w rs st = (as_, st') ->
  map fst as_ = rs /\ (forall t, getn t (st_ends st') = getn t (st_ends st)) /\
  forall r a, In (r, a) as_ -> (forall c, through r = Some c -> In c act) -> right w d r a.
Proof.
  intros Act. induction rs as [|r rs IH]; intros st as_ st' CU R; cbn [do_reads] in R.
  - injection R as <- <-. split; [reflexivity|]. split; [reflexivity|]. intros r a [].
  - destruct (do_read w r st) as [a st1] eqn:R1. destruct (do_reads w rs st1) as [as1 st2] eqn:R2. injection R as <- <-.
    destruct (read_right d act st r a st1 Act CU R1) as (CU1 & E1 & Ra). destruct (IH _ _ _ CU1 R2) as (M & E2 & Rs).
    split; [cbn; rewrite M; reflexivity|]. split; [intros t; rewrite E2; apply E1|].
    intros r' a' [[= <- <-]|J]; [exact Ra|apply Rs, J].
Qed.
Lemma act_called d act : In d (w_dates w) ->
  act = filter (fun s => match data_of w s with Some x => negb (warm (cnt d (sd_dates x))) | None => false end) (active_iter w d) ->
  NoDup act /\ forall s, In s act <-> called w d s.
Proof.
  intros J ->. split; [apply NoDup_filter, (active_nodup d J)|]. intros s. rewrite filter_In, (active_in d s J). unfold called. split.
  - intros [(x & D & K) F]. rewrite D in F. exists x. split; [apply data_in, D|]. split; [exact K|]. intros k W.
    rewrite <- (count_up d s x D). destruct (proj2 (proj2 WF) s x (proj1 (data_in s x) D)) as (Sx & _). destruct (cnt_nth d _ Sx K) as [P _].
    unfold warm in F. rewrite W in F. destruct (Nat.eqb_spec k 0); [lia|]. destruct (Nat.leb_spec (cnt d (sd_dates x)) k); [discriminate|assumption].
  - intros (x & D & K & F). apply data_in in D. split; [exists x; auto|]. rewrite D. unfold warm. destruct (w_warmup w) as [k|]; [|reflexivity].
    specialize (F k eq_refl). rewrite <- (count_up d s x D) in F. destruct (Nat.leb_spec (cnt d (sd_dates x)) k); [lia|]. rewrite andb_false_r. reflexivity.
Qed.
Lemma bars_right l : forall pre st, w_dates w = pre ++ map fst l -> counted pre st ->
  forall d act as_, In (d, act, as_) (bars w l st) ->
  NoDup act /\ (forall s, In s act <-> called w d s) /\
  exists rs, In (d, rs) l /\ map fst as_ = rs /\ forall r a, In (r, a) as_ -> (forall c, through r = Some c -> In c act) -> right w d r a.
Proof.
  induction l as [|[d rs] l IH]; intros pre st W C d' act' as' J; [destruct J|]. cbn [bars] in J. cbn [map fst] in W.
  destruct (begin_bar w d st) as [st1 act] eqn:B. destruct (do_reads w rs st1) as [as_ st2] eqn:R.
  destruct (begin_ok pre d (map fst l) st st1 act W C B) as (CU & C1 & Ea).
  assert (Jd : In d (w_dates w)) by (rewrite W; apply in_or_app; right; left; reflexivity).
  destruct (act_called d act Jd Ea) as [Na Ca].
  assert (Act : forall c, In c act -> exists x, data_of w c = Some x /\ In d (sd_dates x)).
  { intros c H. apply Ca in H. destruct H as (x & D & K & _). exists x. split; [apply data_in, D|exact K]. }
  destruct (reads_right d act Act rs st1 as_ st2 CU R) as (M & E2 & Rs).
  destruct J as [[= <- <- <-]|J].
  - split; [exact Na|]. split; [exact Ca|]. exists rs. split; [left; reflexivity|]. auto.
  - destruct (IH (pre ++ [d]) st2) with (d := d') (act := act') (as_ := as') as (P1 & P2 & rs' & P3 & P4); auto.
    + rewrite <- app_assoc. exact W.
    + intros s. rewrite E2. apply C1.
    + split; [exact P1|]. split; [exact P2|]. exists rs'. split; [right; exact P3|exact P4].
Qed.
Lemma bars_dates l : forall st, map (fun b => fst (fst b)) (bars w l st) = map fst l.
Proof.
  induction l as [|[d rs] l IH]; intros st; [reflexivity|]. cbn [bars map fst].
  destruct (begin_bar w d st) as [st1 act]. destruct (do_reads w rs st1) as [as_ st2]. cbn. f_equal. apply IH.
Qed.
End Read.
