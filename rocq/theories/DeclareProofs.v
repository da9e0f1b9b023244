(** Lemmas for C85. *)
From Verif Require Import Tac NameProofs TextProofs DeclareSpec.
Open Scope list_scope.
Open Scope nat_scope.

Lemma bind_ok {A B} (x : res A) (f : A -> res B) b : bind x f = Ok b <-> exists a, x = Ok a /\ f a = Ok b.
Proof. destruct x; cbn; split; [eauto| now intros (? & [= ->] & ?)|discriminate|now intros (? & ? & ?)]. Qed.
Lemma each_ok {A B} (f : A -> res B) l r : each f l = Ok r <-> Forall2 (fun x y => f x = Ok y) l r.
Proof.
  revert r. induction l as [|x l IH]; intro r; cbn.
  - split; [intros [= <-]; constructor | now inversion 1].
  - rewrite bind_ok. split.
    + intros (y & E & H). apply bind_ok in H as (t & T & [= <-]). constructor; [easy|]. now apply IH.
    + inversion 1; subst. exists y. split; [easy|]. apply bind_ok. exists l'. split; [now apply IH|easy].
Qed.
Lemma each_total {A B} (f : A -> res B) l : (forall x, In x l -> exists y, f x = Ok y) -> exists r, each f l = Ok r.
Proof.
  induction l as [|x l IH]; intro H; cbn; [eauto|]. destruct (H x (or_introl eq_refl)) as [y ->]. cbn.
  destruct IH as [r ->]; [intros; apply H; now right|]. cbn. eauto.
Qed.
Lemma Forall2_l {A B} (R : A -> B -> Prop) l m x : Forall2 R l m -> In x l -> exists y, In y m /\ R x y.
Proof. induction 1; [easy|]. intros [<-|H']; [exists y; firstorder|]. destruct (IHForall2 H') as (z & ? & ?). exists z. firstorder. Qed.
Lemma Forall2_r {A B} (R : A -> B -> Prop) l m y : Forall2 R l m -> In y m -> exists x, In x l /\ R x y.
Proof. induction 1; [easy|]. intros [<-|H']; [exists x; firstorder|]. destruct (IHForall2 H') as (z & ? & ?). exists z. firstorder. Qed.
Lemma Forall2_nth {A B} (R : A -> B -> Prop) l m k x : Forall2 R l m -> nth_error l k = Some x -> exists y, nth_error m k = Some y /\ R x y.
Proof. intro H. revert k. induction H; intros [|k]; cbn; try discriminate; [intros [= <-]; eauto|apply IHForall2]. Qed.
Lemma Forall2_nth_r {A B} (R : A -> B -> Prop) l m k y : Forall2 R l m -> nth_error m k = Some y -> exists x, nth_error l k = Some x /\ R x y.
Proof. intro H. revert k. induction H; intros [|k]; cbn; try discriminate; [intros [= <-]; eauto|apply IHForall2]. Qed.

Lemma nmem_iff x l : nmem x l = true <-> In x l.
Proof. induction l as [|y l IH]; cbn; [split; [discriminate|tauto]|]. rewrite orb_true_iff, IH, Nat.eqb_eq. intuition. Qed.
Lemma str_eqb_iff a b : str_eqb a b = true <-> a = b.
Proof. unfold str_eqb. destruct (list_eq_dec ascii_dec a b); split; congruence. Qed.
Lemma str_in_iff a l : str_in a l = true <-> In a l.
Proof. unfold str_in. rewrite existsb_exists. split; [intros (x & H & E); apply str_eqb_iff in E; now subst|]. intro H. exists a. split; [easy|]. now apply str_eqb_iff. Qed.
Lemma sget_iff {V} k (v : V) l : sget k l = Some v <-> registered k v l.
Proof.
  induction l as [|[k' v'] l IH]; cbn.
  - split; [discriminate|now inversion 1].
  - destruct (str_eqb k k') eqn:E.
    + apply str_eqb_iff in E as ->. split; [intros [= ->]; constructor|]. now inversion 1.
    + assert (N : k <> k') by (intros ->; rewrite (proj2 (str_eqb_iff k' k') eq_refl) in E; discriminate).
      rewrite IH. split; [now constructor|]. inversion 1; subst; [congruence|easy].
Qed.
Lemma registered_fun {V} k (v v' : V) l : registered k v l -> registered k v' l -> v = v'.
Proof. intros A B. apply sget_iff in A, B. congruence. Qed.
Lemma sget_in {V} k (l : list (str * V)) : In k (map fst l) <-> exists v, sget k l = Some v.
Proof.
  induction l as [|[k' v'] l IH]; cbn; [split; [tauto|now intros []]|]. destruct (str_eqb k k') eqn:E.
  - apply str_eqb_iff in E as ->. split; eauto.
  - rewrite <- IH. split; [|tauto]. intros [->|]; [|easy]. assert (str_eqb k k = true) by now apply str_eqb_iff. congruence.
Qed.

(** ** Names *)
Lemma format_text i j : normal_form i j -> exists t, format_interval i = Some t /\ interval_text j t.
Proof.
  intro N. unfold format_interval. rewrite (proj2 (normalize_iff i j) N). destruct j as [n|s]; [|eexists; split; reflexivity].
  eexists. split; [reflexivity|]. cbn. apply decimal_iff. inversion N; subst. split; [lia|reflexivity].
Qed.
Lemma interval_text_fun j t t' : interval_text j t -> interval_text j t' -> t = t'.
Proof. destruct j; cbn; [|congruence]. rewrite !decimal_iff. intros [_ ->] [_ ->]. reflexivity. Qed.
Lemma name_iff base i j n : normal_form i j -> (indicator_interval_name base i = Some n <-> variant_name base (Some j) n).
Proof.
  intro N. destruct (format_text i j N) as (t & F & T). unfold indicator_interval_name. rewrite F. split.
  - intros [= <-]. now constructor.
  - inversion 1; subst. f_equal. f_equal. unfold at_sign. f_equal. eapply interval_text_fun; eauto.
Qed.
Lemma variant_fun base t n n' : variant_name base t n -> variant_name base t n' -> n = n'.
Proof. inversion 1; inversion 1; subst; [easy|]. f_equal. f_equal. eapply interval_text_fun; eauto. Qed.
Lemma variant_exists base i j : normal_form i j -> exists n, variant_name base (Some j) n.
Proof. intro N. destruct (format_text i j N) as (t & _ & T). eexists. constructor. exact T. Qed.
Lemma variant_parses base t n : ~ In "@"%char base -> (forall j, t = Some j -> normal_form j j) -> variant_name base t n ->
  parse_interval_name n = (base, t).
Proof.
  intros P N V. destruct t as [j|].
  - specialize (N j eq_refl). apply (name_iff base j j n N) in V. eapply name_parses; eauto.
  - inversion V; subst. now apply name_plain.
Qed.
Lemma base_not_normal j : ~ normal_form (Named base_interval) j.
Proof. intro N. apply normalize_iff in N. vm_compute in N. discriminate. Qed.
Lemma is_base_iff i : is_base i = true <-> i = Named base_interval.
Proof. apply interval_eqb_iff. Qed.
Lemma normal_not_base i j : normal_form i j -> is_base j = false.
Proof.
  intro N. destruct (is_base j) eqn:E; [|easy]. apply is_base_iff in E as ->. exfalso. eapply base_not_normal.
  eapply normal_form_idem. exact N.
Qed.

(** ** Entries *)
Lemma variants_ok {A} name (e : entry A) l ns tfs : (forall i, In i l -> is_base i = true \/ normal_form i i) ->
  variant_names name e l = Ok (ns, tfs) ->
  (forall j, In j tfs <-> In j l /\ is_base j = false) /\
  (forall n, In n ns <-> (n = name /\ match e with Bound _ _ => In (Named base_interval) l | _ => True end) \/
                         (exists j, In j l /\ is_base j = false /\ variant_name name (Some j) n)).
Proof.
  intros F H. unfold variant_names in H. apply bind_ok in H as (ms & E & [= <- <-]). apply each_ok in E.
  split; [intro j; rewrite filter_In, negb_true_iff; tauto|]. intro n. rewrite in_app_iff.
  assert (B : In n (if match e with Bound _ _ => existsb is_base l | _ => true end then [name] else []) <->
              n = name /\ match e with Bound _ _ => In (Named base_interval) l | _ => True end).
  { assert (X : existsb is_base l = true <-> In (Named base_interval) l).
    { rewrite existsb_exists. split; [intros (x & I & J); apply is_base_iff in J; now subst|]. intro I. eexists. split; [exact I|]. now apply is_base_iff. }
    destruct e; cbn; try (intuition; now subst). destruct (existsb is_base l); cbn; intuition; try (now subst); try discriminate. }
  rewrite B. clear B. assert (N : In n ms <-> exists j, In j l /\ is_base j = false /\ variant_name name (Some j) n); [|now rewrite N].
  split.
  - intro I. destruct (Forall2_r _ _ _ _ E I) as (j & J & K). apply filter_In in J as [J M]. apply negb_true_iff in M.
    exists j. split; [easy|]. split; [easy|]. destruct (F j J) as [C|C]; [congruence|].
    destruct (indicator_interval_name name j) eqn:Q; [|discriminate]. injection K as ->. now apply (name_iff name j j n C).
  - intros (j & J & M & V). assert (J' : In j (filter (fun i => negb (is_base i)) l)) by (apply filter_In; now rewrite M).
    destruct (Forall2_l _ _ _ _ E J') as (m & I & K). destruct (F j J) as [C|C]; [congruence|].
    apply (name_iff name j j n C) in V. rewrite V in K. injection K as ->. easy.
Qed.
Lemma bound_members l r : Forall2 (bound_form true) l r -> forall i, In i r -> is_base i = true \/ normal_form i i.
Proof.
  intros F i I. destruct (Forall2_r _ _ _ _ F I) as (x & _ & [N|(_ & _ & ->)]).
  - right. eapply normal_form_idem. exact N.
  - left. reflexivity.
Qed.
Lemma bound_in l r : Forall2 (bound_form true) l r ->
  (In (Named base_interval) r <-> In (Named (lit "base")) l) /\
  (forall j, In j r /\ is_base j = false <-> exists i, In i l /\ normal_form i j).
Proof.
  intro F. split; [split|intro j; split].
  - intro I. destruct (Forall2_r _ _ _ _ F I) as (x & J & [N|(_ & -> & _)]); [|easy]. exfalso. eapply base_not_normal, normal_form_idem, N.
  - intro I. destruct (Forall2_l _ _ _ _ F I) as (x & J & [N|(_ & _ & ->)]); [|easy]. exfalso. eapply base_not_normal, N.
  - intros [I B]. destruct (Forall2_r _ _ _ _ F I) as (x & J & [N|(_ & _ & ->)]); [eauto|discriminate].
  - intros (i & I & N). destruct (Forall2_l _ _ _ _ F I) as (x & J & [N'|(_ & -> & ->)]).
    + assert (x = j) as -> by (apply normalize_iff in N, N'; congruence). split; [easy|]. eapply normal_not_base; eauto.
    + exfalso. eapply base_not_normal, N.
Qed.

(** What an accepted entry contributes. *)
Definition entry_object {A} (e : entry A) : option A := match e with Plain a | Bound a _ => Some a | Wrong => None end.
Definition add_entry {A} (name : A -> str) (id : A -> nat) (bindable : A -> bool) (reg : list (str * A)) (e : entry A) : res (list str * list interval) :=
  match entry_object e with
  | None => Raise TypeError
  | Some s =>
      bind (entry_intervals bindable e) (fun l =>
        match sget (name s) reg with
        | None => Raise ValueError
        | Some r => bind (check (Nat.eqb (id s) (id r)) ValueError) (fun _ => variant_names (name s) e l)
        end)
  end.
Lemma add_model_entry g e : add_model g e = add_entry s_name s_id s_trainer (g_sources g) e.
Proof. reflexivity. Qed.
Lemma add_indicator_entry g e : add_indicator g e = add_entry i_name i_id (fun _ => true) (g_inds g) e.
Proof. reflexivity. Qed.
Lemma variants_total {A} name (e : entry A) l : (forall i, In i l -> is_base i = true \/ normal_form i i) ->
  exists p, variant_names name e l = Ok p.
Proof.
  intro F. unfold variant_names. edestruct (each_total (fun tf => match indicator_interval_name name tf with Some n => Ok n | None => Raise ValueError end)) as [r ->]; [|cbn; eauto].
  intros x I. apply filter_In in I as [I B]. apply negb_true_iff in B. destruct (F x I) as [C|C]; [congruence|].
  destruct (proj2 (name_built name x)) as [n ->]; eauto.
Qed.
Lemma entry_iff {A} (name : A -> str) id bindable reg e :
  (exists p, add_entry name id bindable reg e = Ok p) <-> good_entry name id (fun a => bindable a = true) reg e.
Proof.
  unfold add_entry, good_entry. split.
  - intros [p H]. destruct e as [a|a l|]; cbn [entry_object] in H; [| |discriminate]; apply bind_ok in H as (l' & L & H);
      destruct (sget (name a) reg) as [r|] eqn:G; try discriminate; apply bind_ok in H as ([] & C & H); apply sget_iff in G;
      unfold check in C; destruct (Nat.eqb_spec (id a) (id r)); try discriminate; exists a, r; (split; [easy|]); (split; [easy|]).
    + now left.
    + right. exists l. split; [easy|]. cbn in L. destruct (bindable a); [|discriminate]. split; [easy|].
      destruct (normalize_intervals l true) eqn:N; [|discriminate]. apply normalize_intervals_iff in N. eexists. exact N.
  - intros (a & r & G & I & [->|(l & -> & B & r' & N)]); apply sget_iff in G; cbn [entry_object entry_intervals bind].
    + rewrite G, I, Nat.eqb_refl. cbn [check bind]. apply variants_total. now intros ? [].
    + rewrite B. rewrite (proj2 (normalize_intervals_iff _ _ _) N). cbn [bind]. rewrite G, I, Nat.eqb_refl. cbn [check bind].
      apply variants_total. eapply bound_members, N.
Qed.
Lemma entry_adds {A} (name : A -> str) id bindable reg e ns tfs : add_entry name id bindable reg e = Ok (ns, tfs) ->
  (forall n, In n ns <-> exists a t, binds e a t /\ variant_name (name a) t n) /\
  (forall j, In j tfs <-> exists a, binds e a (Some j)).
Proof.
  unfold add_entry. destruct e as [a|a l|]; cbn [entry_object entry_intervals bind]; [| |discriminate]; intro H.
  - destruct (sget (name a) reg); [|discriminate]. apply bind_ok in H as (_ & _ & H). apply variants_ok in H; [|now intros ? []].
    destruct H as [T N]. split.
    + intro n. rewrite N. split.
      * intros [[-> _]|(j & [] & _)]. exists a, None. split; constructor.
      * intros (b & t & B & V). inversion B; subst. inversion V; subst. now left.
    + intro j. rewrite T. split; [now intros [[] _]|]. intros (b & B). inversion B.
  - apply bind_ok in H as (l' & L & H). destruct (bindable a); [|discriminate].
    destruct (normalize_intervals l true) as [r|] eqn:E; [|discriminate]. injection L as <-.
    apply normalize_intervals_iff in E as (_ & F & _).
    destruct (sget (name a) reg); [|discriminate]. apply bind_ok in H as (_ & _ & H). apply variants_ok in H; [|eapply bound_members, F].
    destruct H as [T N]. destruct (bound_in _ _ F) as [B1 B2]. split.
    + intro n. rewrite N. split.
      * intros [[-> I]|(j & J & B & V)]; [exists a, None; split; constructor; now apply B1|].
        destruct (proj1 (B2 j) (conj J B)) as (i & I & M). exists a, (Some j). split; [econstructor; eauto|easy].
      * intros (b & t & B & V). inversion B; subst.
        -- inversion V; subst. left. split; [easy|]. now apply B1.
        -- right. exists j. destruct (proj2 (B2 j)) as [J K]; [eauto|]. split; [easy|]. now split.
    + intro j. rewrite T. rewrite B2. split.
      * intros (i & I & M). exists a. econstructor; eauto.
      * intros (b & B). inversion B; subst. eauto.
Qed.

Lemma collected {A B C} (f : A -> res (list B * list C)) l ps :
  each f l = Ok ps ->
  (forall n, In n (concat (map fst ps)) <-> exists e ns tfs, In e l /\ f e = Ok (ns, tfs) /\ In n ns) /\
  (forall j, In j (concat (map snd ps)) <-> exists e ns tfs, In e l /\ f e = Ok (ns, tfs) /\ In j tfs).
Proof.
  intro E. apply each_ok in E. split; intro n; rewrite in_concat; split.
  - intros (x & I & J). apply in_map_iff in I as ([ns tfs] & <- & I). destruct (Forall2_r _ _ _ _ E I) as (e & ? & ?). exists e, ns, tfs. auto.
  - intros (e & ns & tfs & I & F & J). destruct (Forall2_l _ _ _ _ E I) as (p & P & F'). rewrite F in F'. injection F' as <-.
    exists ns. split; [|easy]. apply in_map_iff. now exists (ns, tfs).
  - intros (x & I & J). apply in_map_iff in I as ([ns tfs] & <- & I). destruct (Forall2_r _ _ _ _ E I) as (e & ? & ?). exists e, ns, tfs. auto.
  - intros (e & ns & tfs & I & F & J). destruct (Forall2_l _ _ _ _ E I) as (p & P & F'). rewrite F in F'. injection F' as <-.
    exists tfs. split; [|easy]. apply in_map_iff. now exists (ns, tfs).
Qed.

(** ** One call *)
Definition declared_as (a : request) (x : execution) : Prop :=
  x_symbols x = a_symbols a /\
  (forall n, In n (x_models x) <-> exists s t, declares_model a s t /\ variant_name (s_name s) t n) /\
  (forall n, In n (x_inds x) <-> exists i t, declares_ind a i t /\ variant_name (i_name i) t n) /\
  (forall j, In j (x_intervals x) <-> declares_interval a j) /\
  (forall n, In n (x_hypers x) <-> declares_hyper a n).

Lemma entries {A} (name : A -> str) id bindable reg l ps : each (add_entry name id bindable reg) l = Ok ps ->
  (forall n, In n (concat (map fst ps)) <-> exists a t, (exists e, In e l /\ binds e a t) /\ variant_name (name a) t n) /\
  (forall j, In j (concat (map snd ps)) <-> exists a, exists e, In e l /\ binds e a (Some j)).
Proof.
  intro E. destruct (collected _ _ _ E) as [N T]. apply each_ok in E. split.
  - intro n. rewrite N. split.
    + intros (e & ns & tfs & I & F & J). apply (entry_adds name id bindable reg e ns tfs F) in J as (a & t & B & V). exists a, t. eauto.
    + intros (a & t & (e & I & B) & V). destruct (Forall2_l _ _ _ _ E I) as ([ns tfs] & _ & F). exists e, ns, tfs.
      split; [easy|]. split; [easy|]. apply (entry_adds name id bindable reg e ns tfs F). eauto.
  - intro j. rewrite T. split.
    + intros (e & ns & tfs & I & F & J). apply (entry_adds name id bindable reg e ns tfs F) in J as (a & B). eauto.
    + intros (a & e & I & B). destruct (Forall2_l _ _ _ _ E I) as ([ns tfs] & _ & F). exists e, ns, tfs.
      split; [easy|]. split; [easy|]. apply (entry_adds name id bindable reg e ns tfs F). eauto.
Qed.
Lemma hypers_ok g l hs : each (add_hyper g) l = Ok hs -> forall n, In n hs <-> exists h, In (Some h) l /\ h_name h = n.
Proof.
  intros E n. apply each_ok in E. split.
  - intro I. destruct (Forall2_r _ _ _ _ E I) as ([h|] & J & K); [|discriminate]. exists h. split; [easy|]. cbn in K.
    destruct (sget (h_name h) (g_hypers g)); [|discriminate]. destruct (Nat.eqb _ _); [|discriminate]. now injection K.
  - intros (h & J & <-). destruct (Forall2_l _ _ _ _ E J) as (m & I & K). cbn in K.
    destruct (sget (h_name h) (g_hypers g)); [|discriminate]. destruct (Nat.eqb _ _); [|discriminate]. injection K as ->. easy.
Qed.
Lemma intervals_ok l r : normalize_intervals l false = Some r -> forall j, In j r <-> exists i, In i l /\ normal_form i j.
Proof.
  intros N j. apply normalize_intervals_iff in N as (_ & F & _). split.
  - intro I. destruct (Forall2_r _ _ _ _ F I) as (i & J & [M|(? & _)]); [eauto|discriminate].
  - intros (i & I & M). destruct (Forall2_l _ _ _ _ F I) as (x & J & [M'|(? & _)]); [|discriminate].
    apply normalize_iff in M, M'. congruence.
Qed.
Lemma make_ok g a t x : make_execution g a t = Ok x -> declared_as a x /\ x_id x = S (t_id t).
Proof.
  unfold make_execution. intro H. apply bind_ok in H as (_ & _ & H). apply bind_ok in H as (ms & M & H). apply bind_ok in H as (is & Is & H).
  apply bind_ok in H as (hs & Hs & H). apply bind_ok in H as (tfs & T & [= <-]).
  change (each (add_entry s_name s_id s_trainer (g_sources g)) (a_models a) = Ok ms) in M.
  change (each (add_entry i_name i_id (fun _ => true) (g_inds g)) (a_inds a) = Ok is) in Is.
  destruct (entries _ _ _ _ _ _ M) as [M1 M2]. destruct (entries _ _ _ _ _ _ Is) as [I1 I2].
  split; [|reflexivity]. unfold declared_as. cbn [x_symbols x_models x_inds x_intervals x_hypers].
  split; [easy|]. split; [exact M1|]. split; [exact I1|]. split.
  - intro j. rewrite !in_app_iff, M2, I2. unfold declares_interval.
    assert (D : In j tfs <-> exists l i, a_intervals a = Some l /\ In i l /\ normal_form i j).
    { destruct (a_intervals a) as [l|].
      - destruct (normalize_intervals l false) as [r|] eqn:N; [|discriminate]. injection T as <-. rewrite (intervals_ok l r N). split.
        + intros (i & ? & ?). now exists l, i.
        + intros (l' & i & [= <-] & ? & ?). eauto.
      - injection T as <-. split; [intros []|]. now intros (? & ? & ? & _). }
    rewrite D. unfold declares_model, declares_ind. tauto.
  - exact (hypers_ok _ _ _ Hs).
Qed.
Lemma check_iff b e : check b e = Ok tt <-> b = true.
Proof. destruct b; cbn; split; congruence. Qed.
Lemma symbols_iff syms execs : check_symbols syms execs = Ok tt <->
  forall l, syms = Some l -> l <> [] /\ forall s x l', In s l -> In x execs -> x_symbols x = Some l' -> ~ In s l'.
Proof.
  destruct syms as [l|]; cbn; [|split; easy]. split.
  - intros H l' [= <-]. destruct l as [|s0 l]; [discriminate|]. split; [discriminate|]. apply check_iff in H. rewrite forallb_forall in H.
    intros s x l' I X E J. specialize (H s I). apply negb_true_iff in H.
    assert (existsb (fun x0 => nmem s (static_symbols x0)) execs = true); [|congruence]. apply existsb_exists. exists x. split; [easy|].
    apply nmem_iff. unfold static_symbols. now rewrite E.
  - intro H. destruct (H l eq_refl) as [N D]. destruct l as [|s0 l]; [easy|]. apply check_iff, forallb_forall. intros s I.
    apply negb_true_iff. destruct (existsb (fun x0 => nmem s (static_symbols x0)) execs) eqn:E; [|easy]. exfalso.
    apply existsb_exists in E as (x & X & J). apply nmem_iff in J. unfold static_symbols in J. destruct (x_symbols x) as [l'|] eqn:L; [|easy].
    eapply D; eauto.
Qed.
Lemma each_iff {A B} (f : A -> res B) (P : A -> Prop) l : (forall x, (exists y, f x = Ok y) <-> P x) ->
  ((exists r, each f l = Ok r) <-> forall x, In x l -> P x).
Proof.
  intro H. split.
  - intros [r E] x I. apply each_ok in E. destruct (Forall2_l _ _ _ _ E I) as (y & _ & F). apply H. eauto.
  - intro F. apply each_total. intros x I. apply H. auto.
Qed.
Lemma hyper_iff g o : (exists n, add_hyper g o = Ok n) <-> exists h r, o = Some h /\ registered (h_name h) r (g_hypers g) /\ h_id h = h_id r.
Proof.
  destruct o as [h|]; cbn; [|split; [now intros []|now intros (? & ? & ? & _)]]. split.
  - intros [n E]. destruct (sget (h_name h) (g_hypers g)) as [r|] eqn:G; [|discriminate]. apply sget_iff in G.
    destruct (Nat.eqb_spec (h_id h) (h_id r)); [|discriminate]. exists h, r. auto.
  - intros (h' & r & [= <-] & G & I). apply sget_iff in G. rewrite G, I, Nat.eqb_refl. eauto.
Qed.
Lemma add_iff g a t : (exists u, snd (add_execution g a t) = Ok u) <-> acceptable g (t_execs t) a.
Proof.
  assert (M : (exists x, make_execution g a t = Ok x) <->
    (check_symbols (a_symbols a) (t_execs t) = Ok tt /\ (exists r, each (add_model g) (a_models a) = Ok r) /\ (exists r, each (add_indicator g) (a_inds a) = Ok r) /\
     (exists r, each (add_hyper g) (a_hyperparams a) = Ok r) /\ (forall l, a_intervals a = Some l -> interval_list false l))).
  { unfold make_execution. split.
    - intros [x H]. apply bind_ok in H as ([] & S0 & H). apply bind_ok in H as (ms & M & H). apply bind_ok in H as (is & Is & H).
      apply bind_ok in H as (hs & Hs & H). apply bind_ok in H as (tfs & T & _). do 4 (split; [eauto|]). intros l E. rewrite E in T.
      destruct (normalize_intervals l false) eqn:N; [|discriminate]. eexists. apply normalize_intervals_iff, N.
    - intros (S0 & [ms M] & [is Is] & [hs Hs] & T). rewrite S0, M, Is, Hs. cbn [bind]. destruct (a_intervals a) as [l|]; cbn [bind]; [|eauto].
      destruct (T l eq_refl) as [r N]. rewrite (proj2 (normalize_intervals_iff _ _ _) N). cbn. eauto. }
  assert (E1 := each_iff (add_model g) (good_entry s_name s_id (fun s => s_trainer s = true) (g_sources g)) (a_models a) (fun e => entry_iff s_name s_id s_trainer (g_sources g) e)).
  assert (E2 : (exists r, each (add_indicator g) (a_inds a) = Ok r) <-> forall e, In e (a_inds a) -> good_entry i_name i_id (fun _ => True) (g_inds g) e).
  { apply each_iff. intro e. rewrite add_indicator_entry, entry_iff. unfold good_entry. split; intros (b & r & G & I & K); exists b, r; (split; [easy|]); (split; [easy|]);
      (destruct K as [K|(l & ? & ? & ?)]; [now left|right; exists l; auto]). }
  assert (E3 := each_iff (add_hyper g) _ (a_hyperparams a) (hyper_iff g)).
  rewrite E1, E2, E3, symbols_iff in M. unfold acceptable, add_execution. destruct (make_execution g a t) as [x|e].
  - destruct (a_hashable a); cbn; split.
    + intros _. destruct (proj1 M) as (A & B & C & D & F); [eauto|]. auto 10.
    + eauto.
    + now intros [].
    + now intros (_ & _ & _ & _ & _ & ?).
  - cbn. split; [now intros []|]. intros (A & B & C & D & F & _). destruct (proj2 M) as [x X]; [auto|discriminate].
Qed.

(** ** Histories *)
Definition sound (st : state) : Prop :=
  (forall n r, registered n r (g_sources (st_scope st)) -> s_name r = n /\ ~ In "@"%char n) /\
  (forall n r, registered n r (g_inds (st_scope st)) -> i_name r = n /\ ~ In "@"%char n) /\
  (forall i j x y lx ly s, nth_error (t_execs (st_strategy st)) i = Some x -> nth_error (t_execs (st_strategy st)) j = Some y ->
     x_symbols x = Some lx -> x_symbols y = Some ly -> In s lx -> In s ly -> i = j) /\
  (forall x, In x (t_execs (st_strategy st)) -> x_id x <= t_id (st_strategy st)) /\
  NoDup (map x_id (t_execs (st_strategy st))).
(** The sources of the accepted requests are registered under their names. *)
Definition known (st : state) (a : request) : Prop :=
  (forall s t, declares_model a s t -> exists r, registered (s_name s) r (g_sources (st_scope st))) /\
  (forall i t, declares_ind a i t -> exists r, registered (i_name i) r (g_inds (st_scope st))) /\
  (forall n, declares_hyper a n -> exists r, registered n r (g_hypers (st_scope st))).

Lemma registered_set {V} k (v : V) k' v' l : registered k v ((k', v') :: l) -> (k = k' /\ v = v') \/ registered k v l.
Proof. inversion 1; subst; auto. Qed.
Lemma registered_keeps {V} k (v : V) k' v' l : registered k v l -> exists r, registered k r ((k', v') :: l).
Proof. intro H. destruct (list_eq_dec ascii_dec k k') as [->|N]; [exists v'; constructor|exists v; now constructor]. Qed.

Lemma add_step g a t : 
  (exists e, snd (add_execution g a t) = Raise e /\ t_execs (fst (add_execution g a t)) = t_execs t /\ t_id t <= t_id (fst (add_execution g a t))) \/
  (exists x, snd (add_execution g a t) = Ok tt /\ t_execs (fst (add_execution g a t)) = t_execs t ++ [x] /\ t_id (fst (add_execution g a t)) = S (t_id t) /\
     declared_as a x /\ x_id x = S (t_id t) /\ acceptable g (t_execs t) a).
Proof.
  assert (A := proj1 (add_iff g a t)). unfold add_execution in *. destruct (make_execution g a t) as [x|e] eqn:M.
  - destruct (a_hashable a); cbn in *.
    + right. exists x. apply make_ok in M as [D I]. split; [easy|]. split; [easy|]. split; [easy|]. split; [easy|]. split; [easy|]. apply A. eauto.
    + left. eexists. split; [reflexivity|]. cbn. split; [easy|]. lia.
  - left. eexists. split; [reflexivity|]. cbn. auto.
Qed.
Lemma declared_known g execs a : acceptable g execs a ->
  (forall s t, declares_model a s t -> exists r, registered (s_name s) r (g_sources g)) /\
  (forall i t, declares_ind a i t -> exists r, registered (i_name i) r (g_inds g)) /\
  (forall n, declares_hyper a n -> exists r, registered n r (g_hypers g)).
Proof.
  intros (_ & M & N & H & _). split; [|split].
  - intros s t (e & I & B). destruct (M e I) as (s' & r & G & _ & [->|(l & -> & _)]); inversion B; subst; eauto.
  - intros s t (e & I & B). destruct (N e I) as (s' & r & G & _ & [->|(l & -> & _)]); inversion B; subst; eauto.
  - intros n (h & I & <-). destruct (H _ I) as (h' & r & [= <-] & G & _). eauto.
Qed.
Lemma NoDup_snoc {A} (l : list A) x : NoDup l -> ~ In x l -> NoDup (l ++ [x]).
Proof.
  induction 1; cbn; intro N; [constructor; [easy|constructor]|]. constructor.
  - rewrite in_app_iff. intros [|[->|[]]]; [easy|]. apply N. now left.
  - apply IHNoDup. intro. apply N. now right.
Qed.
Lemma sound_step st e : sound st -> sound (event_step st e).
Proof.
  intros (S1 & S2 & S3 & S4 & S5). destruct e as [i|s|h|a]; cbn [event_step].
  - unfold register_ind. destruct (validate_source_name (i_name i)) eqn:V; cbn; [|unfold sound; auto].
    unfold sound; cbn. split; [easy|]. split; [|auto]. intros n r R. apply registered_set in R as [[-> ->]|R]; [|auto].
    split; [easy|]. now apply validate_iff.
  - unfold register_source. destruct (validate_source_name (s_name s)) eqn:V; cbn; [|unfold sound; auto].
    unfold sound; cbn. split; [|auto]. intros n r R. apply registered_set in R as [[-> ->]|R]; [|auto].
    split; [easy|]. now apply validate_iff.
  - unfold sound; cbn. auto.
  - unfold sound; cbn. split; [easy|]. split; [easy|].
    destruct (add_step (st_scope st) a (st_strategy st)) as [(e & _ & -> & L)|(x & _ & -> & -> & D & I & (A & _))].
    + split; [easy|]. split; [|easy]. intros y Y. specialize (S4 y Y). lia.
    + set (l := t_execs (st_strategy st)) in *. split; [|split].
      * assert (N : forall i y ly s lx, nth_error l i = Some y -> x_symbols y = Some ly -> x_symbols x = Some lx -> In s ly -> In s lx -> False).
        { intros i y ly s lx Y E E' J K. destruct D as [D _]. rewrite D in E'. destruct (A lx E') as [_ F]. eapply F; eauto. eapply nth_error_In; eauto. }
        intros i j y z ly lz s Y Z Ey Ez Jy Jz.
        destruct (Nat.lt_ge_cases i (length l)) as [Li|Li]; destruct (Nat.lt_ge_cases j (length l)) as [Lj|Lj];
          [rewrite nth_error_app1 in Y, Z by easy; eauto| | |].
        -- rewrite nth_error_app1 in Y by easy. rewrite nth_error_app2 in Z by easy. destruct (j - length l) as [|[|?]]; cbn in Z; try discriminate.
           injection Z as <-. exfalso. eauto.
        -- rewrite nth_error_app1 in Z by easy. rewrite nth_error_app2 in Y by easy. destruct (i - length l) as [|[|?]]; cbn in Y; try discriminate.
           injection Y as <-. exfalso. eauto.
        -- rewrite nth_error_app2 in Y, Z by easy. destruct (i - length l) as [|[|?]] eqn:Qi; cbn in Y; try discriminate.
           destruct (j - length l) as [|[|?]] eqn:Qj; cbn in Z; try discriminate. lia.
      * intros y Y. apply in_app_iff in Y as [Y|[<-|[]]]; [specialize (S4 y Y)|]; lia.
      * rewrite map_app. cbn. apply NoDup_snoc; [easy|]. rewrite I. intro J. apply in_map_iff in J as (y & E & Y). specialize (S4 y Y). lia.
Qed.
