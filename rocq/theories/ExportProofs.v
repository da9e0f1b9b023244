(** Proofs for C102. *)
From Verif Require Import ExportSpec JsonProofs JsonTables PropJson.
From Coq Require Import DecimalString DecimalNat Lqa.
Open Scope list_scope.

Lemma written_inj : forall {A} (a b : A), Written a = Written b -> a = b.
Proof. congruence. Qed.
(** ** Trees whose dicts have distinct keys *)
Inductive distinct : json -> Prop :=
| distinct_leaf s : distinct (JScalar s)
| distinct_list l : (forall j, In j l -> distinct j) -> distinct (JList l)
| distinct_dict l : apart (map fst l) -> (forall k j, In (k, j) l -> distinct j) -> distinct (JDict l).

Section Dicts.
Context {A : Type}.
Lemma dput_keys : forall k (v : A) d, map fst (dput k v d) = map fst d \/
  map fst (dput k v d) = map fst d ++ [k] /\ forall k', In k' (map fst d) -> key_eqb k' k = false.
Proof.
  intros k v d. induction d as [|[k1 v1] d IH]; cbn [dput map fst app]; [right; split; [reflexivity|intros ? []]|].
  destruct (key_eqb k1 k) eqn:E; cbn [map fst]; [now left|]. destruct IH as [IH|[IH N]]; [left; now rewrite IH|].
  right. split; [now rewrite IH|]. intros k' [<-|I]; auto.
Qed.
Lemma apart_snoc : forall ks k, apart ks -> (forall k', In k' ks -> key_eqb k' k = false) -> apart (ks ++ [k]).
Proof.
  induction ks as [|x ks IH]; intros k AP N; cbn [app apart]; [split; [intros ? []|exact I]|]. destruct AP as [N1 AP]. split.
  - intros k' I. apply in_app_iff in I as [I|[<-|[]]]; [now apply N1|]. apply N. now left.
  - apply IH; [exact AP|]. intros k' I. apply N. now right.
Qed.
Lemma fold_keys : forall l (d : list (scalar * A)), apart (map fst d) -> apart (map fst (fold_left (fun d '(k, v) => dput k v d) l d)).
Proof.
  induction l as [|[k v] l IH]; intros d AP; cbn [fold_left]; [exact AP|]. apply IH.
  destruct (dput_keys k v d) as [->|[-> N]]; [exact AP|]. now apply apart_snoc.
Qed.
Lemma dict_keys : forall l : list (scalar * A), apart (map fst (dict_of l)).
Proof. intros l. apply fold_keys. exact I. Qed.
End Dicts.

Section Twice.
Variables repr dumps : json -> text.
Notation safe := (json_safe repr dumps).

Lemma safe_distinct : forall v, distinct (safe v).
Proof.
  induction v as [v L|v IH|v IH|l IH|l IH|l IH|l IH|l IH] using pyval_rec'.
  - destruct v; try destruct L; cbn [json_safe]; constructor.
  - exact IH.
  - exact IH.
  - cbn [json_safe]. constructor. intros j J. apply in_map_iff in J as (v & <- & I). rewrite Forall_forall in IH. now apply IH.
  - cbn [json_safe]. constructor; [apply dict_keys|]. intros k j J. apply dict_in in J as [_ [q Q]]. apply in_map_iff in Q as ([n v] & E & I).
    injection E as _ <-. rewrite Forall_forall in IH. exact (IH _ I).
  - cbn [json_safe]. constructor; [apply dict_keys|]. intros k j J. apply dict_in in J as [_ [q Q]]. apply in_map_iff in Q as ([n v] & E & I).
    assert (V := f_equal snd E). cbn [snd] in V. subst j. rewrite Forall_forall in IH. exact (proj2 (IH _ I)).
  - cbn [json_safe]. constructor. intros j J. apply in_map_iff in J as (v & <- & I). rewrite Forall_forall in IH. now apply IH.
  - cbn [json_safe]. constructor. intros j J. assert (J' : In j (map safe l)).
    { unfold sort_members in J. destruct (all_comparable (map safe l)); exact (Permutation_in _ (Permutation_sym (sort_perm _ _)) J). }
    apply in_map_iff in J' as (v & <- & I). rewrite Forall_forall in IH. now apply IH.
Qed.
Lemma scalar_twice : forall s, strict_scalar s -> safe (reread_scalar s) = JScalar s.
Proof. intros s S. destruct S; reflexivity. Qed.
Lemma twice : forall j, strict j -> distinct j -> safe (reread j) = j.
Proof.
  induction j as [s|l IH|l IH] using json_rec'; intros S D; cbn [reread].
  - inversion S; subst. now apply scalar_twice.
  - cbn [json_safe]. f_equal. rewrite map_map. inversion S as [|? S'|]; inversion D as [|? D'|]; subst. rewrite <- (map_id l) at 2. apply map_ext_in.
    intros j J. rewrite Forall_forall in IH. apply IH; auto.
  - cbn [json_safe]. f_equal. inversion S as [| |? S']; inversion D as [| |? AP D']; subst. rewrite map_map.
    assert (E : map (fun x : scalar * json => let '(k, w) := let '(k, v) := x in (reread_scalar k, reread v) in
        (match k with VStr s => JStr s | _ => match safe k with JScalar s => s | c => JStr (dumps c) end end, safe w)) l = l).
    { rewrite <- (map_id l) at 2. apply map_ext_in. intros [k v] I. destruct (S' k v I) as [SK SV]. rewrite Forall_forall in IH. f_equal.
      - destruct SK; reflexivity.
      - apply (IH (k, v) I SV). exact (D' k v I). }
    etransitivity; [|exact (dict_apart _ AP)]. f_equal. exact E.
Qed.
Lemma safe_twice : forall v, ~ overflows v -> safe (reread (safe v)) = safe v.
Proof. intros v N. apply twice; [now apply safe_strict|apply safe_distinct]. Qed.
Lemma reread_fits : forall j, ~ overflows (reread j).
Proof.
  induction j as [s|l IH|l IH] using json_rec'; cbn [reread]; intros O.
  - destruct s; inversion O.
  - inversion O as [| | | | | | | |? v I OV|]; subst. apply in_map_iff in I as (j & <- & I). rewrite Forall_forall in IH. exact (IH j I OV).
  - inversion O as [| | | | | |? k v I OV|? k v I OV| |]; subst; apply in_map_iff in I as ([k' j] & E & I); injection E as <- <-.
    + destruct k'; inversion OV.
    + rewrite Forall_forall in IH. exact (IH _ I OV).
Qed.

(** ** Objects *)
Lemma str_dict_object : forall l, NoDup (map fst l) -> safe (str_dict l) = object (map (fun e => (fst e, safe (snd e))) l).
Proof.
  intros l ND. destruct (C81_dict_partial repr dumps l ND) as [E _]. unfold object. rewrite map_map. cbn [fst snd]. rewrite <- E. unfold str_dict. f_equal. f_equal.
  apply map_ext. now intros [n v].
Qed.
Lemma float_written : forall x, float_json x (safe (VFloat x)).
Proof. intros [| | |q]; cbn; constructor. Qed.
Lemma date_written : forall o, safe (date_value o) = date_of o.
Proof. intros [s|]; reflexivity. Qed.

(** ** The best trial *)
Lemma ltb_less : forall a b, num_ltb a b = true <-> less a b.
Proof.
  intros [| | |p] [| | |q]; cbn; split; intros H; try discriminate; try (inversion H; fail); try constructor; try reflexivity.
  - apply negb_true_iff in H. apply Qnot_le_lt. intros C. apply Qle_bool_iff in C. congruence.
  - inversion H as [| | |? ? L]; subst. apply negb_true_iff, not_true_iff_false. intros C. apply Qle_bool_iff in C. lra.
Qed.
Lemma less_irr : forall a, ~ less a a.
Proof. intros a H. inversion H; subst. lra. Qed.
Lemma less_trans : forall a b c, less a b -> less b c -> less a c.
Proof. intros a b c H1 H2. inversion H1; subst; inversion H2; subst; constructor. lra. Qed.
Lemma less_total : forall a b c, a <> NaN -> b <> NaN -> c <> NaN -> ~ less a b -> less a c -> less b c.
Proof.
  intros [| | |p] [| | |q] [| | |r] NA NB NC H1 H2; try contradiction; inversion H2; subst; try constructor; try (exfalso; apply H1; constructor; fail).
  destruct (Qlt_le_dec p q) as [L|L]; [exfalso; apply H1; now constructor|lra].
Qed.
Definition beats (mx : bool) (a b : num) : Prop := if mx then less b a else less a b.
Lemma beats_dec : forall (mx : bool) v b, (if mx then num_ltb b v else num_ltb v b) = true <-> beats mx v b.
Proof. intros [|] v b; apply ltb_less. Qed.
Lemma beats_irr : forall mx a, ~ beats mx a a.
Proof. intros [|] a; apply less_irr. Qed.
Lemma beats_trans : forall mx a b c, beats mx a b -> beats mx b c -> beats mx a c.
Proof. intros [|] a b c H1 H2; [exact (less_trans _ _ _ H2 H1)|exact (less_trans _ _ _ H1 H2)]. Qed.
Lemma less_total' : forall a b c, a <> NaN -> b <> NaN -> c <> NaN -> ~ less b c -> less a c -> less a b.
Proof.
  intros [| | |p] [| | |q] [| | |r] NA NB NC H1 H2; try contradiction; inversion H2; subst; try constructor; try (exfalso; apply H1; constructor; fail).
  destruct (Qlt_le_dec q r) as [L|L]; [exfalso; apply H1; now constructor|lra].
Qed.
(** [a] beats [c] and [c] is not beaten by ... : weak order. *)
Lemma beats_weak : forall mx a b c, a <> NaN -> b <> NaN -> c <> NaN -> ~ beats mx b c -> beats mx a c -> beats mx a b.
Proof.
  intros [|] a b c NA NB NC H1 H2; cbn in *.
  - exact (less_total c b a NC NB NA H1 H2).
  - exact (less_total' a b c NA NB NC H1 H2).
Qed.
(** What holds of the trials seen so far and of the best of them. *)
Definition best_so_far (mx : bool) (seen : list trial) (best : option (num * list (text * pyval))) : Prop :=
  match best with
  | None => forall t, In t seen -> t_value t = None
  | Some (v, p) => exists before t after, seen = before ++ t :: after /\ t_value t = Some v /\ t_params t = p /\
      (forall u x, In u seen -> t_value u = Some x -> ~ beats mx x v) /\
      (forall u x, In u before -> t_value u = Some x -> beats mx v x)
  end.
Lemma best_step : forall mx l seen best, (forall t, In t (seen ++ l) -> t_value t <> Some NaN) ->
  best_so_far mx seen best -> best_so_far mx (seen ++ l) (best_trial mx l best).
Proof.
  intros mx. induction l as [|t l IH]; intros seen best NN B; cbn [best_trial]; [now rewrite List.app_nil_r|].
  replace (seen ++ t :: l) with ((seen ++ [t]) ++ l) in * by now rewrite <- app_assoc. apply IH; [exact NN|].
  assert (NT : t_value t <> Some NaN) by (apply NN; rewrite !in_app_iff; left; right; now left).
  assert (NS : forall u x, In u seen -> t_value u = Some x -> x <> NaN).
  { intros u x I E ->. apply (NN u); [rewrite !in_app_iff; auto|exact E]. }
  destruct (t_value t) as [v|] eqn:V.
  - destruct best as [[b p]|].
    + cbn in B. destruct B as (before & t0 & after & E & V0 & P0 & M & F). destruct (if mx then num_ltb b v else num_ltb v b) eqn:C.
      * apply beats_dec in C. cbn. exists seen, t, []. split; [reflexivity|]. split; [exact V|]. split; [reflexivity|].
        assert (BN : b <> NaN) by (apply (NS t0 b); [rewrite E; apply in_elt|exact V0]).
        assert (BE : forall u x, In u seen -> t_value u = Some x -> beats mx v x).
        { intros u x I EX. apply (beats_weak mx v x b); [congruence|now apply (NS u x)|exact BN|exact (M u x I EX)|exact C]. }
        split; [|exact BE]. intros u x I EX. apply in_app_iff in I as [I|[<-|[]]].
        -- intros K. apply (beats_irr mx v). exact (beats_trans _ _ _ _ (BE u x I EX) K).
        -- rewrite V in EX. injection EX as <-. apply beats_irr.
      * cbn. exists before, t0, (after ++ [t]). split; [rewrite E, <- app_assoc; reflexivity|]. split; [exact V0|]. split; [exact P0|]. split; [|exact F].
        intros u x I EX. apply in_app_iff in I as [I|[<-|[]]]; [now apply (M u x)|]. rewrite V in EX. injection EX as <-. intros K. apply beats_dec in K. congruence.
    + cbn in B |- *. exists seen, t, []. split; [reflexivity|]. split; [exact V|]. split; [reflexivity|]. split.
      * intros u x I EX. apply in_app_iff in I as [I|[<-|[]]]; [rewrite (B u I) in EX; discriminate|]. rewrite V in EX. injection EX as <-. apply beats_irr.
      * intros u x I EX. rewrite (B u I) in EX. discriminate.
  - destruct best as [[b p]|].
    + cbn in B |- *. destruct B as (before & t0 & after & E & V0 & P0 & M & F). exists before, t0, (after ++ [t]). split; [rewrite E, <- app_assoc; reflexivity|].
      split; [exact V0|]. split; [exact P0|]. split; [|exact F]. intros u x I EX. apply in_app_iff in I as [I|[<-|[]]]; [now apply (M u x)|congruence].
    + cbn in B |- *. intros u I. apply in_app_iff in I as [I|[<-|[]]]; auto.
Qed.
Lemma best_found : forall st, study_ok st ->
  match best_trial (s_maximize st) (s_trials st) None with
  | None => forall t, In t (s_trials st) -> t_value t = None
  | Some (v, p) => exists t, best_one st t v /\ p = t_params t
  end.
Proof.
  intros st [OK _]. pose proof (best_step (s_maximize st) (s_trials st) [] None) as B. cbn [app] in B.
  specialize (B (fun t I => proj1 (OK t I))). assert (B' := B (fun (t : trial) (I : In t []) => match I with end)). clear B.
  destruct (best_trial (s_maximize st) (s_trials st) None) as [[v p]|]; cbn in B'; [|exact B'].
  destruct B' as (before & t & after & E & V & P & M & F). exists t. split; [|now symmetry]. exists before, after. split; [exact E|]. split; [exact V|]. split.
  - intros u x I EX. pose proof (M u x I EX) as K. unfold beats in K. now destruct (s_maximize st).
  - intros u x I EX. pose proof (F u x I EX) as K. unfold beats in K. now destruct (s_maximize st).
Qed.

(** ** Summaries *)
Lemma summary_names : forall (a : list (text * pyval)) (x y z : pyval), a = [] \/ (exists v, a = [(lit "user_attrs", v)]) ->
  NoDup (map fst (([(lit "n_trials", x)] ++ [(lit "best_value", y); (lit "best_params", z)]) ++ a)).
Proof.
  intros a x y z H. destruct H as [->|[v ->]]; cbn [map fst app]; repeat (constructor; [cbn [In]; intros H; repeat (destruct H as [H|H]; [discriminate|]); exact H|]); constructor.
Qed.
Lemma summary_ok : forall st, study_ok st -> exists j, study_summary repr dumps st = Written j /\ summary repr dumps st j.
Proof.
  intros st OK. pose proof (best_found st OK) as B. unfold study_summary.
  set (attrs := match s_attrs st with [] => [] | l => [(lit "user_attrs", str_dict l)] end).
  assert (AN : attrs = [] \/ exists v, attrs = [(lit "user_attrs", v)]) by (unfold attrs; destruct (s_attrs st) as [|a l]; [now left|right; now eexists]).
  assert (ATT : map (fun e => (fst e, safe (snd e))) attrs = match s_attrs st with [] => [] | l => [(lit "user_attrs", values repr dumps l)] end).
  { unfold attrs. destruct OK as [_ NA]. destruct (s_attrs st) as [|a l]; [reflexivity|]. cbn [map fst snd]. rewrite str_dict_object by exact NA. reflexivity. }
  destruct (existsb (fun t => match t_value t with Some _ => true | None => false end) (s_trials st)) eqn:X.
  - destruct (best_trial (s_maximize st) (s_trials st) None) as [[v p]|].
    + destruct B as (t & BO & ->). cbn [xbind]. eexists. split; [reflexivity|]. rewrite app_assoc, str_dict_object by (apply summary_names; exact AN).
      rewrite map_app, ATT. cbn [map fst snd app]. exists (safe (VFloat v)), (values repr dumps (t_params t)). split.
      * rewrite (str_dict_object (t_params t)); [reflexivity|]. destruct BO as (be & af & E & _). destruct OK as [OK _]. apply (OK t). rewrite E. apply in_elt.
      * right. exists t, v. split; [exact BO|]. split; [apply float_written|reflexivity].
    + exfalso. apply existsb_exists in X as (t & I & H). rewrite (B t I) in H. discriminate.
  - cbn [xbind]. eexists. split; [reflexivity|]. rewrite app_assoc, str_dict_object by (apply summary_names; exact AN). rewrite map_app, ATT. cbn [map fst snd app].
    exists (JScalar JNull), (JDict []). split; [reflexivity|]. left. split; [|now split]. intros t I. destruct (t_value t) as [v|] eqn:V; [|reflexivity].
    apply not_true_iff_false in X. exfalso. apply X. apply existsb_exists. exists t. now rewrite V.
Qed.
Lemma str_dict_fits : forall l, fields_fit l -> ~ overflows (str_dict l).
Proof.
  intros l F O. inversion O as [| | | | | |? k v I OV|? k v I OV| |]; subst; apply in_map_iff in I as ([n x] & E & I); injection E as <- <-; [inversion OV|exact (F n x I OV)].
Qed.
Lemma best_in : forall mx l best v p, best_trial mx l best = Some (v, p) -> best = Some (v, p) \/ exists t, In t l /\ t_params t = p.
Proof.
  intros mx. induction l as [|t l IH]; intros best v p; cbn [best_trial]; [auto|]. intros H. apply IH in H as [H|(u & I & E)]; [|right; exists u; split; [now right|exact E]].
  destruct (t_value t) as [x|]; [|now left]. destruct best as [[b q]|].
  - destruct (if mx then num_ltb b x else num_ltb x b); [|now left]. injection H as <- <-. right. exists t. split; [now left|reflexivity].
  - injection H as <- <-. right. exists t. split; [now left|reflexivity].
Qed.
Lemma summary_twice : forall st j, study_fits st -> study_summary repr dumps st = Written j -> safe (reread j) = j.
Proof.
  intros st j [FA FT] H. unfold study_summary in H.
  assert (K : forall l, fields_fit l -> safe (reread (safe (str_dict l))) = safe (str_dict l)) by (intros l F; apply safe_twice, str_dict_fits, F).
  assert (AT : fields_fit (match s_attrs st with [] => [] | l => [(lit "user_attrs", str_dict l)] end)).
  { destruct (s_attrs st) as [|a l]; [intros ? ? []|]. intros n v [E|[]]. injection E as _ <-. now apply str_dict_fits. }
  destruct (existsb _ (s_trials st)).
  - destruct (best_trial (s_maximize st) (s_trials st) None) as [[v p]|] eqn:B; [|discriminate]. cbn [xbind] in H. apply written_inj in H. subst j. apply K.
    apply best_in in B as [B|(t & I & <-)]; [discriminate|].
    intros n x J. apply in_app_iff in J as [[J|[]]|J]; [injection J as _ <-; intros O; inversion O|]. apply in_app_iff in J as [[J|[J|[]]]|J].
    + injection J as _ <-. intros O; inversion O.
    + injection J as _ <-. apply str_dict_fits. now apply FT.
    + exact (AT n x J).
  - cbn [xbind] in H. apply written_inj in H. subst j. apply K. intros n x J. apply in_app_iff in J as [[J|[]]|J]; [injection J as _ <-; intros O; inversion O|]. apply in_app_iff in J as [[J|[J|[]]]|J].
    + injection J as _ <-. intros O; inversion O.
    + injection J as _ <-. intros O. inversion O; subst; contradiction.
    + exact (AT n x J).
Qed.
End Twice.

(** ** Executions *)
Lemma uint_some : forall n, Nat.to_uint n <> Decimal.Nil.
Proof. intros n C. pose proof (f_equal Nat.of_uint C) as D. rewrite Unsigned.of_to in D. cbn in D. subst n. discriminate C. Qed.
Lemma decimal_inj : forall n m, decimal n = decimal m -> n = m.
Proof.
  intros n m E. unfold decimal, lit in E.
  assert (S : NilZero.string_of_uint (Nat.to_uint n) = NilZero.string_of_uint (Nat.to_uint m)).
  { rewrite <- (String.string_of_list_ascii_of_string (NilZero.string_of_uint (Nat.to_uint n))), E. apply String.string_of_list_ascii_of_string. }
  apply (f_equal NilZero.uint_of_string) in S. rewrite !NilZero.usu in S.
  - injection S as S. now apply Unsigned.to_uint_inj.
  - apply uint_some.
  - apply uint_some.
Qed.
Lemma text_precedes : forall a b, text_ltb a b = true <-> precedes a b.
Proof.
  induction a as [|x a IH]; intros [|y b]; cbn [text_ltb]; split; intros H; try discriminate; try (inversion H; fail); try (apply precedes_short); try reflexivity.
  - destruct (Ascii.eqb_spec x y) as [->|NE]; [apply precedes_next; now apply IH|apply precedes_char; now apply Nat.ltb_lt].
  - destruct (Ascii.eqb_spec x y) as [->|NE].
    + inversion H as [|? ? ? ? L|? ? ? P]; subst; [lia|now apply IH].
    + inversion H as [|? ? ? ? L|? ? ? P]; subst; [now apply Nat.ltb_lt|contradiction].
Qed.
Lemma insert_map : forall {A B} (f : A -> B) (la : A -> A -> bool) (lb : B -> B -> bool), (forall x y, lb (f x) (f y) = la x y) ->
  forall x l, insert_by lb (f x) (map f l) = map f (insert_by la x l).
Proof. intros A B f la lb C x. induction l as [|y l IH]; cbn; [reflexivity|]. rewrite C. destruct (la y x); cbn; congruence. Qed.
Lemma sort_map : forall {A B} (f : A -> B) (la : A -> A -> bool) (lb : B -> B -> bool), (forall x y, lb (f x) (f y) = la x y) ->
  forall l, sort_by lb (map f l) = map f (sort_by la l).
Proof.
  intros A B f la lb C. induction l as [|x l IH]; [reflexivity|]. cbn [map]. change (insert_by lb (f x) (sort_by lb (map f l)) = map f (insert_by la x (sort_by la l))). rewrite IH.
  now apply insert_map.
Qed.
Lemma texts_comparable : forall l, all_comparable (map (fun s => JScalar (JStr s)) l) = true.
Proof.
  induction l as [|s l IH]; [reflexivity|]. cbn [map all_comparable]. rewrite IH, andb_true_r. apply forallb_forall. intros y I. apply in_map_iff in I as (t & <- & _). reflexivity.
Qed.
Lemma symbols_written : forall repr dumps s, json_safe repr dumps (VSet (map VStr s)) = JList (map (fun t => JScalar (JStr t)) (sort_by text_ltb s)).
Proof.
  intros repr dumps s. cbn [json_safe]. rewrite map_map. cbn [json_safe]. unfold sort_members. rewrite texts_comparable. f_equal. now apply sort_map.
Qed.
Lemma texts_increasing : forall s, NoDup s -> increasing precedes (sort_by text_ltb s).
Proof.
  intros s ND. assert (O : ordered text_ltb (sort_by text_ltb s)).
  { apply (sort_ordered text_ltb (fun _ => True)); [intros; apply text_lt_irr|intros x y z _ _ _; apply text_lt_trans|intros x y _ _; apply text_lt_total|].
    apply Forall_forall. now intros. }
  apply (Permutation_NoDup (sort_perm text_ltb s)) in ND. revert ND O. induction (sort_by text_ltb s) as [|x l IH]; intros ND O; [exact I|].
  apply NoDup_cons_iff in ND as [NI ND]. cbn [ordered] in O. destruct O as [M O]. cbn [increasing]. split; [|now apply IH].
  intros y Y. apply text_precedes. destruct (text_ltb x y) eqn:E; [reflexivity|]. exfalso. apply NI. now rewrite (text_lt_total x y E (M y Y)).
Qed.
Definition id_ltb {A} (a b : nat * A) : bool := Nat.ltb (fst a) (fst b).
Lemma ids_increasing : forall {A} (l : list (nat * A)), NoDup (map fst l) -> increasing lt (map fst (sort_by id_ltb l)).
Proof.
  intros A l ND. assert (O : ordered id_ltb (sort_by id_ltb l)).
  { apply (sort_ordered id_ltb (fun e => In e l)).
    - intros x _. apply Nat.ltb_irrefl.
    - unfold id_ltb. intros x y z _ _ _. rewrite !Nat.ltb_lt. lia.
    - unfold id_ltb. intros [i x] [j y] X Y. cbn [fst]. rewrite !Nat.ltb_ge. intros L1 L2. assert (E : i = j) by lia. subst j. f_equal. clear L1 L2.
      induction l as [|[k z] l IH]; [destruct X|]. cbn [map fst] in ND. apply NoDup_cons_iff in ND as [NI ND].
      destruct X as [X|X], Y as [Y|Y].
      + congruence.
      + injection X as -> ->. exfalso. apply NI. apply in_map_iff. now exists (i, y).
      + injection Y as -> ->. exfalso. apply NI. apply in_map_iff. now exists (i, x).
      + now apply IH.
    - apply Forall_forall. auto. }
  apply (Permutation_NoDup (Permutation_map fst (sort_perm id_ltb l))) in ND. revert ND O. induction (sort_by id_ltb l) as [|x r IH]; intros ND O; [exact I|].
  cbn [map] in *. apply NoDup_cons_iff in ND as [NI ND]. cbn [ordered] in O. destruct O as [M O]. cbn [increasing]. split; [|now apply IH].
  intros y Y. apply in_map_iff in Y as (e & <- & Y). specialize (M e Y). unfold id_ltb in M. apply Nat.ltb_ge in M.
  assert (fst x <> fst e); [|lia]. intros E. apply NI. rewrite E. now apply in_map.
Qed.
Lemma executions_written : forall repr dumps l, symbols_ok l ->
  symbols_json l (json_safe repr dumps (str_dict (map (fun '(i, s) => (decimal i, VSet (map VStr s))) (sort_by (fun a b => Nat.ltb (fst a) (fst b)) l)))).
Proof.
  intros repr dumps l [ND NS]. change (fun a b : nat * list text => Nat.ltb (fst a) (fst b)) with (@id_ltb (list text)).
  exists (map (fun e => (fst e, sort_by text_ltb (snd e))) (sort_by id_ltb l)). rewrite map_map. cbn [fst]. split; [apply Permutation_map, sort_perm|]. split; [now apply ids_increasing|]. split.
  - intros i s I. apply in_map_iff in I as ([i' s'] & E & I). cbn [fst snd] in E. injection E as -> <-.
    apply (Permutation_in _ (Permutation_sym (sort_perm id_ltb l))) in I. split; [apply texts_increasing; exact (NS i s' I)|]. exists s'. split; [exact I|apply sort_perm].
  - rewrite str_dict_object.
    + rewrite !map_map. f_equal. apply map_ext. intros [i s]. cbn [fst snd]. now rewrite symbols_written.
    + rewrite map_map. rewrite (map_ext _ (fun e => decimal (fst e))) by now intros [i s].
      apply (Permutation_NoDup (Permutation_map fst (sort_perm id_ltb l))) in ND. rewrite <- map_map. apply FinFun.Injective_map_NoDup; [exact decimal_inj|exact ND].
Qed.
Lemma executions_fit : forall l, ~ overflows (str_dict (map (fun '(i, s) => (decimal i, VSet (map VStr s))) l)).
Proof.
  intros l. apply str_dict_fits. intros n v I. apply in_map_iff in I as ([i s] & E & I). injection E as _ <-. intros O.
  inversion O as [| | | | | | | | |? w J OW]; subst. apply in_map_iff in J as (t & <- & J). inversion OW.
Qed.

(** ** Results *)
Section Results.
Variables repr dumps : json -> text.
Notation safe := (json_safe repr dumps).
Lemma records_distinct : forall t m js, dataframe_records repr dumps t m = Got js -> distinct (JList js).
Proof.
  intros t m js. unfold dataframe_records. destruct (match m with Some z => (z <? 0)%Z | None => false end); [discriminate|].
  destruct (table_empty t); intros H; assert (E : forall a b : list json, Got a = Got b -> a = b) by congruence; apply E in H; subst js; constructor; [intros ? []|]. intros j J. apply in_map_iff in J as (r & <- & _). apply safe_distinct.
Qed.
Lemma table_distinct : forall t m j, table_json repr dumps t m = Got (Some j) -> distinct j.
Proof.
  intros t m j. unfold table_json. destruct (dataframe_records repr dumps t m) as [js|] eqn:E; [|discriminate]. cbn [jbind]. intros H. injection H as <-. now apply records_distinct in E.
Qed.
Lemma signals_names : forall l m syms d, signals_json repr dumps l m syms = Got d ->
  map fst d = map JStr (map fst (filter (fun e => match syms with None => true | Some s => text_mem (fst e) s end) l)) /\ forall k j, In (k, j) d -> distinct j.
Proof.
  intros l m syms d H. apply signals_ok in H. induction H as [|e x a b [K (js & V & R)] F [IH1 IH2]]; [split; [reflexivity|intros ? ? []]|]. split.
  - cbn [map]. rewrite K, IH1. reflexivity.
  - intros k j [E|I]; [|now apply (IH2 k)]. subst x. cbn [fst snd] in *. subst j. now apply records_distinct in R.
Qed.
Lemma nodup_filter : forall (l : list (text * table)) f, NoDup (map fst l) -> NoDup (map fst (filter f l)).
Proof.
  intros l f. induction l as [|e l IH]; intros ND; [constructor|]. cbn [map filter] in *. apply NoDup_cons_iff in ND as [NI ND]. destruct (f e); [|now apply IH].
  cbn [map]. constructor; [|now apply IH]. intros I. apply NI. apply in_map_iff in I as (x & E & I). apply filter_In in I as [I _]. rewrite <- E. now apply in_map.
Qed.
Lemma result_distinct : forall r inc m symbols p, result_names r -> to_json repr dumps r inc m symbols = Got p ->
  distinct (JDict (map (fun e => (JStr (fst e), snd e)) p)).
Proof.
  intros r inc m symbols p [NS NB] H. destruct inc as [s|inc]; [discriminate|].
  destruct (C82_sections repr dumps r inc m symbols p H) as (ND & _). constructor.
  - rewrite map_map. cbn [fst]. rewrite <- map_map. now apply apart_str.
  - intros k j I. apply in_map_iff in I as ([n x] & E & I). cbn [fst snd] in E. injection E as _ <-.
    destruct (payload_inv _ _ _ _ _ _ _ H) as (V & syms & A & SE). destruct (sections_spec repr dumps _ _ _ _ SE) as (added & -> & IN & _).
    apply in_app_iff in I as [I|I].
    + unfold start_payload in I. cbn [In] in I. destruct I as [I|[I|[]]]; injection I as _ <-; constructor.
    + apply IN in I as [_ I]. apply section_value in I.
      destruct I as [[_ ->]|[[_ I]|[[_ I]|[[_ I]|[[_ I]|[[_ I]|[(_ & b & B & I)|[(_ & l & d & L & I)|(_ & t & T & I)]]]]]]]];
        try (now apply table_distinct in I); [apply safe_distinct| |].
      * unfold bootstrap_json in I. destruct (dataframe_records repr dumps (b_conf b) None) as [c|] eqn:C; [|discriminate].
        destruct (dataframe_records repr dumps (b_drawdown_conf b) None) as [e|] eqn:D; [|discriminate]. injection I as <-. constructor.
        -- specialize (NB b B). change (apart ([JStr (lit "conf_intervals"); JStr (lit "drawdown_conf")] ++ map fst (map (fun '(name, fields) => (JStr name, safe (VNamed fields))) (b_tuples b)))).
           rewrite map_map. rewrite (map_ext _ (fun e => JStr (fst e))) by now intros [n' f]. rewrite <- map_map.
           apply (apart_str _ NB).
        -- intros k' j' [J|[J|J]]; [injection J as _ <-; now apply records_distinct in C|injection J as _ <-; now apply records_distinct in D|].
           apply in_map_iff in J as ([n' f] & J & _). assert (W := f_equal snd J). cbn [snd] in W. subst j'. exact (safe_distinct repr dumps (VNamed f)).
      * destruct I as [J ->]. apply signals_names in J as [K V']. constructor; [|exact V']. rewrite K. apply apart_str, nodup_filter. now apply NS.
Qed.
End Results.
