(** Proofs for C81 and C82. *)
From Verif Require Import JsonSpec.
From Coq Require Import Lqa.
Open Scope list_scope.

Section Ind.
Variable P : pyval -> Prop.
Hypothesis leaf : forall v, (match v with
  | VEnum _ | VArray0 _ | VArray _ | VNamed _ | VDict _ | VList _ | VSet _ => False | _ => True end) -> P v.
Hypothesis on_enum : forall v, P v -> P (VEnum v).
Hypothesis on_array0 : forall v, P v -> P (VArray0 v).
Hypothesis on_array : forall l, Forall P l -> P (VArray l).
Hypothesis on_named : forall l, Forall (fun e => P (snd e)) l -> P (VNamed l).
Hypothesis on_dict : forall l, Forall (fun e => P (fst e) /\ P (snd e)) l -> P (VDict l).
Hypothesis on_list : forall l, Forall P l -> P (VList l).
Hypothesis on_set : forall l, Forall P l -> P (VSet l).
Fixpoint pyval_rec' (v : pyval) : P v.
Proof.
  destruct v as [|b|s|v|s|z|x|x| |s|o|b|o|z|x|v|l|l|l|l|l| |s]; try (apply leaf; exact I).
  - apply on_enum, pyval_rec'.
  - apply on_array0, pyval_rec'.
  - apply on_array. induction l as [|x l IH]; constructor; [apply pyval_rec'|exact IH].
  - apply on_named. induction l as [|[n x] l IH]; constructor; [apply pyval_rec'|exact IH].
  - apply on_dict. induction l as [|[k x] l IH]; constructor; [split; apply pyval_rec'|exact IH].
  - apply on_list. induction l as [|x l IH]; constructor; [apply pyval_rec'|exact IH].
  - apply on_set. induction l as [|x l IH]; constructor; [apply pyval_rec'|exact IH].
Defined.
End Ind.

Lemma text_eqb_eq : forall a b, text_eqb a b = true <-> a = b.
Proof. intros a b. unfold text_eqb. destruct (list_eq_dec ascii_dec a b); split; congruence. Qed.
Lemma text_mem_in : forall s l, text_mem s l = true <-> In s l.
Proof.
  intros s l. unfold text_mem. rewrite existsb_exists. split.
  - intros (x & I & E). apply text_eqb_eq in E. now subst.
  - intros I. exists s. split; [exact I|]. now apply text_eqb_eq.
Qed.
Lemma key_str : forall a b, key_eqb (JStr a) (JStr b) = text_eqb a b.
Proof. reflexivity. Qed.

(** ** Dicts *)
Section Dict.
Context {A : Type}.
Implicit Types (d l : list (scalar * A)).
Lemma dput_new : forall k v d, (forall k' v', In (k', v') d -> key_eqb k' k = false) -> dput k v d = d ++ [(k, v)].
Proof.
  intros k v d. induction d as [|[k' v'] d IH]; intros N; cbn [dput app]; [reflexivity|].
  rewrite (N k' v') by now left. f_equal. apply IH. intros k2 v2 I. apply (N k2 v2). now right.
Qed.
Lemma dput_in : forall k v d k' v', In (k', v') (dput k v d) -> ((k' = k \/ exists w, In (k', w) d) /\ (v' = v \/ exists q, In (q, v') d)).
Proof.
  intros k v d. induction d as [|[k1 v1] d IH]; intros k' v'; cbn [dput].
  - intros [E|[]]. injection E as <- <-. auto.
  - destruct (key_eqb k1 k).
    + intros [E|I]; [injection E as <- <-; split; [right; exists v1; now left|now left]|].
      split; right; eexists; right; exact I.
    + intros [E|I]; [injection E as <- <-; split; right; eexists; left; reflexivity|].
      destruct (IH _ _ I) as [[->|[w W]] [->|[q Q]]]; split; auto; right; eexists; right; eassumption.
Qed.
Lemma dict_fold_in : forall l d k v, In (k, v) (fold_left (fun d '(k, v) => dput k v d) l d) ->
  ((exists w, In (k, w) d) \/ exists w, In (k, w) l) /\ ((exists q, In (q, v) d) \/ exists q, In (q, v) l).
Proof.
  induction l as [|[k1 v1] l IH]; intros d k v; cbn [fold_left].
  - intros I. split; left; eexists; exact I.
  - intros I. destruct (IH _ _ _ I) as [[[w W]|[w W]] [[q Q]|[q Q]]]; split;
      repeat match goal with
      | H : In (_, _) (dput _ _ _) |- _ => apply dput_in in H; destruct H as [[->|[? ?]] [->|[? ?]]]
      end; try (left; eexists; eassumption); try (right; eexists; left; reflexivity); try (right; eexists; right; eassumption).
Qed.
Lemma dict_in : forall l k v, In (k, v) (dict_of l) -> (exists w, In (k, w) l) /\ (exists q, In (q, v) l).
Proof.
  intros l k v I. apply dict_fold_in in I. destruct I as [[[w []]|K] [[q []]|V]]. now split.
Qed.
Fixpoint apart (ks : list scalar) : Prop :=
  match ks with [] => True | k :: rest => (forall k', In k' rest -> key_eqb k k' = false) /\ apart rest end.
Lemma dict_fold_apart : forall l d, apart (map fst (d ++ l)) -> fold_left (fun d '(k, v) => dput k v d) l d = d ++ l.
Proof.
  induction l as [|[k v] l IH]; intros d AP; cbn [fold_left]; [now rewrite app_nil_r|].
  rewrite dput_new.
  - rewrite IH; rewrite <- app_assoc; [reflexivity|exact AP].
  - intros k' v' I. clear IH. induction d as [|[k1 v1] d IHd]; [destruct I|]. cbn [app map fst apart] in AP. destruct AP as [N AP].
    destruct I as [E|I]; [|now apply IHd]. injection E as -> ->. apply N. rewrite map_app, in_app_iff. right. now left.
Qed.
Lemma dict_apart : forall l, apart (map fst l) -> dict_of l = l.
Proof. intros l AP. apply (dict_fold_apart l []). exact AP. Qed.
End Dict.
(** ** Equal keys *)
Lemma number_worth : forall a x, number a = Some x <-> worth a x.
Proof.
  intros a x. split.
  - destruct a as [|[|]|z|[| | |q]|s]; cbn; intros H; try discriminate; injection H as <-; constructor.
  - intros W. destruct W; reflexivity.
Qed.
Lemma worth_none : forall a, number a = None -> forall x, ~ worth a x.
Proof. intros a N x W. apply number_worth in W. congruence. Qed.
Lemma key_same : forall a b, key_eqb a b = true <-> same_key a b.
Proof.
  intros a b. unfold key_eqb. destruct (number a) as [x|] eqn:A; destruct (number b) as [y|] eqn:B.
  - apply number_worth in A, B. rewrite Qeq_bool_iff. split; intros H; [econstructor; eassumption|].
    inversion H as [? ? x' y' A' B' E|s|  | |]; subst; try (inversion A; fail).
    apply number_worth in A, B, A', B'. assert (x' = x) by congruence. assert (y' = y) by congruence. now subst.
  - split; [discriminate|]. intros H. exfalso. inversion H as [? ? x' y' A' B' E|s| | |]; subst; try discriminate. now apply (worth_none _ B) in B'.
  - split; [discriminate|]. intros H. exfalso. inversion H as [? ? x' y' A' B' E|s| | |]; subst; try discriminate. now apply (worth_none _ A) in A'.
  - split.
    + destruct a as [| |z|[| | |q]|s]; destruct b as [| |z'|[| | |q']|s']; cbn in *; intros H; try discriminate; try constructor.
      apply text_eqb_eq in H. subst. constructor.
    + intros H. inversion H as [? ? x' y' A' B' E|s| | |]; subst; try reflexivity.
      * now apply (worth_none _ A) in A'.
      * now apply text_eqb_eq.
Qed.
Lemma key_other : forall a b, key_eqb a b = false <-> ~ same_key a b.
Proof. intros a b. rewrite <- key_same. destruct (key_eqb a b); split; intros H; congruence. Qed.
Definition rest_of (k : scalar) (l : list (scalar * json)) := filter (fun e => negb (key_eqb k (fst e))) l.
Lemma rest_others : forall k l, others k l (rest_of k l).
Proof.
  intros k l. induction l as [|[k' v] l IH]; cbn [rest_of filter fst]; [constructor|].
  destruct (key_eqb k k') eqn:E; cbn [negb].
  - apply others_same; [now apply key_same|exact IH].
  - apply others_other; [now apply key_other|exact IH].
Qed.
Lemma dict_fold_head : forall l k v d, exists w, last_value k v l w /\
  fold_left (fun d '(k, v) => dput k v d) l ((k, v) :: d) = (k, w) :: fold_left (fun d '(k, v) => dput k v d) (rest_of k l) d.
Proof.
  induction l as [|[k' v'] l IH]; intros k v d; cbn [fold_left rest_of filter fst].
  - exists v. split; [|reflexivity]. apply last_first. intros ? ? [].
  - cbn [dput]. destruct (key_eqb k k') eqn:E; cbn [negb].
    + destruct (IH k v' d) as (w & L & F). exists w. split; [|exact F]. apply key_same in E.
      destruct L as [N|before k2 w after -> S N]; [apply (last_later _ _ _ [] k' v' l); [reflexivity|exact E|exact N]|].
      apply (last_later _ _ _ ((k', v') :: before) k2 w after); [reflexivity|exact S|exact N].
    + destruct (IH k v (dput k' v' d)) as (w & L & F). exists w. split; [|cbn [fold_left]; exact F]. apply key_other in E.
      destruct L as [N|before k2 w after -> S N].
      * apply last_first. intros k2 v2 [E2|I]; [injection E2 as <- <-; exact E|now apply (N k2 v2)].
      * apply (last_later _ _ _ ((k', v') :: before) k2 w after); [reflexivity|exact S|exact N].
Qed.
Lemma dict_collapses : forall l, collapses l (dict_of l).
Proof.
  intros l. remember (length l) as n eqn:N. assert (H : (length l <= n)%nat) by lia. clear N. revert l H.
  induction n as [|n IH]; intros [|[k v] l] H; try (constructor; fail); cbn [length] in H; [lia|].
  unfold dict_of. cbn [fold_left dput]. destruct (dict_fold_head l k v []) as (w & L & ->).
  apply (collapses_cons k v w l (rest_of k l)); [exact L|apply rest_others|]. apply IH.
  assert (G : forall l, (length (rest_of k l) <= length l)%nat).
  { clear. induction l as [|e l IH]; cbn [rest_of filter length]; [lia|]. destruct (negb _); cbn [length]; fold (rest_of k l); lia. }
  specialize (G l). lia.
Qed.
Lemma apart_str : forall names, NoDup names -> apart (map JStr names).
Proof.
  induction names as [|n names IH]; intros ND; [exact I|]. apply NoDup_cons_iff in ND. destruct ND as [NI ND]. cbn. split; [|now apply IH].
  intros k' I. apply in_map_iff in I. destruct I as (n' & <- & I). cbn. destruct (text_eqb n n') eqn:E; [|reflexivity].
  apply text_eqb_eq in E. now subst.
Qed.

(** ** Sorting *)
Section Sort.
Context {A : Type} (lt : A -> A -> bool).
Lemma insert_perm : forall x l, Permutation (x :: l) (insert_by lt x l).
Proof.
  intros x. induction l as [|y l IH]; cbn; [reflexivity|]. destruct (lt y x); [|reflexivity].
  rewrite perm_swap. now apply perm_skip.
Qed.
Lemma sort_perm : forall l, Permutation l (sort_by lt l).
Proof. induction l as [|x l IH]; cbn; [reflexivity|]. rewrite <- insert_perm. now apply perm_skip. Qed.

(** On [dom], [lt] is a strict total order up to equality of the elements. *)
Variable dom : A -> Prop.
Hypothesis irr : forall x, dom x -> lt x x = false.
Hypothesis trans : forall x y z, dom x -> dom y -> dom z -> lt x y = true -> lt y z = true -> lt x z = true.
Hypothesis total : forall x y, dom x -> dom y -> lt x y = false -> lt y x = false -> x = y.
Fixpoint ordered (l : list A) : Prop :=
  match l with [] => True | x :: rest => (forall y, In y rest -> lt y x = false) /\ ordered rest end.
Lemma insert_ordered : forall x l, dom x -> Forall dom l -> ordered l -> ordered (insert_by lt x l).
Proof.
  intros x. induction l as [|y l IH]; intros DX D O; cbn [insert_by]; [cbn; split; [intros ? []|exact I]|].
  apply Forall_cons_iff in D. destruct D as [DY D]. cbn [ordered] in O. destruct O as [M O].
  destruct (lt y x) eqn:E.
  - cbn [ordered]. split; [|now apply IH]. intros z Z. apply (Permutation_in _ (Permutation_sym (insert_perm x l))) in Z.
    destruct Z as [<-|Z]; [|now apply M].
    destruct (lt x y) eqn:E2; [|reflexivity]. rewrite <- (irr x DX). symmetry. now apply (trans x y x).
  - cbn [ordered]. split; [|now split]. intros z [<-|Z]; [exact E|]. specialize (M z Z).
    destruct (lt z x) eqn:E2; [|reflexivity]. rewrite Forall_forall in D. specialize (D z Z).
    (* z < x, not z < y, not y < x: so y <= z < x, a contradiction *)
    destruct (lt y z) eqn:E3.
    + rewrite <- E. symmetry. now apply (trans y z x).
    + assert (z = y) by now apply total. subst. congruence.
Qed.
Lemma sort_ordered : forall l, Forall dom l -> ordered (sort_by lt l).
Proof.
  induction l as [|x l IH]; intros D; [exact I|]. apply Forall_cons_iff in D. destruct D as [DX D]. cbn. apply insert_ordered; [exact DX| |now apply IH].
  apply Forall_forall. intros y Y. rewrite Forall_forall in D. apply D. exact (Permutation_in _ (Permutation_sym (sort_perm l)) Y).
Qed.
Lemma ordered_unique : forall l l', Forall dom l -> Permutation l l' -> ordered l -> ordered l' -> l = l'.
Proof.
  induction l as [|x l IH]; intros l' D P O O'; [now apply Permutation_nil in P|].
  destruct l' as [|y l']; [symmetry in P; now apply Permutation_nil_cons in P|].
  apply Forall_cons_iff in D. destruct D as [DX D]. cbn [ordered] in O, O'. destruct O as [M O], O' as [M' O'].
  assert (E : x = y).
  { assert (IX : In x (y :: l')) by (apply (Permutation_in _ P); now left).
    assert (IY : In y (x :: l)) by (apply (Permutation_in _ (Permutation_sym P)); now left).
    destruct IX as [->|IX]; [reflexivity|]. destruct IY as [->|IY]; [reflexivity|].
    rewrite Forall_forall in D. apply total; [exact DX|now apply D|now apply M'|now apply M]. }
  subst y. f_equal. apply IH; auto. now apply Permutation_cons_inv in P.
Qed.
Lemma sort_unique : forall l l', Forall dom l -> Permutation l l' -> sort_by lt l = sort_by lt l'.
Proof.
  intros l l' D P. assert (D' : Forall dom l') by now apply (Permutation_Forall P).
  apply ordered_unique.
  - now apply (Permutation_Forall (sort_perm l)).
  - rewrite <- (sort_perm l), <- (sort_perm l'). exact P.
  - now apply sort_ordered.
  - now apply sort_ordered.
Qed.
End Sort.
Lemma text_lt_irr : forall a, text_ltb a a = false.
Proof. induction a as [|x a IH]; [reflexivity|]. cbn. now rewrite Ascii.eqb_refl. Qed.
Lemma text_lt_total : forall a b, text_ltb a b = false -> text_ltb b a = false -> a = b.
Proof.
  induction a as [|x a IH]; intros [|y b]; cbn [text_ltb]; try discriminate; [reflexivity|].
  rewrite (Ascii.eqb_sym y x). destruct (Ascii.eqb_spec x y) as [->|NE].
  - intros H1 H2. f_equal. now apply IH.
  - rewrite !Nat.ltb_ge. intros H1 H2. exfalso. apply NE. rewrite <- (ascii_nat_embedding x), <- (ascii_nat_embedding y). f_equal. lia.
Qed.
Lemma text_lt_trans : forall a b c, text_ltb a b = true -> text_ltb b c = true -> text_ltb a c = true.
Proof.
  induction a as [|x a IH]; intros [|y b] [|z c]; cbn [text_ltb]; try discriminate; [reflexivity|].
  destruct (Ascii.eqb_spec x y) as [->|NE].
  - destruct (Ascii.eqb_spec y z) as [->|NE']; [apply IH|auto].
  - destruct (Ascii.eqb_spec y z) as [->|NE'].
    + destruct (Ascii.eqb_spec x z); [contradiction|auto].
    + rewrite !Nat.ltb_lt. intros H1 H2. destruct (Ascii.eqb_spec x z) as [->|NX]; [lia|]. apply Nat.ltb_lt. lia.
Qed.

Section Values.
Variables repr dumps : json -> text.
Notation safe := (json_safe repr dumps).

Lemma null_missing : forall v, safe v = JScalar JNull <-> missing v.
Proof.
  induction v as [v L|v IH|v IH|l IH|l IH|l IH|l IH|l IH] using pyval_rec'.
  - destruct v as [|b|s|v|s|z|x|x| |s|o|b|o|z|x|v|l|l|l|l|l| |s]; try destruct L; cbn [json_safe]; split; intros H;
      try (now constructor); try discriminate; try (now inversion H); try (now destruct x; cbn in H; try discriminate; constructor);
      try (now destruct o; try discriminate; constructor); try (inversion H; subst; reflexivity).
  - cbn [json_safe]. rewrite IH. split; [now constructor|now inversion 1].
  - cbn [json_safe]. rewrite IH. split; [now constructor|now inversion 1].
  - cbn [json_safe]. split; [discriminate|inversion 1].
  - cbn [json_safe]. split; [discriminate|inversion 1].
  - cbn [json_safe]. split; [discriminate|inversion 1].
  - cbn [json_safe]. split; [discriminate|inversion 1].
  - cbn [json_safe]. split; [discriminate|inversion 1].
Qed.

Lemma safe_num_strict : forall x, strict_scalar (safe_num x) \/ too_large x.
Proof.
  intros [| | |q]; cbn; try (left; constructor). unfold to_float. destruct (Qle_bool double_bound q) eqn:E1.
  - right. constructor. apply Qle_bool_iff in E1. unfold double_bound in E1. rewrite Qabs_pos; [exact E1|].
    apply (Qle_trans _ (2 ^ 1024 # 1)); [|exact E1]. discriminate.
  - destruct (Qle_bool q (- double_bound)) eqn:E2; [|left; constructor]. right. constructor. apply Qle_bool_iff in E2.
    assert (Q0 : (q <= 0)%Q) by (apply (Qle_trans _ (- double_bound)); [exact E2|discriminate]).
    rewrite Qabs_neg by exact Q0. unfold double_bound in E2. set (b := (2 ^ 1024 # 1)%Q) in *. clearbody b. lra.
Qed.
Lemma safe_strict : forall v, ~ overflows v -> strict (safe v).
Proof.
  induction v as [v L|v IH|v IH|l IH|l IH|l IH|l IH|l IH] using pyval_rec'; intros NO.
  - destruct v as [|b|s|v|s|z|x|x| |s|o|b|o|z|x|v|l|l|l|l|l| |s]; try destruct L; cbn [json_safe]; try (apply strict_leaf; constructor).
    + destruct x; apply strict_leaf; constructor.
    + destruct (safe_num_strict x) as [S|T]; [now constructor|]. exfalso. apply NO. now constructor.
    + destruct o; apply strict_leaf; constructor.
    + destruct o; apply strict_leaf; constructor.
    + destruct (safe_num_strict x) as [S|T]; [now constructor|]. exfalso. apply NO. now constructor.
  - apply IH. intros O. apply NO. now constructor.
  - apply IH. intros O. apply NO. now constructor.
  - cbn [json_safe]. constructor. intros j J. apply in_map_iff in J. destruct J as (v & <- & I). rewrite Forall_forall in IH. apply (IH v I).
    intros O. apply NO. econstructor; eassumption.
  - cbn [json_safe]. constructor. intros k j J. apply dict_in in J. destruct J as [[w W] [q Q]].
    apply in_map_iff in W. destruct W as ([n1 v1] & E1 & I1). injection E1 as <- _. apply in_map_iff in Q. destruct Q as ([n2 v2] & E2 & I2). injection E2 as _ <-.
    split; [constructor|]. rewrite Forall_forall in IH. apply (IH _ I2). intros O. apply NO. eapply over_named; [exact I2|exact O].
  - cbn [json_safe]. constructor. intros k j J. apply dict_in in J. destruct J as [[w W] [q Q]]. rewrite Forall_forall in IH.
    apply in_map_iff in W. destruct W as ([k1 v1] & E1 & I1). apply in_map_iff in Q. destruct Q as ([k2 v2] & E2 & I2). split.
    + assert (SK : strict (safe k1)) by (apply (IH _ I1); intros O; apply NO; eapply over_key; [exact I1|exact O]).
      assert (K := f_equal fst E1). cbn [fst] in K. subst k.
      assert (X : strict_scalar (match safe k1 with JScalar s => s | c => JStr (dumps c) end)) by (destruct SK; [assumption|constructor|constructor]).
      destruct k1; exact X.
    + assert (V := f_equal snd E2). cbn [snd] in V. subst j. apply (IH _ I2). intros O. apply NO. eapply over_value; [exact I2|exact O].
  - cbn [json_safe]. constructor. intros j J. apply in_map_iff in J. destruct J as (v & <- & I). rewrite Forall_forall in IH. apply (IH v I).
    intros O. apply NO. eapply over_list; eassumption.
  - cbn [json_safe]. constructor. intros j J. assert (J' : In j (map safe l)).
    { unfold sort_members in J. destruct (all_comparable (map safe l)); exact (Permutation_in _ (Permutation_sym (sort_perm _ _)) J). }
    apply in_map_iff in J'. destruct J' as (v & <- & I). rewrite Forall_forall in IH. apply (IH v I).
    intros O. apply NO. eapply over_set; eassumption.
Qed.
End Values.

Section JInd.
Variable P : json -> Prop.
Hypothesis on_scalar : forall s, P (JScalar s).
Hypothesis on_list : forall l, Forall P l -> P (JList l).
Hypothesis on_dict : forall l, Forall (fun e => P (snd e)) l -> P (JDict l).
Fixpoint json_rec' (j : json) : P j.
Proof.
  destruct j as [s|l|l]; [apply on_scalar|apply on_list|apply on_dict].
  - induction l as [|x l IH]; constructor; [apply json_rec'|exact IH].
  - induction l as [|[k x] l IH]; constructor; [apply json_rec'|exact IH].
Defined.
End JInd.
Lemma dumpable_strict : forall j, dumpable j = true <-> strict j.
Proof.
  assert (SC : forall s, finite_scalar s = true <-> strict_scalar s).
  { intros [| | |[| | |]|]; cbn; split; intros H; try constructor; try discriminate; inversion H. }
  induction j as [s|l IH|l IH] using json_rec'; cbn [dumpable].
  - rewrite SC. split; [now constructor|now inversion 1].
  - rewrite forallb_forall, Forall_forall in *. split.
    + intros H. constructor. intros j J. apply IH; auto.
    + inversion 1; subst. intros j J. apply IH; auto.
  - rewrite forallb_forall. rewrite Forall_forall in IH. split.
    + intros H. constructor. intros k j J. specialize (H (k, j) J). cbn in H. apply andb_true_iff in H. destruct H as [H1 H2].
      split; [now apply SC|]. now apply (IH (k, j)).
    + inversion 1; subst. intros [k j] J. destruct (H1 k j J) as [K V]. cbn. apply andb_true_iff. split; [now apply SC|]. now apply (IH (k, j) J).
Qed.

(** ** Sets *)
Lemma comparable_perm : forall l l', Permutation l l' -> all_comparable l = all_comparable l'.
Proof.
  assert (SYM : forall x y, match member_lt x y with Some _ => true | None => false end = match member_lt y x with Some _ => true | None => false end).
  { intros [x|x|x] [y|y|y]; cbn; try reflexivity. destruct (number x) eqn:X, (number y) eqn:Y; try reflexivity.
    destruct x, y; try reflexivity. }
  assert (FP : forall (f : json -> bool) l l', Permutation l l' -> forallb f l = forallb f l').
  { intros f l l' P. induction P; cbn; try congruence. now rewrite !andb_assoc, (andb_comm (f y)). }
  intros l l' P. induction P as [|x l l' P IH|x y l|l l' l'' P1 IH1 P2 IH2]; cbn [all_comparable]; [reflexivity| | |congruence].
  - rewrite IH. now rewrite (FP _ _ _ P).
  - cbn [forallb]. rewrite (SYM y x). rewrite <- !andb_assoc. f_equal. rewrite !andb_assoc. now rewrite (andb_comm (forallb _ l)).
Qed.
Lemma comparable_pair : forall l x y, all_comparable l = true -> In x l -> In y l -> x = y \/ exists r, member_lt x y = Some r.
Proof.
  induction l as [|z l IH]; intros x y C; [intros []|]. cbn in C. apply andb_true_iff in C. destruct C as [F C].
  rewrite forallb_forall in F. intros [->|X] [E|Y]; [now left| | |now apply IH].
  - right. specialize (F y Y). destruct (member_lt x y); [eauto|discriminate].
  - subst z. right. specialize (F x X). destruct x as [x|x|x], y as [y|y|y]; cbn in *; try discriminate.
    destruct (number x) eqn:NX, (number y) eqn:NY; try discriminate; eauto.
    destruct x, y; try discriminate; eauto.
Qed.
Definition lt_or (a b : json) : bool := match member_lt a b with Some r => r | None => false end.
Lemma members_unique : forall repr l l', (forall a b, repr a = repr b -> a = b) -> no_mixed_equals l -> Permutation l l' ->
  sort_members repr l = sort_members repr l'.
Proof.
  intros repr l l' INJ NM P. unfold sort_members. rewrite <- (comparable_perm _ _ P).
  destruct (all_comparable l) eqn:C.
  - apply (sort_unique lt_or (fun x => In x l)); [| | | |exact P].
    + intros [x|x|x] _; unfold lt_or; cbn; try reflexivity. destruct (number x) as [p|] eqn:N.
      * assert (E : Qle_bool p p = true) by (apply Qle_bool_iff, Qle_refl). now rewrite E.
      * destruct x; try reflexivity. apply text_lt_irr.
    + intros [x|x|x] [y|y|y] [z|z|z] _ _ _; unfold lt_or; cbn; try discriminate; destruct (number x) as [p|] eqn:NX, (number y) as [q|] eqn:NY, (number z) as [r|] eqn:NZ;
        try discriminate; try (destruct x, y; discriminate); try (destruct y, z; discriminate).
      * rewrite !negb_true_iff. intros H1 H2. apply not_true_iff_false. rewrite Qle_bool_iff. intros H3.
        apply not_true_iff_false in H1, H2. rewrite Qle_bool_iff in H1, H2. apply Qnot_le_lt in H1, H2. lra.
      * destruct x, y, z; try discriminate. apply text_lt_trans.
    + intros x y X Y. unfold lt_or. intros H1 H2.
      destruct (comparable_pair l x y C X Y) as [E|[r M]]; [exact E|]. rewrite M in H1. subst r.
      destruct x as [x|x|x], y as [y|y|y]; cbn in M; try discriminate. cbn in H2. destruct (number x) as [p|] eqn:NX, (number y) as [q|] eqn:NY; try discriminate.
      * f_equal. apply (NM x y p q X Y (proj1 (number_worth _ _) NX) (proj1 (number_worth _ _) NY)). injection M as M.
        apply negb_false_iff in M, H2. apply Qle_bool_iff in M, H2. now apply Qle_antisym.
      * destruct x, y; try discriminate. injection M as M. f_equal. f_equal. now apply text_lt_total.
    + apply Forall_forall. auto.
  - apply (sort_unique (fun a b => text_ltb (repr a) (repr b)) (fun _ => True)); [| | | |exact P].
    + intros x _. apply text_lt_irr.
    + intros x y z _ _ _. apply text_lt_trans.
    + intros x y _ _ H1 H2. apply INJ. now apply text_lt_total.
    + apply Forall_forall. auto.
Qed.
