(** Generic facts about rationals, sums and association lists. *)
From Verif Require Export Prelude.
From Coq Require Export Permutation.

(** ** Boolean comparisons on [Q] *)
Lemma Qle_bool_true a b : Qle_bool a b = true -> a <= b.
Proof. apply Qle_bool_iff. Qed.
Lemma Qle_bool_false a b : Qle_bool a b = false -> b < a.
Proof.
  intro H. apply Qnot_le_lt. intro L. apply Qle_bool_iff in L. congruence.
Qed.
Lemma Qltb_true a b : Qltb a b = true -> a < b.
Proof. unfold Qltb. intro H. apply negb_true_iff in H. now apply Qle_bool_false. Qed.
Lemma Qltb_false a b : Qltb a b = false -> b <= a.
Proof. unfold Qltb. intro H. apply negb_false_iff in H. now apply Qle_bool_true. Qed.
Lemma Qltb_lt a b : Qltb a b = true <-> a < b.
Proof.
  split; [apply Qltb_true|]. intro H. destruct (Qltb a b) eqn:E; auto.
  apply Qltb_false in E. lra.
Qed.
Lemma Qltb_nlt a b : Qltb a b = false <-> b <= a.
Proof.
  split; [apply Qltb_false|]. intro H. destruct (Qltb a b) eqn:E; auto.
  apply Qltb_true in E. lra.
Qed.
Lemma Qle_bool_nle a b : Qle_bool a b = false <-> b < a.
Proof.
  split; [apply Qle_bool_false|]. intro H. destruct (Qle_bool a b) eqn:E; auto.
  apply Qle_bool_true in E. lra.
Qed.
Lemma Qeq_bool_true a b : Qeq_bool a b = true -> a == b.
Proof. apply Qeq_bool_iff. Qed.
Lemma Qeq_bool_false a b : Qeq_bool a b = false -> ~ a == b.
Proof. intros H E. apply Qeq_bool_iff in E. congruence. Qed.
Lemma Qis0_true a : Qis0 a = true -> a == 0.
Proof. apply Qeq_bool_true. Qed.
Lemma Qis0_false a : Qis0 a = false -> ~ a == 0.
Proof. apply Qeq_bool_false. Qed.

(** Turn every boolean comparison hypothesis into a proposition. *)
Ltac qb :=
  repeat match goal with
  | H : Qle_bool _ _ = true |- _ => apply Qle_bool_true in H
  | H : Qle_bool _ _ = false |- _ => apply Qle_bool_false in H
  | H : Qltb _ _ = true |- _ => apply Qltb_true in H
  | H : Qltb _ _ = false |- _ => apply Qltb_false in H
  | H : Qeq_bool _ _ = true |- _ => apply Qeq_bool_true in H
  | H : Qeq_bool _ _ = false |- _ => apply Qeq_bool_false in H
  | H : Qis0 _ = true |- _ => apply Qis0_true in H
  | H : Qis0 _ = false |- _ => apply Qis0_false in H
  | H : (_ && _)%bool = true |- _ => apply andb_true_iff in H; destruct H
  | H : (_ || _)%bool = false |- _ => apply orb_false_iff in H; destruct H
  end.

Lemma Qmin_cases a b : (Qmin a b == a /\ a <= b) \/ (Qmin a b == b /\ b <= a).
Proof.
  destruct (Q.min_spec a b) as [[H E]|[H E]]; [left|right]; split; auto; now apply Qlt_le_weak.
Qed.
Lemma Qmax_cases a b : (Qmax a b == a /\ b <= a) \/ (Qmax a b == b /\ a <= b).
Proof.
  destruct (Q.max_spec a b) as [[H E]|[H E]]; [right|left]; split; auto; now apply Qlt_le_weak.
Qed.

(** ** Sums *)
Lemma Qsum_app l1 l2 : Qsum (l1 ++ l2) == Qsum l1 + Qsum l2.
Proof. induction l1 as [|x l IH]; cbn; [lra|]. rewrite IH. lra. Qed.
Lemma Qsum_nonneg l : Forall (fun x => 0 <= x) l -> 0 <= Qsum l.
Proof. induction 1; cbn; lra. Qed.
Lemma Qsum_pos l : l <> [] -> Forall (fun x => 0 < x) l -> 0 < Qsum l.
Proof.
  intros Hn H. destruct H as [|x l Hx Hl]; [congruence|]. cbn.
  assert (0 <= Qsum l); [|lra].
  apply Qsum_nonneg. eapply Forall_impl; [|exact Hl]. cbn; intros; lra.
Qed.
Lemma Qsum_map_ext {A} (f g : A -> Q) l :
  (forall x, In x l -> f x == g x) -> Qsum (map f l) == Qsum (map g l).
Proof.
  induction l as [|a l IH]; cbn; intro H; [lra|].
  rewrite (H a) by auto. rewrite IH; [lra|]. auto.
Qed.
Lemma Qsum_map_plus {A} (f g : A -> Q) l :
  Qsum (map (fun x => f x + g x) l) == Qsum (map f l) + Qsum (map g l).
Proof. induction l as [|a l IH]; cbn; [lra|]. rewrite IH. lra. Qed.
Lemma Qsum_map_scale {A} (f : A -> Q) k l :
  Qsum (map (fun x => k * f x) l) == k * Qsum (map f l).
Proof. induction l as [|a l IH]; cbn; [lra|]. rewrite IH. lra. Qed.
Lemma Qsum_perm l1 l2 : Permutation l1 l2 -> Qsum l1 == Qsum l2.
Proof. induction 1; cbn; lra. Qed.

(** ** Association lists *)
Section AssocFacts.
  Context {V : Type}.
  Implicit Types (l : list (nat * V)) (k : nat) (v : V).

  Lemma aget_In k v l : aget k l = Some v -> In (k, v) l.
  Proof.
    induction l as [|[k' v'] r IH]; cbn; [discriminate|].
    destruct (Nat.eqb_spec k k') as [->|N]; intro H.
    - injection H as ->. auto.
    - right. auto.
  Qed.
  Lemma In_aget k v l : NoDup (akeys l) -> In (k, v) l -> aget k l = Some v.
  Proof.
    induction l as [|[k' v'] r IH]; cbn; [tauto|].
    intros ND [E|H]; inversion ND as [|? ? Hn Hr]; subst.
    - injection E as -> ->. now rewrite Nat.eqb_refl.
    - destruct (Nat.eqb_spec k k') as [->|N]; [|auto].
      exfalso. apply Hn. change k' with (fst (k', v)). now apply in_map.
  Qed.
  Lemma aget_None k l : aget k l = None <-> ~ In k (akeys l).
  Proof.
    induction l as [|[k' v'] r IH]; cbn; [tauto|].
    destruct (Nat.eqb_spec k k') as [->|N]; split; intro H.
    - discriminate.
    - exfalso; auto.
    - intros [E|E]; [congruence|]. now apply IH in H.
    - apply IH. auto.
  Qed.
  Lemma aget_Some_key k v l : aget k l = Some v -> In k (akeys l).
  Proof. intro H. apply aget_In in H. change k with (fst (k, v)). now apply in_map. Qed.
  Lemma key_aget k l : In k (akeys l) -> exists v, aget k l = Some v.
  Proof.
    intro H. destruct (aget k l) eqn:E; [eauto|]. apply aget_None in E. tauto.
  Qed.
  Lemma ahas_true k l : ahas k l = true <-> In k (akeys l).
  Proof.
    unfold ahas. destruct (aget k l) eqn:E; split; intro H; auto; try discriminate.
    - eapply aget_Some_key; eauto.
    - apply aget_None in E. tauto.
  Qed.
  Lemma ahas_false k l : ahas k l = false <-> aget k l = None.
  Proof. unfold ahas. destruct (aget k l); split; congruence. Qed.

  Lemma aget_aset_eq k v l : aget k (aset k v l) = Some v.
  Proof.
    induction l as [|[k' v'] r IH]; cbn; [now rewrite Nat.eqb_refl|].
    destruct (Nat.eqb_spec k k') as [->|N]; cbn.
    - now rewrite Nat.eqb_refl.
    - destruct (Nat.eqb_spec k k'); [congruence|auto].
  Qed.
  Lemma aget_aset_neq k k' v l : k <> k' -> aget k (aset k' v l) = aget k l.
  Proof.
    intro N. induction l as [|[j w] r IH]; cbn.
    - destruct (Nat.eqb_spec k k'); congruence.
    - destruct (Nat.eqb_spec k' j) as [->|M]; cbn.
      + destruct (Nat.eqb_spec k j); [congruence|auto].
      + destruct (Nat.eqb_spec k j); auto.
  Qed.
  Lemma aget_aset k k' v l :
    aget k (aset k' v l) = if Nat.eqb k k' then Some v else aget k l.
  Proof.
    destruct (Nat.eqb_spec k k') as [->|N]; [apply aget_aset_eq|now apply aget_aset_neq].
  Qed.
  Lemma akeys_aset_in k v l : In k (akeys l) -> akeys (aset k v l) = akeys l.
  Proof.
    induction l as [|[k' v'] r IH]; cbn; [tauto|].
    destruct (Nat.eqb_spec k k') as [->|N]; cbn; auto.
    intros [E|H]; [congruence|]. f_equal. auto.
  Qed.
  Lemma akeys_aset_new k v l : ~ In k (akeys l) -> aset k v l = l ++ [(k, v)].
  Proof.
    induction l as [|[k' v'] r IH]; cbn; [auto|].
    intro H. destruct (Nat.eqb_spec k k') as [->|N]; [tauto|].
    f_equal. apply IH. tauto.
  Qed.
  Lemma In_akeys_aset j k v l : In j (akeys (aset k v l)) <-> j = k \/ In j (akeys l).
  Proof.
    induction l as [|[k' v'] r IH]; cbn; [intuition|].
    destruct (Nat.eqb_spec k k') as [->|N]; cbn.
    - intuition.
    - rewrite IH. intuition.
  Qed.
  Lemma NoDup_aset k v l : NoDup (akeys l) -> NoDup (akeys (aset k v l)).
  Proof.
    intro H. induction l as [|[k' v'] r IH]; cbn.
    - constructor; [auto|constructor].
    - inversion H as [|? ? Hn Hr]; subst.
      destruct (Nat.eqb_spec k k') as [->|N]; cbn; [constructor; auto|].
      constructor; auto. intro I. apply (proj1 (In_akeys_aset k' k v r)) in I.
      destruct I; [congruence|auto].
  Qed.
  Lemma length_aset_in k v l : In k (akeys l) -> length (aset k v l) = length l.
  Proof.
    induction l as [|[k' v'] r IH]; cbn; [tauto|].
    destruct (Nat.eqb_spec k k') as [->|N]; cbn; auto.
    intros [E|H]; [congruence|]. auto.
  Qed.

  Lemma In_adel k j v l : In (j, v) (adel k l) -> In (j, v) l.
  Proof.
    induction l as [|[k' v'] r IH]; cbn; [tauto|].
    destruct (Nat.eqb_spec k k') as [->|N]; cbn; intuition.
  Qed.
  Lemma In_akeys_adel k j l : In j (akeys (adel k l)) -> In j (akeys l).
  Proof.
    induction l as [|[k' v'] r IH]; cbn; [tauto|].
    destruct (Nat.eqb_spec k k') as [->|N]; cbn; intuition.
  Qed.
  Lemma NoDup_adel k l : NoDup (akeys l) -> NoDup (akeys (adel k l)).
  Proof.
    induction l as [|[k' v'] r IH]; cbn; auto. intro H.
    inversion H as [|? ? Hn Hr]; subst.
    destruct (Nat.eqb_spec k k') as [->|N]; cbn; auto.
    constructor; auto. intro I. apply In_akeys_adel in I. auto.
  Qed.
  Lemma aget_adel_neq k j l : j <> k -> aget j (adel k l) = aget j l.
  Proof.
    intro N. induction l as [|[k' v'] r IH]; cbn; auto.
    destruct (Nat.eqb_spec k k') as [->|M]; cbn.
    - destruct (Nat.eqb_spec j k'); congruence.
    - destruct (Nat.eqb_spec j k'); auto.
  Qed.
  Lemma aget_adel_eq k l : NoDup (akeys l) -> aget k (adel k l) = None.
  Proof.
    induction l as [|[k' v'] r IH]; cbn; auto. intro H.
    inversion H as [|? ? Hn Hr]; subst.
    destruct (Nat.eqb_spec k k') as [->|M]; cbn.
    - now apply aget_None.
    - destruct (Nat.eqb_spec k k'); [congruence|auto].
  Qed.
  Lemma aget_adel k j l : NoDup (akeys l) ->
    aget j (adel k l) = if Nat.eqb j k then None else aget j l.
  Proof.
    intro H. destruct (Nat.eqb_spec j k) as [->|N];
      [now apply aget_adel_eq|now apply aget_adel_neq].
  Qed.
  Lemma adel_notin k l : ~ In k (akeys l) -> adel k l = l.
  Proof.
    induction l as [|[k' v'] r IH]; cbn; auto. intro H.
    destruct (Nat.eqb_spec k k') as [->|N]; [tauto|]. f_equal. tauto.
  Qed.
  Lemma length_adel k l : In k (akeys l) -> S (length (adel k l)) = length l.
  Proof.
    induction l as [|[k' v'] r IH]; cbn; [tauto|].
    destruct (Nat.eqb_spec k k') as [->|N]; cbn; auto.
    intros [E|H]; [congruence|]. f_equal. auto.
  Qed.

  (** Sum of a measure over the values. *)
  Variable f : V -> Q.
  Definition asum l : Q := Qsum (map (fun kv => f (snd kv)) l).
  Lemma asum_aset_in k v w l : aget k l = Some w -> asum (aset k v l) == asum l - f w + f v.
  Proof.
    unfold asum. induction l as [|[k' v'] r IH]; cbn; [discriminate|].
    destruct (Nat.eqb_spec k k') as [->|N]; cbn.
    - intro H. injection H as ->. lra.
    - intro H. apply IH in H. rewrite H. lra.
  Qed.
  Lemma asum_aset_new k v l : aget k l = None -> asum (aset k v l) == asum l + f v.
  Proof.
    unfold asum. induction l as [|[k' v'] r IH]; cbn; [intros _; lra|].
    destruct (Nat.eqb_spec k k') as [->|N]; cbn; [discriminate|].
    intro H. apply IH in H. rewrite H. lra.
  Qed.
  Lemma asum_adel k w l : aget k l = Some w -> asum (adel k l) == asum l - f w.
  Proof.
    unfold asum. induction l as [|[k' v'] r IH]; cbn; [discriminate|].
    destruct (Nat.eqb_spec k k') as [->|N]; cbn.
    - intro H. injection H as ->. lra.
    - intro H. apply IH in H. rewrite H. lra.
  Qed.
End AssocFacts.

Lemma asum_ext {V} (f g : V -> Q) l :
  (forall k v, In (k, v) l -> f v == g v) -> asum f l == asum g l.
Proof.
  intro H. unfold asum. apply Qsum_map_ext. intros [k v] I. cbn. eauto.
Qed.

Lemma aget_map {V W} (f : V -> W) k (l : list (nat * V)) :
  aget k (map (fun kv => (fst kv, f (snd kv))) l) = option_map f (aget k l).
Proof.
  induction l as [|[k' v] r IH]; cbn; auto. destruct (Nat.eqb k k'); auto.
Qed.
Lemma akeys_map {V W} (f : V -> W) (l : list (nat * V)) :
  akeys (map (fun kv => (fst kv, f (snd kv))) l) = akeys l.
Proof. unfold akeys. rewrite map_map. reflexivity. Qed.

Lemma nmem_In k l : nmem k l = true <-> In k l.
Proof.
  unfold nmem. rewrite existsb_exists. split.
  - intros [x [H E]]. apply Nat.eqb_eq in E. now subst.
  - intro H. exists k. split; auto. apply Nat.eqb_refl.
Qed.
Lemma nmem_notIn k l : nmem k l = false <-> ~ In k l.
Proof. rewrite <- nmem_In. destruct (nmem k l); split; congruence. Qed.

Lemma NoDup_app_snoc {A} (l : list A) x : NoDup l -> ~ In x l -> NoDup (l ++ [x]).
Proof.
  intros H N. apply (Permutation_NoDup (l := x :: l)); [|now constructor].
  apply Permutation_cons_append.
Qed.

Lemma NoDup_app_left {A} (l1 l2 : list A) : NoDup (l1 ++ l2) -> NoDup l1.
Proof.
  induction l1 as [|x r IH]; cbn; [constructor|]. intro H. inversion H as [|? ? Hn Hr]; subst.
  constructor; auto. intro I. apply Hn. apply in_app_iff. auto.
Qed.
Lemma NoDup_app_right {A} (l1 l2 : list A) : NoDup (l1 ++ l2) -> NoDup l2.
Proof. induction l1 as [|x r IH]; cbn; auto. intro H. inversion H; auto. Qed.
