(** Proofs about stable sorting and ranking. *)
From Verif Require Import Lemmas.
From Verif Require Export RankSpec.
From Coq Require Import Sorting.Sorted Sorting.Permutation.

Section Sort.
Context {A : Type} (le : A -> A -> bool).
Hypothesis total : forall x y, le x y = true \/ le y x = true.
Hypothesis trans : forall x y z, le x y = true -> le y z = true -> le x z = true.
Lemma insert_perm' x l : Permutation (insert le x l) (x :: l).
Proof.
  induction l as [|y l IH]; cbn [insert]; [reflexivity|]. destruct (le x y); [reflexivity|].
  apply perm_trans with (y :: x :: l); [now constructor|constructor].
Qed.
Lemma isort_perm' l : Permutation (isort le l) l.
Proof. induction l as [|x l IH]; cbn [isort]; [constructor|]. rewrite insert_perm'. now constructor. Qed.
Lemma insert_sorted x l : StronglySorted (fun a b => le a b = true) l -> StronglySorted (fun a b => le a b = true) (insert le x l).
Proof.
  induction l as [|y l IH]; intro S; cbn [insert]; [repeat constructor|]. inversion S as [|? ? S1 S2]; subst. destruct (le x y) eqn:E.
  - constructor; auto. constructor; auto. eapply Forall_impl; [|exact S2]. intros z L. eauto.
  - assert (L : le y x = true) by (destruct (total x y); congruence). constructor; auto.
    rewrite Forall_forall in *. intros z I. apply (Permutation_in _ (insert_perm' x l)) in I. destruct I as [<-|I]; auto.
Qed.
Lemma isort_sorted l : StronglySorted (fun a b => le a b = true) (isort le l).
Proof. induction l as [|x l IH]; cbn [isort]; [constructor|now apply insert_sorted]. Qed.
(** Elements that are equal for the order keep their order. *)
Lemma insert_stable x l k : (forall y, In y l -> le x k = true -> le k x = true -> le y k && le k y = true -> le x y = true) ->
  filter (fun y => le y k && le k y) (insert le x l) = filter (fun y => le y k && le k y) (x :: l).
Proof.
  intro H. induction l as [|y l IH]; cbn [insert]; [reflexivity|]. destruct (le x y) eqn:E; [reflexivity|]. 
  cbn [filter] in *. rewrite IH by (intros; apply H; cbn; auto). destruct (le x k && le k x) eqn:X; [|reflexivity].
  destruct (le y k && le k y) eqn:Y; [|reflexivity]. apply andb_true_iff in X. rewrite (H y) in E; cbn; try tauto; congruence.
Qed.
Lemma isort_stable l k : filter (fun y => le y k && le k y) (isort le l) = filter (fun y => le y k && le k y) l.
Proof.
  induction l as [|x l IH]; cbn [isort]; [reflexivity|]. rewrite insert_stable.
  - cbn [filter]. now rewrite IH.
  - intros y _ L1 L2 Y. apply andb_true_iff in Y. destruct Y as [Y1 Y2]. eauto.
Qed.
End Sort.

Lemma key_total a b : key_leb a b = true \/ key_leb b a = true.
Proof. destruct a, b; cbn; auto. destruct (Qlt_le_dec q q0); [left|right]; apply Qle_bool_iff; lra. Qed.
Lemma key_trans a b c : key_leb a b = true -> key_leb b c = true -> key_leb a c = true.
Proof. destruct a, b, c; cbn; auto; try discriminate. rewrite !Qle_bool_iff. lra. Qed.

Lemma sort_desc_spec {A} (f : A -> key) l :
  Permutation (sort_desc f l) l /\ StronglySorted (fun x y => key_leb (f y) (f x) = true) (sort_desc f l) /\
  forall k, filter (fun x => key_leb (f x) k && key_leb k (f x)) (sort_desc f l) = filter (fun x => key_leb (f x) k && key_leb k (f x)) l.
Proof.
  unfold sort_desc. split; [apply isort_perm'|]. split.
  - apply (isort_sorted (fun x y => key_leb (f y) (f x))); [intros x y; apply key_total|]. intros x y z H1 H2. eapply key_trans; eauto.
  - intro k. destruct l as [|a l0] eqn:EL; [reflexivity|]. rewrite <- EL. clear EL l0 a.
    induction l as [|x l IH]; cbn [isort]; [reflexivity|].
    assert (X : forall m, filter (fun x => key_leb (f x) k && key_leb k (f x)) (insert (fun x y => key_leb (f y) (f x)) x m) =
                          filter (fun x => key_leb (f x) k && key_leb k (f x)) (x :: m)).
    { induction m as [|y m IHm]; cbn [insert]; [reflexivity|]. destruct (key_leb (f y) (f x)) eqn:E; [reflexivity|]. cbn [filter] in *. rewrite IHm.
      destruct (key_leb (f x) k && key_leb k (f x)) eqn:X; [|reflexivity]. destruct (key_leb (f y) k && key_leb k (f y)) eqn:Y; [|reflexivity].
      apply andb_true_iff in X. apply andb_true_iff in Y. rewrite (key_trans (f y) k (f x)) in E; [discriminate|tauto|tauto]. }
    rewrite X. cbn [filter]. now rewrite IH.
Qed.

(** ** Ranks *)
Definition ahead (t s : sym * key) : Prop :=
  key_leb (snd t) (snd s) = false \/ (key_leb (snd t) (snd s) = true /\ key_leb (snd s) (snd t) = true /\ (fst t < fst s)%nat).
Definition aheadb (t s : sym * key) : bool :=
  negb (key_leb (snd t) (snd s)) || (key_leb (snd s) (snd t) && Nat.ltb (fst t) (fst s)).
Lemma rank_total x y : rank_leb x y = true \/ rank_leb y x = true.
Proof.
  unfold rank_leb. destruct (key_total (snd x) (snd y)) as [E|E]; rewrite E; cbn [negb orb andb].
  - destruct (key_leb (snd y) (snd x)); cbn; auto. destruct (Nat.le_gt_cases (fst x) (fst y)); [left; apply Nat.leb_le; auto|right; apply Nat.leb_le; lia].
  - destruct (key_leb (snd x) (snd y)); cbn; auto. destruct (Nat.le_gt_cases (fst x) (fst y)); [left; apply Nat.leb_le; auto|right; apply Nat.leb_le; lia].
Qed.
Lemma rank_trans x y z : rank_leb x y = true -> rank_leb y z = true -> rank_leb x z = true.
Proof.
  unfold rank_leb. rewrite !orb_true_iff, !andb_true_iff, !negb_true_iff, !Nat.leb_le.
  intros [H|[H1 H2]] [K|[K1 K2]].
  - left. destruct (key_leb (snd x) (snd z)) eqn:E; auto. exfalso. destruct (key_total (snd z) (snd y)) as [T|T]; [|congruence].
    rewrite (key_trans _ _ _ E T) in H. discriminate.
  - left. destruct (key_leb (snd x) (snd z)) eqn:E; auto. rewrite (key_trans _ _ _ E K1) in H. discriminate.
  - left. destruct (key_leb (snd x) (snd z)) eqn:E; auto. rewrite (key_trans _ _ _ H1 E) in K. discriminate.
  - right. split; [eapply key_trans; eauto|lia].
Qed.
Lemma aheadb_ahead t s : aheadb t s = true <-> ahead t s.
Proof.
  unfold aheadb, ahead. destruct (key_leb (snd t) (snd s)) eqn:E; cbn [negb orb]; [|tauto]. rewrite andb_true_iff, Nat.ltb_lt. intuition congruence.
Qed.
Lemma rank_ahead x y : fst x <> fst y -> (rank_leb x y = aheadb x y).
Proof.
  intro N. unfold rank_leb, aheadb. f_equal. f_equal. destruct (Nat.leb_spec (fst x) (fst y)), (Nat.ltb_spec (fst x) (fst y)); auto; lia.
Qed.
Lemma rank_asym x y : aheadb x y = true -> rank_leb y x = false.
Proof.
  rewrite aheadb_ahead. unfold ahead, rank_leb. intros [E|[E1 [E2 E3]]].
  - rewrite E. destruct (key_total (snd x) (snd y)) as [T|T]; [congruence|]. rewrite T. reflexivity.
  - rewrite E1, E2. cbn. apply Nat.leb_gt. lia.
Qed.
Lemma enum_get l : forall n s r, aget s (enum_from n l) = Some r <-> exists l1 l2, l = l1 ++ s :: l2 /\ ~ In s l1 /\ r = (n + length l1)%nat.
Proof.
  induction l as [|x l IH]; intros n s r; cbn [enum_from aget].
  - split; [discriminate|intros [l1 [l2 [E _]]]; destruct l1; discriminate].
  - destruct (Nat.eqb s x) eqn:E.
    + apply Nat.eqb_eq in E. subst x. split.
      * intros [= <-]. exists [], l. cbn. split; [reflexivity|]. split; [tauto|lia].
      * intros [l1 [l2 [E1 [E2 ->]]]]. destruct l1 as [|y l1]; [cbn; f_equal; lia|]. injection E1 as <- _. destruct E2. now left.
    + apply Nat.eqb_neq in E. rewrite IH. split.
      * intros [l1 [l2 [-> [H ->]]]]. exists (x :: l1), l2. cbn. split; auto. split; [intros [|]; auto|lia].
      * intros [l1 [l2 [E1 [E2 ->]]]]. destruct l1 as [|y l1]; [injection E1 as <- _; congruence|]. injection E1 as <- E1.
        exists l1, l2. split; auto. split; [intro I; apply E2; now right|cbn; lia].
Qed.
Lemma sorted_split {A} (R : A -> A -> Prop) l1 x l2 : StronglySorted R (l1 ++ x :: l2) -> (forall y, In y l1 -> R y x) /\ (forall y, In y l2 -> R x y).
Proof.
  induction l1 as [|a l1 IH]; cbn [app]; intro S; inversion S as [|? ? S1 S2]; subst.
  - rewrite Forall_forall in S2. split; [intros y []|auto].
  - destruct (IH S1) as [H1 H2]. split; auto. intros y [<-|I]; auto. rewrite Forall_forall in S2. apply S2, in_app_iff. right. now left.
Qed.
Lemma filter_count {A} (f : A -> bool) l m : Permutation l m -> length (filter f l) = length (filter f m).
Proof. intro P. apply Permutation_length. induction P; cbn; repeat match goal with |- context [f ?x] => destruct (f x) end; eauto using perm_trans, perm_swap. Qed.
Lemma ranks_spec scores s r : NoDup (map fst scores) ->
  (aget s (rank_by_score scores) = Some r <->
   exists k, In (s, k) scores /\ r = S (length (filter (fun t => aheadb t (s, k)) scores))).
Proof.
  intro ND. unfold rank_by_score. set (L := isort rank_leb scores). pose proof (isort_perm' rank_leb scores) as P. fold L in P.
  pose proof (isort_sorted rank_leb rank_total rank_trans scores) as S. fold L in S.
  assert (NL : NoDup (map fst L)) by (eapply Permutation_NoDup; [symmetry; apply Permutation_map, P|exact ND]).
  assert (KEY : forall k l1 l2, L = l1 ++ (s, k) :: l2 -> length (filter (fun t => aheadb t (s, k)) scores) = length l1).
  { intros k l1 l2 E. rewrite <- (filter_count _ L scores P), E. rewrite E in S, NL. apply sorted_split in S. destruct S as [S1 S2].
    rewrite map_app in NL. cbn [map fst] in NL. apply NoDup_remove_2 in NL. rewrite in_app_iff in NL.
    rewrite filter_app. cbn [filter]. assert (F1 : filter (fun t => aheadb t (s, k)) l1 = l1).
    { assert (X : forall y, In y l1 -> aheadb y (s, k) = true).
      { intros y I. rewrite <- rank_ahead; auto. cbn [fst]. intro Z. apply NL. left. rewrite <- Z. now apply in_map. }
      clear -X. induction l1 as [|a l IH]; cbn [filter]; auto. rewrite X by now left. f_equal. apply IH. intros; apply X. now right. }
    assert (F2 : filter (fun t => aheadb t (s, k)) l2 = []).
    { assert (X : forall y, In y l2 -> aheadb y (s, k) = false).
      { intros y I. destruct (aheadb y (s, k)) eqn:Z; auto. apply rank_asym in Z. rewrite (S2 y I) in Z. discriminate. }
      clear -X. induction l2 as [|a l IH]; cbn [filter]; auto. rewrite X by now left. apply IH. intros; apply X. now right. }
    assert (F3 : aheadb (s, k) (s, k) = false).
    { unfold aheadb. cbn [fst snd]. destruct (key_total k k) as [T|T]; rewrite T; cbn; apply Nat.ltb_irrefl. }
    rewrite F1, F2, F3, app_nil_r. reflexivity. }
  rewrite enum_get. split.
  - intros [l1 [l2 [E [N ->]]]]. apply map_eq_app in E. destruct E as [m1 [m2 [E [<- E2]]]]. destruct m2 as [|[s' k] m2]; [discriminate|].
    cbn [map fst] in E2. injection E2 as -> E2. exists k. split.
    + apply (Permutation_in _ P). rewrite E. apply in_app_iff. right. now left.
    + rewrite (KEY k m1 m2 E), map_length. reflexivity.
  - intros [k [I ->]]. apply (Permutation_in _ (Permutation_sym P)) in I. apply in_split in I. destruct I as [l1 [l2 E]].
    exists (map fst l1), (map fst l2). split; [rewrite E, map_app; reflexivity|]. split.
    + rewrite E, map_app in NL. cbn [map fst] in NL. apply NoDup_remove_2 in NL. rewrite in_app_iff in NL. tauto.
    + rewrite (KEY k l1 l2 E), map_length. reflexivity.
Qed.
(** Distinct symbols get distinct ranks, and the ranks are 1 to the number of
    scored symbols. *)
Lemma enum_snd l : forall n, map snd (enum_from n l) = seq n (length l).
Proof. induction l as [|x l IH]; intro n; cbn; [reflexivity|]. now rewrite IH. Qed.
Lemma ranks_range scores : map snd (rank_by_score scores) = seq 1 (length scores) /\
  Permutation (map fst (rank_by_score scores)) (map fst scores).
Proof.
  unfold rank_by_score. pose proof (isort_perm' rank_leb scores) as P. split.
  - rewrite enum_snd, map_length. now rewrite (Permutation_length P).
  - assert (X : forall l n, map fst (enum_from n l) = l) by (induction l; intro n; cbn; [reflexivity|now f_equal]). rewrite X. now apply Permutation_map.
Qed.

(** ** In terms of scores *)
Definition key_of (s : score) : key :=
  match s with ScNaN | ScNegInf => KNegInf | ScNum q => KNum q | ScPosInf => KPosInf end.
Lemma sort_key_worth own common : sort_key own common = key_of (worth own common).
Proof. destruct own as [[| |q|]|], common as [[| |q'|]|]; reflexivity. Qed.
Lemma key_score a b : key_leb (key_of a) (key_of b) = true <-> score_le a b.
Proof. destruct a, b; cbn; try (split; auto; fail); try (split; [discriminate|tauto]). apply Qle_bool_iff. Qed.
Lemma sort_worth {A} (f : A -> key) (g : A -> score) l : (forall x, f x = key_of (g x)) ->
  Permutation (sort_desc f l) l /\ StronglySorted (fun x y => score_le (g y) (g x)) (sort_desc f l) /\
  forall p : A -> bool, (forall x y, p x = true -> p y = true -> score_le (g x) (g y)) -> filter p (sort_desc f l) = filter p l.
Proof.
  intro E. destruct (sort_desc_spec f l) as [P [S ST]]. split; auto. split.
  - clear P ST. induction S as [|x m S IH F]; constructor; auto. eapply Forall_impl; [|exact F]. intros y H. apply key_score. now rewrite <- !E.
  - intros p T. clear P S ST. unfold sort_desc. induction l as [|x l IH]; cbn [isort]; [reflexivity|].
    assert (X : forall m, filter p (insert (fun x y => key_leb (f y) (f x)) x m) = filter p (x :: m)).
    { induction m as [|y m IHm]; cbn [insert]; [reflexivity|]. destruct (key_leb (f y) (f x)) eqn:L; [reflexivity|]. cbn [filter] in *. rewrite IHm.
      destruct (p x) eqn:X; [|reflexivity]. destruct (p y) eqn:Y; [|reflexivity]. exfalso. specialize (T y x Y X). apply key_score in T. rewrite <- !E in T. congruence. }
    rewrite X. cbn [filter]. now rewrite IH.
Qed.
Lemma rankable_key x k : rankable x = Some k <-> exists s, x = Some s /\ s <> ScNaN /\ k = key_of s.
Proof.
  destruct x as [[| |q|]|]; cbn; split; try discriminate; try (intros [= <-]; eexists; split; [reflexivity|]; split; [discriminate|reflexivity]);
  intros [s [E [N ->]]]; try discriminate; injection E as <-; try reflexivity; congruence.
Qed.
Lemma beats_ahead x y a b : beats x a y b <-> aheadb (x, key_of a) (y, key_of b) = true.
Proof.
  rewrite aheadb_ahead. unfold ahead, beats. cbn [fst snd]. rewrite <- !key_score. destruct (key_leb (key_of a) (key_of b)) eqn:E; intuition congruence.
Qed.
