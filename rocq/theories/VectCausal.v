(** No indicator reads past its bar: over any arithmetic, series that agree up to bar
    [i] give the same value at bar [i]. *)
From Coq Require Import List Bool Arith Lia ZArith QArith.
From Verif Require Import VectModel VectSpec VectLemmas.
Import ListNotations.
Open Scope list_scope.
Open Scope Z_scope.

Ltac pair_eq same :=
  match goal with
  | |- match ?p with pair _ _ => _ end = match ?q with pair _ _ => _ end =>
      first [ constr_eq p q | let E := fresh in assert (E : p = q) by same; rewrite E; clear E ];
      let E := fresh in destruct q eqn:E; clear E
  | |- (if ?p then _ else _) = (if ?q then _ else _) =>
      first [ constr_eq p q | let E := fresh in assert (E : p = q) by same; rewrite E; clear E ];
      let E := fresh in destruct q eqn:E
  end.
Ltac same :=
  cbv zeta;
  repeat first
    [ reflexivity
    | match goal with
      | H : upto _ _ ?l ?l' |- rd _ ?l _ = rd _ ?l' _ => apply H; lia
      | |- floop ?a ?b _ ?s = floop ?a ?b _ ?s' =>
          apply floop_ext; let j := fresh "j" in let t := fresh "t" in intros j t ?; cbv beta zeta
      end
    | match goal with
      | |- match ?p with pair _ _ => _ end = match ?q with pair _ _ => _ end =>
          first [ constr_eq p q
                | match p with context [floop] => assert (p = q) as -> by same end
                | assert (p = q) as -> by same ];
          let E := fresh in destruct q eqn:E; clear E
      | |- (if ?p then _ else _) = (if ?q then _ else _) =>
          first [ constr_eq p q | assert (p = q) as -> by same ];
          let E := fresh in destruct q eqn:E
      end
    | progress f_equal ].

Section Any.
Context (A : arith).
Notation F := (F A).
Notation rd := (rd A).
Notation upto := (upto A).

Lemma upto_len i (l l' : list F) : upto i l l' -> 0 <= i < len l /\ i < len l'.
Proof. intros (? & ? & ?). lia. Qed.
Lemma upto_tab i n n' f f' :
  0 <= i < n -> i < n' -> (forall k, 0 <= k <= i -> f k = f' k) -> upto i (tab A n f) (tab A n' f').
Proof.
  intros H H' E. split; [rewrite len_tab; lia|]. split; [rewrite len_tab; lia|].
  intros k Hk. rewrite !rd_tab by lia. apply E. lia.
Qed.
Lemma upto_tab_from i a a' n n' f f' :
  0 <= i < n -> i < n' -> (forall k, 0 <= k <= i -> (k <? a) = (k <? a')) ->
  (forall k, 0 <= k <= i -> a <= k -> f k = f' k) -> upto i (tab_from A a n f) (tab_from A a' n' f').
Proof.
  intros H H' Ea E. apply upto_tab; [easy|easy|]. intros k Hk. cbv beta. rewrite <- Ea by lia.
  destruct (k <? a) eqn:Ek; [easy|]. apply E; lia.
Qed.
Lemma upto_full i n n' x : 0 <= i < n -> i < n' -> upto i (full A n x) (full A n' x).
Proof. intros. split; [rewrite len_full; lia|]. split; [rewrite len_full; lia|]. intros. now rewrite !rd_full by lia. Qed.
Lemma upto_full_scan {S} i a n n' x (f f' : Z -> S -> S * F) s s' :
  0 <= a <= n -> a <= n' -> 0 <= i < n -> i < n' -> (a <= i -> s = s') -> (forall j t, a <= j <= i -> f j t = f' j t) ->
  upto i (full A a x ++ snd (scan f s (zrange a n))) (full A a x ++ snd (scan f' s' (zrange a n'))).
Proof.
  intros Ha Ha' Hi Hi' Es Ef. unfold upto. rewrite !len_app, !len_full, !len_scan by lia.
  split; [lia|]. split; [lia|]. intros k Hk. rewrite !rd_app by (rewrite len_full, len_scan; lia).
  rewrite !len_full by lia. destruct (k <? a) eqn:E; [reflexivity|].
  apply rd_scan; [lia|lia|lia|apply Es; lia|]. intros. apply Ef. lia.
Qed.
Lemma upto_same (i : nat) o o' : upto (Z.of_nat i) o o' -> same_at i (Some o) (Some o').
Proof. intros (a & b & c). apply (upto_same_at A i o o' (len o) (len o')); try easy; try lia. apply c. lia. Qed.
Lemma same_none {T} i (o : option (list T)) : same_at i None o.
Proof. now intros r r' H. Qed.
Lemma same_none' {T} i (o : option (list T)) : same_at i o None.
Proof. now intros r r' _ H. Qed.

Lemma atr_at_same i k lb h h' l l' c c' g :
  upto i h h' -> upto i l l' -> upto i c c' -> 0 <= lb <= k -> k <= i ->
  atr_at A k lb h l c g = atr_at A k lb h' l' c' g.
Proof.
  intros Hh Hl Hc H Hk. unfold atr_at. replace (k <? lb) with false by lia.
  destruct (lb =? 0) eqn:E; destruct g; same.
Qed.

Ltac conds :=
  repeat match goal with
  | H : agree _ _ _ |- _ => apply (agree_upto A) in H
  end;
  repeat match goal with
  | |- same_at _ (if ?b then _ else None) _ => let E := fresh "E" in destruct b eqn:E; [|apply same_none]
  | |- same_at _ _ (if ?b then _ else None) => let E := fresh "E" in destruct b eqn:E; [|apply same_none']
  end;
  repeat match goal with
  | H : _ && _ = true |- _ => apply andb_true_iff in H; destruct H
  end.
Ltac lens :=
  repeat match goal with
  | H : upto ?i ?l ?l' |- _ =>
      lazymatch goal with
      | _ : 0 <= i < len l /\ i < len l' |- _ => fail
      | _ => pose proof (upto_len _ _ _ H)
      end
  end.

(** Rolling windows. *)
Lemma rolling_upto i f (l l' : list F) n o o' :
  (forall l l', upto i l l' -> upto i (f l n) (f l' n)) ->
  upto i l l' -> rolling A f l n = Some o -> rolling A f l' n = Some o' -> upto i o o'.
Proof.
  intros Hf H. pose proof H as ((a1 & a2) & a3 & _). unfold rolling, len in *.
  destruct l; [cbn in a2; lia|]. destruct l'; [cbn in a3; lia|].
  destruct (verify_input A (f0 :: l) n); [|easy]. destruct (verify_input A (f1 :: l') n); [|easy].
  intros [= <-] [= <-]. now apply Hf.
Qed.
Lemma upto_scan0 {S} i n n' (f f' : Z -> S -> S * F) s :
  0 <= i < n -> i < n' -> (forall j t, 0 <= j <= i -> f j t = f' j t) ->
  upto i (snd (scan f s (zrange 0 n))) (snd (scan f' s (zrange 0 n'))).
Proof.
  intros H H' E. unfold upto. rewrite !len_scan by lia. split; [lia|]. split; [lia|]. intros k Hk.
  replace k with (k - 0) by lia. apply rd_scan; try easy; try lia. intros. apply E. lia.
Qed.
Lemma rolling_sum_upto i n : 0 < n -> forall l l', upto i l l' -> upto i (rolling_sum A l n) (rolling_sum A l' n).
Proof.
  intros Hn l l' H. pose proof (upto_len _ _ _ H). apply upto_scan0; [lia|lia|]. intros j t Hj. unfold rsum_step.
  destruct H as (_ & _ & H). rewrite (H j) by lia. destruct (n <=? j) eqn:E; [rewrite (H (j - n)) by lia|]; reflexivity.
Qed.
Lemma drop_old_in limit l k : In k (drop_old limit l) -> In k l.
Proof. induction l as [|x l IH]; cbn; [easy|]. destruct (x <=? limit); [intros; right; auto|easy]. Qed.
Lemma drop_worse_in a w x l k : In k (drop_worse A a w x l) -> In k l.
Proof. induction l as [|y l IH]; cbn; [easy|]. destruct (w _ x); [intros; right; auto|easy]. Qed.
Lemma drop_worse_same w x l (a a' : list F) :
  (forall k, In k l -> rd a k = rd a' k) -> drop_worse A a w x l = drop_worse A a' w x l.
Proof.
  induction l as [|y l IH]; intros H; [easy|]. cbn. rewrite (H y) by now left. destruct (w _ x); [|easy].
  apply IH. intros. apply H. now right.
Qed.
(** The deque only holds bars already passed, so a step reads nothing later. *)
Definition deq_ok (j : Z) (s : list Z * Z) : Prop := forall k, In k (fst s) -> 0 <= k < j.
Lemma ext_step_ok l w n j s : 0 <= j -> deq_ok j s -> deq_ok (j + 1) (fst (ext_step A l w n j s)).
Proof.
  intros Hj H. unfold ext_step. destruct s as [deq c]. cbn [fst] in H.
  destruct (isnan A (rd l j)).
  - destruct (n - 1 <=? j); intros k; cbn [fst]; intros Hk; [apply drop_old_in in Hk|]; apply H in Hk; cbn [fst] in Hk; lia.
  - assert (G : forall k, In k (rev (drop_worse A l w (rd l j) (rev (drop_old (j - n) deq))) ++ [j]) -> 0 <= k < j + 1).
    { intros k Hk. apply in_app_or in Hk as [Hk|[<-|[]]]; [|lia]. apply in_rev in Hk. apply drop_worse_in in Hk.
      apply in_rev in Hk. apply drop_old_in in Hk. apply H in Hk. cbn [fst] in Hk. lia. }
    destruct (n - 1 <=? j); intros k; cbn [fst]; intros Hk; [apply drop_old_in in Hk|]; now apply G.
Qed.
Lemma ext_step_same l l' w n j s i :
  0 < n -> upto i l l' -> 0 <= j <= i -> deq_ok j s -> ext_step A l w n j s = ext_step A l' w n j s.
Proof.
  intros Hn (_ & _ & H) Hj Hd. unfold ext_step. destruct s as [deq c]. rewrite <- (H j) by lia.
  assert (E1 : drop_worse A l w (rd l j) (rev (drop_old (j - n) deq)) = drop_worse A l' w (rd l j) (rev (drop_old (j - n) deq))).
  { apply drop_worse_same. intros k Hk. apply in_rev in Hk. apply drop_old_in in Hk. apply Hd in Hk. apply H. cbn [fst] in Hk. lia. }
  rewrite <- E1.
  assert (E2 : (n <=? j) && isnan A (rd l (j - n)) = (n <=? j) && isnan A (rd l' (j - n))).
  { destruct (n <=? j) eqn:E; [|easy]. now rewrite (H (j - n)) by lia. }
  rewrite <- E2. destruct (isnan A (rd l j)) eqn:En.
  - destruct (n - 1 <=? j); [|easy]. destruct (drop_old (j - n) deq) as [|k q] eqn:Ed; [easy|].
    rewrite (H k); [easy|]. assert (Hk : In k deq) by (apply (drop_old_in (j - n)); rewrite Ed; now left).
    apply Hd in Hk. cbn [fst] in Hk. lia.
  - destruct (n - 1 <=? j); [|easy].
    set (deq' := rev (drop_worse A l w (rd l j) (rev (drop_old (j - n) deq))) ++ [j]).
    destruct (drop_old (j - n) deq') as [|k q] eqn:Ed; [easy|].
    rewrite (H k); [easy|]. assert (Hk : In k deq') by (apply (drop_old_in (j - n)); rewrite Ed; now left).
    apply in_app_or in Hk as [Hk|[<-|[]]]; [|lia]. apply in_rev in Hk. apply drop_worse_in in Hk.
    apply in_rev in Hk. apply drop_old_in in Hk. apply Hd in Hk. cbn [fst] in Hk. lia.
Qed.
Lemma scan_nth_inv {S T} (P : Z -> S -> Prop) (f f' : Z -> S -> S * T) i : forall m a s,
  a + Z.of_nat m = i + 1 -> P a s ->
  (forall j t, a <= j <= i -> P j t -> f j t = f' j t /\ P (j + 1) (fst (f j t))) ->
  scan f s (zrange_n a m) = scan f' s (zrange_n a m).
Proof.
  induction m as [|m IH]; intros a s Hm Hp H; [easy|]. cbn [zrange_n scan]. destruct (H a s) as [E1 E2]; [lia|easy|].
  rewrite <- E1. destruct (f a s) as [t x]. cbn [fst] in E2. rewrite (IH (a + 1) t); [easy|lia|easy|].
  intros. apply H; [lia|easy].
Qed.
Lemma ext_upto i n w : 0 < n -> forall l l', upto i l l' ->
  upto i (snd (scan (ext_step A l w n) ([], 0) (zrange 0 (len l)))) (snd (scan (ext_step A l' w n) ([], 0) (zrange 0 (len l')))).
Proof.
  intros Hn l l' H. pose proof (upto_len _ _ _ H) as L. unfold upto. rewrite !len_scan by lia.
  split; [lia|]. split; [lia|]. intros k Hk.
  assert (G : forall (a : list F) m, k < m -> rd (snd (scan (ext_step A a w n) ([], 0) (zrange 0 m))) k =
              rd (snd (scan (ext_step A a w n) ([], 0) (zrange 0 (k + 1)))) k).
  { intros a m Hm. replace k with (k - 0) by lia. apply rd_scan; try easy; lia. }
  rewrite (G l), (G l') by lia. do 2 f_equal. unfold zrange. apply (scan_nth_inv deq_ok _ _ k); [lia| |].
  - intros j []. 
  - intros j t Hj Ht. split; [|apply ext_step_ok; [lia|easy]]. apply (ext_step_same _ _ _ _ _ _ i); try easy. lia.
Qed.
Lemma lowv_causal i l l' n : agree i l l' -> same_at i (lowv A l n) (lowv A l' n).
Proof.
  intros H. conds. intros o o' E E'.
  assert (0 < n).
  { lens. unfold lowv, rolling, verify_input in E. destruct l; [unfold len in *; cbn in *; lia|]. destruct (0 <? n) eqn:En; [lia|easy]. }
  assert (G : upto (Z.of_nat i) o o') by (apply (rolling_upto _ _ _ _ _ _ _ (ext_upto _ n _ H0) H E E')).
  now apply (upto_same i o o').
Qed.
Lemma highv_causal i l l' n : agree i l l' -> same_at i (highv A l n) (highv A l' n).
Proof.
  intros H. conds. intros o o' E E'.
  assert (0 < n).
  { lens. unfold highv, rolling, verify_input in E. destruct l; [unfold len in *; cbn in *; lia|]. destruct (0 <? n) eqn:En; [lia|easy]. }
  assert (G : upto (Z.of_nat i) o o') by (apply (rolling_upto _ _ _ _ _ _ _ (ext_upto _ n _ H0) H E E')).
  now apply (upto_same i o o').
Qed.
Lemma sumv_causal i l l' n : agree i l l' -> same_at i (sumv A l n) (sumv A l' n).
Proof.
  intros H. conds. intros o o' E E'.
  assert (0 < n).
  { lens. unfold sumv, rolling, verify_input in E. destruct l; [unfold len in *; cbn in *; lia|]. destruct (0 <? n) eqn:En; [lia|easy]. }
  assert (G : upto (Z.of_nat i) o o') by (apply (rolling_upto _ _ _ _ _ _ _ (rolling_sum_upto _ n H0) H E E')).
  now apply (upto_same i o o').
Qed.
Lemma returnv_causal i l l' n : agree i l l' -> same_at i (returnv A l n) (returnv A l' n).
Proof.
  intros H. conds. lens. unfold returnv. destruct l; [unfold len in *; cbn in *; lia|]. destruct l'; [unfold len in *; cbn in *; lia|].
  conds. unfold verify_input in *. conds. apply upto_same. apply upto_tab; [lia|lia|]. intros k Hk. cbv zeta.
  destruct (k <? n) eqn:Ek; [easy|]. same.
Qed.
Lemma atr_causal i h h' l l' c c' lb :
  agree i h h' -> agree i l l' -> agree i c c' -> same_at i (atr A h l c lb) (atr A h' l' c' lb).
Proof.
  intros Hh Hl Hc. conds. lens. unfold atr. conds. destruct c; [unfold len in *; cbn in *; lia|]. destruct c'; [unfold len in *; cbn in *; lia|].
  conds. unfold verify_input in *. conds. apply upto_same. apply upto_tab; [lia|lia|]. intros k Hk.
  destruct (k <? lb) eqn:Ek; [easy|]. apply (atr_at_same (Z.of_nat i)); try easy; lia.
Qed.
End Any.
