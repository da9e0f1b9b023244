(** Rolling minimum, maximum and sum. *)
From Coq Require Import List Bool Arith Lia ZArith QArith Qabs Lqa Sorted.
From Verif Require Import VectModel VectSpec VectLemmas VectExact.
Import ListNotations.
Open Scope list_scope.
Open Scope Z_scope.

(** ** Counting over a window of bars *)
Definition zsum (g : Z -> Z) (l : list Z) : Z := fold_right (fun k t => g k + t) 0 l.
Definition qsum (g : Z -> Q) (l : list Z) : Q := fold_right (fun k t => g k + t)%Q 0%Q l.
Lemma zsum_cons g x l : zsum g (x :: l) = g x + zsum g l.
Proof. easy. Qed.
Lemma qsum_cons g x l : qsum g (x :: l) = (g x + qsum g l)%Q.
Proof. easy. Qed.
Lemma zsum_nil g : zsum g [] = 0.
Proof. easy. Qed.
Lemma qsum_nil g : qsum g [] = 0%Q.
Proof. easy. Qed.
Lemma zsum_app g l m : zsum g (l ++ m) = zsum g l + zsum g m.
Proof. induction l as [|x l IH]; [easy|]. cbn [app]. rewrite !zsum_cons. lia. Qed.
Lemma qsum_app g l m : (qsum g (l ++ m) == qsum g l + qsum g m)%Q.
Proof. induction l as [|x l IH]; cbn [app]; [rewrite qsum_nil; lra|]. rewrite !qsum_cons. lra. Qed.
Lemma zrange_first a b : a < b -> zrange a b = a :: zrange (a + 1) b.
Proof. intros. rewrite (zrange_split a (a + 1) b) by lia. replace (zrange a (a + 1)) with [a]; [easy|]. unfold zrange. now replace (Z.to_nat (a + 1 - a)) with 1%nat by lia. Qed.
(** The bars of the window ending before bar [j]. *)
Definition bars (w j : Z) : list Z := zrange (Z.max 0 (j - w)) j.
Lemma zsum_step g w j : 1 <= w -> 0 <= j ->
  zsum g (bars w (j + 1)) = zsum g (bars w j) + g j - (if w <=? j then g (j - w) else 0).
Proof.
  intros Hw Hj. unfold bars. destruct (w <=? j) eqn:E.
  - rewrite !Z.max_r by lia. rewrite (zrange_first (j - w) j), zrange_last by lia. rewrite zsum_app.
    replace (j + 1 - w) with (j - w + 1) by lia. rewrite !zsum_cons, zsum_nil. lia.
  - rewrite !Z.max_l by lia. rewrite zrange_last, zsum_app by lia. rewrite !zsum_cons, zsum_nil. lia.
Qed.
Lemma qsum_step g w j : 1 <= w -> 0 <= j ->
  (qsum g (bars w (j + 1)) == qsum g (bars w j) + g j - (if w <=? j then g (j - w)%Z else 0))%Q.
Proof.
  intros Hw Hj. unfold bars. destruct (w <=? j) eqn:E.
  - rewrite !Z.max_r by lia. rewrite (zrange_first (j - w) j), zrange_last by lia. rewrite qsum_app.
    replace (j + 1 - w) with (j - w + 1) by lia. rewrite !qsum_cons, qsum_nil. lra.
  - rewrite !Z.max_l by lia. rewrite zrange_last, qsum_app by lia. rewrite !qsum_cons, qsum_nil. lra.
Qed.
Definition ind (b : bool) : Z := if b then 1 else 0.
Lemma zsum_ind_pos (p : Z -> bool) l : 0 <= zsum (fun k => ind (p k)) l /\ (0 < zsum (fun k => ind (p k)) l <-> existsb p l = true).
Proof.
  induction l as [|x l [IH1 IH2]]; [cbn; split; [lia|split; [lia|easy]]|].
  rewrite zsum_cons. cbn [existsb]. unfold ind at 1 3. destruct (p x); cbn [orb]; [split; [lia|split; [easy|lia]]|].
  split; [lia|]. rewrite <- IH2. lia.
Qed.

Section Any.
Context (A : arith).
Notation F := (F A).
Notation rd := (rd A).

Lemma skipn_S q : forall l : list F, skipn (S q) l = match skipn q l with [] => [] | _ :: r => r end.
Proof. induction q as [|q IH]; intros [|x l]; try easy. change (skipn (S (S q)) (x :: l)) with (skipn (S q) l). now rewrite IH. Qed.
Lemma firstn_skipn_map a b (l : list F) : 0 <= a <= b -> b <= len l -> firstn (Z.to_nat (b - a)) (skipn (Z.to_nat a) l) = map (rd l) (zrange a b).
Proof.
  intros Ha Hb. unfold len in Hb.
  assert (G : forall n a, (a + n <= length l)%nat -> firstn n (skipn a l) = map (rd l) (zrange_n (Z.of_nat a) n)).
  { induction n as [|n IH]; intros q Hq; [now rewrite firstn_O|].
    destruct (skipn q l) as [|y r] eqn:E.
    { exfalso. assert (length (skipn q l) = 0)%nat by (now rewrite E). rewrite skipn_length in H. lia. }
    cbn [firstn zrange_n map]. f_equal.
    - symmetry. apply rd_eq; [|lia]. rewrite Nat2Z.id. rewrite <- (firstn_skipn q l), E, nth_error_app2; rewrite firstn_length; [|lia].
      replace (q - Nat.min q (length l))%nat with 0%nat by lia. reflexivity.
    - replace (Z.of_nat q + 1) with (Z.of_nat (S q)) by lia. rewrite <- IH by lia. f_equal.
      now rewrite (skipn_S q l), E. }
  rewrite G by lia. unfold zrange. now rewrite Z2Nat.id by lia.
Qed.
Lemma window_bars (l : list F) n i : 1 <= n -> n <= Z.of_nat i + 1 -> (i < length l)%nat ->
  window (Z.to_nat n) i l = map (rd l) (bars n (Z.of_nat i + 1)).
Proof.
  intros Hn Hi Hl. unfold window, bars. rewrite Z.max_r by lia.
  rewrite <- firstn_skipn_map by (unfold len; lia). f_equal; [lia|f_equal; lia].
Qed.
Lemma existsb_map {T U} (f : T -> bool) (g : U -> T) l : existsb f (map g l) = existsb (fun x => f (g x)) l.
Proof. induction l; cbn; [easy|now rewrite IHl]. Qed.

(** ** The deque *)
Section Extreme.
Context (l : list F) (R : F -> F -> bool) (w : Z).
Hypothesis (Hw : 1 <= w) (HR : total_order (isnan A) R).
Let nanat k := isnan A (rd l k).
Let worse := fun x y : F => R y x.
Definition below (k k' : Z) : Prop := k < k' /\ R (rd l k) (rd l k') = true.
Definition deq_inv (j : Z) (s : list Z * Z) : Prop :=
  StronglySorted below (fst s) /\
  (forall k, In k (fst s) -> 0 <= k < j /\ nanat k = false) /\
  (forall m, 0 <= m < j -> j - 1 - w < m -> nanat m = false -> exists k, In k (fst s) /\ m <= k /\ R (rd l k) (rd l m) = true) /\
  snd s = zsum (fun k => ind (nanat k)) (bars w j).

Lemma drop_old_suffix limit q : exists p, q = p ++ drop_old limit q /\ forall k, In k p -> k <= limit.
Proof.
  induction q as [|k q (p & E & H)]; [now exists []|]. cbn. destruct (k <=? limit) eqn:C.
  - exists (k :: p). split; [cbn; now f_equal|]. intros x [<-|Hx]; [lia|now apply H].
  - now exists [].
Qed.
Lemma drop_old_keeps limit q k : In k q -> limit < k -> In k (drop_old limit q).
Proof. intros H C. destruct (drop_old_suffix limit q) as (p & E & Hp). rewrite E in H. apply in_app_or in H as [H|H]; [apply Hp in H; lia|easy]. Qed.
Lemma drop_old_head limit q : StronglySorted below q -> forall k, In k (drop_old limit q) -> limit < k.
Proof.
  induction q as [|x q IH]; intros S k; [easy|]. inversion S as [|? ? S' F']; subst. cbn. destruct (x <=? limit) eqn:C.
  - now apply IH.
  - intros [<-|H]; [lia|]. rewrite Forall_forall in F'. apply F' in H. unfold below in H. lia.
Qed.
Lemma sorted_app_r {T} (P : T -> T -> Prop) p q : StronglySorted P (p ++ q) -> StronglySorted P q.
Proof. induction p; [easy|]. cbn. intros H. inversion H; auto. Qed.
Lemma sorted_app_l {T} (P : T -> T -> Prop) p q : StronglySorted P (p ++ q) -> StronglySorted P p.
Proof.
  induction p as [|x p IH]; [constructor|]. cbn. intros H. inversion H as [|? ? H1 H2]; subst. constructor; [auto|].
  apply Forall_app in H2. easy.
Qed.
Lemma sorted_snoc {T} (P : T -> T -> Prop) p x : StronglySorted P p -> (forall y, In y p -> P y x) -> StronglySorted P (p ++ [x]).
Proof.
  induction p as [|y p IH]; intros S H; [repeat constructor|]. inversion S as [|? ? S' F']; subst. cbn. constructor.
  - apply IH; [easy|]. intros. apply H. now right.
  - apply Forall_app. split; [easy|]. constructor; [apply H; now left|constructor].
Qed.
Lemma drop_worse_prefix x q : exists p, q = rev (drop_worse A l worse x (rev q)) ++ p /\
  (forall k, In k p -> R x (rd l k) = true) /\
  (forall k r, rev (drop_worse A l worse x (rev q)) = r ++ [k] -> R x (rd l k) = false).
Proof.
  assert (G : forall r, exists p, r = p ++ drop_worse A l worse x r /\ (forall k, In k p -> R x (rd l k) = true) /\
     (forall k t, drop_worse A l worse x r = k :: t -> R x (rd l k) = false)).
  { induction r as [|k r (p & E & H1 & H2)]; [exists []; easy|]. cbn [drop_worse]. unfold worse at 1 3. destruct (R x (rd l k)) eqn:C.
    - exists (k :: p). split; [cbn; now f_equal|]. split; [|easy]. intros y [<-|Hy]; auto.
    - exists []. split; [easy|]. split; [easy|]. intros y t [= <- <-]. easy. }
  destruct (G (rev q)) as (p & E & H1 & H2). exists (rev p). split; [|split].
  - rewrite <- rev_app_distr, <- E. now rewrite rev_involutive.
  - intros k Hk. apply H1. now apply in_rev.
  - intros k r Hr. apply (H2 k (rev r)). rewrite <- (rev_involutive (drop_worse _ _ _ _ _)), Hr, rev_app_distr. reflexivity.
Qed.
(** The deque after a bar that is not NaN. *)
Lemma push_inv j deq c :
  0 <= j -> deq_inv j (deq, c) -> nanat j = false ->
  let d := rev (drop_worse A l worse (rd l j) (rev (drop_old (j - w) deq))) ++ [j] in
  StronglySorted below d /\ (forall k, In k d -> 0 <= k < j + 1 /\ nanat k = false) /\
  (forall m, 0 <= m < j + 1 -> j - w < m -> nanat m = false -> exists k, In k d /\ m <= k /\ R (rd l k) (rd l m) = true).
Proof.
  intros Hj (I1 & I2 & I3 & _) Hn. cbn [fst snd] in *.
  destruct HR as [Tot Tr].
  destruct (drop_old_suffix (j - w) deq) as (p & E & Hp).
  destruct (drop_worse_prefix (rd l j) (drop_old (j - w) deq)) as (q & E' & Hq & Hl).
  set (kept := rev (drop_worse A l worse (rd l j) (rev (drop_old (j - w) deq)))) in *.
  assert (Hin : forall k, In k kept -> In k deq) by (intros k Hk; rewrite E, E'; apply in_or_app; right; apply in_or_app; now left).
  assert (S1 : StronglySorted below (drop_old (j - w) deq)) by (rewrite E in I1; now apply sorted_app_r in I1).
  assert (S2 : StronglySorted below kept) by (rewrite E' in S1; now apply sorted_app_l in S1).
  assert (Hk : forall k, In k kept -> below k j).
  { intros k Hk. destruct (I2 k (Hin k Hk)) as [Hk1 Hk2]. split; [lia|].
    destruct (rev kept) as [|z t] eqn:Er; [apply (f_equal (@rev Z)) in Er; rewrite rev_involutive in Er; cbn in Er; rewrite Er in Hk; easy|].
    assert (Ek : kept = rev t ++ [z]) by (rewrite <- (rev_involutive kept), Er; reflexivity).
    pose proof (Hl z (rev t) Ek) as Hz.
    assert (Hzd : In z kept) by (rewrite Ek; apply in_or_app; right; now left).
    destruct (I2 z (Hin z Hzd)) as [Hz1 Hz2].
    assert (Rz : R (rd l z) (rd l j) = true) by (destruct (Tot (rd l z) (rd l j) Hz2 Hn); [easy|congruence]).
    rewrite Ek in Hk. apply in_app_or in Hk as [Hk|[<-|[]]]; [|easy].
    assert (B : below k z).
    { clear - S2 Ek Hk. rewrite Ek in S2. clear Ek. induction (rev t) as [|y u IH]; [easy|].
      cbn in S2. inversion S2 as [|? ? S' F']; subst. destruct Hk as [<-|Hk]; [|now apply IH].
      apply Forall_app in F' as [_ F']. now inversion F'. }
    destruct B as [_ B]. apply (Tr _ (rd l z)); auto. }
  split; [now apply sorted_snoc|]. split.
  - intros k Hk'. apply in_app_or in Hk' as [Hk'|[<-|[]]]; [|split; [lia|easy]]. destruct (I2 k (Hin k Hk')). split; [lia|easy].
  - intros m Hm Hmw Hmn. destruct (Z.eq_dec m j) as [->|Hne].
    + exists j. split; [apply in_or_app; right; now left|]. split; [lia|]. now destruct (Tot (rd l j) (rd l j) Hn Hn).
    + destruct (I3 m) as (k & K1 & K2 & K3); [lia|lia|easy|]. destruct (I2 k K1) as [K4 K5].
      assert (K6 : In k (drop_old (j - w) deq)) by (apply drop_old_keeps; [easy|lia]).
      rewrite E' in K6. apply in_app_or in K6 as [K6|K6].
      * exists k. split; [apply in_or_app; now left|easy].
      * exists j. split; [apply in_or_app; right; now left|]. split; [lia|]. apply (Tr _ (rd l k)); auto.
Qed.
Lemma step_inv j s : 0 <= j -> deq_inv j s ->
  deq_inv (j + 1) (fst (ext_step A l worse w j s)) /\
  (w - 1 <= j -> let x := snd (ext_step A l worse w j s) in
     if existsb nanat (bars w (j + 1)) then x = nan A
     else exists k, In k (bars w (j + 1)) /\ x = rd l k /\ forall m, In m (bars w (j + 1)) -> R (rd l k) (rd l m) = true) /\
  (j < w - 1 -> snd (ext_step A l worse w j s) = nan A).
Proof.
  intros Hj I. destruct s as [deq c]. pose proof I as (I1 & I2 & I3 & I4). cbn [fst snd] in *.
  set (d := if isnan A (rd l j) then deq else rev (drop_worse A l worse (rd l j) (rev (drop_old (j - w) deq))) ++ [j]).
  set (c' := zsum (fun k => ind (nanat k)) (bars w (j + 1))).
  assert (D : StronglySorted below d /\ (forall k, In k d -> 0 <= k < j + 1 /\ nanat k = false) /\
     (forall m, 0 <= m < j + 1 -> j - w < m -> nanat m = false -> exists k, In k d /\ m <= k /\ R (rd l k) (rd l m) = true)).
  { unfold d. destruct (isnan A (rd l j)) eqn:En; [|now apply (push_inv j deq c)].
    split; [easy|]. split; [intros k Hk; destruct (I2 k Hk); split; [lia|easy]|].
    intros m Hm Hmw Hmn. assert (m <> j) by (intros ->; unfold nanat in Hmn; congruence). apply I3; [lia|lia|easy]. }
  destruct D as (D1 & D2 & D3).
  assert (Es : ext_step A l worse w j (deq, c) =
    if w - 1 <=? j then ((drop_old (j - w) d, c'), match drop_old (j - w) d with [] => nan A | k :: _ => if 0 <? c' then nan A else rd l k end)
    else ((d, c'), nan A)).
  { assert (Ec : c' = (if (w <=? j) && isnan A (rd l (j - w)) then c + ind (nanat j) - 1 else c + ind (nanat j))).
    { unfold c'. rewrite zsum_step, <- I4 by lia. unfold ind, nanat. destruct (w <=? j); cbn [andb]; [|lia]. destruct (isnan A (rd l (j - w))); lia. }
    unfold ext_step, d. rewrite Ec. unfold nanat, ind. destruct (isnan A (rd l j)); destruct ((w <=? j) && isnan A (rd l (j - w)));
      rewrite ?Z.add_0_r; destruct (w - 1 <=? j); reflexivity. }
  rewrite Es. clear Es.
  destruct (zsum_ind_pos nanat (bars w (j + 1))) as [Cp Ce]. fold c' in Cp, Ce.
  destruct (w - 1 <=? j) eqn:E1; cbn [fst snd].
  - set (d' := drop_old (j - w) d).
    assert (Hd' : forall k, In k d' -> In k d /\ j - w < k).
    { intros k Hk. split; [|now apply (drop_old_head (j - w) d)]. destruct (drop_old_suffix (j - w) d) as (p & E & _).
      rewrite E. apply in_or_app. now right. }
    split; [|split; [|lia]].
    + split; [|split; [|split]]; cbn [fst snd].
      * destruct (drop_old_suffix (j - w) d) as (p & E & _). rewrite E in D1. now apply sorted_app_r in D1.
      * intros k Hk. apply Hd' in Hk as [Hk _]. now apply D2.
      * intros m Hm Hmw Hmn. destruct (D3 m) as (k & K1 & K2 & K3); [lia|lia|easy|]. exists k. split; [|easy].
        apply drop_old_keeps; [easy|lia].
      * reflexivity.
    + intros _. cbn zeta. destruct (existsb nanat (bars w (j + 1))) eqn:Ex.
      * assert (0 < c') by now apply Ce. destruct d' as [|k t]; [easy|]. now replace (0 <? c') with true by lia.
      * assert (Hc0 : ~ 0 < c') by (intros H; apply Ce in H; congruence).
        assert (Hall : forall m, In m (bars w (j + 1)) -> nanat m = false).
        { intros m Hm. destruct (nanat m) eqn:Em; [|easy]. assert (existsb nanat (bars w (j + 1)) = true) by (apply existsb_exists; now exists m). congruence. }
        assert (Hbar : forall m, In m (bars w (j + 1)) <-> 0 <= m < j + 1 /\ j - w < m).
        { intros m. unfold bars. rewrite zrange_in. lia. }
        destruct (D3 j) as (k0 & K1 & K2 & K3); [lia|lia|apply Hall, Hbar; lia|].
        assert (K4 : In k0 d') by (apply drop_old_keeps; [easy|lia]).
        destruct d' as [|k t] eqn:Ed; [easy|]. replace (0 <? c') with false by lia.
        assert (Hk : In k (k :: t)) by now left. apply Hd' in Hk as [Hk1 Hk2]. destruct (D2 k Hk1) as [Hk3 Hk4].
        exists k. split; [apply Hbar; lia|]. split; [easy|]. intros m Hm. pose proof (Hall m Hm) as Hmn. apply Hbar in Hm as [Hm1 Hm2].
        destruct (D3 m) as (q & Q1 & Q2 & Q3); [lia|lia|easy|].
        assert (Q4 : In q (drop_old (j - w) d)) by (apply drop_old_keeps; [easy|lia]). fold d' in Q4. rewrite Ed in Q4.
        destruct Q4 as [<-|Q4]; [easy|].
        assert (B : below k q).
        { destruct (drop_old_suffix (j - w) d) as (p & E & _). fold d' in E. rewrite Ed in E. rewrite E in D1. apply sorted_app_r in D1.
          inversion D1 as [|? ? D4 D5]; subst. rewrite Forall_forall in D5. now apply D5. }
        destruct B as [_ B]. destruct HR as [_ Tr]. destruct (D2 q Q1) as [_ Q5]. apply (Tr _ (rd l q)); auto.
  - split; [|split; [lia|easy]]. split; [easy|]. split; [easy|]. split; [|reflexivity].
    intros m Hm Hmw Hmn. apply D3; [lia|lia|easy].
Qed.
Lemma extreme_spec i : (i < length l)%nat ->
  exists x, nth_error (snd (scan (ext_step A l worse w) ([], 0) (zrange 0 (len l)))) i = Some x /\
            rolling_extreme (isnan A) (nan A) R (Z.to_nat w) i l x.
Proof.
  intros Hi. set (o := snd _). assert (Lo : length o = length l) by (unfold o; rewrite scan_length, zrange_length; unfold len; lia).
  destruct (nth_error o i) as [x|] eqn:E; [|apply nth_error_None in E; lia]. exists x. split; [easy|].
  assert (H : (w - 1 <= Z.of_nat i -> 
     if existsb nanat (bars w (Z.of_nat i + 1)) then x = nan A
     else exists k, In k (bars w (Z.of_nat i + 1)) /\ x = rd l k /\ forall m, In m (bars w (Z.of_nat i + 1)) -> R (rd l k) (rd l m) = true) /\
     (Z.of_nat i < w - 1 -> x = nan A)).
  { unfold o in E. apply (scan_inv (S := list Z * Z) (fun j s => 0 <= j /\ deq_inv j s)
      (fun j x => (w - 1 <= j -> if existsb nanat (bars w (j + 1)) then x = nan A
         else exists k, In k (bars w (j + 1)) /\ x = rd l k /\ forall m, In m (bars w (j + 1)) -> R (rd l k) (rd l m) = true) /\
         (j < w - 1 -> x = nan A))) in E; [now rewrite Z.add_0_l in E| |].
    - split; [lia|]. split; [constructor|]. split; [easy|]. split; [lia|]. cbn [snd]. unfold bars. now rewrite zrange_empty by lia.
    - intros j s Hj [_ Is]. destruct (step_inv j s ltac:(lia) Is) as (S1 & S2 & S3). split; [split; [lia|easy]|]. split; [exact S2|exact S3]. }
  destruct H as [H1 H2]. unfold rolling_extreme. destruct (S i <? Z.to_nat w)%nat eqn:C.
  - apply Nat.ltb_lt in C. apply H2. lia.
  - apply Nat.ltb_ge in C. rewrite window_bars by lia. rewrite existsb_map. specialize (H1 ltac:(lia)).
    fold nanat. destruct (existsb nanat (bars w (Z.of_nat i + 1))); [easy|].
    destruct H1 as (k & K1 & -> & K3). split; [now apply in_map|]. intros y Hy. apply in_map_iff in Hy as (m & <- & Hm). now apply K3.
Qed.
End Extreme.
End Any.
