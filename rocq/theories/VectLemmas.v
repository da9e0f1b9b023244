(** Reading, loops and scans over any arithmetic. *)
From Coq Require Import List Bool Arith Lia ZArith QArith.
From Verif Require Import VectModel VectSpec.
Import ListNotations.
Open Scope list_scope.
Open Scope Z_scope.

Lemma len_nonneg {T} (l : list T) : 0 <= len l.
Proof. unfold len. lia. Qed.
Lemma zrange_n_length n : forall a, length (zrange_n a n) = n.
Proof. induction n; intros; cbn; [easy|now rewrite IHn]. Qed.
Lemma zrange_length a b : length (zrange a b) = Z.to_nat (b - a).
Proof. apply zrange_n_length. Qed.
Lemma zrange_n_nth n : forall a k, (k < n)%nat -> nth_error (zrange_n a n) k = Some (a + Z.of_nat k).
Proof.
  induction n; intros a k H; [lia|]. destruct k; cbn [zrange_n nth_error]; [f_equal; lia|].
  rewrite IHn by lia. f_equal. lia.
Qed.
Lemma zrange_n_in n : forall a k, In k (zrange_n a n) <-> a <= k < a + Z.of_nat n.
Proof.
  induction n; intros a k; cbn [zrange_n In]; [lia|]. rewrite IHn. lia.
Qed.
Lemma zrange_in a b k : In k (zrange a b) <-> a <= k < b.
Proof. unfold zrange. rewrite zrange_n_in. lia. Qed.
Lemma zrange_n_app n m : forall a, zrange_n a (n + m) = zrange_n a n ++ zrange_n (a + Z.of_nat n) m.
Proof.
  induction n; intros; cbn [zrange_n app Nat.add]; [f_equal; lia|]. f_equal. rewrite IHn. do 2 f_equal. lia.
Qed.
Lemma zrange_split a b c : a <= b <= c -> zrange a c = zrange a b ++ zrange b c.
Proof.
  intros H. unfold zrange. replace (Z.to_nat (c - a)) with (Z.to_nat (b - a) + Z.to_nat (c - b))%nat by lia.
  rewrite zrange_n_app. do 2 f_equal. lia.
Qed.
Lemma zrange_empty a b : b <= a -> zrange a b = [].
Proof. intros. unfold zrange. now replace (Z.to_nat (b - a)) with 0%nat by lia. Qed.
Lemma zrange_last a b : a <= b -> zrange a (b + 1) = zrange a b ++ [b].
Proof. intros. rewrite (zrange_split a b (b + 1)) by lia. f_equal. unfold zrange. now replace (Z.to_nat (b + 1 - b)) with 1%nat by lia. Qed.

Lemma floop_ext {S} a b (f f' : Z -> S -> S) s :
  (forall j t, a <= j < b -> f j t = f' j t) -> floop a b f s = floop a b f' s.
Proof.
  intros H. unfold floop.
  assert (G : forall l t, (forall j, In j l -> a <= j < b) -> fold_left (fun s i => f i s) l t = fold_left (fun s i => f' i s) l t).
  { induction l as [|j l IH]; intros t Hl; [easy|]. cbn [fold_left]. rewrite (H j t) by (apply Hl; now left).
    apply IH. intros. apply Hl. now right. }
  apply G. intros j. apply zrange_in.
Qed.
(** Induction over a loop. *)
Lemma floop_ind {S} (P : Z -> S -> Prop) a b (f : Z -> S -> S) s :
  a <= b -> P a s -> (forall j t, a <= j < b -> P j t -> P (j + 1) (f j t)) -> P b (floop a b f s).
Proof.
  intros Hab H0 Hs. unfold floop, zrange.
  assert (G : forall n c t, a <= c -> c + Z.of_nat n <= b -> P c t ->
            P (c + Z.of_nat n) (fold_left (fun s i => f i s) (zrange_n c n) t)).
  { induction n as [|n IH]; intros c t Hc Hb Hp; cbn [zrange_n fold_left]; [now replace (c + Z.of_nat 0) with c by lia|].
    replace (c + Z.of_nat (Datatypes.S n)) with (c + 1 + Z.of_nat n) by lia. apply IH; [lia|lia|]. apply Hs; [lia|easy]. }
  replace b with (a + Z.of_nat (Z.to_nat (b - a))) at 1 by lia. apply G; [lia|lia|easy].
Qed.

Lemma scan_length {S T} (f : Z -> S -> S * T) l : forall s, length (snd (scan f s l)) = length l.
Proof.
  induction l as [|i l IH]; intros s; cbn; [easy|]. destruct (f i s) as [s' x]. specialize (IH s').
  destruct (scan f s' l). cbn in *. now f_equal.
Qed.
Lemma scan_app {S T} (f : Z -> S -> S * T) l m : forall s,
  scan f s (l ++ m) = let '(s', o) := scan f s l in let '(s'', o') := scan f s' m in (s'', o ++ o').
Proof.
  induction l as [|i l IH]; intros s; cbn [scan app]; [now destruct (scan f s m)|].
  destruct (f i s) as [t x]. rewrite IH. destruct (scan f t l) as [u o]. destruct (scan f u m). easy.
Qed.
Lemma scan_ext {S T} (f f' : Z -> S -> S * T) l : (forall j t, In j l -> f j t = f' j t) -> forall s, scan f s l = scan f' s l.
Proof.
  induction l as [|i l IH]; intros H s; cbn; [easy|]. rewrite (H i s) by now left. destruct (f' i s) as [t x].
  rewrite IH; [easy|]. intros. apply H. now right.
Qed.
(** The value a scan writes at bar [i] only depends on the steps up to [i]. *)
Lemma scan_nth {S T} (f f' : Z -> S -> S * T) s s' a i n n' :
  a <= i -> i < n -> i < n' -> s = s' ->
  (forall j t, a <= j <= i -> f j t = f' j t) ->
  nth_error (snd (scan f s (zrange a n))) (Z.to_nat (i - a)) = nth_error (snd (scan f' s' (zrange a n'))) (Z.to_nat (i - a)).
Proof.
  intros Ha Hn Hn' -> Hf.
  assert (G : forall g m, i < m -> nth_error (snd (scan (T := T) g s' (zrange a m))) (Z.to_nat (i - a)) =
                          nth_error (snd (scan g s' (zrange a (i + 1)))) (Z.to_nat (i - a))).
  { intros g m Hm. rewrite (zrange_split a (i + 1) m) by lia. rewrite scan_app.
    pose proof (scan_length g (zrange a (i + 1)) s') as L.
    destruct (scan g s' (zrange a (i + 1))) as [u o]. destruct (scan g u (zrange (i + 1) m)) as [v o'].
    cbn [snd] in *. rewrite zrange_length in L. rewrite nth_error_app1; [easy|lia]. }
  rewrite (G f n), (G f' n') by lia. f_equal. f_equal. apply scan_ext. intros j t Hj. apply zrange_in in Hj. apply Hf. lia.
Qed.
(** An invariant of the states gives a property of every value written. *)
Lemma scan_inv {S T} (P : Z -> S -> Prop) (R : Z -> T -> Prop) (f : Z -> S -> S * T) a n : forall s,
  P a s ->
  (forall j t, a <= j < n -> P j t -> P (j + 1) (fst (f j t)) /\ R j (snd (f j t))) ->
  forall k x, nth_error (snd (scan f s (zrange a n))) k = Some x -> R (a + Z.of_nat k) x.
Proof.
  unfold zrange. intros s H0 Hs k x. revert H0.
  assert (G : forall m c t k x, a <= c -> c + Z.of_nat m <= n -> P c t ->
            nth_error (snd (scan f t (zrange_n c m))) k = Some x -> R (c + Z.of_nat k) x).
  { clear k x. induction m as [|m IH]; intros c t k x Hc Hb Hp; cbn [zrange_n scan]; [now destruct k|].
    destruct (Hs c t) as [Hp' Hr]; [lia|easy|]. destruct (f c t) as [u y]. cbn [fst snd] in *.
    destruct (scan f u (zrange_n (c + 1) m)) as [v o] eqn:E. cbn [snd]. destruct k as [|k]; cbn [nth_error].
    - intros [= <-]. now replace (c + Z.of_nat 0) with c by lia.
    - intros Hx. replace (c + Z.of_nat (Datatypes.S k)) with (c + 1 + Z.of_nat k) by lia.
      apply (IH (c + 1) u); [lia|lia|easy|]. now rewrite E. }
  intros H0 Hx. destruct (Z_le_gt_dec a n).
  - apply (G (Z.to_nat (n - a)) a s); [lia|lia|easy|easy].
  - replace (Z.to_nat (n - a)) with 0%nat in Hx by lia. now destruct k.
Qed.
(** The state after a scan, by induction. *)
Lemma scan_state {S T} (P : Z -> S -> Prop) (f : Z -> S -> S * T) a n s :
  a <= n -> P a s -> (forall j t, a <= j < n -> P j t -> P (j + 1) (fst (f j t))) -> P n (fst (scan f s (zrange a n))).
Proof.
  intros Ha H0 Hs. unfold zrange.
  assert (G : forall m c t, a <= c -> c + Z.of_nat m <= n -> P c t -> P (c + Z.of_nat m) (fst (scan f t (zrange_n c m)))).
  { induction m as [|m IH]; intros c t Hc Hb Hp; cbn [zrange_n scan]; [now replace (c + Z.of_nat 0) with c by lia|].
    specialize (Hs c t). destruct (f c t) as [u y]. cbn [fst] in Hs.
    specialize (IH (c + 1) u). destruct (scan f u (zrange_n (c + 1) m)) as [v o]. cbn [fst] in *.
    replace (c + Z.of_nat (Datatypes.S m)) with (c + 1 + Z.of_nat m) by lia. apply IH; [lia|lia|]. apply Hs; [lia|easy]. }
  replace n with (a + Z.of_nat (Z.to_nat (n - a))) at 1 by lia. apply G; [lia|lia|easy].
Qed.

Section Any.
Context (A : arith).
Notation F := (F A).
Notation rd := (rd A).

Lemma rd_in (l : list F) k : 0 <= k < len l -> nth_error l (Z.to_nat k) = Some (rd l k).
Proof.
  intros H. unfold rd. replace ((0 <=? k) && (k <? len l)) with true by lia.
  unfold len in H. apply nth_error_nth'. lia.
Qed.
Lemma rd_eq (l : list F) k x : nth_error l (Z.to_nat k) = Some x -> 0 <= k -> rd l k = x.
Proof.
  intros H Hk. assert (Z.to_nat k < length l)%nat by (apply nth_error_Some; congruence).
  rewrite rd_in in H by (unfold len; lia). congruence.
Qed.
Lemma len_tab n f : 0 <= n -> len (tab A n f) = n.
Proof. intros. unfold tab, len. rewrite map_length, zrange_length. lia. Qed.
Lemma rd_tab n f k : 0 <= k < n -> rd (tab A n f) k = f k.
Proof.
  intros H. apply rd_eq; [|lia]. unfold tab, zrange. rewrite nth_error_map, zrange_n_nth by lia. cbn. f_equal. f_equal. lia.
Qed.
Lemma len_tab_from a n f : 0 <= n -> len (tab_from A a n f) = n.
Proof. intros. unfold tab_from. now rewrite len_tab. Qed.
Lemma rd_tab_from a n f k : 0 <= k < n -> rd (tab_from A a n f) k = if k <? a then z_ A 0 else f k.
Proof. intros H. unfold tab_from. now rewrite rd_tab. Qed.
Lemma len_full n x : 0 <= n -> len (full A n x) = n.
Proof. intros. unfold full, len. rewrite repeat_length. lia. Qed.
Lemma rd_full n x k : 0 <= k < n -> rd (full A n x) k = x.
Proof. intros H. apply rd_eq; [|lia]. unfold full. apply nth_error_repeat. lia. Qed.
Lemma len_app {T} (l m : list T) : len (l ++ m) = len l + len m.
Proof. unfold len. rewrite app_length. lia. Qed.
Lemma rd_app (l m : list F) k : 0 <= k < len l + len m -> rd (l ++ m) k = if k <? len l then rd l k else rd m (k - len l).
Proof.
  intros H. apply rd_eq; [|lia]. destruct (k <? len l) eqn:E.
  - rewrite nth_error_app1 by (unfold len in *; lia). apply rd_in. lia.
  - rewrite nth_error_app2 by (unfold len in *; lia).
    replace (Z.to_nat k - length l)%nat with (Z.to_nat (k - len l)) by (unfold len in *; lia). apply rd_in. lia.
Qed.
Lemma len_scan {S T} (f : Z -> S -> S * T) s a b : len (snd (scan f s (zrange a b))) = Z.max 0 (b - a).
Proof. unfold len. rewrite scan_length, zrange_length. lia. Qed.
Lemma len_firstn {T} (l : list T) k : 0 <= k <= len l -> len (firstn (Z.to_nat k) l) = k.
Proof. intros. unfold len in *. rewrite firstn_length. lia. Qed.
Lemma rd_firstn (l : list F) m k : 0 <= k < m -> m <= len l -> rd (firstn (Z.to_nat m) l) k = rd l k.
Proof.
  intros H Hm. rewrite <- (firstn_skipn (Z.to_nat m) l) at 2.
  pose proof (len_firstn l m). pose proof (len_nonneg (skipn (Z.to_nat m) l)).
  rewrite rd_app by lia. now replace (k <? len (firstn (Z.to_nat m) l)) with true by lia.
Qed.
(** Two scans compared at one bar. *)
Lemma rd_scan {S} (f f' : Z -> S -> S * F) s s' a i n n' :
  a <= i -> i < n -> i < n' -> s = s' -> (forall j t, a <= j <= i -> f j t = f' j t) ->
  rd (snd (scan f s (zrange a n))) (i - a) = rd (snd (scan f' s' (zrange a n'))) (i - a).
Proof.
  intros. pose proof (len_scan f s a n). pose proof (len_scan f' s' a n').
  apply rd_eq; [|lia]. rewrite <- rd_in by lia. now apply scan_nth.
Qed.

(** [wr]. *)
Lemma wr_n_length l : forall k (x : F), length (wr_n A l k x) = length l.
Proof. induction l; destruct k; cbn; intros; [easy..|now rewrite IHl]. Qed.
Lemma len_wr (l : list F) k x : len (wr A l k x) = len l.
Proof. unfold wr, len. destruct (_ && _); [now rewrite wr_n_length|]. destruct (_ && _); [now rewrite wr_n_length|easy]. Qed.
Lemma wr_n_nth l : forall k j (x : F), (k < length l)%nat -> nth_error (wr_n A l k x) j = if Nat.eqb j k then Some x else nth_error l j.
Proof.
  induction l as [|y l IH]; intros k j x H; cbn in H; [lia|]. destruct k; destruct j; cbn [wr_n nth_error Nat.eqb]; try easy.
  apply IH. lia.
Qed.
Lemma rd_wr (l : list F) k j x : 0 <= k < len l -> 0 <= j < len l -> rd (wr A l k x) j = if j =? k then x else rd l j.
Proof.
  intros Hk Hj. apply rd_eq; [|lia]. unfold wr. replace ((0 <=? k) && (k <? len l)) with true by lia.
  rewrite wr_n_nth by (unfold len in *; lia). destruct (j =? k) eqn:E.
  - replace (Nat.eqb (Z.to_nat j) (Z.to_nat k)) with true; [easy|]. symmetry. apply Nat.eqb_eq. lia.
  - replace (Nat.eqb (Z.to_nat j) (Z.to_nat k)) with false; [now apply rd_in|]. symmetry. apply Nat.eqb_neq. lia.
Qed.
(** A loop in place from the last bar down, each step reading only its own bar and
    earlier ones, computes every value from the array it started with. *)
Lemma down_loop (g : list F -> Z -> F) a n (l : list F) :
  0 <= a -> n = len l ->
  (forall m m' i, a <= i < n -> len m = n -> len m' = n -> (forall k, 0 <= k <= i -> rd m k = rd m' k) -> g m i = g m' i) ->
  let r := fold_left (fun out i => wr A out i (g out i)) (rev (zrange a n)) l in
  len r = n /\ forall k, 0 <= k < n -> rd r k = if k <? a then rd l k else g l k.
Proof.
  intros Ha Hn Hg. unfold zrange.
  assert (G : forall c b m, a <= b -> b + Z.of_nat c <= n -> len m = n ->
     (forall k, 0 <= k < n -> rd m k = if k <? b + Z.of_nat c then rd l k else g l k) ->
     let r := fold_left (fun out i => wr A out i (g out i)) (rev (zrange_n b c)) m in
     len r = n /\ forall k, 0 <= k < n -> rd r k = if k <? b then rd l k else g l k).
  { induction c as [|c IH]; intros b m Hb Hc Lm Hm.
    - cbn [zrange_n rev fold_left]. split; [easy|]. intros k Hk. rewrite Hm by easy. now replace (b + Z.of_nat 0) with b by lia.
    - cbn zeta. replace (Datatypes.S c) with (c + 1)%nat by lia. rewrite zrange_n_app, rev_app_distr. cbn [zrange_n rev app fold_left].
      assert (Hi : exists i, i = b + Z.of_nat c) by (now eexists). destruct Hi as [i Hi]. rewrite <- Hi in *. apply (IH b (wr A m i (g m i))); [easy|lia|now rewrite len_wr|].
      intros k Hk. rewrite rd_wr by lia. destruct (k =? i) eqn:E.
      + rewrite <- Hi. replace (k <? i) with false by lia. replace k with i by lia.
        apply Hg; [lia|easy|easy|]. intros q Hq. rewrite Hm by lia.
        destruct (q <? b + Z.of_nat (Datatypes.S c)) eqn:E1; [easy|exfalso; apply Z.ltb_ge in E1; lia].
      + rewrite Hm by easy. rewrite <- Hi.
        assert (E1 : (k <? b + Z.of_nat (Datatypes.S c)) = (k <? i)) by (apply eq_true_iff_eq; rewrite !Z.ltb_lt; apply Z.eqb_neq in E; lia). now rewrite E1. }
  destruct (Z_le_gt_dec a n) as [L|L].
  - apply G; [lia|lia|easy|]. intros k Hk. replace (k <? a + Z.of_nat (Z.to_nat (n - a))) with true; [easy|]. symmetry. apply Z.ltb_lt. lia.
  - replace (Z.to_nat (n - a)) with 0%nat by lia. cbn. split; [easy|]. intros k Hk. now replace (k <? a) with true by lia.
Qed.

(** Two series the same up to bar [i], through [rd]. *)
Definition upto (i : Z) (l l' : list F) : Prop :=
  0 <= i < len l /\ i < len l' /\ forall k, 0 <= k <= i -> rd l k = rd l' k.
Lemma agree_upto i (l l' : list F) : agree i l l' -> upto (Z.of_nat i) l l'.
Proof.
  intros (H & L & L'). unfold upto, len. split; [lia|]. split; [lia|]. intros k Hk.
  symmetry. apply rd_eq; [|lia]. rewrite <- rd_in by (unfold len; lia).
  rewrite <- (firstn_skipn (S i) l), <- (firstn_skipn (S i) l'), H.
  rewrite !nth_error_app1; [easy| |]; (rewrite firstn_length; lia).
Qed.
Lemma upto_same_at i (o o' : list F) n n' :
  len o = n -> len o' = n' -> Z.of_nat i < n -> Z.of_nat i < n' -> rd o (Z.of_nat i) = rd o' (Z.of_nat i) ->
  same_at i (Some o) (Some o').
Proof.
  intros L L' H H' E r r' [= <-] [= <-]. exists (rd o (Z.of_nat i)). split.
  - rewrite <- (Nat2Z.id i) at 1. apply rd_in. lia.
  - rewrite E. rewrite <- (Nat2Z.id i) at 1. apply rd_in. lia.
Qed.
Lemma upto_le i j (l l' : list F) : upto i l l' -> 0 <= j <= i -> upto j l l'.
Proof. intros (a & b & c) H. split; [lia|]. split; [lia|]. intros. apply c. lia. Qed.
End Any.
