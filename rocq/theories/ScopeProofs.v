(** Proofs about column, indicator and prediction reads. *)
From Verif Require Import ScopeSpec Lemmas.
Open Scope list_scope.
Open Scope Z_scope.

Lemma upto_nonneg {A} t (l : list A) : 0 <= t -> upto (Some t) l = firstn (Z.to_nat t) l.
Proof. intros H. cbn. destruct (Z.ltb_spec t 0); [lia|easy]. Qed.

Lemma firstn_le {A} (n m : nat) (l : list A) : (n <= m)%nat -> firstn n (firstn m l) = firstn n l.
Proof. intros H. rewrite firstn_firstn. f_equal. lia. Qed.

Lemma last_value_agree {A} t (a1 a2 : list A) :
  0 <= t -> firstn (Z.to_nat t) a1 = firstn (Z.to_nat t) a2 -> last_value a1 t = last_value a2 t.
Proof.
  intros Ht E. unfold last_value. destruct (Z.leb_spec t 0); [easy|].
  assert (L : forall a : list A, item a ((if Z.of_nat (length a) <? t then Z.of_nat (length a) else t) - 1) =
              item (firstn (Z.to_nat t) a) (Z.of_nat (length (firstn (Z.to_nat t) a)) - 1)).
  { intros a. rewrite firstn_length. destruct (Z.ltb_spec (Z.of_nat (length a)) t) as [H1|H1].
    - rewrite firstn_all2 by lia. repeat f_equal. lia.
    - replace (Nat.min (Z.to_nat t) (length a)) with (Z.to_nat t) by lia.
      rewrite Z2Nat.id by lia. unfold item. destruct (Z.ltb_spec (t - 1) 0); [lia|].
      destruct (Z.ltb_spec (t - 1) 0); [lia|].
      rewrite <- (firstn_skipn (Z.to_nat t) a) at 1.
      rewrite nth_error_app1; [easy|]. rewrite firstn_length. lia. }
  rewrite (L a1), (L a2), E. easy.
Qed.

Lemma last_value_spec {A} t (a : list A) :
  0 < t -> a <> [] -> exists v, last_value a t = Ok v /\ nth_error a (Nat.min (Z.to_nat t) (length a) - 1) = Some v.
Proof.
  intros Ht Ha. unfold last_value. destruct (Z.leb_spec t 0); [lia|].
  assert (length a <> 0%nat) by (destruct a; [easy|cbn; lia]).
  unfold item.
  set (j := (if Z.of_nat (length a) <? t then Z.of_nat (length a) else t) - 1).
  assert (J : j = Z.of_nat (Nat.min (Z.to_nat t) (length a) - 1)).
  { unfold j. destruct (Z.ltb_spec (Z.of_nat (length a)) t); lia. }
  destruct (Z.ltb_spec j 0); [lia|]. destruct (Z.ltb_spec j 0); [lia|].
  rewrite J, Nat2Z.id.
  destruct (nth_error a _) as [v|] eqn:E; [now exists v|].
  apply nth_error_None in E. lia.
Qed.

(** ** Indicators *)

(** Every cache entry is the array that a fresh read computes. *)
Definition ind_cache_ok {A} (s : ind_scope A) (c : ind_cache A) : Prop :=
  forall name symbol v, cache_get name symbol c = Some v ->
    exists r, is_data s name symbol = Some r /\
      v = ind_array (is_dates s) (match snd (parse_interval_name name) with Some _ => true | None => false end) r.

Lemma str_eqb_spec a b : reflect (a = b) (str_eqb a b).
Proof. unfold str_eqb. destruct (list_eq_dec ascii_dec a b); constructor; easy. Qed.

Lemma ind_fetch_fresh {A} (s : ind_scope A) c symbol name e :
  ind_cache_ok s c -> fst (ind_fetch s c symbol name e) = fst (ind_fetch s [] symbol name e).
Proof.
  intros H. unfold ind_fetch. cbn [cache_get].
  destruct (cache_get name symbol c) as [v|] eqn:E.
  - destruct (H _ _ _ E) as (r & D & ->). rewrite D.
    destruct (snd (parse_interval_name name)), e; reflexivity.
  - destruct (snd (parse_interval_name name)), e, (is_data s name symbol); reflexivity.
Qed.

Lemma ind_fetch_ok {A} (s : ind_scope A) c symbol name e :
  ind_cache_ok s c -> ind_cache_ok s (snd (ind_fetch s c symbol name e)).
Proof.
  intros H. unfold ind_fetch.
  assert (G : forall o : option interval,
    o = snd (parse_interval_name name) -> forall r, is_data s name symbol = Some r ->
    ind_cache_ok s (((name, symbol), ind_array (is_dates s) (match o with Some _ => true | None => false end) r) :: c)).
  { intros o -> r D n sy v. cbn [cache_get]. destruct (str_eqb_spec n name) as [->|N].
    - destruct (Nat.eqb_spec sy symbol) as [->|N]; cbn [andb].
      + intros [= <-]. now exists r.
      + apply H.
    - cbn [andb]. apply H. }
  destruct (snd (parse_interval_name name)) as [i|] eqn:P; destruct e as [z|]; try exact H;
    destruct (cache_get name symbol c); try exact H; destruct (is_data s name symbol) as [r|] eqn:D; try exact H;
    cbn [snd]; (now apply (G (Some i))) || (now apply (G None)).
Qed.

Lemma ind_history_ok {A} (s : ind_scope A) calls : forall c, ind_cache_ok s c -> ind_cache_ok s (ind_history s calls c).
Proof.
  induction calls as [|[[symbol name] e] calls IH]; intros c H; [easy|]. cbn. apply IH. now apply ind_fetch_ok.
Qed.

Lemma ind_cache_nil {A} (s : ind_scope A) : ind_cache_ok s [].
Proof. intros n sy v [=]. Qed.

(** ** The buffer *)

Definition pb_inv {A} (l : list A) (s : per_bar A) : Prop :=
  (pb_cur s < length (pb_heap s))%nat /\ pb_filled s = length l /\ firstn (pb_filled s) (pb_buf s) = l.

Lemma set_nth_length {A} i (v : A) l : (i < length l)%nat -> length (set_nth i v l) = length l.
Proof. intros H. unfold set_nth. rewrite app_length, firstn_length. cbn [length]. rewrite skipn_length. lia. Qed.
Lemma set_nth_same {A} i (v d : A) l : (i < length l)%nat -> nth i (set_nth i v l) d = v.
Proof.
  intros H. unfold set_nth. rewrite app_nth2; rewrite firstn_length; [|lia].
  replace (i - Nat.min i (length l))%nat with 0%nat by lia. easy.
Qed.
Lemma set_nth_other {A} i j (v d : A) l : (i < length l)%nat -> i <> j -> nth j (set_nth i v l) d = nth j l d.
Proof.
  intros H N. unfold set_nth. destruct (Nat.lt_ge_cases j i) as [L|L].
  - rewrite app_nth1 by (rewrite firstn_length; lia).
    rewrite <- (firstn_skipn i l) at 2. rewrite app_nth1; [easy|]. rewrite firstn_length; lia.
  - rewrite app_nth2; rewrite firstn_length; [|lia].
    replace (j - Nat.min i (length l))%nat with (S (j - S i)) by lia. cbn [nth].
    rewrite <- (firstn_skipn (S i) l) at 2. rewrite app_nth2; rewrite firstn_length; [|lia].
    f_equal. lia.
Qed.
Lemma set_nth_prefix {A} i (v : A) l : (i < length l)%nat -> firstn (S i) (set_nth i v l) = firstn i l ++ [v].
Proof.
  intros H. unfold set_nth. rewrite firstn_app, firstn_length.
  replace (S i - Nat.min i (length l))%nat with 1%nat by lia. rewrite firstn_firstn.
  change (firstn 1 (v :: skipn (S i) l)) with [v]. f_equal. f_equal. lia.
Qed.
Lemma set_nth_before {A} i n (v : A) l : (n <= i)%nat -> (i < length l)%nat -> firstn n (set_nth i v l) = firstn n l.
Proof.
  intros H L. unfold set_nth. rewrite firstn_app, firstn_length.
  replace (n - Nat.min i (length l))%nat with 0%nat by lia. cbn [firstn].
  rewrite app_nil_r, firstn_firstn. f_equal. lia.
Qed.

(** A view handed out now. *)
Definition view_ok {A} (s : per_bar A) (v : view) (l : list A) : Prop :=
  (fst v < length (pb_heap s))%nat /\ show s v = l /\ (fst v = pb_cur s -> (snd v <= pb_filled s)%nat).

Lemma pb_append_step {A} junk (x : A) l s :
  pb_inv l s ->
  pb_inv (l ++ [x]) (pb_append junk x s) /\
  forall v m, view_ok s v m -> view_ok (pb_append junk x s) v m.
Proof.
  intros (C & F & P).
  unfold pb_append.
  set (s1 := if Nat.eqb (pb_filled s) (length (pb_buf s)) then _ else s).
  assert (I1 : (pb_cur s1 < length (pb_heap s1))%nat /\ pb_filled s1 = length l /\
               firstn (pb_filled s1) (pb_buf s1) = l /\ (pb_filled s1 < length (pb_buf s1))%nat /\
               forall v m, view_ok s v m -> view_ok s1 v m).
  { unfold s1. destruct (Nat.eqb_spec (pb_filled s) (length (pb_buf s))) as [E|E].
    - set (fresh := firstn (pb_filled s) (pb_buf s) ++ _).
      assert (B : pb_buf (mk_per_bar (pb_heap s ++ [fresh]) (length (pb_heap s)) (pb_filled s)) = fresh).
      { unfold pb_buf. cbn [pb_cur pb_heap]. rewrite app_nth2, Nat.sub_diag by lia. easy. }
      rewrite B. cbn [pb_cur pb_heap pb_filled]. rewrite app_length. cbn [length].
      split; [lia|]. split; [easy|]. split; [|split].
      + unfold fresh. rewrite firstn_app, firstn_length, firstn_firstn.
        replace (Nat.min (pb_filled s) (pb_filled s)) with (pb_filled s) by lia.
        replace (pb_filled s - Nat.min (pb_filled s) (length (pb_buf s)))%nat with 0%nat by lia.
        cbn [firstn]. now rewrite app_nil_r.
      + unfold fresh. rewrite app_length, firstn_length, map_length, seq_length. lia.
      + intros v m (V1 & V2 & V3). unfold view_ok, show in *. cbn [pb_heap pb_cur pb_filled].
        rewrite app_length, app_nth1 by easy. cbn [length]. split; [lia|]. split; [easy|]. lia.
    - assert (L : length (firstn (pb_filled s) (pb_buf s)) = length l) by now rewrite P.
      rewrite firstn_length in L. split; [easy|]. split; [easy|]. split; [easy|]. split; [lia|]. auto. }
  clearbody s1. destruct I1 as (C1 & F1 & P1 & B1 & V1).
  assert (N : nth (pb_cur s1) (set_nth (pb_cur s1) (set_nth (pb_filled s1) x (pb_buf s1)) (pb_heap s1)) [] =
              set_nth (pb_filled s1) x (pb_buf s1)) by now apply set_nth_same.
  split.
  - assert (B : pb_buf (mk_per_bar (set_nth (pb_cur s1) (set_nth (pb_filled s1) x (pb_buf s1)) (pb_heap s1))
                                   (pb_cur s1) (S (pb_filled s1))) = set_nth (pb_filled s1) x (pb_buf s1)) by exact N.
    unfold pb_inv. rewrite B. cbn [pb_heap pb_cur pb_filled]. rewrite set_nth_length by easy.
    split; [easy|]. split; [rewrite app_length; cbn; lia|]. rewrite set_nth_prefix by easy. now rewrite P1.
  - intros v m V. destruct (V1 _ _ V) as (W1 & W2 & W3). unfold view_ok, show. cbn [pb_heap pb_cur pb_filled].
    rewrite set_nth_length by easy. split; [easy|]. split; [|intros E; specialize (W3 E); lia].
    destruct (Nat.eq_dec (pb_cur s1) (fst v)) as [E|E].
    + rewrite <- E, N. symmetry in E. specialize (W3 E). rewrite set_nth_before by (easy || lia).
      rewrite <- W2. unfold show. rewrite E. easy.
    + rewrite set_nth_other by easy. exact W2.
Qed.

Lemma pb_new_inv {A} : @pb_inv A [] pb_new.
Proof. repeat split. cbn. lia. Qed.

Lemma pb_run_inv {A} (ops : list (pb_op A)) : forall l s, pb_inv l s ->
  pb_inv (l ++ appended ops) (pb_run ops s) /\ forall v m, view_ok s v m -> view_ok (pb_run ops s) v m.
Proof.
  induction ops as [|[junk x|n] ops IH]; intros l s I.
  - cbn. rewrite app_nil_r. auto.
  - destruct (pb_append_step junk x l s I) as (I1 & V1).
    destruct (IH _ _ I1) as (I2 & V2). cbn [appended flat_map]. rewrite app_assoc.
    split; [exact I2|]. intros v m V. apply V2, V1, V.
  - destruct (IH _ _ I) as (I2 & V2). split; [exact I2|]. exact V2.
Qed.

Lemma pb_values_ok {A} n (l : list A) s : pb_inv l s -> view_ok s (pb_values n s) (firstn (Z.to_nat n) l).
Proof.
  intros (C & F & P). unfold view_ok, pb_values, show. cbn [fst snd]. split; [easy|].
  assert (L : length (firstn (pb_filled s) (pb_buf s)) = length l) by now rewrite P.
  rewrite firstn_length in L.
  split; [|lia]. fold (pb_buf s).
  assert (E : firstn (Z.to_nat n) l = firstn (Nat.min (Z.to_nat n) (pb_filled s)) l).
  { rewrite F. destruct (Nat.le_ge_cases (Z.to_nat n) (length l)).
    - now rewrite Nat.min_l by easy.
    - rewrite Nat.min_r by easy. rewrite !firstn_all2; easy || lia. }
  rewrite E. rewrite <- P at 1. rewrite firstn_firstn. f_equal. lia.
Qed.

(** ** Per-bar predictions *)

(** The prediction of bar [i]: the model sees the first [S i] rows. *)
Fixpoint per_bar_preds {R A} (p : predictor R A) (input : list R) (i todo : nat) : result (list A) :=
  match todo with
  | O => Ok []
  | S todo =>
      bind (predict_scalar p (firstn (S i) input)) (fun v =>
      bind (per_bar_preds p input (S i) todo) (fun l => Ok (v :: l)))
  end.

(** The buffer holds predictions of bars [0..filled-1]. *)
Definition preds_ok {R A} (p : predictor R A) (input : list R) (s : per_bar A) : Prop :=
  exists l, pb_inv l s /\ per_bar_preds p input 0 (length l) = Ok l.

Lemma per_bar_preds_app {R A} (p : predictor R A) input m n : forall i,
  per_bar_preds p input i (m + n) =
  bind (per_bar_preds p input i m) (fun l => bind (per_bar_preds p input (i + m) n) (fun k => Ok (l ++ k))).
Proof.
  induction m as [|m IH]; intros i.
  - cbn [per_bar_preds Nat.add bind]. rewrite Nat.add_0_r. now destruct (per_bar_preds p input i n).
  - cbn [per_bar_preds Nat.add]. destruct (predict_scalar p (firstn (S i) input)); cbn [bind]; [|easy].
    rewrite IH. destruct (per_bar_preds p input (S i) m); cbn [bind]; [|easy].
    replace (S i + m)%nat with (i + S m)%nat by lia.
    destruct (per_bar_preds p input (i + S m) n); easy.
Qed.

Lemma per_bar_preds_length {R A} (p : predictor R A) input n : forall i l, per_bar_preds p input i n = Ok l -> length l = n.
Proof.
  induction n as [|n IH]; intros i l; cbn [per_bar_preds].
  - now intros [= <-].
  - destruct (predict_scalar p _) as [v|]; cbn [bind]; [|easy].
    destruct (per_bar_preds p input (S i) n) as [k|] eqn:E; cbn [bind]; [|easy]. intros [= <-]. cbn. f_equal. eauto.
Qed.

Lemma fill_per_bar_ok {R A} (p : predictor R A) input junk todo : forall s l,
  pb_inv l s -> per_bar_preds p input 0 (length l) = Ok l ->
  let '(e, s') := fill_per_bar p input junk todo s in
  match e, per_bar_preds p input 0 (length l + todo) with
  | None, Ok k => pb_inv k s'
  | Some e, Raise e' => e = e' /\ preds_ok p input s'
  | _, _ => False
  end.
Proof.
  induction todo as [|todo IH]; intros s l I P.
  - cbn. rewrite Nat.add_0_r, P. exact I.
  - cbn [fill_per_bar].
    pose proof I as (_ & F & _). rewrite F.
    destruct (predict_scalar p (firstn (S (length l)) input)) as [v|e] eqn:E.
    + destruct (pb_append_step junk v l s I) as (I1 & _).
      assert (P1 : per_bar_preds p input 0 (length (l ++ [v])) = Ok (l ++ [v])).
      { rewrite app_length. cbn [length]. rewrite per_bar_preds_app, P. cbn [bind per_bar_preds Nat.add]. now rewrite E. }
      specialize (IH _ _ I1 P1). rewrite app_length in IH. cbn [length] in IH.
      replace (length l + S todo)%nat with (length l + 1 + todo)%nat by lia. exact IH.
    + rewrite per_bar_preds_app, P. cbn [bind per_bar_preds Nat.add]. rewrite E. cbn [bind].
      split; [easy|]. now exists l.
Qed.

Lemma fetch_per_bar_keeps {R A} (p : predictor R A) input junk s e :
  preds_ok p input s -> preds_ok p input (snd (fetch_per_bar p input junk s e)).
Proof.
  intros (l & I & P). unfold fetch_per_bar.
  set (todo := (Z.to_nat _ - _)%nat). pose proof (fill_per_bar_ok p input junk todo s l I P) as H.
  destruct (fill_per_bar p input junk todo s) as [[err|] s'].
  - destruct (per_bar_preds p input 0 (length l + todo)); [easy|]. exact (proj2 H).
  - destruct (per_bar_preds p input 0 (length l + todo)) as [k|] eqn:E; [|easy]. cbn [snd].
    exists k. split; [easy|]. now rewrite (per_bar_preds_length _ _ _ _ _ E).
Qed.

Lemma pred_history_ok {R A} (p : predictor R A) input calls : forall s,
  preds_ok p input s -> preds_ok p input (pred_history p input calls s).
Proof.
  induction calls as [|[e junk] calls IH]; intros s H; [easy|]. cbn. apply IH. now apply fetch_per_bar_keeps.
Qed.

Lemma per_bar_preds_prefix {R A} (p : predictor R A) input m n l :
  (m <= n)%nat -> per_bar_preds p input 0 n = Ok l -> per_bar_preds p input 0 m = Ok (firstn m l).
Proof.
  intros H E. replace n with (m + (n - m))%nat in E by lia. rewrite per_bar_preds_app in E.
  destruct (per_bar_preds p input 0 m) as [a|] eqn:Ea; [|easy]. cbn [bind] in E.
  destruct (per_bar_preds p input (0 + m) (n - m)) as [b|]; [|easy]. cbn [bind] in E. injection E as <-.
  apply per_bar_preds_length in Ea. rewrite firstn_app, <- Ea, Nat.sub_diag, firstn_all. cbn. now rewrite app_nil_r.
Qed.

(** A read of the first [t] bars, whatever was read before. *)
Lemma fetch_per_bar_spec {R A} (p : predictor R A) input junk s t :
  preds_ok p input s ->
  fst (fetch_per_bar p input junk s (Some (Z.of_nat t))) = per_bar_preds p input 0 t.
Proof.
  intros (l & I & P). unfold fetch_per_bar. rewrite Nat2Z.id.
  pose proof I as (_ & F & _).
  pose proof (fill_per_bar_ok p input junk (t - pb_filled s) s l I P) as H. rewrite F in *.
  destruct (fill_per_bar p input junk (t - length l) s) as [[err|] s'].
  - destruct (Nat.le_ge_cases t (length l)) as [L|L].
    + replace (t - length l)%nat with 0%nat in H by lia. rewrite Nat.add_0_r, P in H. easy.
    + replace (length l + (t - length l))%nat with t in H by lia.
      destruct (per_bar_preds p input 0 t); [easy|]. cbn. now rewrite (proj1 H).
  - destruct (per_bar_preds p input 0 (length l + (t - length l))) as [k|] eqn:E; [|easy]. cbn [fst].
    destruct (pb_values_ok (Z.of_nat (pb_filled s')) k s' H) as (_ & S & _). rewrite S, Nat2Z.id.
    destruct H as (_ & F' & _). rewrite F', firstn_all, upto_nonneg, Nat2Z.id by lia.
    symmetry. eapply per_bar_preds_prefix; [|exact E]. lia.
Qed.

Lemma fetch_per_bar_all {R A} (p : predictor R A) input junk s :
  preds_ok p input s -> (pb_filled s <= length input)%nat ->
  fst (fetch_per_bar p input junk s None) = per_bar_preds p input 0 (length input).
Proof.
  intros H L. pose proof (fetch_per_bar_spec p input junk s (length input) H) as E.
  rewrite <- E. clear E. unfold fetch_per_bar.
  destruct H as (l & I & P). pose proof I as (_ & F & _).
  pose proof (fill_per_bar_ok p input junk (Z.to_nat (Z.of_nat (length input)) - pb_filled s) s l I P) as H.
  destruct (fill_per_bar p input junk (Z.to_nat (Z.of_nat (length input)) - pb_filled s) s) as [[err|] s']; [easy|].
  cbn [fst upto]. rewrite Nat2Z.id in *.
  destruct (per_bar_preds p input 0 (length l + (length input - pb_filled s))) as [k|] eqn:E; [|easy].
  destruct (pb_values_ok (Z.of_nat (pb_filled s')) k s' H) as (_ & S & _). rewrite S, Nat2Z.id.
  destruct H as (_ & F' & _). rewrite F', firstn_all.
  apply per_bar_preds_length in E.
  destruct (Z.ltb_spec (Z.of_nat (length input)) 0); [lia|]. rewrite firstn_all2; [easy|]. lia.
Qed.

Lemma per_bar_preds_ext {R A} (p : predictor R A) in1 in2 n : forall i t,
  (i + n <= t)%nat -> firstn t in1 = firstn t in2 -> per_bar_preds p in1 i n = per_bar_preds p in2 i n.
Proof.
  induction n as [|n IH]; intros i t L E; [easy|]. cbn [per_bar_preds].
  rewrite (IH (S i) t) by (easy || lia).
  replace (firstn (S i) in1) with (firstn (S i) in2); [easy|].
  rewrite <- (firstn_le (S i) t in1), <- (firstn_le (S i) t in2), E by lia. easy.
Qed.

Lemma per_bar_preds_nth {R A} (p : predictor R A) input n : forall i l,
  per_bar_preds p input i n = Ok l ->
  forall j, (j < n)%nat -> exists v, nth_error l j = Some v /\ predict_scalar p (firstn (S (i + j)) input) = Ok v.
Proof.
  induction n as [|n IH]; intros i l E j J; [lia|]. cbn [per_bar_preds] in E.
  destruct (predict_scalar p (firstn (S i) input)) as [v|] eqn:V; cbn [bind] in E; [|easy].
  destruct (per_bar_preds p input (S i) n) as [k|] eqn:K; cbn [bind] in E; [|easy]. injection E as <-.
  destruct j as [|j].
  - exists v. rewrite Nat.add_0_r. easy.
  - destruct (IH _ _ K j ltac:(lia)) as (w & W1 & W2). exists w. split; [easy|].
    replace (i + S j)%nat with (S i + j)%nat by lia. easy.
Qed.

(** The scalar read is the last value of the view. *)
Lemma last_value_view {A} (array : list A) t v :
  (0 < t)%nat -> last_value array (Z.of_nat t) = Ok v <-> nth_error (rev (firstn t array)) 0 = Some v.
Proof.
  intros T. destruct array as [|a0 array'] eqn:EA.
  - rewrite firstn_nil. cbn [rev nth_error]. unfold last_value.
    destruct (Z.leb_spec (Z.of_nat t) 0); [lia|]. cbn [length].
    destruct (Z.ltb_spec (Z.of_nat 0) (Z.of_nat t)); [|lia]. cbn. easy.
  - rewrite <- EA in *. assert (NE : array <> []) by now rewrite EA.
    assert (LE : (0 < length array)%nat) by (rewrite EA; cbn; lia). clear EA a0 array'.
    destruct (last_value_spec (Z.of_nat t) array) as (w & W1 & W2); [lia|easy|].
    rewrite W1, Nat2Z.id in *.
    assert (E : nth_error (rev (firstn t array)) 0 = Some w).
    { destruct (rev (firstn t array)) as [|x l] eqn:F.
      - apply (f_equal (@length A)) in F. rewrite rev_length, firstn_length in F. cbn in F. lia.
      - apply (f_equal (@rev A)) in F. rewrite rev_involutive in F. cbn [rev] in F. cbn [nth_error]. rewrite <- W2.
        assert (L : (Nat.min t (length array) = length (rev l) + 1)%nat) by (rewrite <- firstn_length, F, app_length; easy).
        rewrite L.
        rewrite <- (firstn_skipn t array), F, nth_error_app1 by (rewrite app_length; cbn; lia).
        rewrite nth_error_app2 by lia. replace (length (rev l) + 1 - 1 - length (rev l))%nat with 0%nat by lia. easy. }
    rewrite E. split; congruence.
Qed.

Lemma firstn_nth_error {A} (l : list A) t i : (i < t)%nat -> nth_error (firstn t l) i = nth_error l i.
Proof.
  intros H. rewrite <- (firstn_skipn t l) at 2.
  destruct (Nat.lt_ge_cases i (length l)) as [L|L].
  - rewrite nth_error_app1; [easy|]. rewrite firstn_length. lia.
  - rewrite firstn_skipn. rewrite !(proj2 (nth_error_None _ _)); [easy| |]; rewrite ?firstn_length; lia.
Qed.
