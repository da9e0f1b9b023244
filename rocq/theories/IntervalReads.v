(** Reads of compressed bars over time and after slicing; hold-out dates. *)
From Verif Require Export IntervalViews.
From Verif Require Import Lemmas TextProofs NameProofs.
Open Scope list_scope.
Open Scope Z_scope.

Definition mono (l : list Z) : Prop := forall t t', (t <= t' < length l)%nat -> nth t l 0 <= nth t' l 0.
Lemma filter_len_mono (ends : list nat) t t' : (t <= t')%nat ->
  (length (filter (fun e => Nat.leb e t) ends) <= length (filter (fun e => Nat.leb e t') ends))%nat.
Proof.
  intro T. induction ends as [|e ends IH]; [easy|]. cbn [filter].
  destruct (Nat.leb_spec e t), (Nat.leb_spec e t'); cbn [length]; lia.
Qed.
Lemma filter_len_le {A} (p : A -> bool) l : (length (filter p l) <= length l)%nat.
Proof. induction l as [|x l IH]; cbn; [lia|]. destruct (p x); cbn; lia. Qed.
Lemma compute_mono n starts ends k : mono (compute_completed n starts ends k).
Proof.
  unfold compute_completed, mono. intros t t'. set (f := fun t0 => Z.of_nat (length (filter (fun e => Nat.leb e t0) ends)) - 1).
  assert (M : forall t t', (t <= t')%nat -> f t <= f t').
  { intros. unfold f. pose proof (filter_len_mono ends t0 t'0). lia. }
  assert (B : forall t, f t <= Z.of_nat (length ends) - 1).
  { intros. unfold f. pose proof (filter_len_le (fun e => Nat.leb e t0) ends). lia. }
  destruct ends as [|e0 ends0] eqn:EE.
  - rewrite map_length, seq_length. intro T. rewrite !nth_map_seq by lia. apply M. lia.
  - rewrite <- EE in *. destruct (_ && _).
    + rewrite map_length, seq_length. intro T. rewrite !nth_map_seq by lia. apply M. lia.
    + rewrite !map_length, seq_length. intro T. rewrite map_map, !nth_map_seq by lia. specialize (M t t' ltac:(lia)).
      pose proof (B t). pose proof (B t'). fold (f t). fold (f t').
      destruct (Z.eqb_spec (f t) (Z.of_nat (length ends) - 1)), (Z.eqb_spec (f t') (Z.of_nat (length ends) - 1)); lia.
Qed.
Lemma completed_mono hv rows i bars completed : compress hv rows i = Some (bars, completed) -> mono completed.
Proof.
  intro H. destruct (compress_some _ _ _ _ _ H) as ([k|s] & N & _ & ->); [|apply compute_mono].
  assert (K : 1 < k) by (inversion N; easy). intros t t' T.
  assert (L : length (snd (compress_every hv k rows)) = length rows).
  { unfold compress_every. cbv zeta. cbn [snd]. destruct (negb _); now rewrite ?map_length, ?combine_length, ?map_length, ?seq_length, ?Nat.min_id. }
  rewrite !every_completed by lia. pose proof (Z.div_le_mono (Z.of_nat t + 1) (Z.of_nat t' + 1) k). lia.
Qed.
Lemma firstn_prefix {A} a b (l : list A) : (a <= b)%nat -> exists r, firstn b l = firstn a l ++ r.
Proof.
  intro L. exists (firstn (b - a) (skipn a l)). replace b with (a + (b - a))%nat at 1 by lia. clear L.
  revert l. induction a as [|a IH]; intro l; [easy|]. destruct l as [|x l]; [now destruct (b - S a)%nat|]. cbn [firstn skipn Nat.add app].
  f_equal. replace (b - S a)%nat with (b - S a)%nat by easy. clear IH. revert l. 
  generalize (b - S a)%nat as m. clear. induction a as [|a IH]; intros m l; [easy|]. destruct l; [now destruct m|].
  cbn. f_equal. apply IH.
Qed.
Lemma fetch_mono d e e' : mono (cs_completed d) -> e <= e' -> exists r, fetch_bars d e' = fetch_bars d e ++ r.
Proof.
  intros M L. unfold fetch_bars.
  assert (C : completed_index d e <= completed_index d e' \/ completed_index d e < 0).
  { unfold completed_index. destruct (Nat.eqb_spec (length (cs_completed d)) 0); [right; rewrite Bool.orb_true_r; lia|].
    rewrite !Bool.orb_false_r. destruct (Z.leb_spec e 0); [right; lia|]. destruct (Z.leb_spec e' 0); [lia|]. left.
    apply M. destruct (Z.ltb_spec (Z.of_nat (length (cs_completed d))) e), (Z.ltb_spec (Z.of_nat (length (cs_completed d))) e'); lia. }
  destruct (Z.ltb_spec (completed_index d e) 0); [now eexists|]. destruct (Z.ltb_spec (completed_index d e') 0); [lia|].
  apply firstn_prefix. lia.
Qed.
(** Reads before the first bar and after the last. *)
Lemma fetch_low d e : e <= 0 -> fetch_bars d e = [].
Proof. intro L. unfold fetch_bars, completed_index. destruct (Z.leb_spec e 0); [|lia]. easy. Qed.
Lemma fetch_high d e : Z.of_nat (length (cs_completed d)) <= e -> fetch_bars d e = fetch_bars d (Z.of_nat (length (cs_completed d))).
Proof.
  intro L. unfold fetch_bars. replace (completed_index d e) with (completed_index d (Z.of_nat (length (cs_completed d)))); [easy|].
  unfold completed_index. destruct (Nat.eqb_spec (length (cs_completed d)) 0); [now rewrite !Bool.orb_true_r|].
  destruct (Z.leb_spec e 0); [lia|]. destruct (Z.leb_spec (Z.of_nat (length (cs_completed d))) 0); [lia|]. cbn [orb].
  rewrite Z.ltb_irrefl. destruct (Z.ltb_spec (Z.of_nat (length (cs_completed d))) e); [easy|]. f_equal. f_equal. lia.
Qed.
Lemma window_len_fetch d : window_len d = Z.of_nat (length (fetch_bars d (Z.of_nat (length (cs_completed d))))).
Proof.
  unfold window_len, fetch_bars, completed_index. destruct (Nat.eqb_spec (length (cs_completed d)) 0) as [E|E].
  - rewrite Bool.orb_true_r. easy.
  - destruct (Z.leb_spec (Z.of_nat (length (cs_completed d))) 0); [lia|]. cbn [orb]. rewrite Z.ltb_irrefl.
    assert (LN : nth (Z.to_nat (Z.of_nat (length (cs_completed d)) - 1)) (cs_completed d) 0 = last (cs_completed d) 0).
    { destruct (cs_completed d) as [|x l _] using rev_ind; [easy|]. rewrite last_last, app_length. cbn [length].
      replace (Z.to_nat (Z.of_nat (length l + 1) - 1)) with (length l) by lia. rewrite app_nth2 by lia. now rewrite Nat.sub_diag. }
    rewrite LN. destruct (Z.ltb_spec (last (cs_completed d) 0) 0); [easy|]. rewrite firstn_length. lia.
Qed.

(** ** Slicing for a test window *)
Lemma increasing_tail x l : increasing (x :: l) -> increasing l /\ forall y, In y l -> x < y.
Proof.
  revert x. induction l as [|a l IH]; intros x H; [easy|]. destruct H as [H1 H2]. split; [easy|].
  destruct (IH a H2) as [_ B]. intros y [<-|Y]; [easy|]. specialize (B y Y). lia.
Qed.
Lemma search_none l x : (forall y, In y l -> x <= y) -> search_left l x = 0%nat.
Proof.
  unfold search_left. induction l as [|a l IH]; intro H; [easy|]. cbn [filter]. destruct (Z.ltb_spec a x).
  - specialize (H a (or_introl eq_refl)). lia.
  - apply IH. intros; apply H. now right.
Qed.
Lemma search_pos l : forall x pos, increasing l -> nth_error l pos = Some x -> search_left l x = pos.
Proof.
  induction l as [|a l IH]; intros x pos I H; [destruct pos; discriminate|]. destruct (increasing_tail _ _ I) as [I' B].
  destruct pos as [|pos]; cbn [nth_error] in H.
  - injection H as <-. apply search_none. intros y [<-|Y]; [lia|]. specialize (B y Y). lia.
  - unfold search_left. cbn [filter]. specialize (B x (nth_error_In _ _ H)). destruct (Z.ltb_spec a x); [|lia]. cbn [length]. f_equal.
    apply IH; easy.
Qed.
Lemma search_bound l x : (search_left l x <= length l)%nat.
Proof. apply filter_len_le. Qed.
Lemma slice_data d dates d' : slice_for_test d dates = SData d' ->
  cs_bars d' = cs_bars d /\ cs_base_dates d' = dates /\ dates <> [] /\
  cs_completed d' = map (fun t => nth (search_left (cs_base_dates d) t) (cs_completed d) 0) dates /\
  forall t, In t dates -> nth_error (cs_base_dates d) (search_left (cs_base_dates d) t) = Some t.
Proof.
  unfold slice_for_test. destruct dates as [|t0 dates]; [discriminate|]. set (ds := t0 :: dates).
  destruct (existsb _ _) eqn:X; [discriminate|].
  destruct (forallb _ _) eqn:F; cbn [negb]; [|discriminate]. intro H. injection H as <-. cbn [cs_bars cs_completed cs_base_dates].
  split; [easy|]. split; [easy|]. split; [easy|]. split; [now rewrite map_map|].
  intros t T. rewrite forallb_forall in F. specialize (F (search_left (cs_base_dates d) t, t)). cbn in F.
  assert (I : In (search_left (cs_base_dates d) t, t) (combine (map (search_left (cs_base_dates d)) ds) ds)).
  { clear - T. induction ds as [|a ds IH]; [easy|]. destruct T as [<-|T]; [now left|right; auto]. }
  apply F in I. apply Z.eqb_eq in I.
  assert (L : (search_left (cs_base_dates d) t < length (cs_base_dates d))%nat).
  { apply Nat.nle_gt. intro L. apply Bool.not_true_iff_false in X. apply X. apply existsb_exists. exists (search_left (cs_base_dates d) t).
    split; [now apply in_map|]. now apply Nat.leb_le. }
  rewrite (nth_error_nth' _ 0 L). now rewrite I.
Qed.
Lemma slice_reads d dates d' e date pos : increasing (cs_base_dates d) -> length (cs_completed d) = length (cs_base_dates d) ->
  slice_for_test d dates = SData d' -> nth_error dates e = Some date -> nth_error (cs_base_dates d) pos = Some date ->
  fetch_bars d' (Z.of_nat e + 1) = fetch_bars d (Z.of_nat pos + 1).
Proof.
  intros I L S E P. destruct (slice_data _ _ _ S) as (B & D & _ & C & _). pose proof (search_pos _ _ _ I P) as SP.
  assert (PL : (pos < length (cs_base_dates d))%nat) by (apply nth_error_Some; congruence).
  assert (EL : (e < length dates)%nat) by (apply nth_error_Some; congruence).
  assert (CI : completed_index d' (Z.of_nat e + 1) = completed_index d (Z.of_nat pos + 1)).
  { unfold completed_index. assert (CL : length (cs_completed d') = length dates) by (rewrite C; apply map_length). rewrite CL, L.
    destruct (Z.leb_spec (Z.of_nat e + 1) 0); [lia|]. destruct (Z.leb_spec (Z.of_nat pos + 1) 0); [lia|].
    destruct (Nat.eqb_spec (length dates) 0); [lia|]. destruct (Nat.eqb_spec (length (cs_base_dates d)) 0); [lia|]. cbn [orb].
    destruct (Z.ltb_spec (Z.of_nat (length dates)) (Z.of_nat e + 1)); [lia|].
    destruct (Z.ltb_spec (Z.of_nat (length (cs_base_dates d))) (Z.of_nat pos + 1)); [lia|].
    replace (Z.to_nat (Z.of_nat e + 1 - 1)) with e by lia. replace (Z.to_nat (Z.of_nat pos + 1 - 1)) with pos by lia.
    rewrite C. apply nth_error_nth with (d := 0) in E. set (f := fun t => _).
    rewrite nth_indep with (d' := f 0) by (rewrite map_length; lia). rewrite map_nth, E. unfold f. now rewrite SP. }
  unfold fetch_bars. now rewrite CI, B.
Qed.
Lemma slice_accepts d dates : increasing (cs_base_dates d) ->
  ((exists d', slice_for_test d dates = SData d') <-> dates <> [] /\ forall t, In t dates -> In t (cs_base_dates d)).
Proof.
  intro I. split.
  - intros [d' S]. destruct (slice_data _ _ _ S) as (_ & _ & N & _ & P). split; [easy|]. intros t T. eapply nth_error_In, P, T.
  - intros [N S]. unfold slice_for_test. destruct dates as [|t0 dates]; [easy|]. set (ds := t0 :: dates) in *. clearbody ds.
    assert (Q : forall t, In t ds -> nth_error (cs_base_dates d) (search_left (cs_base_dates d) t) = Some t).
    { intros t T. apply S in T. destruct (In_nth_error _ _ T) as [pos P]. now rewrite (search_pos _ _ _ I P). }
    destruct (existsb _ _) eqn:X.
    + exfalso. apply existsb_exists in X as (i & X & Y). apply in_map_iff in X as (t & <- & T). apply Nat.leb_le in Y.
      specialize (Q t T). apply nth_error_None in Y. congruence.
    + destruct (forallb _ _) eqn:F; cbn [negb]; [eauto|]. exfalso. apply Bool.not_true_iff_false in F. apply F.
      apply forallb_forall. intros [i t] T. apply Z.eqb_eq.
      assert (i = search_left (cs_base_dates d) t /\ In t ds) as [-> T'].
      { clear - T. induction ds as [|a ds IH]; [easy|]. destruct T as [T|T]; [injection T as <- <-; split; [easy|now left]|].
        destruct (IH T). split; [easy|now right]. }
      apply nth_error_nth. auto.
Qed.

(** ** Hold-out *)
Lemma zmem_iff x l : zmem x l = true <-> In x l.
Proof.
  unfold zmem. rewrite existsb_exists. split.
  - intros (y & Y & E). apply Z.eqb_eq in E. now subst.
  - intro H. exists x. split; [easy|apply Z.eqb_refl].
Qed.
Lemma positions_iff dates l i : In i (positions dates l) <-> exists d, nth_error dates i = Some d /\ In d l.
Proof.
  unfold positions. rewrite in_map_iff.
  assert (G : forall (dates : list Z) off i d, In (i, d) (combine (seq off (length dates)) dates) <->
             (off <= i)%nat /\ nth_error dates (i - off) = Some d).
  { clear. induction dates as [|a dates IH]; intros off i d; cbn [length seq combine In].
    - split; [easy|]. intros [_ H]. destruct (i - off)%nat; discriminate.
    - rewrite IH. split.
      + intros [H|[H1 H2]]; [injection H as <- <-; rewrite Nat.sub_diag; auto|]. split; [lia|].
        replace (i - off)%nat with (S (i - S off)) by lia. easy.
      + intros [H1 H2]. destruct (Nat.eq_dec i off) as [->|NE].
        * rewrite Nat.sub_diag in H2. injection H2 as ->. now left.
        * right. split; [lia|]. replace (i - off)%nat with (S (i - S off)) in H2 by lia. easy. }
  split.
  - intros ((i' & d) & <- & H). apply filter_In in H as [H M]. apply G in H as [_ H]. rewrite Nat.sub_0_r in H. exists d.
    split; [easy|]. now apply zmem_iff.
  - intros (d & H & M). exists (i, d). split; [easy|]. apply filter_In. split; [apply G; rewrite Nat.sub_0_r; split; [lia|easy]|].
    now apply zmem_iff.
Qed.
Lemma positions_sorted dates l : forall a i b, positions dates l = a ++ i :: b -> forall i', In i' b -> (i < i')%nat.
Proof.
  unfold positions. generalize 0%nat as off. induction dates as [|x dates IH]; intros off a i b E i' I'; [destruct a; discriminate|].
  cbn [length seq combine filter] in E. destruct (zmem x l); [|eapply IH; eauto]. cbn [map fst] in E. destruct a as [|a0 a].
  - injection E as <- <-. apply in_map_iff in I' as ((j & d) & <- & I'). apply filter_In in I' as [I' _]. apply in_combine_l in I'.
    apply in_seq in I'. cbn. lia.
  - injection E as _ E. eapply IH; eauto.
Qed.
Lemma positions_filter dates l : map (fun i => nth i dates 0) (positions dates l) = filter (fun d => zmem d l) dates.
Proof.
  unfold positions.
  assert (G : forall pre ds, map (fun i => nth i (pre ++ ds) 0) (map fst (filter (fun '(_, d) => zmem d l) (combine (seq (length pre) (length ds)) ds)))
             = filter (fun d => zmem d l) ds).
  { intros pre ds. revert pre. induction ds as [|a ds IH]; intro pre; [easy|]. cbn [length seq combine filter].
    specialize (IH (pre ++ [a])). rewrite <- app_assoc in IH. cbn [app] in IH. rewrite app_length in IH. cbn [length] in IH.
    replace (length pre + 1)%nat with (S (length pre)) in IH by lia.
    destruct (zmem a l); [|exact IH]. cbn [map fst]. rewrite IH. f_equal. rewrite app_nth2 by lia. now rewrite Nat.sub_diag. }
  exact (G [] dates).
Qed.
Lemma increasing_nth l : increasing l -> forall i j x y, nth_error l i = Some x -> nth_error l j = Some y -> (x < y <-> (i < j)%nat).
Proof.
  intro I. assert (G : forall l, increasing l -> forall i j x y, nth_error l i = Some x -> nth_error l j = Some y -> (i < j)%nat -> x < y).
  { clear. induction l as [|a l IH]; intros I i j x y X Y L; [destruct i; discriminate|]. destruct (increasing_tail _ _ I) as [I' B].
    destruct j as [|j]; [lia|]. destruct i as [|i]; cbn in X, Y.
    - injection X as <-. apply B. eapply nth_error_In, Y.
    - apply (IH I' i j); auto. lia. }
  intros i j x y X Y. split; [|eauto]. intro L. destruct (Nat.lt_trichotomy i j) as [H|[->|H]]; [easy|rewrite X in Y; injection Y as <-; lia|].
  specialize (G l I j i y x Y X H). lia.
Qed.
Section Holdout.
  Variables (bars train test : list Z) (lookahead : Z) (kept : list Z) (dropped : nat).
  Hypothesis I : increasing bars.
  Hypothesis TT : forall d e, In d train -> In e test -> d < e.
  Hypothesis R : lookahead_train_dates bars train test lookahead = (kept, dropped).
  Let clear_of (i : nat) : Prop := forall t e, nth_error bars t = Some e -> In e test -> Z.of_nat i + lookahead <= Z.of_nat t.
  Lemma holdout_kept : forall i d, nth_error bars i = Some d -> (In d kept <-> In d train /\ clear_of i).
  Proof.
    intros i d D. unfold lookahead_train_dates in R. unfold clear_of.
    destruct (Z.leb_spec lookahead 1) as [L1|L1]; cbn [orb] in R.
    - injection R as <- _. split; [|tauto]. intro T. split; [easy|]. intros t e E TE.
      pose proof (proj1 (increasing_nth bars I i t d e D E) (TT d e T TE)). lia.
    - destruct (Nat.eqb_spec (length bars) 0) as [L0|L0]; [destruct bars; [destruct i; discriminate|discriminate]|].
      assert (NOTEST : positions bars test = [] -> clear_of i).
      { intros N t e E TE. exfalso. assert (X : In t (positions bars test)) by (apply positions_iff; eauto). rewrite N in X. easy. }
      assert (SIMPLE : In d (map (fun i0 => nth i0 bars 0) (positions bars train)) <-> In d train).
      { rewrite positions_filter, filter_In, zmem_iff. split; [tauto|]. intro; split; [eapply nth_error_In, D|easy]. }
      destruct (positions bars train) as [|p0 pt] eqn:PT.
      + injection R as <- _. split; [easy|]. intros [T _]. apply SIMPLE, T.
      + destruct (positions bars test) as [|t0 tr] eqn:PS.
        * injection R as <- _. rewrite SIMPLE. split; [intro; split; [easy|now apply NOTEST]|tauto].
        * match type of R with context [filter ?f (p0 :: pt)] => remember (filter f (p0 :: pt)) as fl eqn:FL in R end. injection R as <- _. assert (T0 : In t0 (positions bars test)) by (rewrite PS; now left).
          pose proof T0 as (e0 & E0 & TE0)%positions_iff. rewrite in_map_iff. split.
          -- intros (i' & ND & K). rewrite FL in K. apply (proj1 (filter_In _ _ _)) in K as [K M]. apply Z.leb_le in M.
             rewrite <- PT in K. apply positions_iff in K as (d' & D' & T').
             pose proof (nth_error_nth _ _ 0 D') as X. rewrite ND in X. subst d'.
             assert (i' = i).
             { pose proof (increasing_nth bars I i i' d d D D'). pose proof (increasing_nth bars I i' i d d D' D). lia. }
             subst i'. split; [easy|]. intros t e E TE. assert (IT : In t (positions bars test)) by (apply positions_iff; eauto).
             rewrite PS in IT. destruct IT as [<-|IT]; [lia|]. pose proof (positions_sorted bars test [] t0 tr PS t IT). lia.
          -- intros [T C]. exists i. split; [apply nth_error_nth, D|]. rewrite FL. apply (proj2 (filter_In _ _ _)). split.
             ++ rewrite <- PT. apply positions_iff. eauto.
             ++ apply Z.leb_le. specialize (C t0 e0 E0 TE0). lia.
  Qed.
  Lemma holdout_subset : forall d, In d kept -> In d train.
  Proof.
    intros d D. unfold lookahead_train_dates in R. destruct (_ || _); [injection R as <- _; easy|].
    assert (G : forall i, In i (positions bars train) -> In (nth i bars 0) train).
    { intros i H. apply positions_iff in H as (x & X & Y). rewrite (nth_error_nth _ _ _ X). easy. }
    destruct (positions bars train) as [|p0 pt] eqn:PT; [injection R as <- _; easy|].
    destruct (positions bars test) as [|t0 tr].
    - remember (p0 :: pt) as pp. injection R as <- _. apply in_map_iff in D as (i & <- & D). auto.
    - match type of R with context [filter ?f (p0 :: pt)] => remember (filter f (p0 :: pt)) as fl eqn:FL in R end. injection R as <- _. apply in_map_iff in D as (i & <- & D). rewrite FL in D. apply (proj1 (filter_In _ _ _)) in D as [D _]. auto.
  Qed.
  Lemma filter_split {A} (p q : A -> bool) l : (forall x, In x l -> q x = true -> p x = true) ->
    length (filter p l) = (length (filter q l) + length (filter (fun x => p x && negb (q x)) l))%nat.
  Proof.
    induction l as [|x l IH]; intro H; [easy|]. cbn [filter]. specialize (IH ltac:(intros; apply H; [now right|easy])).
    specialize (H x (or_introl eq_refl)). destruct (q x); [rewrite H by easy; cbn; lia|]. destruct (p x); cbn; lia.
  Qed.
  Lemma holdout_dropped : dropped = length (filter (fun d => zmem d train && negb (zmem d kept)) bars).
  Proof.
    assert (K : length (filter (fun d => zmem d train) bars) =
               (length (filter (fun d => zmem d kept) bars) + length (filter (fun d => zmem d train && negb (zmem d kept)) bars))%nat).
    { apply filter_split. intros x _ Z. apply zmem_iff. apply zmem_iff in Z. now apply holdout_subset. }
    assert (LP : length (positions bars train) = length (filter (fun d => zmem d train) bars)).
    { rewrite <- positions_filter. now rewrite map_length. }
    assert (ND : forall l, increasing l -> NoDup l).
    { clear. induction l as [|x l IH]; intro I; constructor; destruct (increasing_tail _ _ I) as [I' B]; [|auto]. intro X. specialize (B x X). lia. }
    assert (SAME : forall l, NoDup l -> (forall x, In x l -> In x bars) -> length (filter (fun d => zmem d l) bars) = length l).
    { intros l NL SUB. assert (NF : NoDup (filter (fun d => zmem d l) bars)) by (apply NoDup_filter, ND, I).
      apply Nat.le_antisymm; apply NoDup_incl_length; auto; intros x X.
      - apply filter_In in X as [_ X]. now apply zmem_iff.
      - apply filter_In. split; [auto|]. now apply zmem_iff. }
    unfold lookahead_train_dates in R. destruct (Z.leb_spec lookahead 1); cbn [orb] in R.
    - injection R as <- <-. lia.
    - destruct (Nat.eqb_spec (length bars) 0) as [L0|L0]; [injection R as <- <-; lia|].
      assert (NDP : forall f, NoDup (map (fun i => nth i bars 0) (filter f (positions bars train)))).
      { intro f. assert (NP : NoDup (positions bars train)).
        { assert (G : forall l, (forall a (i : nat) b, l = a ++ i :: b -> forall i', In i' b -> (i < i')%nat) -> NoDup l).
          { clear. induction l as [|x l IH]; intro H; constructor.
            - intro X. specialize (H [] x l eq_refl x X). lia.
            - apply IH. intros a i b -> . apply (H (x :: a) i b). easy. }
          apply G, positions_sorted. }
        apply NoDup_filter with (f := f) in NP.
        assert (SUB : forall i, In i (filter f (positions bars train)) -> exists d, nth_error bars i = Some d).
        { intros i H0. apply filter_In in H0 as [H0 _]. apply positions_iff in H0 as (d & D & _). eauto. }
        induction NP as [|i l NI NP IHN]; [constructor|]. cbn [map]. constructor; [|apply IHN; intros; apply SUB; now right].
        intro X. apply in_map_iff in X as (i' & E & X). destruct (SUB i (or_introl eq_refl)) as [d D]. destruct (SUB i' (or_intror X)) as [d' D'].
        rewrite (nth_error_nth _ _ _ D), (nth_error_nth _ _ _ D') in E. subst d'.
        pose proof (increasing_nth bars I i i' d d D D'). pose proof (increasing_nth bars I i' i d d D' D).
        assert (i = i') by lia. subst. easy. }
      assert (INB : forall f d, In d (map (fun i => nth i bars 0) (filter f (positions bars train))) -> In d bars).
      { intros f d H0. apply in_map_iff in H0 as (i & <- & H0). apply filter_In in H0 as [H0 _]. apply positions_iff in H0 as (x & X & _).
        rewrite (nth_error_nth _ _ _ X). eapply nth_error_In, X. }
      assert (ALL : forall l : list nat, filter (fun _ => true) l = l) by (induction l as [|? ? E]; cbn; congruence).
      assert (FIN : forall f, kept = map (fun i => nth i bars 0) (filter f (positions bars train)) ->
                    (length (positions bars train) - length (filter f (positions bars train)) = dropped)%nat ->
                    dropped = length (filter (fun d => zmem d train && negb (zmem d kept)) bars)).
      { intros f EK ED. assert (LK : length (filter (fun d => zmem d kept) bars) = length kept).
        { apply SAME; rewrite EK; [apply NDP|apply INB]. }
        assert (length kept = length (filter f (positions bars train))) by (rewrite EK; apply map_length). lia. }
      destruct (positions bars train) as [|p0 pt] eqn:PT.
      + injection R as <- <-. apply (FIN (fun _ => true)); easy.
      + destruct (positions bars test) as [|t0 tr].
        * apply (FIN (fun _ => true)); rewrite ALL; [congruence|]. apply (f_equal snd) in R. cbn [snd] in R. lia.
        * eapply FIN; [symmetry; exact (f_equal fst R)|exact (f_equal snd R)].
  Qed.
End Holdout.
