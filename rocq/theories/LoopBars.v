(** When orders are attempted: the bars of a window. *)
From Verif Require Export LoopRun.

(** ** Calendars *)
Definition zmem (l : list Z) (x : Z) : bool := existsb (Z.eqb x) l.
Lemma zmem_In l x : zmem l x = true <-> In x l.
Proof.
  unfold zmem. rewrite existsb_exists. split; [intros [y [I E]]; apply Z.eqb_eq in E; now subst|].
  intro I. exists x. split; auto. apply Z.eqb_refl.
Qed.
Lemma zmem_notin l x : zmem l x = false <-> ~ In x l.
Proof. rewrite <- zmem_In. destruct (zmem l x); intuition congruence. Qed.
Lemma ascending_app l m : ascending (l ++ m) -> ascending l /\ ascending m /\ (forall x y, In x l -> In y m -> (x < y)%Z).
Proof.
  induction l as [|a l IH]; cbn [app ascending]; [split; [exact I|split; [auto|intros x y []]]|].
  intros [F H]. destruct (IH H) as [A [B C]]. apply Forall_app in F. destruct F as [F1 F2]. split; [auto|split; auto].
  intros x y [->|Ix] Iy; auto. rewrite Forall_forall in F2. auto.
Qed.
Lemma ascending_join l m : ascending l -> ascending m -> (forall x y, In x l -> In y m -> (x < y)%Z) -> ascending (l ++ m).
Proof.
  induction l as [|a l IH]; cbn [app ascending]; auto. intros [F H] M C. split.
  - apply Forall_app. split; auto. apply Forall_forall. intros y I. apply C; cbn; auto.
  - apply IH; auto. intros x y I J. apply C; cbn; auto.
Qed.
Lemma ascending_nodup l : ascending l -> NoDup l.
Proof.
  induction l as [|a l IH]; cbn; constructor; [|apply IH, H]. destruct H as [F _]. rewrite Forall_forall in F. intro I. specialize (F a I). lia.
Qed.
Lemma filter_nil {A} (f : A -> bool) l : (forall x, In x l -> f x = false) -> filter f l = [].
Proof. induction l as [|x l IH]; intro H; cbn; auto. rewrite (H x (or_introl eq_refl)). apply IH. intros y I. apply H. now right. Qed.
Lemma filter_id {A} (f : A -> bool) l : (forall x, In x l -> f x = true) -> filter f l = l.
Proof. induction l as [|x l IH]; intro H; cbn; auto. rewrite (H x (or_introl eq_refl)). f_equal. apply IH. intros y I. apply H. now right. Qed.
(** An ascending list inside a longer one splits where the longer one does. *)
Lemma split_filter l pre rest : ascending l -> ascending (pre ++ rest) -> incl l (pre ++ rest) ->
  l = filter (zmem pre) l ++ filter (zmem rest) l.
Proof.
  intros A B. destruct (ascending_app _ _ B) as [_ [_ C]]. induction l as [|x l IH]; auto. destruct A as [F A]. intro I.
  assert (I' : incl l (pre ++ rest)) by (intros y J; apply I; now right).
  cbn [filter]. destruct (in_app_iff pre rest x) as [D _]. destruct (D (I x (or_introl eq_refl))) as [J|J].
  - rewrite (proj2 (zmem_In pre x) J).
    assert (N : zmem rest x = false) by (apply zmem_notin; intro K; specialize (C x x J K); lia).
    rewrite N. cbn [app]. f_equal. now apply IH.
  - assert (N : zmem pre x = false) by (apply zmem_notin; intro K; specialize (C x x K J); lia).
    rewrite N, (proj2 (zmem_In rest x) J).
    assert (E : filter (zmem pre) l = []).
    { apply filter_nil. intros y K. apply zmem_notin. intro K'. rewrite Forall_forall in F. specialize (F y K). specialize (C y x K' J). lia. }
    rewrite E. cbn [app]. f_equal. rewrite E in IH. now apply IH.
Qed.
Lemma nth_ascending l i j x y : ascending l -> nth_error l i = Some x -> nth_error l j = Some y -> (i < j)%nat -> (x < y)%Z.
Proof.
  revert i j. induction l as [|a l IH]; intros i j A E1 E2 L; [destruct i; discriminate|]. destruct A as [F A].
  destruct i as [|i], j as [|j]; try lia; cbn in *.
  - injection E1 as <-. rewrite Forall_forall in F. apply F. eapply nth_error_In; eauto.
  - apply (IH i j); auto. lia.
Qed.
Lemma searchsorted_spec l d i : ascending l -> nth_error l i = Some d -> searchsorted l d = i.
Proof.
  revert i. induction l as [|a l IH]; intros i A E; [destruct i; discriminate|]. destruct A as [F A]. cbn [searchsorted].
  destruct i as [|i]; cbn in E.
  - injection E as ->. now rewrite Z.ltb_irrefl.
  - assert (L : (a < d)%Z) by (rewrite Forall_forall in F; apply F; eapply nth_error_In; eauto).
    apply Z.ltb_lt in L. rewrite L. f_equal. now apply IH.
Qed.
Lemma bars_later_lt l cur k x : ascending l -> (1 <= k)%nat -> bars_later l cur k x -> (cur < x)%Z.
Proof. intros A K [j [E1 E2]]. apply (nth_ascending l j (j + k)); auto. lia. Qed.
Lemma bars_later_pos l cur k x j : ascending l -> nth_error l j = Some cur -> (bars_later l cur k x <-> nth_error l (j + k) = Some x).
Proof.
  intros A E. split; [|intro; exists j; auto]. intros [i [E1 E2]]. rewrite <- (searchsorted_spec l cur j A E), (searchsorted_spec l cur i A E1). exact E2.
Qed.

(** ** The bars seen in a window *)
Section Bars.
Variable v : env.
Hypothesis EO : env_ok v.
Definition seen (pre : list Z) (s : sym) : list Z := filter (zmem pre) (window_bars v s).
Definition bar_at (d : Z) (s : sym) : bool := nmem s (v_syms v) && trades_on v d s.
Lemma nmem_syms s : nmem s (v_syms v) = true <-> In s (v_syms v).
Proof. unfold nmem. rewrite existsb_exists. split; [intros [x [I E]]; apply Nat.eqb_eq in E; now subst|]. intro I. exists s. split; auto. apply Nat.eqb_refl. Qed.
Lemma window_facts s : ascending (window_bars v s) /\ incl (window_bars v s) (v_dates v).
Proof.
  unfold window_bars. destruct (nmem s (v_syms v)) eqn:E; [apply (eo_sdates v EO), nmem_syms, E|]. split; [exact I|intros x []].
Qed.
Lemma bar_at_iff d s : bar_at d s = true <-> In d (window_bars v s).
Proof.
  unfold bar_at, window_bars, trades_on. destruct (nmem s (v_syms v)); cbn [andb]; [apply (zmem_In (v_sdates v s) d)|]. split; [discriminate|intros []].
Qed.
Lemma seen_all s : seen (v_dates v) s = window_bars v s.
Proof. apply filter_id. intros x I. apply zmem_In, (window_facts s), I. Qed.
Lemma seen_nil s : seen [] s = [].
Proof. apply filter_nil. reflexivity. Qed.
Lemma exec_date_cur s e d k : In s (v_syms v) -> nth_error (v_sdates v s) (e - 1) = Some d ->
  match exec_date v s e k with
  | Some (x, iw) => bars_later (calendar v s) d k x /\ (iw = true -> In x (v_sdates v s))
  | None => forall x, ~ bars_later (calendar v s) d k x
  end.
Proof.
  intros T E2. unfold exec_date, calendar.
  destruct (eo_sdates v EO s T) as [A _]. rewrite E2. destruct (nth_error (v_sdates v s) (e - 1 + k)) as [x|] eqn:N.
  - split; [|intros _; eapply nth_error_In; eauto]. destruct (v_master v) as [m|] eqn:M; [|exists (e - 1)%nat; auto].
    destruct (eo_master v EO m s M T) as [_ [p [q Q]]]. exists (length p + (e - 1))%nat. rewrite Q. split.
    + rewrite nth_error_app2 by lia. replace (length p + (e - 1) - length p)%nat with (e - 1)%nat by lia. rewrite nth_error_app1; auto. apply nth_error_Some. congruence.
    + rewrite nth_error_app2 by lia. replace (length p + (e - 1) + k - length p)%nat with (e - 1 + k)%nat by lia.
      rewrite nth_error_app1; auto. apply nth_error_Some. congruence.
  - destruct (v_master v) as [m|] eqn:M.
    + destruct (eo_master v EO m s M T) as [AM [p [q Q]]].
      assert (C : nth_error (m s) (length p + (e - 1)) = Some d).
      { rewrite Q, nth_error_app2 by lia. replace (length p + (e - 1) - length p)%nat with (e - 1)%nat by lia. rewrite nth_error_app1; auto. apply nth_error_Some. congruence. }
      unfold next_master_date. rewrite (searchsorted_spec _ _ _ AM C), C, Z.eqb_refl.
      destruct (nth_error (m s) (length p + (e - 1) + k)) as [x|] eqn:N2; cbn [option_map].
      * split; [|discriminate]. exists (length p + (e - 1))%nat. auto.
      * intros x X. apply (bars_later_pos _ _ _ _ _ AM C) in X. congruence.
    + intros x X. apply (bars_later_pos _ _ _ _ _ A E2) in X. congruence.
Qed.
Section At.
Variable pre : list Z. Variable d : Z. Variable rest : list Z.
Hypothesis DATES : v_dates v = pre ++ d :: rest.
Lemma dates_facts : ascending (pre ++ d :: rest) /\ (forall x, In x pre -> (x < d)%Z) /\ (forall x, In x rest -> (d < x)%Z) /\ ascending ((pre ++ [d]) ++ rest).
Proof.
  pose proof (eo_dates v EO) as A. rewrite DATES in A. split; auto. destruct (ascending_app _ _ A) as [_ [[F _] C]]. split.
  - intros x I. apply C; cbn; auto.
  - split; [rewrite Forall_forall in F; auto|]. now rewrite <- app_assoc.
Qed.
Lemma window_split s : window_bars v s = seen pre s ++ (if bar_at d s then [d] else []) ++ filter (zmem rest) (window_bars v s).
Proof.
  destruct (window_facts s) as [A I]. rewrite DATES in I. destruct dates_facts as [B [P [R B2]]].
  unfold seen. rewrite (split_filter (window_bars v s) pre (d :: rest)) at 1; auto. f_equal.
  clear - A R. destruct (bar_at d s) eqn:E.
  - apply bar_at_iff in E. revert A E. generalize (window_bars v s) as l. induction l as [|x l IH]; [intros _ []|]. intros [F A] E.
    cbn [filter]. unfold zmem at 1. cbn [existsb]. fold (zmem rest x). destruct (Z.eqb_spec x d) as [->|N]; cbn [orb].
    + assert (M : zmem rest d = false) by (apply zmem_notin; intro K; specialize (R d K); lia). rewrite M. cbn [app]. f_equal.
      apply filter_ext_in. intros y J. unfold zmem. cbn [existsb]. destruct (Z.eqb_spec y d) as [->|]; auto.
      rewrite Forall_forall in F. specialize (F d J). lia.
    + destruct E as [E|E]; [congruence|]. rewrite Forall_forall in F. specialize (F d E).
      assert (M : zmem rest x = false) by (apply zmem_notin; intro K; specialize (R x K); lia). rewrite M. now apply IH.
  - assert (N : ~ In d (window_bars v s)) by (rewrite <- bar_at_iff, E; discriminate). cbn [app]. apply filter_ext_in. intros y J.
    unfold zmem. cbn [existsb]. destruct (Z.eqb_spec y d) as [->|]; [tauto|reflexivity].
Qed.
Lemma seen_snoc s : seen (pre ++ [d]) s = seen pre s ++ (if bar_at d s then [d] else []).
Proof.
  destruct (window_facts s) as [A I]. rewrite DATES in I. destruct dates_facts as [B [P [R B2]]].
  assert (I2 : incl (window_bars v s) ((pre ++ [d]) ++ rest)) by (rewrite <- app_assoc; exact I).
  pose proof (split_filter _ _ _ A B2 I2) as S1. fold (seen (pre ++ [d]) s) in S1.
  pose proof (window_split s) as S2. rewrite app_assoc in S2. rewrite S2 in S1 at 1. apply app_inv_tail in S1. auto.
Qed.
Lemma seen_lt s x : In x (seen pre s) -> (x < d)%Z.
Proof. unfold seen. intro I. apply filter_In in I. destruct I as [_ I]. apply zmem_In in I. now apply dates_facts. Qed.
Lemma seen_le s x : In x (seen (pre ++ [d]) s) -> (x <= d)%Z.
Proof. rewrite seen_snoc. intro I. apply in_app_iff in I. destruct I as [I|I]; [apply seen_lt in I; lia|]. destruct (bar_at d s); [destruct I as [<-|[]]; lia|destruct I]. Qed.
(** The symbol's current bar. *)
Definition ends_ok (l : list Z) (b : bstate) : Prop := forall s, end_of b s = length (seen l s).
Lemma has_bar_iff b s : ends_ok (pre ++ [d]) b -> has_bar_on v b s d = bar_at d s.
Proof.
  intro E. unfold has_bar_on. cbv zeta. pose proof (E s) as Es. rewrite seen_snoc in Es. rewrite Es. pose proof (window_split s) as W. unfold window_bars, bar_at in *.
  destruct (nmem s (v_syms v)) eqn:M; cbn [andb] in *.
  - destruct (trades_on v d s) eqn:T.
    + rewrite app_length. cbn [length]. rewrite Nat.add_1_r. cbn [Nat.eqb].
      assert (L : (S (length (seen pre s)) <= length (v_sdates v s))%nat) by (rewrite W; rewrite !app_length; cbn; lia).
      destruct (v_sdates v s) as [|y l] eqn:SD; [cbn in L; lia|]. rewrite <- SD in *. rewrite Nat.min_l by exact L.
      replace (S (length (seen pre s)) - 1)%nat with (length (seen pre s)) by lia.
      rewrite W at 1. rewrite nth_error_app2 by lia. rewrite Nat.sub_diag. cbn. apply Z.eqb_refl.
    + rewrite app_nil_r. cbn [app] in W. destruct (Nat.eqb_spec (length (seen pre s)) 0) as [|N]; auto.
      destruct (v_sdates v s) as [|y l] eqn:SD; auto. rewrite <- SD in *.
      destruct (nth_error _ _) as [x|] eqn:NE; auto. apply Z.eqb_neq. intro X. subst x.
      assert (L : (length (seen pre s) <= length (v_sdates v s))%nat) by (rewrite W; rewrite app_length; lia).
      rewrite Nat.min_l in NE by exact L. rewrite W in NE at 1. rewrite nth_error_app1 in NE by lia.
      apply nth_error_In, seen_lt in NE. lia.
  - assert (SE : seen pre s = []) by (unfold seen, window_bars; rewrite M; reflexivity). rewrite SE. reflexivity.
Qed.
(** Symbols trading on the date are at it. *)
Lemma cur_bar b s : ends_ok (pre ++ [d]) b -> bar_at d s = true ->
  (1 <= end_of b s)%nat /\ nth_error (v_sdates v s) (end_of b s - 1) = Some d.
Proof.
  intros E T. rewrite E, seen_snoc, T, app_length. cbn [length]. split; [lia|]. rewrite Nat.add_sub.
  pose proof (window_split s) as W. rewrite T in W. unfold window_bars in W. unfold bar_at in T. apply andb_true_iff in T. destruct T as [T _]. rewrite T in W.
  rewrite W. rewrite nth_error_app2 by lia. rewrite Nat.sub_diag. reflexivity.
Qed.
Lemma activate_ends l : forall e act ex, NoDup l ->
  let '(e', act', _) := fold_left (activate1 v d) l (e, act, ex) in
  (forall s, match aget s e' with Some n => n | None => 0%nat end = (match aget s e with Some n => n | None => 0%nat end + if nmem s l then 1 else 0)%nat) /\
  (forall s, In s act' -> In s act \/ In s l).
Proof.
  induction l as [|a l IH]; intros e act ex ND; cbn [fold_left].
  - split; auto.
  - inversion ND as [|? ? N1 N2]; subst. unfold activate1 at 2.
    set (n := match aget a e with Some n => n | None => 0%nat end).
    assert (K : forall act2 ex2, (forall s, In s act2 -> In s act \/ s = a) ->
       let '(e', act', _) := fold_left (activate1 v d) l (aset a (S n) e, act2, ex2) in
       (forall s, match aget s e' with Some n => n | None => 0%nat end = (match aget s e with Some n => n | None => 0%nat end + if nmem s (a :: l) then 1 else 0)%nat) /\
       (forall s, In s act' -> In s act \/ In s (a :: l))).
    { intros act2 ex2 HA. specialize (IH (aset a (S n) e) act2 ex2 N2). destruct (fold_left (activate1 v d) l (aset a (S n) e, act2, ex2)) as [[e' act'] ex'].
      destruct IH as [I1 I2]. split.
      - intro s. rewrite I1, aget_aset. unfold nmem. cbn [existsb]. destruct (Nat.eqb_spec s a) as [->|N]; cbn [orb]; auto.
        assert (M : existsb (Nat.eqb a) l = false).
        { apply not_true_iff_false. intro X. apply existsb_exists in X. destruct X as [y [Iy Ey]]. apply Nat.eqb_eq in Ey. congruence. }
        rewrite M. fold n. lia.
      - intros s I. destruct (I2 s I) as [J|J]; [destruct (HA s J) as [X| ->]; cbn; auto|cbn; auto]. }
    destruct (negb (Nat.eqb (v_warmup v) 0) && Nat.leb (S n) (v_warmup v)); apply K; auto. intros s I. apply in_app_iff in I.
    destruct I as [I|[<-|[]]]; auto.
Qed.
Lemma activate_spec b : ends_ok pre b -> let '(e', act, _) := activate v d b in
  ends_ok (pre ++ [d]) (set_ends e' b) /\ (forall s, In s act -> bar_at d s = true).
Proof.
  intro E. unfold activate. pose proof (activate_ends (filter (trades_on v d) (v_syms v)) (b_ends b) [] [] (NoDup_filter _ (eo_syms v EO))) as A.
  destruct (fold_left _ _ _) as [[e' act] ex]. destruct A as [A1 A2]. split.
  - intro s. specialize (E s). unfold end_of in *. cbn [set_ends b_ends]. rewrite A1, E, seen_snoc, app_length. f_equal.
    unfold bar_at. assert (X : nmem s (filter (trades_on v d) (v_syms v)) = nmem s (v_syms v) && trades_on v d s).
    { clear. unfold nmem. induction (v_syms v) as [|a l IH]; auto. cbn [filter existsb]. destruct (trades_on v d a) eqn:T; cbn [existsb]; rewrite IH.
      - destruct (Nat.eqb_spec s a) as [->|]; cbn [orb andb]; auto.
      - destruct (Nat.eqb_spec s a) as [->|]; cbn [orb andb]; auto. rewrite T. apply andb_false_r. }
    rewrite X. destruct (nmem s (v_syms v) && trades_on v d s); reflexivity.
  - intros s I. destruct (A2 s I) as [[]|J]. apply filter_In in J. unfold bar_at. rewrite (proj2 (nmem_syms s)); tauto.
Qed.
(** The execution date is the requested number of bars later. *)
Lemma exec_date_spec b s k : ends_ok (pre ++ [d]) b -> bar_at d s = true ->
  match exec_date v s (end_of b s) k with
  | Some (x, iw) => bars_later (calendar v s) d k x /\ (iw = true -> In x (v_sdates v s))
  | None => forall x, ~ bars_later (calendar v s) d k x
  end.
Proof.
  intros E T. destruct (cur_bar b s E T) as [E1 E2]. apply exec_date_cur; auto.
  unfold bar_at in T. apply andb_true_iff in T. destruct T as [T _]. now apply nmem_syms in T.
Qed.
End At.
End Bars.
