(** The inputs of the loop that two markets with the same past share. *)
From Verif Require Export MarketSame.

(** ** Ascending lists *)
Lemma ascending_unique {A} (f : A -> Z) l : forall l', ascending (map f l) -> ascending (map f l') -> (forall r, In r l <-> In r l') -> l = l'.
Proof.
  induction l as [|a l IH]; intros [|b l'] S1 S2 H; auto.
  - destruct (proj2 (H b) (or_introl eq_refl)).
  - destruct (proj1 (H a) (or_introl eq_refl)).
  - cbn in S1, S2. destruct S1 as [F1 S1], S2 as [F2 S2]. rewrite Forall_forall in F1, F2.
    assert (G1 : forall r, In r l -> (f a < f r)%Z) by (intros r I; apply F1, in_map, I).
    assert (G2 : forall r, In r l' -> (f b < f r)%Z) by (intros r I; apply F2, in_map, I).
    assert (E : a = b).
    { destruct (proj1 (H a) (or_introl eq_refl)) as [->|I]; auto. destruct (proj2 (H b) (or_introl eq_refl)) as [->|J]; auto. specialize (G1 b J). specialize (G2 a I). lia. }
    subst b. f_equal. apply IH; auto. intro r. split; intro I.
    + destruct (proj1 (H r) (or_intror I)) as [<-|J]; auto. specialize (G1 a I). lia.
    + destruct (proj2 (H r) (or_intror I)) as [<-|J]; auto. specialize (G2 a I). lia.
Qed.
Lemma ascending_filter {A} (g : A -> Z) (f : A -> bool) l : ascending (map g l) -> ascending (map g (filter f l)).
Proof.
  induction l as [|a l IH]; cbn; auto. intros [F S]. destruct (f a); cbn; [split; [|now apply IH]|now apply IH]. rewrite Forall_forall in *. intros x I. apply F.
  apply in_map_iff in I. destruct I as [y [<- I]]. apply filter_In in I. apply in_map. tauto.
Qed.
Lemma ascending_filter_z (f : Z -> bool) l : ascending l -> ascending (filter f l).
Proof. intro S. rewrite <- (map_id (filter f l)). apply ascending_filter. now rewrite map_id. Qed.
Lemma zinsert_in x y l : In x (zinsert y l) <-> x = y \/ In x l.
Proof.
  induction l as [|z l IH]; cbn; [intuition congruence|]. destruct (Z.ltb_spec y z); cbn; [intuition congruence|]. destruct (Z.eqb_spec y z); cbn; [subst; intuition congruence|].
  rewrite IH. intuition congruence.
Qed.
Lemma zinsert_asc x l : ascending l -> ascending (zinsert x l).
Proof.
  induction l as [|z l IH]; cbn; [intros _; split; [constructor|exact I]|]. intros [F S]. destruct (Z.ltb_spec x z).
  - cbn. split; [|split; auto]. apply Forall_cons; auto. rewrite Forall_forall in *. intros y I. specialize (F y I). lia.
  - destruct (Z.eqb_spec x z); cbn; [split; auto|]. split; [|now apply IH]. rewrite Forall_forall in *. intros y I. apply zinsert_in in I. destruct I as [->|I]; [lia|auto].
Qed.
Lemma unique_sorted_ok l : ascending (unique_sorted l) /\ forall x, In x (unique_sorted l) <-> In x l.
Proof.
  unfold unique_sorted. induction l as [|a l [IH1 IH2]]; cbn; [split; [exact I|tauto]|]. split; [now apply zinsert_asc|]. intro x. rewrite zinsert_in, IH2. intuition congruence.
Qed.
(** Cutting an ascending list at a date. *)
Lemma cut T l : ascending l -> l = filter (fun d => Z.leb d T) l ++ filter (fun d => Z.ltb T d) l.
Proof.
  induction l as [|a l IH]; auto. intros [F S]. cbn [filter]. destruct (Z.leb_spec a T).
  - assert (E : Z.ltb T a = false) by lia. rewrite E. cbn. f_equal. now apply IH.
  - assert (E : Z.ltb T a = true) by lia. rewrite E. rewrite (filter_nil (fun d => Z.leb d T) l); [cbn; f_equal|].
    + symmetry. apply filter_id. rewrite Forall_forall in F. intros x I. specialize (F x I). lia.
    + rewrite Forall_forall in F. intros x I. specialize (F x I). lia.
Qed.
(** The dates inside a window are a contiguous part of the calendar. *)
Lemma inside_contiguous w l : ascending l ->
  exists pre post, l = pre ++ filter (inside w) l ++ post /\ (forall x, In x pre -> inside w x = false) /\ (forall x, In x post -> inside w x = false).
Proof.
  intro S. destruct w as [lo hi]. pose proof (cut (lo - 1) l S) as C1.
  set (a := filter (fun d => Z.leb d (lo - 1)) l) in *. set (m := filter (fun d => Z.ltb (lo - 1) d) l) in *.
  assert (SM : ascending m) by (apply ascending_filter_z, S). pose proof (cut hi m SM) as C2.
  assert (E : filter (inside (lo, hi)) l = filter (fun d => Z.leb d hi) m).
  { unfold m. clear. induction l as [|x l IH]; auto. unfold inside. cbn [filter fst snd]. destruct (Z.leb_spec lo x).
    - assert (E : Z.ltb (lo - 1) x = true) by lia. rewrite E. cbn [andb filter]. destruct (Z.leb x hi); [f_equal|]; apply IH.
    - assert (E : Z.ltb (lo - 1) x = false) by lia. rewrite E. cbn [andb]. apply IH. }
  exists a, (filter (fun d => Z.ltb hi d) m). rewrite E. split; [rewrite C1 at 1; now rewrite C2 at 1|]. unfold inside. cbn [fst snd]. split; intros x I.
  - apply filter_In in I. destruct I as [_ I]. apply Z.leb_le in I. apply andb_false_iff. left. lia.
  - apply filter_In in I. destruct I as [_ I]. apply Z.ltb_lt in I. apply andb_false_iff. right. lia.
Qed.

Section OneMarket.
Context {U R : Type}.
Variable y : strategy U R.
Variable m : market R.
Hypothesis YO : strategy_ok y.
Hypothesis WF : well_formed m.
Lemma cal_asc s : ascending (cal m s). Proof. apply WF. Qed.
Lemma window_dates_asc w s : ascending (window_dates m w s). Proof. apply ascending_filter_z, cal_asc. Qed.
Lemma all_dates_in w x : In x (all_dates y m w) <-> inside w x = true /\ exists s, In s (y_all y) /\ In x (cal m s).
Proof.
  unfold all_dates. rewrite (proj2 (unique_sorted_ok _)), in_flat_map. unfold window_dates. split.
  - intros [s [I J]]. apply filter_In in J. split; [tauto|]. exists s. tauto.
  - intros [J [s [I K]]]. exists s. split; auto. apply filter_In. auto.
Qed.
Lemma env_of_ok w f : env_ok (env_of y m w f).
Proof.
  destruct YO as [ND [INC [D1 D2]]]. constructor; cbn [v_dates v_syms v_sdates v_master v_buy_delay v_sell_delay env_of]; auto.
  - apply unique_sorted_ok.
  - intros s I. split; [apply window_dates_asc|]. intros x J. apply all_dates_in. unfold window_dates in J. apply filter_In in J. split; [tauto|]. exists s. split; [now apply INC|tauto].
  - intros mm s [= <-] I. split; [apply cal_asc|]. destruct (inside_contiguous w (cal m s) (cal_asc s)) as (p & q & E & _). exists p, q. exact E.
Qed.
(** The execution date of an order is the symbol's bar [k] bars later, whichever
    window it falls in. *)
Lemma exec_date_of w f s e k d j : nth_error (window_dates m w s) (e - 1) = Some d -> nth_error (cal m s) j = Some d ->
  exec_date (env_of y m w f) s e k = option_map (fun x => (x, inside w x)) (nth_error (cal m s) (j + k)).
Proof.
  intros N1 N2. unfold exec_date. cbn [v_sdates v_master env_of]. destruct (inside_contiguous w (cal m s) (cal_asc s)) as (p & q & E & P & Q).
  fold (window_dates m w s) in E. rewrite N1.
  assert (J : j = (length p + (e - 1))%nat).
  { rewrite <- (searchsorted_spec _ _ _ (cal_asc s) N2). apply searchsorted_spec; [apply cal_asc|]. rewrite E, nth_error_app2 by lia.
    replace (length p + (e - 1) - length p)%nat with (e - 1)%nat by lia. rewrite nth_error_app1; auto. apply nth_error_Some. congruence. }
  destruct (nth_error (window_dates m w s) (e - 1 + k)) as [x|] eqn:N.
  - assert (X : nth_error (cal m s) (j + k) = Some x).
    { rewrite E, J, nth_error_app2 by lia. replace (length p + (e - 1) + k - length p)%nat with (e - 1 + k)%nat by lia. rewrite nth_error_app1; auto. apply nth_error_Some. congruence. }
    rewrite X. cbn. apply nth_error_In in N. unfold window_dates in N. apply filter_In in N. destruct N as [_ N]. now rewrite N.
  - unfold next_master_date. rewrite (searchsorted_spec _ _ _ (cal_asc s) N2), N2, Z.eqb_refl.
    destruct (nth_error (cal m s) (j + k)) as [x|] eqn:NX; cbn; auto. f_equal. f_equal. symmetry. apply Q.
    rewrite E, J in NX. rewrite nth_error_app2 in NX by lia. replace (length p + (e - 1) + k - length p)%nat with (e - 1 + k)%nat in NX by lia.
    apply nth_error_None in N. rewrite nth_error_app2 in NX by lia. now apply nth_error_In in NX.
Qed.
End OneMarket.

Section TwoMarkets.
Context {U R : Type}.
Variable y : strategy U R.
Variables m m' : market R.
Variable T : Z.
Hypothesis YO : strategy_ok y.
Hypothesis WF : well_formed m.
Hypothesis WF' : well_formed m'.
Hypothesis PAST : same_past T m m'.
Hypothesis NEXT : same_next_dates (longest_delay y) T m m'.

Lemma past_rows s d : (d <= T)%Z -> filter (fun r => Z.leb (fst r) d) (m s) = filter (fun r => Z.leb (fst r) d) (m' s).
Proof.
  intro L. apply (ascending_unique fst); try (apply ascending_filter; auto). intro r. rewrite !filter_In. split; intros [I J]; split; auto; apply Z.leb_le in J; apply (PAST s r); auto; lia.
Qed.
Lemma known_same d : (d <= T)%Z -> rows_until (y_all y) d m = rows_until (y_all y) d m'.
Proof. intro L. unfold rows_until. apply map_ext. intro s. f_equal. now apply past_rows. Qed.
Lemma past_cal s : filter (fun d => Z.leb d T) (cal m s) = filter (fun d => Z.leb d T) (cal m' s).
Proof.
  assert (X : forall l : list (Z * R), filter (fun d => Z.leb d T) (map fst l) = map fst (filter (fun r => Z.leb (fst r) T) l)).
  { induction l as [|a l IH]; auto. cbn. destruct (Z.leb (fst a) T); cbn; now rewrite IH. }
  unfold cal. rewrite !X. f_equal. apply past_rows. lia.
Qed.
Lemma past_in s d : (d <= T)%Z -> (In d (cal m s) <-> In d (cal m' s)).
Proof.
  intro L. assert (X : forall n, In d (cal n s) <-> In d (filter (fun d => Z.leb d T) (cal (R := R) n s))).
  { intro n. rewrite filter_In. split; [intro I; split; auto; lia|tauto]. }
  rewrite X, past_cal, <- X. tauto.
Qed.
Lemma past_dates w : filter (fun d => Z.leb d T) (all_dates y m w) = filter (fun d => Z.leb d T) (all_dates y m' w).
Proof.
  apply (ascending_unique (fun x => x)); try (rewrite map_id; apply ascending_filter_z; apply unique_sorted_ok).
  intro d. rewrite !filter_In, !all_dates_in. split; intros [[I [s [J K]]] L]; split; auto; split; auto; exists s; split; auto; apply (past_in s d); auto; now apply Z.leb_le.
Qed.
(** A date up to [T] has the same place in both calendars, and so have the next
    few. *)
Lemma later_same s j d k : nth_error (cal m s) j = Some d -> (d <= T)%Z -> (k <= longest_delay y)%nat ->
  nth_error (cal m' s) j = Some d /\ nth_error (cal m' s) (j + k) = nth_error (cal m s) (j + k).
Proof.
  intros N L K. pose proof (cut T _ (cal_asc m WF s)) as C. pose proof (cut T _ (cal_asc m' WF' s)) as C'. rewrite <- past_cal in C'.
  set (P := filter (fun d => Z.leb d T) (cal m s)) in *. specialize (NEXT s). unfold next_dates in NEXT. fold (cal m s) in NEXT. fold (cal m' s) in NEXT.
  set (F := filter (fun d => Z.ltb T d) (cal m s)) in *. set (F' := filter (fun d => Z.ltb T d) (cal m' s)) in *.
  assert (J : (j < length P)%nat).
  { destruct (Nat.ltb_spec j (length P)); auto. rewrite C, nth_error_app2 in N by auto. apply nth_error_In in N. unfold F in N. apply filter_In in N. destruct N as [_ N]. apply Z.ltb_lt in N. lia. }
  rewrite C, C'. rewrite C, nth_error_app1 in N by auto. split; [now rewrite nth_error_app1 by auto|].
  destruct (Nat.ltb_spec (j + k) (length P)); [now rewrite !nth_error_app1 by auto|]. rewrite !nth_error_app2 by auto.
  assert (X : forall l : list Z, nth_error l (j + k - length P) = nth_error (firstn (longest_delay y) l) (j + k - length P)).
  { intro l. assert (Q : (j + k - length P < longest_delay y)%nat) by lia. revert Q. generalize (j + k - length P)%nat as a, (longest_delay y) as n. clear.
    induction l as [|x l IH]; intros a n Q; [now rewrite firstn_nil|]. destruct n as [|n]; [lia|]. destruct a as [|a]; cbn; auto. apply IH. lia. }
  rewrite (X F), (X F'). now rewrite NEXT.
Qed.
(** The last of the dates up to [T] followed by later ones. *)
Lemma last_past P F d : (d <= T)%Z -> (forall x, In x F -> (T < x)%Z) ->
  (match rev (P ++ F) with [] => None | z :: _ => Some z end = Some d <-> F = [] /\ match rev P with [] => None | z :: _ => Some z end = Some d).
Proof.
  intros L B. destruct F as [|f F]; [rewrite app_nil_r; tauto|]. split; [|intros [H _]; discriminate]. intro E. exfalso.
  destruct (exists_last (l := f :: F) ltac:(discriminate)) as [G [z EZ]]. rewrite EZ in *. rewrite app_assoc, rev_app_distr in E. cbn in E. injection E as ->.
  specialize (B d). rewrite in_app_iff in B. specialize (B (or_intror (or_introl eq_refl))). lia.
Qed.
Lemma exit_some (o : option Z) d : match o with Some x => Z.eqb d x | None => false end = true <-> o = Some d.
Proof. destruct o; [rewrite Z.eqb_eq|]; split; congruence. Qed.
Lemma later_gt n s x : In x (filter (fun d => Z.ltb T d) (cal (R := R) n s)) -> (T < x)%Z.
Proof. intro I. apply filter_In in I. lia. Qed.
Lemma filter_comm (f g : Z -> bool) l : filter f (filter g l) = filter g (filter f l).
Proof. induction l as [|a l IH]; cbn; auto. destruct (f a) eqn:F, (g a) eqn:G; cbn; rewrite ?F, ?G, IH; auto. Qed.
(** Later bars: none at all, or none inside the window, in both markets or in
    neither. *)
Lemma none_later s : filter (fun d => Z.ltb T d) (cal m s) = [] <-> filter (fun d => Z.ltb T d) (cal m' s) = [].
Proof.
  specialize (NEXT s). unfold next_dates in NEXT. fold (cal m s) in NEXT. fold (cal m' s) in NEXT.
  assert (N : (1 <= longest_delay y)%nat) by (destruct YO as [_ [_ [D1 D2]]]; unfold longest_delay; lia). destruct (longest_delay y); [lia|].
  destruct (filter (fun d => Z.ltb T d) (cal m s)), (filter (fun d => Z.ltb T d) (cal m' s)); cbn in NEXT; split; congruence.
Qed.
Lemma none_later_inside w s d : (d <= T)%Z -> inside w d = true ->
  (filter (fun d => Z.ltb T d) (window_dates m w s) = [] <-> filter (fun d => Z.ltb T d) (window_dates m' w s) = []).
Proof.
  intros L I. specialize (NEXT s). unfold next_dates in NEXT. fold (cal m s) in NEXT. fold (cal m' s) in NEXT.
  assert (N : (1 <= longest_delay y)%nat) by (destruct YO as [_ [_ [D1 D2]]]; unfold longest_delay; lia). unfold window_dates. rewrite !(filter_comm (fun d => Z.ltb T d)).
  pose proof (ascending_filter_z (fun d => Z.ltb T d) _ (cal_asc m WF s)) as A. pose proof (ascending_filter_z (fun d => Z.ltb T d) _ (cal_asc m' WF' s)) as A'.
  pose proof (later_gt m s) as B. pose proof (later_gt m' s) as B'.
  destruct (longest_delay y); [lia|]. destruct (filter (fun d => Z.ltb T d) (cal m s)) as [|f F], (filter (fun d => Z.ltb T d) (cal m' s)) as [|f' F']; cbn in NEXT; try discriminate; [tauto|].
  injection NEXT as -> _.
  assert (X : forall F, (forall x, In x (f' :: F) -> (T < x)%Z) -> ascending (f' :: F) -> (filter (inside w) (f' :: F) = [] <-> inside w f' = false)).
  { intros F0 BB [S _]. cbn. destruct (inside w f') eqn:E; [split; discriminate|]. split; auto. intros _. apply filter_nil. intros x J.
    rewrite Forall_forall in S. specialize (S x J). specialize (BB f' (or_introl eq_refl)). unfold inside in *. lia. }
  rewrite (X F), (X F'); auto; tauto.
Qed.
Lemma window_cut n w s : well_formed n -> window_dates n w s = filter (inside w) (filter (fun d => Z.leb d T) (cal n s)) ++ filter (fun d => Z.ltb T d) (window_dates (R := R) n w s).
Proof. intro W. rewrite (cut T (window_dates n w s)) at 1 by (apply ascending_filter_z, W). f_equal. unfold window_dates. now rewrite filter_comm. Qed.
Lemma exit_same w s d : (d <= T)%Z -> inside w d = true ->
  (match exit_date y m' w s with Some x => Z.eqb d x | None => false end) = (match exit_date y m w s with Some x => Z.eqb d x | None => false end).
Proof.
  intros L I. unfold exit_date. destruct (y_exit_last y); auto; apply eq_iff_eq_true; rewrite !exit_some.
  - pose proof (cut T _ (cal_asc m WF s)) as C. pose proof (cut T _ (cal_asc m' WF' s)) as C'. rewrite <- past_cal in C'. rewrite C, C'.
    rewrite !last_past by (auto; apply later_gt). rewrite none_later. tauto.
  - rewrite (window_cut m' w s WF'), (window_cut m w s WF), <- past_cal.
    rewrite !last_past by (auto; intros x J; apply filter_In in J; lia). rewrite (none_later_inside w s d L I). tauto.
Qed.

(** One bar. *)
Lemma view_same w i d : nth_error (all_dates y m w) i = Some d -> nth_error (all_dates y m' w) i = Some d -> (d <= T)%Z -> view_of y m' w i = view_of y m w i.
Proof.
  intros N N' L. unfold view_of. rewrite (nth_error_nth _ _ _ N), (nth_error_nth _ _ _ N'). now rewrite known_same.
Qed.
Lemma bar_at_same w f d s : (d <= T)%Z -> bar_at (env_of y m' w f) d s = bar_at (env_of y m w f) d s.
Proof.
  intro L. unfold bar_at, trades_on. cbn [v_syms v_sdates env_of]. f_equal. apply eq_iff_eq_true. rewrite !existsb_exists. unfold window_dates.
  split; intros [x [I E]]; apply Z.eqb_eq in E; subst x; exists d; rewrite Z.eqb_refl; split; auto; apply filter_In in I; apply filter_In; destruct I; split; auto; now apply (past_in s d).
Qed.
Lemma seen_same w f pre s : (forall d, In d pre -> (d <= T)%Z) -> seen (env_of y m' w f) pre s = seen (env_of y m w f) pre s.
Proof.
  intro H. apply (ascending_unique (fun x => x)).
  - rewrite map_id. apply ascending_filter_z. apply (window_facts _ (env_of_ok y m' YO WF' w f)).
  - rewrite map_id. apply ascending_filter_z. apply (window_facts _ (env_of_ok y m YO WF w f)).
  - intro d. unfold seen. rewrite !filter_In, !zmem_In, <- !bar_at_iff. split; intros [I J]; split; auto; [rewrite <- bar_at_same|rewrite bar_at_same]; auto.
Qed.
Lemma bar_same w u pre d rest rest' b b' :
  all_dates y m w = pre ++ d :: rest -> all_dates y m' w = pre ++ d :: rest' -> (d <= T)%Z ->
  ends_ok (env_of y m w (fun _ => u)) pre b -> strip b = strip b' ->
  match mbar y m w (length pre) d (b, u), mbar y m' w (length pre) d (b', u) with
  | Some (x, u1), Some (x', u1') => strip x = strip x' /\ u1 = u1' /\ ends_ok (env_of y m w (fun _ => u)) (pre ++ [d]) x
  | None, None => True
  | _, _ => False
  end.
Proof.
  intros D D' L EN S. unfold mbar. set (v := env_of y m w (fun _ => u)). set (v' := env_of y m' w (fun _ => u)).
  assert (OK : env_ok v) by (now apply env_of_ok). assert (OK' : env_ok v') by (now apply env_of_ok).
  assert (N : nth_error (all_dates y m w) (length pre) = Some d) by (rewrite D, nth_error_app2 by lia; now rewrite Nat.sub_diag).
  assert (N' : nth_error (all_dates y m' w) (length pre) = Some d) by (rewrite D', nth_error_app2 by lia; now rewrite Nat.sub_diag).
  pose proof (view_same w (length pre) d N N' L) as VW.
  assert (LE : forall x, In x (pre ++ [d]) -> (x <= T)%Z).
  { intros x I. destruct (dates_facts v OK pre d rest D) as (_ & P & _). apply in_app_iff in I. destruct I as [I|[<-|[]]]; [specialize (P x I); lia|auto]. }
  assert (EN' : ends_ok v' pre b').
  { intro s. unfold v'. rewrite seen_same by (intros x I; apply LE, in_app_iff; now left). unfold end_of. destruct (strip_fields _ _ S) as (_ & _ & E & _). rewrite E. apply EN. }
  pose proof (activate_spec v OK pre d rest D b EN) as A1. pose proof (activate_spec v' OK' pre d rest' D' b' EN') as A2.
  assert (AC : activate v' d b' = activate v d b).
  { apply activate_same; try reflexivity; auto.
    - intros s I. pose proof (bar_at_same w (fun _ => u) d s L) as X. fold v v' in X. unfold bar_at in X. cbn [v_syms v' v env_of] in X. rewrite (proj2 (nmem_syms v s) I : nmem s (y_syms y) = true) in X. exact X.
    - intro s. apply exit_same; auto. assert (IN : In d (all_dates y m w)) by (rewrite D; apply in_app_iff; right; now left). apply all_dates_in in IN. tauto. }
  rewrite AC in *. destruct (activate v d b) as [[e act] exits]. destruct A1 as [A1 ACT], A2 as [A2 _].
  assert (HE : forall c s, b_ends c = e -> end_of c s = length (seen v (pre ++ [d]) s)) by (intros c s X; specialize (A1 s); unfold end_of in *; cbn in A1; now rewrite X).
  assert (HE' : forall c s, b_ends c = e -> end_of c s = length (seen v' (pre ++ [d]) s)) by (intros c s X; specialize (A2 s); unfold end_of in *; cbn in A2; now rewrite X).
  assert (HAS : forall c c' s, b_ends c = e -> b_ends c' = e -> has_bar_on v' c' s d = has_bar_on v c s d).
  { intros c c' s X X'. rewrite (has_bar_iff v OK pre d rest D) by (intro s0; now apply HE). rewrite (has_bar_iff v' OK' pre d rest' D') by (intro s0; now apply HE').
    now apply bar_at_same. }
  assert (EX : forall c c' s, b_ends c = e -> b_ends c' = e -> In s act -> forall k, (k <= longest_delay y)%nat ->
    exec_date v' s (end_of c' s) k = exec_date v s (end_of c s) k).
  { intros c c' s X X' I k K. pose proof (ACT s I) as BA.
    destruct (cur_bar v OK pre d rest D c s) as [_ C1]; [intro s0; now apply HE|auto|].
    destruct (cur_bar v' OK' pre d rest' D' c' s) as [_ C2]; [intro s0; now apply HE'|unfold v'; rewrite bar_at_same; auto|].
    cbn [v_sdates v v' env_of] in C1, C2.
    assert (IN : In d (cal m s)) by (apply nth_error_In in C1; unfold window_dates in C1; now apply filter_In in C1).
    destruct (In_nth_error _ _ IN) as [j J]. destruct (later_same s j d k J L K) as [J' F].
    unfold v, v'. rewrite (exec_date_of y m WF w _ s _ k d j C1 J), (exec_date_of y m' WF' w _ s _ k d j C2 J'). now rewrite F. }
  match goal with |- context [settle v _ d ?x] => set (b1 := x) end. match goal with |- context [settle v' _ d ?x] => set (b1' := x) end.
  assert (S1 : strip b1 = strip b1') by (unfold b1, b1'; clear - S; revert S; same b b'; reflexivity).
  assert (SLIP : forall n sh pr, apply_slip v' (length pre) n sh pr = apply_slip v (length pre) n sh pr).
  { intros n sh pr. unfold apply_slip, get_shares. cbn [v v' v_slip v_cfg env_of]. destruct (y_slip y); auto. now rewrite VW. }
  assert (RS : rel e (settle v (length pre) d b1) (settle v' (length pre) d b1')).
  { apply settle_same; try reflexivity; auto; cbn [v v' v_scope v_bar v_fetch v_sm env_of]; now rewrite VW. }
  destruct (settle v (length pre) d b1) as [c|], (settle v' (length pre) d b1') as [c'|]; cbn in RS; try tauto. destruct RS as [SC EC].
  destruct (strip_fields _ _ SC) as (P1 & P2 & _ & P4 & _). rewrite P1, P2, P4.
  assert (RD : rel e (decide v (length pre) d act exits c) (decide v' (length pre) d act exits c')).
  { apply decide_same; try reflexivity; auto; cbn [v v' v_close v_exit_fill v_sm v_user v_sizer env_of]; try (now rewrite VW).
    - destruct (y_sizer y); cbn; auto. now rewrite VW.
    - intros g g' s X X' I. split; apply EX; auto; unfold longest_delay; cbn; lia. }
  destruct (decide v (length pre) d act exits c) as [x|], (decide v' (length pre) d act exits c') as [x'|]; cbn in RD; try tauto.
  destruct RD as [R1 R2]. split; auto. split; [now rewrite VW|]. intro s. now apply HE.
Qed.
(** Memory does not change where a symbol stands. *)
Lemma ends_ok_any w f g l b : ends_ok (env_of y m w f) l b -> ends_ok (env_of y m w g) l b.
Proof. intros H s. exact (H s). Qed.
Definition strip2 (st : bstate * U) : bstate * U := (strip (fst st), snd st).
Lemma bars_same w l : forall pre rest rest' b b' u,
  all_dates y m w = pre ++ l ++ rest -> all_dates y m' w = pre ++ l ++ rest' -> (forall d, In d l -> (d <= T)%Z) ->
  ends_ok (env_of y m w (fun _ => u)) pre b -> strip b = strip b' ->
  option_map strip2 (mbars y m w (length pre) l (b, u)) = option_map strip2 (mbars y m' w (length pre) l (b', u)).
Proof.
  induction l as [|d l IH]; intros pre rest rest' b b' u D D' L EN S; cbn [mbars].
  - cbn. unfold strip2. cbn. now rewrite S.
  - pose proof (bar_same w u pre d (l ++ rest) (l ++ rest') b b' D D' (L d (or_introl eq_refl)) EN S) as B.
    destruct (mbar y m w (length pre) d (b, u)) as [[x u1]|], (mbar y m' w (length pre) d (b', u)) as [[x' u1']|]; try tauto; auto. destruct B as [B1 [<- B2]].
    assert (LN : Datatypes.S (length pre) = length (pre ++ [d])) by (rewrite app_length; cbn; lia). rewrite LN.
    apply (IH (pre ++ [d]) rest rest').
    + rewrite D, <- app_assoc. reflexivity.
    + rewrite D', <- app_assoc. reflexivity.
    + intros x0 I. apply L. now right.
    + eapply ends_ok_any. exact B2.
    + exact B1.
Qed.
Lemma window_same w b b' u : strip b = strip b' ->
  option_map strip2 (mbars y m w 0 (filter (fun d => Z.leb d T) (all_dates y m w)) (mstart y m w (b, u))) =
  option_map strip2 (mbars y m' w 0 (filter (fun d => Z.leb d T) (all_dates y m' w)) (mstart y m' w (b', u))).
Proof.
  intro S. rewrite <- (past_dates w). pose proof (cut T (all_dates y m w) (proj1 (unique_sorted_ok _))) as C.
  pose proof (cut T (all_dates y m' w) (proj1 (unique_sorted_ok _))) as C'. rewrite <- (past_dates w) in C'.
  apply (bars_same w _ [] _ _ _ _ u C C').
  - intros d I. apply filter_In in I. lia.
  - intro s. cbn. now rewrite seen_nil.
  - cbn [fst snd]. revert S. same b b'. reflexivity.
Qed.
Lemma strip2_inv (x x' : option (bstate * U)) : option_map strip2 x = option_map strip2 x' ->
  match x, x' with Some (b, u), Some (b', u') => strip b = strip b' /\ u = u' | None, None => True | _, _ => False end.
Proof.
  destruct x as [[b u]|], x' as [[b' u']|]; cbn; try discriminate; auto. unfold strip2. cbn [fst snd]. intro E.
  assert (G : forall (p q : bstate * U), Some p = Some q -> fst p = fst q /\ snd p = snd q) by (intros p q [= ->]; auto). exact (G _ _ E).
Qed.
Lemma until_same ws : forall b b' u, strip b = strip b' -> option_map strip2 (muntil y m T ws (b, u)) = option_map strip2 (muntil y m' T ws (b', u)).
Proof.
  induction ws as [|w ws IH]; intros b b' u S; cbn [muntil]; [unfold strip2; cbn; now rewrite S|].
  pose proof (strip2_inv _ _ (window_same w b b' u S)) as X.
  destruct (mbars y m w 0 _ _) as [[x u1]|], (mbars y m' w 0 _ _) as [[x' u1']|]; try tauto; auto. destruct X as [X <-]. now apply IH.
Qed.
End TwoMarkets.

(** ** Memory and the loop theorems *)
(** The bar loop of a run with memory is the bar loop of LoopModel.v for some
    functions of the bar number, so that what is proved there holds here. *)
Section Memory.
Context {U R : Type}.
Variable y : strategy U R.
Variable m : market R.
Lemma mbar_bar w i d b u st : mbar y m w i d (b, u) = Some st -> bar (env_of y m w (fun _ => u)) i d b = Some (fst st).
Proof.
  unfold mbar, bar. destruct (activate _ d b) as [[e act] exits]. destruct (settle _ i d _) as [c|]; [|discriminate]. cbn [bind].
  destruct (decide _ i d act exits c) as [x|]; [|discriminate]. intros [= <-]. reflexivity.
Qed.
Lemma bar_at_index w f i d b : bar (env_of y m w f) i d b = bar (env_of y m w (fun _ => f i)) i d b.
Proof. unfold env_of. destruct (y_sizer y); reflexivity. Qed.
Lemma bars_ext w f g l : forall i b, (forall j, (i <= j)%nat -> f j = g j) -> bars_from (env_of y m w f) i l b = bars_from (env_of y m w g) i l b.
Proof.
  induction l as [|d l IH]; intros i b H; cbn [bars_from]; auto. rewrite (bar_at_index w f), (bar_at_index w g), (H i (le_n i)).
  destruct (bar _ i d b); auto. apply IH. intros j J. apply H. lia.
Qed.
Lemma mbars_bars w l : forall i b u st, mbars y m w i l (b, u) = Some st -> exists f, bars_from (env_of y m w f) i l b = Some (fst st).
Proof.
  induction l as [|d l IH]; intros i b u st E; cbn [mbars] in E; [injection E as <-; exists (fun _ => u); reflexivity|].
  destruct (mbar y m w i d (b, u)) as [[b1 u1]|] eqn:B; [|discriminate]. destruct (IH _ _ _ _ E) as [f F].
  exists (fun j => if Nat.eqb j i then u else f j). cbn [bars_from]. rewrite (bar_at_index w (fun j => if Nat.eqb j i then u else f j)). rewrite Nat.eqb_refl, (mbar_bar _ _ _ _ _ _ B). cbn [fst].
  rewrite <- F. apply bars_ext. intros j J. destruct (Nat.eqb_spec j i); [lia|reflexivity].
Qed.
Lemma mwindows_backtests ws : forall b u st, mwindows y m ws (b, u) = Some st ->
  exists l, map fst l = ws /\ backtests (map (fun x => env_of y m (fst x) (snd x)) l) b = Some (fst st).
Proof.
  induction ws as [|w ws IH]; intros b u st E; cbn [mwindows] in E; [exists []; injection E as <-; auto|].
  destruct (mbars y m w 0 (all_dates y m w) (mstart y m w (b, u))) as [[b1 u1]|] eqn:B; [|discriminate]. destruct (IH _ _ _ E) as [l [L1 L2]].
  destruct (mbars_bars w _ _ _ _ _ B) as [f F]. exists ((w, f) :: l). cbn [map fst snd backtests]. split; [congruence|]. unfold backtest.
  unfold mstart in F. cbn [fst snd] in F. change (start (env_of y m w (fun _ => u)) b) with (start (env_of y m w f) b) in F. cbn [v_dates env_of]. unfold env_of at 1 in F. unfold env_of at 1. rewrite F. exact L2.
Qed.
(** What is remembered is handed from bar to bar. *)
Variable g : U -> view R -> U.
Hypothesis NX : forall u w p k x, y_next y u w p k x = g u w.
Lemma mbar_memory w i d b u st : mbar y m w i d (b, u) = Some st -> snd st = g u (view_of y m w i).
Proof.
  unfold mbar. destruct (activate _ d b) as [[e act] exits]. destruct (settle _ i d _) as [c|]; [|discriminate].
  destruct (decide _ i d act exits c) as [x|]; [|discriminate]. intros [= <-]. apply NX.
Qed.
Lemma mbars_memory w l : forall pre st st', all_dates y m w = pre ++ l -> mbars y m w (length pre) l st = Some st' ->
  snd st' = fold_left g (map (fun d => mkView R w d (rows_until (y_all y) d m)) l) (snd st).
Proof.
  induction l as [|d l IH]; intros pre st st' D E; cbn [mbars] in E; [now injection E as <-|].
  destruct st as [b u]. destruct (mbar y m w (length pre) d (b, u)) as [c|] eqn:B; [|discriminate].
  replace (S (length pre)) with (length (pre ++ [d])) in E by (rewrite app_length; cbn; lia).
  rewrite (IH (pre ++ [d]) c st'); auto; [|now rewrite D, <- app_assoc]. cbn [map fold_left]. rewrite (mbar_memory _ _ _ _ _ _ B). cbn [snd].
  replace (view_of y m w (length pre)) with (mkView R w d (rows_until (y_all y) d m)); auto.
  unfold view_of. rewrite D, app_nth2 by lia. now rewrite Nat.sub_diag.
Qed.
Lemma mwindows_memory ws : forall st st', mwindows y m ws st = Some st' -> snd st' = fold_left g (bars_in_order y m ws) (snd st).
Proof.
  induction ws as [|w ws IH]; intros st st' E; cbn [mwindows] in E; [now injection E as <-|].
  destruct (mbars y m w 0 (all_dates y m w) (mstart y m w st)) as [c|] eqn:B; [|discriminate]. rewrite (IH c st' E).
  rewrite (mbars_memory w _ [] _ c eq_refl B). cbn [mstart snd]. unfold bars_in_order. cbn [flat_map]. rewrite fold_left_app. reflexivity.
Qed.
End Memory.
