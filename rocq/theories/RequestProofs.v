(** Proofs about the bars a run is given. *)
From Verif Require Export RequestSpec.
Import ListNotations.
Open Scope list_scope.
Open Scope Z_scope.

Lemma weekday_iff : forall t k, 0 <= k < 7 -> (weekday t = k <-> on_weekday k t).
Proof.
  intros t k K. unfold weekday, on_weekday, day_ns, one_day, a_monday. split.
  - intros E. exists ((t / (86400 * 1000000000) - k - 19723) / 7).
    pose proof (Z.div_mod (t / (86400 * 1000000000) + 3) 7). pose proof (Z.div_mod t (86400 * 1000000000)).
    pose proof (Z.mod_pos_bound t (86400 * 1000000000)).
    set (D := t / (86400 * 1000000000)) in *.
    assert (M : (D - k - 19723) mod 7 = 0).
    { replace (D - k - 19723) with (((D + 3) - k) + (-2818) * 7) by lia. rewrite Z.mod_add by lia.
      rewrite Zminus_mod, E, (Z.mod_small k) by lia. now rewrite Z.sub_diag. }
    apply Z.div_exact in M; [|lia]. lia.
  - intros [w [A B]].
    assert (E : t / (86400 * 1000000000) = 19723 + 7 * w + k).
    { symmetry. apply Z.div_unique with (t - (86400 * 1000000000) * (19723 + 7 * w + k)); lia. }
    rewrite E. replace (19723 + 7 * w + k + 3) with (k + (2818 + w) * 7) by lia. rewrite Z.mod_add by lia. apply Z.mod_small; lia.
Qed.

Lemma micros_iff : forall t m, time_micros t = m <-> clock_shows t m.
Proof.
  intros t m. unfold time_micros, clock_shows, day_ns, one_day, a_monday. split.
  - intros <-. exists (t / (86400 * 1000000000) - 19723), ((t mod (86400 * 1000000000)) mod 1000).
    pose proof (Z.div_mod t (86400 * 1000000000)). pose proof (Z.mod_pos_bound t (86400 * 1000000000)).
    set (x := t mod (86400 * 1000000000)) in *. pose proof (Z.div_mod x 1000). pose proof (Z.mod_pos_bound x 1000).
    split; [lia|]. split; [lia|]. change (24 * 60 * 60 * 1000000000 / 1000) with 86400000000. split.
    + apply Z.div_pos; lia.
    + apply Z.div_lt_upper_bound; lia.
  - intros [d [ns [E [N M]]]]. change (24 * 60 * 60 * 1000000000 / 1000) with 86400000000 in M.
    assert (X : t mod (86400 * 1000000000) = m * 1000 + ns).
    { symmetry. apply Z.mod_unique with (19723 + d); lia. }
    rewrite X. symmetry. apply Z.div_unique with ns; lia.
Qed.

Lemma hours_iff : forall lo hi t, time_between lo hi t = true <-> in_hours lo hi t.
Proof.
  intros lo hi t. unfold in_hours.
  assert (C : clock_shows t (time_micros t)) by now apply micros_iff.
  unfold time_between. destruct (Z.leb_spec lo hi) as [L|L].
  - rewrite andb_true_iff, !Z.leb_le. split.
    + intros B. exists (time_micros t). split; [exact C|]. left. lia.
    + intros [m [M [B|B]]]; apply micros_iff in M; lia.
  - rewrite orb_true_iff, !Z.leb_le. split.
    + intros B. exists (time_micros t). split; [exact C|]. right. lia.
    + intros [m [M [B|B]]]; apply micros_iff in M; lia.
Qed.

(** *** Days *)
Lemma upper_lower : forall c, lower_char (upper_char c) = lower_char c.
Proof. intros [[] [] [] [] [] [] [] []]; reflexivity. Qed.
Lemma lower_upper : forall c, upper_char (lower_char c) = upper_char c.
Proof. intros [[] [] [] [] [] [] [] []]; reflexivity. Qed.
Lemma upper_eq : forall a b, upper a = upper b <-> lower a = lower b.
Proof.
  assert (U : forall a, lower (upper a) = lower a).
  { intros a. unfold lower, upper. rewrite map_map. apply map_ext. exact upper_lower. }
  assert (L : forall a, upper (lower a) = upper a).
  { intros a. unfold lower, upper. rewrite map_map. apply map_ext. exact lower_upper. }
  intros a b. split; intros E.
  - now rewrite <- (U a), <- (U b), E.
  - now rewrite <- (L a), <- (L b), E.
Qed.
Lemma str_eqb_iff : forall a b, str_eqb a b = true <-> a = b.
Proof. intros a b. unfold str_eqb. destruct (list_eq_dec ascii_dec a b); split; congruence. Qed.

Definition upper_name (d : day) : str :=
  lit match d with Mon => "MON" | Tues => "TUES" | Weds => "WEDS" | Thurs => "THURS" | Fri => "FRI" | Sat => "SAT" | Sun => "SUN" end.
Lemma find_day_iff : forall s d, find_day s day_names = Some d <-> s = upper_name d.
Proof.
  intros s d. split.
  - unfold day_names. cbn [find_day].
    repeat match goal with |- context [str_eqb s ?n] => let E := fresh in destruct (str_eqb s n) eqn:E;
      [apply str_eqb_iff in E; let X := fresh in intros X; injection X as <-; exact E|clear E] end. discriminate.
  - intros ->. now destruct d.
Qed.
Lemma spelled_iff : forall s d, upper s = upper_name d <-> spelled s d.
Proof.
  intros s d. unfold spelled.
  assert (E : upper_name d = upper (upper_name d)) by now destruct d.
  rewrite E, upper_eq. now destruct d.
Qed.
Lemma day_id_iff : forall a k, day_id a = Some k <-> exists d, means_day a d /\ k = day_value d.
Proof.
  intros [s|d0] k; cbn [day_id means_day].
  - destruct (find_day (upper s) day_names) as [d|] eqn:E.
    + apply find_day_iff in E. split.
      * intros X. injection X as <-. exists d. split; [|reflexivity]. now apply spelled_iff.
      * intros [d' [S ->]]. apply spelled_iff in S. rewrite E in S. destruct d, d'; now try reflexivity.
    + split; [discriminate|]. intros [d [S _]]. apply spelled_iff, find_day_iff in S. congruence.
  - split; [intros X; injection X as <-; now exists d0|]. now intros [d [-> ->]].
Qed.
Lemma zput_in : forall x y l, In y (zput x l) <-> y = x \/ In y l.
Proof.
  induction l as [|z r IH]; cbn [zput In]; [intuition|]. destruct (x <=? z); cbn [In]; intuition.
Qed.
Lemma sorted_in : forall l y, In y (fold_right zput [] l) <-> In y l.
Proof. induction l as [|x r IH]; intros y; cbn [fold_right In]; [tauto|]. rewrite zput_in, IH. intuition. Qed.
Lemma ids_of_in : forall l ids, day_ids_of l = Some ids -> forall k, In k ids <-> exists a d, In a l /\ means_day a d /\ k = day_value d.
Proof.
  induction l as [|a r IH]; cbn [day_ids_of]; intros ids E k.
  - injection E as <-. split; [intros []|]. now intros [? [? [[] _]]].
  - destruct (day_id a) as [x|] eqn:X; [|discriminate E]. destruct (day_ids_of r) as [xs|] eqn:Y; [|discriminate E].
    injection E as <-. cbn [In]. specialize (IH xs eq_refl k). rewrite IH. split.
    + intros [<-|[a' [d [A B]]]].
      * apply day_id_iff in X. destruct X as [d [M V]]. exists a, d. auto.
      * exists a', d. auto.
    + intros [a' [d [[<-|A] [M V]]]].
      * left. assert (Z : day_id a = Some k) by (apply day_id_iff; now exists d). congruence.
      * right. now exists a', d.
Qed.
Lemma ids_of_some : forall l, (exists ids, day_ids_of l = Some ids) <-> forall a, In a l -> exists d, means_day a d.
Proof.
  induction l as [|a r IH]; cbn [day_ids_of].
  - split; [intros _ a []|]. now exists [].
  - split.
    + intros [ids E] b [<-|B].
      * destruct (day_id a) as [x|] eqn:X; [|discriminate E]. apply day_id_iff in X. destruct X as [d [M _]]. now exists d.
      * destruct (day_id a); [|discriminate E]. destruct (day_ids_of r) as [xs|]; [|discriminate E].
        apply (proj1 IH (ex_intro _ xs eq_refl)). exact B.
    + intros H. destruct (H a (or_introl eq_refl)) as [d M].
      assert (X : day_id a = Some (day_value d)) by (apply day_id_iff; now exists d).
      rewrite X. destruct (proj2 IH) as [xs ->]; [|now eexists]. intros b B. apply H. now right.
Qed.

(** *** Rows *)
Lemma filter_twice {A} : forall (p r : A -> bool) l, filter p (filter r l) = filter (fun x => r x && p x) l.
Proof.
  intros p r l. induction l as [|x t IH]; cbn [filter]; [reflexivity|].
  destruct (r x); cbn [filter andb]; [destruct (p x); now rewrite IH|exact IH].
Qed.
Lemma filter_all {A} : forall (p : A -> bool) l, length (filter p l) = length l -> filter p l = l.
Proof.
  intros p l. induction l as [|x t IH]; cbn [filter]; [reflexivity|]. destruct (p x); cbn [length]; intros E.
  - f_equal. apply IH. lia.
  - exfalso. assert (L : forall t', (length (filter p t') <= length t')%nat).
    { intros t'. induction t' as [|y t' IH']; cbn [filter length]; [lia|]. destruct (p y); cbn [length]; lia. }
    specialize (L t). lia.
Qed.
Lemma filter_same {A} : forall (p r : A -> bool) l, (forall x, In x l -> (p x = true <-> r x = true)) -> filter p l = filter r l.
Proof.
  intros p r l H. apply filter_ext_in. intros x I. specialize (H x I). destruct (p x), (r x); intuition congruence.
Qed.

Section Rows.
Context {R : Type}.
Implicit Types (f : bframe R) (q : request R) (l : list (brow R)).

Definition in_range (lo hi : Z) (r : brow R) : bool := (lo <=? b_date r) && (b_date r <=? hi).
Lemma between_rows : forall lo hi x, bf_rows (fst (between_dates R lo hi x)) = filter (in_range lo hi) (bf_rows (fst x)).
Proof.
  intros lo hi [f own]. unfold between_dates. cbn [fst]. fold (in_range lo hi).
  destruct (Nat.eqb_spec (length (filter (in_range lo hi) (bf_rows f))) (length (bf_rows f))) as [E|E]; cbn [fst bf_rows]; [|reflexivity].
  symmetry. now apply filter_all.
Qed.
Lemma range_rows : forall x, bf_rows (fst (range_index R x)) = bf_rows (fst x).
Proof. intros [f own]. unfold range_index. now destruct (bf_range f). Qed.

Lemma selector_iff : forall q, has_selector (q_execs q) = true <-> dynamic q.
Proof.
  intros q. unfold has_selector, dynamic. rewrite existsb_exists. split.
  - intros [[e|] [I E]]; [discriminate E|exact I].
  - intros I. now exists None.
Qed.
Lemma static_iff : forall q s, In s (static_symbols (q_execs q)) <-> executed q s.
Proof.
  intros q s. unfold static_symbols, executed. rewrite in_flat_map. split.
  - intros [[e|] [I J]]; [now exists e|destruct J].
  - intros [e [I J]]. now exists (Some e).
Qed.
Lemma nmem_in : forall k (l : list nat), nmem k l = true <-> In k l.
Proof.
  intros k l. unfold nmem. rewrite existsb_exists. split; [intros [y [I E]]; apply Nat.eqb_eq in E; now subst|].
  intros I. exists k. now rewrite Nat.eqb_refl.
Qed.

Lemma duplicates_iff : forall l, has_duplicates R l = true <->
  exists i j a b, i <> j /\ nth_error l i = Some a /\ nth_error l j = Some b /\ b_sym a = b_sym b /\ b_date a = b_date b.
Proof.
  induction l as [|r t IH]; cbn [has_duplicates].
  - split; [discriminate|]. intros [[|i] [j [a [b [_ [E _]]]]]]; discriminate E.
  - rewrite orb_true_iff, IH, existsb_exists. split.
    + intros [[y [I E]]|[i [j [a [b [N [A [B C]]]]]]]].
      * unfold same_bar in E. apply andb_true_iff in E. destruct E as [E1 E2]. apply Nat.eqb_eq in E1. apply Z.eqb_eq in E2.
        apply In_nth_error in I. destruct I as [j J]. exists 0%nat, (S j), r, y. cbn [nth_error]. repeat split; auto.
      * exists (S i), (S j), a, b. cbn [nth_error]. repeat split; try tauto. congruence.
    + intros [i [j [a [b [N [A [B [C D]]]]]]]].
      assert (X : forall a b, b_sym a = b_sym b -> b_date a = b_date b -> same_bar R a b = true).
      { intros a' b' C' D'. unfold same_bar. now rewrite C', D', Nat.eqb_refl, Z.eqb_refl. }
      destruct i as [|i], j as [|j]; cbn [nth_error] in A, B.
      * congruence.
      * injection A as ->. left. exists b. split; [eapply nth_error_In; exact B|]. now apply X.
      * injection B as ->. left. exists a. split; [eapply nth_error_In; exact A|]. now apply X.
      * right. exists i, j, a, b. repeat split; auto; congruence.
Qed.
(** Positions of a filtered list and of the list. *)
Lemma nth_filter : forall (p : brow R -> bool) l i a, nth_error (filter p l) i = Some a ->
  exists i', nth_error l i' = Some a /\ p a = true /\ length (filter p (firstn i' l)) = i.
Proof.
  intros p. induction l as [|x t IH]; intros i a E; cbn [filter] in E; [destruct i; discriminate E|].
  destruct (p x) eqn:P.
  - destruct i as [|i]; cbn [nth_error] in E.
    + injection E as ->. exists 0%nat. cbn. auto.
    + destruct (IH _ _ E) as [i' [A [B C]]]. exists (S i'). cbn [nth_error firstn filter]. rewrite P. cbn [length]. auto.
  - destruct (IH _ _ E) as [i' [A [B C]]]. exists (S i'). cbn [nth_error firstn filter]. rewrite P. auto.
Qed.
Lemma filter_nth : forall (p : brow R -> bool) l i a, nth_error l i = Some a -> p a = true ->
  nth_error (filter p l) (length (filter p (firstn i l))) = Some a.
Proof.
  intros p. induction l as [|x t IH]; intros [|i] a E P; cbn [nth_error] in E; try discriminate E.
  - injection E as ->. cbn [firstn filter length]. rewrite P. reflexivity.
  - cbn [firstn filter]. destruct (p x); cbn [length nth_error]; now apply IH.
Qed.
Lemma filter_before : forall (p : brow R -> bool) l i j a, (i < j)%nat -> nth_error l i = Some a -> p a = true ->
  (length (filter p (firstn i l)) < length (filter p (firstn j l)))%nat.
Proof.
  intros p. induction l as [|x t IH]; intros [|i] [|j] a L E P; cbn [nth_error] in E; try discriminate E; try lia.
  - injection E as ->. cbn [firstn filter length]. rewrite P. cbn [length]. lia.
  - cbn [firstn filter]. destruct (p x); cbn [length]; assert (X := IH i j a); specialize (X ltac:(lia) E P); lia.
Qed.
Lemma covered_dup : forall q rows (c : brow R -> bool), (forall r, In r rows -> (c r = true <-> covered q r)) ->
  (has_duplicates R (filter c rows) = true <-> covered_twice q rows).
Proof.
  intros q rows c H. rewrite duplicates_iff. split.
  - intros [i [j [a [b [N [A [B [C D]]]]]]]].
    destruct (nth_filter _ _ _ _ A) as [i' [A1 [A2 A3]]]. destruct (nth_filter _ _ _ _ B) as [j' [B1 [B2 B3]]].
    exists i', j', a, b. split; [intros ->; congruence|]. split; [exact A1|]. split; [exact B1|].
    split; [apply H; [eapply nth_error_In; exact A1|exact A2]|]. split; [apply H; [eapply nth_error_In; exact B1|exact B2]|auto].
  - intros [i [j [a [b [N [A [B [C [D E]]]]]]]]].
    assert (Ca : c a = true) by (apply H; [eapply nth_error_In; exact A|exact C]).
    assert (Cb : c b = true) by (apply H; [eapply nth_error_In; exact B|exact D]).
    exists (length (filter c (firstn i rows))), (length (filter c (firstn j rows))), a, b.
    split; [|split; [now apply filter_nth|split; [now apply filter_nth|exact E]]].
    destruct (Nat.lt_gt_cases i j) as [T _]. destruct (T N) as [L|L].
    + pose proof (filter_before c rows i j a L A Ca). lia.
    + pose proof (filter_before c rows j i b L B Cb). lia.
Qed.

(** What [_fetch_data] leaves, when the rows of the source that are covered are
    those that pass [c]. *)
Definition fetched q (rows : list (brow R)) (out : outcome (bframe R * bool)) : Prop :=
  forall c, (forall r, In r rows -> (c r = true <-> covered q r)) ->
    match out with
    | Done x => bf_rows (fst x) = filter c rows
    | Refused _ => True
    end /\
    ((exists x, out = Done x) <-> (exists r, In r rows /\ covered q r) /\ ~ covered_twice q rows).
Lemma checked_ok : forall q rows c (x : bframe R * bool), (forall r, In r rows -> (c r = true <-> covered q r)) ->
  bf_rows (fst x) = filter c rows ->
  fetched q rows (match bf_rows (fst x) with
                  | [] => Refused SourceEmpty
                  | _ => if has_duplicates R (bf_rows (fst x)) then Refused DuplicateBars else Done (range_index R x)
                  end).
Proof.
  intros q rows c x H E c' H'.
  assert (Q : filter c' rows = filter c rows).
  { apply filter_same. intros r I. now rewrite H, H'. }
  assert (NE : filter c rows <> [] <-> exists r, In r rows /\ covered q r).
  { split.
    - intros N. destruct (filter c rows) as [|r l] eqn:F; [congruence|].
      assert (I : In r (filter c rows)) by (rewrite F; now left). apply filter_In in I. exists r. split; [tauto|]. now apply H.
    - intros [r [I C]] N. assert (J : In r (filter c rows)) by (apply filter_In; split; [exact I|now apply H]). rewrite N in J. exact J. }
  rewrite Q. pose proof (covered_dup q rows c H) as D. rewrite E.
  destruct (filter c rows) as [|r0 l] eqn:F.
  - split; [exact I|]. split; [now intros [? ?]|]. intros [N _]. apply NE in N. now elim N.
  - destruct (has_duplicates R (r0 :: l)).
    + split; [exact I|]. split; [now intros [? ?]|]. intros [_ N]. elim N. now apply D.
    + split; [rewrite range_rows; exact E|]. split; [|intros _; now eexists]. intros _. split.
      * apply NE. discriminate.
      * intros T. apply D in T. discriminate T.
Qed.
Lemma given_fetched : forall q f, q_source q = Given f -> fetched q (bf_rows f) (fetch_bars R q).
Proof.
  intros q f E. unfold fetch_bars. rewrite E.
  set (cov := fun r : brow R => in_range (q_start q) (q_end q) r && (has_selector (q_execs q) || nmem (b_sym r) (static_symbols (q_execs q)))).
  apply checked_ok with cov.
  - intros r _. unfold cov, covered, in_range. rewrite !andb_true_iff, orb_true_iff, !Z.leb_le, selector_iff, nmem_in, static_iff. tauto.
  - destruct (has_selector (q_execs q)) eqn:S; cbn [fst bf_rows]; rewrite between_rows; cbn [fst].
    + apply filter_ext. intros r. unfold cov. now rewrite andb_true_r.
    + rewrite filter_twice. apply filter_ext. intros r. unfold cov. reflexivity.
Qed.
Lemma queried_fetched : forall q query, q_source q = Queried query -> answers query -> ~ dynamic q ->
  fetched q (bf_rows (query (static_symbols (q_execs q)) (q_start q) (q_end q))) (fetch_bars R q).
Proof.
  intros q query E A D. unfold fetch_bars. rewrite E.
  destruct (has_selector (q_execs q)) eqn:S; [elim D; now apply selector_iff|].
  apply checked_ok with (fun _ => true).
  - intros r I. destruct (A _ _ _ _ I) as [B C]. split; [|reflexivity]. intros _. split; [right; now apply static_iff|exact C].
  - cbn [fst]. induction (bf_rows (query (static_symbols (q_execs q)) (q_start q) (q_end q))) as [|r l IH]; cbn [filter]; [reflexivity|]. now rewrite <- IH.
Qed.

(** The whole request. *)
Lemma day_in : forall ids t, existsb (Z.eqb (weekday t)) ids = true <-> exists k, In k ids /\ weekday t = k.
Proof.
  intros ids t. rewrite existsb_exists. split; intros [k [I E]]; exists k; (split; [exact I|]).
  - now apply Z.eqb_eq.
  - now apply Z.eqb_eq.
Qed.
Lemma day_value_range : forall d, 0 <= day_value d < 7.
Proof. intros []; cbn; lia. Qed.
Lemma day_ids_ok : forall days, match days with Some l => forall a, In a (listed_days l) -> exists d, means_day a d | None => True end ->
  exists ids, to_day_ids days = Done ids /\ match ids, days with
    | None, None => True
    | Some k, Some l => forall t, existsb (Z.eqb (weekday t)) k = true <-> exists a d, In a (listed_days l) /\ means_day a d /\ on_weekday (day_value d) t
    | _, _ => False
    end.
Proof.
  intros [l|] H; cbn [to_day_ids].
  - unfold to_day_ids. change (match l with OneDay d => [d] | ManyDays l0 => l0 end) with (listed_days l).
    destruct (proj2 (ids_of_some (listed_days l)) H) as [ids E]. rewrite E. eexists. split; [reflexivity|]. cbn.
    intros t. rewrite day_in. split.
    + intros [k [I W]]. apply (proj1 (sorted_in ids k)) in I. apply (ids_of_in _ _ E) in I. destruct I as [a [d [A [M ->]]]].
      exists a, d. split; [exact A|]. split; [exact M|]. apply weekday_iff; [apply day_value_range|exact W].
    + intros [a [d [A [M W]]]]. exists (day_value d). split.
      * apply (proj2 (sorted_in ids _)). apply (ids_of_in _ _ E). now exists a, d.
      * apply weekday_iff in W; [exact W|apply day_value_range].
  - now exists None.
Qed.
Lemma day_ids_bad : forall days e, to_day_ids days = Refused e ->
  ~ match days with Some l => forall a, In a (listed_days l) -> exists d, means_day a d | None => True end.
Proof.
  intros days e E H. destruct (day_ids_ok days H) as [ids [X _]]. congruence.
Qed.

Definition good q (rows : list (brow R)) s e (times : option (list Z)) (days : option days_arg) : Prop :=
  q_execs q <> [] /\ dates_ok q s e /\ args_ok times days /\ (exists r, In r rows /\ covered q r) /\ ~ covered_twice q rows.
Definition cov_b q (r : brow R) : bool :=
  in_range (q_start q) (q_end q) r && (has_selector (q_execs q) || nmem (b_sym r) (static_symbols (q_execs q))).
Lemma cov_b_iff : forall q r, cov_b q r = true <-> covered q r.
Proof.
  intros q r. unfold cov_b, covered, in_range. rewrite !andb_true_iff, orb_true_iff, !Z.leb_le, selector_iff, nmem_in, static_iff. tauto.
Qed.
Lemma range_check : forall q s e, 
  (q_end q <? q_start q) = false -> ((asked_start q s <? q_start q) || (q_end q <? asked_start q s)) = false ->
  ((asked_end q e <? q_start q) || (q_end q <? asked_end q e)) = false -> (asked_end q e <? asked_start q s) = false -> dates_ok q s e.
Proof.
  intros q s e A B C D. apply orb_false_iff in B, C. rewrite !Z.ltb_ge in *. unfold dates_ok. lia.
Qed.
Lemma narrowed : forall q s e c rows lo hi (x : bframe R * bool), (forall r, In r rows -> (c r = true <-> covered q r)) ->
  lo = asked_start q s -> hi = asked_end q e -> dates_ok q s e ->
  bf_rows (fst x) = filter c rows ->
  bf_rows (fst (if negb (lo =? q_start q) || negb (hi =? q_end q) then range_index R (between_dates R lo hi x) else x)) =
    filter (fun r => c r && in_range lo hi r) rows.
Proof.
  intros q s e c rows lo hi x H -> -> K E. destruct (negb (asked_start q s =? q_start q) || negb (asked_end q e =? q_end q)) eqn:N.
  - rewrite range_rows, between_rows, E, filter_twice. reflexivity.
  - apply orb_false_iff in N. rewrite !negb_false_iff, !Z.eqb_eq in N. destruct N as [A B]. rewrite E, A, B.
    apply filter_ext_in. intros r I. destruct (c r) eqn:C; [|reflexivity]. apply H in C; [|exact I]. destruct C as [_ C].
    unfold in_range. symmetry. cbn [andb]. apply andb_true_iff. rewrite !Z.leb_le. lia.
Qed.
Lemma request_ok : forall q rows s e times days, fetched q rows (fetch_bars R q) ->
  (forall l p, fst (requested_bars q s e times days) = Done l -> (forall r, p r = true <-> wanted q s e times days r) -> l = filter p rows) /\
  ((exists l, fst (requested_bars q s e times days) = Done l) <-> good q rows s e times days).
Proof.
  intros q rows s e times days F.
  assert (G : good q rows s e times days -> exists l, fst (requested_bars q s e times days) = Done l).
  { intros [A [B [[C1 C2] D]]]. unfold requested_bars.
    fold (asked_start q s). fold (asked_end q e).
    destruct (F (cov_b q)) as [_ F2]; [intros r _; apply cov_b_iff|]. destruct (proj2 F2 D) as [x ->].
    unfold dates_ok in B.
    replace (q_end q <? q_start q) with false by (symmetry; apply Z.ltb_ge; lia).
    destruct (q_execs q) as [|e0 es] eqn:Q; [congruence|].
    replace ((asked_start q s <? q_start q) || (q_end q <? asked_start q s)) with false
      by (symmetry; apply orb_false_iff; rewrite !Z.ltb_ge; lia).
    replace ((asked_end q e <? q_start q) || (q_end q <? asked_end q e)) with false
      by (symmetry; apply orb_false_iff; rewrite !Z.ltb_ge; lia).
    replace (asked_end q e <? asked_start q s) with false by (symmetry; apply Z.ltb_ge; lia).
    destruct (day_ids_ok days C2) as [ids [-> _]].
    unfold filter_dates.
    destruct (if negb (asked_start q s =? q_start q) || negb (asked_end q e =? q_end q) then _ else _) as [f own]. cbn [fst].
    destruct times as [[|a [|b [|? ?]]]|]; try discriminate C1; eexists; reflexivity. }
  assert (K : forall l, fst (requested_bars q s e times days) = Done l -> good q rows s e times days /\
            forall p, (forall r, p r = true <-> wanted q s e times days r) -> l = filter p rows).
  { intros l. unfold requested_bars. fold (asked_start q s). fold (asked_end q e).
    destruct (q_end q <? q_start q) eqn:E1; [discriminate|].
    destruct (q_execs q) as [|e0 es] eqn:Q; [discriminate|].
    destruct ((asked_start q s <? q_start q) || (q_end q <? asked_start q s)) eqn:E2; [discriminate|].
    destruct ((asked_end q e <? q_start q) || (q_end q <? asked_end q e)) eqn:E3; [discriminate|].
    destruct (asked_end q e <? asked_start q s) eqn:E4; [discriminate|].
    pose proof (range_check q s e E1 E2 E3 E4) as DO.
    destruct (F (cov_b q)) as [F1 F2]; [intros r _; apply cov_b_iff|].
    destruct (fetch_bars R q) as [x|er]; [|discriminate].
    destruct (to_day_ids days) as [ids|er] eqn:T; [|discriminate].
    assert (DD : match days with Some l => forall a, In a (listed_days l) -> exists d, means_day a d | None => True end).
    { destruct days as [dl|]; [|exact I]. cbn [to_day_ids] in T. unfold to_day_ids in T.
      change (match dl with OneDay d => [d] | ManyDays l0 => l0 end) with (listed_days dl) in T.
      destruct (day_ids_of (listed_days dl)) as [l0|] eqn:O; [|discriminate T]. apply ids_of_some. exists l0. exact O. }
    destruct (day_ids_ok days DD) as [ids' [T' IDS]]. assert (ids' = ids) by congruence. subst ids'. clear T'.
    unfold filter_dates.
    pose proof (narrowed q s e (cov_b q) rows _ _ x (fun r _ => cov_b_iff q r) eq_refl eq_refl DO F1) as N.
    destruct (if negb (asked_start q s =? q_start q) || negb (asked_end q e =? q_end q) then _ else _) as [f own].
    cbn [fst] in N |- *. rewrite N. clear N.
    assert (GG : (match times with Some l0 => length l0 = 2%nat | None => True end) -> good q rows s e times days).
    { intros X. split; [congruence|]. split; [exact DO|]. split; [split; [exact X|exact DD]|]. apply F2. now exists x. }
    assert (PP : forall p, (forall r, p r = true <-> wanted q s e times days r) ->
       forall g, (forall r, g r = true <-> match times with Some [lo; hi] => in_hours lo hi (b_date r) | _ => True end) ->
       filter g (match ids with None => filter (fun r => cov_b q r && in_range (asked_start q s) (asked_end q e) r) rows
                 | Some k => filter (fun r => existsb (Z.eqb (weekday (b_date r))) k) (filter (fun r => cov_b q r && in_range (asked_start q s) (asked_end q e) r) rows) end)
       = filter p rows).
    { intros p Hp g Hg. destruct ids as [k|], days as [dl|]; try destruct IDS; rewrite ?filter_twice; apply filter_same; intros r _;
      rewrite Hp, ?andb_true_iff, ?Hg, ?IDS, cov_b_iff; unfold in_range; rewrite andb_true_iff, !Z.leb_le;
      unfold wanted, covered; unfold dates_ok in DO; intuition lia. }
    destruct times as [[|a [|b [|? ?]]]|]; try discriminate; intros X; injection X as <-.
    - split; [now apply GG|]. intros p Hp. apply PP; [exact Hp|]. intros r. apply hours_iff.
    - split; [now apply GG|]. intros p Hp. rewrite <- (PP p Hp (fun _ => true)); [|tauto].
      symmetry. apply filter_all. f_equal. generalize (match ids with None => filter (fun r => cov_b q r && in_range (asked_start q s) (asked_end q e) r) rows
                 | Some k => filter (fun r => existsb (Z.eqb (weekday (b_date r))) k) (filter (fun r => cov_b q r && in_range (asked_start q s) (asked_end q e) r) rows) end).
      clear. intros l. induction l as [|r l IH]; cbn [filter]; [reflexivity|]. now rewrite IH. }
  split; [intros l p E; now apply K|]. split; [intros [l E]; now apply (K l)|exact G].
Qed.
End Rows.

(** *** The user's frame *)
Lemma between_own : forall R lo hi f own, snd (between_dates R lo hi (f, own)) = true -> own = true /\ between_dates R lo hi (f, own) = (f, own).
Proof. intros R lo hi f own. unfold between_dates. destruct (Nat.eqb _ _); cbn [snd]; [auto|discriminate]. Qed.
Lemma range_own : forall R f own, snd (range_index R (f, own)) = true -> own = true /\ range_index R (f, own) = (f, own).
Proof. intros R f own. unfold range_index. destruct (bf_range f); cbn [snd]; [auto|discriminate]. Qed.
Lemma fetch_own : forall R (q : request R) f, fetch_bars R q = Done (f, true) -> has_selector (q_execs q) = true /\ q_source q = Given f.
Proof.
  intros R q f. unfold fetch_bars.
  assert (C : forall x : bframe R * bool,
    match bf_rows (fst x) with [] => Refused SourceEmpty | _ => if has_duplicates R (bf_rows (fst x)) then Refused DuplicateBars else Done (range_index R x) end = Done (f, true) ->
    x = (f, true)).
  { intros [g own]. cbn [fst]. destruct (bf_rows g) as [|r0 l0]; [discriminate|].
    destruct (has_duplicates R (r0 :: l0)); [discriminate|]. intros X.
    assert (J : forall (A : Type) (a b : A), Done a = Done b -> a = b) by congruence. apply J in X. clear J.
    destruct (range_own R g own) as [A B]; [now rewrite X|]. congruence. }
  destruct (q_source q) as [query|g].
  - destruct (has_selector (q_execs q)); [discriminate|]. intros X. apply C in X. discriminate X.
  - destruct (has_selector (q_execs q)).
    + intros X. apply C in X. destruct (between_own R (q_start q) (q_end q) g true) as [A B]; [now rewrite X|].
      rewrite B in X. injection X as ->. auto.
    + intros X. apply C in X. discriminate X.
Qed.
Lemma source_after : forall R (q : request R) s e times days, snd (requested_bars q s e times days) = q_source q \/
  (dynamic q /\ exists f off, q_source q = Given f /\ bf_tz f = Some off /\
     snd (requested_bars q s e times days) = Given (mk_bframe None (bf_range f) (bf_rows f))).
Proof.
  intros R q s e times days. unfold requested_bars.
  destruct (q_end q <? q_start q); [now left|]. destruct (q_execs q) as [|e0 es] eqn:Q; [now left|].
  destruct (_ || _); [now left|]. destruct (_ || _); [now left|]. destruct (_ <? _); [now left|].
  destruct (fetch_bars R q) as [[f own]|er] eqn:F; [|now left]. destruct (to_day_ids days) as [ids|er]; [|now left].
  unfold filter_dates.
  set (cond := negb _ || negb _). clearbody cond. set (lo := match s with None => _ | Some _ => _ end). clearbody lo.
  set (hi := match e with None => _ | Some _ => _ end). clearbody hi.
  destruct (if cond then range_index R (between_dates R lo hi (f, own)) else (f, own)) as [g own'] eqn:X.
  destruct (bf_tz g) as [off|] eqn:T; cbn [snd].
  - destruct own'.
    + right. assert (Y : g = f /\ own = true).
      { destruct cond.
        - destruct (between_dates R lo hi (f, own)) as [h o] eqn:B.
          destruct (range_own R h o) as [O1 O2]; [now rewrite X|]. rewrite O2 in X. injection X as -> ->.
          destruct (between_own R lo hi f own) as [O3 O4]; [now rewrite B|]. rewrite O4 in B. injection B as -> _. auto.
        - injection X as -> ->. auto. }
      destruct Y as [-> ->]. apply fetch_own in F. destruct F as [F1 F2]. split; [now apply selector_iff|].
      exists f, off. rewrite F2. auto.
    + left. now destruct (q_source q).
  - left. now destruct (q_source q).
Qed.

(** *** No duplicates *)
Lemma no_duplicates : forall R (l : list (brow R)), has_duplicates R l = false -> NoDup (map (fun r => (b_sym r, b_date r)) l).
Proof.
  intros R. induction l as [|r t IH]; cbn [has_duplicates map]; intros H; [constructor|]. apply orb_false_iff in H. destruct H as [A B].
  constructor; [|now apply IH]. intros I. apply in_map_iff in I. destruct I as (y & E & I). injection E as E1 E2.
  assert (X : existsb (same_bar R r) t = true).
  { apply existsb_exists. exists y. split; [exact I|]. unfold same_bar. now rewrite E1, E2, Nat.eqb_refl, Z.eqb_refl. }
  congruence.
Qed.
Lemma filter_nodup_map : forall R (p : brow R -> bool) l, NoDup (map (fun r => (b_sym r, b_date r)) l) -> NoDup (map (fun r => (b_sym r, b_date r)) (filter p l)).
Proof.
  intros R p l. induction l as [|r t IH]; cbn [filter map]; [auto|]. intros N. apply NoDup_cons_iff in N. destruct N as [A B].
  destruct (p r); [|now apply IH]. cbn [map]. constructor; [|now apply IH]. intros I. apply A.
  apply in_map_iff in I. destruct I as (y & E & I). apply filter_In in I. apply in_map_iff. now exists y.
Qed.
Lemma request_distinct : forall R (q : request R) s e times days l,
  fst (requested_bars q s e times days) = Done l -> NoDup (map (fun r => (b_sym r, b_date r)) l).
Proof.
  intros R q s e times days l. unfold requested_bars.
  destruct (q_end q <? q_start q); [discriminate|]. destruct (q_execs q) as [|e0 es] eqn:Q; [discriminate|].
  destruct (_ || _); [discriminate|]. destruct (_ || _); [discriminate|]. destruct (_ <? _); [discriminate|].
  destruct (fetch_bars R q) as [x|er] eqn:F; [|discriminate]. destruct (to_day_ids days) as [ids|er]; [|discriminate].
  assert (NX : NoDup (map (fun r => (b_sym r, b_date r)) (bf_rows (fst x)))).
  { unfold fetch_bars in F.
    assert (C : forall y : bframe R * bool,
      match bf_rows (fst y) with [] => Refused SourceEmpty | _ => if has_duplicates R (bf_rows (fst y)) then Refused DuplicateBars else Done (range_index R y) end = Done x ->
      NoDup (map (fun r => (b_sym r, b_date r)) (bf_rows (fst x)))).
    { intros y X. destruct (bf_rows (fst y)) as [|r0 l0] eqn:B; [discriminate X|].
      destruct (has_duplicates R (r0 :: l0)) eqn:D; [discriminate X|].
      assert (J : forall (A : Type) (a b : A), Done a = Done b -> a = b) by congruence. apply J in X. rewrite <- X, range_rows, B.
      now apply no_duplicates. }
    destruct (q_source q); [destruct (has_selector (q_execs q)); [discriminate F|]|]; exact (C _ F). }
  unfold filter_dates.
  set (cond := negb _ || negb _). clearbody cond. set (lo := match s with None => _ | Some _ => _ end). clearbody lo.
  set (hi := match e with None => _ | Some _ => _ end). clearbody hi.
  assert (NG : NoDup (map (fun r => (b_sym r, b_date r)) (bf_rows (fst (if cond then range_index R (between_dates R lo hi x) else x))))).
  { destruct cond; [|exact NX]. rewrite range_rows, between_rows. now apply filter_nodup_map. }
  destruct (if cond then range_index R (between_dates R lo hi x) else x) as [g own]. cbn [fst] in *.
  assert (ND : NoDup (map (fun r => (b_sym r, b_date r)) (match ids with None => bf_rows g | Some k => filter (fun r => existsb (Z.eqb (weekday (b_date r))) k) (bf_rows g) end))).
  { destruct ids; [now apply filter_nodup_map|exact NG]. }
  destruct times as [[|a [|b [|? ?]]]|]; try discriminate; intros X; injection X as <-; [now apply filter_nodup_map|exact ND].
Qed.
