(** Proofs about interval normalisation and interval names. *)
From Verif Require Export TextProofs.
Open Scope list_scope.
Open Scope Z_scope.

(** ** strip *)
Lemma lstrip_split s : exists w, s = w ++ lstrip s /\ forallb is_space w = true /\ stops is_space (lstrip s).
Proof.
  induction s as [|c s (w & E & B & S)]; [exists []; easy|]. cbn [lstrip]. destruct (is_space c) eqn:C.
  - exists (c :: w). split; [cbn; congruence|]. split; [cbn; now rewrite C|easy].
  - exists []. split; [easy|]. split; [easy|exact C].
Qed.
Lemma lstrip_keep w m : forallb is_space w = true -> stops is_space m -> lstrip (w ++ m) = m.
Proof.
  induction w as [|c w IH]; cbn.
  - intros _ S. destruct m as [|c m]; [easy|]. cbn in *. now rewrite S.
  - rewrite Bool.andb_true_iff. intros [H K] S. rewrite H. now apply IH.
Qed.
Lemma forallb_rev {A} (p : A -> bool) l : forallb p (rev l) = forallb p l.
Proof.
  induction l as [|x l IH]; [easy|]. cbn. rewrite forallb_app, IH. cbn. rewrite Bool.andb_true_r. apply Bool.andb_comm.
Qed.
Lemma strip_split s : exists w w', s = w ++ strip s ++ w' /\ forallb is_space w = true /\ forallb is_space w' = true.
Proof.
  unfold strip. destruct (lstrip_split s) as (w & E & B & _). destruct (lstrip_split (rev (lstrip s))) as (w' & E' & B' & _).
  exists w, (rev w'). split; [|split; [easy|now rewrite forallb_rev]].
  rewrite <- rev_app_distr, <- E', rev_involutive. exact E.
Qed.
Lemma strip_keep w m w' : forallb is_space w = true -> forallb is_space w' = true -> stops is_space m -> stops is_space (rev m) ->
  m <> [] -> strip (w ++ m ++ w') = m.
Proof.
  intros B B' S S' N. unfold strip. rewrite lstrip_keep; [|easy|].
  - rewrite rev_app_distr, lstrip_keep; [apply rev_involutive|now rewrite forallb_rev|easy].
  - destruct m; [easy|exact S].
Qed.

(** ** Durations *)
Lemma unit_letter_iff u : is_unit_letter u = true <-> In (lower_char u) ["s"; "m"; "h"; "d"]%char.
Proof.
  unfold is_unit_letter. rewrite existsb_exists. split.
  - intros (x & H & E). apply Ascii.eqb_eq in E. now rewrite E.
  - intro H. eexists. split; [exact H|]. apply Ascii.eqb_refl.
Qed.
Lemma unit_lower u' : In u' ["s"; "m"; "h"; "d"]%char -> lower_char u' = u' /\ is_alpha u' = true.
Proof. cbn [In]. intros [<-|[<-|[<-|[<-|[]]]]]; split; reflexivity. Qed.
Lemma unit_alpha u : is_unit_letter u = true -> is_alpha u = true.
Proof.
  rewrite unit_letter_iff. intro H. destruct (unit_lower _ H) as [A B]. apply (letter_lower u (lower_char u)); auto.
Qed.
Lemma duration_match_iff m d u : duration_match m = Some (d, u) <->
  m = d ++ [u] /\ d <> [] /\ forallb is_digit d = true /\ is_unit_letter u = true.
Proof.
  unfold duration_match. split.
  - destruct (span is_digit m) as [a r] eqn:S. apply span_eq in S as (-> & A & _). destruct r as [|x [|y r]]; try discriminate.
    destruct a as [|c a]; [discriminate|]. destruct (is_unit_letter x) eqn:U; [|discriminate].
    intro H. injection H as <- <-. split; [easy|]. split; [discriminate|]. auto.
  - intros (-> & N & D & U). rewrite span_app; [|easy|].
    + destruct d; [easy|]. now rewrite U.
    + cbn. destruct (is_digit u) eqn:E; [|easy]. apply digit_not_alpha in E. apply unit_alpha in U. congruence.
Qed.
Lemma canonical_seconds n u' : 0 < n -> In u' ["s"; "m"; "h"; "d"]%char ->
  exists k, to_seconds (Some (py_str n ++ [u'])) = Some k /\ 0 < k.
Proof.
  intros P U. assert (NN : 0 <= n) by lia. destruct (py_str_ok n NN) as (N & D & E & Z).
  assert (T : exists long secs, tf_unit [u'] long secs /\ 0 < secs).
  { unfold tf_unit. cbn [In] in *. destruct U as [<-|[<-|[<-|[<-|[]]]]]; eexists _, _; (split; [eauto 8|reflexivity]). }
  destruct T as (long & secs & T & S).
  assert (H : timeframe (py_str n ++ [u']) [(n, long)]).
  { exists [py_str n ++ [u']]. split; [discriminate|]. split.
    - rewrite <- (app_nil_r (py_str n ++ [u'])) at 2. apply (sp_one [] (py_str n ++ [u']) []); constructor.
    - split; [|constructor; [easy|constructor]]. constructor; [|constructor].
      exists (py_str n), [u'], [u'], secs. split; [easy|]. split; [apply numeral_iff; auto|]. split; [easy|]. left.
      now apply same_text_iff. }
  apply timeframe_parses in H. exists (n * secs + 0). split; [|nia].
  unfold to_seconds. destruct (py_str n ++ [u']) as [|c s] eqn:X; [destruct (py_str n); discriminate|]. rewrite H.
  cbn [sum_seconds]. now rewrite (unit_seconds_get _ _ _ T).
Qed.
Lemma digits_ends d u : d <> [] -> forallb is_digit d = true -> is_alpha u = true ->
  stops is_space (d ++ [u]) /\ stops is_space (rev (d ++ [u])) /\ existsb (Ascii.eqb " ") (d ++ [u]) = false.
Proof.
  intros N D U. split; [|split].
  - destruct d as [|c d]; [easy|]. cbn in *. apply Bool.andb_true_iff in D as [D _]. now apply digit_not_space.
  - rewrite rev_app_distr. cbn. now apply alpha_not_space.
  - destruct (existsb _ _) eqn:E; [|easy]. apply existsb_exists in E as (c & H & E). apply Ascii.eqb_eq in E. subst c.
    apply in_app_iff in H as [H|[->|[]]]; [|discriminate U]. rewrite forallb_forall in D. now apply D in H.
Qed.
Lemma normalize_duration_iff s t : normalize_duration s = Some t <-> duration s t.
Proof.
  unfold normalize_duration. split.
  - destruct (strip s) as [|x y] eqn:S; [discriminate|]. rewrite <- S. destruct (existsb _ (strip s)); [discriminate|].
    destruct (duration_match (strip s)) as [[d u]|] eqn:M; [|discriminate]. apply duration_match_iff in M as (M & N & D & U).
    destruct (Z.leb_spec (py_int d) 0); [discriminate|].
    assert (U' : In (lower_char u) ["s"; "m"; "h"; "d"]%char) by now apply unit_letter_iff.
    destruct (canonical_seconds (py_int d) _ H U') as (k & K & P). rewrite K. destruct (Z.leb_spec k 0); [lia|].
    intro E. injection E as <-. destruct (strip_split s) as (w & w' & E & B & B').
    exists w, d, u, w', (py_int d), (py_str (py_int d)), (lower_char u). rewrite M, <- app_assoc in E. split; [exact E|].
    split; [now apply blank_iff|]. split; [now apply blank_iff|]. split; [now apply numeral_iff|]. split; [easy|].
    split; [apply same_char_iff; symmetry; now apply unit_lower|]. split; [easy|]. split; [apply decimal_iff; split; [lia|easy]|easy].
  - intros (w & d & u & w' & n & d' & u' & -> & B & B' & N & P & C & U & D & ->).
    apply blank_iff in B, B'. apply numeral_iff in N as (N & F & ->). apply decimal_iff in D as [_ ->]. apply same_char_iff in C.
    destruct (unit_lower u' U) as [L A]. rewrite L in C.
    assert (UL : is_unit_letter u = true) by (apply unit_letter_iff; now rewrite C).
    destruct (digits_ends d u N F (unit_alpha _ UL)) as (S1 & S2 & S3).
    assert (X : strip (w ++ d ++ [u] ++ w') = d ++ [u]).
    { replace (w ++ d ++ [u] ++ w') with (w ++ (d ++ [u]) ++ w') by now rewrite <- app_assoc. apply strip_keep; auto. now destruct d. }
    rewrite X. assert (M : duration_match (d ++ [u]) = Some (d, u)) by (apply duration_match_iff; auto).
    destruct (d ++ [u]) as [|x y] eqn:Y; [now destruct d|]. rewrite S3, M. destruct (Z.leb_spec (py_int d) 0); [lia|]. rewrite C.
    destruct (canonical_seconds (py_int d) u' P U) as (k & K & Q). rewrite K. destruct (Z.leb_spec k 0); [lia|]. reflexivity.
Qed.
Lemma calendar_iff s : str_in s calendar_intervals = true <-> calendar s.
Proof.
  rewrite str_in_iff. unfold calendar_intervals, calendar. cbn [In]. intuition auto.
Qed.
Lemma calendar_not_duration s t : calendar s -> duration s t -> False.
Proof.
  intros C (w & d & u & w' & n & d' & u' & -> & _ & _ & N & _). apply numeral_iff in N as (N & D & _).
  assert (X : existsb is_digit (w ++ d ++ [u] ++ w') = true).
  { apply existsb_exists. destruct d as [|c d]; [easy|]. exists c. split; [apply in_app_iff; right; now left|].
    cbn in D. now apply Bool.andb_true_iff in D. }
  unfold calendar in C. destruct C as [C|[C|[C|[C|C]]]]; rewrite C in X; discriminate X.
Qed.
Lemma normalize_iff i j : normalize_interval i = Some j <-> normal_form i j.
Proof.
  split.
  - destruct i as [n|s]; cbn [normalize_interval].
    + destruct (Z.leb_spec n 1); [discriminate|]. intro E. injection E as <-. now constructor.
    + destruct (str_in s calendar_intervals) eqn:C.
      * intro E. injection E as <-. apply nf_calendar. now apply calendar_iff.
      * destruct (normalize_duration s) as [t|] eqn:D; [|discriminate]. intro E. injection E as <-.
        apply nf_duration. now apply normalize_duration_iff.
  - intros [n P|s C|s t D]; cbn [normalize_interval].
    + destruct (Z.leb_spec n 1); [lia|easy].
    + apply calendar_iff in C. now rewrite C.
    + destruct (str_in s calendar_intervals) eqn:C; [exfalso; apply calendar_iff in C; eapply calendar_not_duration; eauto|].
      apply normalize_duration_iff in D. now rewrite D.
Qed.
(** A normal form is its own normal form. *)
Lemma normal_form_idem i j : normal_form i j -> normal_form j j.
Proof.
  intros [n P|s C|s t D]; [now constructor|now constructor|]. apply nf_duration.
  destruct D as (w & d & u & w' & n & d' & u' & -> & B & B' & N & P & C & U & D & ->).
  exists [], d', u', [], n, d', u'. split; [reflexivity|]. split; [constructor|]. split; [constructor|].
  split; [apply D|]. split; [easy|]. split; [now left|]. auto.
Qed.

(** ** Names *)
Lemma rsplit_none s : has_at s = false -> rsplit_at s = None.
Proof.
  unfold has_at. induction s as [|c s IH]; [easy|]. cbn. rewrite Bool.orb_false_iff. intros [H K]. rewrite (IH K). now rewrite H.
Qed.
Lemma rsplit_app base f : has_at f = false -> rsplit_at (base ++ at_sign :: f) = Some (base, f).
Proof.
  intro H. induction base as [|c base IH]; cbn.
  - rewrite (rsplit_none _ H). reflexivity.
  - cbn in IH. now rewrite IH.
Qed.
Lemma no_at (p : ascii -> bool) s : p at_sign = false -> forallb p s = true -> has_at s = false.
Proof.
  intros P F. unfold has_at. destruct (existsb _ s) eqn:E; [|easy]. apply existsb_exists in E as (c & H & E).
  apply Ascii.eqb_eq in E. subst c. rewrite forallb_forall in F. apply F in H. congruence.
Qed.
Lemma format_of i j : normal_form i j -> exists f, format_interval i = Some f /\ has_at f = false /\
  forall base, parse_interval_name (base ++ at_sign :: f) = (base, Some j).
Proof.
  intro N. pose proof (proj2 (normalize_iff i j) N) as E. unfold format_interval. rewrite E.
  destruct N as [n P|s C|s t D].
  - exists (py_str n). assert (NN : 0 <= n) by lia. destruct (py_str_ok n NN) as (A & B & V & _).
    assert (H : has_at (py_str n) = false) by now apply (no_at is_digit).
    split; [easy|]. split; [easy|]. intro base. unfold parse_interval_name. rewrite rsplit_app by easy.
    unfold all_digits. destruct (py_str n) eqn:X; [easy|]. now rewrite B, V.
  - exists s. assert (H : has_at s = false) by (unfold calendar in C; destruct C as [C|[C|[C|[C|C]]]]; subst s; reflexivity).
    split; [easy|]. split; [easy|]. intro base. unfold parse_interval_name. rewrite rsplit_app by easy.
    assert (A : all_digits s = false) by (unfold calendar in C; destruct C as [C|[C|[C|[C|C]]]]; subst s; reflexivity).
    apply calendar_iff in C. now rewrite A, C.
  - exists t. assert (DD : duration t t).
    { assert (NF : normal_form (Named t) (Named t)) by (apply (normal_form_idem (Named s)); now apply nf_duration).
      inversion NF; [|easy]. exfalso.
      destruct D as (w & d & u & w' & n & d' & u' & _ & _ & _ & _ & _ & _ & _ & D & ->). destruct D as [D _].
      apply numeral_iff in D as (X & D & _). destruct d' as [|c d']; [easy|].
      assert (Y : existsb is_digit ((c :: d') ++ [u']) = true) by (cbn in *; apply Bool.andb_true_iff in D as [-> _]; easy).
      unfold calendar in H0. destruct H0 as [C|[C|[C|[C|C]]]]; rewrite C in Y; discriminate Y. }
    destruct D as (w & d & u & w' & n & d' & u' & _ & _ & _ & _ & _ & _ & U & D & T). destruct D as [D _].
    apply numeral_iff in D as (X & D & _). destruct (unit_lower u' U) as [_ A].
    assert (H : has_at t = false).
    { apply (no_at (fun c => is_digit c || is_alpha c)); [reflexivity|]. subst t. rewrite forallb_app. cbn. rewrite A, Bool.orb_true_r.
      rewrite Bool.andb_true_r. apply forallb_forall. intros c K. rewrite forallb_forall in D. now rewrite D. }
    split; [easy|]. split; [easy|]. intro base. unfold parse_interval_name. rewrite rsplit_app by easy.
    assert (AD : all_digits t = false).
    { subst t. unfold all_digits. destruct (d' ++ [u']) eqn:Y; [easy|]. rewrite <- Y, forallb_app. cbn.
      destruct (is_digit u') eqn:Q; [apply digit_not_alpha in Q; congruence|]. now rewrite Bool.andb_comm. }
    rewrite AD. destruct (str_in t calendar_intervals) eqn:C; [exfalso; apply calendar_iff in C; eapply calendar_not_duration; eauto|].
    unfold is_duration_interval. rewrite C. apply normalize_duration_iff in DD. now rewrite DD.
Qed.
Lemma name_parses base i name j : normal_form i j -> indicator_interval_name base i = Some name ->
  parse_interval_name name = (base, Some j).
Proof.
  intros N. destruct (format_of i j N) as (f & F & _ & P). unfold indicator_interval_name. rewrite F. intro E. injection E as <-.
  apply P.
Qed.
Lemma name_built base i : (exists name, indicator_interval_name base i = Some name) <-> exists j, normal_form i j.
Proof.
  unfold indicator_interval_name, format_interval. split.
  - destruct (normalize_interval i) as [j|] eqn:E; [|intros [? H]; discriminate]. intros _. exists j. now apply normalize_iff.
  - intros [j N]. apply normalize_iff in N. rewrite N. destruct j; eauto.
Qed.
Lemma name_plain name : ~ In "@"%char name -> parse_interval_name name = (name, None).
Proof.
  intro H. unfold parse_interval_name. rewrite rsplit_none; [easy|]. unfold has_at. destruct (existsb _ name) eqn:E; [|easy].
  apply existsb_exists in E as (c & K & E). apply Ascii.eqb_eq in E. subst c. now elim H.
Qed.
Lemma validate_iff name : validate_source_name name = true <-> ~ In "@"%char name.
Proof.
  unfold validate_source_name. rewrite Bool.negb_true_iff. split.
  - intros H K. enough (has_at name = true) by congruence. apply existsb_exists. exists "@"%char. split; [easy|reflexivity].
  - intro H. unfold has_at. destruct (existsb _ name) eqn:E; [|easy]. apply existsb_exists in E as (c & K & E).
    apply Ascii.eqb_eq in E. subst c. now elim H.
Qed.

(** ** Sets of intervals *)
Lemma interval_eqb_iff a b : interval_eqb a b = true <-> a = b.
Proof.
  destruct a, b; cbn; try (split; [discriminate|congruence]).
  - rewrite Z.eqb_eq. split; congruence.
  - rewrite str_eqb_iff. split; congruence.
Qed.
Definition allowed (allow_base : bool) (i j : interval) : Prop :=
  if allow_base && interval_eqb i (Named base_interval) then j = Named base_interval else normal_form i j.
Lemma normalize_all_iff ab l : forall seen res, NoDup seen ->
  (normalize_all ab l seen = Some res <-> exists js, Forall2 (allowed ab) l js /\ NoDup (seen ++ js) /\ res = seen ++ js).
Proof.
  induction l as [|i l IH]; intros seen res ND; cbn [normalize_all].
  - split.
    + intro E. injection E as <-. exists []. rewrite app_nil_r. repeat split; [constructor|easy].
    + intros (js & F & _ & ->). inversion F. now rewrite app_nil_r.
  - set (norm := if ab && interval_eqb i (Named base_interval) then Some (Named base_interval) else normalize_interval i).
    assert (A : forall j, norm = Some j <-> allowed ab i j).
    { intro j. unfold norm, allowed. destruct (ab && _); [split; congruence|apply normalize_iff]. }
    destruct norm as [n|].
    + assert (An : allowed ab i n) by now apply A. destruct (existsb (interval_eqb n) seen) eqn:S.
      * apply existsb_exists in S as (x & S & X). apply interval_eqb_iff in X. subst x. split; [discriminate|].
        intros (js & F & D & _). inversion F as [|? j ? js' F1 F2]. subst. apply A in F1. injection F1 as <-. exfalso.
        apply NoDup_remove_2 in D. apply D. apply in_app_iff. now left.
      * assert (NI : ~ In n seen).
        { intro K. enough (existsb (interval_eqb n) seen = true) by congruence. apply existsb_exists. exists n. split; [easy|now apply interval_eqb_iff]. }
        rewrite IH.
        2:{ apply NoDup_rev in ND. rewrite <- (rev_involutive (seen ++ [n])). apply NoDup_rev. rewrite rev_app_distr. cbn.
            constructor; [now rewrite <- in_rev|easy]. }
        split.
        -- intros (js & F & D & ->). exists (n :: js). rewrite <- app_assoc in *. split; [now constructor|]. auto.
        -- intros (js & F & D & ->). inversion F as [|? j ? js' F1 F2]. subst. apply A in F1. injection F1 as <-. exists js'.
           rewrite <- app_assoc. cbn. auto.
    + split; [discriminate|]. intros (js & F & _). inversion F as [|? j ? js' F1 F2]. subst. apply A in F1. discriminate.
Qed.
Lemma allowed_iff ab i j : allowed ab i j <-> bound_form ab i j.
Proof.
  unfold allowed, bound_form. destruct ab; cbn [andb].
  - destruct (interval_eqb i (Named base_interval)) eqn:E.
    + apply interval_eqb_iff in E. subst i. split; [intros ->; now right|]. intros [H|(_ & _ & ->)]; [|easy].
      apply normalize_iff in H. discriminate H.
    + split; [now left|]. intros [H|(_ & -> & _)]; [easy|]. discriminate E.
  - split; [now left|]. intros [H|(H & _)]; [easy|discriminate].
Qed.
Lemma normalize_intervals_iff declared ab res : normalize_intervals declared ab = Some res <->
  declared <> [] /\ Forall2 (bound_form ab) declared res /\ NoDup res.
Proof.
  assert (G : forall l js, Forall2 (allowed ab) l js <-> Forall2 (bound_form ab) l js).
  { intros l js. split; induction 1; constructor; auto; now apply allowed_iff. }
  unfold normalize_intervals. destruct declared as [|i l]; [split; [discriminate|intros [H _]; easy]|].
  rewrite normalize_all_iff by constructor. cbn [app]. split.
  - intros (js & F & D & ->). split; [discriminate|]. split; [now apply G|easy].
  - intros (_ & F & D). exists res. split; [now apply G|easy].
Qed.
