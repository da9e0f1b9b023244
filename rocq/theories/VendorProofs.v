(** Lemmas behind PropVendor.v. *)
From Verif Require Export VendorSpec TextProofs.
Import ListNotations.
Open Scope list_scope.
Open Scope Z_scope.

Ltac comp := vm_compute; reflexivity.

(** ** Timeframes *)
Lemma format_parse s p : s <> [] -> parse_timeframe s = Some p ->
  exists f, f <> [] /\ format_timeframe (Some s) = Some f /\ parse_timeframe f = Some p /\ format_timeframe (Some f) = Some f
            /\ f = join_space (map part_str p).
Proof.
  intros N P. destruct s as [|c s]; [easy|]. pose proof (format_roundtrip _ _ P) as R.
  assert (X : map (fun '(n, u) => py_str n ++ u) p = map part_str p) by (apply map_ext; now intros [n u]).
  exists (join_space (map part_str p)). unfold format_timeframe. rewrite P, X.
  destruct (join_space (map part_str p)) as [|x y] eqn:J; [discriminate R|]. rewrite R, X, J. repeat split; easy.
Qed.
Lemma sum_one n u k : sget u tf_seconds = Some k -> sum_seconds [(n, u)] = Some (n * k).
Proof. intro H. cbn -[sget tf_seconds]. rewrite H. f_equal. lia. Qed.
Lemma seconds_one s n u k : parse_timeframe s = Some [(n, u)] -> sget u tf_seconds = Some k -> to_seconds (Some s) = Some (n * k).
Proof.
  intros P H. unfold to_seconds. destruct s as [|c s]; [discriminate P|]. rewrite P. now apply sum_one.
Qed.
Lemma parse_alpaca_iff tf n u : parse_alpaca tf = Some (n, u) <->
  exists s name secs, tf = Some s /\ alpaca_unit u name secs /\ parse_timeframe s = Some [(n, name)].
Proof.
  split.
  - unfold parse_alpaca. destruct tf as [s|]; [|discriminate].
    destruct (parse_timeframe s) as [[|[m v] [|? ?]]|] eqn:P; try discriminate.
    destruct (str_eqb v (lit "min")) eqn:A; [|destruct (str_eqb v (lit "hour")) eqn:B;
      [|destruct (str_eqb v (lit "day")) eqn:C; [|destruct (str_eqb v (lit "week")) eqn:D; [|discriminate]]]];
      intro E; injection E as -> <-;
      repeat match goal with H : str_eqb _ _ = true |- _ => apply str_eqb_iff in H; subst end;
      eexists s, _, _; (split; [reflexivity|]); (split; [constructor|easy]).
  - intros (s & name & secs & -> & U & P). unfold parse_alpaca. rewrite P. destruct U; reflexivity.
Qed.
Lemma alpaca_asks_parse tf : alpaca_asks tf = parse_alpaca tf.
Proof.
  unfold alpaca_asks. destruct (parse_alpaca tf) as [[n u]|] eqn:P; [|easy].
  apply parse_alpaca_iff in P as (s & name & secs & -> & U & P).
  assert (N : s <> []) by (intros ->; discriminate P).
  destruct (format_parse s _ N P) as (f & _ & F & Q & _). rewrite F. apply parse_alpaca_iff. now exists f, name, secs.
Qed.

Lemma period_parse periods s p : s <> [] -> parse_timeframe s = Some p ->
  period_of periods (Some s) = sget (join_space (map part_str p)) periods.
Proof.
  intros N P. destruct (format_parse s p N P) as (f & _ & F & _ & G & E). unfold period_of. rewrite F, G. now rewrite E.
Qed.
Lemma period_no_parse periods s : s <> [] -> parse_timeframe s = None -> period_of periods (Some s) = None.
Proof. intros N P. unfold period_of, format_timeframe. destruct s; [easy|]. now rewrite P. Qed.
Lemma join_inj p q s t : parse_timeframe s = Some p -> parse_timeframe t = Some q ->
  join_space (map part_str p) = join_space (map part_str q) -> p = q.
Proof.
  intros P Q E. pose proof (format_roundtrip _ _ P) as A. pose proof (format_roundtrip _ _ Q) as B. rewrite E in A. congruence.
Qed.
Lemma ak_period_iff s period : s <> [] ->
  (ak_period (Some s) = Some period <-> exists n u secs, ak_supports n u period secs /\ parse_timeframe s = Some [(n, u)]).
Proof.
  intro N. unfold ak_period. split.
  - destruct (parse_timeframe s) as [p|] eqn:P; [|rewrite (period_no_parse _ _ N P); discriminate].
    rewrite (period_parse _ _ _ N P). intro H. apply sget_in in H.
    assert (J : join_space (map part_str p) <> []) by (intro E; pose proof (format_roundtrip _ _ P) as R; rewrite E in R; discriminate R).
    cbn in H. destruct H as [H|[H|[H|[]]]]; [injection H as E _; now rewrite <- E in J| |].
    + injection H as E <-. exists 1, (lit "day"), 86400. split; [constructor|]. f_equal.
      apply (join_inj _ _ s (lit "1day") P); [comp|]. rewrite <- E. comp.
    + injection H as E <-. exists 1, (lit "week"), 604800. split; [constructor|]. f_equal.
      apply (join_inj _ _ s (lit "1week") P); [comp|]. rewrite <- E. comp.
  - intros (n & u & secs & U & P). rewrite (period_parse _ _ _ N P). destruct U; comp.
Qed.
Lemma yq_period_iff s period : s <> [] ->
  (yq_period (Some s) = Some period <-> exists n u secs, yq_supports n u period secs /\ parse_timeframe s = Some [(n, u)]).
Proof.
  intro N. unfold yq_period. split.
  - destruct (parse_timeframe s) as [p|] eqn:P; [|rewrite (period_no_parse _ _ N P); discriminate].
    rewrite (period_parse _ _ _ N P). intro H. apply sget_in in H.
    assert (J : join_space (map part_str p) <> []) by (intro E; pose proof (format_roundtrip _ _ P) as R; rewrite E in R; discriminate R).
    cbn in H. destruct H as [H|[H|[H|[H|[H|[]]]]]]; [injection H as E _; now rewrite <- E in J| | | |].
    + injection H as E <-. exists 1, (lit "hour"), 3600. split; [constructor|]. f_equal.
      apply (join_inj _ _ s (lit "1hour") P); [comp|]. rewrite <- E. comp.
    + injection H as E <-. exists 1, (lit "day"), 86400. split; [constructor|]. f_equal.
      apply (join_inj _ _ s (lit "1day") P); [comp|]. rewrite <- E. comp.
    + injection H as E <-. exists 5, (lit "day"), 432000. split; [constructor|]. f_equal.
      apply (join_inj _ _ s (lit "5day") P); [comp|]. rewrite <- E. comp.
    + injection H as E <-. exists 1, (lit "week"), 604800. split; [constructor|]. f_equal.
      apply (join_inj _ _ s (lit "1week") P); [comp|]. rewrite <- E. comp.
  - intros (n & u & secs & U & P). rewrite (period_parse _ _ _ N P). destruct U; comp.
Qed.

(** ** Columns *)
Lemma column_eqb_iff a b : column_eqb a b = true <-> a = b.
Proof.
  destruct a, b; cbn; (split; [intro H; try discriminate; try reflexivity|intro H; try discriminate; try reflexivity]).
  - apply str_eqb_iff in H. now subst.
  - injection H as ->. now apply str_eqb_iff.
  - apply Nat.eqb_eq in H. now subst.
  - injection H as ->. apply Nat.eqb_refl.
Qed.
Lemma column_eqb_refl a : column_eqb a a = true.
Proof. now apply column_eqb_iff. Qed.
Lemma column_eqb_false a b : column_eqb a b = false <-> a <> b.
Proof.
  split; intro H.
  - intros ->. now rewrite column_eqb_refl in H.
  - destruct (column_eqb a b) eqn:E; [|easy]. now apply column_eqb_iff in E.
Qed.
Lemma has_iff c l : has c l = true <-> In c l.
Proof.
  unfold has. rewrite existsb_exists. split.
  - intros (x & I & E). apply column_eqb_iff in E. now subst.
  - intro I. exists c. now rewrite column_eqb_refl.
Qed.
Lemma has_false c l : has c l = false <-> ~ In c l.
Proof. rewrite <- has_iff. destruct (has c l); intuition congruence. Qed.
Lemma no_duplicates_iff l : no_duplicates l = true <-> NoDup l.
Proof.
  induction l as [|c r IH]; cbn; [split; [constructor|easy]|].
  rewrite andb_true_iff, IH, negb_true_iff, has_false. split.
  - intros [A B]. now constructor.
  - intro H. inversion H. easy.
Qed.
Lemma find_rename (f : column -> column) cols c : NoDup (map f cols) -> In c cols ->
  find (fun k => column_eqb (f k) (f c)) cols = Some c.
Proof.
  induction cols as [|k r IH]; cbn; [easy|]. intros N [->|I].
  - now rewrite column_eqb_refl.
  - inversion N as [|? ? A B]. subst. destruct (column_eqb (f k) (f c)) eqn:E; [|now apply IH].
    apply column_eqb_iff in E. exfalso. apply A. rewrite E. now apply in_map.
Qed.
Lemma find_rename_none (f : column -> column) cols d : (forall c, In c cols -> f c <> d) ->
  find (fun k => column_eqb (f k) d) cols = None.
Proof.
  induction cols as [|k r IH]; cbn; [easy|]. intro H. rewrite (proj2 (column_eqb_false _ _)); [|apply H; now left].
  apply IH. intros c I. apply H. now right.
Qed.

Lemma str_eqb_neq a b : a <> b -> str_eqb a b = false.
Proof. intro N. destruct (str_eqb a b) eqn:E; [|easy]. now apply str_eqb_iff in E. Qed.
Definition fields := [DATE; OPEN; HIGH; LOW; CLOSE; VOLUME].
Lemma field_symbol f : In f fields -> f <> SYMBOL.
Proof. cbn. intros H E. subst f. repeat (destruct H as [H|H]; [discriminate H|]). exact H. Qed.
Lemma named_field f c : named f c -> In f fields.
Proof. intro N. destruct N; [easy|..]; cbn; tauto. Qed.
Lemma latin_cases s : (s = lit "date" \/ s = lit "open" \/ s = lit "close" \/ s = lit "high" \/ s = lit "low")
  \/ (s <> lit "date" /\ s <> lit "open" /\ s <> lit "close" /\ s <> lit "high" /\ s <> lit "low").
Proof.
  destruct (list_eq_dec ascii_dec s (lit "date")); [tauto|]. destruct (list_eq_dec ascii_dec s (lit "open")); [tauto|].
  destruct (list_eq_dec ascii_dec s (lit "close")); [tauto|]. destruct (list_eq_dec ascii_dec s (lit "high")); [tauto|].
  destruct (list_eq_dec ascii_dec s (lit "low")); [tauto|]. right. tauto.
Qed.
Lemma cget_app c a b : cget c (a ++ b) = match cget c a with Some d => Some d | None => cget c b end.
Proof. induction a as [|[k v] r IH]; cbn; [easy|]. now destruct (column_eqb c k). Qed.
(** Where a field of the answer comes from. *)
Lemma new_name_iff t f c : In f fields ->
  (new_name t c = f <-> named f c \/ f = VOLUME /\ c = AMOUNT /\ ~ In VOLUME (t_cols t)).
Proof.
  intro F. unfold new_name.
  assert (K : match cget c ak_columns with Some d => d | None => c end = f <-> named f c).
  { destruct c as [s| | | | | | |n].
    - destruct (latin_cases s) as [H|H].
      + assert (E : match cget (Latin s) ak_columns with Some d => d | None => Latin s end = Latin s)
          by (destruct H as [->|[->|[->|[->| ->]]]]; comp).
        rewrite E. split; [intros <-; now constructor|]. intro N. inversion N. easy.
      + assert (E : cget (Latin s) ak_columns = None).
        { destruct H as (A & B & C & D & G). cbn -[str_eqb lit].
          rewrite !str_eqb_neq by easy. reflexivity. }
        rewrite E. split; [intros <-; now constructor|]. intro N. inversion N. easy.
    - cbn. split; [intros <-; constructor|]. intro N. inversion N; [|easy]. subst. cbn in H. intuition discriminate.
    - cbn. split; [intros <-; constructor|]. intro N. inversion N; [|easy]. subst. cbn in H. intuition discriminate.
    - cbn. split; [intros <-; constructor|]. intro N. inversion N; [|easy]. subst. cbn in H. intuition discriminate.
    - cbn. split; [intros <-; constructor|]. intro N. inversion N; [|easy]. subst. cbn in H. intuition discriminate.
    - cbn. split; [intros <-; constructor|]. intro N. inversion N; [|easy]. subst. cbn in H. intuition discriminate.
    - cbn. split; [intros <-; constructor|]. intro N. inversion N; [|easy]. subst. cbn in H. intuition discriminate.
    - cbn. split; [intros <-|intro N; inversion N; subst; easy]. cbn in F. intuition discriminate. }
  destruct (has VOLUME (t_cols t)) eqn:V.
  - rewrite K. apply has_iff in V. split; [now left|]. intros [N|(_ & _ & X)]; easy.
  - apply has_false in V. rewrite cget_app. destruct (column_eqb c AMOUNT) eqn:A.
    + apply column_eqb_iff in A. subst c. assert (E : cget AMOUNT ak_columns = None) by comp. rewrite E.
      assert (E2 : cget AMOUNT [(AMOUNT, VOLUME)] = Some VOLUME) by comp. rewrite E2. split.
      * intros <-. right. easy.
      * intros [N|(X & _)]; [|easy]. apply K in N. rewrite E in N. subst f. cbn in F. intuition discriminate.
    + assert (E2 : cget c [(AMOUNT, VOLUME)] = None) by (cbn -[column_eqb AMOUNT]; now rewrite A). rewrite E2.
      apply column_eqb_false in A. destruct (cget c ak_columns) as [d|]; rewrite K; (split; [now left|]); intros [N|(_ & X & _)]; easy.
Qed.
