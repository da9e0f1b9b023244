(** Proofs about timeframe strings and interval names. *)
From Verif Require Export TextSpec.
Open Scope list_scope.
Open Scope Z_scope.

(** ** Characters *)
Lemma code_nat c : code c = Z.of_nat (nat_of_ascii c).
Proof. unfold code, nat_of_ascii. symmetry. apply N_nat_Z. Qed.
Lemma code_range c : 0 <= code c < 256.
Proof.
  rewrite code_nat. pose proof (nat_ascii_bounded c). lia.
Qed.
Lemma code_inj a b : code a = code b -> a = b.
Proof.
  rewrite !code_nat. intro H. apply Nat2Z.inj in H.
  rewrite <- (ascii_nat_embedding a), <- (ascii_nat_embedding b). now f_equal.
Qed.
Lemma code_of z : 0 <= z < 256 -> code (ascii_of_N (Z.to_N z)) = z.
Proof.
  intro H. unfold code. rewrite N_ascii_embedding by lia. lia.
Qed.
Ltac bools := unfold is_upper, between in *; repeat rewrite ?Bool.andb_true_iff, ?Bool.orb_true_iff, ?Z.leb_le in *.

Lemma digit_iff c : is_digit c = true <-> digit c.
Proof.
  unfold is_digit, digit. bools. rewrite code_nat. split.
  - intros H. exists (nat_of_ascii c - 48)%nat. lia.
  - intros (n & H & E). lia.
Qed.
Lemma letter_iff c : is_alpha c = true <-> letter c.
Proof.
  unfold is_alpha, letter. bools. rewrite !code_nat. split.
  - intros [H|H]; [exists (nat_of_ascii c - 65)%nat | exists (nat_of_ascii c - 97)%nat]; lia.
  - intros (n & H & E). lia.
Qed.
Lemma space_iff c : is_space c = true <-> space c.
Proof. unfold is_space, space. bools. rewrite !code_nat. lia. Qed.
Lemma lower_code c : code (lower_char c) = if is_upper c then code c + 32 else code c.
Proof.
  unfold lower_char. destruct (is_upper c) eqn:E; [|reflexivity]. apply code_of. bools. lia.
Qed.
Lemma upper_dec c : is_upper c = true \/ (is_upper c = false /\ ~ (65 <= code c <= 90)).
Proof.
  destruct (is_upper c) eqn:E; [now left|right; split; [easy|]]. intro H.
  enough (is_upper c = true) by congruence. bools. lia.
Qed.
Lemma same_char_iff a b : same_char a b <-> lower_char a = lower_char b.
Proof.
  split.
  - intros [->|(n & H & E)]; [easy|]. apply code_inj. rewrite !lower_code.
    destruct (upper_dec a) as [A|[A ?]]; destruct (upper_dec b) as [B|[B ?]]; rewrite A, B; rewrite !code_nat in *; bools; rewrite ?code_nat in *; lia.
  - intro H. assert (K : code (lower_char a) = code (lower_char b)) by now f_equal. rewrite !lower_code in K.
    destruct (upper_dec a) as [A|[A ?]]; destruct (upper_dec b) as [B|[B ?]]; rewrite A, B in K; bools.
    + left. apply code_inj. lia.
    + right. exists (nat_of_ascii a - 65)%nat. rewrite !code_nat in *. lia.
    + right. exists (nat_of_ascii b - 65)%nat. rewrite !code_nat in *. lia.
    + left. now apply code_inj.
Qed.
Lemma same_text_iff s t : same_text s t <-> lower s = lower t.
Proof.
  split.
  - induction 1; cbn; [easy|]. f_equal; [now apply same_char_iff|easy].
  - revert t. induction s; destruct t; cbn; try discriminate; [constructor|]. intro H. injection H as H1 H2.
    constructor; [now apply same_char_iff|now apply IHs].
Qed.
Lemma letter_lower a b : lower_char a = lower_char b -> is_alpha b = true -> is_alpha a = true.
Proof.
  intros H. assert (K : code (lower_char a) = code (lower_char b)) by now f_equal. rewrite !lower_code in K.
  unfold is_alpha.
  destruct (upper_dec a) as [A|[A ?]]; destruct (upper_dec b) as [B|[B ?]]; rewrite A, B in *; cbn [orb] in *; bools; try reflexivity; intros; bools; try lia.
Qed.
Lemma digit_not_alpha c : is_digit c = true -> is_alpha c = false.
Proof.
  intro H. destruct (is_alpha c) eqn:E; [|easy]. unfold is_digit, is_alpha in *. bools. lia.
Qed.
Lemma digit_not_space c : is_digit c = true -> is_space c = false.
Proof.
  intro H. destruct (is_space c) eqn:E; [|easy]. unfold is_digit, is_space in *. bools. lia.
Qed.
Lemma alpha_not_space c : is_alpha c = true -> is_space c = false.
Proof.
  intro H. destruct (is_space c) eqn:E; [|easy]. unfold is_alpha, is_space in *. bools. lia.
Qed.
Lemma space_not_digit c : is_space c = true -> is_digit c = false.
Proof. intro H. destruct (is_digit c) eqn:E; [|easy]. apply digit_not_space in E. congruence. Qed.
Lemma space_not_alpha c : is_space c = true -> is_alpha c = false.
Proof. intro H. destruct (is_alpha c) eqn:E; [|easy]. apply alpha_not_space in E. congruence. Qed.
Lemma blank_iff s : blank s <-> forallb is_space s = true.
Proof.
  unfold blank. rewrite forallb_forall, Forall_forall. split; intros H c K; apply space_iff; auto.
Qed.

Lemma str_eqb_iff a b : str_eqb a b = true <-> a = b.
Proof. unfold str_eqb. destruct (list_eq_dec ascii_dec a b); split; congruence. Qed.
Lemma str_in_iff a l : str_in a l = true <-> In a l.
Proof.
  unfold str_in. rewrite existsb_exists. split.
  - intros (x & H & E). apply str_eqb_iff in E. now subst.
  - intro H. exists a. split; [easy|]. now apply str_eqb_iff.
Qed.
Lemma str_in_false a l : str_in a l = false <-> ~ In a l.
Proof. rewrite <- str_in_iff. destruct (str_in a l); split; congruence. Qed.

(** ** Numerals *)
Lemma py_int_snoc s c : py_int (s ++ [c]) = 10 * py_int s + (code c - 48).
Proof. unfold py_int. now rewrite fold_left_app. Qed.
Lemma digits_of_iff d n : digits_of d n <-> forallb is_digit d = true /\ n = py_int d.
Proof.
  split.
  - induction 1 as [|s n c k _ [IH E] Hk Hc]; [now split|]. rewrite forallb_app, IH. cbn [forallb andb].
    assert (D : is_digit c = true) by (apply digit_iff; exists k; auto). rewrite D. split; [easy|].
    rewrite py_int_snoc, code_nat. subst n. lia.
  - intros [H ->]. induction d as [|c d IH] using rev_ind; [constructor|].
    rewrite forallb_app in H. cbn in H. apply Bool.andb_true_iff in H as [H1 H2]. rewrite Bool.andb_true_r in H2.
    apply digit_iff in H2 as (k & Hk & Hc). rewrite py_int_snoc, code_nat.
    replace (Z.of_nat (nat_of_ascii c) - 48) with (Z.of_nat k) by lia. constructor; auto.
Qed.
Lemma py_int_nonneg d : forallb is_digit d = true -> 0 <= py_int d.
Proof.
  induction d as [|c d IH] using rev_ind; [easy|]. rewrite forallb_app. cbn. rewrite Bool.andb_true_r, Bool.andb_true_iff.
  intros [H K]. rewrite py_int_snoc. apply IH in H. unfold is_digit in K. bools. lia.
Qed.
Lemma digit_char_ok z : 0 <= z < 10 -> is_digit (digit_char z) = true /\ code (digit_char z) = z + 48.
Proof.
  intro H. assert (E : code (digit_char z) = z + 48) by (apply code_of; lia). split; [|easy].
  unfold is_digit. bools. lia.
Qed.
Lemma zero_char c : code c = 48 -> c = "0"%char.
Proof. intro H. now apply code_inj. Qed.
(** What [str(n)] prints. *)
Lemma to_digits_ok f : forall n, (0 < f)%nat -> 0 <= n < 2 ^ Z.of_nat f ->
  to_digits f n <> [] /\ forallb is_digit (to_digits f n) = true /\ py_int (to_digits f n) = n /\
  (forall r, to_digits f n = "0"%char :: r -> r = []).
Proof.
  induction f as [|f IH]; intros n Hf Hn; [lia|]. cbn [to_digits]. destruct (Z.ltb n 10) eqn:E.
  - apply Z.ltb_lt in E. destruct (digit_char_ok n) as [D C]; [lia|].
    split; [discriminate|]. split; [cbn; now rewrite D|]. split; [unfold py_int; cbn [fold_left]; lia|].
    intros r H. now injection H.
  - apply Z.ltb_ge in E. rewrite Nat2Z.inj_succ, Z.pow_succ_r in Hn by lia.
    assert (F : (0 < f)%nat) by (destruct f; [cbn in Hn; lia|lia]).
    assert (G : 0 <= n / 10 < 2 ^ Z.of_nat f).
    { split; [apply Z.div_pos; lia|]. apply Z.div_lt_upper_bound; lia. }
    destruct (IH _ F G) as (A & B & C & D). destruct (digit_char_ok (n mod 10)) as [P Q]; [apply Z.mod_pos_bound; lia|].
    split; [intro Z; apply app_eq_nil in Z as [_ Z]; discriminate|]. split; [rewrite forallb_app, B; cbn; now rewrite P|].
    split.
    + rewrite py_int_snoc, C, Q. pose proof (Z.div_mod n 10). lia.
    + intros r H. destruct (to_digits f (n / 10)) as [|x l] eqn:X; [easy|]. cbn in H. injection H as H1 H2.
      assert (L : l = []) by (apply (D l); congruence). subst l x. exfalso.
      unfold py_int in C. cbn in C. assert (1 <= n / 10) by (apply Z.div_le_lower_bound; lia). change (code "0") with 48 in C. lia.
Qed.
Lemma log_bound n : 0 <= n -> 0 <= n < 2 ^ Z.of_nat (S (Z.to_nat (Z.log2 n))).
Proof.
  intro H. split; [easy|]. rewrite Nat2Z.inj_succ, Z2Nat.id by apply Z.log2_nonneg.
  destruct (Z.eq_dec n 0) as [->|N]; [reflexivity|]. apply Z.log2_spec. lia.
Qed.
Lemma py_str_ok n : 0 <= n ->
  py_str n <> [] /\ forallb is_digit (py_str n) = true /\ py_int (py_str n) = n /\
  (forall r, py_str n = "0"%char :: r -> r = []).
Proof. intro H. apply to_digits_ok; [lia|]. now apply log_bound. Qed.
Lemma to_digits_back d : forall f, d <> [] -> forallb is_digit d = true -> (forall r, d = "0"%char :: r -> r = []) ->
  py_int d < 2 ^ Z.of_nat f -> (0 < f)%nat -> to_digits f (py_int d) = d.
Proof.
  induction d as [|c d IH] using rev_ind; intros f N D Z L F; [easy|].
  rewrite forallb_app in D. cbn in D. rewrite Bool.andb_true_r in D. apply Bool.andb_true_iff in D as [D C].
  assert (C' : 0 <= code c - 48 < 10) by (unfold is_digit in C; bools; lia).
  assert (CC : digit_char (code c - 48) = c).
  { apply code_inj. destruct (digit_char_ok (code c - 48) C') as [_ ->]. lia. }
  rewrite py_int_snoc in *. destruct f as [|f]; [lia|]. cbn [to_digits]. destruct d as [|x d].
  - cbn [py_int fold_left app] in *. change (py_int []) with 0. rewrite Z.mul_0_r, Z.add_0_l.
    destruct (Z.ltb_spec (code c - 48) 10); [|lia]. now rewrite CC.
  - assert (P : 1 <= py_int (x :: d)).
    { pose proof (py_int_nonneg _ D) as NN.
      assert (X : x <> "0"%char) by (intros ->; specialize (Z (d ++ [c]) eq_refl); apply app_eq_nil in Z as [_ Z]; discriminate).
      clear - X D NN. cbn in D. apply Bool.andb_true_iff in D as [D1 D2].
      assert (G : forall l a, 1 <= a -> forallb is_digit l = true -> 1 <= fold_left (fun a c => 10 * a + (code c - 48)) l a).
      { induction l as [|y l IH]; intros a A H; cbn [fold_left]; [easy|]. cbn in H. apply Bool.andb_true_iff in H as [H1 H2]. apply IH; [|easy].
        unfold is_digit in H1. bools. lia. }
      unfold py_int. cbn [fold_left]. apply G; [|easy].
      assert (code x <> 48) by (intro Q; apply X; now apply zero_char). unfold is_digit in D1. bools. lia. }
    destruct (Z.ltb_spec (10 * py_int (x :: d) + (code c - 48)) 10); [lia|].
    assert (A : (10 * py_int (x :: d) + (code c - 48)) / 10 = py_int (x :: d)).
    { symmetry. apply Z.div_unique with (code c - 48); lia. }
    assert (B : (10 * py_int (x :: d) + (code c - 48)) mod 10 = code c - 48).
    { symmetry. apply Z.mod_unique with (py_int (x :: d)); lia. }
    rewrite A, B, CC. f_equal. apply IH; [easy|easy| | |].
    + intros r Hr. destruct r; [easy|]. exfalso. specialize (Z ((a :: r) ++ [c])). rewrite Hr in Z. specialize (Z eq_refl).
      discriminate.
    + rewrite Nat2Z.inj_succ, Z.pow_succ_r in L by lia. lia.
    + destruct f; [change (2 ^ Z.of_nat 1) with 2 in L; lia|lia].
Qed.
Lemma decimal_iff d n : decimal d n <-> 0 <= n /\ d = py_str n.
Proof.
  unfold decimal, numeral. rewrite digits_of_iff. split.
  - intros [[N [D ->]] Z]. pose proof (py_int_nonneg _ D). split; [easy|].
    symmetry. apply to_digits_back; auto; [now apply log_bound|lia].
  - intros [H ->]. destruct (py_str_ok n H) as (A & B & C & D). auto.
Qed.
Lemma numeral_iff d n : numeral d n <-> d <> [] /\ forallb is_digit d = true /\ n = py_int d.
Proof. unfold numeral. now rewrite digits_of_iff. Qed.

(** ** Spans, matches and words *)
Definition stops (p : ascii -> bool) (r : str) : Prop := match r with [] => True | c :: _ => p c = false end.
Lemma span_app p a r : forallb p a = true -> stops p r -> span p (a ++ r) = (a, r).
Proof.
  induction a as [|c a IH]; cbn.
  - intros _ S. destruct r as [|c r]; [easy|]. cbn in *. now rewrite S.
  - rewrite Bool.andb_true_iff. intros [H K] S. rewrite H, (IH K S). reflexivity.
Qed.
Lemma span_eq p s a r : span p s = (a, r) -> s = a ++ r /\ forallb p a = true /\ stops p r.
Proof.
  revert a r. induction s as [|c s IH]; cbn; intros a r H.
  - injection H as <- <-. now cbn.
  - destruct (p c) eqn:E.
    + destruct (span p s) as [a' r'] eqn:S. injection H as <- <-. destruct (IH _ _ eq_refl) as (-> & B & C).
      cbn. rewrite E, B. auto.
    + injection H as <- <-. cbn. auto.
Qed.
Lemma tf_match_some s d l r : tf_match s = Some (d, l, r) ->
  s = d ++ l ++ r /\ d <> [] /\ l <> [] /\ forallb is_digit d = true /\ forallb is_alpha l = true.
Proof.
  unfold tf_match. destruct (span is_digit s) as [a b] eqn:A. apply span_eq in A as (-> & A & _).
  destruct a; [discriminate|]. destruct (span is_alpha b) as [x y] eqn:B. apply span_eq in B as (-> & B & _).
  destruct x; [discriminate|]. intro H. injection H as <- <- <-. repeat (split; auto; try discriminate).
Qed.
Lemma tf_match_part d l r : d <> [] -> l <> [] -> forallb is_digit d = true -> forallb is_alpha l = true -> stops is_alpha r ->
  tf_match (d ++ l ++ r) = Some (d, l, r).
Proof.
  intros N M D L S. unfold tf_match. rewrite span_app; [|easy|].
  - destruct d; [easy|]. rewrite span_app; [|easy|easy]. destruct l; [easy|]. reflexivity.
  - destruct l as [|c l]; [easy|]. cbn in L |- *. apply Bool.andb_true_iff in L as [L _].
    destruct (is_digit c) eqn:E; [|easy]. apply digit_not_alpha in E. congruence.
Qed.
Lemma findall_fuel f : forall s, (length s <= f)%nat -> findall_n f s = findall s.
Proof.
  assert (G : forall n f g s, (length s <= n)%nat -> (length s <= f)%nat -> (length s <= g)%nat -> findall_n f s = findall_n g s).
  { clear f. induction n as [|n IH]; intros f g s Hn Hf Hg.
    - destruct s; [|cbn in Hn; lia]. now destruct f, g.
    - destruct s as [|c s]; [now destruct f, g|]. destruct f as [|f]; [cbn in Hf; lia|]. destruct g as [|g]; [cbn in Hg; lia|].
      cbn [findall_n]. destruct (tf_match (c :: s)) as [[[d l] r]|] eqn:E.
      + f_equal. apply tf_match_some in E as (E & N & M & _). apply (f_equal (@length _)) in E. rewrite !app_length in E.
        destruct d; [easy|]. cbn in *. apply IH; lia.
      + cbn in *. apply IH; lia. }
  intros s H. unfold findall. now apply (G (length s)).
Qed.
Lemma findall_skip c s : tf_match (c :: s) = None -> findall (c :: s) = findall s.
Proof. intro H. unfold findall at 1. cbn [length findall_n]. rewrite H. now apply findall_fuel. Qed.
Lemma findall_hit s d l r : tf_match s = Some (d, l, r) -> findall s = (d, l) :: findall r.
Proof.
  intro H. pose proof (tf_match_some _ _ _ _ H) as (E & N & _). destruct d as [|c d]; [easy|]. destruct s as [|x s]; [discriminate|].
  unfold findall at 1. cbn [length findall_n]. rewrite H. f_equal. apply findall_fuel.
  apply (f_equal (@length _)) in E. rewrite !app_length in E. cbn in E. lia.
Qed.
Lemma findall_blank w s : forallb is_space w = true -> findall (w ++ s) = findall s.
Proof.
  induction w as [|c w IH]; [easy|]. cbn [forallb app]. rewrite Bool.andb_true_iff. intros [H K].
  rewrite findall_skip; [now apply IH|]. unfold tf_match. cbn. now rewrite (space_not_digit c H).
Qed.
Lemma split_blank w s : forallb is_space w = true -> split_ws (w ++ s) = split_ws s.
Proof.
  induction w as [|c w IH]; [easy|]. cbn [forallb app]. rewrite Bool.andb_true_iff. intros [H K]. cbn. rewrite H. now apply IH.
Qed.
Lemma split_word t r : t <> [] -> forallb (fun c => negb (is_space c)) t = true ->
  (r = [] \/ exists c r', r = c :: r' /\ is_space c = true) -> split_ws (t ++ r) = t :: split_ws r.
Proof.
  induction t as [|c t IH]; [easy|]. intros _ H R. cbn [forallb] in H. apply Bool.andb_true_iff in H as [H K].
  apply Bool.negb_true_iff in H. destruct t as [|c2 t].
  - destruct R as [->|(x & r' & -> & X)]; cbn; rewrite H; [easy|]. now rewrite X.
  - assert (E : split_ws ((c2 :: t) ++ r) = (c2 :: t) :: split_ws r) by (apply IH; [discriminate|easy|easy]).
    cbn [app] in *. cbn [split_ws]. rewrite H.
    assert (X : is_space c2 = false) by (cbn in K; apply Bool.andb_true_iff in K as [K _]; now apply Bool.negb_true_iff).
    rewrite X. cbn [split_ws] in E. rewrite X in E. now rewrite E.
Qed.
(** A word of digits, then letters. *)
Definition lex (t d l : str) : Prop :=
  t = d ++ l /\ d <> [] /\ l <> [] /\ forallb is_digit d = true /\ forallb is_alpha l = true.
Lemma lex_word t d l : lex t d l -> t <> [] /\ forallb (fun c => negb (is_space c)) t = true.
Proof.
  intros (-> & N & M & D & L). split; [now destruct d|]. rewrite forallb_forall. intros c H. apply in_app_iff in H.
  rewrite forallb_forall in D, L. destruct H as [H|H]; [rewrite (digit_not_space c)|rewrite (alpha_not_space c)]; auto.
Qed.
Lemma spaced_lex ws s : spaced ws s -> forall ps, Forall2 (fun t p => lex t (fst p) (snd p)) ws ps ->
  findall s = ps /\ split_ws s = ws.
Proof.
  induction 1 as [w B|w t w' B B'|w t c rest ts B S N _ IH]; intros ps F.
  - inversion F. subst ps. apply blank_iff in B. rewrite <- (app_nil_r w), findall_blank, split_blank by easy. now split.
  - inversion F as [|? p ? ps' L F']. subst. inversion F'. subst. apply blank_iff in B, B'.
    rewrite findall_blank, split_blank by easy. pose proof (lex_word _ _ _ L) as [W1 W2]. destruct p as [d l]. cbn [fst snd] in *.
    split.
    + destruct L as (-> & L1 & L2 & L3 & L4). rewrite <- app_assoc. rewrite (findall_hit _ d l w').
      * rewrite <- (app_nil_r w'), findall_blank by easy. reflexivity.
      * apply tf_match_part; auto. destruct w' as [|c w']; [easy|]. cbn in B' |- *. apply Bool.andb_true_iff in B' as [B' _].
        now apply space_not_alpha.
    + rewrite split_word; auto.
      * rewrite <- (app_nil_r w'), split_blank by easy. reflexivity.
      * destruct w' as [|c w']; [now left|right]. cbn in B'. apply Bool.andb_true_iff in B' as [B' _]. eauto.
  - inversion F as [|? p ? ps' L F']. subst. apply blank_iff in B. apply space_iff in S.
    rewrite findall_blank, split_blank by easy. pose proof (lex_word _ _ _ L) as [W1 W2]. destruct p as [d l]. cbn [fst snd] in *.
    destruct (IH _ F') as [IH1 IH2]. split.
    + destruct L as (-> & L1 & L2 & L3 & L4). rewrite <- app_assoc. rewrite (findall_hit _ d l (c :: rest)).
      * now rewrite IH1.
      * apply tf_match_part; auto. cbn. now apply space_not_alpha.
    + rewrite split_word; auto; [now rewrite IH2|]. right. eauto.
Qed.

(** ** Units *)
Definition unit_name (l : str) : str := match sget (lower l) tf_abbr with Some a => a | None => lower l end.
Lemma unit_cases short long secs : tf_unit short long secs ->
  (short = lit "s" /\ long = lit "sec" /\ secs = 1) \/ (short = lit "m" /\ long = lit "min" /\ secs = 60) \/
  (short = lit "h" /\ long = lit "hour" /\ secs = 3600) \/ (short = lit "d" /\ long = lit "day" /\ secs = 86400) \/
  (short = lit "w" /\ long = lit "week" /\ secs = 604800).
Proof. unfold tf_unit. cbn [In]. intros [H|[H|[H|[H|[H|[]]]]]]; injection H as <- <- <-; tauto. Qed.
Lemma sget_in {V} k (l : list (str * V)) v : sget k l = Some v -> In (k, v) l.
Proof.
  induction l as [|[k' v'] l IH]; [discriminate|]. cbn [sget]. destruct (str_eqb k k') eqn:E.
  - apply str_eqb_iff in E. subst k'. intro H. injection H as ->. now left.
  - intro H. right. auto.
Qed.
Lemma unit_name_iff l u : In u tf_units ->
  (unit_name l = u <-> exists short secs, tf_unit short u secs /\ (same_text l short \/ same_text l u)).
Proof.
  intro U. split.
  - unfold unit_name. destruct (sget (lower l) tf_abbr) as [a|] eqn:E.
    + intros ->. apply sget_in in E.
      unfold tf_abbr in E. cbn [In] in E. destruct E as [E|[E|[E|[E|[E|[]]]]]]; injection E as E <-;
        eexists _, _; (split; [unfold tf_unit; cbn [In]; eauto 8|left; apply same_text_iff; rewrite <- E; reflexivity]).
    + intro H. unfold tf_units, tf_abbr in U. cbn [map snd In] in U.
      destruct U as [U|[U|[U|[U|[U|[]]]]]]; subst u;
        eexists _, _; (split; [unfold tf_unit; cbn [In]; eauto 8|right; apply same_text_iff; rewrite H; reflexivity]).
  - intros (short & secs & T & H). unfold unit_name.
    destruct H as [H|H]; apply same_text_iff in H; rewrite H;
      destruct (unit_cases _ _ _ T) as [(-> & -> & _)|[(-> & -> & _)|[(-> & -> & _)|[(-> & -> & _)|(-> & -> & _)]]]]; reflexivity.
Qed.
Lemma unit_in short u secs : tf_unit short u secs -> In u tf_units.
Proof.
  intro T. destruct (unit_cases _ _ _ T) as [(_ & -> & _)|[(_ & -> & _)|[(_ & -> & _)|[(_ & -> & _)|(_ & -> & _)]]]];
    unfold tf_units, tf_abbr; cbn [map snd In]; tauto.
Qed.
Lemma unit_letters short u secs l : tf_unit short u secs -> same_text l short \/ same_text l u ->
  l <> [] /\ forallb is_alpha l = true.
Proof.
  intros T H.
  assert (G : forall x, x <> [] -> forallb is_alpha x = true -> same_text l x -> l <> [] /\ forallb is_alpha l = true).
  { intros x N A S. split; [intros ->; inversion S; congruence|]. clear - A S. induction S as [|a b s t S1 S2 IH]; [easy|].
    cbn in *. apply Bool.andb_true_iff in A as [A1 A2]. apply same_char_iff in S1. rewrite (letter_lower a b), IH; auto. }
  destruct (unit_cases _ _ _ T) as [(-> & -> & _)|[(-> & -> & _)|[(-> & -> & _)|[(-> & -> & _)|(-> & -> & _)]]]];
    destruct H as [H|H]; (eapply G; [| |exact H]; [discriminate|reflexivity]).
Qed.
Lemma part_lex t p : part_text t p -> exists d l, lex t d l /\ fst p = py_int d /\ unit_name l = snd p /\ In (snd p) tf_units.
Proof.
  intros (d & l & short & secs & E & N & T & S). exists d, l. apply numeral_iff in N as (N & D & ->).
  destruct (unit_letters _ _ _ _ T S) as [M L]. split; [unfold lex; auto|]. split; [easy|].
  pose proof (unit_in _ _ _ T) as U. split; [|easy]. apply unit_name_iff; [easy|]. exists short, secs. auto.
Qed.
Lemma lex_part t d l u : lex t d l -> unit_name l = u -> In u tf_units -> part_text t (py_int d, u).
Proof.
  intros (E & N & M & D & L) H U. apply unit_name_iff in H as (short & secs & T & S); [|easy].
  exists d, l, short, secs. split; [easy|]. split; [now apply numeral_iff|]. auto.
Qed.

(** ** parse_timeframe *)
Lemma parse_parts_iff parts : forall seen res, parse_parts parts seen = Some res <->
  res = map (fun p => (py_int (fst p), unit_name (snd p))) parts /\
  Forall (fun p => In (unit_name (snd p)) tf_units) parts /\ NoDup (map snd res) /\ (forall u, In u (map snd res) -> ~ In u seen).
Proof.
  induction parts as [|[d l] parts IH]; intros seen res; cbn [parse_parts].
  - cbn. split; [intro H; injection H as <-|intros (-> & _); easy].
    split; [easy|]. split; [constructor|]. split; [constructor|]. easy.
  - fold (unit_name l). destruct (str_in (unit_name l) tf_units) eqn:U; cbn [negb].
    2:{ split; [discriminate|]. intros (_ & F & _). apply Forall_inv in F. cbn [snd] in F. apply str_in_iff in F. congruence. }
    apply str_in_iff in U. destruct (str_in (unit_name l) seen) eqn:S.
    { split; [discriminate|]. intros (-> & _ & _ & X). apply str_in_iff in S. exfalso. apply (X (unit_name l)); [now left|easy]. }
    apply str_in_false in S. destruct (parse_parts parts (unit_name l :: seen)) as [t|] eqn:P.
    + apply IH in P as (-> & F & N & X). split.
      * intro H. injection H as <-. cbn [map fst snd]. split; [easy|]. split; [now constructor|]. split.
        { constructor; [intro K; apply (X _ K); now left|easy]. }
        intros u [<-|K]; [easy|]. intro Q. apply (X u K). now right.
      * intros (-> & _). reflexivity.
    + split; [discriminate|]. intros (-> & F & N & X). inversion F. subst. cbn in N. inversion N. subst.
      enough (parse_parts parts (unit_name l :: seen) = Some (map (fun p => (py_int (fst p), unit_name (snd p))) parts)) by congruence.
      apply IH. split; [easy|]. split; [easy|]. split; [easy|]. intros u K [<-|Q]; [easy|]. apply (X u); [now right|easy].
Qed.
(** The parts of a string whose words are digits and letters. *)
Lemma parse_words ws s ps res : ws <> [] -> spaced ws s -> Forall2 (fun t p => lex t (fst p) (snd p)) ws ps ->
  (parse_timeframe s = Some res <->
   res = map (fun p => (py_int (fst p), unit_name (snd p))) ps /\
   Forall (fun p => In (unit_name (snd p)) tf_units) ps /\ NoDup (map snd res)).
Proof.
  intros N S F. destruct (spaced_lex _ _ S _ F) as [A B]. unfold parse_timeframe. rewrite A, B.
  assert (L : length ws = length ps) by (clear - F; induction F; cbn; congruence). rewrite <- L, Nat.eqb_refl.
  destruct (Nat.eqb_spec (length ws) 0) as [E|E]; [destruct ws; [easy|discriminate]|]. cbn [orb negb].
  rewrite parse_parts_iff. split; [intros (H1 & H2 & H3 & _)|intros (H1 & H2 & H3)]; auto.
Qed.
Lemma timeframe_parses s parts : timeframe s parts -> parse_timeframe s = Some parts.
Proof.
  intros (ws & N & S & F & D).
  assert (G : exists ps : list (str * str), Forall2 (fun t p => lex t (fst p) (snd p)) ws ps /\
                         parts = map (fun p => (py_int (fst p), unit_name (snd p))) ps /\
                         Forall (fun p => In (unit_name (snd p)) tf_units) ps).
  { clear - F. induction F as [|t p ws parts P F (ps & A & B & C)].
    - exists []. repeat split; constructor.
    - apply part_lex in P as (d & l & L & E1 & E2 & U). exists ((d, l) :: ps). split; [now constructor|]. split.
      + cbn [map fst snd]. rewrite B, E2, <- E1. now destruct p.
      + constructor; [cbn; now rewrite E2|easy]. }
  destruct G as (ps & A & B & C). rewrite (parse_words ws s ps parts N S A). auto.
Qed.
Lemma parse_result s parts : parse_timeframe s = Some parts ->
  parts <> [] /\ NoDup (map snd parts) /\ Forall (fun p => 0 <= fst p /\ In (snd p) tf_units) parts.
Proof.
  unfold parse_timeframe. destruct (Nat.eqb (length (findall s)) 0) eqn:E; cbn [orb]; [discriminate|].
  destruct (negb _); [discriminate|]. rewrite parse_parts_iff. intros (-> & F & N & _). split; [|split; [easy|]].
  - destruct (findall s); [discriminate|]. discriminate.
  - assert (G : forall f x p, In p (findall_n f x) -> forallb is_digit (fst p) = true).
    { clear. induction f as [|f IH]; intros x p H; [easy|]. cbn in H. destruct x as [|c x]; [easy|].
      destruct (tf_match (c :: x)) as [[[d l] r]|] eqn:T; [|eauto]. destruct H as [<-|H]; [|eauto].
      apply tf_match_some in T. cbn. tauto. }
    rewrite Forall_forall in *. intros p H. apply in_map_iff in H as (q & <- & Q). cbn. split; [|now apply F].
    apply py_int_nonneg. now apply (G (length s) s).
Qed.
Lemma parse_guarded ws s parts : ws <> [] -> spaced ws s ->
  (forall w, In w ws -> exists d l, w = d ++ l /\ d <> [] /\ l <> [] /\ Forall digit d /\ Forall letter l) ->
  parse_timeframe s = Some parts -> timeframe s parts.
Proof.
  intros N S W P.
  assert (G : exists ps : list (str * str), Forall2 (fun t p => lex t (fst p) (snd p)) ws ps).
  { clear - W. induction ws as [|w ws IH]; [exists []; constructor|]. destruct IH as [ps IH]; [intros; apply W; now right|].
    destruct (W w) as (d & l & E & A & B & C & D); [now left|]. exists ((d, l) :: ps). constructor; [|easy].
    unfold lex. cbn. rewrite !forallb_forall. rewrite Forall_forall in C, D. repeat (split; [easy|]).
    split; intros c H; [apply digit_iff|apply letter_iff]; auto. }
  destruct G as [ps F]. pose proof (proj1 (parse_words ws s ps parts N S F) P) as (E & U & D). revert D. rewrite E. intro D. exists ws. split; [exact N|]. split; [easy|].
  split; [|easy]. clear - F U. induction F as [|t p ws ps L F IH]; cbn; [constructor|]. inversion U. subst. constructor; [|auto].
  destruct p as [d l]. now apply lex_part with l.
Qed.

(** ** to_seconds *)
Lemma unit_seconds_get short u secs : tf_unit short u secs -> sget u tf_seconds = Some secs.
Proof.
  intro T. destruct (unit_cases _ _ _ T) as [(_ & -> & ->)|[(_ & -> & ->)|[(_ & -> & ->)|[(_ & -> & ->)|(_ & -> & ->)]]]]; reflexivity.
Qed.
Lemma unit_exists u : In u tf_units -> exists short secs, tf_unit short u secs.
Proof.
  intro U. unfold tf_units, tf_abbr in U. cbn [map snd In] in U.
  destruct U as [U|[U|[U|[U|[U|[]]]]]]; subst u; eexists _, _; unfold tf_unit; cbn [In]; eauto 8.
Qed.
Lemma sum_seconds_ok parts ks : Forall2 part_seconds parts ks -> sum_seconds parts = Some (fold_right Z.add 0 ks).
Proof.
  induction 1 as [|[n u] k parts ks (short & secs & T & E) F IH]; [easy|]. cbn [sum_seconds fst snd fold_right] in *.
  rewrite (unit_seconds_get _ _ _ T), IH. now subst k.
Qed.
Lemma parts_seconds parts : Forall (fun p => In (snd p) tf_units) parts -> exists ks, Forall2 part_seconds parts ks.
Proof.
  induction 1 as [|p parts U F [ks IH]]; [exists []; constructor|]. destruct (unit_exists _ U) as (short & secs & T).
  exists (fst p * secs :: ks). constructor; [exists short, secs; auto|easy].
Qed.

(** ** Formatting *)
Definition part_str (p : Z * str) : str := let '(n, u) := p in py_str n ++ u.
Lemma part_str_text p : 0 <= fst p -> In (snd p) tf_units -> part_text (part_str p) p.
Proof.
  destruct p as [n u]. cbn. intros H U. destruct (unit_exists _ U) as (short & secs & T).
  exists (py_str n), u, short, secs. split; [easy|]. split; [apply decimal_iff; auto|]. split; [easy|]. right. now apply same_text_iff.
Qed.
Lemma spaced_pad ws s c : spaced ws s -> space c -> spaced ws (c :: s).
Proof.
  intros S C. destruct S as [x B|x t x' B B'|x t c' rest ts B P N S].
  - apply sp_nil. constructor; [exact C|exact B].
  - apply (sp_one (c :: x)); [now constructor|easy].
  - apply (sp_more (c :: x)); auto. now constructor.
Qed.
Lemma join_spaced ws : ws <> [] -> spaced ws (join_space ws).
Proof.
  induction ws as [|w ws IH]; [easy|]. intros _. destruct ws as [|w2 ws].
  - cbn. rewrite <- (app_nil_r w) at 2. apply (sp_one [] w []); constructor.
  - change (join_space (w :: w2 :: ws)) with ([] ++ w ++ (" "%char :: join_space (w2 :: ws))).
    assert (C : space " "%char) by now left.
    apply sp_more; [constructor|exact C|discriminate|]. apply spaced_pad; [|exact C]. apply IH. discriminate.
Qed.
Lemma format_roundtrip s f : parse_timeframe s = Some f -> parse_timeframe (join_space (map part_str f)) = Some f.
Proof.
  intro H. destruct (parse_result _ _ H) as (N & D & F). apply timeframe_parses. exists (map part_str f).
  assert (M : map part_str f <> []) by (destruct f; [easy|discriminate]).
  split; [easy|]. split; [now apply join_spaced|]. split; [|easy].
  clear - F. induction F as [|p f [A B] F IH]; cbn; constructor; auto. now apply part_str_text.
Qed.
