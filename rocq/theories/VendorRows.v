(** From AKShare's answers to the rows of the frame. *)
From Verif Require Export VendorProofs.
Import ListNotations.
Open Scope list_scope.
Open Scope Z_scope.

Section Rows.
Variable vendor : call -> answer.
Variable to_datetime : cell -> option cell.

(** ** Symbols *)
Lemma bare_nodot s : unlisted s -> bare s = s /\ exchange s = [].
Proof.
  unfold unlisted. induction s as [|c r IH]; cbn; [easy|]. intro N. destruct (Ascii.eqb c "."%char) eqn:E.
  - apply Ascii.eqb_eq in E. exfalso. apply N. now left.
  - destruct IH as [A B]; [intro I; apply N; now right|]. now rewrite A, B.
Qed.
Lemma bare_listed s code exch : listed s code exch -> bare s = code /\ exchange s = exch.
Proof.
  intros [N ->]. induction code as [|c r IH]; cbn; [easy|]. destruct (Ascii.eqb c "."%char) eqn:E.
  - apply Ascii.eqb_eq in E. exfalso. apply N. now left.
  - destruct IH as [A B]; [intro I; apply N; now right|]. now rewrite A, B.
Qed.
Lemma dot_dec s : unlisted s \/ listed s (bare s) (exchange s).
Proof.
  unfold unlisted, listed. induction s as [|c r IH]; cbn; [now left|]. destruct (Ascii.eqb c "."%char) eqn:E.
  - apply Ascii.eqb_eq in E. subst c. right. now split.
  - apply Ascii.eqb_neq in E. destruct IH as [N|[N R]]; [left|right].
    + intros [X|X]; [congruence|easy].
    + split; [intros [X|X]; [congruence|easy]|]. exact (f_equal (cons c) R).
Qed.
Lemma has_code_iff s code : has_code s code <-> code = bare s.
Proof.
  split.
  - intros [[<- U]|[exch L]]; [now destruct (bare_nodot _ U)|now destruct (bare_listed _ _ _ L)].
  - intros ->. destruct (dot_dec s) as [U|L]; [left; now destruct (bare_nodot _ U)|right; now exists (exchange s)].
Qed.
Lemma six_iff s : starts_with_6 s = true <-> six s.
Proof.
  unfold starts_with_6, six. destruct s as [|c r]; [split; [easy|intros [x H]; easy]|]. rewrite Ascii.eqb_eq. split.
  - intros ->. now exists r.
  - intros [x H]. now injection H.
Qed.
Lemma sh_iff s : str_eqb (exchange s) (lit "SH") = true <-> listed s (bare s) (lit "SH").
Proof.
  rewrite str_eqb_iff. split.
  - intro E. destruct (dot_dec s) as [U|L]; [destruct (bare_nodot _ U) as [_ X]; rewrite X in E; discriminate|now rewrite <- E].
  - intro L. now destruct (bare_listed _ _ _ L).
Qed.
Lemma second_iff s code tx : has_code s code -> (second_name s code tx <-> tx = to_tx_symbol s).
Proof.
  intro C. apply has_code_iff in C. subst code. unfold second_name, to_tx_symbol. rewrite <- six_iff, <- sh_iff, <- orb_true_iff.
  destruct (str_eqb (exchange s) (lit "SH") || starts_with_6 (bare s)); intuition congruence.
Qed.

(** ** Calls *)
Lemma daily_dec p : {p = lit "daily"} + {p <> lit "daily"}.
Proof. apply list_eq_dec, ascii_dec. Qed.
Lemma fetch_symbol_iff s a b p j calls t :
  fetch_symbol vendor s a b p j = (calls, Ok t) <-> answers vendor a b p j s calls t.
Proof.
  assert (C : has_code s (bare s)) by now apply has_code_iff.
  assert (T : second_name s (bare s) (to_tx_symbol s)) by now apply second_iff.
  unfold fetch_symbol. split.
  - destruct (vendor (Hist (bare s) a b p j)) as [u| |] eqn:V; intro E.
    + injection E as <- <-. now apply by_first.
    + destruct (str_eqb p (lit "daily")) eqn:D; cbn [negb] in E; [|discriminate]. apply str_eqb_iff in D.
      destruct (vendor (Hist_tx (to_tx_symbol s) a b j)) as [u| |] eqn:W; try discriminate. injection E as <- <-. now apply by_second.
    + discriminate.
  - intros [code u X V|code tx u X V D N W]; pose proof X as Y; apply has_code_iff in Y; subst code.
    + now rewrite V.
    + apply (second_iff _ _ _ X) in N. subst. rewrite V. assert (E : str_eqb (lit "daily") (lit "daily") = true) by comp.
      rewrite E. cbn [negb]. now rewrite W.
Qed.
Lemma fetch_symbol_fails s a b p j calls e :
  fetch_symbol vendor s a b p j = (calls, Raises e) <-> fails vendor a b p j s calls e.
Proof.
  assert (C : has_code s (bare s)) by now apply has_code_iff.
  assert (T : second_name s (bare s) (to_tx_symbol s)) by now apply second_iff.
  unfold fetch_symbol. split.
  - destruct (vendor (Hist (bare s) a b p j)) as [u| |] eqn:V; intro E.
    + discriminate.
    + destruct (str_eqb p (lit "daily")) eqn:D; cbn [negb] in E.
      * apply str_eqb_iff in D. destruct (vendor (Hist_tx (to_tx_symbol s) a b j)) as [u| |] eqn:W; try discriminate; injection E as <- <-;
          apply f_second; auto.
      * injection E as <- <-. apply f_not_daily; auto. intros ->. discriminate D.
    + injection E as <- <-. now apply f_broken.
  - intros [code X V|code X V D|code tx e' X V D N W]; pose proof X as Y; apply has_code_iff in Y; subst code.
    + now rewrite V.
    + rewrite V. now rewrite (str_eqb_neq _ _ D).
    + apply (second_iff _ _ _ X) in N. subst. rewrite V. assert (E : str_eqb (lit "daily") (lit "daily") = true) by comp.
      rewrite E. cbn [negb]. now destruct W as [[-> ->]|[-> ->]].
Qed.
(** The frame that the loop keeps of an answer. *)
Definition kept (s : str) (t : table) : list table :=
  match t_cols t with [] => [] | _ => [with_symbol s (rename (new_name t) t)] end.
Definition kept_all (l : list (str * table)) : list table := flat_map (fun x => kept (fst x) (snd x)) l.
Lemma fetch_all_ok syms a b p j : forall calls frames,
  fetch_all vendor syms a b p j = (calls, Ok frames) ->
  exists l, Forall2 (fun s x => answers vendor a b p j s (fst x) (snd x)) syms l
            /\ calls = flat_map fst l /\ frames = kept_all (combine syms (map snd l)).
Proof.
  induction syms as [|s r IH]; intros calls frames; cbn [fetch_all].
  - intro E. injection E as <- <-. now exists [].
  - destruct (fetch_symbol vendor s a b p j) as [cs [t|e]] eqn:F; [|discriminate].
    destruct (fetch_all vendor r a b p j) as [cs' [ts|e]] eqn:G; [|discriminate].
    intro E. injection E as <- <-. destruct (IH _ _ eq_refl) as (l & A & -> & ->). exists ((cs, t) :: l).
    split; [constructor; [now apply fetch_symbol_iff|easy]|]. split; [easy|]. cbn. unfold kept. cbn. now destruct (t_cols t).
Qed.
Lemma fetch_all_raises syms a b p j : forall calls e,
  fetch_all vendor syms a b p j = (calls, Raises e) ->
  exists pre s post l cs, syms = pre ++ s :: post /\ Forall2 (fun s x => answers vendor a b p j s (fst x) (snd x)) pre l
                     /\ fails vendor a b p j s cs e /\ calls = flat_map fst l ++ cs.
Proof.
  induction syms as [|s r IH]; intros calls e; cbn [fetch_all]; [discriminate|].
  destruct (fetch_symbol vendor s a b p j) as [cs [t|e']] eqn:F.
  - destruct (fetch_all vendor r a b p j) as [cs' [ts|e2]] eqn:G; [discriminate|].
    intro E. injection E as <- <-. destruct (IH _ _ eq_refl) as (pre & x & post & l & cx & -> & A & B & ->).
    exists (s :: pre), x, post, ((cs, t) :: l), cx. split; [easy|]. split; [constructor; [now apply fetch_symbol_iff|easy]|].
    split; [easy|]. cbn. now rewrite app_assoc.
  - intro E. injection E as <- <-. apply fetch_symbol_fails in F. exists [], s, r, [], cs. easy.
Qed.
Lemma fetch_all_answered syms a b p j l :
  Forall2 (fun s x => answers vendor a b p j s (fst x) (snd x)) syms l ->
  fetch_all vendor syms a b p j = (flat_map fst l, Ok (kept_all (combine syms (map snd l)))).
Proof.
  intro H. induction H as [|s [cs t] syms l A _ IH]; [reflexivity|]. cbn [fetch_all]. apply fetch_symbol_iff in A. cbn in A. rewrite A, IH.
  cbn. unfold kept. cbn. now destruct (t_cols t).
Qed.

(** ** Rows *)
Lemma traverse_app {A B} (f : A -> option B) x y l : traverse f (x ++ y) = Some l ->
  exists u v, l = u ++ v /\ traverse f x = Some u /\ traverse f y = Some v.
Proof.
  revert l. induction x as [|a r IH]; intros l; cbn; [intro H; now exists [], l|].
  destruct (f a) as [b|]; [|discriminate]. destruct (traverse f (r ++ y)) as [t|]; [|discriminate]. intro H. injection H as <-.
  destruct (IH _ eq_refl) as (u & v & -> & -> & ->). now exists (b :: u), v.
Qed.
Lemma traverse_forall2 {A B} (f : A -> option B) x : forall l, traverse f x = Some l -> Forall2 (fun a b => f a = Some b) x l.
Proof.
  induction x as [|a r IH]; intros l; cbn; [intro H; injection H as <-; constructor|].
  destruct (f a) as [b|] eqn:F; [|discriminate]. destruct (traverse f r) as [t|]; [|discriminate]. intro H. injection H as <-.
  constructor; [easy|]. now apply IH.
Qed.
Lemma traverse_some {A B} (f : A -> option B) x : (forall a, In a x -> f a <> None) -> exists l, traverse f x = Some l.
Proof.
  induction x as [|a r IH]; cbn; intro H; [now exists []|]. destruct (f a) as [b|] eqn:F; [|exfalso; apply (H a); [now left|easy]].
  destruct IH as [l ->]; [intros x I; apply H; now right|]. now exists (b :: l).
Qed.
Lemma forall2_map_l {A B C} (g : A -> C) (P : C -> B -> Prop) x : forall y, Forall2 P (map g x) y -> Forall2 (fun a b => P (g a) b) x y.
Proof. induction x as [|a r IH]; intros y H; inversion H; constructor; auto. Qed.
Lemma forall2_impl {A B} (P Q : A -> B -> Prop) x y : (forall a b, P a b -> Q a b) -> Forall2 P x y -> Forall2 Q x y.
Proof. intros H F. induction F; constructor; auto. Qed.

Definition frame_of (s : str) (t : table) : table := with_symbol s (rename (new_name t) t).
Lemma frame_cols s t c : In c (t_cols (frame_of s t)) <-> c = SYMBOL \/ exists k, In k (t_cols t) /\ new_name t k = c.
Proof.
  unfold frame_of, with_symbol, rename. cbn [t_cols]. destruct (has SYMBOL (map (new_name t) (t_cols t))) eqn:H.
  - apply has_iff in H. rewrite in_map_iff. split.
    + intros (k & E & I). right. now exists k.
    + intros [->|(k & I & E)]; [now apply in_map_iff in H|now exists k].
  - rewrite in_app_iff, in_map_iff. cbn. split.
    + intros [(k & E & I)|[E|[]]]; [right; now exists k|now left].
    + intros [->|(k & I & E)]; [right; now left|left; now exists k].
Qed.
Lemma frame_nodup s t : NoDup (t_cols (frame_of s t)) -> NoDup (map (new_name t) (t_cols t)).
Proof.
  unfold frame_of, with_symbol, rename. cbn [t_cols]. destruct (has SYMBOL (map (new_name t) (t_cols t))); [easy|].
  generalize (map (new_name t) (t_cols t)). intro l. induction l as [|c r IH]; [constructor|]. cbn. intro N. inversion N as [|? ? A B]. subst.
  constructor; [intro I; apply A; apply in_or_app; now left|auto].
Qed.
Lemma nodup_injective (f : column -> column) l a b : NoDup (map f l) -> In a l -> In b l -> f a = f b -> a = b.
Proof.
  intros N A B E. pose proof (find_rename f l a N A) as X. rewrite E in X. rewrite (find_rename f l b N B) in X. congruence.
Qed.
Lemma new_name_holds t f c : NoDup (map (new_name t) (t_cols t)) -> In f fields ->
  (In c (t_cols t) /\ new_name t c = f <-> holds t f c).
Proof.
  intros N F. rewrite (new_name_iff t f c F). unfold holds. split; intros [I H]; (split; [easy|]); destruct H as [H|(-> & -> & H)]; try (now left).
  - right. split; [easy|]. split; [easy|]. intros k K X. inversion X; subst; [easy|].
    assert (E : AMOUNT = Chengjiaoliang); [|discriminate E].
    apply (nodup_injective (new_name t) (t_cols t)); auto.
    rewrite (proj2 (new_name_iff t VOLUME AMOUNT F)); [|right; easy]. symmetry. apply (new_name_iff t VOLUME _ F). now left.
  - right. split; [easy|]. split; [easy|]. intro I'. apply (H VOLUME I'). constructor. cbn. tauto.
Qed.
Lemma masked_forall2 (P : row -> row -> Prop) s t rows :
  Forall2 P (masked (frame_of s t)) rows ->
  Forall2 (fun v r => P (fun c => if has c (t_cols (frame_of s t)) then
                                 if column_eqb c SYMBOL then Some (Word s)
                                 else match find (fun k => column_eqb (new_name t k) c) (t_cols t) with Some k => v k | None => None end
                               else None) r) (t_rows t) rows.
Proof.
  unfold masked, frame_of at 2. unfold with_symbol, rename. cbn [t_rows]. rewrite !map_map. intro H. now apply forall2_map_l in H.
Qed.
Lemma frame_rows s t rows : NoDup (t_cols (frame_of s t)) ->
  Forall2 (fun r r' => parse_date to_datetime r = Some r') (masked (frame_of s t)) rows ->
  Forall2 (bar_of to_datetime s t) (t_rows t) rows.
Proof.
  intros N H. apply masked_forall2 in H. apply frame_nodup in N as M. revert H. apply forall2_impl. intros v r.
  set (row0 := fun c => _ : option cell). intro H.
  assert (S0 : row0 SYMBOL = Some (Word s)).
  { unfold row0. rewrite (proj2 (has_iff _ _)); [reflexivity|]. apply frame_cols. now left. }
  assert (Hc : forall f c, In f fields -> holds t f c -> row0 f = v c).
  { intros f c F Hd. apply (new_name_holds t f c M F) in Hd as [I E]. unfold row0.
    rewrite (proj2 (has_iff _ _)); [|apply frame_cols; right; now exists c].
    rewrite (proj2 (column_eqb_false _ _)) by now apply field_symbol. rewrite <- E, (find_rename _ _ _ M I). reflexivity. }
  assert (Hn : forall f, In f fields -> (forall c, ~ holds t f c) -> row0 f = None).
  { intros f F Hd. unfold row0. rewrite (proj2 (has_false _ _)); [easy|]. intro I. apply frame_cols in I as [->|(k & I & E)].
    - now apply field_symbol in F.
    - apply (Hd k). now apply (new_name_holds t f k M F). }
  assert (Pd : r SYMBOL = row0 SYMBOL /\ (forall f, f <> DATE -> r f = row0 f) /\ becomes to_datetime DATE (row0 DATE) (r DATE)).
  { unfold parse_date in H. destruct (row0 DATE) as [x|] eqn:D.
    - destruct (to_datetime x) as [d|] eqn:T; [|discriminate]. injection H as <-.
      split; [reflexivity|]. split; [intros f F; now rewrite (proj2 (column_eqb_false _ _) F)|].
      cbn -[column_eqb]. rewrite column_eqb_refl. exists d. easy.
    - injection H as <-. split; [easy|]. split; [easy|]. cbn. exact D. }
  destruct Pd as (P1 & P2 & P3). split; [now rewrite P1|]. intros f F. split.
  - intros c Hd. rewrite <- (Hc f c F Hd). destruct (column_eqb f DATE) eqn:E.
    + apply column_eqb_iff in E. now subst.
    + rewrite P2 by now apply column_eqb_false. unfold becomes. rewrite E. now destruct (row0 f).
  - intro Hd. specialize (Hn f F Hd). destruct (column_eqb f DATE) eqn:E.
    + apply column_eqb_iff in E. subst. rewrite Hn in P3. exact P3.
    + rewrite P2 by now apply column_eqb_false. exact Hn.
Qed.

(** ** The frame *)
Lemma union_in c a b : In c (union a b) <-> In c a \/ In c b.
Proof.
  unfold union. rewrite in_app_iff, filter_In, negb_true_iff, has_false. split; [tauto|]. intros [H|H]; [now left|].
  destruct (has c a) eqn:E; [apply has_iff in E; now left|apply has_false in E; now right].
Qed.
Lemma columns_of_in l c : In c (columns_of l) <-> exists t, In t l /\ In c (t_cols t).
Proof.
  unfold columns_of.
  assert (G : forall a, In c (fold_left (fun a t => union a (t_cols t)) l a) <-> In c a \/ exists t, In t l /\ In c (t_cols t)).
  { induction l as [|t r IH]; intro a; cbn; [split; [now left|intros [H|(t & [] & _)]; easy]|]. rewrite IH, union_in. split.
    - intros [[H|H]|(u & I & H)]; [now left|right; exists t; auto|right; exists u; auto].
    - intros [H|(u & [->|I] & H)]; [auto|auto|right; now exists u]. }
  rewrite G. cbn. tauto.
Qed.
Lemma kept_in l f : In f (kept_all l) -> exists s t, In (s, t) l /\ t_cols t <> [] /\ f = frame_of s t.
Proof.
  unfold kept_all. rewrite in_flat_map. intros ([s t] & I & H). unfold kept in H. cbn in H. exists s, t. split; [easy|].
  destruct (t_cols t); [easy|]. destruct H as [H|[]]. easy.
Qed.
Lemma in_kept l s t : In (s, t) l -> t_cols t <> [] -> In (frame_of s t) (kept_all l).
Proof.
  intros I N. unfold kept_all. apply in_flat_map. exists (s, t). split; [easy|]. unfold kept. cbn. destruct (t_cols t); [easy|]. now left.
Qed.
Lemma rows_of_kept l : forall rows, forallb (fun t => no_duplicates (t_cols t)) (kept_all l) = true ->
  traverse (parse_date to_datetime) (flat_map masked (kept_all l)) = Some rows ->
  exists blocks, Forall2 (fun x b => bars_of to_datetime (fst x) (snd x) b) l blocks /\ rows = concat blocks.
Proof.
  induction l as [|[s t] r IH]; intros rows; cbn [kept_all flat_map].
  - intros _ H. injection H as <-. exists []. split; [constructor|easy].
  - change (flat_map (fun x => kept (fst x) (snd x)) r) with (kept_all r). rewrite forallb_app, flat_map_app.
    intros H T. apply andb_true_iff in H as [H1 H2]. apply traverse_app in T as (u & v & -> & T1 & T2).
    destruct (IH _ H2 T2) as (blocks & B & ->). exists (u :: blocks). split; [|easy]. constructor; [|easy]. cbn [fst snd].
    unfold kept in *. cbn [fst snd] in *. destruct (t_cols t) as [|c cs] eqn:C.
    + left. cbn in T1. injection T1 as <-. easy.
    + right. split; [congruence|]. cbn in H1. rewrite andb_true_r in H1. apply no_duplicates_iff in H1.
      cbn in T1. rewrite app_nil_r in T1. apply frame_rows; [exact H1|]. now apply traverse_forall2.
Qed.
Lemma assemble_ok l t : assemble to_datetime (kept_all l) = Ok t ->
  t_cols t = canonical /\
  exists blocks, Forall2 (fun x b => bars_of to_datetime (fst x) (snd x) b) l blocks /\ t_rows t = concat blocks.
Proof.
  unfold assemble. destruct (kept_all l) as [|f fs] eqn:K.
  - intro E. injection E as <-. split; [easy|]. cbn [t_rows]. apply rows_of_kept; rewrite K; reflexivity.
  - destruct (forallb _ (f :: fs)) eqn:D; cbn [negb]; [|discriminate].
    destruct (has DATE _); cbn [negb]; [|discriminate].
    destruct (traverse _ _) as [rows|] eqn:T; [|discriminate].
    destruct (forallb _ canonical); [|discriminate]. intro E. injection E as <-. split; [easy|]. cbn [t_rows].
    apply rows_of_kept; [now rewrite K|]. rewrite K. exact T.
Qed.

Lemma cget_values c l d : cget c l = Some d -> In d (map snd l).
Proof.
  induction l as [|[k v] r IH]; cbn; [discriminate|]. destruct (column_eqb c k); [intro E; injection E as <-; now left|]. intro H. right. auto.
Qed.
Lemma new_name_other t c : ~ In (new_name t c) fields -> new_name t c = c.
Proof.
  unfold new_name. intro N. destruct (cget c _) as [d|] eqn:E; [|easy]. exfalso. apply N. apply cget_values in E.
  destruct (has VOLUME (t_cols t)); [|rewrite map_app, in_app_iff in E; destruct E as [E|E]]; cbn in E; cbn;
    repeat (destruct E as [<-|E]; [tauto|]); easy.
Qed.
Lemma field_dec c : In c fields \/ ~ In c fields.
Proof.
  destruct (has c fields) eqn:E; [left; now apply has_iff|right; now apply has_false].
Qed.
Lemma clear_injective t a b : clear t -> In a (t_cols t) -> In b (t_cols t) -> new_name t a = new_name t b -> a = b.
Proof.
  intros (_ & C2 & C3) A B E. destruct (field_dec (new_name t a)) as [F|F].
  - assert (X : named (new_name t a) a \/ new_name t a = VOLUME /\ a = AMOUNT /\ ~ In VOLUME (t_cols t)) by now apply new_name_iff.
    assert (Y : named (new_name t a) b \/ new_name t a = VOLUME /\ b = AMOUNT /\ ~ In VOLUME (t_cols t))
      by (apply new_name_iff; congruence).
    destruct X as [X|(X & -> & N)], Y as [Y|(Y & -> & N')]; [now apply (C2 _ _ _ A B X Y)| | |easy].
    + rewrite Y in X. inversion X; subst; [easy|]. now apply C3 in A.
    + rewrite X in Y. inversion Y; subst; [easy|]. now apply C3 in B.
  - pose proof (new_name_other t a F) as X. rewrite E in F. pose proof (new_name_other t b F) as Y. congruence.
Qed.
Lemma nodup_map_on (f : column -> column) l : NoDup l -> (forall a b, In a l -> In b l -> f a = f b -> a = b) -> NoDup (map f l).
Proof.
  induction l as [|c r IH]; intros N H; [constructor|]. inversion N as [|? ? A B]. subst. cbn. constructor.
  - rewrite in_map_iff. intros (k & E & I). apply A. rewrite <- (H k c); [easy|now right|now left|easy].
  - apply IH; [easy|]. intros a b I J. apply H; now right.
Qed.
Lemma nodup_snoc (c : column) l : NoDup l -> ~ In c l -> NoDup (l ++ [c]).
Proof.
  intros N. induction N as [|x l H N IH]; cbn; intro M; [constructor; [easy|constructor]|]. constructor.
  - rewrite in_app_iff. cbn. intros [I|[->|[]]]; [easy|]. apply M. now left.
  - apply IH. intro I. apply M. now right.
Qed.
Lemma clear_frame s t : clear t -> NoDup (t_cols (frame_of s t)).
Proof.
  intro C. assert (M : NoDup (map (new_name t) (t_cols t))).
  { apply nodup_map_on; [apply C|]. intros a b. now apply clear_injective. }
  unfold frame_of, with_symbol, rename. cbn [t_cols]. destruct (has SYMBOL _) eqn:H; [easy|]. apply nodup_snoc; [easy|]. now apply has_false.
Qed.
(** Why there is no frame although all symbols were answered. *)
Lemma assemble_raises l e : assemble to_datetime (kept_all l) = Raises e ->
  e = Duplicate_columns /\ (exists s t, In (s, t) l /\ t_cols t <> [] /\ ~ clear t)
  \/ e = Missing_column /\ (exists field, In field fields /\ forall s t c, In (s, t) l -> ~ holds t field c)
  \/ e = Bad_date /\ (exists s t c v x, In (s, t) l /\ holds t DATE c /\ In v (t_rows t) /\ v c = Some x /\ to_datetime x = None).
Proof.
  unfold assemble. destruct (kept_all l) as [|f0 fs] eqn:K; [discriminate|]. rewrite <- K. clear f0 fs K.
  destruct (forallb (fun t => no_duplicates (t_cols t)) (kept_all l)) eqn:D; cbn [negb].
  2:{ intro E. injection E as <-. left. split; [easy|]. apply not_true_iff_false in D.
      destruct (existsb (fun t => negb (no_duplicates (t_cols t))) (kept_all l)) eqn:X.
      - apply existsb_exists in X as (f & I & N). apply kept_in in I as (s & t & I & C & ->). exists s, t. split; [easy|]. split; [easy|].
        intro Cl. apply negb_true_iff in N. apply (clear_frame s) in Cl. apply no_duplicates_iff in Cl. congruence.
      - exfalso. apply D. apply forallb_forall. intros f I. destruct (no_duplicates (t_cols f)) eqn:N; [easy|].
        assert (Y : existsb (fun t => negb (no_duplicates (t_cols t))) (kept_all l) = true); [|congruence].
        apply existsb_exists. exists f. now rewrite N. }
  rewrite forallb_forall in D.
  assert (ND : forall s t, In (s, t) l -> t_cols t <> [] -> NoDup (map (new_name t) (t_cols t))).
  { intros s t I C. apply (frame_nodup s). apply no_duplicates_iff, D. now apply in_kept. }
  assert (Miss : forall field, In field fields -> has field (t_cols (concat_tables (kept_all l))) = false ->
                 forall s t c, In (s, t) l -> ~ holds t field c).
  { intros field F H s t c I Hd. apply has_false in H. apply H. cbn [concat_tables t_cols]. apply columns_of_in.
    assert (C : t_cols t <> []) by (destruct Hd as [Hi _]; intro Z; now rewrite Z in Hi).
    exists (frame_of s t). split; [now apply in_kept|]. apply frame_cols. right. exists c. apply new_name_holds; auto. now apply ND with s. }
  destruct (has DATE _) eqn:HD; cbn [negb].
  2:{ intro E. injection E as <-. right. left. split; [easy|]. exists DATE. split; [cbn; tauto|]. apply Miss; [cbn; tauto|easy]. }
  destruct (traverse _ _) as [rows|] eqn:T.
  - destruct (forallb _ canonical) eqn:Fc; [discriminate|]. intro E. injection E as <-. right. left. split; [easy|].
    destruct (existsb (fun c => negb (has c (t_cols (concat_tables (kept_all l))))) fields) eqn:X.
    + apply existsb_exists in X as (f & I & N). apply negb_true_iff in N. exists f. split; [easy|]. now apply Miss.
    + exfalso. apply not_true_iff_false in Fc. apply Fc. apply forallb_forall. intros c I.
      destruct (has c (t_cols (concat_tables (kept_all l)))) eqn:H; [easy|]. exfalso.
      assert (F : In c fields \/ c = SYMBOL) by (cbn in I; cbn; intuition). destruct F as [F| ->].
      * assert (Y : existsb (fun c => negb (has c (t_cols (concat_tables (kept_all l))))) fields = true); [|congruence].
        apply existsb_exists. exists c. now rewrite H.
      * apply has_iff in HD. cbn [concat_tables t_cols] in HD. apply columns_of_in in HD as (f & If & _).
        apply has_false in H. apply H. cbn [concat_tables t_cols]. apply columns_of_in. exists f. split; [easy|].
        apply kept_in in If as (s & t & _ & _ & ->). apply frame_cols. now left.
  - intro E. injection E as <-. right. right. split; [easy|].
    destruct (existsb (fun r => match parse_date to_datetime r with None => true | _ => false end) (t_rows (concat_tables (kept_all l)))) eqn:X.
    + apply existsb_exists in X as (r & I & N). cbn [concat_tables t_rows] in I. apply in_flat_map in I as (f & If & Ir).
      apply kept_in in If as (s & t & I & C & ->). unfold masked in Ir. apply in_map_iff in Ir as (r0 & <- & Ir).
      unfold frame_of at 1, with_symbol, rename in Ir. cbn [t_rows] in Ir. apply in_map_iff in Ir as (r1 & <- & Ir).
      apply in_map_iff in Ir as (v & <- & Iv). unfold parse_date in N.
      destruct (has DATE (t_cols (frame_of s t))) eqn:HF; [|discriminate].
      assert (Z : column_eqb DATE SYMBOL = false) by comp. rewrite Z in N.
      apply has_iff, frame_cols in HF as [HF|(k & Ik & Ek)]; [discriminate HF|].
      pose proof (find_rename _ _ _ (ND s t I C) Ik) as Fk. rewrite Ek in Fk. cbn beta in N. rewrite Fk in N.
      destruct (v k) as [x|] eqn:V; [|discriminate]. destruct (to_datetime x) eqn:Td; [discriminate|].
      exists s, t, k, v, x. split; [easy|]. split; [apply new_name_holds; [now apply ND with s|cbn; tauto|easy]|]. easy.
    + exfalso. destruct (traverse_some (parse_date to_datetime) (t_rows (concat_tables (kept_all l)))) as [rows R]; [|congruence].
      intros r I N. assert (Y : existsb (fun r => match parse_date to_datetime r with None => true | _ => false end) (t_rows (concat_tables (kept_all l))) = true);
        [|congruence]. apply existsb_exists. exists r. now rewrite N.
Qed.
End Rows.
