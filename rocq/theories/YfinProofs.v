(** Lemmas behind PropYfin.v. *)
From Verif Require Export YfinSpec.
Import ListNotations.
Open Scope list_scope.
Open Scope nat_scope.

Lemma field_iff aa f : In f (yf_fields aa) <-> field aa f.
Proof.
  unfold yf_fields, field. rewrite in_app_iff. destruct aa; cbn -[OPEN HIGH LOW CLOSE VOLUME ADJ_CLOSE]; intuition congruence.
Qed.
Lemma fields_nodup aa : NoDup (yf_fields aa).
Proof. destruct aa; repeat constructor; cbn; intuition discriminate. Qed.

(** ** Rows *)
Fixpoint rows_pure (i : nat) (dates : list Z) (syms : list nat) (cols : list (nat * series)) : list row :=
  match dates, syms with
  | d :: dates, s :: syms => mk_row s d (entries i cols) :: rows_pure (S i) dates syms cols
  | _, _ => []
  end.
Lemma rows_from_pure dates : forall i syms cols, length syms = length dates -> (forall x, In x cols -> length (snd x) = i + length dates) ->
  rows_from i dates syms cols = Some (rows_pure i dates syms cols).
Proof.
  induction dates as [|d r IH]; intros i [|s syms] cols L H; try discriminate L; cbn [rows_from rows_pure].
  - rewrite (proj2 (forallb_forall _ _)); [easy|]. intros x I. apply Nat.eqb_eq. rewrite (H x I). cbn. lia.
  - rewrite IH; [easy|now injection L|]. intros x I. rewrite (H x I). cbn. lia.
Qed.
Lemma rows_pure_app d1 : forall i s1 d2 s2 cols, length d1 = length s1 ->
  rows_pure i (d1 ++ d2) (s1 ++ s2) cols = rows_pure i d1 s1 cols ++ rows_pure (i + length d1) d2 s2 cols.
Proof.
  induction d1 as [|d r IH]; intros i [|s s1] d2 s2 cols L; try discriminate L; cbn.
  - now rewrite Nat.add_0_r.
  - rewrite IH by now injection L. now rewrite Nat.add_succ_r.
Qed.
Lemma rows_pure_ext dates : forall i j syms cols cols', (forall k, k < length dates -> entries (i + k) cols = entries (j + k) cols') ->
  rows_pure i dates syms cols = rows_pure j dates syms cols'.
Proof.
  induction dates as [|d r IH]; intros i j [|s syms] cols cols' H; cbn; try easy. f_equal.
  - f_equal. specialize (H 0). rewrite !Nat.add_0_r in H. apply H. cbn. lia.
  - apply IH. intros k K. specialize (H (S k)). rewrite !Nat.add_succ_r in H. apply H. cbn. lia.
Qed.
Lemma rows_pure_blocks n dates (cols_of : nat -> list (nat * series)) syms : n = length dates -> forall i cols,
  (forall a s j, nth_error syms a = Some s -> j < n -> entries (i + (a * n + j)) cols = entries j (cols_of s)) ->
  rows_pure i (tile dates (length syms)) (repeat_each syms n) cols
  = List.concat (map (fun s => rows_pure 0 dates (repeat s n) (cols_of s)) syms).
Proof.
  intros ->. unfold tile, repeat_each. induction syms as [|s r IH]; intros i cols H; [now destruct i|]. cbn [length repeat flat_map map List.concat].
  rewrite rows_pure_app by now rewrite repeat_length. f_equal.
  - apply rows_pure_ext. intros k K. apply (H 0 s k); [easy|easy].
  - apply IH. intros a u j A J. rewrite <- (H (S a) u j A J). f_equal. cbn. lia.
Qed.
Lemma rows_pure_nth dates : forall i syms cols k r, nth_error (rows_pure i dates syms cols) k = Some r ->
  nth_error syms k = Some (r_symbol r) /\ nth_error dates k = Some (r_date r) /\ r_values r = entries (i + k) cols.
Proof.
  induction dates as [|d t IH]; intros i [|s syms] cols [|k] r; cbn; try discriminate.
  - intro E. injection E as <-. cbn. now rewrite Nat.add_0_r.
  - intro E. apply IH in E. now rewrite Nat.add_succ_r.
Qed.
Lemma rows_pure_length dates : forall i syms cols, length syms = length dates -> length (rows_pure i dates syms cols) = length dates.
Proof. induction dates as [|d t IH]; intros i [|s syms] cols L; try discriminate L; cbn; [easy|]. rewrite IH; [easy|now injection L]. Qed.

(** ** Columns *)
Lemma collect_map {A B} (f : A -> option B) (g : A -> B) l : (forall x, In x l -> f x = Some (g x)) -> collect f l = Some (map g l).
Proof.
  induction l as [|x r IH]; intro H; cbn; [easy|]. rewrite (H x) by now left. rewrite IH; [easy|]. intros y I. apply H. now right.
Qed.
Lemma flat_get_some f v l : In (f, v) l -> exists w, flat_get f l = Some w /\ In (f, w) l.
Proof.
  induction l as [|[g u] r IH]; [easy|]. cbn. intro I. destruct (f =? g) eqn:E.
  - apply Nat.eqb_eq in E. subst g. exists u. auto.
  - destruct I as [I|I]; [injection I as -> ->; now rewrite Nat.eqb_refl in E|]. destruct (IH I) as (w & A & B). exists w. auto.
Qed.
Lemma multi_get_some f s v l : In (f, s, v) l -> exists w, multi_get f s l = Some w /\ In (f, s, w) l.
Proof.
  induction l as [|[[g t] u] r IH]; [easy|]. cbn. intro I. destruct ((f =? g) && (s =? t)) eqn:E.
  - apply andb_true_iff in E as [E1 E2]. apply Nat.eqb_eq in E1, E2. subst. exists u. auto.
  - destruct I as [I|I]; [injection I as -> -> ->; now rewrite !Nat.eqb_refl in E|]. destruct (IH I) as (w & A & B). exists w. auto.
Qed.
(** The column that the model reads. *)
Definition column_read (t : ytable) (s f : nat) : series :=
  match (match y_cols t with Flat l => flat_get f l | Multi l => multi_get f s l end) with Some v => v | None => [] end.
Lemma column_read_ok aa syms t s f : answers_for aa syms t -> In s syms -> field aa f ->
  column_of t s f (column_read t s f)
  /\ (match y_cols t with Flat l => flat_get f l | Multi l => multi_get f s l end) = Some (column_read t s f).
Proof.
  intros (_ & C & _) I F. destruct (C s f I F) as [v V]. unfold column_of, column_read in *. destruct (y_cols t) as [l|l].
  - destruct (flat_get_some _ _ _ V) as (w & -> & W). easy.
  - destruct (multi_get_some _ _ _ _ V) as (w & -> & W). easy.
Qed.
Definition cols_read (aa : bool) (t : ytable) (s : nat) : list (nat * series) := map (fun f => (f, column_read t s f)) (yf_fields aa).

Lemma nth_error_concat {A} n (vs : list (list A)) : forall a j, j < n -> (forall v, In v vs -> length v = n) ->
  nth_error (List.concat vs) (a * n + j) = match nth_error vs a with Some v => nth_error v j | None => None end.
Proof.
  induction vs as [|v r IH]; intros a j J H; [now destruct (a * n + j), a|]. cbn [List.concat]. assert (L : length v = n) by (apply H; now left).
  destruct a as [|a]; cbn [nth_error].
  - cbn. now rewrite nth_error_app1 by lia.
  - rewrite nth_error_app2 by (rewrite L; cbn; lia). replace (S a * n + j - length v) with (a * n + j) by (rewrite L; cbn; lia).
    apply IH; [easy|]. intros w I. apply H. now right.
Qed.
Lemma level_0_get l s f : (forall g u v, In (g, u, v) l -> u = s) ->
  flat_get f (map (fun x => (fst (fst x), snd x)) l) = multi_get f s l.
Proof.
  induction l as [|[[g u] v] r IH]; intro H; cbn; [easy|]. rewrite (H g u v) by now left. rewrite Nat.eqb_refl, andb_true_r.
  destruct (f =? g); [easy|]. apply IH. intros g' u' v' I. apply (H g' u' v'). now right.
Qed.
Lemma flat_map_map' {A B C} (f : B -> list C) (g : A -> B) l : flat_map f (map g l) = flat_map (fun x => f (g x)) l.
Proof. induction l as [|x r IH]; cbn; [easy|]. now rewrite IH. Qed.
Lemma flat_map_ext_in {A B} (f g : A -> list B) l : (forall x, In x l -> f x = g x) -> flat_map f l = flat_map g l.
Proof. induction l as [|x r IH]; intro H; cbn; [easy|]. rewrite (H x) by now left. rewrite IH; [easy|]. intros y I. apply H. now right. Qed.

Lemma reshape_ok aa syms t : answers_for aa syms t ->
  reshape aa syms t = Some (mk_frame ([DATE; SYMBOL] ++ yf_fields aa)
    (List.concat (map (fun s => rows_pure 0 (y_dates t) (repeat s (length (y_dates t))) (cols_read aa t s)) syms))).
Proof.
  intro A. pose proof A as (N & C & L & U & K).
  assert (Ln : forall s f, In s syms -> In f (yf_fields aa) -> length (column_read t s f) = length (y_dates t)).
  { intros s f I F. apply field_iff in F. destruct (column_read_ok aa syms t s f A I F) as [X _]. now apply L in X. }
  destruct syms as [|s [|s2 rest]] eqn:Hs; [easy| |].
  - cbn [reshape].
    rewrite (collect_map _ (fun f => (f, column_read t s f))).
    2:{ intros f F. apply field_iff in F. destruct (column_read_ok aa _ t s f A (or_introl eq_refl) F) as [_ X].
        unfold level_0. destruct (y_cols t) as [l|l]; [now rewrite X|]. rewrite (level_0_get l s); [now rewrite X|].
        intros g u v I. destruct (K g u v I) as [->|[]]. reflexivity. }
    change (map (fun f => (f, column_read t s f)) (yf_fields aa)) with (cols_read aa t s). unfold frame_from.
    rewrite rows_from_pure; [|now rewrite repeat_length|].
    + cbn [map List.concat]. rewrite app_nil_r. do 2 f_equal. f_equal. unfold cols_read. rewrite map_map. cbn [fst]. now rewrite map_id.
    + intros x I. unfold cols_read in I. apply in_map_iff in I as (f & <- & F). cbn [snd]. rewrite Ln; [easy|now left|easy].
  - rewrite <- Hs in *. assert (R : reshape aa syms t =
       match collect (fun f => match collect (fun s => multi_get f s (pairs (y_cols t))) syms with
                              | Some vs => Some (f, List.concat vs) | None => None end) (yf_fields aa) with
       | Some cols => frame_from (tile (y_dates t) (length syms)) (repeat_each syms (length (y_dates t))) cols
       | None => None end) by (rewrite Hs; reflexivity). rewrite R. clear R.
    destruct (y_cols t) as [l|l] eqn:Y; [rewrite Hs in K; discriminate K|]. cbn [pairs].
    rewrite (collect_map _ (fun f => (f, List.concat (map (fun s => column_read t s f) syms)))).
    2:{ intros f F. apply field_iff in F. rewrite (collect_map _ (fun s => column_read t s f)); [easy|]. intros u I.
        destruct (column_read_ok aa _ t u f A I F) as [_ X]. now rewrite Y in X. }
    unfold frame_from. set (cols := map _ (yf_fields aa)).
    assert (T1 : length (tile (y_dates t) (length syms)) = length syms * length (y_dates t)).
    { unfold tile. clear. induction (length syms) as [|k IH]; cbn; [easy|]. rewrite app_length, IH. easy. }
    assert (T2 : length (repeat_each syms (length (y_dates t))) = length syms * length (y_dates t)).
    { unfold repeat_each. clear. induction syms as [|x r IH]; cbn; [easy|]. rewrite app_length, IH, repeat_length. easy. }
    rewrite rows_from_pure; [|congruence|].
    2:{ intros x I. unfold cols in I. apply in_map_iff in I as (f & <- & F). cbn [snd]. rewrite T1.
        cut (forall r, (forall s, In s r -> In s syms) -> length (List.concat (map (fun s => column_read t s f) r)) = length r * length (y_dates t)).
        { intro G. cbn [Nat.add]. now apply G. }
        induction r as [|x r IH]; intro G; cbn; [easy|]. rewrite app_length, IH by (intros u I; apply G; now right).
        rewrite Ln; [easy|apply G; now left|easy]. }
    rewrite (rows_pure_blocks (length (y_dates t)) (y_dates t) (cols_read aa t) syms eq_refl).
    + do 2 f_equal. f_equal. unfold cols. rewrite map_map. cbn [fst]. now rewrite map_id.
    + intros a u j Ha J. cbn [Nat.add]. unfold entries, cols, cols_read. rewrite !flat_map_map'. cbn [fst snd].
      apply flat_map_ext_in. intros f F. rewrite (nth_error_concat (length (y_dates t))); [|easy|].
      * rewrite nth_error_map, Ha. reflexivity.
      * intros v I. apply in_map_iff in I as (w & <- & I). now apply Ln.
Qed.
Lemma entries_keys i (g : nat -> series) l : NoDup l -> NoDup (map fst (entries i (map (fun f => (f, g f)) l))).
Proof.
  intro N. unfold entries. rewrite flat_map_map'. cbn [fst snd]. induction N as [|f l H N IH]; cbn; [constructor|].
  rewrite map_app. destruct (nth_error (g f) i) as [[q|]|]; cbn; auto. constructor; [|easy]. intro I. apply H.
  apply in_map_iff in I as ([f' q'] & E & I). cbn in E. subst f'. apply in_flat_map in I as (k & Ik & I).
  destruct (nth_error (g k) i) as [[q2|]|]; cbn in I; [|easy|easy]. destruct I as [I|[]]. injection I as -> _. easy.
Qed.
Lemma block_ok aa syms t s : answers_for aa syms t -> In s syms ->
  bars_at aa t s (rows_pure 0 (y_dates t) (repeat s (length (y_dates t))) (cols_read aa t s)).
Proof.
  intros A I. pose proof A as (_ & _ & _ & U & _). split; [now rewrite rows_pure_length by now rewrite repeat_length|].
  intros i r H. apply rows_pure_nth in H as (H1 & H2 & H3). cbn [Nat.add] in H3. split; [|split; [|split]].
  - apply nth_error_In, repeat_spec in H1. easy.
  - easy.
  - rewrite H3. apply entries_keys, fields_nodup.
  - intros f q. rewrite H3. unfold entries, cols_read. rewrite flat_map_map'. cbn [fst snd]. rewrite in_flat_map. split.
    + intros (k & K & H). apply field_iff in K. destruct (column_read_ok aa syms t s k A I K) as [X _].
      destruct (nth_error (column_read t s k) i) as [[q2|]|] eqn:E; cbn in H; [|easy|easy]. destruct H as [H|[]]. injection H as <- <-.
      split; [easy|]. now exists (column_read t s k).
    + intros (F & v & V & E). exists f. split; [now apply field_iff|]. destruct (column_read_ok aa syms t s f A I F) as [X _].
      rewrite <- (U _ _ _ _ V X), E. now left.
Qed.

(** ** The table that yfinance makes of bars *)
Definition bar_value (bars : nat -> list (Z * list (nat * Q))) (s f : nat) (d : Z) : option Q :=
  match find (fun b => (fst b =? d)%Z) (bars s) with Some b => value f (snd b) | None => None end.
Lemma table_column aa bars syms s f v : column_of (table_of aa bars syms) s f v <->
  In s syms /\ field aa f /\ v = map (bar_value bars s f) (yf_dates bars syms).
Proof.
  unfold column_of, table_of. cbn [y_cols]. rewrite in_flat_map. split.
  - intros (u & I & H). apply in_map_iff in H as (g & E & H). injection E as -> -> <-. split; [easy|]. split; [|easy].
    apply field_iff. unfold yf_fields. apply in_app_iff in H as [H|H]; apply in_app_iff; [left|now right]. cbn in *. tauto.
  - intros (I & F & ->). exists s. split; [easy|]. apply in_map_iff. exists f. split; [easy|]. apply field_iff in F. unfold yf_fields in F.
    apply in_app_iff in F as [F|F]; apply in_app_iff; [left|now right]. cbn in *. tauto.
Qed.
Lemma table_answers aa bars syms : syms <> [] -> answers_for aa syms (table_of aa bars syms).
Proof.
  intro N. split; [easy|]. split; [|split; [|split]].
  - intros s f I F. eexists. apply table_column. easy.
  - intros s f v H. apply table_column in H as (_ & _ & ->). apply map_length.
  - intros s f v v' H H'. apply table_column in H as (_ & _ & ->). apply table_column in H' as (_ & _ & ->). easy.
  - change (match y_cols (table_of aa bars syms) with Flat _ => length syms = 1 | Multi l => forall f s v, In (f, s, v) l -> In s syms end).
    cbn [table_of y_cols]. intros f s v H. now apply (proj1 (table_column aa bars syms s f v)) in H.
Qed.
Lemma table_rows aa bars s all : (forall b, In b (bars s) -> listed_in_order aa (snd b)) ->
  forall dates pre, all = pre ++ dates ->
  rows_pure (length pre) dates (repeat s (length dates)) (map (fun f => (f, map (bar_value bars s f) all)) (yf_fields aa))
  = map (fun d => mk_row s d (match find (fun b => (fst b =? d)%Z) (bars s) with Some (_, v) => v | None => [] end)) dates.
Proof.
  intro H. induction dates as [|d r IH]; intros pre E; cbn [length repeat rows_pure map]; [easy|]. f_equal.
  - f_equal. unfold entries. rewrite flat_map_map'. cbn [fst snd].
    assert (G : forall f, nth_error (map (bar_value bars s f) all) (length pre) = Some (bar_value bars s f d)).
    { intro f. rewrite nth_error_map, E, nth_error_app2, Nat.sub_diag by lia. reflexivity. }
    unfold bar_value in G. destruct (find (fun b => (fst b =? d)%Z) (bars s)) as [[d' v]|] eqn:Fd.
    + apply find_some in Fd as [I _]. specialize (H _ I). cbn [snd] in H. unfold listed_in_order in H.
      etransitivity; [|symmetry; exact H]. apply flat_map_ext_in. intros f _. specialize (G f). unfold bar_value. rewrite G. reflexivity.
    + transitivity (flat_map (fun _ : nat => @nil (nat * Q)) (yf_fields aa)); [|destruct aa; reflexivity].
      apply flat_map_ext_in. intros f _. specialize (G f). unfold bar_value. now rewrite G.
  - specialize (IH (pre ++ [d])). rewrite app_length, Nat.add_comm in IH. apply IH. rewrite <- app_assoc. easy.
Qed.
