(** C106: the rows of Yahoo's data. *)
From Verif Require Import YfinSpec YfinProofs.
Import ListNotations.
Open Scope list_scope.
Open Scope nat_scope.

(** C106. From an answer of yfinance that has the fields of every symbol, the frame
    has, for each symbol in turn, one row per date of the answer in its order, with
    that date, that symbol and exactly the values of that symbol's columns at that
    date; its columns are date, symbol and the fields. *)
Theorem C106_rows : forall auto_adjust syms t, answers_for auto_adjust syms t ->
  exists f blocks, reshape auto_adjust syms t = Some f
    /\ (forall c, In c (f_cols f) <-> c = DATE \/ c = SYMBOL \/ field auto_adjust c)
    /\ Forall2 (bars_at auto_adjust t) syms blocks
    /\ f_rows f = List.concat blocks.
Proof.
  intros aa syms t A. rewrite (reshape_ok aa syms t A). eexists _, _. split; [reflexivity|]. split; [|split; [|reflexivity]].
  - intro c. cbn [f_cols]. rewrite in_app_iff, field_iff. cbn. intuition congruence.
  - assert (H : forall s, In s syms -> In s syms) by easy. revert H. generalize syms at 1 3 4. induction syms0 as [|s r IH]; intro H; constructor.
    + apply (block_ok aa syms); [easy|]. apply H. now left.
    + apply IH. intros u I. apply H. now right.
Qed.
Print Assumptions C106_rows.

(** A symbol that yfinance gives no column for makes the whole query raise. *)
Theorem C106_missing : forall auto_adjust syms t s f, In s syms -> length syms <> 1 -> field auto_adjust f ->
  (forall v, ~ column_of t s f v) -> reshape auto_adjust syms t = None.
Proof.
  intros aa syms t s f I L F N. destruct syms as [|a [|b r]] eqn:E; [easy|easy|]. rewrite <- E in *.
  assert (R : reshape aa syms t =
       match collect (fun f => match collect (fun s => multi_get f s (pairs (y_cols t))) syms with
                              | Some vs => Some (f, List.concat vs) | None => None end) (yf_fields aa) with
       | Some cols => frame_from (tile (y_dates t) (length syms)) (repeat_each syms (length (y_dates t))) cols
       | None => None end) by (rewrite E; reflexivity). rewrite R.
  assert (Cn : forall {A B} (g : A -> option B) l x, In x l -> g x = None -> collect g l = None).
  { intros A B g l x. induction l as [|y l IH]; [easy|]. cbn. intros [->|J] X; [now rewrite X|]. rewrite (IH J X). now destruct (g y). }
  rewrite (Cn _ _ _ (yf_fields aa) f); [easy|now apply field_iff|]. rewrite (Cn _ _ _ syms s I); [easy|].
  destruct (multi_get f s (pairs (y_cols t))) as [v|] eqn:G; [|easy]. exfalso. unfold column_of in N. unfold pairs in G.
  destruct (y_cols t) as [l|l]; [discriminate G|].
  assert (X : exists w, In (f, s, w) l); [|destruct X as [w X]; now apply (N w)]. clear -G. induction l as [|[[g u] w] l IH]; [discriminate G|].
  cbn in G. destruct ((f =? g) && (s =? u)) eqn:E.
  - apply andb_true_iff in E as [E1 E2]. apply Nat.eqb_eq in E1, E2. subst. exists w. now left.
  - destruct (IH G) as [x X]. exists x. now right.
Qed.
Print Assumptions C106_missing.

(** The answer of property C52's model of YFinance is what comes of yfinance's
    table of bars. *)
Theorem C106_as_in_C52 : forall auto_adjust bars syms, syms <> [] ->
  (forall s b, In s syms -> In b (bars s) -> listed_in_order auto_adjust (snd b)) ->
  reshape auto_adjust syms (table_of auto_adjust bars syms) = Some (yf_fetch auto_adjust bars syms).
Proof.
  intros aa bars syms N H. rewrite (reshape_ok aa syms _ (table_answers aa bars syms N)). unfold yf_fetch, yf_columns.
  f_equal. f_equal. rewrite flat_map_concat_map. f_equal. apply map_ext_in. intros s I.
  assert (E : cols_read aa (table_of aa bars syms) s = map (fun f => (f, map (bar_value bars s f) (yf_dates bars syms))) (yf_fields aa)).
  { unfold cols_read. apply map_ext_in. intros f F. f_equal. apply field_iff in F.
    destruct (column_read_ok aa syms _ s f (table_answers aa bars syms N) I F) as [X _]. now apply table_column in X. }
  rewrite E. change (y_dates (table_of aa bars syms)) with (yf_dates bars syms).
  apply (table_rows aa bars s (yf_dates bars syms)) with (pre := []); [|easy]. intros b B. now apply H with s.
Qed.
Print Assumptions C106_as_in_C52.

(** Symbol 7 has bars on days 1 and 2, symbol 3 on day 2. *)
Definition ex_bars (s : nat) : list (Z * list (nat * Q)) :=
  if s =? 7 then [(1%Z, [(OPEN, 10%Q); (CLOSE, 11%Q)]); (2%Z, [(OPEN, 11%Q); (CLOSE, 12%Q)])]
  else if s =? 3 then [(2%Z, [(CLOSE, 5%Q); (ADJ_CLOSE, 4%Q)])] else [].
Example C106_ex : answers_for false [7; 3] (table_of false ex_bars [7; 3])
  /\ (forall s b, In s [7; 3] -> In b (ex_bars s) -> listed_in_order false (snd b))
  /\ reshape false [7; 3] (table_of false ex_bars [7; 3])
     = Some (mk_frame [DATE; SYMBOL; OPEN; HIGH; LOW; CLOSE; VOLUME; ADJ_CLOSE]
               [mk_row 7 1 [(OPEN, 10%Q); (CLOSE, 11%Q)]; mk_row 7 2 [(OPEN, 11%Q); (CLOSE, 12%Q)];
                mk_row 3 1 []; mk_row 3 2 [(CLOSE, 5%Q); (ADJ_CLOSE, 4%Q)]]).
Proof.
  split; [now apply table_answers|]. split; [|reflexivity].
  intros s b [<-|[<-|[]]] I; cbn in I; repeat (destruct I as [<-|I]; [reflexivity|]); easy.
Qed.
(** A table for one symbol with columns by field. *)
Example C106_flat_ex : exists t, answers_for true [7] t /\ exists f, reshape true [7] t = Some f /\ length (f_rows f) = 1.
Proof.
  exists (mk_ytable [1%Z] (Flat [(OPEN, [Some 1%Q]); (HIGH, [Some 3%Q]); (LOW, [Some 1%Q]); (CLOSE, [Some 2%Q]); (VOLUME, [None])])).
  split; [|eexists; split; reflexivity]. split; [easy|]. split; [|split; [|split; [|reflexivity]]].
  - intros s f _ F. unfold column_of. cbn. destruct F as [->|[->|[->|[->|[->|[_ F]]]]]]; [..|discriminate F]; eexists; eauto 6.
  - intros s f v H. cbn in H. repeat (destruct H as [H|H]; [injection H as _ <-; reflexivity|]). easy.
  - intros s f v v' H H'. cbn in H, H'.
    repeat (destruct H as [H|H]; [injection H as <- <-; repeat (destruct H' as [H'|H']; [first [injection H' as <-; reflexivity|discriminate H']|]); easy|]). easy.
Qed.
