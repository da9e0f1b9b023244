(** Specification of C80: what a model on a compressed interval is given, and what
    it answers, in terms of the compressed bars of the run. *)
From Verif Require Export IPredModel.
Open Scope list_scope.
Open Scope Z_scope.

(** The map of completed bars never goes back and points at bars of the run. *)
Definition well_formed {R} (d : csdata) (rows : list R) : Prop :=
  length rows = length (cs_bars d) /\
  (forall i j x y, (i <= j)%nat -> nth_error (cs_completed d) i = Some x -> nth_error (cs_completed d) j = Some y -> x <= y) /\
  (forall x, In x (cs_completed d) -> -1 <= x < Z.of_nat (length (cs_bars d))).

(** [k] compressed bars are complete at base bar [end_index - 1] of the window; an
    end index past the window counts as its last bar. *)
Definition visible (d : csdata) (end_index : Z) (k : nat) : Prop :=
  match nth_error (cs_completed d) (Nat.min (Z.to_nat end_index) (length (cs_completed d)) - 1) with
  | Some c => if Z.ltb 0 end_index then Z.of_nat k = c + 1 else k = 0%nat
  | None => k = 0%nat
  end.
(** [k] compressed bars are complete at the last base bar of the window. *)
Definition in_window (d : csdata) (k : nat) : Prop := visible d (Z.of_nat (length (cs_completed d))) k.

Section Spec.
Context {R P L A : Type}.

(** The model is shown the compressed bars [a], ..., [b - 1]: the lag features, each
    from the bars up to its own, if it has lags; else the rows of what
    [input_data_fn] makes of all the bars complete in the window. *)
Definition seen (u : setup R P L A) (rows : list R) (cap a b : nat) (f : features P L) : Prop :=
  match u_lags u with
  | Some lag => f = FLags (map (fun i => lag (firstn (S i) rows)) (seq a (b - a)))
  | None => exists cols p, u_prepare u (firstn cap rows) = Some (cols, p) /\
      if cols then length p = cap /\ f = FRows (firstn (b - a) (skipn a p)) else f = FRows []
  end.
(** The first [w] bars of the window's [cap], and no more, have no lag features yet. *)
Definition warm_up (u : setup R P L A) (rows : list R) (cap w : nat) : Prop :=
  match u_lags u with
  | None => w = 0%nat
  | Some lag => (w <= cap)%nat /\ (forall i, (i < w)%nat -> lag (firstn (S i) rows) = None) /\
      (w = cap \/ lag (firstn (S w) rows) <> None)
  end.
(** [v] is the prediction for bar [i] of a model asked bar by bar: the last value of
    its answer on the bars from [w] to [i]. *)
Definition bar_prediction (u : setup R P L A) (rows : list R) (cap w i : nat) (v : A) : Prop :=
  exists f answer front, seen u rows cap w (S i) f /\ u_predict u f = Some answer /\
    answer = front ++ [v] /\ (length answer = 1 \/ length answer = S i - w)%nat.

(** [input_data_fn] works row by row from the past: what it makes of a bar does not
    depend on later bars. *)
Definition looks_back_only (prepare : list R -> option (bool * list P)) : Prop :=
  forall k a b ca cb p q, firstn k a = firstn k b -> prepare a = Some (ca, p) -> prepare b = Some (cb, q) ->
    ca = cb /\ firstn k p = firstn k q.
(** The model answers one value for every row. *)
Definition rows_in (f : features P L) : nat := match f with FLags l => length l | FRows l => length l end.
Definition answers_all (u : setup R P L A) : Prop :=
  forall f, exists answer, u_predict u f = Some answer /\ length answer = rows_in f.
End Spec.
