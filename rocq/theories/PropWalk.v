(** Property theorems about walkforward windows (C30). *)
From Verif Require Import Tac WalkProofs WalkDemo.

(** C30: in every window of every split, the training and test sets are rows of
    the data, take whole bars, and every training bar lies at least [lookahead]
    bars before every test bar; the test sets of the windows advance in time. *)
Theorem C30_no_leak : forall fl shuf dates W la ts ws,
  split_domain fl shuf dates W ts -> walkforward_split fl shuf dates W la ts = SWindows ws ->
  forall w, In w ws -> whole_bars dates (w_train w) /\ whole_bars dates (w_test w) /\
    forall i j d d', In i (w_train w) -> In j (w_test w) -> row_date dates i d -> row_date dates j d' ->
      (d < d')%Z /\ (la <= bars_from_to dates d d')%Z.
Proof. exact split_no_leak. Qed.
Print Assumptions C30_no_leak.

Theorem C30_test_sets_advance : forall fl shuf dates W la ts ws,
  split_domain fl shuf dates W ts -> walkforward_split fl shuf dates W la ts = SWindows ws ->
  forall a b w w', (a < b)%nat -> nth_error ws a = Some w -> nth_error ws b = Some w' ->
    forall i j d d', In i (w_test w) -> In j (w_test w') -> row_date dates i d -> row_date dates j d' -> (d < d')%Z.
Proof. exact split_advances. Qed.
Print Assumptions C30_test_sets_advance.

(** The exact windows: as many as asked for, all of one size and inside the data,
    the test sets adjacent and ending with the last bar, each training set ending
    exactly [lookahead] bars before the first test bar. *)
Theorem C30_layout : forall fl shuf dates W la ts ws,
  split_domain fl shuf dates W ts -> walkforward_split fl shuf dates W la ts = SWindows ws ->
  Z.of_nat (length ws) = W /\ exists L T, (0 <= L)%Z /\ (0 <= T)%Z /\ (0 < L \/ 0 < T)%Z /\
    (T * W <= n_bars dates)%Z /\ (0 < L -> ~ ts == 1 -> T * W + la - 1 + L <= n_bars dates)%Z /\ (ts == 1 -> L * W <= n_bars dates)%Z /\
    forall a w, nth_error ws a = Some w ->
      window_at dates la ts L T (W - 1 - Z.of_nat a) w /\ whole_bars dates (w_train w) /\ whole_bars dates (w_test w).
Proof. exact split_layout. Qed.
Print Assumptions C30_layout.

(** The split ends, and raises (a ValueError) exactly for the rejected
    arguments; a positive [train_size] below 2^-40 is excluded. *)
Theorem C30_raises : forall fl shuf dates W la ts,
  split_domain fl shuf dates W ts -> ts <= 0 \/ two_to (-40) <= ts ->
  (split_rejected fl dates W la ts -> walkforward_split fl shuf dates W la ts = SValueError) /\
  (~ split_rejected fl dates W la ts -> exists ws, walkforward_split fl shuf dates W la ts = SWindows ws).
Proof. exact split_raises. Qed.
Print Assumptions C30_raises.

(** With such a [train_size] the split may end in an IndexError: rounding
    [1 - train_size] to 1 leaves no bar before the first test set. *)
Theorem C30_tiny_train_size_index_error : exists fl shuf dates W la ts,
  split_domain fl shuf dates W ts /\ 0 < ts /\ ts < two_to (-40) /\ walkforward_split fl shuf dates W la ts = SIndexError.
Proof. exact tiny_index_error. Qed.
Print Assumptions C30_tiny_train_size_index_error.

(** Two symbols over eleven dates, three windows, half of the data for training,
    lookahead 2, rows shuffled: the hypotheses are met and the windows have one
    bar of two rows in each set. *)
Example C30_example : split_domain (fun x => x) walk_shuf walk_dates 3 (1 # 2) /\
  exists ws w, walkforward_split (fun x => x) walk_shuf walk_dates 3 2 (1 # 2) = SWindows ws /\ nth_error ws 1 = Some w /\
    w_train w = [18; 7]%nat /\ w_test w = [9; 20]%nat.
Proof. exact walk_example. Qed.
(** Too few bars for the windows: rejected. *)
Example C30_rejected_example : split_rejected (fun x => x) [1; 2; 3]%Z 2 2 (1 # 2) /\
  walkforward_split (fun x => x) walk_shuf [1; 2; 3]%Z 2 2 (1 # 2) = SValueError.
Proof. exact walk_rejected. Qed.
