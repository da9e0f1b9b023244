(** Model of [walkforward_split], strategy.py 1543-1728. Dates are [Z]; the row
    numbers of the DataFrame are positions in the list of its dates. *)
From Verif Require Export Prelude.

(** Python's [int(x)] of a float: truncation towards zero. *)
Definition py_int (q : Q) : Z := if Qle_bool 0 q then Qfloor q else Qceiling q.
(** Python's [l[i]]: negative positions count from the end; [None] is the
    IndexError. *)
Definition py_get {A} (l : list A) (i : Z) : option A :=
  let n := Z.of_nat (length l) in
  if Z.leb 0 i then nth_error l (Z.to_nat i)
  else if Z.leb (- n) i then nth_error l (Z.to_nat (i + n)) else None.

(** common.py 481-496 [get_unique_sorted_dates_array] ([np.unique]). *)
Fixpoint zinsert (x : Z) (l : list Z) : list Z :=
  match l with
  | [] => [x]
  | y :: r => if Z.ltb x y then x :: l else if Z.eqb x y then l else y :: zinsert x r
  end.
Definition unique_sorted (l : list Z) : list Z := fold_right zinsert [] l.

(** strategy.py 1543-1559 [_walkforward_row_mask] (its [above_high] is never set). *)
Definition row_mask (dates : list Z) (low high : Z) (below_low : bool) : list nat :=
  map fst (filter (fun x : nat * Z => (if below_low then Z.ltb low (snd x) else Z.leb low (snd x)) && Z.leb (snd x) high)
                  (combine (seq 0 (length dates)) dates)).
(** The same with the two bounds looked up by position. *)
Definition rows_between (dates by_pos : list Z) (lo hi : Z) (below_low : bool) : option (list nat) :=
  match py_get by_pos lo, py_get by_pos hi with
  | Some l, Some h => Some (row_mask dates l h below_low)
  | _, _ => None
  end.

(** strategy.py 114-127 [WalkforwardWindow]. *)
Record window : Type := mkWindow { w_train : list nat; w_test : list nat }.
(** What the generator does: a ValueError, an IndexError, or all its windows.
    [SLoops] says that the [while] loop has not ended after as many turns as
    there are dates (see the theorem that it always ends). *)
Inductive split_result := SValueError | SIndexError | SLoops | SWindows (l : list window).

Fixpoint all_some {A} (l : list (option A)) : option (list A) :=
  match l with
  | [] => Some []
  | None :: _ => None
  | Some x :: r => match all_some r with Some r' => Some (x :: r') | None => None end
  end.
Definition yield_all (l : list (option window)) : split_result :=
  match all_some l with Some ws => SWindows ws | None => SIndexError end.

Section Split.
(** [fl] rounds an exact result to a float: every float operation of the code is
    the rounding of the exact one. [shuf k] is what [np.random.shuffle] does to
    the training rows of window [k], or the identity without [shuffle]. *)
Variable fl : Q -> Q.
Variable shuf : nat -> list nat -> list nat.

(** strategy.py 1625-1652: [train_size] is 0 or 1. *)
Definition split_one_kind (dates D : list Z) (W : Z) (ts : Q) : split_result :=
  let n := Z.of_nat (length D) in
  let len := py_int (fl (inject_Z n / inject_Z W)) in
  if Z.eqb len 0 then SValueError
  else
    let offset := (n - len * W)%Z in
    yield_all (map (fun i =>
      let start := (offset + Z.of_nat i * len)%Z in
      let stop := (start + len)%Z in
      match rows_between dates D start (stop - 1) false with
      | None => None
      | Some rows => Some (if Qeq_bool ts 0 then mkWindow [] rows else mkWindow (shuf i rows) [])
      end) (seq 0 (Z.to_nat W))).

(** strategy.py 1653-1682: a single window. *)
Definition split_one_window (dates D : list Z) (la : Z) (ts : Q) : split_result :=
  let n := Z.of_nat (length D) in
  let res := (n - 1 - la)%Z in
  if Z.leb res 0 then SValueError
  else
    let train_length := py_int (fl (inject_Z res * ts)) in
    let test_length := py_int (fl (inject_Z res * fl (1 - ts))) in
    let train_start := (n - la - train_length - test_length - 1)%Z in
    let train_end := (train_start + train_length)%Z in
    let test_start := (train_end + la)%Z in
    if Z.leb n test_start then SValueError
    else yield_all [match rows_between dates D train_start train_end false, rows_between dates D test_start (n - 1) false with
                    | Some tr, Some te => Some (mkWindow (shuf 0%nat tr) te)
                    | _, _ => None
                    end].

(** strategy.py 1689-1696: the [while] loop, at most [fuel] turns. *)
Fixpoint grow (fuel : nat) (res W : Z) (ts : Q) (train_length test_length : Z) : option (Z * Z) :=
  match fuel with
  | O => None
  | S fuel =>
      let rem := fl (inject_Z (res - (train_length + test_length * W)) / inject_Z W) in
      let train_incr := py_int (fl (rem * ts)) in
      let test_incr := py_int (fl (rem * fl (1 - ts))) in
      if Z.eqb train_incr 0 || Z.eqb test_incr 0 then Some (train_length, test_length)
      else grow fuel res W ts (train_length + train_incr)%Z (test_length + test_incr)%Z
  end.

(** strategy.py 1683-1728: several windows. *)
Definition split_windows (dates D : list Z) (W la : Z) (ts : Q) : split_result :=
  let n := Z.of_nat (length D) in
  let res := (n - (la - 1) * W)%Z in
  let avg := fl (inject_Z res / inject_Z W) in
  let train_length := py_int (fl (avg * ts)) in
  let test_length := py_int (fl (avg * fl (1 - ts))) in
  if Z.ltb train_length 0 || Z.ltb test_length 0 then SValueError
  else
    match grow (S (length D)) res W ts train_length test_length with
    | None => SLoops
    | Some (train_length, test_length) =>
        if Z.eqb train_length 0 && Z.eqb test_length 0 then SValueError
        else
          let idx i :=
            let test_end := (Z.of_nat i * test_length)%Z in
            let test_start := (test_end + test_length)%Z in
            let train_end := (test_start + la - 1)%Z in
            let train_start := (train_end + train_length)%Z in
            (train_start, train_end, test_start, test_end) in
          yield_all (map (fun i =>
            let '(train_start, train_end, test_start, test_end) := idx i in
            match rows_between dates (rev D) train_start train_end true, rows_between dates (rev D) test_start test_end true with
            | Some tr, Some te => Some (mkWindow (shuf (Z.to_nat W - 1 - i)%nat tr) te)
            | _, _ => None
            end) (rev (seq 0 (Z.to_nat W))))
    end.

(** strategy.py 1567-1728 [walkforward_split]. *)
Definition walkforward_split (dates : list Z) (W la : Z) (ts : Q) : split_result :=
  if Z.leb W 0 then SValueError
  else if Z.leb la 0 then SValueError
  else if Qltb ts 0 then SValueError
  else match dates with
  | [] => SValueError
  | _ =>
      let D := unique_sorted dates in
      if Qeq_bool ts 0 || Qeq_bool ts 1 then split_one_kind dates D W ts
      else if Z.eqb W 1 then split_one_window dates D la ts
      else split_windows dates D W la ts
  end.
End Split.
