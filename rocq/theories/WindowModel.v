(** Model of the data each walkforward window is given (src/pybroker/strategy.py
    131-138, 3085-3092, 3131-3138, 3275-3358): the training, test and history
    stores cut from the store of the whole run, and the dates of
    [exit_on_last_bar]. *)
From Verif Require Export WalkModel StoreModel.
Import ListNotations.
Open Scope list_scope.
Open Scope Z_scope.

Section Window.
Context {A : Type}.
(** The conversion of a number to float64 in [slice_symbol_array_store_by_dates]. *)
Variable cast : A -> A.
Implicit Type frame : list (frame_row A).

(** 2796-2801: [master_store] and [master_dates_arr]. The columns of a row are
    kept together as one column, numbered 0, which is not a number: its values are
    moved and not converted. *)
Definition arrays_of (rows : list (frame_row A)) : sym_data A :=
  mk_sym_data (Some (map fr_date rows)) [(0%nat, (false, map fr_vals rows))].
Definition master_store frame : array_store A :=
  map (fun x => (fst x, arrays_of (snd x))) (store_from_flat frame None).
(** 131-138: [_unique_dates_from_rows]; [None] is the IndexError of a row outside
    the data. *)
Definition unique_dates (dates : list Z) (rows : list nat) : option (list Z) :=
  match rows with
  | [] => Some []
  | _ => match gather dates rows with Some l => Some (unique_sorted l) | None => None end
  end.
(** The stores of a window: training, test and history. *)
Record stores : Type := mk_stores { st_train : option (array_store A); st_test : option (array_store A); st_history : option (array_store A) }.
(** 3275-3328: [_build_window_stores]; [None] is an IndexError. *)
Definition window_stores frame (w : window) : option stores :=
  let dates := map fr_date frame in
  let master := master_store frame in
  match unique_dates dates (w_test w) with
  | None => None
  | Some test_dates =>
      match (match w_test w with [] => Some None | _ => option_map Some (slice_store_by_dates cast master test_dates) end) with
      | None => None
      | Some test_store =>
          match w_train w with
          | [] => Some (mk_stores None test_store test_store)
          | _ =>
              match unique_dates dates (w_train w) with
              | None => None
              | Some train_dates =>
                  match slice_store_by_dates cast master train_dates with
                  | None => None
                  | Some train_store =>
                      match w_test w with
                      | [] => Some (mk_stores (Some train_store) None (Some train_store))
                      | _ =>
                          match train_dates, rev test_dates with
                          | first :: _, last :: _ =>
                              let span := filter (fun d => (first <=? d) && (d <=? last)) dates in
                              match slice_store_by_dates cast master (unique_sorted span) with
                              | None => None
                              | Some history => Some (mk_stores (Some train_store) test_store (Some history))
                              end
                          | _, _ => None
                          end
                      end
                  end
              end
          end
      end
  end.
(** 3036-3138: the stores of each window of the split. *)
Definition run_stores fl shuf frame (W la : Z) (ts : Q) : option (list (option stores)) :=
  match walkforward_split fl shuf (map fr_date frame) W la ts with
  | SWindows ws => Some (map (window_stores frame) ws)
  | _ => None
  end.

(** interval.py 376-387, [_iter_symbol_date_groups]: the dates of each symbol. *)
Definition date_groups frame : list (nat * list Z) :=
  map (fun s => (s, map fr_date (filter (fun r => Nat.eqb (fr_sym r) s) frame))) (nodup Nat.eq_dec (map fr_sym frame)).
Definition latest_of (l : list Z) : option Z :=
  match l with [] => None | d :: r => Some (fold_left Z.max r d) end.
(** 3330-3358: [_build_exit_dates]; [execs] are the symbols of the executions,
    [None] is a symbol selector. *)
Definition exit_dates (exit_on_last_bar : bool) (execs : list (option (list nat))) frame : list (nat * Z) :=
  if negb exit_on_last_bar then []
  else
    let wanted :=
      if existsb (fun e => match e with None => true | Some _ => false end) execs
      then nodup Nat.eq_dec (map fr_sym frame)
      else flat_map (fun e => match e with None => [] | Some l => l end) execs in
    fold_left (fun acc g => if nmem (fst g) wanted
                            then match latest_of (snd g) with Some d => aset (fst g) d acc | None => acc end
                            else acc)
              (date_groups (filter (fun r => nmem (fr_sym r) wanted) frame)) [].
End Window.
