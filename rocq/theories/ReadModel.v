(** Model of what functions read of the bars of a window through their contexts, and of how the loop
    over the bars keeps it up to date: strategy.py 144-158 ([_date_to_active_syms]), 795-796, 804-879
    (contexts, symbols of a bar), context.py 704-730, 733-784 (one of the like properties), 911-941
    ([foreign]), 1758-1771 ([set_exec_ctx_data]), scope.py 1031-1112 ([ColumnScope.fetch],
    [fetch_value], [bar_data_from_data_columns]), 2218-2274 and 2364-2411 ([PriceScope]: [reset_bar],
    [has_bar_on], [fetch_bar_ohlc] and their memos).
    Symbols and columns are numbers, dates integers; a column other than the dates holds values of any
    type. Dictionaries are association lists; [sym_end_index] is a defaultdict, so reading it by [] adds
    the symbol. *)
From Coq Require Import List ZArith Bool Arith.
Import ListNotations.
Open Scope nat_scope.

Section Read.
Context {A : Type}.
(** The arrays of a symbol in the window's store: dates and columns. *)
Record sym_data := mk_data { sd_dates : list Z; sd_cols : list (nat * list A) }.
(** A window: its test dates, the symbols that have executions in sorted order with their arrays, the
    registered columns in order (with whether they are standard ones) and the warm-up. *)
Record window := mk_window { w_dates : list Z; w_data : list (nat * sym_data); w_cols : list (nat * bool); w_warmup : option nat }.
Definition CLOSE := 4. Definition LOW := 3. Definition HIGH := 2.

Fixpoint get {K V} (eqb : K -> K -> bool) (k : K) (l : list (K * V)) : option V :=
  match l with [] => None | (x, v) :: r => if eqb k x then Some v else get eqb k r end.
Fixpoint put {K V} (eqb : K -> K -> bool) (k : K) (v : V) (l : list (K * V)) : list (K * V) :=
  match l with [] => [(k, v)] | (x, u) :: r => if eqb k x then (x, v) :: r else (x, u) :: put eqb k v r end.
Definition key_eqb (a b : nat * Z) : bool := Nat.eqb (fst a) (fst b) && Z.eqb (snd a) (snd b).

Variable w : window.
Definition data_of (s : nat) : option sym_data := get Nat.eqb s (w_data w).

(** strategy.py 144-158: [_date_to_active_syms]. *)
Definition same_set (a b : list Z) : bool := forallb (fun x => existsb (Z.eqb x) b) a && forallb (fun x => existsb (Z.eqb x) a) b.
Definition aligned : bool := forallb (fun p => same_set (sd_dates (snd p)) (w_dates w)) (w_data w).
Definition date_to_syms : list (Z * list nat) :=
  fold_left (fun m p => fold_left (fun m d => put Z.eqb d (match get Z.eqb d m with Some l => l ++ [fst p] | None => [fst p] end) m) (nodup Z.eq_dec (sd_dates (snd p))) m) (w_data w) [].
(** 860-869: the symbols whose turn it is. *)
Definition active_iter (d : Z) : list nat :=
  if aligned then map fst (w_data w) else match get Z.eqb d date_to_syms with Some l => l | None => [] end.

(** [BarData]: columns by name; a standard column may be absent ([None]). *)
Definition bar_data := list (nat * option (list A)).
(** scope.py 1080-1101. *)
Definition bar_data_of (x : sym_data) (n : nat) : bar_data :=
  flat_map (fun c => match get Nat.eqb (fst c) (sd_cols x) with
                     | None => if snd c : bool then [(fst c, None)] else []
                     | Some v => [(fst c, Some (firstn n v))]
                     end) (w_cols w).

(** A context: [_curr_date], [_dt] and [_foreign]. *)
Record ctx := mk_ctx { c_date : option Z; c_dt : option Z; c_foreign : list (nat * bar_data) }.
Definition ohlc := (option A * option A * option A)%type.
(** [sym_end_index], the contexts that have been set, the memos of the price scope. *)
Record state := mk_state { st_ends : list (nat * nat); st_ctx : list (nat * ctx); st_hb : list ((nat * Z) * bool); st_ohlc : list ((nat * Z) * ohlc) }.
Definition start : state := mk_state [] [] [] [].
(** [sym_end_index[s]]: the value and the dictionary afterwards. *)
Definition end_of (s : nat) (ends : list (nat * nat)) : nat * list (nat * nat) :=
  match get Nat.eqb s ends with Some n => (n, ends) | None => (0, put Nat.eqb s 0 ends) end.

(** strategy.py 857-876 with context.py 1765-1771: the beginning of a bar. *)
Definition turn (d : Z) (x : state * list nat) (s : nat) : state * list nat :=
  let '(st, act) := x in
  let n := S (match get Nat.eqb s (st_ends st) with Some n => n | None => 0 end) in
  let st := mk_state (put Nat.eqb s n (st_ends st)) (st_ctx st) (st_hb st) (st_ohlc st) in
  if match w_warmup w with Some k => negb (Nat.eqb k 0) && Nat.leb n k | None => false end then (st, act)
  else (mk_state (st_ends st) (put Nat.eqb s (mk_ctx (Some d) None []) (st_ctx st)) (st_hb st) (st_ohlc st), act ++ [s]).
Definition begin_bar (d : Z) (st : state) : state * list nat :=
  fold_left (turn d) (active_iter d) (mk_state (st_ends st) (st_ctx st) [] [], []).

(** What is read: through the context [c] - [foreign(s)], [foreign(s, col)], a column of its own symbol
    ([close] and the like), a value of the current bar, [dates], [dt], [bars] - and by the account
    through the price scope. *)
Inductive read := Foreign (c s : nat) | Foreign_col (c s col : nat) | Own (c col : nat) | Value (c col : nat) | Dates (c : nat) | Dt (c : nat) | Bars (c : nat)
                | Has_bar_on (s : nat) (d : Z) | Bar_ohlc (s : nat) (d : Z).
Inductive answer := Raised | Bar (b : bar_data) | Column (v : option (list A)) | Scalar (x : option A) | Date_array (l : list Z) | Date (d : Z) | Count (n : nat)
                  | Truth (b : bool) | Prices (x : ohlc).

(** scope.py 1042-1048: [fetch]. *)
Definition fetch (s col n : nat) : answer :=
  match data_of s with
  | None => Raised
  | Some x => Column (option_map (firstn n) (get Nat.eqb col (sd_cols x)))
  end.
(** scope.py 1050-1064: [fetch_value]. *)
Definition fetch_value (s col n : nat) : answer :=
  match data_of s with
  | None => Raised
  | Some x =>
      match get Nat.eqb col (sd_cols x) with
      | None => Scalar None
      | Some v =>
          if Nat.eqb n 0 then Raised
          else match nth_error v ((if Nat.ltb (length v) n then length v else n) - 1) with Some y => Scalar (Some y) | None => Raised end
      end
  end.
(** scope.py 2269-2280: [_has_bar_on]. *)
Definition has_bar_on (st : state) (s : nat) (d : Z) : bool :=
  let n := match get Nat.eqb s (st_ends st) with Some n => n | None => 0 end in
  match data_of s with
  | None => false
  | Some x =>
      if Nat.eqb n 0 then false
      else match nth_error (sd_dates x) ((if Nat.ltb (length (sd_dates x)) n then length (sd_dates x) else n) - 1) with Some e => Z.eqb e d | None => false end
  end.
(** scope.py 2384-2411: [_fetch_bar_ohlc]. *)
Definition fetch_ohlc (n s : nat) (d : Z) : ohlc :=
  match data_of s with
  | None => (None, None, None)
  | Some x =>
      if Nat.eqb n 0 then (None, None, None)
      else
        let i := (if Nat.ltb (length (sd_dates x)) n then length (sd_dates x) else n) - 1 in
        let at_ col := match get Nat.eqb col (sd_cols x) with Some v => nth_error v i | None => None end in
        match nth_error (sd_dates x) i with
        | Some e => if Z.eqb e d then (at_ CLOSE, at_ LOW, at_ HIGH) else (None, None, None)
        | None => (None, None, None)
        end
  end.

Definition set_ends (e : list (nat * nat)) (st : state) : state := mk_state e (st_ctx st) (st_hb st) (st_ohlc st).
Definition set_ctx (c : nat) (x : ctx) (st : state) : state := mk_state (st_ends st) (put Nat.eqb c x (st_ctx st)) (st_hb st) (st_ohlc st).
(** One reading. A context that was never set reads as one without a date. *)
Definition do_read (r : read) (st : state) : answer * state :=
  match r with
  | Foreign c s =>                                                                     (* context.py 927-937 *)
      let x := match get Nat.eqb c (st_ctx st) with Some x => x | None => mk_ctx None None [] end in
      match get Nat.eqb s (c_foreign x) with
      | Some b => (Bar b, st)
      | None =>
          match get Nat.eqb s (st_ends st), data_of s with
          | Some n, Some y => let b := bar_data_of y n in (Bar b, set_ctx c (mk_ctx (c_date x) (c_dt x) (put Nat.eqb s b (c_foreign x))) st)
          | _, _ => (Raised, st)
          end
      end
  | Foreign_col c s col =>                                                             (* 938-941 *)
      match get Nat.eqb s (st_ends st) with
      | None => (Raised, st)
      | Some n => (fetch s col n, st)
      end
  | Own c col => let '(n, e) := end_of c (st_ends st) in (fetch c col n, set_ends e st)
  | Value c col => let '(n, e) := end_of c (st_ends st) in (fetch_value c col n, set_ends e st)
  | Dates c => let '(n, e) := end_of c (st_ends st) in
      (match data_of c with Some x => Date_array (firstn n (sd_dates x)) | None => Raised end, set_ends e st)
  | Dt c =>                                                                            (* 714-720 *)
      let x := match get Nat.eqb c (st_ctx st) with Some x => x | None => mk_ctx None None [] end in
      match c_date x with
      | None => (Raised, st)
      | Some d => let t := match c_dt x with Some t => t | None => d end in (Date t, set_ctx c (mk_ctx (Some d) (Some t) (c_foreign x)) st)
      end
  | Bars c => let '(n, e) := end_of c (st_ends st) in (Count n, set_ends e st)
  | Has_bar_on s d =>                                                                  (* scope.py 2259-2267 *)
      match get key_eqb (s, d) (st_hb st) with
      | Some b => (Truth b, st)
      | None => let b := has_bar_on st s d in (Truth b, mk_state (st_ends st) (st_ctx st) (put key_eqb (s, d) b (st_hb st)) (st_ohlc st))
      end
  | Bar_ohlc s d =>                                                                    (* 2376-2382 *)
      match get key_eqb (s, d) (st_ohlc st) with
      | Some p => (Prices p, st)
      | None => let '(n, e) := end_of s (st_ends st) in
                let p := fetch_ohlc n s d in (Prices p, mk_state e (st_ctx st) (st_hb st) (put key_eqb (s, d) p (st_ohlc st)))
      end
  end.
Fixpoint do_reads (l : list read) (st : state) : list (read * answer) * state :=
  match l with
  | [] => ([], st)
  | r :: l => let '(a, st) := do_read r st in let '(as_, st) := do_reads l st in ((r, a) :: as_, st)
  end.
(** The bars of the window with what is read in each: per bar its date, the contexts handed to the
    functions, and the answers. *)
Fixpoint bars (l : list (Z * list read)) (st : state) : list (Z * list nat * list (read * answer)) :=
  match l with
  | [] => []
  | (d, rs) :: r =>
      let '(st, act) := begin_bar d st in
      let '(as_, st) := do_reads rs st in
      (d, act, as_) :: bars r st
  end.
End Read.
Arguments sym_data : clear implicits. Arguments window : clear implicits. Arguments answer : clear implicits. Arguments state : clear implicits.
Arguments ctx : clear implicits. Arguments bar_data : clear implicits. Arguments ohlc : clear implicits.
