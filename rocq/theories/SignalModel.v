(** Model of the check of names at the start of a run, [validate_registered_names] of
    src/pybroker/scope.py 293-342 as called by strategy.py 2741-2744 and optimize.py
    1663-1666; of the frames of signals, [get_signals] of scope.py 2646-2687; and of
    their concatenation over the windows, strategy.py 3221-3239.

    Names are strings; [str.isdigit] is ASCII. A column of a frame is a list of values,
    [None] for missing; numpy dtypes are not modelled. *)
From Verif Require Export DeclareModel.
From Coq Require Export QArith.
Open Scope list_scope.
Open Scope nat_scope.

Definition value := option Q.
Definition column := list value.
(** A dict of columns, in order of first insertion. *)
Definition frame := list (str * column).
Fixpoint fset (k : str) (v : column) (d : frame) : frame :=
  match d with [] => [(k, v)] | (k', v') :: r => if str_eqb k k' then (k', v) :: r else (k', v') :: fset k v r end.

(** ** The check of names (scope.py 313-342) *)
Fixpoint after_prefix (p s : str) : option str :=
  match p, s with
  | [], _ => Some s
  | c :: p, d :: s => if Ascii.eqb c d then after_prefix p s else None
  | _, [] => None
  end.
(** f"{name}_pred" *)
Definition pred_name (m : str) : str := m ++ lit "_pred".
(** 329-337: [existing] is the prediction column of [m], or a numbered one. *)
Definition pred_collides (m existing : str) : bool :=
  str_eqb existing (pred_name m) ||
  match after_prefix (pred_name m ++ lit "_") existing with Some d => all_digits d | None => false end.
Definition validate_names (cols inds models : list str) : bool :=
  negb (existsb (fun n => str_in n cols) inds) &&
  negb (existsb (fun m => existsb (pred_collides m) (cols ++ inds)) models).
(** strategy.py 2741-2744: the names that the executions list. *)
Definition run_validates (cols : list str) (execs : list execution) : bool :=
  validate_names cols (concat (map x_inds execs)) (concat (map x_models execs)).

(** ** [get_signals] (scope.py 2646-2687), for one symbol *)
(** A model's predictions: one per bar, or several, given here by component. *)
Inductive prediction := Single (l : column) | Multi (l : list column).
(** f"{model}_pred_{i}" *)
Definition pred_name_i (m : str) (i : nat) : str := pred_name m ++ lit "_" ++ py_str (Z.of_nat i).
Definition add_preds (m : str) (p : prediction) (d : frame) : frame :=
  match p with
  | Single l => fset (pred_name m) l d
  | Multi ls => fold_left (fun d ic => fset (pred_name_i m (fst ic)) (snd ic) d) (combine (seq 0 (length ls)) ls) d
  end.
(** 2661-2685: [cols]: the data columns, the date first; [fetch]: the symbol's array,
    [None] when it has no such column, a column of missing values; [inds], [models]:
    every registered name; [computed], [preds]: [None] when the scope raises a
    ValueError, which is passed over. *)
Definition signal_data (bars : nat) (cols inds models : list str) (fetch computed : str -> option column) (preds : str -> option prediction) : frame :=
  let d := fold_left (fun d c => fset c (match fetch c with Some l => l | None => repeat None bars end) d) cols [] in
  let d := fold_left (fun d i => match computed i with Some l => fset i l d | None => d end) inds d in
  fold_left (fun d m => match preds m with Some p => add_preds m p d | None => d end) models d.
(** 2686: [pd.DataFrame(data)]; [None] when columns differ in length (ValueError). *)
Definition make_frame (bars : nat) (d : frame) : option frame :=
  if forallb (fun kc => Nat.eqb (length (snd kc)) bars) d then Some d else None.
Definition signals (bars : nat) (cols inds models : list str) (fetch computed : str -> option column) (preds : str -> option prediction) : option frame :=
  make_frame bars (signal_data bars cols inds models fetch computed preds).

(** ** All windows (strategy.py 3221-3239): [pd.concat] of a symbol's frames, each with
    its number of rows: the union of the columns, missing values where a frame lacks
    one. *)
Fixpoint fget (k : str) (d : frame) : option column :=
  match d with [] => None | (k', v) :: r => if str_eqb k k' then Some v else fget k r end.
Definition union_columns (fs : list (nat * frame)) : list str :=
  fold_left (fun l f => l ++ filter (fun c => negb (str_in c l)) (map fst (snd f))) fs [].
Definition concat_column (fs : list (nat * frame)) (c : str) : column :=
  concat (map (fun f => match fget c (snd f) with Some l => l | None => repeat None (fst f) end) fs).
Definition concat_frames (fs : list (nat * frame)) : frame :=
  match fs with
  | [f] => snd f
  | _ => map (fun c => (c, concat_column fs c)) (union_columns fs)
  end.
