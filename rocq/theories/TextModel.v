(** Model of pybroker's timeframe strings and interval names: the parsing
    functions of src/pybroker/common.py and src/pybroker/interval.py.

    A Python [str] is a list of ASCII characters. Simplification: characters
    outside ASCII are not modelled (Python's [\d], [str.isdigit] and [str.strip]
    also accept some of them), nor is the 4300 digit limit of [int]. *)
From Verif Require Export Prelude.
From Coq Require Export Ascii.
From Coq Require String.
Export Coq.Strings.String.StringSyntax.
Import ListNotations.
Open Scope list_scope.
Open Scope Z_scope.

Notation str := (list ascii).
(** A Python string literal. *)
Definition lit (s : String.string) : str := String.list_ascii_of_string s.
Arguments lit _%string_scope.
Definition code (c : ascii) : Z := Z.of_N (N_of_ascii c).
Definition between (a b z : Z) : bool := Z.leb a z && Z.leb z b.
(** The regex classes [\d] and [[A-Za-z]], whitespace as [str.split] and
    [str.strip] see it, and [str.lower], on ASCII. *)
Definition is_digit (c : ascii) : bool := between 48 57 (code c).
Definition is_upper (c : ascii) : bool := between 65 90 (code c).
Definition is_alpha (c : ascii) : bool := is_upper c || between 97 122 (code c).
Definition is_space (c : ascii) : bool := between 9 13 (code c) || between 28 32 (code c).
Definition lower_char (c : ascii) : ascii := if is_upper c then ascii_of_N (Z.to_N (code c + 32)) else c.
Definition lower (s : str) : str := map lower_char s.
Definition str_eqb (a b : str) : bool := if list_eq_dec ascii_dec a b then true else false.
Definition str_in (a : str) (l : list str) : bool := existsb (str_eqb a) l.

(** The longest prefix of characters in a class, and the rest: what [c+] matches. *)
Fixpoint span (p : ascii -> bool) (s : str) : str * str :=
  match s with
  | [] => ([], [])
  | c :: r => if p c then let '(a, b) := span p r in (c :: a, b) else ([], s)
  end.

(** [int(s)] for a string of digits. *)
Definition py_int (d : str) : Z := fold_left (fun a c => 10 * a + (code c - 48)) d 0.
(** [str(n)] for [n >= 0]; [fuel] bounds the number of digits. *)
Definition digit_char (z : Z) : ascii := ascii_of_N (Z.to_N (z + 48)).
Fixpoint to_digits (fuel : nat) (n : Z) : str :=
  match fuel with
  | O => []
  | S f => if Z.ltb n 10 then [digit_char n] else to_digits f (n / 10) ++ [digit_char (n mod 10)]
  end.
Definition py_str (n : Z) : str := to_digits (S (Z.to_nat (Z.log2 n))) n.

(** common.py 63: [(\d+)([A-Za-z]+)] matched at the start of [s]: the two groups
    and the rest. A shorter run of digits is never followed by a letter, so
    backtracking adds no match. *)
Definition tf_match (s : str) : option (str * str * str) :=
  let '(d, r) := span is_digit s in
  match d with
  | [] => None
  | _ => let '(l, r') := span is_alpha r in match l with [] => None | _ => Some (d, l, r') end
  end.
(** [_tf_pattern.findall(s)]: the leftmost match, then on after it. *)
Fixpoint findall_n (fuel : nat) (s : str) : list (str * str) :=
  match fuel with
  | O => []
  | S f =>
      match s with
      | [] => []
      | _ :: s' => match tf_match s with Some (d, l, r) => (d, l) :: findall_n f r | None => findall_n f s' end
      end
  end.
Definition findall (s : str) : list (str * str) := findall_n (length s) s.

(** [s.split()]: the maximal runs of non-whitespace. *)
Fixpoint split_ws (s : str) : list str :=
  match s with
  | [] => []
  | c :: r =>
      if is_space c then split_ws r
      else match r with
           | [] => [[c]]
           | c2 :: _ =>
               if is_space c2 then [c] :: split_ws r
               else match split_ws r with t :: ts => (c :: t) :: ts | [] => [[c]] end
           end
  end.

(** common.py 64-78: [_tf_abbr], [_TF_UNITS] and [_TF_SECONDS]. *)
Definition tf_abbr : list (str * str) :=
  [(lit "s", lit "sec"); (lit "m", lit "min"); (lit "h", lit "hour"); (lit "d", lit "day"); (lit "w", lit "week")].
Definition tf_units : list str := map snd tf_abbr.
Definition tf_seconds : list (str * Z) :=
  [(lit "sec", 1); (lit "min", 60); (lit "hour", 60 * 60); (lit "day", 24 * 60 * 60); (lit "week", 7 * 24 * 60 * 60)].
Fixpoint sget {V} (k : str) (l : list (str * V)) : option V :=
  match l with [] => None | (k', v) :: r => if str_eqb k k' then Some v else sget k r end.

(** common.py 391-407: [parse_timeframe]; [None] is a ValueError. *)
Fixpoint parse_parts (parts : list (str * str)) (seen : list str) : option (list (Z * str)) :=
  match parts with
  | [] => Some []
  | (d, l) :: r =>
      let u := lower l in
      let u := match sget u tf_abbr with Some a => a | None => u end in
      if negb (str_in u tf_units) then None
      else if str_in u seen then None
      else match parse_parts r (u :: seen) with Some t => Some ((py_int d, u) :: t) | None => None end
  end.
Definition parse_timeframe (s : str) : option (list (Z * str)) :=
  let parts := findall s in
  let tokens := split_ws s in
  if Nat.eqb (length parts) 0 || negb (Nat.eqb (length parts) (length tokens)) then None
  else parse_parts parts [].

(** common.py 425-429: [to_seconds]. The [KeyError] of [_TF_SECONDS[unit]] is
    [None] too; units come from [parse_timeframe], so it does not occur. *)
Fixpoint sum_seconds (parts : list (Z * str)) : option Z :=
  match parts with
  | [] => Some 0
  | (n, u) :: r =>
      match sget u tf_seconds, sum_seconds r with Some k, Some t => Some (n * k + t) | _, _ => None end
  end.
Definition to_seconds (timeframe : option str) : option Z :=
  match timeframe with
  | None | Some [] => Some 0
  | Some s => match parse_timeframe s with Some p => sum_seconds p | None => None end
  end.

(** data.py 324-329: [DataSource._format_timeframe]. *)
Fixpoint join_space (l : list str) : str :=
  match l with [] => [] | [x] => x | x :: r => x ++ (" "%char :: join_space r) end.
Definition format_timeframe (timeframe : option str) : option str :=
  match timeframe with
  | None | Some [] => Some []
  | Some s =>
      match parse_timeframe s with
      | Some p => Some (join_space (map (fun '(n, u) => py_str n ++ u) p))
      | None => None
      end
  end.

(** ** interval.py *)
(** 32-43: a [TimeframeInterval]: an int or a string. *)
Inductive interval := Every (n : Z) | Named (s : str).
Definition interval_eqb (a b : interval) : bool :=
  match a, b with
  | Every n, Every m => Z.eqb n m
  | Named s, Named t => str_eqb s t
  | _, _ => false
  end.
(** 45-47. *)
Definition calendar_intervals : list str :=
  [lit "daily"; lit "weekly"; lit "monthly"; lit "quarterly"; lit "yearly"].

(** [value.strip()]. *)
Fixpoint lstrip (s : str) : str := match s with [] => [] | c :: r => if is_space c then lstrip r else s end.
Definition strip (s : str) : str := rev (lstrip (rev (lstrip s))).
(** 61: [_DURATION_PATTERN.fullmatch]: digits and one of [smhd], in any case. *)
Definition is_unit_letter (c : ascii) : bool := existsb (Ascii.eqb (lower_char c)) ["s"; "m"; "h"; "d"]%char.
Definition duration_match (s : str) : option (str * ascii) :=
  match span is_digit s with
  | (d, [u]) => match d with [] => None | _ => if is_unit_letter u then Some (d, u) else None end
  | _ => None
  end.
(** 192-215: [_normalize_duration_string]; its [lru_cache] is left out (it does
    not change results). The two week messages are the same ValueError. *)
Definition normalize_duration (value : str) : option str :=
  let stripped := strip value in
  match stripped with
  | [] => None
  | _ =>
      if existsb (Ascii.eqb " ") stripped then None
      else match duration_match stripped with
           | None => None
           | Some (d, u) =>
               let amount := py_int d in
               if Z.leb amount 0 then None
               else let canonical := py_str amount ++ [lower_char u] in
                    match to_seconds (Some canonical) with
                    | Some k => if Z.leb k 0 then None else Some canonical
                    | None => None
                    end
           end
  end.
(** 218-225. *)
Definition is_duration_interval (value : str) : bool :=
  if str_in value calendar_intervals then false
  else match normalize_duration value with Some _ => true | None => false end.
(** 228-243: [normalize_interval]. Arguments that are neither int nor str raise
    the same ValueError and are left out. *)
Definition normalize_interval (i : interval) : option interval :=
  match i with
  | Every n => if Z.leb n 1 then None else Some (Every n)
  | Named s => if str_in s calendar_intervals then Some (Named s) else option_map Named (normalize_duration s)
  end.
(** 246-251. *)
Definition format_interval (i : interval) : option str :=
  match normalize_interval i with
  | Some (Every n) => Some (py_str n)
  | Some (Named s) => Some s
  | None => None
  end.
(** 254, 261-293: [normalize_intervals] of a tuple of intervals; the set is in
    order of insertion. *)
Definition base_interval : str := lit "base".
Fixpoint normalize_all (allow_base : bool) (l : list interval) (seen : list interval) : option (list interval) :=
  match l with
  | [] => Some seen
  | i :: r =>
      let norm := if allow_base && interval_eqb i (Named base_interval) then Some (Named base_interval)
                  else normalize_interval i in
      match norm with
      | None => None
      | Some n => if existsb (interval_eqb n) seen then None else normalize_all allow_base r (seen ++ [n])
      end
  end.
Definition normalize_intervals (declared : list interval) (allow_base : bool) : option (list interval) :=
  match declared with [] => None | _ => normalize_all allow_base declared [] end.
(** 300-317: [validate_source_name]; [true] is no error. *)
Definition at_sign : ascii := "@"%char.
Definition has_at (s : str) : bool := existsb (Ascii.eqb at_sign) s.
Definition validate_source_name (name : str) : bool := negb (has_at name).
(** 320-322: [indicator_interval_name] (and [model_interval_name], 341-343). *)
Definition indicator_interval_name (base : str) (i : interval) : option str :=
  match format_interval i with Some f => Some (base ++ at_sign :: f) | None => None end.
(** [name.rsplit("@", 1)], [None] when there is no ["@"]. *)
Fixpoint rsplit_at (s : str) : option (str * str) :=
  match s with
  | [] => None
  | c :: r =>
      match rsplit_at r with
      | Some (a, b) => Some (c :: a, b)
      | None => if Ascii.eqb at_sign c then Some ([], r) else None
      end
  end.
(** [str.isdigit]. *)
Definition all_digits (s : str) : bool := match s with [] => false | _ => forallb is_digit s end.
(** 325-338: [parse_indicator_interval_name] (and [parse_model_interval_name],
    346-350). *)
Definition parse_interval_name (name : str) : str * option interval :=
  match rsplit_at name with
  | None => (name, None)
  | Some (base, suffix) =>
      if all_digits suffix then (base, Some (Every (py_int suffix)))
      else if str_in suffix calendar_intervals then (base, Some (Named suffix))
      else if is_duration_interval suffix
      then match normalize_duration suffix with Some d => (base, Some (Named d)) | None => (name, None) end
      else (name, None)
  end.
