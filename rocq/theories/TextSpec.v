(** Vocabulary of the timeframe and interval name properties. *)
From Verif Require Export TextModel.
Open Scope list_scope.
Open Scope Z_scope.

(** Characters by their ASCII code. *)
Definition digit (c : ascii) : Prop := exists n, (n < 10)%nat /\ nat_of_ascii c = (48 + n)%nat.
Definition letter (c : ascii) : Prop :=
  exists n, (n < 26)%nat /\ (nat_of_ascii c = (65 + n)%nat \/ nat_of_ascii c = (97 + n)%nat).
Definition space (c : ascii) : Prop :=
  nat_of_ascii c = 32%nat \/ (9 <= nat_of_ascii c <= 13)%nat \/ (28 <= nat_of_ascii c <= 31)%nat.
Definition blank (s : str) : Prop := Forall space s.
(** Two texts are the same up to the case of their letters. *)
Definition same_char (a b : ascii) : Prop :=
  a = b \/ exists n, (n < 26)%nat /\
    ((nat_of_ascii a = (65 + n)%nat /\ nat_of_ascii b = (97 + n)%nat) \/
     (nat_of_ascii b = (65 + n)%nat /\ nat_of_ascii a = (97 + n)%nat)).
Definition same_text (s t : str) : Prop := Forall2 same_char s t.

(** A nonempty text of digits and the number it denotes in decimal. *)
Inductive digits_of : str -> Z -> Prop :=
| dg_nil : digits_of [] 0
| dg_snoc s n c k : digits_of s n -> (k < 10)%nat -> nat_of_ascii c = (48 + k)%nat ->
                    digits_of (s ++ [c]) (10 * n + Z.of_nat k).
Definition numeral (s : str) (n : Z) : Prop := s <> [] /\ digits_of s n.
(** The usual numeral: no leading zero, except for zero itself. *)
Definition decimal (s : str) (n : Z) : Prop := numeral s n /\ (forall r, s = "0"%char :: r -> r = []).

(** The five units with their names and their length in seconds. *)
Definition tf_unit (short long : str) (secs : Z) : Prop :=
  In (short, long, secs)
     [(lit "s", lit "sec", 1); (lit "m", lit "min", 60); (lit "h", lit "hour", 3600);
      (lit "d", lit "day", 86400); (lit "w", lit "week", 604800)].
(** [t] is a number followed by the name of a unit, in any case: [n] of unit
    [u] (its long name). *)
Definition part_text (t : str) (p : Z * str) : Prop :=
  exists d l short secs, t = d ++ l /\ numeral d (fst p) /\ tf_unit short (snd p) secs /\
    (same_text l short \/ same_text l (snd p)).
(** The length of a part in seconds. *)
Definition part_seconds (p : Z * str) (k : Z) : Prop := exists short secs, tf_unit short (snd p) secs /\ k = fst p * secs.
(** [s] is the words [ws] with whitespace between them, and maybe around them. *)
Inductive spaced : list str -> str -> Prop :=
| sp_nil w : blank w -> spaced [] w
| sp_one w t w' : blank w -> blank w' -> spaced [t] (w ++ t ++ w')
| sp_more w t c rest ts : blank w -> space c -> ts <> [] -> spaced ts (c :: rest) ->
                          spaced (t :: ts) (w ++ t ++ c :: rest).
(** A well-formed timeframe: one or more parts, of different units. *)
Definition timeframe (s : str) (parts : list (Z * str)) : Prop :=
  exists ws, ws <> [] /\ spaced ws s /\ Forall2 part_text ws parts /\ NoDup (map snd parts).

(** The calendar intervals. *)
Definition calendar (s : str) : Prop :=
  s = lit "daily" \/ s = lit "weekly" \/ s = lit "monthly" \/ s = lit "quarterly" \/ s = lit "yearly".
(** [s] is a duration interval: a positive number and one unit letter, with
    whitespace around it allowed; [t] is its normal form. *)
Definition duration (s t : str) : Prop :=
  exists w d u w' n d' u', s = w ++ d ++ [u] ++ w' /\ blank w /\ blank w' /\ numeral d n /\ 0 < n /\
    same_char u u' /\ In u' ["s"; "m"; "h"; "d"]%char /\ decimal d' n /\ t = d' ++ [u'].
(** An interval and its normal form. *)
Inductive normal_form : interval -> interval -> Prop :=
| nf_bars n : 1 < n -> normal_form (Every n) (Every n)
| nf_calendar s : calendar s -> normal_form (Named s) (Named s)
| nf_duration s t : duration s t -> normal_form (Named s) (Named t).
(** An interval an indicator or model may be bound to: ["base"] too, if allowed. *)
Definition bound_form (allow_base : bool) (i j : interval) : Prop :=
  normal_form i j \/ (allow_base = true /\ i = Named (lit "base") /\ j = Named (lit "base")).
