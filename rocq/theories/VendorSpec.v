(** What properties C104 and C105 talk about. *)
From Verif Require Export VendorModel TextSpec.
Import ListNotations.
Open Scope list_scope.
Open Scope Z_scope.

(** ** C104 *)
(** The seconds of a unit that Alpaca is asked for, and its name in a timeframe. *)
Inductive alpaca_unit : unit_of_time -> str -> Z -> Prop :=
| a_minute : alpaca_unit Minute (lit "min") 60
| a_hour : alpaca_unit Hour (lit "hour") 3600
| a_day : alpaca_unit Day (lit "day") 86400
| a_week : alpaca_unit Week (lit "week") 604800.
(** The timeframes that AKShare and YQuery support: amount, unit, what the vendor
    calls it, and its seconds. *)
Inductive ak_supports : Z -> str -> str -> Z -> Prop :=
| ak_day : ak_supports 1 (lit "day") (lit "daily") 86400
| ak_week : ak_supports 1 (lit "week") (lit "weekly") 604800.
Inductive yq_supports : Z -> str -> str -> Z -> Prop :=
| yq_hour : yq_supports 1 (lit "hour") (lit "1h") 3600
| yq_day : yq_supports 1 (lit "day") (lit "1d") 86400
| yq_five : yq_supports 5 (lit "day") (lit "5d") 432000
| yq_week : yq_supports 1 (lit "week") (lit "1wk") 604800.

(** ** C105 *)
(** The vendor's names for the fields of a bar. *)
Inductive named : column -> column -> Prop :=
| n_same c : In c [DATE; OPEN; HIGH; LOW; CLOSE; VOLUME] -> named c c
| n_date : named DATE Riqi
| n_open : named OPEN Kaipan
| n_close : named CLOSE Shoupan
| n_high : named HIGH Zuigao
| n_low : named LOW Zuidi
| n_volume : named VOLUME Chengjiaoliang.
(** The column of [t] that holds a field: the one that has one of its names, or,
    for the volume of a frame that has none, the column "amount". *)
Definition holds (t : table) (field c : column) : Prop :=
  In c (t_cols t) /\
  (named field c \/ field = VOLUME /\ c = AMOUNT /\ forall k, In k (t_cols t) -> ~ named VOLUME k).
(** What a value of the vendor is in the answer: dates are parsed, others kept. *)
Definition becomes (to_datetime : cell -> option cell) (field : column) (v w : option cell) : Prop :=
  match v with
  | None => w = None
  | Some x => if column_eqb field DATE then exists d, to_datetime x = Some d /\ w = Some d else w = Some x
  end.
(** [r] is the bar of symbol [s] that row [v] of the vendor's frame [t] stands for. *)
Definition bar_of (to_datetime : cell -> option cell) (s : str) (t : table) (v r : row) : Prop :=
  r SYMBOL = Some (Word s)
  /\ forall field, In field [DATE; OPEN; HIGH; LOW; CLOSE; VOLUME] ->
       (forall c, holds t field c -> becomes to_datetime field (v c) (r field))
       /\ ((forall c, ~ holds t field c) -> r field = None).
(** [rows] are the bars of the frame that answered for [s]. *)
Definition bars_of (to_datetime : cell -> option cell) (s : str) (t : table) (rows : list row) : Prop :=
  t_cols t = [] /\ rows = [] \/ t_cols t <> [] /\ Forall2 (bar_of to_datetime s t) (t_rows t) rows.

(** [code] is the part of a symbol before its first dot and [exch] what follows
    the dot. *)
Definition listed (s code exch : str) : Prop :=
  ~ In "."%char code /\ s = code ++ "."%char :: exch.
Definition unlisted (s : str) : Prop := ~ In "."%char s.
Definition six (code : str) : Prop := exists r, code = "6"%char :: r.
(** The code that the first service is asked for, and the name that the second one
    is asked for: the suffix SH or a first digit 6 stand for Shanghai. *)
Definition has_code (s code : str) : Prop := s = code /\ unlisted s \/ exists exch, listed s code exch.
Definition second_name (s code tx : str) : Prop :=
  (listed s code (lit "SH") \/ six code) /\ tx = lit "sh" ++ code
  \/ ~ (listed s code (lit "SH") \/ six code) /\ tx = lit "sz" ++ code.

(** The frame that answers for a symbol: that of the first service or, if it is
    unavailable and the bars are daily, that of the second. *)
Inductive answers (vendor : call -> answer) (first last : Z) (period adjust : str) (s : str) : list call -> table -> Prop :=
| by_first code t : has_code s code -> vendor (Hist code first last period adjust) = Table t ->
    answers vendor first last period adjust s [Hist code first last period adjust] t
| by_second code tx t : has_code s code -> vendor (Hist code first last period adjust) = Unavailable ->
    period = lit "daily" -> second_name s code tx -> vendor (Hist_tx tx first last adjust) = Table t ->
    answers vendor first last period adjust s [Hist code first last period adjust; Hist_tx tx first last adjust] t.
(** No frame answers for a symbol. *)
Inductive fails (vendor : call -> answer) (first last : Z) (period adjust : str) (s : str) : list call -> error -> Prop :=
| f_broken code : has_code s code -> vendor (Hist code first last period adjust) = Broken ->
    fails vendor first last period adjust s [Hist code first last period adjust] Vendor_broken
| f_not_daily code : has_code s code -> vendor (Hist code first last period adjust) = Unavailable -> period <> lit "daily" ->
    fails vendor first last period adjust s [Hist code first last period adjust] Vendor_unavailable
| f_second code tx e : has_code s code -> vendor (Hist code first last period adjust) = Unavailable -> period = lit "daily" ->
    second_name s code tx ->
    (vendor (Hist_tx tx first last adjust) = Unavailable /\ e = Vendor_unavailable
     \/ vendor (Hist_tx tx first last adjust) = Broken /\ e = Vendor_broken) ->
    fails vendor first last period adjust s [Hist code first last period adjust; Hist_tx tx first last adjust] e.

(** A frame that has no two columns for one thing. *)
Definition clear (t : table) : Prop :=
  NoDup (t_cols t)
  /\ (forall field c c', In c (t_cols t) -> In c' (t_cols t) -> named field c -> named field c' -> c = c')
  /\ (In Chengjiaoliang (t_cols t) -> ~ In AMOUNT (t_cols t)).
(** A frame that has all six fields, and dates that can be read. *)
Definition full (to_datetime : cell -> option cell) (t : table) : Prop :=
  t_cols t <> []
  /\ (forall field, In field [DATE; OPEN; HIGH; LOW; CLOSE; VOLUME] -> exists c, holds t field c)
  /\ (forall c v x, holds t DATE c -> In v (t_rows t) -> v c = Some x -> to_datetime x <> None).

(** The exchange that the second service is asked for: "sh" for Shanghai and "sz"
    for Shenzhen, by the suffix of the symbol; without one, codes that start with
    6 are Shanghai's. *)
Inductive on_exchange : str -> str -> Prop :=
| on_sh s code : listed s code (lit "SH") -> on_exchange s (lit "sh" ++ code)
| on_sz s code : listed s code (lit "SZ") -> on_exchange s (lit "sz" ++ code)
| on_six s : unlisted s -> six s -> on_exchange s (lit "sh" ++ s)
| on_other s : unlisted s -> ~ six s -> on_exchange s (lit "sz" ++ s).
