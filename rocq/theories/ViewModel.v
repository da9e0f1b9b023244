(** Model of what an execution sees of the account: src/pybroker/context.py 512-702
    (the account's part of [ExecContext]) and 1107-1153 ([long_pos], [short_pos]).
    The iterators are lists: reading one to its end before the account changes. *)
From Verif Require Export PortfolioModel.

(** The [pos_type] argument: "long", "short" or another string. *)
Inductive pos_type : Type := PosLong | PosShort | PosOther.
Definition is_short (t : option pos_type) : bool := match t with Some PosShort => true | _ => false end.
Definition is_long (t : option pos_type) : bool := match t with Some PosLong => true | _ => false end.
(** 696-698 [_verify_pos_type]. *)
Definition verify_pos_type (t : pos_type) : bool := match t with PosOther => false | _ => true end.

Section View.
Variable c : cfg.
(** 512-572: the scalar attributes that only hand on the portfolio's. *)
Definition ctx_cash (p : port) : Q := p_cash p.
Definition ctx_net_cash_balance (p : port) : Q := net_cash c p.
Definition ctx_win_rate (p : port) : Q := win_rate p.
Definition ctx_loss_rate (p : port) : Q := loss_rate p.
(** 574-579 [orders], 587-592 [trades]. *)
Definition ctx_orders (p : port) : list order := p_orders p.
Definition ctx_trades (p : port) : list trade := p_trades p.
(** 594-616 [pos]; the outer [None] is the ValueError. *)
Definition ctx_pos (p : port) (s : sym) (t : pos_type) : option (option position) :=
  if negb (verify_pos_type t) then None
  else if is_long (Some t) && ahas s (p_longs p) then Some (aget s (p_longs p))
  else if is_short (Some t) && ahas s (p_shorts p) then Some (aget s (p_shorts p))
  else Some None.
(** [yield d[s]] when there is one. *)
Definition one (s : sym) (d : list (sym * position)) : list position := match aget s d with Some x => [x] | None => [] end.
(** 618-654 [positions]; [None] is the ValueError. *)
Definition ctx_positions (p : port) (s : option sym) (t : option pos_type) : option (list position) :=
  if match t with Some t => negb (verify_pos_type t) | None => false end then None
  else Some match s with
            | None => (if is_short t then [] else avals (p_longs p)) ++ (if is_long t then [] else avals (p_shorts p))
            | Some s => (if negb (is_short t) && ahas s (p_longs p) then one s (p_longs p) else []) ++
                        (if negb (is_long t) && ahas s (p_shorts p) then one s (p_shorts p) else [])
            end.
(** 656-686 [long_positions], [short_positions]. *)
Definition ctx_long_positions (p : port) (s : option sym) : option (list position) := ctx_positions p s (Some PosLong).
Definition ctx_short_positions (p : port) (s : option sym) : option (list position) := ctx_positions p s (Some PosShort).
(** 688-694: [bool] of a dict. *)
Definition ctx_has_long (p : port) : bool := match p_longs p with [] => false | _ => true end.
Definition ctx_has_short (p : port) : bool := match p_shorts p with [] => false | _ => true end.
(** 1107-1153 [long_pos], [short_pos]; [own]: the context's symbol. The outer
    [None] is the ValueError for want of a symbol. *)
Definition ctx_long_pos (p : port) (own s : option sym) : option (option position) :=
  match s with
  | Some s => Some (aget s (p_longs p))
  | None => match own with Some s => Some (aget s (p_longs p)) | None => None end
  end.
Definition ctx_short_pos (p : port) (own s : option sym) : option (option position) :=
  match s with
  | Some s => Some (aget s (p_shorts p))
  | None => match own with Some s => Some (aget s (p_shorts p)) | None => None end
  end.
End View.
