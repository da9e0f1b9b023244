(** What an execution may conclude from the orders it sees. *)
From Verif Require Export ViewModel.

(** Shares of a symbol bought less shares sold, one filled order at a time. *)
Fixpoint net (s : sym) (l : list order) : Q :=
  match l with
  | [] => 0
  | o :: r => if Nat.eqb (o_sym o) s then match o_side o with OBuy => o_shares o + net s r | OSell => net s r - o_shares o end else net s r
  end.
(** A symbol filter and a type filter let a position through. *)
Definition asked_symbol (s : option sym) (x : position) : Prop := forall y, s = Some y -> ps_sym x = y.
Definition asked_type (t : option pos_type) (x : position) : Prop :=
  match t with None => True | Some PosLong => ps_type x = Long | Some PosShort => ps_type x = Short | Some PosOther => False end.
