(** Model of score ranking, strategy.py 181-240, and of stable sorting. *)
From Verif Require Export ContextModel.

(** Python's [sorted] and [list.sort]: a stable sort. [le x y] says that [x] may
    stay before [y]; equal elements keep their order (also with [reverse=True]). *)
Section Sort.
  Context {A : Type} (le : A -> A -> bool).
  Fixpoint insert (x : A) (l : list A) : list A :=
    match l with
    | [] => [x]
    | y :: r => if le x y then x :: l else y :: insert x r
    end.
  Fixpoint isort (l : list A) : list A :=
    match l with [] => [] | x :: r => insert x (isort r) end.
End Sort.

(** A sort key: a float that is not NaN. *)
Inductive key := KNegInf | KNum (q : Q) | KPosInf.
Definition key_leb (a b : key) : bool :=
  match a, b with
  | KNegInf, _ => true
  | KNum x, KNum y => Qle_bool x y
  | KNum _, KPosInf => true
  | KPosInf, KPosInf => true
  | _, _ => false
  end.

(** strategy.py 216-223 [_is_rankable]: [None] and NaN are not. *)
Definition rankable (x : option score) : option key :=
  match x with
  | None | Some ScNaN => None
  | Some ScNegInf => Some KNegInf
  | Some (ScNum q) => Some (KNum q)
  | Some ScPosInf => Some KPosInf
  end.
(** strategy.py 187-196 [_sort_by_buy_score] and 199-208 [_sort_by_sell_score],
    given the side's own score. *)
Definition sort_key (own common : option score) : key :=
  match own with
  | Some _ => match rankable own with Some k => k | None => KNegInf end
  | None =>
      match rankable common with
      | Some k => k
      | None => match common with Some _ => KNegInf | None => KNum 0 end
      end
  end.
Definition buy_key (r : result) : key := sort_key (r_lscore r) (r_score r).
Definition sell_key (r : result) : key := sort_key (r_sscore r) (r_score r).
(** [sort(key=..., reverse=True)], strategy.py 884-890. *)
Definition sort_desc {A} (f : A -> key) (l : list A) : list A := isort (fun x y => key_leb (f y) (f x)) l.

(** strategy.py 225-233 [_rank_by_score]: ranks from 1, best score first, ties by
    symbol. [scores] is a dict, so its symbols are distinct. *)
Definition rank_leb (x y : sym * key) : bool :=
  negb (key_leb (snd x) (snd y)) || (key_leb (snd y) (snd x) && Nat.leb (fst x) (fst y)).
Fixpoint enum_from (n : nat) (l : list sym) : list (sym * nat) :=
  match l with [] => [] | s :: r => (s, n) :: enum_from (S n) r end.
Definition rank_by_score (scores : list (sym * key)) : list (sym * nat) :=
  enum_from 1 (map fst (isort rank_leb scores)).
