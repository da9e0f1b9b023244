(** What an execution's score is worth, and who ranks ahead of whom. *)
From Verif Require Export RankModel.

(** The side's own score if it is set, else the common score, else 0. *)
Definition worth (own common : option score) : score :=
  match own, common with
  | Some s, _ => s
  | None, Some s => s
  | None, None => ScNum 0
  end.
(** Scores compare as numbers; NaN counts as minus infinity. *)
Definition score_le (a b : score) : Prop :=
  match a, b with
  | ScNaN, _ | ScNegInf, _ | _, ScPosInf => True
  | ScNum x, ScNum y => x <= y
  | _, _ => False
  end.
(** Symbol [s] with score [a] ranks ahead of [t] with score [b]. *)
Definition beats (s : sym) (a : score) (t : sym) (b : score) : Prop :=
  ~ score_le a b \/ (score_le a b /\ score_le b a /\ (s < t)%nat).

(** ** The order in which a bar tries its orders *)
From Coq Require Import Sorting.Sorted Sorting.Permutation.
(** A selection of elements, in order. *)
Inductive subseq {A} : list A -> list A -> Prop :=
| sub_nil : subseq [] []
| sub_skip x l m : subseq l m -> subseq l (x :: m)
| sub_take x l m : subseq l m -> subseq (x :: l) (x :: m).
(** [l'] is [l] ranked: nothing lost or duplicated, best score first, and elements
    of equal score in the order they had. *)
Definition ranked {A} (g : A -> score) (l l' : list A) : Prop :=
  Permutation l' l /\ StronglySorted (fun x y => score_le (g y) (g x)) l' /\
  forall p : A -> bool, (forall x y, p x = true -> p y = true -> score_le (g x) (g y)) -> filter p l' = filter p l.
Definition buy_worth (r : result) : score := worth (r_lscore r) (r_score r).
Definition sell_worth (r : result) : score := worth (r_sscore r) (r_score r).
