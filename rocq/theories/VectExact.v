(** One arithmetic: exact rationals with NaN and the two infinities, following the
    IEEE rules for them, without rounding. A division by zero, which raises in the
    code, is NaN. Logarithm, exponential and square root stay arbitrary. *)
From Coq Require Import List Bool ZArith QArith Qround Qabs.
From Verif Require Import VectModel.
Import ListNotations.

Inductive xq := Fin (q : Q) | NaN | PInf | NInf.
Definition xneg (x : xq) : xq := match x with Fin q => Fin (- q) | NaN => NaN | PInf => NInf | NInf => PInf end.
Definition xadd (x y : xq) : xq :=
  match x, y with
  | Fin p, Fin q => Fin (p + q)
  | NaN, _ | _, NaN | PInf, NInf | NInf, PInf => NaN
  | PInf, _ | _, PInf => PInf
  | NInf, _ | _, NInf => NInf
  end.
Definition xsub (x y : xq) : xq := xadd x (xneg y).
Definition xpos (x : xq) : bool := match x with Fin q => negb (Qle_bool q 0) | PInf => true | _ => false end.
Definition xzero (x : xq) : bool := match x with Fin q => Qeq_bool q 0 | _ => false end.
(** An infinity with the sign of [x]. *)
Definition xsigned (x : xq) : xq := if xzero x then NaN else if xpos x then PInf else NInf.
Definition xmul (x y : xq) : xq :=
  match x, y with
  | Fin p, Fin q => Fin (p * q)
  | NaN, _ | _, NaN => NaN
  | PInf, z | z, PInf => xsigned z
  | NInf, z | z, NInf => xneg (xsigned z)
  end.
Definition xdiv (x y : xq) : xq :=
  match x, y with
  | NaN, _ | _, NaN => NaN
  | Fin p, Fin q => if Qeq_bool q 0 then NaN else Fin (p / q)
  | Fin _, _ => Fin 0
  | PInf, Fin q => if Qeq_bool q 0 then NaN else xsigned y
  | NInf, Fin q => if Qeq_bool q 0 then NaN else xneg (xsigned y)
  | _, _ => NaN
  end.
Definition xle (x y : xq) : bool :=
  match x, y with
  | NaN, _ | _, NaN => false
  | Fin p, Fin q => Qle_bool p q
  | NInf, _ | _, PInf => true
  | _, _ => false
  end.
Definition xnan (x : xq) : bool := match x with NaN => true | _ => false end.
Definition xinf (x : xq) : bool := match x with PInf | NInf => true | _ => false end.
Definition xlt (x y : xq) : bool := negb (xnan x) && negb (xnan y) && negb (xle y x).
Definition xeqb (x y : xq) : bool := xle x y && xle y x.
Definition xabs (x : xq) : xq := match x with Fin q => Fin (Qabs q) | NaN => NaN | _ => PInf end.
Definition xint (x : xq) : Z := match x with Fin q => if Qle_bool 0 q then Qfloor q else Qceiling q | _ => 0%Z end.
Definition exact (lg ex sq : xq -> xq) (pi : Q) (junk : list xq -> Z -> xq) : arith :=
  mkArith xq Fin NaN PInf NInf xadd xsub xmul xdiv xneg xlt xle xeqb xnan xinf xabs lg ex sq xint (Fin pi) junk.

(** Equality of values: rationals up to [==]. *)
Definition xeq (x y : xq) : Prop :=
  match x, y with Fin p, Fin q => (p == q)%Q | NaN, NaN | PInf, PInf | NInf, NInf => True | _, _ => False end.
