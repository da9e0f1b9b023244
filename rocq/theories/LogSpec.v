(** Specification for C103: what is printed, in terms of the programs of the threads and
    of the calls that switch logging. *)
From Verif Require Import LogModel.

(** The messages in a program, each with whether it is written inside a block that is to
    be quiet. Work sent to a process is not in the block it is sent from. *)
Fixpoint writes (q : bool) (c : cmd) : list (level * message * bool) :=
  match c with
  | Say lv m | StartTimer _ lv m | EndTimer _ lv m => [(lv, m, q)]
  | StartBar m _ => [(Out, m, q)]
  | MoveBar _ => [(Out, Newline, q)]
  | Switch _ | SwitchBar _ | Raise => []
  | Try body => flat_map (writes q) body
  | Quiet verbose body => flat_map (writes (q || negb verbose)) body
  | Ship body => flat_map (writes false) body
  end.
Definition all_writes (programs : list (list cmd)) : list (level * message * bool) :=
  flat_map (flat_map (writes false)) programs.

(** Whether logging is disabled in process [p]: by the last call of [disable] or [enable]
    there; before any, a process is as the one that started it was. *)
Fixpoint off_in (past : list event) (p : nat) : bool :=
  match past with
  | [] => false
  | Switched p' on :: r => if p =? p' then negb on else off_in r p
  | Shipped from to :: r => if p =? to then off_in r from else off_in r p
  | _ :: r => off_in r p
  end.

(** The messages a thread has had for the logger, oldest first. *)
Definition said_by (t : nat) (past : list event) : list (level * message) :=
  flat_map (fun e => match e with Said u _ lv m _ => if t =? u then [(lv, m)] else [] | _ => [] end) (rev past).

(** Programs without progress bars and timers, and the messages such a program has when
    nothing is silenced and nothing else runs; [true] when it ends with an exception. *)
Fixpoint plain (c : cmd) : bool :=
  match c with
  | StartBar _ _ | MoveBar _ | StartTimer _ _ _ | EndTimer _ _ _ => false
  | Try body | Quiet _ body | Ship body => forallb plain body
  | _ => true
  end.
Section Body.
Variable one : cmd -> list (level * message) * bool.
Fixpoint in_turn (l : list cmd) : list (level * message) * bool :=
  match l with
  | [] => ([], false)
  | c :: r => let '(a, raised) := one c in if raised then (a, true) else (a ++ fst (in_turn r), snd (in_turn r))
  end.
End Body.
Fixpoint alone (c : cmd) : list (level * message) * bool :=
  match c with
  | Say lv m => ([(lv, m)], false)
  | Raise => ([], true)
  | Try body => (fst (in_turn alone body), false)
  | Quiet _ body => in_turn alone body
  | _ => ([], false)
  end.
Definition ended (s : system) (t : nat) (failed : bool) : Prop :=
  exists th, nth_error (threads s) t = Some th /\ todo th = [] /\ now th = None /\ (raising th = None <-> failed = false).

(** A program shows the progress bar outside quiet blocks; a program ends a timer. Work
    for other processes does not count. *)
Fixpoint draws (q : bool) (c : cmd) : bool :=
  match c with
  | StartBar _ _ | MoveBar _ => negb q
  | Try body => existsb (draws q) body
  | Quiet verbose body => existsb (draws (q || negb verbose)) body
  | _ => false
  end.
Fixpoint ends (k : nat) (c : cmd) : bool :=
  match c with
  | EndTimer j _ _ => k =? j
  | Try body | Quiet _ body => existsb (ends k) body
  | _ => false
  end.
(** At most one of the threads shows a bar that is not silenced, and each timer is ended by
    at most one. *)
Definition one_bar (programs : list (list cmd)) : Prop :=
  exists owner, forall t c, nth_error programs t = Some c -> t <> owner -> existsb (draws false) c = false.
Definition one_timer (programs : list (list cmd)) : Prop :=
  exists owner, forall k t c, nth_error programs t = Some c -> t <> owner k -> existsb (ends k) c = false.

(** The counts and the totals of the progress bars of a program, and of the work it sends. *)
Fixpoint bar_counts (c : cmd) : list nat :=
  match c with MoveBar n => [n] | Try body | Quiet _ body | Ship body => flat_map bar_counts body | _ => [] end.
Fixpoint bar_totals (c : cmd) : list nat :=
  match c with StartBar _ n => [n] | Try body | Quiet _ body | Ship body => flat_map bar_totals body | _ => [] end.
