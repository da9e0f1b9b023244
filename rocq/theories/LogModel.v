(** Model of the state of the logger (src/pybroker/log.py 23-119, 576-605) and of what
    silences it (src/pybroker/optimize.py 1092-1108), as several threads and worker
    processes use it at once.

    A thread runs a program: a list of the things the package does with its logger, with
    the blocks and the exceptions around them. Each access to an attribute of the logger
    is a step of its own, and the steps of the threads are interleaved in any way. One
    exception: the check whether to print and the printing that follows are one step.
    Not modelled: the wording of the messages, the times, what is drawn on the screen. *)
From Coq Require Export List Bool Arith Lia.
Export ListNotations.
Open Scope list_scope.

Notation tid := nat (only parsing).
Notation pid := nat (only parsing).

(** 576-605: [_out] prints; the others go to Python's [logging]. *)
Inductive level := Out | Debug | Info | Warning.
Inductive message := Text (n : nat) | Newline.

(** What code does that concerns the logger. *)
Inductive cmd :=
| Say (lv : level) (m : message)                 (** [_out], [_debug], [_info], [_warn] *)
| StartBar (m : message) (total : nat)           (** [_start_progress_bar] *)
| MoveBar (count : nat)                          (** [_update_progress_bar] *)
| StartTimer (k : nat) (lv : level) (m : message)(** e.g. [train_split_start] *)
| EndTimer (k : nat) (lv : level) (m : message)  (** e.g. [train_split_completed] *)
| Switch (on : bool)                             (** [enable], [disable] *)
| SwitchBar (on : bool)                          (** [enable_progress_bar], [disable_progress_bar] *)
| Raise                                          (** anything else that raises *)
| Try (body : list cmd)                          (** [try: ... except: pass] *)
| Quiet (verbose : bool) (body : list cmd)       (** [with _quiet_logging(verbose):] *)
| Ship (body : list cmd).                        (** work for a worker process *)

(** What can go wrong in the logger: an attribute that is [None] is used, or a progress
    bar is given a count that is above its maximum. [Other] is [Raise]. *)
Inductive failure := Lost | Beyond | Other.

(** 30-40: a [Logger]. [timers]: the timers that are not [None]. [locals]: the [count] of
    the threads that have one. *)
Record logger := mk_logger { off : bool; bar_off : bool; bar : option nat; timers : list nat; locals : list (tid * nat) }.
Definition new_logger : logger := mk_logger false false None [] [].
(** 42-59: the logger a worker process unpickles. *)
Definition shipped (l : logger) : logger := mk_logger (off l) (bar_off l) None (timers l) [].

Fixpoint find (t : tid) (l : list (tid * nat)) : option nat :=
  match l with [] => None | (u, n) :: r => if t =? u then Some n else find t r end.
(** 103: [getattr(self._suppress_local, "count", 0)]. *)
Definition count (t : tid) (l : logger) : nat := match find t (locals l) with Some n => n | None => 0 end.
Definition set_count (t : tid) (n : nat) (l : logger) : logger :=
  mk_logger (off l) (bar_off l) (bar l) (timers l) ((t, n) :: locals l).
Definition set_bar (b : option nat) (l : logger) : logger := mk_logger (off l) (bar_off l) b (timers l) (locals l).
Definition set_off (b : bool) (l : logger) : logger := mk_logger b (bar_off l) (bar l) (timers l) (locals l).
Definition set_bar_off (b : bool) (l : logger) : logger := mk_logger (off l) b (bar l) (timers l) (locals l).
Definition running (k : nat) (l : logger) : bool := existsb (Nat.eqb k) (timers l).
Definition start_timer (k : nat) (l : logger) : logger := mk_logger (off l) (bar_off l) (bar l) (k :: timers l) (locals l).
Definition stop_timer (k : nat) (l : logger) : logger :=
  mk_logger (off l) (bar_off l) (bar l) (filter (fun j => negb (k =? j)) (timers l)) (locals l).
(** 110-111: [_is_disabled]. *)
Definition is_disabled (t : tid) (l : logger) : bool := off l || (0 <? count t l).

(** What is seen from outside. [Said t p lv m b]: thread [t] of process [p] had message
    [m] for the logger, and [b] whether it was printed. *)
Inductive event :=
| Said (t : tid) (p : pid) (lv : level) (m : message) (printed : bool)
| Drew (t : tid) (p : pid) (count : nat)
| Switched (p : pid) (on : bool)
| Shipped (from to : pid)
| Failed (t : tid) (p : pid) (e : failure).

(** Where a thread is inside a function of the logger: before the given statement. *)
Inductive phase :=
| Start3 (m : message) (total : nat) (** 67 *)
| Start4 (m : message)               (** 68 *)
| Start5                             (** 69 *)
| Move2 (n : nat)                    (** 74 *)
| Move3 (n : nat)                    (** 75 *)
| Move4 (n : nat)                    (** 78 *)
| Move5 (n : nat)                    (** 79 *)
| Move6                              (** 80 *)
| Move7                              (** 81 *)
| Move8                              (** 82 *)
| SetTimer (k : nat)                 (** e.g. 227 *)
| End2 (k : nat) (lv : level) (m : message) (** e.g. 279: the argument of the message *)
| End3 (k : nat) (lv : level) (m : message) (** e.g. 277-281: the message *)
| End4 (k : nat).                    (** e.g. 282 *)
(** What a thread has left to do: [Restore] is the [finally] of [_suppress], [Caught] the
    end of a [try]. *)
Inductive item := Do (c : cmd) | Restore (previous : nat) | Caught.
Record thread := mk_thread { proc : pid; raising : option failure; now : option phase; todo : list item }.
(** [past]: the newest event first. *)
Record system := mk_system { loggers : list logger; threads : list thread; past : list event }.

Section Step.
(** [_LOGGER.isEnabledFor]. *)
Variable enabled : level -> bool.
Definition level_on (lv : level) : bool := match lv with Out => true | _ => enabled lv end.
(** 576-605. *)
Definition say (t : tid) (p : pid) (l : logger) (lv : level) (m : message) : event :=
  Said t p lv m (negb (is_disabled t l) && level_on lv).

(** What one step does: the logger and the thread after it, the event, and the work for a
    new process. *)
Record effect := mk_effect { e_logger : logger; e_thread : thread; e_event : option event; e_work : option (list cmd) }.
Definition goes (l : logger) (th : thread) (ph : option phase) (e : option event) : effect :=
  mk_effect l (mk_thread (proc th) None ph (todo th)) e None.
Definition fails (t : tid) (l : logger) (th : thread) (e : failure) : effect :=
  mk_effect l (mk_thread (proc th) (Some e) None (todo th)) (Some (Failed t (proc th) e)) None.

(** Inside a function of the logger. *)
Definition in_phase (t : tid) (l : logger) (th : thread) (ph : phase) : effect :=
  match ph with
  | Start3 m n => goes (set_bar (Some n) l) th (Some (Start4 m)) None
  | Start4 m => goes l th (Some Start5) (Some (say t (proc th) l Out m))
  | Start5 => match bar l with None => fails t l th Lost | Some _ => goes l th None (Some (Drew t (proc th) 0)) end
  | Move2 n => if is_disabled t l then goes l th None None else goes l th (Some (Move3 n)) None
  | Move3 n => if bar_off l then goes l th None None else goes l th (Some (Move4 n)) None
  | Move4 n =>
      match bar l with
      | None => fails t l th Lost
      | Some top => if top <? n then fails t l th Beyond else goes l th (Some (Move5 n)) (Some (Drew t (proc th) n))
      end
  | Move5 n =>
      match bar l with
      | None => fails t l th Lost
      | Some top => goes l th (if n =? top then Some Move6 else None) None
      end
  | Move6 => match bar l with None => fails t l th Lost | Some _ => goes l th (Some Move7) None end
  | Move7 => goes (set_bar None l) th (Some Move8) None
  | Move8 => goes l th None (Some (say t (proc th) l Out Newline))
  | SetTimer k => goes (start_timer k l) th None None
  | End2 k lv m => if running k l then goes l th (Some (End3 k lv m)) None else fails t l th Lost
  | End3 k lv m => goes l th (Some (End4 k)) (Some (say t (proc th) l lv m))
  | End4 k => goes (stop_timer k l) th None None
  end.

(** The next statement of a program. *)
Definition begin (t : tid) (l : logger) (th : thread) (c : cmd) (rest : list item) : effect :=
  let th' := mk_thread (proc th) None None rest in
  let p := proc th in
  match c with
  | Say lv m => goes l th' None (Some (say t p l lv m))
  | StartBar m n => (* 61-66 *)
      if is_disabled t l then goes l th' None (Some (Said t p Out m false))
      else if bar_off l then goes l th' None (Some (Said t p Out m true))
      else goes l th' (Some (Start3 m n)) None
  | MoveBar n => (* 71-73 *)
      match bar l with None => goes l th' None None | Some _ => goes l th' (Some (Move2 n)) None end
  | StartTimer k lv m => goes l th' (Some (SetTimer k)) (Some (say t p l lv m))
  | EndTimer k lv m => if running k l then goes l th' (Some (End2 k lv m)) None else goes l th' None None
  | Switch on => goes (set_off (negb on) l) th' None (Some (Switched p on))
  | SwitchBar on => goes (set_bar_off (negb on) l) th' None None
  | Raise => fails t l th' Other
  | Try body => mk_effect l (mk_thread p None None (map Do body ++ Caught :: rest)) None None
  | Quiet verbose body => (* optimize.py 1092-1108, log.py 92-108 *)
      if verbose then mk_effect l (mk_thread p None None (map Do body ++ rest)) None None
      else let previous := count t l in
           mk_effect (set_count t (previous + 1) l)
             (mk_thread p None None (map Do body ++ Restore previous :: rest)) None None
  | Ship body => mk_effect l th' None (Some body)
  end.

(** One step of a thread; [None] when it has ended. *)
Definition act (t : tid) (l : logger) (th : thread) : option effect :=
  match raising th, now th, todo th with
  | Some e, _, [] => None
  | Some e, _, Restore n :: rest => Some (mk_effect (set_count t n l) (mk_thread (proc th) (Some e) None rest) None None)
  | Some e, _, Caught :: rest => Some (mk_effect l (mk_thread (proc th) None None rest) None None)
  | Some e, _, Do _ :: rest => Some (mk_effect l (mk_thread (proc th) (Some e) None rest) None None)
  | None, Some ph, _ => Some (in_phase t l th ph)
  | None, None, [] => None
  | None, None, Restore n :: rest => Some (goes (set_count t n l) (mk_thread (proc th) None None rest) None None)
  | None, None, Caught :: rest => Some (goes l (mk_thread (proc th) None None rest) None None)
  | None, None, Do c :: rest => Some (begin t l th c rest)
  end.

Fixpoint put {A} (n : nat) (x : A) (l : list A) : list A :=
  match l, n with
  | [], _ => []
  | _ :: r, 0 => x :: r
  | y :: r, S k => y :: put k x r
  end.
Definition opt_cons {A} (x : option A) (l : list A) : list A := match x with None => l | Some y => y :: l end.

(** Thread [t] makes a step. A worker process has the pickled logger, one thread, and the
    work that was sent. *)
Definition step (s : system) (t : tid) : system :=
  match nth_error (threads s) t with
  | None => s
  | Some th =>
      match nth_error (loggers s) (proc th) with
      | None => s
      | Some l =>
          match act t l th with
          | None => s
          | Some e =>
              let ls := put (proc th) (e_logger e) (loggers s) in
              let ts := put t (e_thread e) (threads s) in
              let past' := opt_cons (e_event e) (past s) in
              match e_work e with
              | None => mk_system ls ts past'
              | Some body =>
                  mk_system (ls ++ [shipped (e_logger e)]) (ts ++ [mk_thread (length ls) None None (map Do body)])
                    (Shipped (proc th) (length ls) :: past')
              end
          end
      end
  end.
(** A process with a new logger and a thread for each program; the threads make steps in
    the order of the schedule. *)
Definition started (programs : list (list cmd)) : system :=
  mk_system [new_logger] (map (fun c => mk_thread 0 None None (map Do c)) programs) [].
Definition run (programs : list (list cmd)) (schedule : list tid) : system := fold_left step schedule (started programs).
End Step.
