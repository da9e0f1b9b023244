(** What "the columns of a run" means, from the events of a program alone. *)
From Coq Require Import List String Bool Sorted.
From Verif Require Import ColsModel.
Import ListNotations.
Local Open Scope string_scope.

(** The names of a request: a name or a sequence of names, and further names. *)
Definition asks (a : names) (args : list string) (n : string) : Prop :=
  a = Str n \/ (exists l, a = Iter l /\ In n l) \/ In n args.

(** The last thing done to a name: registered or removed. *)
Inductive said : list event -> string -> bool -> Prop :=
| said_never n : said [] n false
| said_register es a args n : asks a args n -> said (es ++ [Did_register a args]) n true
| said_unregister es a args n : asks a args n -> said (es ++ [Did_unregister a args]) n false
| said_before es e n b : (forall a args, e = Did_register a args \/ e = Did_unregister a args -> ~ asks a args n) -> said es n b -> said (es ++ [e]) n b.

(** The seven columns every data source has. *)
Definition standard : list string := ["date"; "open"; "high"; "low"; "close"; "volume"; "vwap"].
Definition before (x y : string) : Prop := String.compare x y = Lt.

(** What a program should see after [es]: the standard columns, then every other name that was
    registered last, in ascending order. *)
Definition sees (es : list event) (v : view) : Prop :=
  (exists l, v_ordered v = (standard ++ l)%list /\ v_custom v = l /\ StronglySorted before l /\
     forall n, In n l <-> (said es n true /\ ~ In n standard)) /\
  v_bar v = v_ordered v /\
  (NoDup (v_all v) /\ forall n, In n (v_all v) <-> In n (v_ordered v)).

(** Every reading, in all that happens, shows what was registered up to it. *)
Definition sees_always (es : list event) : Prop :=
  forall es1 v es2, es = (es1 ++ Saw v :: es2)%list -> sees es1 v.

(** A program that starts no run. *)
Inductive plain : prog -> Prop :=
| plain_skip : plain Skip
| plain_register a args : plain (Register a args)
| plain_unregister a args : plain (Unregister a args)
| plain_look k : (forall v, plain (k v)) -> plain (Look k)
| plain_fail : plain Fail
| plain_seq p q : plain p -> plain q -> plain (Seq p q)
| plain_catch p q : plain p -> plain q -> plain (Catch p q).

(** A program whose runs start no runs. *)
Inductive one_at_a_time : prog -> Prop :=
| one_plain p : plain p -> one_at_a_time p
| one_look k : (forall v, one_at_a_time (k v)) -> one_at_a_time (Look k)
| one_seq p q : one_at_a_time p -> one_at_a_time q -> one_at_a_time (Seq p q)
| one_catch p q : one_at_a_time p -> one_at_a_time q -> one_at_a_time (Catch p q)
| one_run before body : one_at_a_time before -> plain body -> one_at_a_time (Run before body).

(** How many runs are in their [try] after [es]. *)
Definition running_from (n : nat) (es : list event) : nat :=
  fold_left (fun n e => match e with Started => S n | Ended => pred n | _ => n end) es n.
Definition running (es : list event) : nat := running_from 0 es.

(** Between the start and the end of a run nothing is registered or removed, and every attempt is
    refused; outside runs every attempt is carried out. *)
Definition locked (es : list event) : Prop :=
  forall es1 e es2, es = (es1 ++ e :: es2)%list ->
    (forall a args, e = Did_register a args \/ e = Did_unregister a args -> running es1 = 0) /\
    (e = Refused -> running es1 > 0).
(** Half of it: outside runs every attempt is carried out. *)
Definition open_outside (es : list event) : Prop :=
  forall es1 es2, es = (es1 ++ Refused :: es2)%list -> running es1 > 0.
(** [mid], right after the start of a run, lies within it. *)
Definition within (mid : list event) : Prop := forall m1 m2, mid = (m1 ++ m2)%list -> running_from 1 m1 > 0.
(** All readings between the start of a run and its end are the same. *)
Definition constant_in_runs (es : list event) : Prop :=
  forall es1 mid es2 v w, es = (es1 ++ Started :: mid ++ es2)%list -> within mid -> In (Saw v) mid -> In (Saw w) mid -> v = w.
