(** Model of src/pybroker/cache.py 292-473: enabling, disabling and clearing the caches
    of data sources, indicators and models, and their use in between.

    A cache is used only through the scope: a handle that [enable_..._cache] returned and
    that is used after the cache was enabled anew is not modelled. The calls of the
    cache are those of CacheModel.v; [opens] says whether the directory can be opened. *)
From Coq Require Import List Bool Arith Ascii String.
From Verif Require Export CacheModel.
Import ListNotations.
Open Scope list_scope.

Notation text := (list ascii).
Definition lit (s : string) : text := list_ascii_of_string s.
Definition text_eqb (a b : text) : bool := if list_eq_dec ascii_dec a b then true else false.
Inductive kind := KData | KIndicator | KModel.
Definition kind_eqb (a b : kind) : bool := match a, b with KData, KData | KIndicator, KIndicator | KModel, KModel => true | _, _ => false end.
(** 322, 370, 416: the last part of the path. *)
Definition sub_dir (k : kind) : text := match k with KData => lit "data_source" | KIndicator => lit "indicator" | KModel => lit "model" end.
Definition slash : ascii := "/"%char.
(** [os.path.join(a, b)] of POSIX. *)
Definition ends_with_slash (a : text) : bool := match rev a with c :: _ => if ascii_dec c slash then true else false | [] => false end.
Definition join (a b : text) : text :=
  match b with
  | c :: _ => if ascii_dec c slash then b else if match a with [] => true | _ => ends_with_slash a end then a ++ b else a ++ slash :: b
  | [] => if match a with [] => true | _ => ends_with_slash a end then a else a ++ [slash]
  end.
(** 292-302: [_get_cache_dir]; [cwd]: the working directory of the call. [None] is the
    ValueError. *)
Definition get_cache_dir (cwd : text) (cache_dir : option text) (namespace : text) (k : kind) : option text :=
  match namespace with
  | [] => None
  | _ => let base_dir := match cache_dir with None => join cwd (lit ".pybrokercache") | Some d => d end in
         Some (join (join base_dir namespace) (sub_dir k))
  end.

(** An open cache: its directory, capacity and in-memory level. *)
Record cache := mk_cache { c_dir : text; c_max : nat; c_l1 : l1_t }.
(** What the scope holds of each kind, and all the directories. *)
Record world := mk_world { w_cache : kind -> option cache; w_ns : kind -> text; w_disk : text -> disk_t }.
Definition upd {T} (f : kind -> T) (k : kind) (x : T) : kind -> T := fun k' => if kind_eqb k k' then x else f k'.
Definition upd_disk (f : text -> disk_t) (p : text) (d : disk_t) : text -> disk_t := fun p' => if text_eqb p p' then d else f p'.

(** What a call answers: done, a ValueError, an error of the file system, the result of
    an operation, or that the cache is off and the library goes without. *)
Inductive reply := Done_ | ValueError | Failed | Result (r : res) | Off.

Section Switch.
Context (repr : nat -> nat).
(** 305-327, 354-375, 400-421. The namespace is assigned before the directory is opened. *)
Definition enable (cwd : text) (cache_dir : option text) (namespace : text) (maxsize : nat) (opens : bool) (k : kind) (w : world) : world * reply :=
  match get_cache_dir cwd cache_dir namespace k with
  | None => (w, ValueError)
  | Some d =>
      let ns := upd (w_ns w) k namespace in
      if opens then (mk_world (upd (w_cache w) k (Some (mk_cache d maxsize []))) ns (w_disk w), Done_)
      else (mk_world (w_cache w) ns (w_disk w), Failed)
  end.
(** 330-337, 378-383, 424-429. *)
Definition disable (k : kind) (w : world) : world * reply := (mk_world (upd (w_cache w) k None) (upd (w_ns w) k []) (w_disk w), Done_).
(** An operation of the open cache. *)
Definition use (k : kind) (o : op) (fates : list fate) (w : world) : world * reply :=
  match w_cache w k with
  | None => (w, Off)
  | Some c =>
      let '(s, r) := run_prog repr (c_max c) (prog_of repr o) fates (mk_shared (c_l1 c) (w_disk w (c_dir c))) in
      (mk_world (upd (w_cache w) k (Some (mk_cache (c_dir c) (c_max c) (s_l1 s)))) (w_ns w) (upd_disk (w_disk w) (c_dir c) (s_disk s)), Result r)
  end.
(** 340-351, 386-397, 432-441. *)
Definition clear (k : kind) (fates : list fate) (w : world) : world * reply :=
  match w_cache w k with
  | None => (w, ValueError)
  | Some _ => let '(w, r) := use k OClear fates w in (w, match r with Result RRaised => Failed | _ => Done_ end)
  end.
(** One call after another until one raises. *)
Definition after (x : world * reply) (f : world -> world * reply) : world * reply := match x with (w, Done_) => f w | (w, r) => (w, r) end.
(** 444-458, 461-465, 468-473. *)
Definition enable_caches (cwd : text) (cache_dir : option text) (namespace : text) (maxsize : nat) (opens : kind -> bool) (w : world) : world * reply :=
  after (after (enable cwd cache_dir namespace maxsize (opens KData) KData w)
    (enable cwd cache_dir namespace maxsize (opens KIndicator) KIndicator)) (enable cwd cache_dir namespace maxsize (opens KModel) KModel).
Definition disable_caches (w : world) : world * reply := after (after (disable KData w) (disable KIndicator)) (disable KModel).
Definition clear_caches (fates : kind -> list fate) (w : world) : world * reply :=
  after (after (clear KData (fates KData) w) (clear KIndicator (fates KIndicator))) (clear KModel (fates KModel)).

Inductive call :=
  | Enable (cwd : text) (cache_dir : option text) (namespace : text) (maxsize : nat) (opens : bool) (k : kind)
  | Disable (k : kind) | Clear (k : kind) (fates : list fate)
  | EnableAll (cwd : text) (cache_dir : option text) (namespace : text) (maxsize : nat) (opens : kind -> bool)
  | DisableAll | ClearAll (fates : kind -> list fate)
  | Use (k : kind) (o : op) (fates : list fate).
Definition do_call (c : call) (w : world) : world * reply :=
  match c with
  | Enable cwd d ns m o k => enable cwd d ns m o k w
  | Disable k => disable k w
  | Clear k f => clear k f w
  | EnableAll cwd d ns m o => enable_caches cwd d ns m o w
  | DisableAll => disable_caches w
  | ClearAll f => clear_caches f w
  | Use k o f => use k o f w
  end.
Fixpoint do_calls (cs : list call) (w : world) : world * list reply :=
  match cs with
  | [] => (w, [])
  | c :: cs => let '(w, r) := do_call c w in let '(w, rs) := do_calls cs w in (w, r :: rs)
  end.
(** 153-158 of scope.py: all off. *)
Definition start (disk : text -> disk_t) : world := mk_world (fun _ => None) (fun _ => []) disk.
End Switch.
