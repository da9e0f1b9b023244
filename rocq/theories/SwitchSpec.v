(** Vocabulary of C93: caches without an in-memory level. *)
From Verif Require Export CacheSpec SwitchModel.
From Coq Require Import List Bool Arith Ascii.
Import ListNotations.
Open Scope list_scope.

Section Spec.
Context (repr : nat -> nat).
(** Which directory is in use for each kind, and what the directories hold. *)
Record plain := mk_plain { in_use : kind -> option text; holds : text -> disk_t }.
Definition replace_at {T} (f : kind -> T) (k : kind) (x : T) : kind -> T :=
  fun k' => match k, k' with KData, KData | KIndicator, KIndicator | KModel, KModel => x | _, _ => f k' end.
Definition disk_at (f : text -> disk_t) (p : text) (d : disk_t) : text -> disk_t := fun p' => if list_eq_dec ascii_dec p p' then d else f p'.
(** An operation on the directory in use; clearing is one of them. *)
Definition plain_use (k : kind) (o : op) (fates : list fate) (p : plain) : plain * option res :=
  match in_use p k with
  | None => (p, None)
  | Some d => let '(disk, r) := disk_op repr o fates (holds p d) in (mk_plain (in_use p) (disk_at (holds p) d disk), Some r)
  end.
Definition plain_enable (cwd : text) (dir : option text) (ns : text) (opens : bool) (k : kind) (p : plain) : plain * reply :=
  match get_cache_dir cwd dir ns k with
  | None => (p, ValueError)
  | Some d => if opens then (mk_plain (replace_at (in_use p) k (Some d)) (holds p), Done_) else (p, Failed)
  end.
Definition plain_clear (k : kind) (fates : list fate) (p : plain) : plain * reply :=
  let '(p, r) := plain_use k OClear fates p in (p, match r with None => ValueError | Some RRaised => Failed | Some _ => Done_ end).
(** The kinds in turn, until one raises. *)
Fixpoint in_turn (f : kind -> plain -> plain * reply) (ks : list kind) (p : plain) : plain * reply :=
  match ks with
  | [] => (p, Done_)
  | k :: ks => match f k p with (p, Done_) => in_turn f ks p | (p, r) => (p, r) end
  end.
Definition kinds : list kind := [KData; KIndicator; KModel].
Definition plain_call (c : call) (p : plain) : plain * reply :=
  match c with
  | Enable cwd dir ns _ opens k => plain_enable cwd dir ns opens k p
  | Disable k => (mk_plain (replace_at (in_use p) k None) (holds p), Done_)
  | Clear k fates => plain_clear k fates p
  | EnableAll cwd dir ns _ opens => in_turn (fun k => plain_enable cwd dir ns (opens k) k) kinds p
  | DisableAll => (mk_plain (fun _ => None) (holds p), Done_)
  | ClearAll fates => in_turn (fun k => plain_clear k (fates k)) kinds p
  | Use k o fates => let '(p, r) := plain_use k o fates p in (p, match r with None => Off | Some r => Result r end)
  end.
Fixpoint plain_calls (cs : list call) (p : plain) : plain * list reply :=
  match cs with
  | [] => (p, [])
  | c :: cs => let '(p, r) := plain_call c p in let '(p, rs) := plain_calls cs p in (p, r :: rs)
  end.

(** What the library stores and asks for. *)
Definition ordinary_call (c : call) : Prop := match c with Use _ o _ => ordinary repr o | _ => True end.
(** The directory in use for a kind. *)
Definition uses_dir (w : world) (k : kind) (d : text) : Prop := exists c, w_cache w k = Some c /\ c_dir c = d.
(** Every directory that is enabled can be opened. *)
Definition opening (c : call) : Prop := match c with Enable _ _ _ _ o _ => o = true | EnableAll _ _ _ _ o => forall k, o k = true | _ => True end.
(** None of the calls may write the key while the directory is in use for the kind. *)
Fixpoint spares (k : kind) (d : text) (key : key) (cs : list call) (w : world) : Prop :=
  match cs with
  | [] => True
  | c :: cs =>
      match c with
      | Use k' o _ => k' = k -> uses_dir w k d -> ~ may_write repr o key
      | Clear k' _ => k' = k -> ~ uses_dir w k d
      | ClearAll _ => ~ uses_dir w k d
      | _ => True
      end /\ spares k d key cs (fst (do_call repr c w))
  end.
End Spec.
