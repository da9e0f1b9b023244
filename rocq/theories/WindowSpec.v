(** What the data of a walkforward window should be. *)
From Verif Require Export WindowModel WalkSpec StoreSpec.
Import ListNotations.
Open Scope list_scope.
Open Scope Z_scope.

Section Holds.
Context {A : Type}.
Implicit Type frame : list (frame_row A).

(** A symbol has at most one row on a date (C78). *)
Definition distinct_bars frame : Prop := NoDup (map (fun r => (fr_sym r, fr_date r)) frame).
(** A store holds, for each symbol, exactly the rows of the frame that satisfy
    [want], each once and by date; symbols without such a row are absent. *)
Definition holds (s : array_store A) frame (want : frame_row A -> Prop) : Prop :=
  forall sym, exists l,
    StronglySorted Z.lt (map fr_date l) /\
    (forall r, In r l <-> In r frame /\ fr_sym r = sym /\ want r) /\
    match l with
    | [] => lookup sym s = None
    | _ => exists d, lookup sym s = Some d /\ sd_dates d = Some (map fr_date l) /\
             sd_cols d = [(0%nat, (false, map fr_vals l))]
    end.
(** The row is one of those with the given numbers. *)
Definition numbered frame (rows : list nat) (r : frame_row A) : Prop := exists i, In i rows /\ nth_error frame i = Some r.
(** The row is not before all of the first nor after all of the second rows. *)
Definition spanned frame (first last : list nat) (r : frame_row A) : Prop :=
  exists a b, numbered frame first a /\ numbered frame last b /\ fr_date a <= fr_date r <= fr_date b.
End Holds.
