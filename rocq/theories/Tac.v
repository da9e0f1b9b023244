(** Tactics for the property files. *)
Ltac conj := repeat match goal with |- let _ := _ in _ => intro | |- _ /\ _ => split end.
Ltac comp := vm_compute; try reflexivity; try discriminate.
Ltac calc := vm_compute; conj; try reflexivity; try discriminate.
