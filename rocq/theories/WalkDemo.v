(** Concrete splits for the examples of [PropWalk]. *)
From Verif Require Import Tac Lemmas.
From Verif Require Export WalkProofs.

Definition walk_dates : list Z := [1;2;3;4;5;6;7;8;9;10;11; 1;2;3;4;5;6;7;8;9;10;11]%Z.
Definition walk_shuf (k : nat) (l : list nat) : list nat := rev l.
Lemma walk_shuffles : shuffles walk_shuf.
Proof. intros k l. apply Permutation_sym, Permutation_rev. Qed.
Lemma exact_rounding : float_rounding (fun x => x).
Proof.
  constructor; try reflexivity; auto. intros x _. setoid_replace (x - x) with 0 by ring. 
  change (Qabs 0) with 0. pose proof (Qabs_nonneg x) as A.
  assert (B : 0 <= two_to (-53)) by (vm_compute; discriminate). assert (C : 0 <= two_to (-1074)) by (vm_compute; discriminate).
  pose proof (qmul_pos _ _ B A). lra.
Qed.

Lemma walk_example : split_domain (fun x => x) walk_shuf walk_dates 3 (1 # 2) /\
  exists ws w, walkforward_split (fun x => x) walk_shuf walk_dates 3 2 (1 # 2) = SWindows ws /\ nth_error ws 1 = Some w /\
    w_train w = [18; 7]%nat /\ w_test w = [9; 20]%nat.
Proof.
  split.
  - split; [apply exact_rounding|]. split; [apply walk_shuffles|]. split; [vm_compute; discriminate|]. split; [vm_compute; discriminate|]. vm_compute; discriminate.
  - eexists. eexists. split; [vm_compute; reflexivity|]. vm_compute. split; [reflexivity|split; reflexivity].
Qed.
Lemma walk_rejected : split_rejected (fun x => x) [1; 2; 3]%Z 2 2 (1 # 2) /\
  walkforward_split (fun x => x) walk_shuf [1; 2; 3]%Z 2 2 (1 # 2) = SValueError.
Proof. split; [|vm_compute; reflexivity]. unfold split_rejected. do 6 right. split; [reflexivity|]. split; [reflexivity|]. split; [discriminate|]. split; vm_compute; reflexivity. Qed.

(** A rounding that behaves like binary64 just below 1 and is exact elsewhere. *)
Definition near_one (x : Q) : Q := if Qltb (1 - two_to (-54)) x && Qltb x 1 then 1 else x.
Lemma near_one_rounding : float_rounding near_one.
Proof.
  assert (E : two_to (-54) == 1 # 18014398509481984) by (vm_compute; reflexivity).
  assert (E3 : two_to (-53) == 1 # 9007199254740992) by (vm_compute; reflexivity).
  assert (E4 : 0 <= two_to (-1074)) by (vm_compute; discriminate).
  constructor.
  - intros z _. unfold near_one. destruct (Qltb _ (inject_Z z)) eqn:A; [|reflexivity]. destruct (Qltb (inject_Z z) 1) eqn:B; [|reflexivity].
    apply Qltb_true in A, B. exfalso. assert (A' : inject_Z 0 < inject_Z z) by (change (inject_Z 0) with 0; lra).
    change 1 with (inject_Z 1) in B. rewrite <- Zlt_Qlt in A', B. lia.
  - intros x y H. unfold near_one.
    destruct (Qltb _ x) eqn:A, (Qltb x 1) eqn:B, (Qltb _ y) eqn:C, (Qltb y 1) eqn:D; cbn [andb];
      repeat match goal with X : Qltb _ _ = true |- _ => apply Qltb_true in X | X : Qltb _ _ = false |- _ => apply Qltb_false in X end; lra.
  - intros x _. pose proof (Qabs_nonneg x) as N. pose proof (Qle_Qabs x) as M.
    assert (K : 0 <= two_to (-53) * Qabs x) by (apply qmul_pos; lra). unfold near_one.
    destruct (Qltb _ x) eqn:A; [destruct (Qltb x 1) eqn:B|]; cbn [andb].
    + apply Qltb_true in A, B. rewrite (Qabs_pos (1 - x)) by lra. rewrite E3 in *. lra.
    + setoid_replace (x - x) with 0 by ring. change (Qabs 0) with 0. lra.
    + setoid_replace (x - x) with 0 by ring. change (Qabs 0) with 0. lra.
Qed.
Lemma tiny_index_error : exists fl shuf dates W la ts,
  split_domain fl shuf dates W ts /\ 0 < ts /\ ts < two_to (-40) /\ walkforward_split fl shuf dates W la ts = SIndexError.
Proof.
  exists near_one, walk_shuf, [1; 2; 3; 4; 5; 6; 7; 8; 9; 10]%Z, 2%Z, 1%Z, (two_to (-60)).
  split; [split; [apply near_one_rounding|split; [apply walk_shuffles|split; [vm_compute; discriminate|split; vm_compute; discriminate]]]|].
  split; [vm_compute; reflexivity|]. split; [vm_compute; reflexivity|]. vm_compute. reflexivity.
Qed.
