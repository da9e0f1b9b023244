(** The rotation of [RotationDemo] with functions that also set an order of their own,
    fill prices, a stop-loss and a number of bars to hold. *)
From Verif Require Export RotationDemo TermSpec.

Definition rich (g : sig) : sig :=
  mkSig false false None (Some (FType PTOpen)) (Some 7) (Some (Some 1)) (Some 2%Z) (Some (FType PTClose)) None None None (Some 9%Z)
    (g_score g) (g_lscore g) (g_sscore g) (Some 60) None None None None None None None None None None None.
Definition term_env : env :=
  mkEnv rot_cfg [1; 2; 3; 4; 5]%Z [0; 1; 2]%nat (fun _ => [1; 2; 3; 4; 5]%Z)
    None 1 1 true false 0 (fun _ => None) (mkSettings (Some 1%nat) None (Some 2%nat))
    (fun i => mkScope (fun _ => true) (fun s _ => 100) (fun s _ => 100))
    (fun i s => Some (100, Some 100, Some 100))
    (fun i s _ => Some 100) (fun i s => Some 100) (fun i s => (100, 100))
    SlipNone (fun _ => None)
    (fun i _ p _ _ => mkUout [] (fun s => rich (rot_sigs i s))) None.
Definition term_before : bstate := got (bars_from term_env 0 [1; 2; 3]%Z (start term_env (fresh rot_cfg 0))).
Definition term_after : bstate := got (bar term_env 3 4 term_before).
Lemma term_ok : windows_ok rot_cfg [term_env].
Proof.
  split; [|split; [reflexivity|split; [constructor|exact I]]]. constructor.
  - cbn. repeat (split; [repeat apply Forall_cons; try apply Forall_nil; lia|]). exact I.
  - cbn. repeat constructor; cbn; intuition lia.
  - intros s _. split.
    + cbn. repeat (split; [repeat apply Forall_cons; try apply Forall_nil; lia|]). exact I.
    + cbn. intros x; auto.
  - discriminate.
  - cbn. lia.
Qed.
Lemma term_bar : bar_of rot_cfg 0 [term_env] term_env 3 4 term_before term_after.
Proof.
  exists [], [], (fresh rot_cfg 0), [1; 2; 3]%Z, [5]%Z. split; [reflexivity|]. split; [reflexivity|]. split; [reflexivity|]. split; [reflexivity|].
  split; apply got_some; vm_compute; reflexivity.
Qed.
