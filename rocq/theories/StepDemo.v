(** A run of C94: symbol 0 is bought and symbol 1 sold short, both leave on date 5;
    symbol 1 has no bar on date 2. *)
From Verif Require Export LoopSpec Tac.

Definition leave_cfg : cfg := mkCfg 10000 None None true PMDefault None None 1 0 None.
Definition leave_sigs (i : nat) (s : sym) : sig :=
  match i, s with
  | 1%nat, 0%nat => set_buy (Some 10) no_signals
  | 2%nat, S _ => set_sell (Some 5) no_signals
  | _, _ => no_signals
  end.
(** Everything costs 50; positions that leave are bought back at 70 and sold at 90. *)
Definition leave_env : env :=
  mkEnv leave_cfg [1; 2; 3; 4; 5; 6]%Z [0; 1]%nat (fun s => match s with 0%nat => [1; 2; 3; 4; 5; 6]%Z | _ => [1; 3; 4; 5; 6]%Z end)
    None 1 1 false false 1 (fun _ => Some 5%Z) (mkSettings None None None)
    (fun i => mkScope (fun _ => true) (fun s _ => 50) (fun s _ => 50))
    (fun i s => Some (50, Some 50, Some 50))
    (fun i s _ => Some 50) (fun i s => Some 50) (fun i s => (70, 90))
    SlipNone (fun _ => None)
    (fun i _ p _ _ => mkUout [] (leave_sigs i)) None.
Definition reached (x : option bstate) : bstate := match x with Some b => b | None => fresh leave_cfg 0 end.
Definition leave_before : bstate := reached (bars_from leave_env 0 [1; 2; 3; 4]%Z (start leave_env (fresh leave_cfg 0))).
Definition leave_after : bstate := reached (bar leave_env 4 5 leave_before).
Lemma leave_ok : windows_ok leave_cfg [leave_env].
Proof.
  split; [|split; [reflexivity|split; [constructor|exact I]]]. constructor.
  - cbn. repeat (split; [repeat apply Forall_cons; try apply Forall_nil; lia|]). exact I.
  - cbn. repeat constructor; cbn; intuition lia.
  - intros s _. split.
    + destruct s as [|s]; cbn; repeat (split; [repeat apply Forall_cons; try apply Forall_nil; lia|]); exact I.
    + destruct s as [|s]; cbn; intros x; cbn; intuition lia.
  - discriminate.
  - cbn. lia.
Qed.
Lemma reached_some x : match x with Some _ => true | None => false end = true -> x = Some (reached x).
Proof. destruct x; [reflexivity|discriminate]. Qed.
Lemma leave_bar : bar_of leave_cfg 0 [leave_env] leave_env 4 5 leave_before leave_after.
Proof.
  exists [], [], (fresh leave_cfg 0), [1; 2; 3; 4]%Z, [6]%Z. split; [reflexivity|]. split; [reflexivity|]. split; [reflexivity|]. split; [reflexivity|].
  split; apply reached_some; vm_compute; reflexivity.
Qed.
