(** A concrete run for the cover theorems: symbol 0 is sold short on date 2. On
    date 2 a cover of 5 shares of it is set at a limit of 50, for ten more bars,
    and a sell order of symbol 1 at a limit of 60, for ten more bars; neither
    limit is met. *)
From Verif Require Export CoverSpec LoopDemo.

Definition cover_sigs (i : nat) (s : sym) : sig :=
  match i, s with
  | 0%nat, 0%nat => set_sell (Some 10) no_signals
  | 1%nat, 0%nat => with_limit false 50 10 (set_cover (Some 5) no_signals)
  | 1%nat, _ => with_limit true 60 10 (set_sell (Some 5) no_signals)
  | _, _ => no_signals
  end.
Definition cover_env : env :=
  mkEnv run_cfg [1; 2; 3; 4; 5]%Z [1; 0]%nat (fun _ => [1; 2; 3; 4; 5]%Z)
    None 1 1 false false 0 (fun _ => None) (mkSettings None None None)
    (fun i => mkScope (fun _ => true) (fun s _ => price_of i s) (fun s _ => price_of i s))
    (fun i s => Some (price_of i s, Some (price_of i s), Some (price_of i s)))
    (fun i s _ => Some (price_of i s)) (fun i s => Some (price_of i s)) (fun i s => (price_of i s, price_of i s))
    SlipNone (fun _ => None)
    (fun i _ p _ _ => mkUout [] (cover_sigs i)) None.
Definition after_bars (n : nat) : bstate :=
  match bars_from cover_env 0 (firstn n [1; 2; 3; 4; 5]%Z) (start cover_env (fresh run_cfg 0)) with Some b => b | None => fresh run_cfg 0 end.
Definition cover_order : pending := match nth_error (entered (b_kops (after_bars 2))) 1 with Some n => n | None => with_id 0 (mkPadd OBuy 0 0 0 0 None (FType PTMiddle) 0 None None None) end.
Lemma cover_ok : windows_ok run_cfg [cover_env].
Proof.
  split; [|split; [reflexivity|split; [constructor|exact I]]]. constructor.
  - cbn. repeat (split; [repeat apply Forall_cons; try apply Forall_nil; lia|]). exact I.
  - cbn. repeat constructor; cbn; intuition lia.
  - intros s _. split.
    + cbn; repeat (split; [repeat apply Forall_cons; try apply Forall_nil; lia|]); exact I.
    + cbn; intros x; cbn; intuition lia.
  - discriminate.
  - cbn. lia.
Qed.
Lemma cover_bars3 : two_bars run_cfg 0 [cover_env] cover_env 2 (after_bars 1) (after_bars 2) 3 (after_bars 2) (after_bars 3).
Proof.
  exists [], [], (fresh run_cfg 0), [1]%Z, [], [4; 5]%Z. split; [reflexivity|]. split; [reflexivity|]. split; [reflexivity|].
  split; [vm_compute; reflexivity|]. split; [vm_compute; reflexivity|]. split; vm_compute; reflexivity.
Qed.
Lemma cover_bars4 : two_bars run_cfg 0 [cover_env] cover_env 2 (after_bars 1) (after_bars 2) 4 (after_bars 3) (after_bars 4).
Proof.
  exists [], [], (fresh run_cfg 0), [1]%Z, [3]%Z, [5]%Z. split; [reflexivity|]. split; [reflexivity|]. split; [reflexivity|].
  split; [vm_compute; reflexivity|]. split; [vm_compute; reflexivity|]. split; vm_compute; reflexivity.
Qed.
Lemma cover_placed : placed_on (after_bars 1) (after_bars 2) cover_order /\ n_type cover_order = OBuy /\ n_sym cover_order = 0%nat /\ n_exec cover_order = 3%Z /\
  aget 0%nat (b_ctx (after_bars 2)) = Some (cover_sigs 1 0%nat).
Proof.
  split; [|split; [vm_compute; reflexivity|split; [vm_compute; reflexivity|split; vm_compute; reflexivity]]]. split.
  - apply nth_error_In with 1%nat. vm_compute. reflexivity.
  - intro I. apply (in_map n_id) in I. vm_compute in I. lia.
Qed.
(** Date 3 tries the cover (order 2) and then the sell (order 3); date 4 the sell
    and then the cover. *)
Lemma cover_tries : b_att (after_bars 3) = b_att (after_bars 2) ++ [(2%nat, 3%Z, false); (3%nat, 3%Z, false)] /\
  b_att (after_bars 4) = b_att (after_bars 3) ++ [(3%nat, 4%Z, false); (2%nat, 4%Z, false)] /\
  map (fun n => (n_id n, n_type n)) (entered (b_kops (after_bars 3))) = [(1%nat, OSell); (2%nat, OBuy); (3%nat, OSell)] /\ n_id cover_order = 2%nat.
Proof. split; [vm_compute; reflexivity|]. split; [vm_compute; reflexivity|]. split; vm_compute; reflexivity. Qed.
