(** C90: the settings of a run. *)
From Verif Require Import Tac SettingsProofs.
From Coq Require Import Lia Lqa.

(** A strategy accepts exactly the sound configurations. *)
Theorem C90_config : forall f, verify_config f = true <-> sound_config f.
Proof. exact verify_config_iff. Qed.
Print Assumptions C90_config.

(** A run uses the values of the last accepted calls, read with the run's
    hyperparameters, and for a limit that was not set the configured one; it
    refuses exactly when these cannot be read or are not usable together. *)
Theorem C90_settings : forall f cs h z,
  (exists warned, resolve_settings f (calls cs) h = Fine (z, warned)) <->
  settled f cs h (as_int (z_max_long z)) (as_int (z_max_short z)) (as_int (z_worst z)).
Proof. exact resolved. Qed.
Print Assumptions C90_settings.

(** It refuses no combination that could be used. *)
Theorem C90_refuses : forall f cs h e,
  resolve_settings f (calls cs) h = Fail e -> forall long short worst, ~ settled f cs h long short worst.
Proof.
  intros f cs h e E long short worst K.
  pose proof K as (vl & vs & vw & _ & _ & _ & _ & _ & _ & P1 & P2 & W).
  assert (WP : forall w, worst = Some w -> (0 <= w)%Z).
  { intros w Q. destruct (W w Q) as (N & A & B). destruct long as [m|]; [specialize (A m eq_refl); specialize (P1 m eq_refl); lia|].
    destruct short as [m|]; [specialize (B m eq_refl); specialize (P2 m eq_refl); lia|]. destruct N; contradiction. }
  destruct (proj2 (resolved f cs h (mkSettings (to_nat long) (to_nat short) (to_nat worst)))) as (warned & D).
  - cbn [z_max_long z_max_short z_worst]. rewrite !as_int_to_nat; [exact K | exact WP | |];
      intros m Q; [specialize (P2 m Q) | specialize (P1 m Q)]; lia.
  - congruence.
Qed.
Print Assumptions C90_refuses.

(** It warns exactly about a configured limit that a call overrides. *)
Theorem C90_warns : forall f cs h z wl ws,
  resolve_settings f (calls cs) h = Fine (z, (wl, ws)) ->
  (wl = true <-> f_max_long f <> None /\ ~ in_effect cs LongLimit None) /\
  (ws = true <-> f_max_short f <> None /\ ~ in_effect cs ShortLimit None).
Proof. exact warned_iff. Qed.
Print Assumptions C90_warns.

(** A refused call leaves every setting as it was. *)
Theorem C90_refused_call : forall cs c,
  (forall x v, ~ sets c x v) -> calls (cs ++ [c]) = calls cs.
Proof.
  intros cs c N. rewrite calls_snoc. unfold step.
  destruct c as [v|v|v s]; cbn.
  - destruct (bad_limit v) eqn:E; [reflexivity|]. exfalso. destruct v as [[z|q|n]|]; try (exact (N LongLimit _ ltac:(constructor))).
    cbn in E. apply Z.leb_gt in E. apply (N LongLimit (Some (SInt z))). constructor. lia.
  - destruct (bad_limit v) eqn:E; [reflexivity|]. exfalso. destruct v as [[z|q|n]|]; try (exact (N ShortLimit _ ltac:(constructor))).
    cbn in E. apply Z.leb_gt in E. apply (N ShortLimit (Some (SInt z))). constructor. lia.
  - exfalso. apply (N WorstRank v). constructor.
Qed.
Print Assumptions C90_refused_call.

(** A sizer is only ever set while rotation is on, so that no run is refused for a
    sizer without rotation. *)
Theorem C90_sizer : forall f cs h,
  (t_sizer (calls cs) = true -> exists v, in_effect cs WorstRank (Some v)) /\
  resolve_settings f (calls cs) h <> Fail SizerAlone.
Proof.
  intros f cs h. split; [|apply never_sizer_alone].
  intros S. apply sizer_needs_rotation in S. destruct (t_worst (calls cs)) as [v|] eqn:E; [|contradiction].
  exists v. apply in_effect_iff. exact E.
Qed.
Print Assumptions C90_sizer.

(** With rotation on, the equal weight of an entry exists and the weights of all
    slots add up to the account. *)
Theorem C90_rotation_size : forall f cs h z warned,
  resolve_settings f (calls cs) h = Fine (z, warned) -> z_worst z <> None ->
  (1 <= slots z)%nat /\
  exists q, rotation_target_size z = Some q /\ 0 < q <= 1 /\ q * inject_Z (Z.of_nat (slots z)) == 1.
Proof.
  intros f cs h z warned E N.
  destruct (proj1 (resolved f cs h z) (ex_intro _ warned E)) as (vl & vs & vw & _ & _ & _ & _ & _ & _ & P1 & P2 & W).
  assert (S : (1 <= slots z)%nat).
  { unfold slots. destruct (z_worst z) as [w|]; [|contradiction]. destruct (W (Z.of_nat w) eq_refl) as ([A|A] & _).
    - destruct (z_max_long z) as [m|]; [|contradiction]. specialize (P1 (Z.of_nat m) eq_refl). lia.
    - destruct (z_max_short z) as [m|]; [|contradiction]. specialize (P2 (Z.of_nat m) eq_refl). lia. }
  split; [exact S|]. unfold rotation_target_size. fold (slots z).
  destruct (Nat.eqb (slots z) 0) eqn:Z0; [apply Nat.eqb_eq in Z0; lia|].
  assert (L : 1 <= inject_Z (Z.of_nat (slots z))) by (change 1 with (inject_Z 1); rewrite <- Zle_Qle; lia).
  exists (1 / inject_Z (Z.of_nat (slots z))). split; [reflexivity|]. split; [split|].
  - apply Qlt_shift_div_l; lra.
  - apply Qle_shift_div_r; lra.
  - field. lra.
Qed.
Print Assumptions C90_rotation_size.

(** Hyperparameters that none of the settings names do not matter. *)
Theorem C90_other_values : forall f cs look look',
  (forall n, in_effect cs LongLimit (Some (SHyper n)) \/ in_effect cs ShortLimit (Some (SHyper n)) \/ in_effect cs WorstRank (Some (SHyper n)) -> look n = look' n) ->
  resolve_settings f (calls cs) (Some look) = resolve_settings f (calls cs) (Some look').
Proof. exact same_values. Qed.
Print Assumptions C90_other_values.

(** The configuration of a run is the accepted one with the limits of the run, and
    a strategy would accept it too. *)
Theorem C90_effective : forall f cs h z warned,
  verify_config f = true -> resolve_settings f (calls cs) h = Fine (z, warned) ->
  let f' := effective_config f z in
  verify_config f' = true /\
  f_max_long f' = as_int (z_max_long z) /\ f_max_short f' = as_int (z_max_short z) /\
  f_initial_cash f' = f_initial_cash f /\ f_fee_amount f' = f_fee_amount f /\
  f_buy_delay f' = f_buy_delay f /\ f_sell_delay f' = f_sell_delay f /\ f_bootstrap_samples f' = f_bootstrap_samples f /\
  f_bars_per_year f' = f_bars_per_year f /\ f_leverage f' = f_leverage f /\ f_interest_rate f' = f_interest_rate f.
Proof.
  intros f cs h z warned V E f'.
  destruct (proj1 (resolved f cs h z) (ex_intro _ warned E)) as (vl & vs & vw & _ & _ & _ & _ & _ & _ & P1 & P2 & W).
  split; [|repeat (split; [reflexivity|]); reflexivity].
  apply verify_config_iff. apply verify_config_iff in V as (A1 & _ & _ & A4 & A5 & A6 & A7 & A8 & A9 & A10).
  exact (conj A1 (conj P1 (conj P2 (conj A4 (conj A5 (conj A6 (conj A7 (conj A8 (conj A9 A10))))))))).
Qed.
Print Assumptions C90_effective.

Definition ex_config : config := mkConfig 1000 (Some 0) (Some 4%Z) None 1 1 100 None 1 0.
(** The limit is lowered, a bad value is refused, rotation is tuned. *)
Definition ex_calls : list call :=
  [SetLong (Some (SInt 5)); SetShort (Some (SNum (5 # 2))); SetLong (Some (SInt 3)); SetLong (Some (SInt 0));
   EnableRotation (Some (SHyper 7)) true].
Definition ex_values (w : Q) : values := Some (fun n => if Nat.eqb n 7 then Some (Some w) else None).
Example C90_example :
  verify_config ex_config = true /\
  verify_config (mkConfig 1000 None None None 1 1 100 None 1 (1 # 10)) = false /\
  calls ex_calls = mkStrat (Some (SInt 3)) (Some (SNum (5 # 2))) (Some (SHyper 7)) true /\
  resolve_settings ex_config (calls ex_calls) (ex_values 4) = Fine (mkSettings (Some 3%nat) (Some 2%nat) (Some 4%nat), (true, false)) /\
  rotation_target_size (mkSettings (Some 3%nat) (Some 2%nat) (Some 4%nat)) = Some (1 / 5) /\
  settled ex_config ex_calls (ex_values 4) (Some 3%Z) (Some 2%Z) (Some 4%Z) /\
  resolve_settings ex_config (calls ex_calls) (ex_values 2) = Fail BadWorst /\
  resolve_settings ex_config (calls ex_calls) None = Fail NoValues /\
  resolve_settings ex_config (calls [SetLong (Some (SNum (1 # 2)))]) None = Fail BadLong /\
  resolve_settings ex_config (calls []) None = Fine (mkSettings (Some 4%nat) None None, (false, false)).
Proof.
  do 5 (split; [reflexivity|]). split; [|repeat (split; [reflexivity|]); reflexivity].
  apply (C90_settings ex_config ex_calls (ex_values 4) (mkSettings (Some 3%nat) (Some 2%nat) (Some 4%nat))).
  exists (true, false). reflexivity.
Qed.
