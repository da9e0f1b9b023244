(** C98: bootstrap intervals contain one another. *)
From Coq Require Import Lra Lia.
From Verif Require Import BcaMany.
Open Scope list_scope.
Open Scope R_scope.

(** [bca_boot_conf], of at most 30000 resamples: for every data, statistic and generator.
    Full property: for every number of resamples. *)
Theorem C98_nested_partial : forall (S : Type) (randint : nat -> S -> nat * S) x n_boot f s i,
  (Z.of_nat n_boot <= 30000)%Z ->
  bca_boot_conf inverse_normal_cdf normal_cdf randint x n_boot f s = Some i -> nested i.
Proof. intros. eapply conf_nested; eauto. Qed.
Print Assumptions C98_nested_partial.

(** [conf_profit_factor] and [conf_sharpe_ratio]. *)
Theorem C98_ratios_partial : forall (S : Type) (randint : nat -> S -> nat * S) x n_boot obs s,
  (Z.of_nat n_boot <= 30000)%Z ->
  (forall i, conf_profit_factor inverse_normal_cdf normal_cdf randint x n_boot s = Some i -> nested i) /\
  (forall i, conf_sharpe_ratio inverse_normal_cdf normal_cdf randint x n_boot obs s = Some i -> nested i).
Proof. intros. split; intros i H'; [eapply profit_nested|eapply sharpe_nested]; eauto. Qed.
Print Assumptions C98_ratios_partial.

(** What [evaluate] reports: both ratios, and drawdowns that are the deeper the rarer. *)
Theorem C98_evaluate_partial : forall (S : Type) (randint : nat -> S -> nat * S) changes returns n_boot bpy s pf sr dd pct,
  (Z.of_nat n_boot <= 30000)%Z ->
  evaluate_bootstrap inverse_normal_cdf normal_cdf randint changes returns n_boot bpy s = Some (pf, sr, (dd, pct)) ->
  nested pf /\ nested sr /\ deeper dd /\ deeper pct.
Proof. intros. eapply evaluate_nested; eauto. Qed.
Print Assumptions C98_evaluate_partial.

(** A million resamples of 64 bars, one of them bad, whose sum is bounded by 64 from below
    and by -4032 from above. *)
Theorem C98_nested_refuted : exists (randint : nat -> nat -> nat * nat) x n_boot f s i low high,
  (forall n s, (0 < n)%nat -> (fst (randint n s) < n)%nat) /\ Z.of_nat n_boot = 1000000%Z /\
  bca_boot_conf inverse_normal_cdf normal_cdf randint x n_boot f s = Some i /\
  low_2p5 i = Some low /\ high_2p5 i = Some high /\ high < low.
Proof.
  set (m := Z.to_nat 999999). assert (M : Z.of_nat m = 999999%Z) by (apply Z2Nat.id; discriminate). clearbody m.
  destruct (reversed m M) as (i & E & L & H). exists first_then_second, bars, (S m), (UserFn total), 64%nat, i, 64, (- (4032)).
  split; [|split; [lia|split; [exact E|split; [exact L|split; [exact H|lra]]]]].
  intros n s P. unfold first_then_second. destruct (Nat.leb_spec n 1); [cbn; lia|]. destruct s; cbn; lia.
Qed.
Print Assumptions C98_nested_refuted.

(** ** Not vacuous *)
(** Three bars, three resamples, and two different values to choose from. *)
Definition turning (n s : nat) : nat * nat := (Nat.modulo (Nat.div s 2) n, S s).
Example C98_example :
  (forall n s, (0 < n)%nat -> (fst (turning n s) < n)%nat) /\
  fst (fst (boot_loop turning total 3 [2; -1; 2] 3 1%nat)) = [2 + (-1 + (-1 + 0)); 2 + (2 + (2 + 0)); 2 + (-1 + (-1 + 0))] /\
  exists i, bca_boot_conf inverse_normal_cdf normal_cdf turning [2; -1; 2] 3 (UserFn total) 1%nat = Some i /\ nested i.
Proof.
  split; [intros n s P; cbn; apply Nat.mod_upper_bound; lia|]. split; [reflexivity|].
  destruct (bca_boot_conf inverse_normal_cdf normal_cdf turning [2; -1; 2] 3 (UserFn total) 1%nat) as [i|] eqn:E.
  - exists i. split; [reflexivity|]. apply (C98_nested_partial nat turning [2; -1; 2] 3 (UserFn total) 1%nat i); [lia|exact E].
  - exfalso. revert E. cbn [bca_boot_conf]. unfold bca_generic, bca_with. cbn [Nat.eqb]. destruct (boot_loop _ _ _ _ _ _) as [[? ?] ?]. discriminate.
Qed.
