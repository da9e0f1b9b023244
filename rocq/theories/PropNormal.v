(** C97: the normal distribution functions. *)
From Coq Require Import Lra.
From Verif Require Import NormalExact NormalBounds NormalProofs.
From Coquelicot Require Import Coquelicot.
Open Scope R_scope.

(** [normal_cdf] is within 0.00001 of the standard normal law, everywhere. *)
Theorem C97_law : forall F z, normal_law F -> Rabs (normal_cdf z - F z) <= 1 / 100000.
Proof. exact cdf_close. Qed.
Print Assumptions C97_law.

(** It is a distribution function: within (0, 1), increasing, and symmetric but at 0. *)
Theorem C97_cdf : forall y z,
  0 < normal_cdf z < 1 /\ (y < z -> normal_cdf y < normal_cdf z) /\ (z <> 0 -> normal_cdf (- z) = 1 - normal_cdf z).
Proof. intros y z. split; [apply cdf_range|split; [apply cdf_increasing|apply cdf_symmetric]]. Qed.
Print Assumptions C97_cdf.

(** The quantiles are symmetric. *)
Theorem C97_inverse_symmetric : forall p, 0 < p < 1 -> p <> 1 / 2 -> inverse_normal_cdf (1 - p) = - inverse_normal_cdf p.
Proof. exact inverse_symmetric. Qed.
Print Assumptions C97_inverse_symmetric.

(** They increase, but not around one half. Full property: for all [0 < p < q < 1]. *)
Theorem C97_inverse_increasing_partial : forall p q, 0 < p -> p < q -> q < 1 ->
  q <= 1 / 2 \/ 1 / 2 < p \/ (p <= 49 / 100 /\ 51 / 100 <= q) -> inverse_normal_cdf p < inverse_normal_cdf q.
Proof. exact inverse_increasing. Qed.
Print Assumptions C97_inverse_increasing_partial.

(** A level above one half whose quantile is below the one of one half. *)
Theorem C97_inverse_increasing_refuted : exists p q, 0 < p < q /\ q < 1 /\ inverse_normal_cdf q < inverse_normal_cdf p.
Proof. exists (1 / 2), (1 / 2 + 1 / 100000000). pose proof inverse_drops. lra. Qed.
Print Assumptions C97_inverse_increasing_refuted.

(** Between the levels 1/30000 and 1 - 1/30000 quantiles are at most 3.997 from 0. *)
Theorem C97_inverse_bound : forall p, 1 / 30000 <= p <= 1 - 1 / 30000 -> Rabs (inverse_normal_cdf p) <= 3997 / 1000.
Proof. intros p [A B]. now apply inverse_bound. Qed.
Print Assumptions C97_inverse_bound.

(** ** Not vacuous *)
(** The area under the bell curve is such a law. *)
Example C97_example : normal_law (fun z => 1 / 2 + RInt bell 0 z).
Proof.
  split; [|rewrite RInt_point; unfold zero; cbn; lra]. intro z. apply is_derive_Reals.
  assert (C : forall y, continuous bell y).
  { intro y. apply (ex_derive_continuous (V := R_NormedModule) bell y). exists (- y * pdf_at y).
    apply (is_derive_ext pdf_at); [intro; apply pdf_bell|apply is_derive_Reals, bell_derives]. }
  apply (is_derive_ext (fun y => plus (1 / 2) (RInt bell 0 y))); [reflexivity|].
  replace (bell z) with (plus (zero : R_NormedModule) (bell z)) by apply plus_zero_l.
  apply (is_derive_plus (K := R_AbsRing) (V := R_NormedModule) (fun _ => 1 / 2)).
  - apply (is_derive_const (K := R_AbsRing) (V := R_NormedModule)).
  - apply (is_derive_RInt bell _ 0 z); [|apply C]. apply filter_forall. intro y.
    apply (RInt_correct (V := R_CompleteNormedModule)), (ex_RInt_continuous (V := R_CompleteNormedModule)). intros; apply C.
Qed.
