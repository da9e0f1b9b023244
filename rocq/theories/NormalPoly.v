(** Checked bounds of a polynomial on an interval, used by NormalExact.v. *)
From Coq Require Import Reals QArith Qreals Lra List.
Import ListNotations.
Open Scope R_scope.

(** Coefficients, lowest first. *)
Fixpoint peval (p : list Q) (x : R) : R := match p with [] => 0 | c :: r => Q2R c + x * peval r x end.
Fixpoint padd (p q : list Q) : list Q :=
  match p, q with [], _ => q | _, [] => p | a :: p, b :: q => Qred (a + b) :: padd p q end.
Definition pscale (c : Q) (p : list Q) : list Q := map (fun a => Qred (c * a)) p.
(** [p(c + h)] as a polynomial in [h]. *)
Fixpoint shift (c : Q) (p : list Q) : list Q :=
  match p with [] => [] | a :: r => let s := shift c r in padd [a] (padd (pscale c s) (0%Q :: s)) end.
Fixpoint size (p : list Q) (w : Q) : Q := match p with [] => 0%Q | a :: r => Qred (Qabs.Qabs a + w * size r w) end.

Lemma q2r_red a : Q2R (Qred a) = Q2R a.
Proof. apply Qeq_eqR, Qred_correct. Qed.

Lemma padd_ok p : forall q x, peval (padd p q) x = peval p x + peval q x.
Proof.
  induction p as [|a p IH]; intros [|b q] x; cbn [padd peval]; try lra. rewrite q2r_red, Q2R_plus, IH. ring.
Qed.

Lemma pscale_ok c p x : peval (pscale c p) x = Q2R c * peval p x.
Proof. unfold pscale. induction p as [|a p IH]; cbn [map peval]; [ring|]. rewrite q2r_red, Q2R_mult, IH. ring. Qed.

Lemma shift_ok c p h : peval (shift c p) h = peval p (Q2R c + h).
Proof.
  induction p as [|a p IH]; [reflexivity|]. cbn [shift]. rewrite !padd_ok, pscale_ok. cbn [peval]. rewrite IH.
  replace (Q2R 0) with 0 by (unfold Q2R; cbn; lra). ring.
Qed.

Lemma q2r_abs a : Q2R (Qabs.Qabs a) = Rabs (Q2R a).
Proof.
  destruct (Qlt_le_dec a 0) as [L|L].
  - rewrite (Qeq_eqR _ (- a)) by (apply Qabs.Qabs_neg, Qlt_le_weak, L). rewrite Q2R_opp. apply Qlt_Rlt in L.
    replace (Q2R 0) with 0 in L by (unfold Q2R; cbn; lra). rewrite Rabs_left; lra.
  - rewrite (Qeq_eqR _ a) by (apply Qabs.Qabs_pos, L). apply Qle_Rle in L. replace (Q2R 0) with 0 in L by (unfold Q2R; cbn; lra).
    rewrite Rabs_pos_eq; lra.
Qed.

Lemma size_ok p w h : Rabs h <= Q2R w -> Rabs (peval p h) <= Q2R (size p w).
Proof.
  intro H. induction p as [|a p IH]; cbn [peval size].
  - rewrite Rabs_R0. unfold Q2R; cbn; lra.
  - rewrite q2r_red, Q2R_plus, Q2R_mult, q2r_abs. eapply Rle_trans; [apply Rabs_triang|]. apply Rplus_le_compat_l.
    rewrite Rabs_mult. apply Rmult_le_compat; auto; apply Rabs_pos.
Qed.

(** The interval of [2 n] half-widths from [lo], cell by cell. *)
Fixpoint cells (p : list Q) (w eps lo : Q) (n : nat) : bool :=
  match n with
  | O => true
  | S k => let c := Qred (lo + w) in andb (Qle_bool (size (shift c p) w) eps) (cells p w eps (Qred (lo + 2 * w)) k)
  end.

Lemma cells_ok p w eps n : forall lo x, (0 <= w)%Q -> cells p w eps lo n = true ->
  Q2R lo <= x -> x < Q2R lo + 2 * Q2R w * INR n -> Rabs (peval p x) <= Q2R eps.
Proof.
  induction n as [|n IH]; intros lo x W C L U; [cbn in U; lra|]. cbn [cells] in C. apply andb_prop in C as [C D].
  apply Qle_bool_iff, Qle_Rle in C. assert (E2 : Q2R 2 = 2) by (unfold Q2R; cbn; lra).
  destruct (Rlt_dec x (Q2R lo + 2 * Q2R w)) as [X|X].
  - eapply Rle_trans; [|exact C]. replace x with (Q2R (Qred (lo + w)) + (x - Q2R lo - Q2R w)) at 1 by (rewrite q2r_red, Q2R_plus; ring).
    rewrite <- shift_ok. apply size_ok. apply Rabs_le. lra.
  - apply (IH (Qred (lo + 2 * w)) x W D); rewrite q2r_red, Q2R_plus, Q2R_mult, E2; [lra|]. rewrite S_INR in U. lra.
Qed.
