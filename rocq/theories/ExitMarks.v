(** Which contexts ask to exit a position. *)
From Verif Require Import Lemmas.
From Verif Require Export LoopSpec ContextModel.

Lemma sell_all_marks p s g : match sell_all_shares p s g with
  | Some g' => exists pos, position_of p Long s = Some pos /\ g_sshares g' = Some (ps_shares pos) /\ g_bshares g' = g_bshares g /\ g_exit g' = Some Long /\ g_exiting g' = true
  | None => position_of p Long s = None
  end.
Proof. unfold sell_all_shares, position_of, poss. destruct (aget s (p_longs p)) as [pos|]; auto. exists pos. repeat split. Qed.
Lemma cover_all_marks p s g : match cover_all_shares p s g with
  | Some g' => exists pos, position_of p Short s = Some pos /\ g_bshares g' = Some (ps_shares pos) /\ g_sshares g' = g_sshares g /\ g_exit g' = Some Short /\ g_exiting g' = true
  | None => position_of p Short s = None
  end.
Proof. unfold cover_all_shares, position_of, poss. destruct (aget s (p_shorts p)) as [pos|]; auto. exists pos. repeat split. Qed.
Lemma target_marks c p s y target sd g g' : 0 < y -> set_target_shares c p s (Some y) target sd g = Some g' -> g_exit g = None -> g_exiting g = false ->
  exists t, calc_target_shares c (p_equity p) target (Some y) None = Some t /\ (g_exit g' = None \/ g_exit g' = Some sd) /\
    (g_exit g' = Some sd <-> g_exiting g' = true) /\
    (g_exit g' = Some sd <-> exists pos, position_of p sd s = Some pos /\ t < ps_shares pos /\ t <= 0).
Proof.
  intros Y E X1 X2. unfold set_target_shares in E. destruct (Qltb target 0); [discriminate|].
  destruct (Qle_bool y 0) eqn:Z; [apply Qle_bool_iff in Z; lra|]. destruct (calc_target_shares c (p_equity p) target (Some y) None) as [t|]; [|discriminate].
  injection E as <-. exists t. split; auto. unfold position_of, poss.
  assert (NO : forall h, g_exit h = None -> g_exiting h = false -> forall P : Prop, ~ P ->
    (g_exit h = None \/ g_exit h = Some sd) /\ (g_exit h = Some sd <-> g_exiting h = true) /\ (g_exit h = Some sd <-> P)).
  { intros h -> -> P N. split; auto. split; split; intro; try discriminate; contradiction. }
  assert (YES : forall h, g_exit h = Some sd -> g_exiting h = true -> forall P : Prop, P ->
    (g_exit h = None \/ g_exit h = Some sd) /\ (g_exit h = Some sd <-> g_exiting h = true) /\ (g_exit h = Some sd <-> P)).
  { intros h -> -> P N. split; auto. split; split; auto. }
  destruct sd.
  - destruct (aget s (p_longs p)) as [pos|]; [|apply NO; auto; intros [q [F _]]; discriminate].
    destruct (Qltb (ps_shares pos) t) eqn:A; [apply Qltb_true in A; apply NO; auto; intros [q [[= <-] F]]; lra|].
    destruct (Qltb t (ps_shares pos)) eqn:B; [|apply Qltb_false in B; apply NO; auto; intros [q [[= <-] F]]; lra]. apply Qltb_true in B.
    unfold exit_target_pos. destruct (Qltb 0 t) eqn:T; [apply Qltb_true in T; apply NO; auto; intros [q [[= <-] F]]; lra|]. apply Qltb_false in T.
    apply YES; auto. exists pos. auto.
  - destruct (aget s (p_shorts p)) as [pos|]; [|apply NO; auto; intros [q [F _]]; discriminate].
    destruct (Qltb (ps_shares pos) t) eqn:A; [apply Qltb_true in A; apply NO; auto; intros [q [[= <-] F]]; lra|].
    destruct (Qltb t (ps_shares pos)) eqn:B; [|apply Qltb_false in B; apply NO; auto; intros [q [[= <-] F]]; lra]. apply Qltb_true in B.
    unfold exit_target_pos. destruct (Qltb 0 t) eqn:T; [apply Qltb_true in T; apply NO; auto; intros [q [[= <-] F]]; lra|]. apply Qltb_false in T.
    apply YES; auto. exists pos. auto.
Qed.
Lemma target_rejected c p s price target sd g :
  (set_target_shares c p s price target sd g = None <-> target < 0) /\
  (0 <= target -> match price with Some y => y <= 0 | None => True end -> set_target_shares c p s price target sd g = Some g).
Proof.
  unfold set_target_shares. destruct (Qltb target 0) eqn:T; [apply Qltb_true in T; split; [tauto|intros; lra]|]. apply Qltb_false in T.
  assert (N : forall x : option sig, x <> None -> (x = None <-> target < 0)) by (intros x NX; split; intro; [contradiction|lra]).
  destruct price as [y|]; [|split; auto; apply N; discriminate]. unfold calc_target_shares.
  destruct (Qle_bool y 0) eqn:Y; [split; auto; apply N; discriminate|]. split; [apply N; discriminate|]. intros _ L. apply Qle_bool_iff in L. congruence.
Qed.
