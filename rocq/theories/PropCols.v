(** C107: the data columns of a run. *)
From Coq Require Import List String Bool Sorted Arith Lia.
From Verif Require Import ColsModel ColsSpec ColsProofs.
Import ListNotations.
Local Open Scope string_scope.

(** Whatever a program does - register, remove, run, fail, run inside a run - each time the columns
    are read they are the seven standard ones and, in ascending order, the other names whose last
    accepted request was a registration. *)
Theorem C107_columns : forall p s es r, eval p init = (s, es, r) -> sees_always es.
Proof.
  intros p s es r E es1 v es2 F. destruct (eval_holds p [] init s es r holds_init E) as [_ R].
  exact (R es1 v es2 F).
Qed.
Print Assumptions C107_columns.

(** A request is refused only while some run is going on. *)
Theorem C107_refused_only_in_runs : forall p s es r, eval p init = (s, es, r) -> open_outside es.
Proof.
  intros p s es r E es1 es2 F. assert (G : frozen init = true -> 0 > 0) by discriminate.
  destruct (eval_refused p init s es r 0 G E) as [A _]. exact (A es1 Refused es2 F eq_refl).
Qed.
Print Assumptions C107_refused_only_in_runs.

(** When a program has ended, in whatever way, columns can be registered and removed, with effect. *)
Theorem C107_unlocked : forall p a args s es r,
  eval (Seq (Catch p Skip) (Seq (Register a args) (Look (fun _ => Skip)))) init = (s, es, r) ->
  r = false /\ exists es0 v, es = (es0 ++ [Did_register a args; Saw v])%list /\
    (exists s0 r0, eval p init = (s0, es0, r0)) /\ (forall n, asks a args n -> In n (v_ordered v)).
Proof.
  intros p a args s es r E. pose proof (C107_columns _ _ _ _ E) as C. cbn [eval] in E.
  destruct (eval p init) as [[s0 es0] r0] eqn:E0. pose proof (run_unfrozen p init s0 es0 r0 eq_refl E0) as F.
  assert (G : exists s1, register s0 a args = Some s1) by (unfold register; rewrite F; eauto).
  destruct G as [s1 G].
  assert (X : (s, es, r) = (s1, (es0 ++ [Did_register a args; Saw (look s1)])%list, false)).
  { destruct r0; rewrite G in E; cbn in E; rewrite <- E; rewrite ?app_nil_r; reflexivity. }
  apply (f_equal snd) in X as R. apply (f_equal fst) in X. apply (f_equal snd) in X. cbn in R, X. subst r es.
  split; [reflexivity|]. exists es0, (look s1). split; [reflexivity|]. split; [eauto|].
  intros n N. specialize (C (es0 ++ [Did_register a args])%list (look s1) []).
  rewrite <- app_assoc in C. specialize (C eq_refl). destruct C as ((l & C1 & _ & _ & C2) & _).
  rewrite C1. apply in_app_iff. destruct (in_dec string_dec n standard) as [I|I]; [left; exact I|].
  right. apply C2. split; [apply said_register; exact N | exact I].
Qed.
Print Assumptions C107_unlocked.

(** While no run is started inside another: during a run every request is refused and the columns
    are the same at every reading. *)
Theorem C107_locked_partial : forall p s es r, one_at_a_time p -> eval p init = (s, es, r) -> locked es /\ constant_in_runs es.
Proof.
  intros p s es r O E. pose proof (one_blocks p O init s es r eq_refl E) as B. split.
  - intros es1 e es2 F. exact (blocks_locked es B es1 e es2 F).
  - apply blocks_constant; exact B.
Qed.
Print Assumptions C107_locked_partial.

(** The end of a run started by a function of another run unlocks the columns of the outer run,
    which then change under it. *)
Definition inner : prog := Run Skip Skip.
Definition outer : prog := Run Skip (Look (fun _ => Seq inner (Seq (Register (Str "spread") []) (Look (fun _ => Skip))))).
Theorem C107_locked_refuted : exists p s es, eval p init = (s, es, false) /\ ~ locked es /\ ~ constant_in_runs es.
Proof.
  exists outer. eexists. eexists. split; [reflexivity|]. split.
  - intros L. specialize (L [Started; Saw (look init); Started; Ended] (Did_register (Str "spread") [])). cbn in L.
    destruct (L _ eq_refl) as [L1 _]. specialize (L1 (Str "spread") [] (or_introl eq_refl)). discriminate.
  - intros C.
    pose proof (C [] [Saw (look (freeze init)); Started; Ended; Did_register (Str "spread") []; Saw (look (mk_scope ["spread"] false None None None))] [Ended]
                  (look (freeze init)) (look (mk_scope ["spread"] false None None None)) eq_refl) as D.
    assert (X : look (freeze init) = look (mk_scope ["spread"] false None None None)).
    { apply D; [|cbn; tauto | cbn; tauto].
      intros m1 m2 E. destruct m1 as [|e1 [|e2 [|e3 [|e4 [|e5 [|e6 m]]]]]]; cbn [app] in E; inversion E; subst; cbn; lia. }
    apply (f_equal v_custom) in X. discriminate.
Qed.
Print Assumptions C107_locked_refuted.

(** Two columns registered out of order, a run that reads them, is refused a third and fails, and a
    removal afterwards. *)
Example C107_example :
  let p := Seq (Register (Str "spread") ["volume"; "bid"])
           (Seq (Catch (Run Skip (Look (fun v => if Nat.eqb (List.length (v_ordered v)) 9 then Seq (Register (Iter ["ask"]) []) Skip else Skip))) Skip)
           (Seq (Unregister (Iter ["spread"; "close"]) []) (Look (fun _ => Skip)))) in
  one_at_a_time p /\
  exists s v w, eval p init = (s, [Did_register (Str "spread") ["volume"; "bid"]; Started; Saw v; Refused; Ended; Did_unregister (Iter ["spread"; "close"]) []; Saw w], false) /\
    v_ordered v = ["date"; "open"; "high"; "low"; "close"; "volume"; "vwap"; "bid"; "spread"] /\
    v_ordered w = ["date"; "open"; "high"; "low"; "close"; "volume"; "vwap"; "bid"].
Proof.
  split.
  - apply one_seq; [apply one_plain; constructor|]. apply one_seq.
    + apply one_catch; [|apply one_plain; constructor]. apply one_run; [apply one_plain; constructor|].
      constructor. intros v. destruct (Nat.eqb _ _); repeat constructor.
    + apply one_plain. repeat constructor.
  - eexists. eexists. eexists. split; [reflexivity|]. split; reflexivity.
Qed.
