(** Proofs for C103. *)
From Verif Require Import LogModel LogSpec.

(** ** Lists *)
Lemma put_length {A} n (x : A) l : length (put n x l) = length l.
Proof. revert n. induction l as [|y r IH]; intros [|k]; cbn; auto. Qed.
Lemma put_same {A} n (x : A) l y : nth_error l n = Some y -> nth_error (put n x l) n = Some x.
Proof. revert n. induction l as [|z r IH]; intros [|k] H; cbn in *; try discriminate; auto. Qed.
Lemma put_other {A} n m (x : A) l : n <> m -> nth_error (put n x l) m = nth_error l m.
Proof. revert n m. induction l as [|z r IH]; intros [|k] [|j] H; cbn; auto. contradiction. Qed.
Lemma put_inv {A} n m (x : A) l y : nth_error (put n x l) m = Some y -> (m = n /\ y = x) \/ (m <> n /\ nth_error l m = Some y).
Proof.
  intros H. destruct (Nat.eq_dec m n) as [E|E].
  - left. split; [exact E|]. subst m. assert (L : n < length l).
    { rewrite <- (put_length n x l). apply nth_error_Some. congruence. }
    apply nth_error_Some in L. destruct (nth_error l n) as [z|] eqn:Z; [|contradiction].
    rewrite (put_same _ _ _ _ Z) in H. congruence.
  - right. split; [exact E|]. rewrite put_other in H; auto.
Qed.
Lemma snoc_inv {A} (l : list A) x n y : nth_error (l ++ [x]) n = Some y -> nth_error l n = Some y \/ (n = length l /\ y = x).
Proof.
  intros H. destruct (lt_eq_lt_dec n (length l)) as [[L|E]|G].
  - left. rewrite nth_error_app1 in H by exact L. exact H.
  - right. subst n. rewrite nth_error_app2, Nat.sub_diag in H by lia. cbn in H. split; congruence.
  - rewrite nth_error_app2 in H by lia. destruct (n - length l) as [|[|k]] eqn:E; cbn in H; try discriminate. lia.
Qed.
Lemma snoc_old {A} (l : list A) x n y : nth_error l n = Some y -> nth_error (l ++ [x]) n = Some y.
Proof. intros H. rewrite nth_error_app1; [exact H|]. apply nth_error_Some. congruence. Qed.
Lemma snoc_new {A} (l : list A) x : nth_error (l ++ [x]) (length l) = Some x.
Proof. rewrite nth_error_app2, Nat.sub_diag by lia. reflexivity. Qed.
Lemma nth_lt {A} (l : list A) n y : nth_error l n = Some y -> n < length l.
Proof. intros H. apply nth_error_Some. congruence. Qed.

(** ** Counts *)
Lemma count_set t n l : count t (set_count t n l) = n.
Proof. unfold count, set_count. cbn. rewrite Nat.eqb_refl. reflexivity. Qed.
Lemma count_set_other t u n l : u <> t -> count u (set_count t n l) = count u l.
Proof. intros H. unfold count, set_count. cbn. apply Nat.eqb_neq in H. rewrite H. reflexivity. Qed.
Lemma disabled_off t l : is_disabled t l = false <-> off l = false /\ (0 <? count t l) = false.
Proof. unfold is_disabled. rewrite orb_false_iff. tauto. Qed.

Ltac splits := repeat match goal with
  | |- context [match bar ?l with _ => _ end] => destruct (bar l)
  | |- context [if ?b then _ else _] => match b with is_disabled _ _ => destruct b | bar_off _ => destruct b | running _ _ => destruct b | Nat.ltb _ _ => destruct b | Nat.eqb _ _ => destruct b end
  | |- context [if ?b then _ else _] => is_var b; destruct b
  end.

Section Steps.
Variable enabled : level -> bool.

(** ** A step of the whole, from a step of one thread *)
Lemma step_cases s t : step enabled s t = s \/
  exists th l e, nth_error (threads s) t = Some th /\ nth_error (loggers s) (proc th) = Some l /\ act enabled t l th = Some e /\
    let ls := put (proc th) (e_logger e) (loggers s) in let ts := put t (e_thread e) (threads s) in
    (e_work e = None /\ step enabled s t = mk_system ls ts (opt_cons (e_event e) (past s)) \/
     exists body, e_work e = Some body /\ step enabled s t =
       mk_system (ls ++ [shipped (e_logger e)]) (ts ++ [mk_thread (length (loggers s)) None None (map Do body)])
         (Shipped (proc th) (length (loggers s)) :: opt_cons (e_event e) (past s))).
Proof.
  unfold step. destruct (nth_error (threads s) t) as [th|] eqn:T; [|left; reflexivity].
  destruct (nth_error (loggers s) (proc th)) as [l|] eqn:L; [|left; reflexivity].
  destruct (act enabled t l th) as [e|] eqn:A; [|left; reflexivity].
  right. exists th, l, e. repeat (split; [first [reflexivity | assumption]|]). cbn zeta.
  rewrite !put_length. destruct (e_work e) as [body|]; [right; exists body|left]; auto.
Qed.

(** An invariant about each thread and its logger, kept by the thread's own steps, by those
    of others, and true of new processes, holds always. *)
Definition each (P : system -> nat -> thread -> logger -> Prop) (s : system) : Prop :=
  forall t th, nth_error (threads s) t = Some th -> exists l, nth_error (loggers s) (proc th) = Some l /\ P s t th l.

(** ** What a step of one thread does *)
Lemma act_proc t l th e : act enabled t l th = Some e -> proc (e_thread e) = proc th.
Proof.
  unfold act. destruct (raising th) as [f|].
  { destruct (todo th) as [|[c|n|] r]; intros [= <-]; reflexivity. }
  destruct (now th) as [ph|].
  { intros [= <-]. destruct ph; cbn -[Nat.ltb Nat.eqb]; unfold goes, fails;
      splits; reflexivity. }
  destruct (todo th) as [|[c|n|] r]; intros [= <-]; try reflexivity.
  destruct c; cbn -[Nat.ltb Nat.eqb]; unfold goes, fails;
    splits; reflexivity.
Qed.
Lemma act_count t l th e u : act enabled t l th = Some e -> u <> t -> count u (e_logger e) = count u l.
Proof.
  intros A N. revert A. unfold act. destruct (raising th) as [f|].
  { destruct (todo th) as [|[c|n|] r]; intros [= <-]; cbn; try reflexivity. apply count_set_other, N. }
  destruct (now th) as [ph|].
  { intros [= <-]. destruct ph; cbn -[Nat.ltb Nat.eqb]; unfold goes, fails;
      splits; reflexivity. }
  destruct (todo th) as [|[c|n|] r]; intros [= <-]; try reflexivity; [|apply count_set_other, N].
  destruct c; cbn -[Nat.ltb Nat.eqb]; unfold goes, fails;
    splits; try reflexivity.
  apply (count_set_other t u (count t l + 1) l N).
Qed.
Lemma act_off t l th e : act enabled t l th = Some e ->
  match e_event e with
  | Some (Switched p on) => p = proc th /\ off (e_logger e) = negb on
  | Some (Shipped _ _) => False
  | _ => off (e_logger e) = off l
  end.
Proof.
  unfold act. destruct (raising th) as [f|].
  { destruct (todo th) as [|[c|n|] r]; intros [= <-]; cbn; reflexivity. }
  destruct (now th) as [ph|].
  { intros [= <-]. destruct ph; cbn -[Nat.ltb Nat.eqb]; unfold goes, fails;
      splits; reflexivity. }
  destruct (todo th) as [|[c|n|] r]; intros [= <-]; try reflexivity.
  destruct c; cbn -[Nat.ltb Nat.eqb]; unfold goes, fails;
    splits; try reflexivity; auto.
Qed.

(** ** What is printed *)
Section Lexical.
Variable W : list (level * message * bool).
Fixpoint fits (n : nat) (l : list item) : Prop :=
  match l with
  | [] => True
  | Restore p :: r => fits p r
  | Caught :: r => fits n r
  | Do c :: r => incl (writes (0 <? n) c) W /\ fits n r
  end.
Definition phase_fits (n : nat) (ph : option phase) : Prop :=
  match ph with
  | Some (Start3 m _) | Some (Start4 m) => In (Out, m, 0 <? n) W
  | Some (Move2 _) | Some (Move3 _) | Some (Move4 _) | Some (Move5 _) | Some Move6 | Some Move7 | Some Move8 => In (Out, Newline, 0 <? n) W
  | Some (End2 _ lv m) | Some (End3 _ lv m) => In (lv, m, 0 <? n) W
  | _ => True
  end.
Lemma fits_body n body r : incl (flat_map (writes (0 <? n)) body) W -> fits n r -> fits n (map Do body ++ r).
Proof.
  induction body as [|c b IH]; cbn; intros I R; [exact R|]. split.
  - intros x X. apply I, in_or_app. left. exact X.
  - apply IH; [|exact R]. intros x X. apply I, in_or_app. right. exact X.
Qed.
Definition right_said (l : logger) (e : option event) (t p : nat) : Prop :=
  match e with
  | Some (Said t' p' lv m b) => t' = t /\ p' = p /\ exists q, In (lv, m, q) W /\ (b = true <-> q = false /\ off l = false /\ level_on enabled lv = true)
  | _ => True
  end.
Lemma said_right t l p lv m : In (lv, m, 0 <? count t l) W -> right_said l (Some (say enabled t p l lv m)) t p.
Proof.
  intros H. cbn. split; [reflexivity|]. split; [reflexivity|]. exists (0 <? count t l). split; [exact H|].
  rewrite andb_true_iff, negb_true_iff, disabled_off. tauto.
Qed.
Lemma act_fits t l th e : act enabled t l th = Some e -> fits (count t l) (todo th) -> phase_fits (count t l) (now th) ->
  fits (count t (e_logger e)) (todo (e_thread e)) /\ phase_fits (count t (e_logger e)) (now (e_thread e)) /\
  right_said l (e_event e) t (proc th) /\ match e_work e with Some body => incl (flat_map (writes false) body) W | None => True end.
Proof.
  intros A F P. revert A. unfold act. destruct (raising th) as [f|].
  { destruct (todo th) as [|[c|n|] r]; intros [= <-]; cbn [fits] in F; cbn [e_logger e_thread e_event e_work todo now phase_fits right_said].
    - tauto.
    - rewrite count_set. tauto.
    - tauto. }
  destruct (now th) as [ph|].
  { intros [= <-]. destruct ph; cbn [phase_fits] in P; cbn [in_phase]; unfold goes, fails;
      splits;
      cbn [e_logger e_thread e_event e_work todo now phase_fits right_said];
      (split; [exact F|]); split; try exact P; try exact I; split; try exact I; try (apply said_right; exact P). }
  destruct (todo th) as [|[c|n|] r]; intros [= <-]; cbn [fits] in F.
  2:{ unfold goes. cbn [e_logger e_thread e_event e_work todo now phase_fits right_said]. rewrite count_set. tauto. }
  2:{ unfold goes. cbn [e_logger e_thread e_event e_work todo now phase_fits right_said]. tauto. }
  destruct F as (C & F). destruct c; cbn [begin writes] in *; unfold goes, fails.
  - cbn [e_logger e_thread e_event e_work todo now phase_fits]. split; [exact F|]. split; [exact I|]. split; [|exact I].
    apply said_right, C. left. reflexivity.
  - assert (B : In (Out, m, 0 <? count t l) W) by (apply C; left; reflexivity).
    destruct (is_disabled t l) eqn:D; [|destruct (bar_off l)]; cbn [e_logger e_thread e_event e_work todo now phase_fits right_said];
      (split; [exact F|]); split; try exact I; try exact B; split; try exact I; (split; [reflexivity|split; [reflexivity|]]); exists (0 <? count t l);
      (split; [exact B|]).
    + unfold is_disabled in D. apply orb_true_iff in D. split; [discriminate|]. intros (Q & O & _). destruct D; congruence.
    + apply disabled_off in D. cbn. tauto.
  - destruct (bar l); cbn [e_logger e_thread e_event e_work todo now phase_fits right_said]; (split; [exact F|]); split; try exact I; try (apply C; left; reflexivity);
      split; exact I.
  - cbn [e_logger e_thread e_event e_work todo now phase_fits]. split; [exact F|]. split; [exact I|]. split; [|exact I].
    apply said_right, C. left. reflexivity.
  - destruct (running k l); cbn [e_logger e_thread e_event e_work todo now phase_fits right_said]; (split; [exact F|]); split; try exact I; try (apply C; left; reflexivity);
      split; exact I.
  - cbn [e_logger e_thread e_event e_work todo now phase_fits right_said]. tauto.
  - cbn [e_logger e_thread e_event e_work todo now phase_fits right_said]. tauto.
  - cbn [e_logger e_thread e_event e_work todo now phase_fits right_said]. tauto.
  - cbn [e_logger e_thread e_event e_work todo now phase_fits right_said]. split; [|tauto]. apply fits_body; [exact C|exact F].
  - destruct verbose; cbn [e_logger e_thread e_event e_work todo now phase_fits right_said]; (split; [|tauto]).
    + apply fits_body; [|exact F]. rewrite orb_false_r in C. exact C.
    + rewrite count_set. apply fits_body; [|exact F]. rewrite orb_true_r in C. replace (0 <? count t l + 1) with true; [exact C|].
      symmetry. apply Nat.ltb_lt. lia.
  - cbn [e_logger e_thread e_event e_work todo now phase_fits right_said]. tauto.
Qed.

Definition good_said (past : list event) : Prop := forall later t p lv m b earlier, past = later ++ Said t p lv m b :: earlier ->
  exists q, In (lv, m, q) W /\ (b = true <-> q = false /\ off_in earlier p = false /\ level_on enabled lv = true).
Definition keeps (s : system) : Prop :=
  each (fun _ t th l => fits (count t l) (todo th) /\ phase_fits (count t l) (now th)) s /\
  (forall p l, nth_error (loggers s) p = Some l -> off l = off_in (past s) p) /\ good_said (past s).
Lemma good_cons e past : good_said past -> match e with Said t p lv m b => exists q, In (lv, m, q) W /\ (b = true <-> q = false /\ off_in past p = false /\ level_on enabled lv = true) | _ => True end ->
  good_said (e :: past).
Proof.
  intros G E [|x later] t p lv m b earlier H; cbn in H; injection H as H1 H2.
  - subst. exact E.
  - subst. eapply G. reflexivity.
Qed.
Lemma step_keeps s t : keeps s -> keeps (step enabled s t).
Proof.
  intros (E & O & G). destruct (step_cases s t) as [->|(th & l & e & T & L & A & C)]; [split; [exact E|split; [exact O|exact G]]|].
  destruct (E _ _ T) as (l0 & L0 & F & P). rewrite L in L0. injection L0 as <-.
  destruct (act_fits _ _ _ _ A F P) as (F' & P' & R & B). pose proof (act_proc _ _ _ _ A) as PR. pose proof (act_off _ _ _ _ A) as AO.
  assert (OFF : off l = off_in (past s) (proc th)) by (apply O; exact L).
  set (ls := put (proc th) (e_logger e) (loggers s)) in *. set (ts := put t (e_thread e) (threads s)) in *.
  assert (E' : each (fun _ t th l => fits (count t l) (todo th) /\ phase_fits (count t l) (now th)) (mk_system ls ts (opt_cons (e_event e) (past s)))).
  { intros u tu U. cbn in U. apply put_inv in U as [(-> & ->)|(N & U)].
    - exists (e_logger e). split; [rewrite PR; cbn; eapply put_same; exact L|]. split; assumption.
    - destruct (E _ _ U) as (lu & LU & FU & PU). cbn. destruct (Nat.eq_dec (proc tu) (proc th)) as [EQ|NE].
      + exists (e_logger e). rewrite EQ in *. rewrite L in LU. injection LU as <-. split; [eapply put_same; exact L|].
        rewrite (act_count _ _ _ _ u A N). split; assumption.
      + exists lu. split; [unfold ls; rewrite put_other by congruence; exact LU|]. split; assumption. }
  assert (O' : forall p x, nth_error ls p = Some x -> off x = off_in (opt_cons (e_event e) (past s)) p).
  { intros p x X. apply put_inv in X as [(-> & ->)|(N & X)].
    - destruct (e_event e) as [[| |p0 on| |]|]; cbn in *; try (rewrite AO; exact OFF); [|contradiction].
      destruct AO as (-> & AO). rewrite Nat.eqb_refl. exact AO.
    - rewrite (O _ _ X). destruct (e_event e) as [[| |p0 on| |]|]; cbn in *; try reflexivity; [|contradiction].
      destruct AO as (-> & _). apply Nat.eqb_neq in N. rewrite N. reflexivity. }
  assert (G' : good_said (opt_cons (e_event e) (past s))).
  { destruct (e_event e) as [ev|]; cbn; [|exact G]. apply good_cons; [exact G|]. destruct ev; try exact I.
    cbn in R. destruct R as (-> & -> & q & R1 & R2). exists q. rewrite <- OFF. split; assumption. }
  destruct C as [(_ & ->)|(body & W0 & ->)]; [split; [exact E'|split; [exact O'|exact G']]|].
  rewrite W0 in B. split; [|split].
  - intros u tu U. cbn in U. apply snoc_inv in U as [U|(-> & ->)].
    + destruct (E' _ _ U) as (x & X & Y). cbn in X. exists x. cbn. split; [apply snoc_old, X|exact Y].
    + exists (shipped (e_logger e)). cbn. split.
      * assert (LE : length (loggers s) = length ls) by (symmetry; apply put_length). rewrite LE. rewrite nth_error_app2, Nat.sub_diag by lia. reflexivity.
      * split; [|exact I]. rewrite <- (List.app_nil_r (map Do body)). apply fits_body; [exact B|exact I].
  - intros p x X. cbn in X. assert (LE : length (loggers s) = length ls) by (symmetry; apply put_length). cbn. apply snoc_inv in X as [X|(-> & ->)].
    + replace (p =? length (loggers s)) with false by (symmetry; apply Nat.eqb_neq; apply nth_lt in X; lia). apply O', X.
    + rewrite LE, Nat.eqb_refl. cbn. apply O'. unfold ls. eapply put_same; exact L.
  - cbn. apply good_cons; [exact G'|exact I].
Qed.
End Lexical.

Lemma run_keeps (P : system -> Prop) : (forall s t, P s -> P (step enabled s t)) -> forall programs schedule, P (started programs) -> P (run enabled programs schedule).
Proof. intros S programs schedule. unfold run. generalize (started programs). induction schedule as [|t r IH]; intros s H; cbn; auto. Qed.

Lemma said_always programs schedule : good_said (all_writes programs) (past (run enabled programs schedule)).
Proof.
  apply (run_keeps (keeps (all_writes programs))); [intros; apply step_keeps; assumption|]. split; [|split].
  - intros t th T. cbn in T. rewrite nth_error_map in T. destruct (nth_error programs t) as [c|] eqn:C; [|discriminate]. injection T as <-.
    exists new_logger. split; [reflexivity|]. cbn. split; [|exact I]. rewrite <- (List.app_nil_r (map Do c)). apply fits_body; [|exact I].
    cbn. intros x X. unfold all_writes. apply in_flat_map. exists c. split; [eapply nth_error_In; exact C|exact X].
  - intros [|p] l L; cbn in L; [injection L as <-; reflexivity|destruct p; discriminate].
  - intros later t p lv m b earlier H. cbn in H. destruct later; discriminate.
Qed.
End Steps.
