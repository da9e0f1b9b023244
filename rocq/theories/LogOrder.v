(** Proofs for C103: the order of messages, progress bars and timers. *)
From Verif Require Import LogModel LogSpec LogProofs.

Section Steps.
Variable enabled : level -> bool.
Local Notation act := (act enabled).
Local Notation step := (step enabled).
Local Notation run := (run enabled).

Lemma act_who t l th e : act t l th = Some e ->
  match e_event e with Some (Said u p _ _ _) | Some (Drew u p _) | Some (Failed u p _) => u = t /\ p = proc th | _ => True end.
Proof.
  unfold LogModel.act. destruct (raising th) as [f|].
  { destruct (todo th) as [|[c|n|] r]; intros [= <-]; cbn; exact I. }
  destruct (now th) as [ph|].
  { intros [= <-]. destruct ph; cbn -[Nat.ltb Nat.eqb]; unfold goes, fails; splits; cbn; auto. }
  destruct (todo th) as [|[c|n|] r]; intros [= <-]; cbn; try exact I.
  destruct c; cbn -[Nat.ltb Nat.eqb]; unfold goes, fails; splits; cbn; auto.
Qed.

(** ** The order of messages *)
Lemma said_cons t e past : said_by t (e :: past) = said_by t past ++ match e with Said u _ lv m _ => if t =? u then [(lv, m)] else [] | _ => [] end.
Proof. unfold said_by. cbn [rev]. rewrite flat_map_app. cbn. rewrite List.app_nil_r. reflexivity. Qed.
Local Arguments said_by : simpl never.
Fixpoint rest (raised : bool) (l : list item) : list (level * message) * bool :=
  match l with
  | [] => ([], raised)
  | Restore _ :: r => rest raised r
  | Caught :: r => rest false r
  | Do c :: r => if raised then rest true r else let '(a, f) := alone c in (a ++ fst (rest f r), snd (rest f r))
  end.
Lemma rest_true_do body r : rest true (map Do body ++ r) = rest true r.
Proof. induction body; cbn; auto. Qed.
Lemma rest_body body r : rest false (map Do body ++ r) =
  (fst (in_turn alone body) ++ fst (rest (snd (in_turn alone body)) r), snd (rest (snd (in_turn alone body)) r)).
Proof.
  induction body as [|c b IH]; cbn [map app rest in_turn]; [apply surjective_pairing|].
  destruct (alone c) as [a f]. destruct f; cbn [fst snd].
  - rewrite rest_true_do. reflexivity.
  - rewrite IH. cbn [fst snd]. rewrite app_assoc. reflexivity.
Qed.
Definition plain_item (i : item) : bool := match i with Do c => plain c | _ => true end.
Lemma plain_body body r : forallb plain body = true -> forallb plain_item r = true -> forallb plain_item (map Do body ++ r) = true.
Proof. induction body; cbn; auto. rewrite !andb_true_iff. tauto. Qed.
Definition is_raising (th : thread) : bool := match raising th with Some _ => true | None => false end.
Lemma act_rest t l th e : act t l th = Some e -> now th = None -> forallb plain_item (todo th) = true ->
  now (e_thread e) = None /\ forallb plain_item (todo (e_thread e)) = true /\
  rest (is_raising th) (todo th) =
    (match e_event e with Some (Said _ _ lv m _) => [(lv, m)] | _ => [] end ++ fst (rest (is_raising (e_thread e)) (todo (e_thread e))),
     snd (rest (is_raising (e_thread e)) (todo (e_thread e)))).
Proof.
  intros A N P. revert A. unfold LogModel.act. rewrite N. unfold is_raising. destruct (raising th) as [f|].
  { destruct (todo th) as [|[c|n|] r]; intros [= <-]; cbn in *; rewrite <- surjective_pairing; auto. apply andb_true_iff in P as (_ & P). auto. }
  destruct (todo th) as [|[c|n|] r]; intros [= <-]; cbn in P; cbn [e_thread e_event now todo raising goes rest].
  2,3: split; [reflexivity|]; split; [exact P|]; apply surjective_pairing.
  apply andb_true_iff in P as (PC & P). destruct c; cbn in PC; try discriminate; cbn [begin goes fails e_thread e_event now todo raising alone say]; auto.
  - split; [reflexivity|]. split; [apply plain_body; assumption|]. rewrite rest_body. cbn [rest]. reflexivity.
  - destruct verbose; cbn [e_thread e_event now todo raising].
    + split; [reflexivity|]. split; [apply plain_body; assumption|]. rewrite rest_body. destruct (in_turn alone body). reflexivity.
    + split; [reflexivity|]. split; [apply plain_body; assumption|]. rewrite rest_body. cbn [rest]. destruct (in_turn alone body). reflexivity.
Qed.
Definition ordered (t : nat) (c : list cmd) (s : system) : Prop :=
  exists th, nth_error (threads s) t = Some th /\ now th = None /\ forallb plain_item (todo th) = true /\
    fst (in_turn alone c) = said_by t (past s) ++ fst (rest (is_raising th) (todo th)) /\
    snd (in_turn alone c) = snd (rest (is_raising th) (todo th)).
Lemma step_ordered u c s t : ordered u c s -> ordered u c (step s t).
Proof.
  intros (tu & TU & N & P & F1 & F2). destruct (step_cases enabled s t) as [->|(th & l & e & T & L & A & C)]; [exists tu; auto|].
  assert (K : ordered u c (mk_system (put (proc th) (e_logger e) (loggers s)) (put t (e_thread e) (threads s)) (opt_cons (e_event e) (past s)))).
  { pose proof (act_who _ _ _ _ A) as WH. destruct (Nat.eq_dec u t) as [->|NE].
    - rewrite T in TU. injection TU as <-. destruct (act_rest _ _ _ _ A N P) as (N' & P' & R). exists (e_thread e). cbn. split; [eapply put_same; exact T|].
      split; [exact N'|]. split; [exact P'|]. rewrite R in F1, F2. cbn in F1, F2. split; [|exact F2]. rewrite F1.
      destruct (e_event e) as [ev|]; cbn; [|reflexivity]. rewrite said_cons. destruct ev; rewrite <- app_assoc; try reflexivity.
      destruct WH as (-> & _). rewrite Nat.eqb_refl. reflexivity.
    - exists tu. cbn. split; [rewrite put_other by congruence; exact TU|]. split; [exact N|]. split; [exact P|]. split; [|exact F2].
      destruct (e_event e) as [ev|]; cbn; [|exact F1]. rewrite said_cons. destruct ev; rewrite ?List.app_nil_r; try exact F1.
      destruct WH as (-> & _). apply Nat.eqb_neq in NE. rewrite NE, List.app_nil_r. exact F1. }
  destruct C as [(_ & ->)|(body & _ & ->)]; [exact K|].
  destruct K as (x & X & R). exists x. cbn in *. split; [apply snoc_old, X|]. rewrite said_cons, List.app_nil_r. exact R.
Qed.
Lemma always_ordered programs schedule t c : nth_error programs t = Some c -> forallb plain c = true -> ordered t c (run programs schedule).
Proof.
  intros T P. apply run_keeps; [intros; apply step_ordered; assumption|]. eexists. cbn. rewrite nth_error_map, T. cbn. split; [reflexivity|]. cbn.
  split; [reflexivity|]. rewrite <- (List.app_nil_r (map Do c)). split; [apply plain_body; auto|]. rewrite rest_body. cbn. rewrite List.app_nil_r. auto.
Qed.

(** ** Invariants of each thread and its logger *)
Section Local.
Variables (programs : list (list cmd)).
Let N := length programs.
Variable Inv : nat -> thread -> logger -> Prop.
Variable Ev : event -> Prop.
Hypothesis first : forall t c, nth_error programs t = Some c -> Inv t (mk_thread 0 None None (map Do c)) new_logger.
Hypothesis own : forall t l th e, act t l th = Some e -> Inv t th l -> Inv t (e_thread e) (e_logger e).
Hypothesis other : forall t l th e u tu, act t l th = Some e -> Inv t th l -> Inv u tu l -> u <> t -> u < N -> t < N -> Inv u tu (e_logger e).
Hypothesis fresh : forall t l th e u p body, act t l th = Some e -> Inv t th l -> e_work e = Some body -> N <= u ->
  Inv u (mk_thread p None None (map Do body)) (shipped (e_logger e)).
Hypothesis event_ok : forall t l th e ev, act t l th = Some e -> Inv t th l -> e_event e = Some ev -> Ev ev.
Hypothesis ship_ok : forall p q, Ev (Shipped p q).
Definition place (t : nat) : nat := if t <? N then 0 else t - N + 1.
Definition local (s : system) : Prop :=
  N <= length (threads s) /\ length (loggers s) + N = length (threads s) + 1 /\ each (fun _ t th l => proc th = place t /\ Inv t th l) s /\ Forall Ev (past s).
Lemma step_local s t : local s -> local (step s t).
Proof.
  intros (LN & LL & E & F). destruct (step_cases enabled s t) as [->|(th & l & e & T & L & A & C)]; [repeat split; assumption|].
  destruct (E _ _ T) as (l0 & L0 & PL & IV). rewrite L in L0. injection L0 as <-.
  set (ls := put (proc th) (e_logger e) (loggers s)) in *. set (ts := put t (e_thread e) (threads s)) in *.
  assert (H : local (mk_system ls ts (opt_cons (e_event e) (past s)))).
  { split; [cbn; unfold ts; rewrite put_length; exact LN|]. split; [cbn; unfold ts, ls; rewrite !put_length; exact LL|]. split.
    - intros u tu U. cbn in U. apply put_inv in U as [(-> & ->)|(NE & U)].
      + rewrite (act_proc _ _ _ _ _ A). exists (e_logger e). cbn. split; [eapply put_same; exact L|]. split; [exact PL|]. eapply own; eassumption.
      + destruct (E _ _ U) as (lu & LU & PU & IU). cbn. destruct (Nat.eq_dec (proc tu) (proc th)) as [EQ|NP].
        * rewrite EQ. exists (e_logger e). split; [eapply put_same; exact L|]. split; [congruence|]. rewrite EQ in LU. rewrite L in LU. injection LU as <-.
          rewrite PU, PL in EQ. unfold place in EQ. apply nth_lt in U. apply nth_lt in T.
          destruct (Nat.ltb_spec u N), (Nat.ltb_spec t N); try lia. eapply other; eassumption.
        * exists lu. split; [unfold ls; rewrite put_other by congruence; exact LU|]. split; assumption.
    - cbn. destruct (e_event e) as [ev|] eqn:EV; cbn; [|exact F]. constructor; [|exact F]. eapply event_ok; eassumption. }
  destruct C as [(_ & ->)|(body & W & ->)]; [exact H|]. destruct H as (H1 & H2 & H3 & H4). cbn in H1, H2.
  split; [cbn; rewrite app_length; lia|]. split; [cbn; rewrite !app_length; cbn; lia|]. split; [|cbn; constructor; [apply ship_ok|exact H4]].
  assert (LE : length ls = length (loggers s)) by apply put_length.
  intros u tu U. cbn in U. apply snoc_inv in U as [U|(-> & ->)].
  - destruct (H3 _ _ U) as (x & X & R). exists x. cbn in *. split; [apply snoc_old, X|exact R].
  - exists (shipped (e_logger e)). cbn. split; [rewrite <- LE; apply snoc_new|]. split.
    + unfold place. destruct (Nat.ltb_spec (length ts) N); lia.
    + eapply fresh; eassumption.
Qed.
Lemma always_local schedule : Forall Ev (past (run programs schedule)).
Proof.
  apply (run_keeps enabled local); [intros; apply step_local; assumption|]. split; [cbn; rewrite map_length; auto|].
  split; [cbn; rewrite map_length; unfold N; lia|]. split; [|constructor].
  intros t th T. cbn in T. rewrite nth_error_map in T. destruct (nth_error programs t) as [c|] eqn:C; [|discriminate]. injection T as <-.
  exists new_logger. split; [reflexivity|]. split; [|apply first, C]. unfold place. cbn [proc]. apply nth_lt in C. destruct (Nat.ltb_spec t N); [reflexivity|unfold N in *; lia].
Qed.
End Local.

(** ** The progress bar *)
Fixpoint calm (n : nat) (l : list item) : Prop :=
  match l with
  | [] => True
  | Restore p :: r => calm p r
  | Caught :: r => calm n r
  | Do c :: r => draws (0 <? n) c = false /\ calm n r
  end.
Lemma calm_body n body r : existsb (draws (0 <? n)) body = false -> calm n r -> calm n (map Do body ++ r).
Proof. induction body as [|c b IH]; cbn; auto. rewrite orb_false_iff. intros (A & B) R. auto. Qed.
Definition calm_phase (n : nat) (ph : option phase) : Prop :=
  match ph with
  | Some (Start3 _ _) | Some (Start4 _) | Some Start5 | Some (Move3 _) | Some (Move4 _) | Some (Move5 _) | Some Move6 | Some Move7 | Some Move8 => False
  | Some (Move2 _) => 0 < n
  | _ => True
  end.
Definition needs_bar (ph : option phase) : Prop :=
  match ph with Some (Start4 _) | Some Start5 | Some (Move2 _) | Some (Move3 _) | Some (Move4 _) | Some (Move5 _) | Some Move6 => True | _ => False end.
Lemma act_calm t l th e : act t l th = Some e -> calm (count t l) (todo th) -> calm_phase (count t l) (now th) ->
  calm (count t (e_logger e)) (todo (e_thread e)) /\ calm_phase (count t (e_logger e)) (now (e_thread e)) /\ bar (e_logger e) = bar l.
Proof.
  intros A C P. revert A. unfold LogModel.act. destruct (raising th) as [f|].
  { destruct (todo th) as [|[c|n|] r]; intros [= <-]; cbn [calm] in C; cbn [e_logger e_thread todo now calm_phase]; try rewrite count_set; cbn [set_count bar]; tauto. }
  destruct (now th) as [ph|].
  { intros [= <-]. destruct ph; cbn [calm_phase] in P; try contradiction; cbn [in_phase]; unfold goes, fails;
      cbn [e_logger e_thread todo now calm_phase start_timer stop_timer bar]; auto.
    - assert (D : is_disabled t l = true) by (unfold is_disabled; apply orb_true_iff; right; apply Nat.ltb_lt; exact P).
      rewrite D. cbn. auto.
    - destruct (running k l); cbn; auto. }
  destruct (todo th) as [|[c|n|] r]; intros [= <-]; cbn [calm] in C.
  2:{ unfold goes. cbn [e_logger e_thread todo now calm_phase]. rewrite count_set. cbn. auto. }
  2:{ unfold goes. cbn. auto. }
  destruct C as (D & C). destruct c; cbn [begin draws] in *; unfold goes, fails; try (cbn; auto; fail).
  - apply negb_false_iff in D. assert (IS : is_disabled t l = true) by (unfold is_disabled; rewrite D; apply orb_true_r). rewrite IS. cbn. auto.
  - apply negb_false_iff, Nat.ltb_lt in D. destruct (bar l) eqn:B; cbn; rewrite ?B; auto.
  - destruct (running k l); cbn; auto.
  - cbn [e_logger e_thread todo now calm_phase]. split; [|auto]. apply calm_body; [exact D|exact C].
  - destruct verbose; cbn [e_logger e_thread todo now calm_phase].
    + rewrite orb_false_r in D. split; [|auto]. apply calm_body; [exact D|exact C].
    + rewrite orb_true_r in D. rewrite count_set. split; [|auto]. apply calm_body; [|exact C].
      replace (0 <? count t l + 1) with true; [exact D|]. symmetry. apply Nat.ltb_lt. lia.
Qed.
Lemma act_needs t l th e : act t l th = Some e -> (needs_bar (now th) -> bar l <> None) -> needs_bar (now (e_thread e)) -> bar (e_logger e) <> None.
Proof.
  intros A P. revert A. unfold LogModel.act. destruct (raising th) as [f|].
  { destruct (todo th) as [|[c|n|] r]; intros [= <-]; cbn; contradiction. }
  destruct (now th) as [ph|].
  { intros [= <-]. destruct ph; cbn [needs_bar] in P; cbn [in_phase]; unfold goes, fails.
    - cbn. discriminate.
    - cbn. auto.
    - destruct (bar l) eqn:B; cbn; contradiction.
    - destruct (is_disabled t l); cbn; auto.
    - destruct (bar_off l); cbn; auto.
    - destruct (bar l) as [top|] eqn:B; [destruct (top <? n)|]; cbn; rewrite ?B; auto; discriminate.
    - destruct (bar l) as [top|] eqn:B; [destruct (n =? top)|]; cbn; rewrite ?B; auto; discriminate.
    - destruct (bar l) eqn:B; cbn; contradiction.
    - cbn. contradiction.
    - cbn. contradiction.
    - cbn. contradiction.
    - destruct (running k l); cbn; contradiction.
    - cbn. contradiction.
    - cbn. contradiction. }
  destruct (todo th) as [|[c|n|] r]; intros [= <-]; cbn; try contradiction.
  destruct c; cbn; unfold goes, fails; try (splits; cbn; contradiction).
  destruct (bar l) eqn:B; cbn; try contradiction. rewrite B. discriminate.
Qed.

(** ** Timers *)
Fixpoint calm_timer (k : nat) (l : list item) : Prop :=
  match l with
  | [] => True
  | Do c :: r => ends k c = false /\ calm_timer k r
  | _ :: r => calm_timer k r
  end.
Lemma calm_timer_body k body r : existsb (ends k) body = false -> calm_timer k r -> calm_timer k (map Do body ++ r).
Proof. induction body as [|c b IH]; cbn; auto. rewrite orb_false_iff. intros (A & B) R. auto. Qed.
Definition timer_phase (k : nat) (ph : option phase) : Prop :=
  match ph with Some (End2 j _ _) | Some (End3 j _ _) | Some (End4 j) => j <> k | _ => True end.
Definition needs_timer (k : nat) (ph : option phase) : Prop := match ph with Some (End2 j _ _) => j = k | _ => False end.
Lemma running_start k j l : running k l = true -> running k (start_timer j l) = true.
Proof. unfold running. cbn. intros ->. apply orb_true_r. Qed.
Lemma running_stop k j l : j <> k -> running k l = true -> running k (stop_timer j l) = true.
Proof.
  intros N H. unfold running in *. cbn. apply existsb_exists in H as (x & X & E). apply Nat.eqb_eq in E. subst x. apply existsb_exists. exists k.
  split; [|apply Nat.eqb_refl]. apply filter_In. split; [exact X|]. apply Nat.eqb_neq in N. rewrite N. reflexivity.
Qed.
Lemma act_calm_timer k t l th e : act t l th = Some e -> calm_timer k (todo th) -> timer_phase k (now th) ->
  calm_timer k (todo (e_thread e)) /\ timer_phase k (now (e_thread e)) /\ (running k l = true -> running k (e_logger e) = true).
Proof.
  intros A C P. revert A. unfold LogModel.act. destruct (raising th) as [f|].
  { destruct (todo th) as [|[c|n|] r]; intros [= <-]; cbn in *; tauto. }
  destruct (now th) as [ph|].
  { intros [= <-]. destruct ph; cbn [timer_phase] in P; cbn [in_phase]; unfold goes, fails; splits; cbn [e_logger e_thread todo now timer_phase]; auto.
    - split; [exact C|]. split; [exact I|]. apply running_start.
    - split; [exact C|]. split; [exact I|]. apply running_stop, P. }
  destruct (todo th) as [|[c|n|] r]; intros [= <-]; cbn [calm_timer] in C; try (cbn; auto; fail).
  destruct C as (D & C). destruct c; cbn [begin ends] in *; unfold goes, fails; splits; try (cbn; auto; fail).
  - cbn. split; [exact C|]. split; [|auto]. intros ->. rewrite Nat.eqb_refl in D. discriminate.
  - cbn [e_logger e_thread todo now timer_phase]. split; [|auto]. apply calm_timer_body; [exact D|exact C].
  - cbn [e_logger e_thread todo now timer_phase]. split; [|auto]. apply calm_timer_body; [exact D|exact C].
  - cbn [e_logger e_thread todo now timer_phase]. split; [|auto]. apply calm_timer_body; [exact D|exact C].
Qed.
Lemma act_needs_timer k t l th e : act t l th = Some e -> needs_timer k (now (e_thread e)) -> running k (e_logger e) = true.
Proof.
  unfold LogModel.act. destruct (raising th) as [f|].
  { destruct (todo th) as [|[c|n|] r]; intros [= <-]; cbn; contradiction. }
  destruct (now th) as [ph|].
  { intros [= <-]. destruct ph; cbn -[Nat.ltb Nat.eqb running]; unfold goes, fails; splits; cbn; contradiction. }
  destruct (todo th) as [|[c|n|] r]; intros [= <-]; cbn; try contradiction.
  destruct c; cbn -[Nat.ltb Nat.eqb running]; unfold goes, fails; try (splits; cbn -[running]; contradiction).
  destruct (running k0 l) eqn:R; cbn -[running]; [intros ->; exact R|contradiction].
Qed.

(** ** Nothing is lost *)
Lemma act_lost t l th e u p : act t l th = Some e -> e_event e = Some (Failed u p Lost) ->
  (bar l = None /\ needs_bar (now th) /\ forall n, ~ calm_phase n (now th)) \/ exists k, needs_timer k (now th) /\ running k l = false.
Proof.
  unfold LogModel.act. destruct (raising th) as [f|].
  { destruct (todo th) as [|[c|n|] r]; intros [= <-]; discriminate. }
  destruct (now th) as [ph|].
  { intros [= <-]. destruct ph; cbn -[Nat.ltb Nat.eqb running]; unfold goes, fails, say;
      try (splits; cbn -[running]; try discriminate; intros [= <- <-]; left; (split; [reflexivity|split; [exact I|tauto]])).
    destruct (running k l) eqn:R; [discriminate|]. intros _. right. exists k. split; [reflexivity|exact R]. }
  destruct (todo th) as [|[c|n|] r]; intros [= <-]; try discriminate.
  destruct c; cbn -[Nat.ltb Nat.eqb running]; unfold goes, fails, say; splits; cbn -[running]; try discriminate.
Qed.
Section Guarded.
Variables (programs : list (list cmd)) (owner : nat) (keeper : nat -> nat).
Hypothesis bars : forall t c, nth_error programs t = Some c -> t <> owner -> existsb (draws false) c = false.
Hypothesis tims : forall k t c, nth_error programs t = Some c -> t <> keeper k -> existsb (ends k) c = false.
Let N := length programs.
Definition sound (t : nat) (th : thread) (l : logger) : Prop :=
  (t < N -> t <> owner -> calm (count t l) (todo th) /\ calm_phase (count t l) (now th)) /\
  (t = owner \/ N <= t -> needs_bar (now th) -> bar l <> None) /\
  (forall k, t < N -> t <> keeper k -> calm_timer k (todo th) /\ timer_phase k (now th)) /\
  (forall k, needs_timer k (now th) -> running k l = true).
Definition not_lost (e : event) : Prop := match e with Failed _ _ Lost => False | _ => True end.
Lemma nothing_lost schedule : Forall not_lost (past (run programs schedule)).
Proof.
  apply (always_local programs sound not_lost).
  - intros t c T. assert (B : forall r, (forall n, calm n r) -> t <> owner -> calm 0 (map Do c ++ r)).
    { intros r R NE. apply calm_body; [cbn; apply (bars t); assumption|apply R]. }
    split; [|split; [|split]].
    + intros _ NE. cbn. split; [|exact I]. rewrite <- (List.app_nil_r (map Do c)). apply B; [cbn; auto|exact NE].
    + cbn. contradiction.
    + intros k _ NE. cbn. split; [|exact I]. rewrite <- (List.app_nil_r (map Do c)). apply calm_timer_body; [apply (tims k t); assumption|exact I].
    + cbn. contradiction.
  - intros t l th e A (S1 & S2 & S3 & S4). split; [|split; [|split]].
    + intros LT NE. destruct (S1 LT NE) as (C & P). destruct (act_calm _ _ _ _ A C P) as (C' & P' & _). auto.
    + intros O. apply (act_needs _ _ _ _ A). apply S2, O.
    + intros k LT NE. destruct (S3 k LT NE) as (C & P). destruct (act_calm_timer _ _ _ _ _ A C P) as (C' & P' & _). auto.
    + intros k. apply (act_needs_timer k _ _ _ _ A).
  - intros t l th e u tu A (S1 & S2 & S3 & S4) (U1 & U2 & U3 & U4) NE LU LT. split; [|split; [|split]].
    + intros _ NO. rewrite (act_count _ _ _ _ _ u A NE). apply U1; assumption.
    + intros [->|G] NB; [|unfold N in *; lia]. assert (NO : t <> owner) by auto. destruct (S1 LT NO) as (C & P).
      destruct (act_calm _ _ _ _ A C P) as (_ & _ & ->). apply U2; auto.
    + exact (fun k H => U3 k H).
    + intros k NT. assert (K : u = keeper k \/ u <> keeper k) by lia. destruct K as [K|K].
      * assert (NK : t <> keeper k) by congruence. destruct (S3 k LT NK) as (C & P). destruct (act_calm_timer _ _ _ _ _ A C P) as (_ & _ & R). apply R, U4, NT.
      * destruct (U3 k LU K) as (_ & P). exfalso. destruct (now tu) as [[]|]; cbn in *; contradiction.
  - intros t l th e u p body A S W LU. fold N in LU. split; [|split; [|split]]; intros; try (unfold N in *; lia); cbn in *; contradiction.
  - intros t l th e ev A (S1 & S2 & S3 & S4) EV. destruct ev as [| | | |u p f]; try exact I. destruct f; try exact I. exfalso.
    destruct (act_lost _ _ _ _ _ _ A EV) as [(B & NB & NC)|(k & NT & R)].
    + assert (O : (t = owner \/ N <= t) \/ (t < N /\ t <> owner)) by (unfold N; lia). destruct O as [O|(LT & NE)].
      * exact (S2 O NB B).
      * destruct (S1 LT NE) as (_ & P). exact (NC _ P).
    + rewrite (S4 k NT) in R. discriminate.
  - intros; exact I.
Qed.
End Guarded.

(** ** No count beyond the maximum *)
Section Counts.
Variables (counts totals : list nat).
Definition within (c : cmd) : Prop := incl (bar_counts c) counts /\ incl (bar_totals c) totals.
Definition within_item (i : item) : Prop := match i with Do c => within c | _ => True end.
Definition within_phase (ph : option phase) : Prop :=
  match ph with
  | Some (Start3 _ n) => In n totals
  | Some (Move2 n) | Some (Move3 n) | Some (Move4 n) => In n counts
  | _ => True
  end.
Lemma within_body body r : incl (flat_map bar_counts body) counts -> incl (flat_map bar_totals body) totals -> Forall within_item r -> Forall within_item (map Do body ++ r).
Proof.
  induction body as [|c b IH]; cbn; intros A B R; [exact R|]. constructor.
  - split; intros x X; [apply A|apply B]; apply in_or_app; left; exact X.
  - apply IH; [| |exact R]; intros x X; [apply A|apply B]; apply in_or_app; right; exact X.
Qed.
Definition bounded (t : nat) (th : thread) (l : logger) : Prop :=
  Forall within_item (todo th) /\ within_phase (now th) /\ (forall top, bar l = Some top -> In top totals).
Lemma act_bounded t l th e : act t l th = Some e -> bounded t th l ->
  bounded t (e_thread e) (e_logger e) /\ match e_work e with Some body => incl (flat_map bar_counts body) counts /\ incl (flat_map bar_totals body) totals | None => True end.
Proof.
  intros A (W & P & B). revert A. unfold bounded, LogModel.act. destruct (raising th) as [f|].
  { destruct (todo th) as [|[c|n|] r]; intros [= <-]; inversion W; subst; cbn; auto. }
  destruct (now th) as [ph|].
  { intros [= <-]. destruct ph; cbn [within_phase] in P; cbn [in_phase]; unfold goes, fails;
      try (destruct (bar l) as [top0|] eqn:BL); splits; cbn [e_logger e_thread e_work todo now within_phase start_timer stop_timer set_bar bar];
      (split; [|exact I]); (split; [exact W|]); (split; [first [exact I|exact P]|]); intros top H; try discriminate H;
      first [apply B; congruence | injection H as <-; exact P]. }
  destruct (todo th) as [|[c|n|] r]; intros [= <-]; inversion W as [|? ? W1 W2]; subst; try (cbn; auto; fail).
  destruct W1 as (W1 & W3). destruct c; cbn [begin bar_counts bar_totals] in *; unfold goes, fails; try (cbn; auto; fail).
  - destruct (is_disabled t l); [|destruct (bar_off l)]; cbn; auto. split; [|exact I]. split; [exact W2|]. split; [apply W3; left; reflexivity|exact B].
  - destruct (bar l) eqn:BL; cbn; rewrite ?BL; auto. split; [|exact I]. split; [exact W2|]. split; [apply W1; left; reflexivity|exact B].
  - destruct (running k l); cbn; auto.
  - cbn [e_logger e_thread e_work todo now within_phase]. split; [|exact I]. split; [|auto]. apply within_body; auto.
  - destruct verbose; cbn [e_logger e_thread e_work todo now within_phase]; (split; [|exact I]); (split; [|auto]); apply within_body; auto.
Qed.
Lemma act_beyond t l th e u p : act t l th = Some e -> e_event e = Some (Failed u p Beyond) -> exists n top, now th = Some (Move4 n) /\ bar l = Some top /\ top < n.
Proof.
  unfold LogModel.act. destruct (raising th) as [f|].
  { destruct (todo th) as [|[c|n|] r]; intros [= <-]; discriminate. }
  destruct (now th) as [ph|].
  { intros [= <-]. destruct ph; cbn -[Nat.ltb Nat.eqb running]; unfold goes, fails, say; try (splits; cbn -[running]; discriminate).
    destruct (bar l) as [top|] eqn:B; [|discriminate]. destruct (top <? n) eqn:LT; [|discriminate].
    intros _. exists n, top. split; [reflexivity|]. split; [reflexivity|]. apply Nat.ltb_lt, LT. }
  destruct (todo th) as [|[c|n|] r]; intros [= <-]; try discriminate.
  destruct c; cbn -[Nat.ltb Nat.eqb running]; unfold goes, fails, say; splits; cbn -[running]; try discriminate.
Qed.
Definition not_beyond (e : event) : Prop := match e with Failed _ _ Beyond => False | _ => True end.
Lemma none_beyond programs schedule : incl (flat_map (flat_map bar_counts) programs) counts -> incl (flat_map (flat_map bar_totals) programs) totals ->
  (forall n top, In n counts -> In top totals -> n <= top) -> Forall not_beyond (past (run programs schedule)).
Proof.
  intros IC IT LE. apply (always_local programs bounded not_beyond).
  - intros t c T. split; [|split; [exact I|discriminate]]. cbn. rewrite <- (List.app_nil_r (map Do c)). apply nth_error_In in T. apply within_body; [| |constructor]; intros x X.
    + apply IC, in_flat_map. exists c. auto.
    + apply IT, in_flat_map. exists c. auto.
  - intros t l th e A B. exact (proj1 (act_bounded _ _ _ _ A B)).
  - intros t l th e u tu A B (U1 & U2 & U3) _ _ _. split; [exact U1|]. split; [exact U2|]. exact (proj2 (proj2 (proj1 (act_bounded _ _ _ _ A B)))).
  - intros t l th e u p body A B W _. destruct (act_bounded _ _ _ _ A B) as (_ & H). rewrite W in H. destruct H as (H1 & H2).
    split; [|split; [exact I|discriminate]]. cbn. rewrite <- (List.app_nil_r (map Do body)). apply within_body; auto.
  - intros t l th e ev A (B1 & B2 & B3) EV. destruct ev as [| | | |u p f]; try exact I. destruct f; try exact I.
    destruct (act_beyond _ _ _ _ _ _ A EV) as (n & top & NW & BR & LT). rewrite NW in B2. cbn in B2. specialize (LE _ _ B2 (B3 _ BR)). lia.
  - intros; exact I.
Qed.
End Counts.
End Steps.
