(** Theorems for C103. *)
From Verif Require Import LogModel LogSpec LogProofs LogOrder.

(** C103: a message is printed exactly when it is written outside every quiet block of its
    own thread, logging is on in its process, and its level is; whatever the other threads
    do, in every order of their steps, and whatever was raised before. *)
Theorem C103_printed : forall enabled programs schedule later t p lv m printed earlier,
  past (run enabled programs schedule) = later ++ Said t p lv m printed :: earlier ->
  exists quiet, In (lv, m, quiet) (all_writes programs) /\
    (printed = true <-> quiet = false /\ off_in earlier p = false /\ (lv = Out \/ enabled lv = true)).
Proof.
  intros enabled programs schedule later t p lv m printed earlier H.
  destruct (said_always enabled programs schedule _ _ _ _ _ _ _ H) as (q & I & E). exists q. split; [exact I|]. rewrite E.
  assert (K : level_on enabled lv = true <-> (lv = Out \/ enabled lv = true)).
  { destruct lv; cbn; split; auto; intros [X|X]; auto; discriminate. }
  tauto.
Qed.
Print Assumptions C103_printed.

(** C103: silencing loses nothing else: the messages of a program come in its own order, up
    to where it raises, and the end of a quiet block neither hides an exception nor makes
    one. *)
Theorem C103_order : forall enabled programs schedule t c, nth_error programs t = Some c -> forallb plain c = true ->
  (exists later, fst (in_turn alone c) = said_by t (past (run enabled programs schedule)) ++ later) /\
  (forall failed, ended (run enabled programs schedule) t failed ->
     said_by t (past (run enabled programs schedule)) = fst (in_turn alone c) /\ failed = snd (in_turn alone c)).
Proof.
  intros enabled programs schedule t c T P. destruct (always_ordered enabled programs schedule t c T P) as (th & TH & N & PL & F1 & F2).
  split; [eexists; exact F1|]. intros failed (th' & TH' & TD & _ & R). rewrite TH in TH'. injection TH' as <-.
  rewrite TD in F1, F2. cbn in F1, F2. rewrite List.app_nil_r in F1. split; [congruence|]. rewrite F2. unfold is_raising.
  destruct (raising th) as [f|]; destruct failed; auto; destruct R as (R1 & R2).
  - specialize (R2 eq_refl). discriminate.
  - specialize (R1 eq_refl). discriminate.
Qed.
Print Assumptions C103_order.

(** C103: no call of the logger raises because a progress bar or a timer is gone. Guard: at
    most one thread of the process shows a progress bar that is not silenced, and each
    timer is ended by at most one thread. *)
Theorem C103_never_lost_partial : forall enabled programs schedule, one_bar programs -> one_timer programs ->
  forall t p, ~ In (Failed t p Lost) (past (run enabled programs schedule)).
Proof.
  intros enabled programs schedule (o & B) (k & T) t p H.
  pose proof (nothing_lost enabled programs o k B T schedule) as F. rewrite Forall_forall in F. exact (F _ H).
Qed.
Print Assumptions C103_never_lost_partial.

(** C103: nor because a count is above the maximum of the bar, when no count of the
    programs is above a total of theirs. *)
Theorem C103_never_beyond : forall enabled programs schedule,
  (forall n top, In n (flat_map (flat_map bar_counts) programs) -> In top (flat_map (flat_map bar_totals) programs) -> n <= top) ->
  forall t p, ~ In (Failed t p Beyond) (past (run enabled programs schedule)).
Proof.
  intros enabled programs schedule L t p H.
  pose proof (none_beyond enabled _ _ programs schedule (incl_refl _) (incl_refl _) L) as F. rewrite Forall_forall in F. exact (F _ H).
Qed.
Print Assumptions C103_never_beyond.

(** A trial of an optimisation, as to its logging; and a window of one, which trains. *)
Definition trial (verbose : bool) : list cmd := [Quiet verbose [StartBar (Text 1) 2; MoveBar 1; MoveBar 2; EndTimer 0 Out (Text 2)]].
Definition window (verbose : bool) : list cmd := [Quiet verbose [StartTimer 1 Out (Text 3); EndTimer 1 Out (Text 4)]].

(** C103, refuted without the guard: two trials that are not silenced, on two threads. One
    of them finishes the bar after the other saw it and before the other moves it. *)
Theorem C103_two_bars_refuted : forall enabled, exists schedule,
  In (Failed 1 0 Lost) (past (run enabled [trial true; trial true] schedule)).
Proof.
  intros enabled. exists (repeat 0 5 ++ repeat 1 11 ++ repeat 1 1 ++ repeat 0 14 ++ repeat 1 3). vm_compute. tauto.
Qed.
Print Assumptions C103_two_bars_refuted.
(** C103, refuted without the guard: two windows that train models, on two threads; even
    when they are silenced. One of them clears the timer after the other saw it and before
    the other reads it. *)
Theorem C103_two_timers_refuted : forall enabled, exists schedule,
  In (Failed 0 0 Lost) (past (run enabled [window false; window false] schedule)).
Proof.
  intros enabled. exists (repeat 0 4 ++ repeat 1 7 ++ repeat 0 1). vm_compute. tauto.
Qed.
Print Assumptions C103_two_timers_refuted.

(** Any number of silenced trials beside a thread that shows a bar. *)
Example C103_guard_ex : forall n, one_bar ([StartBar (Text 9) 1; MoveBar 1; EndTimer 0 Out (Text 5)] :: repeat [Quiet false [StartBar (Text 1) 2; MoveBar 1; MoveBar 2]] n) /\
  one_timer ([StartBar (Text 9) 1; MoveBar 1; EndTimer 0 Out (Text 5)] :: repeat [Quiet false [StartBar (Text 1) 2; MoveBar 1; MoveBar 2]] n).
Proof.
  intros n. split; [exists 0|exists (fun _ => 0)]; [intros t c T NE|intros k t c T NE]; (destruct t as [|t]; [contradiction|]); cbn in T;
    apply nth_error_In, repeat_spec in T; subst c; reflexivity.
Qed.
(** Messages inside and after quiet blocks, an exception in between, and a worker: it is
    not silenced by the block it was sent from. *)
Example C103_ex :
  let programs := [[Switch false; Say Out (Text 5); Switch true; Say Out (Text 6)];
                   [Try [Quiet false [Say Out (Text 1); Raise; Say Out (Text 2)]]; Say Out (Text 3); Quiet false [Ship [Say Out (Text 4)]]]] in
  let s := run (fun _ => true) programs ([1; 1; 1; 1] ++ [0; 0] ++ [1; 1; 1] ++ [0; 0] ++ [1; 1; 1; 1; 1] ++ [2; 2]) in
  rev (past s) = [Said 1 0 Out (Text 1) false; Failed 1 0 Other; Switched 0 false; Said 0 0 Out (Text 5) false; Switched 0 true; Said 0 0 Out (Text 6) true;
                  Said 1 0 Out (Text 3) true; Shipped 0 1; Said 2 1 Out (Text 4) true] /\
  ended s 1 false /\ said_by 1 (past s) = [(Out, Text 1); (Out, Text 3)] /\ in_turn alone (nth 1 programs []) = ([(Out, Text 1); (Out, Text 3)], false).
Proof. vm_compute. repeat split; try discriminate. eexists. repeat split; reflexivity. Qed.
