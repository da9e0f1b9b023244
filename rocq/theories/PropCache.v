(** C50 and C51: the two-level cache. *)
From Coq Require Import List Bool Arith Lia.
From Verif Require Import CacheSpec CacheProofs CacheThreads.
Import ListNotations.

(** Any history of get, set, delete, pop, del and clear, with any disk write
    refused or raising: every result, and the disk, are those of the disk cache
    alone. [_partial]: for clients that do not use the [repr] of a dataclass key as
    a key themselves and store no [None], see the refutations below. *)
Theorem C50_transparent_partial : forall repr, (forall a b, repr a = repr b -> a = b) ->
  forall maxsize disk history,
  (forall k, disk k <> Some VNone) -> Forall (fun x => ordinary repr (fst x)) history ->
  let '(s, results) := run_history repr maxsize history (mk_shared [] disk) in
  results = snd (disk_history repr history disk) /\ s_disk s = fst (disk_history repr history disk).
Proof.
  intros repr inj m disk h D F.
  destruct (history_same repr inj m h (mk_shared [] disk)) as (_ & E & R); [|exact F|].
  - split; [constructor|]. split; [exact D|easy].
  - destruct (run_history repr m h (mk_shared [] disk)) as [s rs]. cbn in *. now rewrite R, E.
Qed.
Print Assumptions C50_transparent_partial.

(** The next read of any ordinary key, with any default. *)
Theorem C50_get_partial : forall repr, (forall a b, repr a = repr b -> a = b) ->
  forall maxsize disk history k default,
  (forall k, disk k <> Some VNone) -> Forall (fun x => ordinary repr (fst x)) history -> proper repr k ->
  let s := fst (run_history repr maxsize history (mk_shared [] disk)) in
  snd (run_prog repr maxsize (get_prog repr k default) [] s) = RVal (or_else (held repr (s_disk s) k) default).
Proof.
  intros repr inj m disk h k default D F P s.
  destruct (history_same repr inj m h (mk_shared [] disk)) as (I & _ & _); [|exact F|].
  - split; [constructor|]. split; [exact D|easy].
  - fold s in I. pose proof (op_step repr inj m (OGet k default) [] s I) as G. cbn [prog_of] in G.
    destruct (run_prog repr m (get_prog repr k default) [] s) as [s' r]. destruct G as (_ & _ & ->); [|easy].
    split; [|easy]. intros k' [= <-]. exact P.
Qed.
Print Assumptions C50_get_partial.

(** The in-memory level never exceeds its capacity: after any history, and at any
    point of any interleaving. *)
Theorem C50_capacity : forall repr maxsize disk,
  (forall history, length (s_l1 (fst (run_history repr maxsize history (mk_shared [] disk)))) <= maxsize) /\
  (forall schedule s es, crun repr maxsize schedule (idle (mk_shared [] disk)) = Some (s, es) ->
     length (s_l1 (c_shared s)) <= maxsize).
Proof.
  intros repr m disk. assert (W0 : wf m (mk_shared [] disk)) by (split; [constructor|cbn; lia]). split.
  - intros h. apply history_wf. exact W0.
  - intros ls s es E. enough (W : wf m (c_shared s)) by apply W.
    assert (G : forall ls s0 s es, wf m (c_shared s0) -> crun repr m ls s0 = Some (s, es) -> wf m (c_shared s)).
    { clear. induction ls as [|l ls IH]; intros s0 s es W E; cbn [crun] in E; [now injection E as <- <-|].
      destruct (cstep repr m l s0) as [[s1 e1]|] eqn:E1; [|easy]. destruct (crun repr m ls s1) as [[s2 es2]|] eqn:E2; [|easy].
      injection E as <- <-. apply (IH s1 s2 es2); [|exact E2]. destruct l as [t o|t f]; cbn [cstep] in E1.
      - destruct (c_threads s0 t); [easy|]. now injection E1 as <- <-.
      - destruct (c_threads s0 t) as [[o [r|a k]]|]; try easy. pose proof (act_wf repr m a f (c_shared s0) W) as W1.
        destruct (act repr m a f (c_shared s0)) as [sh x]. destruct (k x); injection E1 as <- <-; exact W1. }
    exact (G ls (idle (mk_shared [] disk)) s es W0 E).
Qed.
Print Assumptions C50_capacity.

(** A client that writes under the [repr] of a key it has read: the read is served
    from memory and misses the write. *)
Theorem C50_legacy_write_refuted : exists repr history disk,
  (forall a b, repr a = repr b -> a = b) /\ (forall k, disk k <> Some VNone) /\
  snd (run_history repr 1024 history (mk_shared [] disk)) <> snd (disk_history repr history disk).
Proof.
  exists (fun n => n), [(OGet (Data 0) VNone, []); (OSet (Plain 0) (VObj 2), []); (OGet (Data 0) VNone, [])],
    (fun k => match k with Plain 0 => Some (VObj 1) | _ => None end).
  split; [easy|]. split; [intros [[|n]|n]; discriminate|]. vm_compute. intros H. discriminate H.
Qed.
Print Assumptions C50_legacy_write_refuted.

(** [None] stored under a key that also has an entry in its earlier form: once
    memory has let go of it, a read returns the old entry. *)
Theorem C50_none_refuted : exists repr history disk maxsize,
  (forall a b, repr a = repr b -> a = b) /\ (forall k, disk k <> Some VNone) /\ (maxsize = 1) /\
  Forall (fun x => forall k, key_of (fst x) = Some k -> proper repr k) history /\
  snd (run_history repr maxsize history (mk_shared [] disk)) <> snd (disk_history repr history disk).
Proof.
  exists (fun n => n), [(OSet (Data 0) VNone, []); (OSet (Data 1) (VObj 5), []); (OGet (Data 0) VNone, [])],
    (fun k => match k with Plain 0 => Some (VObj 1) | _ => None end), 1.
  split; [easy|]. split; [intros [[|n]|n]; discriminate|]. split; [easy|].
  split; [repeat constructor; now intros k [= <-]|]. vm_compute. intros H. discriminate H.
Qed.
Print Assumptions C50_none_refuted.

(** [pop] of a key held only in its earlier form loses the value: a read finds it,
    [pop] returns the default, and then it is gone. *)
Theorem C50_pop_refuted : exists repr disk k v,
  (forall a b, repr a = repr b -> a = b) /\ v <> VNone /\
  snd (run_history repr 1024 [(OGet k VNone, []); (OPop k VNone, []); (OGet k VNone, [])] (mk_shared [] disk)) =
  [RVal v; RVal VNone; RVal VNone].
Proof.
  exists (fun n => n), (fun k => match k with Plain 0 => Some (VObj 1) | _ => None end), (Data 0), (VObj 1).
  split; [easy|]. split; [easy|]. reflexivity.
Qed.
Print Assumptions C50_pop_refuted.

(** A concrete history that meets the hypotheses: a failed write, a refused one,
    evictions at capacity one, an entry in its earlier form. *)
Example demo_history : list (op * list fate) :=
  [(OSet (Data 0) (VObj 1), []); (OGet (Data 0) VNone, []); (OSet (Data 0) (VObj 2), [FRaise (fun _ => true)]);
   (OGet (Data 0) VNone, []); (OSet (Data 1) (VObj 3), [FFalse]); (OGet (Data 1) (VOther 7), []); (OGet (Data 2) VNone, []);
   (ODelete (Data 2), []); (OGet (Data 2) VNone, []); (OClear, []); (OGet (Data 0) VNone, [])].
Definition demo_disk : disk_t := fun k => match k with Plain 2 => Some (VObj 9) | _ => None end.
Example demo_history_ordinary : Forall (fun x => ordinary (fun n => n) (fst x)) demo_history.
Proof. repeat constructor; try (now intros k [= <-]); easy. Qed.
Example demo_history_results : snd (run_history (fun n => n) 1 demo_history (mk_shared [] demo_disk)) =
  [RFlag true; RVal (VObj 1); RRaised; RVal (VObj 2); RFlag false; RVal (VOther 7); RVal (VObj 9); RFlag false; RVal VNone; RDone; RVal VNone].
Proof. reflexivity. Qed.

(** ** Threads *)

(** Any interleaving of reads and stores in which each key only ever gets one
    value, as it does when keys determine values: after a store of [k] has
    returned [True], every read of [k] that starts later, in any thread, returns
    its value. [_partial]: nothing is deleted, and values do not change, see
    [C51_refuted]. *)
Theorem C51_one_value_partial : forall repr maxsize content disk before after s1 s2 es1 es2 t k v,
  (forall k, content k <> VNone) -> (forall k q, legacy repr k = Some q -> content q = content k) ->
  (forall k v, disk k = Some v -> v = content k) ->
  (forall t o, In (Start t o) (before ++ after) -> match o with OGet _ _ => True | OSet k v => v = content k | _ => False end) ->
  crun repr maxsize before (idle (mk_shared [] disk)) = Some (s1, es1) -> In (Done t (OSet k v) (RFlag true)) es1 ->
  crun repr maxsize after s1 = Some (s2, es2) ->
  forall reader default r, c_threads s1 reader = None -> In (Done reader (OGet k default) r) es2 -> r = RVal v.
Proof.
  intros repr m content disk before after s1 s2 es1 es2 t k v CS CL D S E1 HD E2 reader default r Idle HR.
  assert (Sb : forall t o, In (Start t o) before -> o_op content o) by (intros t0 o H; apply (S t0); apply in_or_app; now left).
  assert (Sa : forall t o, In (Start t o) after -> o_op content o) by (intros t0 o H; apply (S t0); apply in_or_app; now right).
  set (init := idle (mk_shared [] disk)) in *.
  assert (I0 : forall known : key -> Prop, (forall k, known k -> disk k <> None) -> o_inv content known (c_shared init)).
  { intros known K. split; [constructor|]. split; [easy|]. split; [exact D|exact K]. }
  assert (A0 : all_ok (o_safe content) (o_may content (fun _ => False)) (fun _ _ _ => True) init) by easy.
  destruct (rely_run repr m (o_inv content (fun _ => False)) (o_safe content) (o_may content (fun _ => False)) (fun _ _ _ => True)
    (o_kept repr m content _) before init s1 es1 (I0 _ (fun _ F => False_ind _ F)) A0) as (I1 & A1 & _).
  { intros t0 o H. apply o_ok; [exact CS|exact CL|now apply (Sb t0)]. }
  { exact E1. }
  destruct (once_run repr m content CS CL before init s1 es1 A0) as (_ & _ & K1); [easy|exact (I0 _ (fun _ F => False_ind _ F))|exact Sb|exact E1|].
  specialize (K1 t k v HD).
  assert (V : v = content k).
  { (* the store's operation was started by the client *)
    assert (G : forall ls s s' es, (forall t o p, c_threads s t = Some (o, p) -> o_op content o) ->
       (forall t o, In (Start t o) ls -> o_op content o) -> crun repr m ls s = Some (s', es) -> forall t o r, In (Done t o r) es -> o_op content o).
    { clear. induction ls as [|l ls IH]; intros s s' es T St E t0 o0 r0 H; cbn [crun] in E; [injection E as <- <-; easy|].
      destruct (cstep repr m l s) as [[s3 e3]|] eqn:E3; [|easy]. destruct (crun repr m ls s3) as [[s4 es4]|] eqn:E4; [|easy]. injection E as <- <-.
      assert (G : (forall t o p, c_threads s3 t = Some (o, p) -> o_op content o) /\ forall t o r, In (Done t o r) e3 -> o_op content o).
      { destruct l as [t o|t f]; cbn [cstep] in E3.
        - destruct (c_threads s t) eqn:Tt; [easy|]. injection E3 as <- <-. split; [|easy]. intros t' o' p' H'. cbn [c_threads] in H'.
          destruct (Nat.eq_dec t t') as [<-|N]; [rewrite set_thread_same in H'; injection H' as <- _; apply (St t); now left|].
          rewrite set_thread_other in H' by easy. now apply (T t' o' p').
        - destruct (c_threads s t) as [[o [r|a k]]|] eqn:Tt; try easy. pose proof (T t o _ Tt) as OO. destruct (act repr m a f (c_shared s)) as [sh x].
          destruct (k x); injection E3 as <- <-; (split; [|try easy; now intros t' o' r' [[= <- <- <-]|[]]]); intros t' o' p' H'; cbn [c_threads] in H';
          (destruct (Nat.eq_dec t t') as [<-|N]; [rewrite set_thread_same in H'; try easy; injection H' as <- _; exact OO|]);
          rewrite set_thread_other in H' by easy; now apply (T t' o' p'). }
      destruct G as [G1 G2]. apply in_app_iff in H. destruct H as [H|H]; [now apply (G2 t0 o0 r0)|].
      apply (IH s3 s4 es4 G1) with (t := t0) (r := r0); [intros t o H'; apply (St t); now right|exact E4|exact H]. }
    assert (T0 : forall t o p, c_threads init t = Some (o, p) -> o_op content o) by (intros t0 o p H; discriminate H).
    exact (G before init s1 es1 T0 Sb E1 t (OSet k v) (RFlag true) HD). }
  destruct (rely_run repr m (o_inv content (eq k)) (o_safe content) (o_may content (eq k))
    (fun t o r => t = reader -> forall default, o = OGet k default -> r = RVal (content k)) (o_kept repr m content _) after s1 s2 es2) as (_ & _ & R).
  - destruct I1 as (N & H1 & H2 & _). split; [exact N|]. split; [exact H1|]. split; [exact H2|]. intros k0 <-. exact K1.
  - intros t0 o p T. eapply ok_weak; [intros a h; exact h| | |exact (A1 t0 o p T)].
    + intros a x. destruct a; cbn; try easy. intros [G|[G _]]; [now left|right; now split].
    + intros r0 _ ->. congruence.
  - intros t0 o H. specialize (Sa t0 o H). destruct o as [k0 d0|k0 v0| | | |]; try easy.
    + destruct (key_eqb_spec k0 k) as [->|N].
      * eapply ok_weak; [intros a h; exact h|intros a x h; exact h| |apply o_get_ok; exact CS]. intros r0 -> _ default0 _. reflexivity.
      * eapply ok_weak; [intros a h; exact h|intros a x h; exact h| |apply o_ok with (o := OGet k0 d0); [exact CS|exact CL|easy]]. intros r0 _ _ default0 [= -> _]. easy.
    + eapply ok_weak; [intros a h; exact h|intros a x h; exact h| |apply o_ok with (o := OSet k0 v0); [exact CS|exact CL|exact Sa]]. intros r0 _ _ default0 [=].
  - exact E2.
  - subst v. exact (R reader _ r HR eq_refl default eq_refl).
Qed.
Print Assumptions C51_one_value_partial.

(** With no bound on what other keys go through: after any interleaving, if nobody
    else is on [k] while a thread stores [v] under it and the store returns [True],
    every read of [k] in any thread returns [v] until a write of [k] starts.
    [_partial]: nobody else is on the key during the store, see [C51_refuted]. *)
Theorem C51_alone_partial : forall repr maxsize disk before s0 es0 t k v during after s1 s2 es1 es2,
  v <> VNone ->
  crun repr maxsize before (idle (mk_shared [] disk)) = Some (s0, es0) -> nobody_on repr s0 k ->
  (forall t o, In (Start t o) during -> key_of o <> Some k /\ ~ may_write repr o k) ->
  crun repr maxsize (Start t (OSet k v) :: during) s0 = Some (s1, es1) -> In (Done t (OSet k v) (RFlag true)) es1 ->
  (forall t o, In (Start t o) after -> ~ may_write repr o k) ->
  crun repr maxsize after s1 = Some (s2, es2) ->
  forall reader default r, In (Done reader (OGet k default) r) es2 -> r = RVal v.
Proof.
  intros repr m disk before s0 es0 t k v during after s1 s2 es1 es2 NV E0 NB DU E1 HD AF E2 reader default r HR.
  assert (G : forall ls s s' es, NoDup (keys (s_l1 (c_shared s))) ->
     (forall t o p, c_threads s t = Some (o, p) -> key_of o <> Some k -> ~ may_write repr o k -> untouched k p) ->
     crun repr m ls s = Some (s', es) -> NoDup (keys (s_l1 (c_shared s'))) /\
     (forall t o p, c_threads s' t = Some (o, p) -> key_of o <> Some k -> ~ may_write repr o k -> untouched k p)).
  { clear. induction ls as [|l ls IH]; intros s s' es N T E; cbn [crun] in E; [injection E as <- <-; easy|].
    destruct (cstep repr m l s) as [[s3 e3]|] eqn:E3; [|easy]. destruct (crun repr m ls s3) as [[s4 es4]|] eqn:E4; [|easy]. injection E as <- <-.
    apply (IH s3 s4 es4); [| |exact E4].
    - destruct l as [t o|t f]; cbn [cstep] in E3; [destruct (c_threads s t); [easy|]; now injection E3 as <- <-|].
      destruct (c_threads s t) as [[o [r|a kk]]|]; try easy.
      pose proof (act_wf repr (m + length (s_l1 (c_shared s))) a f (c_shared s)) as W.
      assert (ND1 : NoDup (keys (s_l1 (fst (act repr m a f (c_shared s)))))).
      { clear - N. destruct (c_shared s) as [l d]. cbn in N. destruct a as [q|q w|q|q| |q|q w|q|]; cbn [act]; try exact N.
        - pose proof (get_nodup q l N). destruct (l1_get q l). exact H.
        - now apply put_nodup.
        - now apply evict_nodup.
        - now apply pop_nodup.
        - constructor.
        - destruct f; exact N.
        - destruct f; exact N.
        - destruct f; exact N. }
      destruct (act repr m a f (c_shared s)) as [sh x]. destruct (kk x); injection E3 as <- <-; exact ND1.
    - destruct l as [t o|t f]; cbn [cstep] in E3.
      + destruct (c_threads s t) eqn:Tt; [easy|]. injection E3 as <- <-. intros t' o' p' H'. cbn [c_threads] in H'.
        destruct (Nat.eq_dec t t') as [<-|Nt]; [rewrite set_thread_same in H'; injection H' as <- <-; exact (untouched_op repr 0 k o)|].
        rewrite set_thread_other in H' by easy. now apply (T t' o' p').
      + destruct (c_threads s t) as [[o [r|a kk]]|] eqn:Tt; try easy. pose proof (T t o _ Tt) as OO. destruct (act repr m a f (c_shared s)) as [sh x].
        destruct (kk x) as [r|a' k'] eqn:KX; injection E3 as <- <-; intros t' o' p' H'; cbn [c_threads] in H'; destruct (Nat.eq_dec t t') as [<-|Nt].
        * rewrite set_thread_same in H'. discriminate H'.
        * rewrite set_thread_other in H' by easy. now apply (T t' o' p').
        * rewrite set_thread_same in H'. injection H' as <- <-. intros Q1 Q2. destruct (OO Q1 Q2) as [_ K]. rewrite <- KX. now apply K.
        * rewrite set_thread_other in H' by easy. now apply (T t' o' p'). }
  destruct (G before (idle (mk_shared [] disk)) s0 es0) as [N0 T0]; [constructor|easy|exact E0|]. clear G.
  cbn [crun cstep] in E1. destruct (c_threads s0 t) eqn:Tt; [easy|].
  destruct (crun repr m during _) as [[s1' es1']|] eqn:E1'; [|easy]. cbn [app] in E1. injection E1 as -> ->.
  assert (ST : settled k v s1).
  { eapply (storing_run repr m k v during t); [|split; [|split]|exact E1'|exact HD].
    - exact DU.
    - intros t' o p Nt H. cbn [c_threads] in H. rewrite set_thread_other in H by congruence. destruct (NB t' o p H) as [Q1 Q2]. split; [exact (T0 t' o p H Q1 Q2)|exact Q1].
    - exact N0.
    - left. cbn [c_threads]. now rewrite set_thread_same. }
  exact (settled_reads repr m k v NV after s1 s2 es2 AF ST E2 reader default r HR).
Qed.
Print Assumptions C51_alone_partial.

(** A reader that misses in memory and reads the disk just before a store can put
    the old value in memory just after it: every later read, in any thread, gets
    the old value although the store has returned. *)
Definition stale_schedule : list label :=
  [Start 1 (OGet (Data 0) VNone); Step 1 FOk; Step 1 FOk;        (* the reader has read the disk *)
   Start 2 (OSet (Data 0) (VObj 2)); Step 2 FOk; Step 2 FOk;     (* the store returns *)
   Step 1 FOk;                                                   (* the reader remembers the old value *)
   Start 3 (OGet (Data 0) VNone); Step 3 FOk].
Theorem C51_refuted : exists repr disk k v w s es before after,
  v <> w /\ crun repr 1024 stale_schedule (idle (mk_shared [] disk)) = Some (s, es) /\
  es = before ++ Done 2 (OSet k w) (RFlag true) :: after /\ In (Done 3 (OGet k VNone) (RVal v)) after /\
  nth_error stale_schedule 7 = Some (Start 3 (OGet k VNone)) /\ s_disk (c_shared s) k = Some w.
Proof.
  exists (fun n => n), (fun k => match k with Data 0 => Some (VObj 1) | _ => None end), (Data 0), (VObj 1), (VObj 2).
  eexists _, _, [], [Done 1 (OGet (Data 0) VNone) (RVal (VObj 1)); Done 3 (OGet (Data 0) VNone) (RVal (VObj 1))].
  split; [discriminate|]. split; [reflexivity|]. split; [reflexivity|]. split; [right; left; reflexivity|]. split; reflexivity.
Qed.
Print Assumptions C51_refuted.

(** The same race brings back a deleted value. *)
Definition revived_schedule : list label :=
  [Start 1 (OGet (Data 0) VNone); Step 1 FOk; Step 1 FOk;
   Start 2 (ODelete (Data 0)); Step 2 FOk; Step 2 FOk; Step 2 FOk;
   Step 1 FOk;
   Start 3 (OGet (Data 0) VNone); Step 3 FOk].
Theorem C51_delete_refuted : exists repr disk k v s es before after,
  crun repr 1024 revived_schedule (idle (mk_shared [] disk)) = Some (s, es) /\
  es = before ++ Done 2 (ODelete k) (RFlag true) :: after /\ In (Done 3 (OGet k VNone) (RVal v)) after /\ v <> VNone /\
  s_disk (c_shared s) k = None.
Proof.
  exists (fun n => n), (fun k => match k with Data 0 => Some (VObj 1) | _ => None end), (Data 0), (VObj 1).
  eexists _, _, [], [Done 1 (OGet (Data 0) VNone) (RVal (VObj 1)); Done 3 (OGet (Data 0) VNone) (RVal (VObj 1))].
  split; [reflexivity|]. split; [reflexivity|]. split; [right; left; reflexivity|]. split; [discriminate|reflexivity].
Qed.
Print Assumptions C51_delete_refuted.

(** Schedules that meet the hypotheses of the two theorems above. *)
Example demo_threads : exists s1 es1 s2 es2,
  crun (fun n => n) 8 [Start 1 (OSet (Data 0) (VObj 1)); Start 2 (OGet (Data 0) VNone); Step 2 FOk; Step 1 FOk; Step 2 FOk; Step 1 FOk]
    (idle (mk_shared [] (fun _ => None))) = Some (s1, es1) /\ In (Done 1 (OSet (Data 0) (VObj 1)) (RFlag true)) es1 /\
  crun (fun n => n) 8 [Start 3 (OGet (Data 0) VNone); Step 3 FOk] s1 = Some (s2, es2) /\
  In (Done 3 (OGet (Data 0) VNone) (RVal (VObj 1))) es2.
Proof. eexists _, _, _, _. split; [reflexivity|]. split; [now left|]. split; [reflexivity|]. now left. Qed.
Example demo_alone : exists s1 es1 s2 es2,
  crun (fun n => n) 8 [Start 1 (OSet (Data 0) (VObj 1)); Start 2 (OGet (Data 1) VNone); Step 2 FOk; Step 1 FOk; Step 2 FOk; Step 1 FOk]
    (idle (mk_shared [] (fun k => match k with Data 0 => Some (VObj 7) | _ => None end))) = Some (s1, es1) /\
  In (Done 1 (OSet (Data 0) (VObj 1)) (RFlag true)) es1 /\ crun (fun n => n) 8 [Start 3 (OGet (Data 0) VNone); Step 3 FOk] s1 = Some (s2, es2) /\
  In (Done 3 (OGet (Data 0) VNone) (RVal (VObj 1))) es2.
Proof. eexists _, _, _, _. split; [reflexivity|]. split; [now left|]. split; [reflexivity|]. now left. Qed.
