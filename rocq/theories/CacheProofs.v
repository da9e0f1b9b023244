(** Proofs about the two-level cache: one operation at a time. *)
From Coq Require Import List Bool Arith Lia.
From Verif Require Import CacheSpec.
Import ListNotations.

Lemma key_eqb_spec a b : reflect (a = b) (key_eqb a b).
Proof.
  destruct a as [x|x], b as [y|y]; cbn; try (constructor; discriminate);
  destruct (Nat.eqb_spec x y); constructor; congruence.
Qed.
Lemma key_eqb_refl k : key_eqb k k = true.
Proof. destruct (key_eqb_spec k k); congruence. Qed.
Lemma set_key_same d k v : set_key d k v k = v.
Proof. unfold set_key. now rewrite key_eqb_refl. Qed.
Lemma set_key_other d k v k' : k <> k' -> set_key d k v k' = d k'.
Proof. intros H. unfold set_key. destruct (key_eqb_spec k k'); congruence. Qed.

(** ** The in-memory level *)
Lemma find_app k l m : l1_find k (l ++ m) = match l1_find k l with Some v => Some v | None => l1_find k m end.
Proof. induction l as [|[k' v] l IH]; cbn; [easy|]. destruct (key_eqb k k'); [easy|exact IH]. Qed.
Lemma find_pop_same k l : l1_find k (l1_pop k l) = None.
Proof.
  unfold l1_pop. induction l as [|[k' v] l IH]; cbn; [easy|]. destruct (key_eqb k k') eqn:E; cbn; [exact IH|]. now rewrite E.
Qed.
Lemma find_pop_other k k' l : k <> k' -> l1_find k' (l1_pop k l) = l1_find k' l.
Proof.
  intros H. unfold l1_pop. induction l as [|[k2 v] l IH]; cbn; [easy|].
  destruct (key_eqb_spec k k2) as [->|N]; cbn.
  - destruct (key_eqb_spec k' k2); [congruence|exact IH].
  - destruct (key_eqb k' k2); [easy|exact IH].
Qed.
Lemma find_pop k k' l v : l1_find k' (l1_pop k l) = Some v -> k' <> k /\ l1_find k' l = Some v.
Proof.
  intros H. destruct (key_eqb_spec k k') as [->|N]; [rewrite find_pop_same in H; discriminate|].
  rewrite find_pop_other in H by easy. split; congruence.
Qed.
Definition keys (l : l1_t) : list key := map fst l.
Lemma pop_keys k l : keys (l1_pop k l) = filter (fun x => negb (key_eqb k x)) (keys l).
Proof. unfold l1_pop, keys. induction l as [|[k' v] l IH]; cbn; [easy|]. destruct (key_eqb k k'); cbn; [easy|]. now rewrite IH. Qed.
Lemma pop_nodup k l : NoDup (keys l) -> NoDup (keys (l1_pop k l)).
Proof. intros H. rewrite pop_keys. now apply NoDup_filter. Qed.
Lemma pop_length k l : length (l1_pop k l) <= length l.
Proof. unfold l1_pop. induction l as [|x l IH]; cbn; [lia|]. destruct (negb _); cbn; lia. Qed.
Lemma pop_app_nodup k v l : NoDup (keys l) -> NoDup (keys (l1_pop k l ++ [(k, v)])).
Proof.
  intros H. unfold keys. rewrite map_app. cbn. apply NoDup_rev in H || idtac.
  assert (P : NoDup (keys (l1_pop k l))).
  { apply pop_nodup. rewrite <- (rev_involutive (keys l)). now apply NoDup_rev. }
  fold (keys (l1_pop k l)). assert (N : ~ In k (keys (l1_pop k l))).
  { rewrite pop_keys. rewrite filter_In. intros [_ G]. now rewrite key_eqb_refl in G. }
  clear H. induction (keys (l1_pop k l)) as [|x r IH]; cbn; [repeat constructor; easy|].
  inversion P; subst. constructor; [|apply IH; [easy|intros G; apply N; now right]].
  rewrite in_app_iff. intros [G|[G|[]]]; [easy|]. apply N. now left.
Qed.
Lemma skipn_nodup {B} n : forall l : list B, NoDup l -> NoDup (skipn n l).
Proof. induction n; intros [|x l] H; cbn; try easy. inversion H; subst. now apply IHn. Qed.
Lemma find_in k l v : l1_find k l = Some v -> In k (keys l).
Proof. induction l as [|[k' w] l IH]; cbn; [easy|]. destruct (key_eqb_spec k k') as [->|]; [now left|]. intros H. right. now apply IH. Qed.
Lemma find_skipn n : forall l k v, NoDup (keys l) -> l1_find k (skipn n l) = Some v -> l1_find k l = Some v.
Proof.
  induction n; intros [|[k' w] l] k v H E; cbn in *; try easy. inversion H; subst.
  destruct (key_eqb_spec k k') as [->|N]; [|now apply IHn].
  exfalso. apply find_in in E. unfold keys in *. rewrite <- skipn_map in E. apply H2.
  rewrite <- (firstn_skipn n). apply in_or_app. now right.
Qed.
Lemma put_find m k v l k' w : NoDup (keys l) -> l1_find k' (l1_put m k v l) = Some w ->
  (k' = k /\ w = v) \/ (k' <> k /\ l1_find k' l = Some w).
Proof.
  intros H E. unfold l1_put in E. apply find_skipn in E; [|now apply pop_app_nodup]. rewrite find_app in E.
  destruct (l1_find k' (l1_pop k l)) as [x|] eqn:F.
  - injection E as ->. right. now apply find_pop.
  - cbn in E. destruct (key_eqb_spec k' k) as [->|]; [|easy]. injection E as ->. now left.
Qed.
Lemma put_nodup m k v l : NoDup (keys l) -> NoDup (keys (l1_put m k v l)).
Proof. intros H. unfold l1_put, keys. rewrite <- skipn_map. apply skipn_nodup. now apply pop_app_nodup. Qed.
Lemma put_length m k v l : length (l1_put m k v l) <= m.
Proof. unfold l1_put. rewrite skipn_length. lia. Qed.
Lemma get_find k l k' : l1_find k' (snd (l1_get k l)) = l1_find k' l.
Proof.
  unfold l1_get. destruct (l1_find k l) as [v|] eqn:E; [|easy]. cbn [snd]. rewrite find_app.
  destruct (key_eqb_spec k k') as [<-|N].
  - rewrite find_pop_same. cbn. now rewrite key_eqb_refl, E.
  - rewrite find_pop_other by easy. destruct (l1_find k' l); [easy|]. cbn. destruct (key_eqb_spec k' k); congruence.
Qed.
Lemma get_nodup k l : NoDup (keys l) -> NoDup (keys (snd (l1_get k l))).
Proof. intros H. unfold l1_get. destruct (l1_find k l); [|easy]. now apply pop_app_nodup. Qed.
Lemma pop_length_in k l : In k (keys l) -> length (l1_pop k l) < length l.
Proof.
  unfold l1_pop. induction l as [|[k' v] l IH]; cbn; [easy|]. intros [->|H].
  - rewrite key_eqb_refl. cbn. pose proof (pop_length k l). unfold l1_pop in H. lia.
  - specialize (IH H). destruct (negb _); cbn; lia.
Qed.
Lemma get_length k l : length (snd (l1_get k l)) <= length l.
Proof.
  unfold l1_get. destruct (l1_find k l) as [v|] eqn:E; [|easy]. cbn [snd]. rewrite app_length. cbn.
  apply find_in in E. pose proof (pop_length_in k l E). lia.
Qed.
Lemma evict_find repr k l k' v : l1_find k' (l1_evict repr k l) = Some v -> k' <> k /\ legacy repr k <> Some k' /\ l1_find k' l = Some v.
Proof.
  unfold l1_evict. destruct (legacy repr k) as [q|]; intros H.
  - apply find_pop in H. destruct H as [N H]. apply find_pop in H. repeat split; try tauto. congruence.
  - apply find_pop in H. repeat split; try tauto. congruence.
Qed.
Lemma evict_nodup repr k l : NoDup (keys l) -> NoDup (keys (l1_evict repr k l)).
Proof. intros H. unfold l1_evict. destruct (legacy repr k); repeat apply pop_nodup; exact H. Qed.
Lemma evict_length repr k l : length (l1_evict repr k l) <= length l.
Proof.
  unfold l1_evict. destruct (legacy repr k) as [q|]; [|apply pop_length].
  pose proof (pop_length q (l1_pop k l)). pose proof (pop_length k l). lia.
Qed.

(** Any action keeps the in-memory level small and without repeated keys. *)
Definition wf (m : nat) (s : shared) : Prop := NoDup (keys (s_l1 s)) /\ length (s_l1 s) <= m.
Lemma act_wf repr m a f s : wf m s -> wf m (fst (act repr m a f s)).
Proof.
  destruct s as [l d]. unfold wf. cbn [s_l1]. intros [N L]. destruct a; cbn [act].
  - pose proof (get_nodup k l N). pose proof (get_length k l). destruct (l1_get k l) as [x l']. cbn in *. split; [easy|lia].
  - cbn. split; [now apply put_nodup|apply put_length].
  - cbn. split; [now apply evict_nodup|]. pose proof (evict_length repr k l). lia.
  - cbn. split; [now apply pop_nodup|]. pose proof (pop_length k l). lia.
  - cbn. split; [constructor|lia].
  - easy.
  - destruct f; easy.
  - destruct f; easy.
  - destruct f; easy.
Qed.
Lemma run_prog_wf repr m p : forall fates s, wf m s -> wf m (fst (run_prog repr m p fates s)).
Proof.
  induction p as [r|a k IH]; intros fates s H; [exact H|]. cbn [run_prog].
  pose proof (act_wf repr m a (match a with DSet _ _ | DDelete _ | DClear => hd FOk fates | _ => FOk end) s H) as W.
  destruct (act repr m a _ s) as [s' x]. apply IH. exact W.
Qed.

(** ** Consistency with the disk *)
Section Seq.
Context (repr : nat -> nat) (repr_inj : forall a b, repr a = repr b -> a = b).
Definition inv (s : shared) : Prop :=
  NoDup (keys (s_l1 s)) /\ (forall k, s_disk s k <> Some VNone) /\
  forall k v, l1_find k (s_l1 s) = Some v -> proper repr k /\ held repr (s_disk s) k = Some v.
Lemma held_not_none d k : (forall k, d k <> Some VNone) -> held repr d k <> Some VNone.
Proof. intros H. unfold held. destruct (d k) as [v|] eqn:E; [rewrite <- E; apply H|]. destruct (legacy repr k); [apply H|discriminate]. Qed.
Lemma legacy_improper k q : legacy repr k = Some q -> proper repr q -> False.
Proof. destruct k as [n|n]; cbn; [easy|]. intros [= <-] H. now apply (H n). Qed.
Lemma legacy_inj k k' q : legacy repr k = Some q -> legacy repr k' = Some q -> k = k'.
Proof. destruct k, k'; cbn; try easy. intros [= <-] [= E]. apply repr_inj in E. now subst. Qed.
(** A write to a proper key changes what no other key holds. *)
Lemma held_set_other d k v k' : proper repr k -> k' <> k -> held repr (set_key d k v) k' = held repr d k'.
Proof.
  intros P N. unfold held. rewrite set_key_other by congruence. destruct (d k'); [easy|].
  destruct (legacy repr k') as [q|] eqn:E; [|easy]. rewrite set_key_other; [easy|]. intros ->. exact (legacy_improper _ _ E P).
Qed.
Lemma held_set_legacy d k q k' : legacy repr k = Some q -> proper repr k' -> k' <> k -> held repr (set_key d q None) k' = held repr d k'.
Proof.
  intros L P N. unfold held. rewrite set_key_other by (intros ->; exact (legacy_improper _ _ L P)). destruct (d k'); [easy|].
  destruct (legacy repr k') as [q'|] eqn:E; [|easy]. rewrite set_key_other; [easy|]. intros ->. apply N. exact (legacy_inj _ _ _ E L).
Qed.
Definition agrees (l : l1_t) (d : disk_t) : Prop :=
  forall k v, l1_find k l = Some v -> proper repr k /\ held repr d k = Some v.
Lemma wrote_disk f k d v : (forall k, d k <> Some VNone) -> v <> Some VNone -> forall k', wrote f k d v k' <> Some VNone.
Proof.
  intros H Hv k'. assert (G : set_key d k v k' <> Some VNone).
  { unfold set_key. destruct (key_eqb k k'); [exact Hv|apply H]. }
  destruct f as [| |h]; cbn; [exact G| |destruct (h k); [exact G|apply H]]. destruct v; [apply H|exact G].
Qed.
Lemma wrote_other f k d v k' : proper repr k -> k' <> k -> held repr (wrote f k d v) k' = held repr d k'.
Proof.
  intros P N. destruct f as [| |h]; cbn; [now apply held_set_other| |destruct (h k); [now apply held_set_other|easy]].
  destruct v; [easy|now apply held_set_other].
Qed.
Lemma wrote_legacy f k q d k' : legacy repr k = Some q -> proper repr k' -> k' <> k -> held repr (wrote f q d None) k' = held repr d k'.
Proof.
  intros L P N. destruct f as [| |h]; cbn; [now apply (held_set_legacy d k)|now apply (held_set_legacy d k)|].
  destruct (h q); [now apply (held_set_legacy d k)|easy].
Qed.
(** Removing [k], with [k] out of memory. *)
Lemma removed_agrees f1 f2 k d l : proper repr k -> (forall k, d k <> Some VNone) -> agrees l d ->
  agrees (l1_evict repr k l) (wrote f1 k d None) /\ (forall k', wrote f1 k d None k' <> Some VNone) /\
  agrees (l1_evict repr k l) (fst (removed repr f1 f2 k d)) /\ (forall k', fst (removed repr f1 f2 k d) k' <> Some VNone).
Proof.
  intros P D A.
  assert (A1 : agrees (l1_evict repr k l) (wrote f1 k d None)).
  { intros k' v E. apply evict_find in E. destruct E as (N & _ & E). destruct (A k' v E) as [P' H]. split; [easy|]. now rewrite wrote_other. }
  assert (D1 : forall k', wrote f1 k d None k' <> Some VNone) by (apply wrote_disk; [easy|discriminate]).
  split; [exact A1|]. split; [exact D1|]. unfold removed. cbv zeta. destruct (raises f1); [split; [exact A1|exact D1]|].
  destruct (legacy repr k) as [q|] eqn:L; [|split; [exact A1|exact D1]]. cbn [fst]. split; [|apply wrote_disk; [easy|discriminate]].
  intros k' v E. destruct (A1 k' v E) as [P' H]. split; [easy|]. apply evict_find in E. destruct E as (N & _ & E).
  rewrite (wrote_legacy f2 k q) by easy. exact H.
Qed.
Lemma evict_pop_legacy k q l : legacy repr k = Some q -> l1_pop q (l1_evict repr k l) = l1_evict repr k l.
Proof.
  intros L. unfold l1_evict. rewrite L. unfold l1_pop. generalize (filter (fun x => negb (key_eqb k (fst x))) l). intros m.
  induction m as [|x m IH]; cbn; [easy|]. destruct (negb (key_eqb q (fst x))) eqn:E; cbn; [rewrite E; now rewrite IH|exact IH].
Qed.
Lemma prog_none_put k v : v <> VNone -> forall default, finish_get k v default false = Do (L1Put k v) (fun _ => Ret (RVal v)).
Proof. intros H default. unfold finish_get. destruct v; [easy| |]; easy. Qed.
(** One operation: same result and same disk as the disk cache alone. *)
Lemma op_step m o fates s : inv s -> ordinary repr o ->
  let '(s', r) := run_prog repr m (prog_of repr o) fates s in
  inv s' /\ s_disk s' = fst (disk_op repr o fates (s_disk s)) /\ r = snd (disk_op repr o fates (s_disk s)).
Proof.
  destruct s as [l d]. unfold inv, ordinary. cbn [s_l1 s_disk]. intros (ND & D & A) (P & NV).
  change (forall k v, l1_find k l = Some v -> proper repr k /\ held repr d k = Some v) with (agrees l d) in A.
  destruct o as [k default|k v|k|k default|k|]; cbn [key_of] in P; try specialize (P k eq_refl).
  - (* get *)
    cbn [prog_of disk_op fst snd]. unfold get_prog. cbn [run_prog act].
    pose proof (get_nodup k l ND) as ND1. pose proof (get_find k l) as GF.
    destruct (l1_get k l) as [x l1] eqn:EG. cbn [snd] in *.
    assert (A1 : agrees l1 d) by (intros k' v E; apply A; now rewrite <- GF).
    assert (PUT : forall v, v <> VNone -> held repr d k = Some v -> NoDup (keys (l1_put m k v l1)) /\ (forall k0, d k0 <> Some VNone) /\ agrees (l1_put m k v l1) d).
    { intros v Nv Hv. split; [now apply put_nodup|]. split; [easy|]. intros k' w E. apply put_find in E; [|exact ND1].
      destruct E as [[-> ->]|[_ E]]; [split; [easy|exact Hv]|now apply A1]. }
    assert (HX : x = l1_find k l) by (unfold l1_get in EG; destruct (l1_find k l); injection EG as <- _; easy).
    destruct x as [v|].
    + cbn [run_prog]. destruct (A k v (eq_sym HX)) as [_ H]. rewrite H. easy.
    + cbn [run_prog act]. unfold held, or_else. destruct (d k) as [v|] eqn:DK.
      * assert (Nv : v <> VNone) by (intros ->; now apply (D k)).
        assert (E : is_default v default = false) by (destruct v; easy). rewrite E, prog_none_put by exact Nv. cbn [run_prog act s_l1 s_disk].
        destruct (PUT v Nv) as (Q1 & Q2 & Q3); [unfold held; now rewrite DK|]. easy.
      * destruct (legacy repr k) as [q|] eqn:L; [|easy]. cbn [run_prog act].
        assert (FN : l1_find q l1 = None).
        { destruct (l1_find q l1) as [w|] eqn:F; [|easy]. destruct (A1 q w F) as [Pq _]. destruct (legacy_improper _ _ L Pq). }
        unfold l1_get at 1. rewrite FN. cbn [run_prog act].
        destruct (d q) as [v|] eqn:DQ; [|easy].
        assert (Nv : v <> VNone) by (intros ->; now apply (D q)).
        assert (E : is_default v default = false) by (destruct v; easy). rewrite E, prog_none_put by exact Nv. cbn [run_prog act s_l1 s_disk].
        destruct (PUT v Nv) as (Q1 & Q2 & Q3); [unfold held; now rewrite DK, L|]. easy.
  - (* set *)
    cbn [prog_of disk_op fst snd]. unfold set_prog. cbn [run_prog act]. set (f := hd FOk fates).
    assert (EV : forall d', (forall k0, d' k0 <> Some VNone) -> (forall k', k' <> k -> held repr d' k' = held repr d k') ->
       NoDup (keys (l1_evict repr k l)) /\ (forall k0, d' k0 <> Some VNone) /\ agrees (l1_evict repr k l) d').
    { intros d' D' H'. split; [now apply evict_nodup|]. split; [easy|]. intros k' w E. apply evict_find in E. destruct E as (N & _ & E).
      destruct (A k' w E) as [P' H]. split; [easy|]. now rewrite H'. }
    assert (NW : Some v <> Some VNone) by congruence.
    pose proof (wrote_disk f k d (Some v) D NW) as DW. pose proof (fun k' => wrote_other f k d (Some v) k' P) as OW.
    destruct f as [| |h]; cbn [run_prog act s_l1 s_disk wrote] in *.
    + split; [|easy]. split; [now apply put_nodup|]. split; [exact DW|]. intros k' w E. apply put_find in E; [|exact ND].
      destruct E as [[-> ->]|[N E]]; [split; [easy|unfold held; now rewrite set_key_same]|]. destruct (A k' w E) as [P' H]. split; [easy|]. now rewrite OW.
    + split; [|easy]. now apply EV.
    + split; [|easy]. now apply EV.
  - (* delete *)
    cbn [prog_of disk_op]. unfold delete_prog. cbn [run_prog act]. set (f1 := hd FOk fates). set (f2 := hd FOk (tl fates)).
    destruct (removed_agrees f1 f2 k d l P D A) as (Q1 & Q2 & Q3 & Q4). pose proof (evict_nodup repr k l ND) as NE.
    unfold removed in *. cbv zeta in *.
    destruct f1 as [| |h]; cbn [run_prog act wrote raises fst snd s_l1 s_disk] in *; try (split; [|easy]; split; [exact NE|split; [exact Q2|exact Q1]]).
    all: destruct (legacy repr k) as [q|] eqn:L; cbn [run_prog act fst snd s_l1 s_disk] in *; [|split; [|easy]; split; [exact NE|split; [exact Q2|exact Q1]]].
    all: fold f2; destruct f2 as [| |h2]; cbn [run_prog act wrote raises fst snd s_l1 s_disk] in *; (split; [|easy]; split; [exact NE|split; [exact Q4|exact Q3]]).
  - (* pop *)
    cbn [prog_of disk_op]. unfold pop_prog. cbn [run_prog act]. set (f1 := hd FOk fates). set (f2 := hd FOk (tl fates)).
    destruct (removed_agrees f1 f2 k d l P D A) as (Q1 & Q2 & Q3 & Q4). pose proof (evict_nodup repr k l ND) as NE.
    unfold removed in *. cbv zeta in *.
    destruct f1 as [| |h]; cbn [run_prog act wrote raises fst snd s_l1 s_disk] in *; try (split; [|easy]; split; [exact NE|split; [exact Q2|exact Q1]]).
    all: destruct (legacy repr k) as [q|] eqn:L; cbn [run_prog act fst snd s_l1 s_disk] in *; [|split; [|easy]; split; [exact NE|split; [exact Q2|exact Q1]]].
    all: rewrite (evict_pop_legacy k q l L).
    all: fold f2; destruct f2 as [| |h2]; cbn [run_prog act wrote raises fst snd s_l1 s_disk] in *; (split; [|easy]; split; [exact NE|split; [exact Q4|exact Q3]]).
  - (* delitem *)
    cbn [prog_of disk_op]. unfold delitem_prog. cbn [run_prog act]. set (f1 := hd FOk fates). set (f2 := hd FOk (tl fates)).
    destruct (removed_agrees f1 f2 k d l P D A) as (Q1 & Q2 & Q3 & Q4). pose proof (evict_nodup repr k l ND) as NE.
    unfold removed in *. cbv zeta in *.
    destruct f1 as [| |h]; cbn [run_prog act wrote raises fst snd s_l1 s_disk] in *; try (split; [|easy]; split; [exact NE|split; [exact Q2|exact Q1]]).
    all: destruct (d k) as [x|] eqn:DK; cbn [run_prog act fst snd s_l1 s_disk] in *; [|split; [|easy]; split; [exact NE|split; [exact Q2|exact Q1]]].
    all: destruct (legacy repr k) as [q|] eqn:L; cbn [run_prog act fst snd s_l1 s_disk] in *; [|split; [|easy]; split; [exact NE|split; [exact Q2|exact Q1]]].
    all: fold f2; destruct f2 as [| |h2]; cbn [run_prog act wrote raises fst snd s_l1 s_disk] in *; (split; [|easy]; split; [exact NE|split; [exact Q4|exact Q3]]).
  - (* clear *)
    cbn [prog_of disk_op fst snd]. unfold clear_prog. cbn [run_prog act].
    destruct (hd FOk fates) as [| |h]; cbn [run_prog act s_l1 s_disk raises]; (split; [|easy]); (split; [constructor|]); (split; [|easy]).
    + discriminate.
    + discriminate.
    + intros k. destruct (h k); [discriminate|apply D].
Qed.
Lemma history_same m h : forall s, inv s -> Forall (fun x => ordinary repr (fst x)) h ->
  inv (fst (run_history repr m h s)) /\
  s_disk (fst (run_history repr m h s)) = fst (disk_history repr h (s_disk s)) /\
  snd (run_history repr m h s) = snd (disk_history repr h (s_disk s)).
Proof.
  induction h as [|[o fates] h IH]; intros s I F; [easy|]. inversion F as [|x y F1 F2]; subst. cbn [fst] in F1.
  pose proof (op_step m o fates s I F1) as G. cbn [run_history disk_history].
  destruct (run_prog repr m (prog_of repr o) fates s) as [s1 r1]. destruct G as (I1 & E1 & R1).
  destruct (disk_op repr o fates (s_disk s)) as [d1 r1']. cbn [fst snd] in E1, R1. subst r1'.
  destruct (IH s1 I1 F2) as (I2 & E2 & R2). destruct (run_history repr m h s1) as [s2 rs]. rewrite E1 in E2, R2.
  destruct (disk_history repr h d1) as [d2 rs']. cbn [fst snd] in *. subst. easy.
Qed.
End Seq.
Lemma history_wf repr m h : forall s, wf m s -> wf m (fst (run_history repr m h s)).
Proof.
  induction h as [|[o fates] h IH]; intros s W; [exact W|]. cbn [run_history].
  pose proof (run_prog_wf repr m (prog_of repr o) fates s W). destruct (run_prog repr m (prog_of repr o) fates s) as [s1 r].
  specialize (IH s1 H). destruct (run_history repr m h s1). exact IH.
Qed.
