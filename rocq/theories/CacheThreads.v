(** Proofs about the two-level cache: interleaved operations. *)
From Coq Require Import List Bool Arith Lia.
From Verif Require Import CacheSpec CacheProofs.
Import ListNotations.

(** Every action of the program is [safe] and, if the answers are among those
    that [may] come, its result satisfies [R]. *)
Fixpoint ok (safe : action -> Prop) (may : action -> answer -> Prop) (R : res -> Prop) (p : prog) : Prop :=
  match p with
  | Ret r => R r
  | Do a k => safe a /\ forall x, may a x -> ok safe may R (k x)
  end.
Lemma ok_weak (safe safe' : action -> Prop) (may may' : action -> answer -> Prop) (R R' : res -> Prop) p :
  (forall a, safe a -> safe' a) -> (forall a x, may' a x -> may a x) -> (forall r, R r -> R' r) ->
  ok safe may R p -> ok safe' may' R' p.
Proof.
  intros H1 H2 H3. induction p as [r|a k IH]; cbn; [apply H3|]. intros [S K]. split; [now apply H1|].
  intros x M. apply IH, K, H2, M.
Qed.

Section Threads.
Context (repr : nat -> nat) (m : nat).

Lemma crun_app ls1 : forall ls2 s s2 es,
  crun repr m (ls1 ++ ls2) s = Some (s2, es) <->
  exists s1 es1 es2, crun repr m ls1 s = Some (s1, es1) /\ crun repr m ls2 s1 = Some (s2, es2) /\ es = es1 ++ es2.
Proof.
  induction ls1 as [|l ls1 IH]; intros ls2 s s2 es; cbn [app crun].
  - split; [intros H; now exists s, [], es|]. intros (s1 & es1 & es2 & [= <- <-] & H & ->). exact H.
  - destruct (cstep repr m l s) as [[s' e]|]; [|split; [easy|now intros (? & ? & ? & ? & _)]].
    destruct (crun repr m (ls1 ++ ls2) s') as [[s3 es3]|] eqn:E.
    + split.
      * intros [= <- <-]. apply IH in E. destruct E as (s1 & es1 & es2 & H1 & H2 & ->). rewrite H1. exists s1, (e ++ es1), es2.
        now rewrite app_assoc.
      * intros (s1 & es1 & es2 & H1 & H2 & ->). destruct (crun repr m ls1 s') as [[s4 es4]|] eqn:E1; [|easy].
        injection H1 as <- <-. assert (G : crun repr m (ls1 ++ ls2) s' = Some (s2, es4 ++ es2)) by (apply IH; now exists s4, es4, es2).
        rewrite E in G. injection G as -> ->. now rewrite app_assoc.
    + split; [easy|]. intros (s1 & es1 & es2 & H1 & H2 & ->). destruct (crun repr m ls1 s') as [[s4 es4]|] eqn:E1; [|easy].
      injection H1 as <- <-. assert (G : crun repr m (ls1 ++ ls2) s' = Some (s2, es4 ++ es2)) by (apply IH; now exists s4, es4, es2). congruence.
Qed.
Lemma set_thread_same th t x : set_thread th t x t = x.
Proof. unfold set_thread. now rewrite Nat.eqb_refl. Qed.
Lemma set_thread_other th t x t' : t <> t' -> set_thread th t x t' = th t'.
Proof. unfold set_thread. intros H. destruct (Nat.eqb_spec t t'); congruence. Qed.

(** Rely and guarantee: an invariant kept by safe actions, under which answers are
    among those that may come. *)
Section Rely.
Context (Inv : shared -> Prop) (safe : action -> Prop) (may : action -> answer -> Prop) (R : nat -> op -> res -> Prop).
Context (kept : forall a f s, Inv s -> safe a -> Inv (fst (act repr m a f s)) /\ may a (snd (act repr m a f s))).
Definition all_ok (s : cstate) : Prop := forall t o p, c_threads s t = Some (o, p) -> ok safe may (R t o) p.
Lemma rely_run ls : forall s s' es,
  Inv (c_shared s) -> all_ok s -> (forall t o, In (Start t o) ls -> ok safe may (R t o) (prog_of repr o)) ->
  crun repr m ls s = Some (s', es) ->
  Inv (c_shared s') /\ all_ok s' /\ forall t o r, In (Done t o r) es -> R t o r.
Proof.
  induction ls as [|l ls IH]; intros s s' es I A S E; cbn [crun] in E; [now injection E as <- <-|].
  destruct (cstep repr m l s) as [[s1 e1]|] eqn:E1; [|easy]. destruct (crun repr m ls s1) as [[s2 es2]|] eqn:E2; [|easy].
  injection E as <- <-.
  assert (G : Inv (c_shared s1) /\ all_ok s1 /\ forall t o r, In (Done t o r) e1 -> R t o r).
  { destruct l as [t o|t f]; cbn [cstep] in E1.
    - destruct (c_threads s t) eqn:T; [easy|]. injection E1 as <- <-. split; [exact I|]. split; [|easy].
      intros t' o' p' H. cbn [c_threads] in H. destruct (Nat.eq_dec t t') as [<-|N].
      + rewrite set_thread_same in H. injection H as <- <-. apply S. now left.
      + rewrite set_thread_other in H by easy. now apply A.
    - destruct (c_threads s t) as [[o [r|a k]]|] eqn:T; try easy.
      destruct (A t o _ T) as [Sa K]. destruct (kept a f (c_shared s) I Sa) as [I1 M].
      destruct (act repr m a f (c_shared s)) as [sh x]. cbn [fst snd] in *. specialize (K x M).
      assert (OT : forall t' o' p' y, t <> t' -> set_thread (c_threads s) t y t' = Some (o', p') -> ok safe may (R t' o') p').
      { intros t' o' p' y N H. rewrite set_thread_other in H by easy. now apply A. }
      destruct (k x) as [r|a' k'] eqn:KX; injection E1 as <- <-.
      + split; [exact I1|]. split; [|intros t' o' r' [[= <- <- <-]|[]]; exact K].
        intros t' o' p' H. cbn [c_threads] in H. destruct (Nat.eq_dec t t') as [<-|N]; [rewrite set_thread_same in H; easy|]. exact (OT t' o' p' _ N H).
      + split; [exact I1|]. split; [|easy].
        intros t' o' p' H. cbn [c_threads] in H. destruct (Nat.eq_dec t t') as [<-|N].
        * rewrite set_thread_same in H. injection H as <- <-. exact K.
        * exact (OT t' o' p' _ N H). }
  destruct G as (I1 & A1 & D1). destruct (IH s1 s2 es2 I1 A1) as (I2 & A2 & D2); [intros t o H; apply S; now right|exact E2|].
  split; [exact I2|]. split; [exact A2|]. intros t o r H. apply in_app_iff in H. destruct H; [now apply D1|now apply D2].
Qed.
End Rely.

(** ** Each key only ever has one value *)
Section Once.
Context (content : key -> val) (content_some : forall k, content k <> VNone)
        (content_legacy : forall k q, legacy repr k = Some q -> content q = content k).
Definition o_inv (known : key -> Prop) (s : shared) : Prop :=
  NoDup (keys (s_l1 s)) /\ (forall k v, l1_find k (s_l1 s) = Some v -> v = content k) /\
  (forall k v, s_disk s k = Some v -> v = content k) /\ (forall k, known k -> s_disk s k <> None).
Definition o_safe (a : action) : Prop :=
  match a with L1Put k v | DSet k v => v = content k | DDelete _ | DClear => False | _ => True end.
Definition o_may (known : key -> Prop) (a : action) (x : answer) : Prop :=
  match a with
  | L1Get k => x = AVal None \/ x = AVal (Some (content k))
  | DGet k => x = AVal (Some (content k)) \/ (x = AVal None /\ ~ known k)
  | _ => True
  end.
Lemma o_kept known a f s : o_inv known s -> o_safe a ->
  o_inv known (fst (act repr m a f s)) /\ o_may known a (snd (act repr m a f s)).
Proof.
  destruct s as [l d]. intros (N & H1 & H2 & H3). cbn [s_l1 s_disk] in *.
  assert (SK : forall k v, v = content k -> (forall k0 v0, set_key d k (Some v) k0 = Some v0 -> v0 = content k0) /\
      (forall k0, known k0 -> set_key d k (Some v) k0 <> None)).
  { intros k v ->. split.
    - intros k0 v0 E. unfold set_key in E. destruct (key_eqb_spec k k0) as [->|]; [congruence|now apply H2].
    - intros k0 K. unfold set_key. destruct (key_eqb k k0); [easy|now apply H3]. }
  destruct a; cbn [act o_safe o_may]; try easy.
  - intros _. pose proof (get_nodup k l N) as N1. pose proof (get_find k l) as G.
    unfold l1_get in *. destruct (l1_find k l) as [v|] eqn:E; cbn [fst snd] in *.
    + split; [split; [exact N1|]; split; [|easy]; intros k' v' F; cbn [s_l1] in F; rewrite G in F; now apply H1|].
      right. now rewrite (H1 _ _ E).
    + split; [easy|now left].
  - intros ->. split; [|easy]. split; [now apply put_nodup|]. split; [|easy]. intros k' v' F. cbn in F. apply put_find in F; [|exact N].
    destruct F as [[-> ->]|[_ F]]; [easy|now apply H1].
  - intros _. split; [|easy]. split; [now apply evict_nodup|]. split; [|easy]. intros k' v' F. cbn in F. apply evict_find in F. now apply H1.
  - intros _. split; [|easy]. split; [now apply pop_nodup|]. split; [|easy]. intros k' v' F. cbn in F. apply find_pop in F. now apply H1.
  - intros _. split; [|easy]. split; [constructor|]. easy.
  - intros _. split; [easy|]. destruct (d k) as [v|] eqn:E; [left; now rewrite (H2 _ _ E)|right]. split; [easy|]. intros K. now apply (H3 k K).
  - intros Hv. destruct (SK k v Hv) as [S1 S2]. destruct f as [| |h]; cbn [fst snd]; (split; [|easy]); [easy|easy|destruct (h k); easy].
Qed.
(** What a client may do: read anything, and store a key's value. *)
Definition o_op (o : op) : Prop := match o with OGet _ _ => True | OSet k v => v = content k | _ => False end.
Lemma finish_ok known k default b (R : res -> Prop) : R (RVal default) -> R (RVal (content k)) ->
  ok o_safe (o_may known) R (finish_get k (content k) default b).
Proof.
  intros H1 H2. unfold finish_get. destruct b; [exact H1|]. pose proof (content_some k). destruct (content k) eqn:E; [easy| |]; cbn; (split; [easy|]); intros; exact H2.
Qed.
Lemma content_not_default k default : is_default (content k) default = false.
Proof. pose proof (content_some k). destruct (content k); easy. Qed.
Lemma o_ok known o : o_op o -> ok o_safe (o_may known) (fun _ => True) (prog_of repr o).
Proof.
  destruct o as [k default|k v| | | |]; cbn [o_op]; try easy.
  - intros _. cbn [prog_of]. unfold get_prog. cbn [ok o_safe]. split; [easy|]. intros x [->| ->]; [|easy].
    cbn [ok o_safe]. split; [easy|]. intros x [->|[-> _]].
    + rewrite content_not_default. now apply finish_ok.
    + destruct (legacy repr k) as [q|] eqn:L; [|easy]. cbn [ok o_safe]. split; [easy|]. intros x [->| ->].
      * cbn [ok o_safe]. split; [easy|]. intros x [->|[-> _]]; [|easy]. rewrite (content_legacy _ _ L). now apply finish_ok.
      * cbn [ok o_safe]. split; [now apply content_legacy|easy].
  - intros ->. cbn [prog_of]. unfold set_prog. cbn [ok o_safe]. split; [easy|]. intros x _. destruct x as [|[|]|]; cbn; try easy; (split; [easy|]); easy.
Qed.
Lemma o_get_ok k default : ok o_safe (o_may (eq k)) (fun r => r = RVal (content k)) (get_prog repr k default).
Proof.
  unfold get_prog. cbn [ok o_safe]. split; [easy|]. intros x [->| ->]; [|easy].
  cbn [ok o_safe]. split; [easy|]. intros x [->|[_ N]]; [|now destruct N].
  rewrite content_not_default. rewrite prog_none_put by apply content_some. cbn. easy.
Qed.
(** A set in progress: once its disk write is done the entry is there. *)
Definition set_at (s : shared) (k : key) (v : val) (p : prog) : Prop :=
  p = set_prog k v \/ (s_disk s k <> None /\ p = Do (L1Put k v) (fun _ => Ret (RFlag true))) \/
  exists r, p = Do (L1Evict k) (fun _ => Ret r) /\ r <> RFlag true.
Lemma disk_grows a f s k : o_safe a -> s_disk s k <> None -> s_disk (fst (act repr m a f s)) k <> None.
Proof.
  destruct s as [l d]. destruct a; cbn [act o_safe]; try easy.
  - destruct (l1_get k0 l). easy.
  - intros _ H. assert (G : set_key d k0 (Some v) k <> None) by (unfold set_key; destruct (key_eqb k0 k); easy).
    destruct f as [| |h]; cbn; [easy|easy|destruct (h k0); easy].
Qed.
Definition sets_ok (s : cstate) : Prop := forall t k v p, c_threads s t = Some (OSet k v, p) -> set_at (c_shared s) k v p.
Lemma set_at_mono (s s' : shared) k v p : (s_disk s k <> None -> s_disk s' k <> None) -> set_at s k v p -> set_at s' k v p.
Proof. intros H [G|[[G1 G2]|G]]; [now left|right; left; split; auto|now right; right]. Qed.
Lemma once_run ls : forall s s' es,
  all_ok o_safe (o_may (fun _ => False)) (fun _ _ _ => True) s -> sets_ok s -> o_inv (fun _ => False) (c_shared s) ->
  (forall t o, In (Start t o) ls -> o_op o) -> crun repr m ls s = Some (s', es) ->
  (forall k, s_disk (c_shared s) k <> None -> s_disk (c_shared s') k <> None) /\
  sets_ok s' /\ forall t k v, In (Done t (OSet k v) (RFlag true)) es -> s_disk (c_shared s') k <> None.
Proof.
  induction ls as [|l ls IH]; intros s s' es A SO I S E; cbn [crun] in E; [injection E as <- <-; easy|].
  destruct (cstep repr m l s) as [[s1 e1]|] eqn:E1; [|easy]. destruct (crun repr m ls s1) as [[s2 es2]|] eqn:E2; [|easy].
  injection E as <- <-.
  assert (R1 : crun repr m [l] s = Some (s1, e1)) by (cbn; rewrite E1; now rewrite app_nil_r).
  destruct (rely_run (o_inv (fun _ => False)) o_safe (o_may (fun _ => False)) (fun _ _ _ => True) (o_kept _) [l] s s1 e1 I A) as (I1 & A1 & _);
    [intros t o H; apply o_ok; apply (S t); destruct H as [H|[]]; now left|exact R1|].
  assert (G : (forall k, s_disk (c_shared s) k <> None -> s_disk (c_shared s1) k <> None) /\ sets_ok s1 /\
     forall t k v, In (Done t (OSet k v) (RFlag true)) e1 -> s_disk (c_shared s1) k <> None).
  { destruct l as [t o|t f]; cbn [cstep] in E1.
    - destruct (c_threads s t) eqn:T; [easy|]. injection E1 as <- <-. split; [easy|]. split; [|easy].
      intros t' k' v' p' H. cbn [c_threads c_shared] in *. destruct (Nat.eq_dec t t') as [<-|N].
      + rewrite set_thread_same in H. injection H as -> <-. now left.
      + rewrite set_thread_other in H by easy. now apply (SO t').
    - destruct (c_threads s t) as [[o [r|a k]]|] eqn:T; try easy. destruct (A t o _ T) as [Sa _].
      pose proof (fun k' => disk_grows a f (c_shared s) k' Sa) as MG.
      assert (SX : forall k' v', o = OSet k' v' ->
         match k (snd (act repr m a f (c_shared s))) with
         | Ret r => r = RFlag true -> s_disk (fst (act repr m a f (c_shared s))) k' <> None
         | p => set_at (fst (act repr m a f (c_shared s))) k' v' p
         end).
      { intros k' v' ->. destruct (SO t k' v' _ T) as [EP|[[D EP]|(r & EP & NR)]].
        - unfold set_prog in EP. injection EP as -> ->. destruct (c_shared s) as [l d]. destruct f as [| |h]; cbn.
          + right; left. split; [|easy]. cbn. now rewrite set_key_same.
          + right; right. now eexists.
          + right; right. now eexists.
        - injection EP as -> ->. cbn. intros _. destruct (c_shared s) as [l d]. exact D.
        - injection EP as -> ->. cbn. intros ->. now destruct NR. }
      destruct (act repr m a f (c_shared s)) as [sh x]. cbn [fst snd] in *.
      assert (OT : forall y t' k' v' p', t <> t' -> set_thread (c_threads s) t y t' = Some (OSet k' v', p') -> set_at sh k' v' p').
      { intros y t' k' v' p' N H. rewrite set_thread_other in H by easy. apply (set_at_mono (c_shared s)); [apply MG|now apply (SO t')]. }
      destruct (k x) as [r|a' k'] eqn:KX; injection E1 as <- <-; cbn [c_shared c_threads].
      + split; [exact MG|]. split; [|intros t' k' v' [[= <- -> ->]|[]]; exact (SX _ _ eq_refl eq_refl)].
        intros t' k' v' p' H. cbn [c_threads c_shared] in *. destruct (Nat.eq_dec t t') as [<-|N]; [rewrite set_thread_same in H; easy|]. exact (OT _ t' _ _ _ N H).
      + split; [exact MG|]. split; [|easy]. intros t' k2 v' p' H. cbn [c_threads c_shared] in *.
        destruct (Nat.eq_dec t t') as [<-|N]; [rewrite set_thread_same in H; injection H as -> <-; exact (SX _ _ eq_refl)|exact (OT _ t' _ _ _ N H)]. }
  destruct G as (G1 & G2 & G3). destruct (IH s1 s2 es2 A1 G2 I1) as (M2 & SO2 & D2); [intros t o H; apply (S t); now right|exact E2|].
  split; [intros k H; now apply M2, G1|]. split; [exact SO2|]. intros t k v H. apply in_app_iff in H.
  destruct H as [H|H]; [apply M2; now apply (G3 t k v)|now apply (D2 t k v)].
Qed.
End Once.

(** ** Nobody else on the key *)
Section Alone.
Context (k : key) (v : val) (v_some : v <> VNone).
(** Actions that write nothing to [k], on disk or in memory. *)
Definition quiet (a : action) : Prop :=
  match a with L1Put k' _ | DSet k' _ | DDelete k' => k' <> k | DClear => False | _ => True end.
Definition x_safe (a : action) : Prop :=
  match a with L1Put k' w => k' = k -> w = v | DSet k' _ | DDelete k' => k' <> k | DClear => False | _ => True end.
Definition x_inv (s : shared) : Prop :=
  NoDup (keys (s_l1 s)) /\ s_disk s k = Some v /\ forall w, l1_find k (s_l1 s) = Some w -> w = v.
Definition x_may (a : action) (x : answer) : Prop :=
  match a with
  | L1Get k' => k' = k -> x = AVal None \/ x = AVal (Some v)
  | DGet k' => k' = k -> x = AVal (Some v)
  | _ => True
  end.
Lemma quiet_disk a f s : quiet a -> s_disk (fst (act repr m a f s)) k = s_disk s k.
Proof.
  destruct s as [l d]. destruct a; cbn [act quiet]; try easy.
  - intros _. destruct (l1_get k0 l). easy.
  - intros H. destruct f as [| |h]; cbn; [now apply set_key_other|easy|]. destruct (h k0); [now apply set_key_other|easy].
  - intros H. destruct f as [| |h]; cbn; [now apply set_key_other|now apply set_key_other|]. destruct (h k0); [now apply set_key_other|easy].
Qed.
Lemma x_kept a f s : x_inv s -> x_safe a -> x_inv (fst (act repr m a f s)) /\ x_may a (snd (act repr m a f s)).
Proof.
  destruct s as [l d]. intros (N & D & H). cbn [s_l1 s_disk] in *.
  destruct a; cbn [act x_safe x_may]; try easy.
  - intros _. pose proof (get_nodup k0 l N) as N1. pose proof (get_find k0 l) as G.
    unfold l1_get in *. destruct (l1_find k0 l) as [w|] eqn:E; cbn [fst snd] in *.
    + split; [split; [exact N1|]; split; [exact D|]; intros w' F; cbn [s_l1] in F; rewrite G in F; now apply H|].
      intros ->. right. now rewrite (H _ E).
    + split; [easy|now left].
  - intros Hw. split; [|easy]. split; [now apply put_nodup|]. split; [exact D|]. intros w' F. cbn in F. apply put_find in F; [|exact N].
    destruct F as [[E ->]|[_ F]]; [now apply Hw|now apply H].
  - intros _. split; [|easy]. split; [now apply evict_nodup|]. split; [exact D|]. intros w' F. cbn in F. apply evict_find in F. now apply H.
  - intros _. split; [|easy]. split; [now apply pop_nodup|]. split; [exact D|]. intros w' F. cbn in F. apply find_pop in F. now apply H.
  - intros _. split; [|easy]. split; [constructor|]. split; [exact D|]. easy.
  - intros _. split; [easy|]. now intros ->; rewrite D.
  - intros Hk. split; [|easy]. pose proof (quiet_disk (DSet k0 v0) f (mk_shared l d) Hk) as Q. cbn in Q.
    destruct f as [| |h]; cbn in *; (split; [exact N|]); (split; [exact (eq_trans Q D)|exact H]).
  - intros Hk. pose proof (quiet_disk (DDelete k0) f (mk_shared l d) Hk) as Q. cbn in Q.
    destruct f as [| |h]; cbn in *; (split; [|easy]); (split; [exact N|]); (split; [exact (eq_trans Q D)|exact H]).
Qed.
Definition untouched (p : prog) : Prop := ok quiet (fun _ _ => True) (fun _ => True) p.
Lemma untouched_op o : key_of o <> Some k -> ~ may_write repr o k -> untouched (prog_of repr o).
Proof.
  unfold untouched. destruct o as [k' d|k' w|k'|k' d|k'|]; cbn [key_of may_write prog_of]; intros H1 H2.
  - assert (N : k' <> k) by congruence.
    assert (F : forall w b, ok quiet (fun _ _ => True) (fun _ => True) (finish_get k' w d b)).
    { intros w b. unfold finish_get. destruct b; [easy|]. destruct w; easy. }
    unfold get_prog. cbn [ok quiet]. split; [easy|]. intros x _. destruct x as [[w|]| |]; try easy;
    cbn [ok quiet]; (split; [easy|]); intros x _; destruct x as [y| |]; try easy;
    (destruct (match y with None => true | Some v0 => is_default v0 d end);
     [destruct (legacy repr k') as [q|]; [|easy]; cbn [ok quiet]; (split; [easy|]); intros x _; destruct x as [[z|]| |]; cbn [ok quiet]; (split; [easy|]);
       intros x _; try easy; destruct x as [[u|]| |]; try easy; apply F
     |destruct y; [apply F|easy]]).
  - unfold set_prog. cbn [ok quiet]. split; [congruence|]. intros x _. destruct x as [|[|]|]; cbn; try easy; (split; [congruence|easy]).
  - unfold delete_prog. cbn [ok quiet]. split; [easy|]. intros _ _. split; [tauto|]. intros x _. destruct x; try easy.
    destruct (legacy repr k') as [q|] eqn:L; [|easy]. cbn [ok quiet]. split; [intros ->; tauto|]. intros x _. now destruct x.
  - unfold pop_prog. cbn [ok quiet]. split; [easy|]. intros _ _. split; [tauto|]. intros x _. destruct x; try easy.
    destruct (legacy repr k') as [q|] eqn:L; [|easy]. cbn [ok quiet]. split; [easy|]. intros _ _. split; [intros ->; tauto|]. intros x _. now destruct x.
  - unfold delitem_prog. cbn [ok quiet]. split; [easy|]. intros _ _. split; [tauto|]. intros x _. destruct x as [[|]| |]; try easy.
    destruct (legacy repr k') as [q|] eqn:L; [|easy]. cbn [ok quiet]. split; [intros ->; tauto|]. intros x _. now destruct x.
  - tauto.
Qed.
Lemma untouched_ok (R : res -> Prop) p : (forall r, R r) -> untouched p -> ok x_safe x_may R p.
Proof. intros H. apply ok_weak; [|easy|auto]. intros a. destruct a; cbn; try easy. Qed.
Lemma x_get_ok default : ok x_safe x_may (fun r => r = RVal v) (get_prog repr k default).
Proof.
  unfold get_prog. cbn [ok x_safe x_may]. split; [easy|]. intros x Hx. destruct (Hx eq_refl) as [->| ->]; [|easy].
  cbn [ok x_safe x_may]. split; [easy|]. intros y Hy. rewrite (Hy eq_refl).
  assert (E : is_default v default = false) by (destruct v; easy). rewrite E, prog_none_put by exact v_some. cbn. easy.
Qed.
(** The state while thread [t] stores [v] under [k] and nobody else is on [k]. *)
Definition others (s : cstate) (t : nat) : Prop := forall t' o p, t' <> t -> c_threads s t' = Some (o, p) -> untouched p /\ key_of o <> Some k.
Definition storing (s : cstate) (t : nat) : Prop :=
  others s t /\ NoDup (keys (s_l1 (c_shared s))) /\
  (c_threads s t = Some (OSet k v, set_prog k v) \/
   (s_disk (c_shared s) k = Some v /\ c_threads s t = Some (OSet k v, Do (L1Put k v) (fun _ => Ret (RFlag true)))) \/
   exists r, r <> RFlag true /\ c_threads s t = Some (OSet k v, Do (L1Evict k) (fun _ => Ret r))).
Definition settled (s : cstate) : Prop :=
  x_inv (c_shared s) /\ forall t o p, c_threads s t = Some (o, p) -> untouched p /\ key_of o <> Some k.
Definition gone (s : cstate) : Prop :=
  forall t o p, c_threads s t = Some (o, p) -> untouched p /\ key_of o <> Some k.
Definition off_k (ls : list label) : Prop := forall t o, In (Start t o) ls -> key_of o <> Some k /\ ~ may_write repr o k.
Lemma step_gone l s s1 e1 : off_k [l] -> gone s -> cstep repr m l s = Some (s1, e1) ->
  gone s1 /\ (forall t w r, ~ In (Done t (OSet k w) r) e1) /\ (x_inv (c_shared s) -> x_inv (c_shared s1)).
Proof.
  intros O G E. destruct l as [t o|t f]; cbn [cstep] in E.
  - destruct (c_threads s t) eqn:T; [easy|]. injection E as <- <-. destruct (O t o (or_introl eq_refl)) as [O1 O2]. split; [|easy].
    intros t' o' p' H. cbn [c_threads] in H. destruct (Nat.eq_dec t t') as [<-|N].
    + rewrite set_thread_same in H. injection H as <- <-. split; [now apply untouched_op|exact O1].
    + rewrite set_thread_other in H by easy. now apply (G t').
  - destruct (c_threads s t) as [[o [r|a kk]]|] eqn:T; try easy. destruct (G t o _ T) as [[Q K] NK].
    pose proof (x_kept a f (c_shared s)) as X. destruct (act repr m a f (c_shared s)) as [sh x]. cbn [fst snd] in X. specialize (K x I).
    assert (XS : x_safe a) by (destruct a; cbn in *; easy).
    assert (OT : forall y t' o' p', t <> t' -> set_thread (c_threads s) t y t' = Some (o', p') -> untouched p' /\ key_of o' <> Some k).
    { intros y t' o' p' N H. rewrite set_thread_other in H by easy. now apply (G t'). }
    destruct (kk x) as [r|a' k'] eqn:KX; injection E as <- <-; cbn [c_shared].
    + split; [|split; [|intros I0; now apply X]].
      * intros t' o' p' H. cbn [c_threads] in H. destruct (Nat.eq_dec t t') as [<-|N]; [rewrite set_thread_same in H; easy|]. exact (OT _ t' _ _ N H).
      * intros t' w r' [[= <- -> <-]|[]]. now apply NK.
    + split; [|split; [|intros I0; now apply X]]; [|easy].
      intros t' o' p' H. cbn [c_threads] in H. destruct (Nat.eq_dec t t') as [<-|N]; [rewrite set_thread_same in H; injection H as <- <-; now split|]. exact (OT _ t' _ _ N H).
Qed.
Lemma gone_run ls : forall s s' es, off_k ls -> gone s -> crun repr m ls s = Some (s', es) ->
  gone s' /\ (forall t w r, ~ In (Done t (OSet k w) r) es) /\ (x_inv (c_shared s) -> x_inv (c_shared s')).
Proof.
  induction ls as [|l ls IH]; intros s s' es O G E; cbn [crun] in E; [now injection E as <- <-|].
  destruct (cstep repr m l s) as [[s1 e1]|] eqn:E1; [|easy]. destruct (crun repr m ls s1) as [[s2 es2]|] eqn:E2; [|easy].
  injection E as <- <-. destruct (step_gone l s s1 e1) as (G1 & D1 & X1); [intros t o [H|[]]; apply (O t); now left|exact G|exact E1|].
  destruct (IH s1 s2 es2) as (G2 & D2 & X2); [intros t o H; apply (O t); now right|exact G1|exact E2|].
  split; [exact G2|]. split; [|intros H; now apply X2, X1]. intros t w r H. apply in_app_iff in H. destruct H; [now apply (D1 t w r)|now apply (D2 t w r)].
Qed.
Lemma storing_run ls : forall t s s' es, off_k ls -> storing s t -> crun repr m ls s = Some (s', es) ->
  In (Done t (OSet k v) (RFlag true)) es -> settled s'.
Proof.
  induction ls as [|l ls IH]; intros t s s' es O S E H; cbn [crun] in E; [now injection E as <- <-|].
  destruct (cstep repr m l s) as [[s1 e1]|] eqn:E1; [|easy]. destruct (crun repr m ls s1) as [[s2 es2]|] eqn:E2; [|easy].
  injection E as <- <-.
  assert (O1 : off_k ls) by (intros t0 o0 H0; apply (O t0); now right).
  assert (C : (storing s1 t /\ e1 = []) \/ (storing s1 t /\ exists t' o' r', t' <> t /\ e1 = [Done t' o' r']) \/
     (gone s1 /\ x_inv (c_shared s1) /\ e1 = [Done t (OSet k v) (RFlag true)]) \/
     (gone s1 /\ exists r, r <> RFlag true /\ e1 = [Done t (OSet k v) r])).
  { destruct S as (OT & ND & S). destruct l as [t0 o0|t0 f]; cbn [cstep] in E1.
    - destruct (c_threads s t0) eqn:T; [easy|]. injection E1 as <- <-. destruct (O t0 o0 (or_introl eq_refl)) as [Q1 Q2].
      assert (NT : t0 <> t) by (intros ->; destruct S as [S|[[_ S]|(r & _ & S)]]; congruence).
      left. split; [|easy]. split; [|split; [exact ND|]]; cbn [c_threads c_shared].
      + intros t' o' p' N G. cbn [c_threads] in G. destruct (Nat.eq_dec t0 t') as [<-|N0].
        * rewrite set_thread_same in G. injection G as <- <-. split; [now apply untouched_op|exact Q1].
        * rewrite set_thread_other in G by easy. now apply (OT t').
      + rewrite !set_thread_other by easy. exact S.
    - destruct (Nat.eq_dec t0 t) as [->|NT].
      + destruct S as [S|[[D S]|(r & NR & S)]]; rewrite S in E1.
        * unfold set_prog in E1. destruct (c_shared s) as [l d] eqn:SH. cbn [s_l1] in ND.
          assert (OS : forall sh x, others (mk_cstate sh (set_thread (c_threads s) t x)) t).
          { intros sh x t' o' p' N G. cbn [c_threads] in G. rewrite set_thread_other in G by congruence. now apply (OT t'). }
          destruct f as [| |h]; cbn in E1; injection E1 as <- <-; left; (split; [|easy]); (split; [apply OS|]); cbn [c_shared c_threads s_l1 s_disk]; (split; [exact ND|]);
            rewrite set_thread_same; [right; left; now rewrite set_key_same|right; right; now eexists|right; right; now eexists].
        * destruct (c_shared s) as [l d] eqn:SH. cbn in E1. injection E1 as <- <-. right; right; left. split; [|split; [|easy]].
          -- intros t' o' p' G. cbn [c_threads] in G. destruct (Nat.eq_dec t t') as [<-|N]; [rewrite set_thread_same in G; easy|].
             rewrite set_thread_other in G by easy. apply (OT t' o' p'); congruence.
          -- cbn [c_shared]. cbn [s_l1 s_disk] in *. split; [now apply put_nodup|]. split; [exact D|]. intros w F. cbn in F. apply put_find in F; [|exact ND].
             destruct F as [[_ ->]|[F _]]; [easy|congruence].
        * destruct (c_shared s) as [l d] eqn:SH. cbn in E1. injection E1 as <- <-. right; right; right. split; [|now exists r].
          intros t' o' p' G. cbn [c_threads] in G. destruct (Nat.eq_dec t t') as [<-|N]; [rewrite set_thread_same in G; easy|].
          rewrite set_thread_other in G by easy. apply (OT t' o' p'); congruence.
      + destruct (c_threads s t0) as [[o [r|a kk]]|] eqn:T; try easy. destruct (OT t0 o _ NT T) as [[Q K] NK].
        pose proof (quiet_disk a f (c_shared s) Q) as QD.
        assert (ND1 : NoDup (keys (s_l1 (fst (act repr m a f (c_shared s)))))).
        { clear - ND. destruct (c_shared s) as [l d]. cbn in ND. destruct a as [q|q w|q|q| |q|q w|q|]; cbn [act]; try exact ND.
          - pose proof (get_nodup q l ND). destruct (l1_get q l). exact H.
          - now apply put_nodup.
          - now apply evict_nodup.
          - now apply pop_nodup.
          - constructor.
          - destruct f; exact ND.
          - destruct f; exact ND.
          - destruct f; exact ND. }
        destruct (act repr m a f (c_shared s)) as [sh x]. cbn [fst] in *. specialize (K x I).
        assert (ST : forall y, (forall o' p', y = Some (o', p') -> untouched p' /\ key_of o' <> Some k) -> storing (mk_cstate sh (set_thread (c_threads s) t0 y)) t).
        { intros y Hy. split; [|split; [exact ND1|]]; cbn [c_threads c_shared].
          - intros t' o' p' N G. cbn [c_threads] in G. destruct (Nat.eq_dec t0 t') as [<-|N0].
            + rewrite set_thread_same in G. now apply Hy.
            + rewrite set_thread_other in G by easy. now apply (OT t').
          - rewrite !set_thread_other by easy. rewrite QD. exact S. }
        destruct (kk x) as [r|a' k'] eqn:KX; injection E1 as <- <-.
        * right; left. split; [now apply ST|]. now exists t0, o, r.
        * left. split; [|easy]. apply ST. intros o' p' [= <- <-]. now split. }
  apply in_app_iff in H. destruct C as [[C ->]|[[C (t' & o' & r' & N & ->)]|[(G & X & ->)|(G & r & N & ->)]]].
  - destruct H as [[]|H]. exact (IH t s1 s2 es2 O1 C E2 H).
  - destruct H as [[H|[]]|H]; [injection H as -> _ _; easy|]. exact (IH t s1 s2 es2 O1 C E2 H).
  - destruct (gone_run ls s1 s2 es2 O1 G E2) as (G2 & _ & X2). split; [now apply X2|exact G2].
  - exfalso. destruct H as [[H|[]]|H]; [injection H as ->; easy|].
    destruct (gone_run ls s1 s2 es2 O1 G E2) as (_ & D2 & _). exact (D2 t v _ H).
Qed.
(** Once settled, reads return the value until a write starts. *)
Lemma settled_reads ls s s' es : (forall t o, In (Start t o) ls -> ~ may_write repr o k) -> settled s ->
  crun repr m ls s = Some (s', es) -> forall t default r, In (Done t (OGet k default) r) es -> r = RVal v.
Proof.
  intros O [X G] E t default r H.
  destruct (rely_run x_inv x_safe x_may (fun _ o r => forall default, o = OGet k default -> r = RVal v) x_kept ls s s' es X) as (_ & _ & D).
  - intros t' o p T. destruct (G t' o p T) as [U NK].
    eapply ok_weak; [intros a h; exact h|intros a x h; exact h| |exact (untouched_ok (fun _ => True) p (fun _ => I) U)].
    intros r0 _ default0 ->. exfalso. now apply NK.
  - intros t' o HS. specialize (O t' o HS). destruct (key_of o) as [k'|] eqn:KO.
    + destruct (key_eqb_spec k' k) as [->|N].
      * destruct o as [k1 d1|k1 w|k1|k1 d1|k1|]; cbn in KO, O; try (injection KO as ->); try tauto.
        eapply ok_weak; [intros a h; exact h|intros a x h; exact h| |apply x_get_ok]. intros r0 -> default0 _. reflexivity.
      * eapply ok_weak; [intros a h; exact h|intros a x h; exact h| |apply (untouched_ok (fun _ => True) _ (fun _ => I)); apply untouched_op; [rewrite KO; congruence|exact O]].
        intros r0 _ default0 ->. cbn in KO. congruence.
    + destruct o; cbn in KO, O; try discriminate KO. tauto.
  - exact E.
  - exact (D t _ r H default eq_refl).
Qed.
End Alone.
End Threads.
