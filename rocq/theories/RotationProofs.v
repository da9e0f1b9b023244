(** Proofs about rotation. *)
From Verif Require Import Lemmas PendingProofs.
From Verif Require Export RankProofs RotationSpec.
From Coq Require Import Sorting.Sorted Sorting.Permutation.

(** ** Ranks of contexts *)
Lemma scores_in x sd s k : NoDup (akeys x) -> (In (s, k) (rotation_scores x sd) <-> exists sc, scored x sd s sc /\ k = key_of sc).
Proof.
  intro ND. unfold rotation_scores. rewrite in_flat_map. split.
  - intros [[t g] [I J]]. cbn [fst snd] in J. destruct (rankable _) as [k'|] eqn:R; [|destruct J]. destruct J as [[= <- <-]|[]].
    apply rankable_key in R. destruct R as [sc [E [N ->]]]. exists sc. split; auto. exists g. split; [now apply In_aget|]. split; auto.
  - intros [sc [[g [G [O N]]] ->]]. exists (s, g). split; [now apply aget_In|]. cbn [fst snd].
    assert (R : rankable (match sd with Long => g_lscore g | Short => g_sscore g end) = Some (key_of sc)) by (apply rankable_key; exists sc; auto).
    rewrite R. now left.
Qed.
Lemma scores_nodup x sd : NoDup (akeys x) -> NoDup (map fst (rotation_scores x sd)).
Proof.
  unfold rotation_scores. induction x as [|[s g] x IH]; cbn [flat_map map akeys]; intro ND; [constructor|]. inversion ND as [|? ? N1 N2]; subst. cbn [fst snd] in *.
  rewrite map_app. destruct (rankable _) as [k|]; cbn [map app fst]; [|now apply IH]. constructor; [|now apply IH].
  intro I. apply N1. apply in_map_iff in I. destruct I as [[t k'] [<- I]]. apply in_flat_map in I. destruct I as [[u g'] [I1 I2]].
  cbn [fst snd] in I2. destruct (rankable _); [|destruct I2]. destruct I2 as [[= <- _]|[]]. exact (in_map fst _ _ I1).
Qed.
Lemma scored_fun x sd s a b : scored x sd s a -> scored x sd s b -> a = b.
Proof. intros [g [G [O _]]] [g' [G' [O' _]]]. congruence. Qed.
Lemma rotation_rank x sd s r : NoDup (akeys x) -> (aget s (rotation_ranks x sd) = Some r <-> has_rank x sd s r).
Proof.
  intro ND. unfold rotation_ranks. rewrite (ranks_spec _ s r (scores_nodup x sd ND)).
  assert (BET : forall k, In (s, k) (rotation_scores x sd) ->
    NoDup (map fst (filter (fun t => aheadb t (s, k)) (rotation_scores x sd))) /\
    forall t, In t (map fst (filter (fun t => aheadb t (s, k)) (rotation_scores x sd))) <-> outranks x sd t s).
  { intros k I. split.
    - pose proof (scores_nodup x sd ND) as N. revert N. generalize (rotation_scores x sd). intro l. induction l as [|a l IH]; cbn [filter map]; auto.
      intro N. inversion N as [|? ? N1 N2]; subst. destruct (aheadb a (s, k)); auto. cbn [map]. constructor; auto.
      intro J. apply N1. apply in_map_iff in J. destruct J as [b [<- J]]. apply filter_In in J. apply in_map. tauto.
    - intro t. apply scores_in in I; auto. destruct I as [sc [S ->]]. split.
      + intro J. apply in_map_iff in J. destruct J as [[t' k'] [E J]]. cbn [fst] in E. subst t'. apply filter_In in J. destruct J as [J A].
        apply scores_in in J; auto. destruct J as [sc' [S' ->]]. exists sc', sc. split; auto. split; auto. now apply beats_ahead.
      + intros [a [b [A [B C]]]]. rewrite (scored_fun _ _ _ _ _ B S) in C. apply in_map_iff. exists (t, key_of a). split; auto. apply filter_In.
        split; [apply scores_in; eauto|now apply beats_ahead]. }
  split.
  - intros [k [I ->]]. destruct (BET k I) as [B1 B2]. split; [apply scores_in in I; auto; destruct I as [sc [S _]]; eauto|].
    eexists. split; [exact B1|]. split; [exact B2|]. now rewrite map_length.
  - intros [[sc S] [l [N [L ->]]]]. exists (key_of sc). assert (I : In (s, key_of sc) (rotation_scores x sd)) by (apply scores_in; eauto).
    split; auto. f_equal. destruct (BET _ I) as [B1 B2]. rewrite <- (map_length fst). apply Nat.le_antisymm; apply NoDup_incl_length; auto; intros t J.
    + apply B2. now apply L.
    + apply L. now apply B2.
Qed.
Lemma good_rank_iff x sd worst s : NoDup (akeys x) ->
  (good_rank x sd worst s <-> match aget s (rotation_ranks x sd) with Some r => Nat.leb r worst | None => false end = true).
Proof.
  intro ND. unfold good_rank. split.
  - intros [r [H L]]. apply rotation_rank in H; auto. rewrite H. now apply Nat.leb_le.
  - destruct (aget s (rotation_ranks x sd)) as [r|] eqn:E; [|discriminate]. intro L. apply Nat.leb_le in L. exists r. split; auto. now apply rotation_rank.
Qed.

(** ** Pending orders *)
Lemma in_flight_iff ops s o : has_pending_order s o (krun ops) = true <-> in_flight (krun ops) s o.
Proof.
  unfold has_pending_order, in_flight. destruct (queries_spec ops 0 s) as [Q1 [Q2 _]]. rewrite Q2, Q1, existsb_exists. split.
  - intros [n [I T]]. apply filter_In in I. destruct I as [I E]. apply Nat.eqb_eq in E. exists n. split; auto. split; auto. destruct (n_type n), o; auto; discriminate.
  - intros [n [I [E T]]]. exists n. rewrite filter_In. split; [split; auto; now apply Nat.eqb_eq|]. rewrite T. destruct o; reflexivity.
Qed.
Lemma holds_iff p s : held p s = true <-> holds p s.
Proof.
  unfold held, holds, position_of. rewrite orb_true_iff. unfold ahas. cbn [poss]. destruct (aget s (p_longs p)), (aget s (p_shorts p)); intuition congruence.
Qed.
Lemma nmem_in s l : nmem s l = true <-> In s l.
Proof. unfold nmem. rewrite existsb_exists. split; [intros [y [I E]]; apply Nat.eqb_eq in E; congruence|intro I; exists s; split; auto; apply Nat.eqb_refl]. Qed.

(** ** Exits *)
Definition all_shares (sd : side) := match sd with Long => sell_all_shares | Short => cover_all_shares end.
Lemma exits_spec p k ranks worst sd L : NoDup L -> forall x n x' n',
  fold_left (fun st s => rotation_exit1 p k ranks worst sd s st) L (Some (x, n)) = Some (x', n') ->
  let bad s := negb (match aget s ranks with Some r => Nat.leb r worst | None => false end) in
  akeys x' = akeys x /\
  n' = (n + length (filter (fun s => ahas s x && bad s) L))%nat /\
  forall s, if nmem s L && ahas s x && bad s && negb (has_pending_order s (exit_order sd) k)
            then exists g g', aget s x = Some g /\ all_shares sd p s g = Some g' /\ aget s x' = Some g'
            else aget s x' = aget s x.
Proof.
  assert (N0 : forall l, fold_left (fun st s => rotation_exit1 p k ranks worst sd s st) l None = None) by (intro m; induction m; cbn; auto).
  induction L as [|t L IH]; intros ND x n x' n' E bad; cbn [fold_left] in E.
  - injection E as <- <-. cbn. split; auto.
  - inversion ND as [|? ? ND1 ND2]; subst. unfold rotation_exit1 at 2 in E.
    assert (STEP : forall x1 n1, akeys x1 = akeys x -> (forall s, s <> t -> aget s x1 = aget s x) ->
      fold_left (fun st s => rotation_exit1 p k ranks worst sd s st) L (Some (x1, n1)) = Some (x', n') ->
      akeys x' = akeys x /\ n' = (n1 + length (filter (fun s => ahas s x && bad s) L))%nat /\ aget t x' = aget t x1 /\
      forall s, s <> t -> if nmem s L && ahas s x && bad s && negb (has_pending_order s (exit_order sd) k)
            then exists g g', aget s x = Some g /\ all_shares sd p s g = Some g' /\ aget s x' = Some g' else aget s x' = aget s x).
    { intros x1 n1 K1 A1 E1. destruct (IH ND2 x1 n1 x' n' E1) as [K2 [C2 G2]]. assert (H1 : forall s, ahas s x1 = ahas s x).
      { intro s. destruct (ahas s x) eqn:Hs; [apply ahas_true in Hs; rewrite <- K1 in Hs; now apply ahas_true|].
        destruct (ahas s x1) eqn:Hs1; auto. apply ahas_true in Hs1. rewrite K1 in Hs1. apply ahas_true in Hs1. congruence. }
      split; [congruence|]. split.
      - rewrite C2. f_equal. f_equal. clear -H1. induction L as [|a L IHL]; cbn [filter]; auto. fold (bad a). rewrite H1, IHL. reflexivity.
      - split.
        + specialize (G2 t). assert (NM : nmem t L = false) by (destruct (nmem t L) eqn:M; auto; apply nmem_in in M; tauto). rewrite NM in G2. exact G2.
        + intros s NE. specialize (G2 s). cbn zeta in G2. fold (bad s) in G2. rewrite H1, A1 in G2 by auto. exact G2. }
    assert (NMC : forall s, s <> t -> nmem s (t :: L) = nmem s L).
    { intros s NE. unfold nmem. cbn [existsb]. assert (X : Nat.eqb s t = false) by now apply Nat.eqb_neq. now rewrite X. }
    assert (NMT : nmem t (t :: L) = true) by (unfold nmem; cbn [existsb]; now rewrite Nat.eqb_refl).
    destruct (aget t x) as [g|] eqn:G.
    2: { destruct (STEP x n eq_refl (fun _ _ => eq_refl) E) as [S1 [S2 [S3 S4]]]. assert (HT : ahas t x = false) by (now apply ahas_false).
         split; auto. split; [cbn [filter]; now rewrite HT|]. intro s. destruct (Nat.eq_dec s t) as [->|NE].
         - rewrite HT, andb_false_r. cbn [andb]. congruence.
         - rewrite NMC by auto. now apply S4. }
    assert (HT : ahas t x = true) by (apply ahas_true; eapply aget_Some_key; eauto).
    destruct (match aget t ranks with Some r => Nat.leb r worst | None => false end) eqn:RK.
    { destruct (STEP x n eq_refl (fun _ _ => eq_refl) E) as [S1 [S2 [S3 S4]]]. split; auto. assert (BT : bad t = false) by (unfold bad; now rewrite RK).
      split; [cbn [filter]; now rewrite BT, andb_false_r|]. intro s. destruct (Nat.eq_dec s t) as [->|NE]; [now rewrite BT, andb_false_r|]. rewrite NMC by auto. now apply S4. }
    assert (BT : bad t = true) by (unfold bad; now rewrite RK).
    destruct (has_pending_order t (exit_order sd) k) eqn:HP.
    { destruct (STEP x (S n) eq_refl (fun _ _ => eq_refl) E) as [S1 [S2 [S3 S4]]]. split; auto.
      split; [cbn [filter]; rewrite HT, BT; cbn [andb length]; lia|]. intro s. destruct (Nat.eq_dec s t) as [->|NE]; [now rewrite HP, andb_false_r|]. rewrite NMC by auto. now apply S4. }
    change ((match sd with Long => sell_all_shares | Short => cover_all_shares end)) with (all_shares sd) in E.
    destruct (all_shares sd p t g) as [g'|] eqn:AS; [|rewrite N0 in E; discriminate].
    destruct (STEP (aset t g' x) (S n)) as [S1 [S2 [S3 S4]]]; auto.
    { apply akeys_aset_in. eapply aget_Some_key; eauto. }
    { intros s NE. now apply aget_aset_neq. }
    split; auto. split; [cbn [filter]; rewrite HT, BT; cbn [andb length]; lia|].
    intro s. destruct (Nat.eq_dec s t) as [->|NE].
    + rewrite NMT, HT, BT, HP. cbn [andb negb]. exists g, g'. split; auto. split; auto. rewrite S3. apply aget_aset_eq.
    + rewrite NMC by auto. now apply S4.
Qed.

(** ** Candidates *)
Lemma candidates_fold p k ranks worst o K : NoDup K -> forall pend elig pend' elig',
  fold_left (candidate1 p k ranks worst o) K (pend, elig) = (pend', elig') ->
  pend' = pend ++ filter (fun s => negb (held p s) && negb (nmem s pend) && has_pending_order s o k) K /\
  elig' = elig ++ filter (fun s => negb (held p s) && negb (nmem s pend || has_pending_order s o k) &&
                                  match aget s ranks with Some r => Nat.leb r worst | None => false end) K.
Proof.
  induction K as [|t K IH]; intros ND pend elig pend' elig'; cbn [fold_left filter]; [intros [= <- <-]; now rewrite !app_nil_r|].
  inversion ND as [|? ? N1 N2]; subst. unfold candidate1 at 2.
  assert (EXT : forall pend1, (forall s, In s K -> nmem s pend1 = nmem s pend) ->
    filter (fun s => negb (held p s) && negb (nmem s pend1) && has_pending_order s o k) K = filter (fun s => negb (held p s) && negb (nmem s pend) && has_pending_order s o k) K /\
    filter (fun s => negb (held p s) && negb (nmem s pend1 || has_pending_order s o k) && match aget s ranks with Some r => Nat.leb r worst | None => false end) K =
    filter (fun s => negb (held p s) && negb (nmem s pend || has_pending_order s o k) && match aget s ranks with Some r => Nat.leb r worst | None => false end) K).
  { intros pend1 H. split; apply filter_ext_in; intros s I; now rewrite H. }
  destruct (held p t) eqn:HT; cbn [negb andb].
  - apply IH; auto.
  - destruct (nmem t pend) eqn:NM; cbn [orb negb andb].
    + apply IH; auto.
    + destruct (has_pending_order t o k) eqn:HP; cbn [negb andb].
      * intro E. apply IH in E; auto. destruct E as [-> ->]. destruct (EXT (pend ++ [t])) as [X1 X2].
        { intros s I. unfold nmem. rewrite existsb_app. cbn [existsb]. assert (NE : Nat.eqb s t = false) by (apply Nat.eqb_neq; intros ->; auto). now rewrite NE, !orb_false_r. }
        rewrite X1, X2, <- app_assoc. auto.
      * destruct (aget t ranks) as [r|]; [|intro E; apply IH in E; auto].
        destruct (Nat.ltb worst r) eqn:LT.
        -- assert (LE : Nat.leb r worst = false) by (apply Nat.leb_gt; apply Nat.ltb_lt in LT; lia). rewrite LE. intro E. apply IH in E; auto.
        -- assert (LE : Nat.leb r worst = true) by (apply Nat.leb_le; apply Nat.ltb_ge in LT; lia). rewrite LE. intro E. apply IH in E; auto.
           destruct E as [-> ->]. rewrite <- app_assoc. auto.
Qed.

(** ** One leg *)
Lemma filter_nodup {A} (f : A -> bool) l : NoDup l -> NoDup (filter f l).
Proof. induction 1 as [|a l N1 N2 IH]; cbn [filter]; [constructor|]. destruct (f a); auto. constructor; auto. rewrite filter_In. tauto. Qed.
Lemma firstn_in {A} n (l : list A) x : In x (firstn n l) -> In x l.
Proof. intro I. rewrite <- (firstn_skipn n l). apply in_app_iff. now left. Qed.
Lemma firstn_nodup {A} n (l : list A) : NoDup l -> NoDup (firstn n l).
Proof.
  revert l. induction n as [|n IH]; intros [|a l] N; cbn; try constructor; inversion N; subst; auto. intro I. apply firstn_in in I. tauto.
Qed.
Lemma nodup_app' {A} (l m : list A) : NoDup l -> NoDup m -> (forall x, In x m -> ~ In x l) -> NoDup (l ++ m).
Proof.
  intros P Q D. induction l as [|a l IH]; cbn [app]; auto. inversion P; subst. constructor.
  - rewrite in_app_iff. intros [I|I]; auto. apply (D a I). now left.
  - apply IH; auto. intros s I J. apply (D s I). now right.
Qed.
Lemma awaited_pend p ops x sd : let k := krun ops in NoDup (akeys x) ->
  let o := entry_order sd in
  let pend := pending_entry_symbols k p o in
  cardinal (awaited p k x sd) (length (pend ++ filter (fun s => negb (held p s) && negb (nmem s pend) && has_pending_order s o k) (akeys x))).
Proof.
  intros k ND o pend. eexists. split; [|split; [|reflexivity]].
  - assert (P : NoDup pend) by apply NoDup_nodup. pose proof (filter_nodup (fun s => negb (held p s) && negb (nmem s pend) && has_pending_order s o k) _ ND) as Q.
    assert (D : forall s, In s (filter (fun s => negb (held p s) && negb (nmem s pend) && has_pending_order s o k) (akeys x)) -> ~ In s pend).
    { intros s I J. apply filter_In in I. destruct I as [_ I]. apply nmem_in in J. rewrite J in I. cbn in I. rewrite andb_false_r in I. discriminate. }
    now apply nodup_app'.
  - assert (PE : forall s, In s pend <-> ~ holds p s /\ exists n, In n (orders None None k) /\ n_sym n = s /\ n_type n = o /\ n_exit n = None).
    { intro s. unfold pend, pending_entry_symbols. rewrite nodup_In, in_map_iff. split.
      - intros [n [<- I]]. apply filter_In in I. destruct I as [I F]. apply andb_true_iff in F. destruct F as [F H]. apply andb_true_iff in F. destruct F as [T E].
        split; [rewrite <- holds_iff; destruct (held p (n_sym n)); [discriminate|auto]|]. exists n. split; auto. split; auto.
        split; [destruct (n_type n), o; auto; discriminate|destruct (n_exit n); auto; discriminate].
      - intros [H [n [I [<- [T E]]]]]. exists n. split; auto. apply filter_In. split; auto. rewrite T, E. rewrite <- holds_iff in H. destruct (held p (n_sym n)); [tauto|]. destruct o; reflexivity. }
    intro s. rewrite in_app_iff, filter_In, PE. unfold awaited. split.
    + intros [[H [n [I [E [T X]]]]]|[I F]]; [split; auto; exists n; auto|].
      apply andb_true_iff in F. destruct F as [F P]. apply andb_true_iff in F. destruct F as [H _]. split; [rewrite <- holds_iff; destruct (held p s); [discriminate|auto]|].
      apply in_flight_iff in P. destruct P as [n [J [E T]]]. exists n. repeat (split; auto).
    + intros [H [n [I [E [T [X|J]]]]]]; [left; split; auto; exists n; auto|].
      destruct (nmem s pend) eqn:M; [left; apply PE; now apply nmem_in|]. right. split; auto. rewrite <- holds_iff in H. destruct (held p s); [tauto|]. cbn [negb andb].
      apply in_flight_iff. exists n. auto.
Qed.
Lemma rank_of_distinct x sd s t r : NoDup (akeys x) -> has_rank x sd s r -> has_rank x sd t r -> s = t.
Proof.
  intros ND S T. apply rotation_rank in S; auto. apply rotation_rank in T; auto.
  pose proof (proj1 (ranks_range (rotation_scores x sd))) as R. fold (rotation_ranks x sd) in R.
  assert (N : NoDup (map snd (rotation_ranks x sd))) by (rewrite R; apply seq_NoDup).
  apply aget_In in S. apply aget_In in T. revert N S T. generalize (rotation_ranks x sd). intros l. induction l as [|[u v] l IH]; cbn [map snd]; [intros _ []|].
  intros N [E1|S] [E2|T].
  - congruence.
  - injection E1 as -> ->. inversion N as [|? ? N1 N2]; subst. exfalso. apply N1. exact (in_map snd _ _ T).
  - injection E2 as -> ->. inversion N as [|? ? N1 N2]; subst. exfalso. apply N1. exact (in_map snd _ _ S).
  - inversion N; subst. auto.
Qed.
(** Of two ranked symbols the one with the smaller rank outranks the other. *)
Lemma beats_total s a t b : s <> t -> beats s a t b \/ beats t b s a.
Proof.
  intro N. unfold beats. destruct (key_leb (key_of a) (key_of b)) eqn:E1; [|left; left; rewrite <- key_score; congruence].
  destruct (key_leb (key_of b) (key_of a)) eqn:E2; [|right; left; rewrite <- key_score; congruence].
  apply key_score in E1. apply key_score in E2. destruct (Nat.lt_total s t) as [L|[L|L]]; [left|tauto|right]; right; auto.
Qed.
Lemma beats_trans s a t b u d : beats s a t b -> beats t b u d -> beats s a u d.
Proof.
  unfold beats. rewrite <- !key_score. intros H K.
  assert (TR : forall x y z, key_leb (key_of x) (key_of y) = true -> key_leb (key_of y) (key_of z) = true -> key_leb (key_of x) (key_of z) = true)
    by (intros; eapply key_trans; eauto).
  destruct (key_leb (key_of a) (key_of d)) eqn:E; [|left; discriminate]. right. split; auto.
  destruct H as [H|[H1 [H2 H3]]], K as [K|[K1 [K2 K3]]].
  - exfalso. destruct (key_total (key_of d) (key_of b)) as [T|T]; [|tauto]. apply H. eauto.
  - exfalso. apply H. eauto.
  - exfalso. apply K. eauto.
  - split; [eauto|lia].
Qed.
Lemma smaller_outranks x sd s t r r' : NoDup (akeys x) -> has_rank x sd s r -> has_rank x sd t r' -> (r < r')%nat -> outranks x sd s t.
Proof.
  intros ND [[a A] [l [L1 [L2 L3]]]] [[b B] [m [M1 [M2 M3]]]] LT. assert (N : s <> t).
  { intros ->. assert (length l = length m); [|lia]. apply Nat.le_antisymm; apply NoDup_incl_length; auto; intros u I; [apply M2, L2, I|apply L2, M2, I]. }
  exists a, b. split; auto. split; auto. destruct (beats_total s a t b N) as [H|H]; auto. exfalso.
  assert (I : incl m l).
  { intros u I. apply L2. apply M2 in I. destruct I as [d [b' [D [B' X]]]]. rewrite (scored_fun _ _ _ _ _ B' B) in X.
    exists d, a. split; auto. split; auto. eapply beats_trans; eauto. }
  pose proof (NoDup_incl_length M1 I). lia.
Qed.

Lemma leg_spec p ops worst m sd x x' ranks cand : let k := krun ops in
  NoDup (akeys x) -> NoDup (akeys (poss sd p)) -> rotation_leg p k worst (Some m) sd x = Some (x', ranks, cand) ->
  ranks = rotation_ranks x sd /\ akeys x' = akeys x /\ selection p k x worst m sd cand /\
  (forall s, leaves p k x worst (Some m) sd s -> exists g g', aget s x = Some g /\ all_shares sd p s g = Some g' /\ aget s x' = Some g') /\
  (forall s, ~ leaves p k x worst (Some m) sd s -> aget s x' = aget s x).
Proof.
  intros k ND NP. assert (IF : forall s o, has_pending_order s o k = true <-> in_flight k s o) by (intros; apply in_flight_iff). unfold rotation_leg. destruct (rotation_exits p k (rotation_ranks x sd) worst sd x) as [[x1 ex]|] eqn:RE; [|discriminate].
  intros [= <- <- <-]. unfold rotation_exits in RE. apply exits_spec in RE; auto. cbn zeta in RE. destruct RE as [K1 [C1 G1]].
  set (ok s := match aget s (rotation_ranks x sd) with Some r => Nat.leb r worst | None => false end) in *.
  assert (OK : forall s, ok s = true <-> good_rank x sd worst s) by (intro s; symmetry; now apply good_rank_iff).
  assert (HAS : forall s, ahas s x = true <-> In s (akeys x)) by (intro s; apply ahas_true).
  assert (POS : forall s, In s (akeys (poss sd p)) <-> position_of p sd s <> None).
  { intro s. unfold position_of. rewrite <- ahas_true. unfold ahas. destruct (aget s (poss sd p)); split; congruence. }
  assert (LEAVE : forall s, nmem s (akeys (poss sd p)) && ahas s x && negb (ok s) = true <-> must_leave p x sd worst s).
  { intro s. unfold must_leave. rewrite !andb_true_iff, nmem_in, POS, HAS, negb_true_iff, <- OK. destruct (ok s); intuition congruence. }
  split; auto. split; auto.
  assert (CASES : forall s, (leaves p k x worst (Some m) sd s -> exists g g', aget s x = Some g /\ all_shares sd p s g = Some g' /\ aget s x1 = Some g') /\
                            (~ leaves p k x worst (Some m) sd s -> aget s x1 = aget s x)).
  { intro s. specialize (G1 s). fold (ok s) in G1. unfold leaves. destruct (nmem s (akeys (poss sd p)) && ahas s x && negb (ok s)) eqn:L.
    - apply LEAVE in L. destruct (has_pending_order s (exit_order sd) k) eqn:HP; cbn [negb andb] in G1.
      + apply IF in HP. split; auto. intros [_ [_ X]]. tauto.
      + split; auto. intro X. exfalso. apply X. split; [discriminate|]. split; auto. rewrite <- IF. congruence.
    - cbn [andb] in G1. split; auto. intros [_ [X _]]. apply LEAVE in X. congruence. }
  split; [|split; intros s H; now apply (CASES s)].
  unfold rotation_candidates. destruct (fold_left _ (akeys x1) _) as [pend elig] eqn:F. rewrite K1 in F.
  apply candidates_fold in F; auto. destruct F as [FP FE]. cbn [app] in FE. fold k in FP, FE.
  assert (CW : cardinal (awaited p k x sd) (length pend)) by (rewrite FP; apply awaited_pend; auto).
  assert (CL : cardinal (must_leave p x sd worst) ex).
  { exists (filter (fun s => ahas s x && negb (ok s)) (akeys (poss sd p))). split; [now apply filter_nodup|]. split; [|symmetry; exact C1].
    intro s. rewrite filter_In, <- LEAVE, <- nmem_in, !andb_true_iff. tauto. }
  assert (EL : forall s, In s elig <-> may_enter p k x sd worst s).
  { intro s. rewrite FE, filter_In. fold (ok s). rewrite !andb_true_iff, !negb_true_iff, OK. unfold may_enter. rewrite <- holds_iff.
    split.
    - intros [I [[H1 H2] H3]]. split; auto. split; [congruence|]. split; auto. rewrite <- IF. apply orb_false_iff in H2. destruct H2. congruence.
    - intros [I [H1 [H2 H3]]]. split; auto. split; auto. rewrite <- IF in H2. split; [destruct (held p s); tauto|].
      destruct (has_pending_order s (entry_order sd) k) eqn:HP; [tauto|]. rewrite orb_false_r.
      destruct (nmem s (pending_entry_symbols k p (entry_order sd))) eqn:M; auto. exfalso. apply nmem_in in M. unfold pending_entry_symbols in M.
      rewrite nodup_In, in_map_iff in M. destruct M as [n [<- M]]. apply filter_In in M. destruct M as [M1 M2].
      assert (X : has_pending_order (n_sym n) (entry_order sd) k = true); [|congruence]. apply IF. exists n. split; auto. split; auto.
      apply andb_true_iff in M2. destruct M2 as [M2 _]. apply andb_true_iff in M2. destruct M2 as [M2 _]. destruct (n_type n), (entry_order sd); auto; discriminate. }
  assert (NE : NoDup elig) by (rewrite FE; now apply filter_nodup).
  set (free := (Z.of_nat m - (Z.of_nat (length (poss sd p)) - Z.of_nat ex) - Z.of_nat (length pend))%Z) in *.
  set (le := fun a b => Nat.leb (rank_of (rotation_ranks x sd) a) (rank_of (rotation_ranks x sd) b)).
  assert (SRT : StronglySorted (fun a b => le a b = true) (isort le elig)).
  { apply isort_sorted; unfold le.
    - intros a b. rewrite !Nat.leb_le. lia.
    - intros a b d. rewrite !Nat.leb_le. lia. }
  pose proof (isort_perm' le elig) as PM.
  assert (NS : NoDup (isort le elig)) by (eapply Permutation_NoDup; [symmetry; exact PM|auto]).
  assert (IS : forall s, In s (isort le elig) <-> may_enter p k x sd worst s).
  { intro s. rewrite <- EL. split; apply Permutation_in; [exact PM|symmetry; exact PM]. }
  assert (CAND : (if (free <=? 0)%Z then [] else firstn (Z.to_nat free) (isort le elig)) = firstn (Z.to_nat (Z.max 0 free)) (isort le elig)).
  { destruct (Z.leb_spec free 0); [rewrite Z.max_l by auto; reflexivity|rewrite Z.max_r by lia; reflexivity]. }
  rewrite CAND. set (n := Z.to_nat (Z.max 0 free)) in *.
  assert (SKIP : forall t, may_enter p k x sd worst t -> ~ In t (firstn n (isort le elig)) -> In t (skipn n (isort le elig))).
  { intros t I N. apply IS in I. rewrite <- (firstn_skipn n (isort le elig)) in I. apply in_app_iff in I. tauto. }
  constructor.
  - now apply firstn_nodup.
  - intros s I. apply IS. eapply firstn_in; eauto.
  - exists ex, (length pend). split; auto. split; auto. cbn zeta. fold free. split.
    + pose proof (firstn_le_length n (isort le elig)). lia.
    + intros [t [T N]]. apply SKIP in T; auto. rewrite firstn_length_le; [unfold n; lia|].
      destruct (Nat.le_gt_cases n (length (isort le elig))) as [L|L]; auto. rewrite skipn_all2 in T by lia. destruct T.
  - intros s t I T N. pose proof (SKIP t T N) as J.
    assert (LE : le s t = true).
    { clear -SRT I J. revert I J SRT. rewrite <- (firstn_skipn n (isort le elig)) at 3. generalize (firstn n (isort le elig)) (skipn n (isort le elig)). intros l1 l2 I J SRT.
      induction l1 as [|a l1 IH]; [destruct I|]. cbn [app] in SRT. inversion SRT as [|? ? S1 S2]; subst. destruct I as [->|I]; auto.
      rewrite Forall_forall in S2. apply S2, in_app_iff. auto. }
    assert (ST : s <> t) by (intros ->; tauto).
    apply firstn_in in I. apply IS in I. destruct I as [_ [_ [_ [r [R1 _]]]]]. destruct T as [_ [_ [_ [r' [R2 _]]]]].
    apply (smaller_outranks x sd s t r r' ND R1 R2). unfold le, rank_of in LE.
    assert (r <> r') by (intros ->; apply ST; eapply rank_of_distinct; eauto).
    apply rotation_rank in R1; auto. apply rotation_rank in R2; auto. rewrite R1, R2, Nat.leb_le in LE. lia.
Qed.
