(** Property theorems about the start of an optimization (C100, C101). *)
From Verif Require Import LaunchStart.
Open Scope nat_scope.

(** [optuna]'s [reseed_rng] and the trials of a study change the states of the generators
    of a sampler and nothing else of it. *)
Definition keeps_sampler (f : sampler -> sampler) : Prop := forall s, alike s (f s).

(** C100: once the data is prepared, a call starts its search exactly when the
    specification says it may. *)
Theorem C100_accepts : forall entropy renew trials declared size g a ready, keeps_sampler renew -> keeps_sampler trials ->
  (exists p, snd (launch entropy renew trials declared size g a ready) = Ok p) <-> ready = true /\ may_search declared g a.
Proof.
  intros entropy renew trials declared size g a ready R T. split.
  - intros [p P]. destruct (launched _ _ _ _ _ R T _ _ _ _ P) as (RD & (A & B & C & D & E & F) & N & _ & X). split; [exact RD|].
    assert (XS : exists st, nth_error (p_starts p) 0 = Some st).
    { destruct (p_starts p) as [|st l]; [|now exists st]. unfold studies in N. cbn in N. destruct (a_windows a) as [w|]; [|discriminate]. specialize (C w eq_refl). lia. }
    destruct XS as [st ST]. destruct (X 0 st ST) as (DR & TR & GR & SM).
    split; [exact A|]. split; [exact B|]. split; [exact C|]. split; [|split; [exact E|split; [exact F|]]].
    + intros s w S W. specialize (D s w S W). specialize (C w W). lia.
    + exists (call_grid declared a), (p_direction st). split; [|split; [exact DR|]].
      * apply grid_call. split; [|reflexivity]. intros S U. rewrite S in SM. destruct SM as (b & K & SB). rewrite U in K. inversion K; subst. discriminate.
      * destruct (call_grid declared a); [exact GR|]. destruct TR as [TR|(_ & _ & TR)]; [rewrite TR; discriminate|now destruct TR].
  - intros [-> M]. now apply launches.
Qed.
Print Assumptions C100_accepts.

(** C100: what is started: one study, or one for each window; each in the direction of
    the call, for the number of trials asked for or, without one, the number of
    combinations, with the supplied study's own sampler or one of the kind asked for.
    The caller's sampler is as it was, unless it cannot be copied. *)
Theorem C100_plan : forall entropy renew trials declared size g a ready p, keeps_sampler renew -> keeps_sampler trials ->
  snd (launch entropy renew trials declared size g a ready) = Ok p ->
  studies a (length (p_starts p)) /\
  (forall st, In st (p_starts p) -> direction_of a (p_direction st) /\
     p_trials st = match a_n_trials a with Some n => n | None => size end /\
     match a_study a with Some s => p_sampler st = st_sampler s | None => of_kind declared (a_sampler a) (p_sampler st) end) /\
  ((forall s, a_sampler a <> Instance false s) -> fst (launch entropy renew trials declared size g a ready) = a_sampler a).
Proof.
  intros entropy renew trials declared size g a ready p R T P. destruct (launched _ _ _ _ _ R T _ _ _ _ P) as (_ & _ & N & _ & X).
  split; [exact N|]. split; [|apply arg_kept].
  intros st I. apply In_nth_error in I. destruct I as [i I]. destruct (X i st I) as (D & TR & _ & SM). split; [exact D|]. split.
  - destruct TR as [-> |(-> & -> & _)]; reflexivity.
  - destruct (a_study a); [exact SM|]. destruct SM as (b & K & SB).
    assert (NU : b <> ByName NUnknown) by (intros ->; discriminate).
    destruct (build_known entropy renew declared R b (window_seed (a_seed a) i) NU) as (s' & S' & KK & _). rewrite SB in S'. injection S' as <-.
    exact (kept_kind _ _ _ _ K KK).
Qed.
Print Assumptions C100_plan.
(** C100: it warns exactly of a grid of more than 1000 combinations over all windows that
    no number of trials limits. *)
Theorem C100_warns : forall entropy renew trials declared size g a ready p, keeps_sampler renew -> keeps_sampler trials ->
  snd (launch entropy renew trials declared size g a ready) = Ok p ->
  (p_warned p = true <->
   (a_sampler a = ByName NGrid \/ exists c s names, a_sampler a = Instance c s /\ grid_of_sampler s (Some names)) /\
   a_n_trials a = None /\ (1000 < size * match a_windows a with Some w => w | None => 1 end)%Z).
Proof.
  intros entropy renew trials declared size g a ready p R T P. destruct (launched _ _ _ _ _ R T _ _ _ _ P) as (_ & _ & _ & -> & _).
  unfold warns. rewrite !andb_true_iff, Z.ltb_lt.
  assert (G : is_grid (a_sampler a) = true <-> (a_sampler a = ByName NGrid \/ exists c s names, a_sampler a = Instance c s /\ grid_of_sampler s (Some names))).
  { destruct (a_sampler a) as [[| | |]|c s]; cbn; try (split; [discriminate|intros [H|(c & s & names & H & _)]; discriminate]).
    - split; [now left|reflexivity].
    - split.
      + destruct s as [|[names| | |x] gg x1 x2 x3]; try discriminate. intros _. right. exists c. do 2 eexists. split; [reflexivity|constructor].
      + intros [H|(c' & s' & names & H & GS)]; [discriminate|]. injection H as <- <-. inversion GS; subst. reflexivity. }
  rewrite G. destruct (a_n_trials a); split; intros H; try (now destruct H as [_ H]); try (now destruct H as (_ & H & _)).
  - now destruct H as [[H1 H2] _].
  - destruct H as (H1 & _ & H2). now repeat split.
Qed.
Print Assumptions C100_warns.
(** Two windows of a grid over the two hyperparameters declared, and a supplied study
    whose direction is named in other letters. *)
Example C100_ex :
  may_search [1; 2] (mk_strategy [[7]; []] (fun _ => false)) (mk_args (ByName NGrid) None (Word Maximize) (Some 42%Z) (Some 2%Z) None (1 # 2) (Some 1%Z)) /\
  may_search [1; 2] (mk_strategy [[]] (fun _ => true))
    (mk_args (ByName NUnknown) None (Spelled Minimize) None None
       (Some (mk_study [Minimize] (Sampler (KGrid [2; 1]) NoGen NoSampler NoSampler NoSampler))) (1 # 2) None) /\
  ~ may_search [1; 2] (mk_strategy [[]] (fun _ => true)) (mk_args (ByName NTpe) None (Word Maximize) None None None (1 # 2) None).
Proof.
  split; [|split].
  - repeat split; try discriminate; cbn.
    + intros w H. injection H as <-. lia.
    + intros w H. injection H as <-. lia.
    + exists (Some [1; 2]), Maximize. split; [now apply grid_named|]. split; [now apply dir_new|]. reflexivity.
  - repeat split; try discriminate; cbn.
    + intros models m [<-|[]] [].
    + exists (Some [2; 1]), Minimize. split; [eapply grid_study; [reflexivity|constructor]|]. split; [eapply dir_study; [reflexivity|reflexivity|now right]|].
      intros n. cbn. tauto.
  - intros (_ & _ & _ & _ & _ & _ & gr & d & G & _ & N). inversion G; try discriminate. subst gr. now destruct N.
Qed.

(** C101: with a seed, in the search of each window every generator of the caller's
    sampler that is exposed and not more than four samplers deep is made from the seed of
    the window and its place; a copy keeps every other as it was. *)
Theorem C101_seeds : forall entropy renew trials declared size g a ready p c s z, keeps_sampler renew -> keeps_sampler trials ->
  snd (launch entropy renew trials declared size g a ready) = Ok p ->
  a_study a = None -> a_sampler a = Instance c s -> a_seed a = Some z ->
  forall i st q, nth_error (p_starts p) i = Some st ->
  (forall x, generator_at s q (Exposed x) -> length q <= 3 -> generator_at (p_sampler st) q (Exposed (Seeded (seed_of z i q)))) /\
  (c = true -> forall x, (3 < length q \/ (forall y, x <> Exposed y)) -> (generator_at (p_sampler st) q x <-> generator_at s q x)).
Proof.
  intros entropy renew trials declared size g a ready p c s z R T P S A Z i st q I.
  destruct (launched _ _ _ _ _ R T _ _ _ _ P) as (_ & _ & _ & _ & X). destruct (X i st I) as (_ & _ & _ & SM). rewrite S in SM. destruct SM as (b & K & SB).
  rewrite A in K. rewrite Z in SB. cbn [window_seed] in SB.
  assert (BS : exists s1, alike s s1 /\ (c = true -> s1 = s) /\ p_sampler st = reseed (z + Z.of_nat i) 0 s1).
  { inversion K; subst; cbn in SB; injection SB as <-.
    - exists s. split; [apply alike_refl|]. now split.
    - exists t. split; [assumption|]. split; [discriminate|reflexivity]. }
  destruct BS as (s1 & AL & CS & ->). split.
  - intros x G L. destruct (alike_gens _ _ AL _ _ G) as (g' & G' & SG). apply reseed_at. exists g'. split; [exact G'|]. cbn [Nat.add].
    apply Nat.leb_le in L. rewrite L. inversion SG; subst. reflexivity.
  - intros CT x H. rewrite (CS CT). rewrite reseed_at. cbn [Nat.add]. split.
    + intros (g0 & G0 & ->). destruct (length q <=? 3) eqn:L; [|exact G0]. apply Nat.leb_le in L.
      destruct H as [H|H]; [lia|]. destruct g0 as [|y|y]; cbn in *; try exact G0. now destruct (H (Seeded (z + Z.of_nat i + 1000003 * weight q))).
    + intros G0. exists x. split; [exact G0|]. destruct (length q <=? 3) eqn:L; [|reflexivity]. apply Nat.leb_le in L.
      destruct H as [H|H]; [lia|]. destruct x as [|y|y]; cbn; try reflexivity. now destruct (H y).
Qed.
Print Assumptions C101_seeds.
(** C101: a sampler asked for by name is made from the seed of its window; without a seed,
    a grid is always in the same order and any other sampler is not. *)
Theorem C101_named : forall entropy renew trials declared size g a ready p k, keeps_sampler renew -> keeps_sampler trials ->
  snd (launch entropy renew trials declared size g a ready) = Ok p -> a_study a = None -> a_sampler a = ByName k ->
  forall i st q x, nth_error (p_starts p) i = Some st -> generator_at (p_sampler st) q x ->
  x = Exposed match a_seed a with
              | Some z => Seeded (z + Z.of_nat i)
              | None => match k with NGrid => Seeded 0 | _ => entropy end
              end.
Proof.
  intros entropy renew trials declared size g a ready p k R T P S A i st q x I G.
  destruct (launched _ _ _ _ _ R T _ _ _ _ P) as (_ & _ & _ & _ & X). destruct (X i st I) as (_ & _ & _ & SM). rewrite S in SM. destruct SM as (b & K & SB).
  rewrite A in K. inversion K; subst. destruct k; cbn in SB; try discriminate; apply (f_equal (fun r => match r with Ok s => s | Raise _ => NoSampler end)) in SB;
    cbn beta iota in SB; rewrite <- SB in G; destruct (a_seed a); unfold fresh, grid_gen in G; cbn [window_seed] in G;
    repeat match goal with H : generator_at _ _ _ |- _ => inversion H; subst; clear H end; reflexivity.
Qed.
Print Assumptions C101_named.
(** C101: no two of these generators are made alike when they belong to different windows
    or one belongs to a sampler inside the other's. *)
Theorem C101_apart : forall entropy renew trials declared size g a ready p c s z, keeps_sampler renew -> keeps_sampler trials ->
  snd (launch entropy renew trials declared size g a ready) = Ok p ->
  a_study a = None -> a_sampler a = Instance c s -> a_seed a = Some z -> (Z.of_nat (length (p_starts p)) <= 1000003)%Z ->
  forall i j st st' q q' x y, nth_error (p_starts p) i = Some st -> nth_error (p_starts p) j = Some st' ->
  generator_at (p_sampler st) q (Exposed x) -> generator_at (p_sampler st') q' (Exposed y) -> length q <= 3 -> length q' <= 3 ->
  i <> j \/ (exists r, r <> [] /\ q' = q ++ r) -> x <> y.
Proof.
  intros entropy renew trials declared size g a ready p c s z R T P S A Z LE i j st st' q q' x y I J G G' L L' H.
  destruct (launched _ _ _ _ _ R T _ _ _ _ P) as (_ & _ & _ & _ & X).
  assert (V : forall i st q x, nth_error (p_starts p) i = Some st -> generator_at (p_sampler st) q (Exposed x) -> length q <= 3 -> x = Seeded (seed_of z i q)).
  { clear - X S A Z. intros i st q x I G L. destruct (X i st I) as (_ & _ & _ & SM). rewrite S in SM. destruct SM as (b & K & SB).
    rewrite A in K. rewrite Z in SB. cbn [window_seed] in SB.
    assert (E : exists s1, p_sampler st = reseed (z + Z.of_nat i) 0 s1) by (inversion K; subst; cbn in SB; injection SB as <-; now eexists).
    destruct E as [s1 E]. rewrite E in G. apply reseed_at in G. destruct G as (g0 & G0 & EQ). cbn [Nat.add] in EQ. apply Nat.leb_le in L. rewrite L in EQ.
    destruct g0; cbn in EQ; try discriminate. now injection EQ as ->. }
  rewrite (V _ _ _ _ I G L), (V _ _ _ _ J G' L'). unfold seed_of. intros E. apply seeded_inj in E.
  assert (Bi : i < length (p_starts p)) by (apply nth_error_Some; congruence). assert (Bj : j < length (p_starts p)) by (apply nth_error_Some; congruence).
  assert (E2 : (Z.of_nat i - Z.of_nat j = 1000003 * (weight q' - weight q))%Z) by lia.
  assert (W : weight q' = weight q) by nia.
  destruct H as [H|(r & NR & ->)].
  - rewrite W in E2. lia.
  - rewrite weight_app in W. destruct r as [|b r]; [now destruct NR|]. pose proof (weight_pos r). destruct b; cbn [weight] in W; lia.
Qed.
Print Assumptions C101_apart.
(** C101: with a seed, or the grid by name, what is searched does not depend on the states
    of the generators of the caller's sampler, on fresh entropy or on earlier windows;
    for a sampler whose generators can all be reached. *)
Theorem C101_reproducible_partial : forall e e' r r' t t' declared size g a a' ready,
  keeps_sampler t -> keeps_sampler t' -> same_call a a' -> a_seed a <> None \/ a_sampler a = ByName NGrid ->
  snd (launch e r t declared size g a ready) = snd (launch e' r' t' declared size g a' ready).
Proof.
  intros e e' r r' t t' declared size g a a' ready T T' C S. destruct C as [arg arg' n d seed w st ts wu C].
  cbn [a_seed a_sampler] in S. unfold launch. assert (CK : check_args g (mk_args arg n d seed w st ts wu) = check_args g (mk_args arg' n d seed w st ts wu)) by reflexivity.
  rewrite CK. destruct (check_args g _) as [[]|ex]; [|reflexivity]. destruct ready; [|reflexivity].
  assert (RL : related arg arg') by exact C.
  destruct (build_related e e' r r' declared arg arg' seed RL S) as [SE RE].
  assert (W : warns size (mk_args arg n d seed w st ts wu) = warns size (mk_args arg' n d seed w st ts wu)).
  { unfold warns. cbn [a_sampler a_windows a_n_trials]. do 2 f_equal. destruct C as [(m & -> & ->)|(c & c' & s & s' & -> & -> & A & _)]; [reflexivity|].
    cbn. destruct A; reflexivity. }
  assert (ONE : snd (let (x, y) := start_single e r declared size (mk_args arg n d seed w st ts wu) in
                     (x, bind y (fun s => Ok (mk_plan [s] (warns size (mk_args arg n d seed w st ts wu)))))) =
                snd (let (x, y) := start_single e' r' declared size (mk_args arg' n d seed w st ts wu) in
                     (x, bind y (fun s => Ok (mk_plan [s] (warns size (mk_args arg' n d seed w st ts wu))))))).
  { rewrite W. unfold start_single. cbn [a_study a_sampler a_seed a_direction a_n_trials]. destruct st; [reflexivity|].
    destruct (build_sampler e r declared arg seed) as [x1 b1]. destruct (build_sampler e' r' declared arg' seed) as [x2 b2]. cbn [snd] in *. now rewrite SE. }
  cbn [a_windows]. destruct w as [w|]; [|exact ONE]. destruct (1 <? w)%Z; [|exact ONE]. rewrite W.
  unfold start_walkforward. cbn [a_sampler a_seed a_n_trials].
  assert (KG : arg = ByName NGrid -> fst (build_sampler e r declared arg seed) = ByName NGrid) by now intros ->.
  destruct (build_sampler e r declared arg seed) as [x1 b1]. destruct (build_sampler e' r' declared arg' seed) as [x2 b2]. cbn [fst snd] in *. subst b2.
  destruct (bind b1 _) as [k|ex]; [|reflexivity].
  pose proof (windows_related e e' r r' t t' declared k T T' n d seed (Some w) st ts wu (Z.to_nat w) arg arg' x1 x2 0 RE) as WR.
  destruct (start_windows e r t _ _ _ _ _ _) as [y1 r1]. destruct (start_windows e' r' t' _ _ _ _ _ _) as [y2 r2]. cbn [snd] in *.
  rewrite WR; [reflexivity|]. destruct S as [S|S]; [now left|]. right. now apply KG.
Qed.
Print Assumptions C101_reproducible_partial.
(** A sampler that is wrapped four times keeps the state of its generator: the same seed
    does not make two searches the same. *)
Theorem C101_reproducible_refuted : exists s s' g declared size n,
  alike s s' /\ (forall q x, generator_at s q x -> forall y, x <> Hidden y) /\
  forall e r t, exists p p',
    snd (launch e r t declared size g (mk_args (Instance true s) (Some n) (Word Maximize) (Some 42%Z) None None (1 # 2) None) true) = Ok p /\
    snd (launch e r t declared size g (mk_args (Instance true s') (Some n) (Word Maximize) (Some 42%Z) None None (1 # 2) None) true) = Ok p' /\ p <> p'.
Proof.
  set (wrap s := Sampler (KOther 0) NoGen NoSampler NoSampler s).
  set (inner x := Sampler KRandom (Exposed (Held x)) NoSampler NoSampler NoSampler).
  exists (wrap (wrap (wrap (wrap (inner 0))))), (wrap (wrap (wrap (wrap (inner 1))))), (mk_strategy [[]] (fun _ => false)), [1], 5%Z, 3%Z.
  split; [|split].
  - repeat constructor.
  - intros q x G y ->. repeat match goal with H : generator_at _ _ _ |- _ => inversion H; subst; clear H end.
  - intros e r t. do 2 eexists. split; [reflexivity|]. split; [reflexivity|]. discriminate.
Qed.
Print Assumptions C101_reproducible_refuted.
(** A TPE sampler with its random sampler, used before, in two windows. *)
Example C101_ex : let s := Sampler KTpe (Exposed (Held 3)) (Sampler KRandom (Exposed (Held 9)) NoSampler NoSampler NoSampler) NoSampler NoSampler in
  reachable s /\
  snd (launch (Held 0) (fun s => s) (fun s => s) [1] 5 (mk_strategy [[]] (fun _ => false)) (mk_args (Instance true s) (Some 3%Z) (Word Maximize) (Some 42%Z) (Some 2%Z) None (1 # 2) None) true) =
  Ok (mk_plan [mk_start (Sampler KTpe (Exposed (Seeded 42)) (Sampler KRandom (Exposed (Seeded 1000045)) NoSampler NoSampler NoSampler) NoSampler NoSampler) 3 Maximize;
               mk_start (Sampler KTpe (Exposed (Seeded 43)) (Sampler KRandom (Exposed (Seeded 1000046)) NoSampler NoSampler NoSampler) NoSampler NoSampler) 3 Maximize] false).
Proof.
  split; [|reflexivity]. intros p g G. repeat match goal with H : generator_at _ _ _ |- _ => inversion H; subst; clear H end; cbn; (split; [lia|discriminate]).
Qed.
