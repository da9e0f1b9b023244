(** The start of an optimization as a whole (C100, C101). *)
From Verif Require Export LaunchProofs.
Open Scope nat_scope.

Section Start.
Context (entropy : state) (reseed_rng trials : sampler -> sampler) (declared : list nat) (grid_size : Z).
Hypothesis renew_alike : forall s, alike s (reseed_rng s).
Hypothesis trials_alike : forall s, alike s (trials s).
Notation build := (build_sampler entropy reseed_rng declared).
Notation launch := (launch entropy reseed_rng trials declared grid_size).

Lemma q_between : forall q, negb (negb (Qle_bool q 0) && negb (Qle_bool 1 q)) = false <-> (0 < q < 1)%Q.
Proof.
  intros q. rewrite negb_false_iff, andb_true_iff, !negb_true_iff. split.
  - intros [A B]. split; apply Qnot_le_lt; intros H; apply Qle_bool_iff in H; congruence.
  - intros [A B]. split; apply not_true_iff_false; intros H; apply Qle_bool_iff in H; [apply (Qlt_not_le _ _ A H)|apply (Qlt_not_le _ _ B H)].
Qed.
Definition sound_args (g : strategy) (a : args) : Prop :=
  (0 < a_train_size a < 1)%Q /\
  (forall w, a_warmup a = Some w -> (1 <= w)%Z) /\
  (forall w, a_windows a = Some w -> (1 <= w)%Z) /\
  (forall st w, a_study a = Some st -> a_windows a = Some w -> (w <= 1)%Z) /\
  s_executions g <> [] /\
  (forall models m, In models (s_executions g) -> In m models -> s_trainable g m = false).
Lemma checked : forall g a, check_args g a = Ok tt <-> sound_args g a.
Proof.
  intros g a. unfold check_args, sound_args. rewrite <- q_between. destruct (negb (negb _ && _)); [split; [discriminate|now intros [H _]]|].
  assert (W : forall o : option Z, match o with Some w => (w <? 1)%Z | None => false end = false <-> forall w, o = Some w -> (1 <= w)%Z).
  { intros [w|]; [|split; [discriminate|reflexivity]]. rewrite Z.ltb_ge. split; [intros H v E; now injection E as <-|]. intros H. now apply H. }
  rewrite <- (W (a_warmup a)), <- (W (a_windows a)). clear W.
  destruct (match a_warmup a with Some w => (w <? 1)%Z | None => false end); [split; [discriminate|now intros (_ & H & _)]|].
  destruct (match a_windows a with Some w => (w <? 1)%Z | None => false end); [split; [discriminate|now intros (_ & _ & H & _)]|].
  assert (S : match a_study a, a_windows a with Some _, Some w => (1 <? w)%Z | _, _ => false end = false <->
              forall st w, a_study a = Some st -> a_windows a = Some w -> (w <= 1)%Z).
  { destruct (a_study a) as [st|]; [|split; [discriminate|reflexivity]]. destruct (a_windows a) as [w|]; [|split; [discriminate|reflexivity]].
    rewrite Z.ltb_ge. split; [intros H ? v _ E; now injection E as <-|]. intros H. now apply (H st). }
  rewrite <- S. destruct (match a_study a, a_windows a with Some _, Some w => (1 <? w)%Z | _, _ => false end); [split; [discriminate|now intros (_ & _ & _ & H & _)]|].
  unfold validate_optimize_models.
  assert (T : existsb (fun models => existsb (s_trainable g) models) (s_executions g) = false <->
              forall models m, In models (s_executions g) -> In m models -> s_trainable g m = false).
  { rewrite <- not_true_iff_false, existsb_exists. split.
    - intros N models m I J. apply not_true_iff_false. intros E. apply N. exists models. split; [exact I|]. apply existsb_exists. now exists m.
    - intros H (models & I & E). apply existsb_exists in E. destruct E as (m & J & E). rewrite (H models m I J) in E. discriminate. }
  rewrite <- T. destruct (existsb _ (s_executions g)); cbn [bind]; [split; [discriminate|now intros (_ & _ & _ & _ & _ & H)]|].
  destruct (s_executions g); split; try discriminate; try reflexivity.
  - now intros (_ & _ & _ & _ & H & _).
  - intros _. repeat split; discriminate.
Qed.

(** The grid of a call, computed. *)
Definition call_grid (a : args) : option (list nat) :=
  match a_study a with Some st => grid (st_sampler st) | None => arg_grid declared (a_sampler a) end.
Definition known (a : args) : Prop := a_study a = None -> a_sampler a <> ByName NUnknown.
Lemma grid_call : forall a gr, grid_of declared a gr <-> known a /\ call_grid a = gr.
Proof.
  intros a gr. unfold known, call_grid. split.
  - intros H. inversion H as [st x S G|S A|S A|S A|c s x S A G]; subst; rewrite S; try rewrite A; cbn.
    + apply grid_is in G. split; [discriminate|exact G].
    + now split.
    + now split.
    + now split.
    + apply grid_is in G. now split.
  - intros [K <-]. destruct (a_study a) as [st|] eqn:S.
    + apply (grid_study _ _ st); [exact S|]. now apply grid_is.
    + destruct (a_sampler a) as [[| | |]|c s] eqn:A; cbn.
      * now apply grid_named.
      * now apply grid_tpe.
      * now apply grid_random.
      * now destruct (K eq_refl).
      * apply (grid_instance _ _ c s); [exact S|exact A|]. now apply grid_is.
Qed.

(** One study as it is started, for the index of its window. *)
Definition started (a : args) (index : nat) (st : start) : Prop :=
  direction_of a (p_direction st) /\
  (a_n_trials a = Some (p_trials st) \/ (a_n_trials a = None /\ p_trials st = grid_size /\ call_grid a <> None)) /\
  match call_grid a with Some names => forall n, In n names <-> In n declared | None => True end /\
  match a_study a with
  | Some s => p_sampler st = st_sampler s
  | None => exists b, kept (a_sampler a) b /\ snd (build b (window_seed (a_seed a) index)) = Ok (p_sampler st)
  end.
Lemma single : forall a st, snd (start_single entropy reseed_rng declared grid_size a) = Ok st -> started a 0 st.
Proof.
  intros a st. unfold start_single, started. destruct (a_study a) as [s|] eqn:S.
  - cbn [snd]. destruct (validate_study_direction s (a_direction a)) as [d|e] eqn:D; cbn [bind]; [|discriminate].
    destruct (validate_grid_sampler declared (st_sampler s)) as [[]|e] eqn:V; cbn [bind]; [|discriminate].
    destruct (resolve_n_trials grid_size (a_n_trials a) (st_sampler s)) as [n|e] eqn:R; cbn [bind]; [|discriminate].
    destruct (covers_declared declared (st_sampler s)) as [[]|e] eqn:C; cbn [bind]; [|discriminate].
    intros H. injection H as <-. cbn [p_direction p_trials p_sampler]. unfold call_grid. rewrite S.
    assert (CD : forall x, (if dir_eqb x d then Ok x else Raise ValueErr) = Ok d -> x = d).
    { intros x. destruct (dir_eqb x d); [|discriminate]. intros H. now injection H as <-. }
    split; [|split; [now apply resolved|split; [|reflexivity]]].
    + unfold validate_study_direction in D. destruct (a_direction a) as [x|x|] eqn:AD; [| |discriminate];
        destruct (st_directions s) as [|y [|]] eqn:SD; try discriminate;
        destruct (dir_eqb y x) eqn:E; try discriminate; injection D as <-;
        assert (y = x) by (destruct y, x; try discriminate; reflexivity); subst;
        (apply (dir_study a s x); [exact S|exact SD|]); rewrite AD; auto.
    + destruct (grid (st_sampler s)) as [names|] eqn:G; [|exact Logic.I]. intros k. split.
      * now apply (proj1 (valid_grid _ _) V names).
      * now apply (proj1 (covers_grid _ _) C names).
  - destruct (build (a_sampler a) (a_seed a)) as [arg built] eqn:B. cbn [snd].
    destruct built as [s|e]; cbn [bind]; [|discriminate].
    destruct (validate_grid_sampler declared s) as [[]|e] eqn:V; cbn [bind]; [|discriminate].
    destruct (created_direction (a_direction a)) as [d|e] eqn:D; cbn [bind]; [|discriminate].
    destruct (resolve_n_trials grid_size (a_n_trials a) s) as [n|e] eqn:R; cbn [bind]; [|discriminate].
    destruct (covers_declared declared s) as [[]|e] eqn:C; cbn [bind]; [|discriminate].
    intros H. injection H as <-. cbn [p_direction p_trials p_sampler].
    assert (N : a_sampler a <> ByName NUnknown) by (intros E; rewrite E in B; discriminate).
    destruct (build_known entropy reseed_rng declared renew_alike (a_sampler a) (a_seed a) N) as (s' & S' & K & _). rewrite B in S'. cbn in S'. injection S' as <-.
    assert (G : grid s = call_grid a). { unfold call_grid. rewrite S. now apply kind_grid. }
    rewrite <- G. split; [|split; [now apply resolved|split]].
    + apply dir_new; [exact S|]. destruct (a_direction a); cbn in D; try discriminate. now injection D as <-.
    + destruct (grid s) as [names|] eqn:GS; [|exact Logic.I]. intros m. split.
      * now apply (proj1 (valid_grid _ _) V names).
      * now apply (proj1 (covers_grid _ _) C names).
    + exists (a_sampler a). split; [constructor|]. unfold window_seed.
      replace (match a_seed a with Some z => Some (z + Z.of_nat 0)%Z | None => None end) with (a_seed a); [now rewrite B|].
      destruct (a_seed a); [f_equal; lia|reflexivity].
Qed.
Lemma walk : forall a count l, a_study a = None -> snd (start_walkforward entropy reseed_rng trials declared grid_size a count) = Ok l ->
  length l = count /\ forall i st, nth_error l i = Some st -> started a i st.
Proof.
  intros a count l S. unfold start_walkforward. destruct (build (a_sampler a) (a_seed a)) as [arg built] eqn:B.
  destruct built as [s|e]; cbn [bind]; [|discriminate].
  destruct (validate_grid_sampler declared s) as [[]|e] eqn:V; cbn [bind]; [|discriminate].
  destruct (resolve_n_trials grid_size (a_n_trials a) s) as [n|e] eqn:R; [|discriminate].
  intros W. destruct (windows_started _ _ _ _ renew_alike trials_alike _ _ _ _ _ _ W) as [L N]. split; [exact L|].
  assert (NU : a_sampler a <> ByName NUnknown) by (intros E; rewrite E in B; discriminate).
  destruct (build_known entropy reseed_rng declared renew_alike (a_sampler a) (a_seed a) NU) as (s' & S' & K & KA & _).
  rewrite B in S', KA. cbn in S', KA. injection S' as <-.
  assert (G : grid s = call_grid a). { unfold call_grid. rewrite S. now apply kind_grid. }
  intros i st I. destruct (N i st I) as (b & Kb & Sb & T & D & C). unfold started. rewrite S, <- G.
  assert (K2 : kept (a_sampler a) b) by exact (kept_trans _ _ _ KA Kb).
  split; [now apply dir_new|]. split; [rewrite T; now apply resolved|]. split.
  - destruct (grid s) as [names|] eqn:GS; [|exact Logic.I].
    destruct (build_known entropy reseed_rng declared renew_alike b (window_seed (a_seed a) (0 + i)) (kept_known _ _ K2 NU)) as (s2 & S2 & KK & _).
    rewrite Sb in S2. injection S2 as <-. apply (kept_kind _ _ _ _ K2) in KK. apply kind_grid in KK.
    unfold call_grid in G. rewrite S in G. rewrite <- G in KK. intros m. split.
    + now apply (proj1 (valid_grid _ _) V names).
    + apply (proj1 (covers_grid _ _) C names). exact KK.
  - exists b. split; [exact K2|exact Sb].
Qed.
Lemma launched : forall g a ready p, snd (launch g a ready) = Ok p ->
  ready = true /\ sound_args g a /\ studies a (length (p_starts p)) /\ p_warned p = warns grid_size a /\
  forall i st, nth_error (p_starts p) i = Some st -> started a i st.
Proof.
  intros g a ready p. unfold LaunchModel.launch. destruct (check_args g a) as [[]|e] eqn:C; [|discriminate]. apply checked in C.
  destruct ready; [|discriminate].
  assert (ONE : forall p, snd (let (arg, r) := start_single entropy reseed_rng declared grid_size a in (arg, bind r (fun s => Ok (mk_plan [s] (warns grid_size a))))) = Ok p ->
    length (p_starts p) = 1 /\ p_warned p = warns grid_size a /\ forall i st, nth_error (p_starts p) i = Some st -> started a i st).
  { intros q. pose proof (single a) as SG. destruct (start_single _ _ _ _ a) as [arg [st|e]]; cbn [bind snd] in *; [|discriminate].
    intros H. injection H as <-. cbn [p_starts p_warned length]. split; [reflexivity|]. split; [reflexivity|].
    intros [|[|i]] st' H; cbn in H; try discriminate. injection H as <-. now apply SG. }
  intros H. split; [reflexivity|]. split; [exact C|]. unfold studies. destruct (a_windows a) as [w|] eqn:W.
  - destruct (1 <? w)%Z eqn:L.
    + apply Z.ltb_lt in L. assert (S : a_study a = None).
      { destruct (a_study a) as [st|] eqn:S; [|reflexivity]. destruct C as (_ & _ & _ & C & _). specialize (C st w S W). lia. }
      pose proof (walk a (Z.to_nat w)) as WK. destruct (start_walkforward _ _ _ _ _ a (Z.to_nat w)) as [arg [l|e]]; cbn [bind snd] in *; [|discriminate].
      injection H as <-. cbn [p_starts p_warned]. destruct (WK l S eq_refl) as [LE N]. rewrite LE. split; [lia|]. split; [reflexivity|exact N].
    + apply Z.ltb_ge in L. destruct (ONE p H) as (LE & Q & N). rewrite LE. destruct C as (_ & _ & C & _). specialize (C w W). split; [lia|]. now split.
  - destruct (ONE p H) as (LE & Q & N). now split.
Qed.
Lemma launches : forall g a, may_search declared g a -> exists p, snd (launch g a true) = Ok p.
Proof.
  intros g a (T & WU & W & SW & X & M & gr & d & GR & DR & TR).
  unfold LaunchModel.launch. assert (C : check_args g a = Ok tt).
  { apply checked. repeat split; try assumption; try apply T. intros st w S E. specialize (SW st w S E). lia. }
  rewrite C. apply grid_call in GR. destruct GR as [K GC].
  assert (VG : forall s, grid s = gr -> validate_grid_sampler declared s = Ok tt).
  { intros s E. apply valid_grid. intros names N. rewrite E in N. rewrite N in TR. intros n. exact (proj1 (TR n)). }
  assert (CG : forall s, grid s = gr -> covers_declared declared s = Ok tt).
  { intros s E. apply covers_grid. intros names N. rewrite E in N. rewrite N in TR. intros n. exact (proj2 (TR n)). }
  assert (RN : forall s, grid s = gr -> exists n, resolve_n_trials grid_size (a_n_trials a) s = Ok n).
  { intros s E. destruct (a_n_trials a) as [n|] eqn:N; [now exists n|]. exists grid_size. apply resolved. right. repeat split. rewrite E. intros ->. now apply TR. }
  assert (ONE : exists p, snd (let (arg, r) := start_single entropy reseed_rng declared grid_size a in (arg, bind r (fun s => Ok (mk_plan [s] (warns grid_size a))))) = Ok p).
  { unfold start_single. unfold call_grid, known in *. destruct (a_study a) as [st|] eqn:S.
    - inversion DR as [st' d' S' SD AD|d' S']; [|congruence]. subst d'. rewrite S in S'. injection S' as <-.
      assert (VD : validate_study_direction st (a_direction a) = Ok d).
      { destruct AD as [-> | ->]; cbn; rewrite SD; now destruct d. }
      destruct (RN _ GC) as [n RN']. rewrite VD. cbn [bind]. rewrite (VG _ GC). cbn [bind]. rewrite RN'. cbn [bind]. rewrite (CG _ GC). cbn. now eexists.
    - inversion DR as [st' d' S' SD AD|d' S' AD]; [congruence|]. subst d'.
      destruct (build_known entropy reseed_rng declared renew_alike (a_sampler a) (a_seed a) (K eq_refl)) as (s & SB & KK & _).
      destruct (build (a_sampler a) (a_seed a)) as [arg built]. cbn [snd] in SB. subst built. pose proof (kind_grid _ _ _ KK) as KG. rewrite GC in KG.
      destruct (RN _ KG) as [n RN']. cbn [bind]. rewrite (VG _ KG). cbn [bind]. rewrite AD. cbn [created_direction bind]. rewrite RN'. cbn [bind]. rewrite (CG _ KG). cbn. now eexists. }
  destruct (a_windows a) as [w|] eqn:WE; [|exact ONE]. destruct (1 <? w)%Z eqn:L; [|exact ONE]. apply Z.ltb_lt in L.
  assert (S : a_study a = None).
  { destruct (a_study a) as [st|] eqn:S; [|reflexivity]. specialize (SW st w eq_refl eq_refl). lia. }
  unfold start_walkforward, call_grid, known in *. rewrite S in GC, K.
  inversion DR as [st' d' S' SD AD|d' S' AD]; [congruence|]. subst d'.
  destruct (build_known entropy reseed_rng declared renew_alike (a_sampler a) (a_seed a) (K eq_refl)) as (s & SB & KK & KA & _).
  destruct (build (a_sampler a) (a_seed a)) as [arg built]. cbn [snd fst] in SB, KA. subst built. pose proof (kind_grid _ _ _ KK) as KG. rewrite GC in KG.
  destruct (RN _ KG) as [n RN']. cbn [bind]. rewrite (VG _ KG). cbn [bind]. rewrite RN'.
  destruct (windows_start entropy reseed_rng trials declared renew_alike trials_alike a n d AD (Z.to_nat w) arg 0) as [l E].
  - apply (kept_known _ _ KA). now apply K.
  - rewrite <- (kept_grid declared _ _ KA), GC. intros names ->. intros m. exact (proj2 (TR m)).
  - destruct (start_windows _ _ _ _ arg a n 0 (Z.to_nat w)) as [arg3 rest]. cbn [snd] in *. rewrite E. cbn. now eexists.
Qed.
Lemma arg_kept : forall g a ready, (forall s, a_sampler a <> Instance false s) -> fst (launch g a ready) = a_sampler a.
Proof.
  intros g a ready N. unfold LaunchModel.launch. destruct (check_args g a); [|reflexivity]. destruct ready; [|reflexivity].
  assert (F : fst (build (a_sampler a) (a_seed a)) = a_sampler a).
  { destruct (a_sampler a) as [[| | |]|[|] s]; try reflexivity. now destruct (N s). }
  assert (ONE : fst (let (arg, r) := start_single entropy reseed_rng declared grid_size a in (arg, bind r (fun s => Ok (mk_plan [s] (warns grid_size a))))) = a_sampler a).
  { unfold start_single. destruct (a_study a); [reflexivity|]. destruct (build (a_sampler a) (a_seed a)) as [arg built]. exact F. }
  destruct (a_windows a) as [w|]; [|exact ONE]. destruct (1 <? w)%Z; [|exact ONE].
  unfold start_walkforward. destruct (build (a_sampler a) (a_seed a)) as [arg built]. cbn [fst] in F. subst arg.
  destruct (bind built _) as [n|e]; [|reflexivity].
  pose proof (windows_arg entropy reseed_rng trials declared a n (Z.to_nat w) (a_sampler a) 0 N) as WA.
  destruct (start_windows _ _ _ _ _ _ _ _ _) as [arg3 rest]. exact WA.
Qed.
End Start.

(** ** The seed decides *)
Lemma reachable_alike : forall s t, alike s t -> reachable s -> reachable t.
Proof.
  intros s t A R p g G. destruct (alike_gens _ _ (alike_sym _ _ A) p g G) as (g' & G' & S). destruct (R p g' G') as [L N]. split; [exact L|].
  intros h ->. inversion S; subst. now apply (N t0).
Qed.
Definition related (a b : sampler_arg) : Prop :=
  (exists n, a = ByName n /\ b = ByName n) \/ (exists c c' s s', a = Instance c s /\ b = Instance c' s' /\ alike s s' /\ reachable s).
Section Two.
Context (e e' : state) (r r' t t' : sampler -> sampler) (declared : list nat) (size : Z).
Hypothesis t_alike : forall s, alike s (t s).
Hypothesis t_alike' : forall s, alike s (t' s).
Lemma build_related : forall a b seed, related a b -> seed <> None \/ a = ByName NGrid ->
  snd (build_sampler e r declared a seed) = snd (build_sampler e' r' declared b seed) /\
  related (fst (build_sampler e r declared a seed)) (fst (build_sampler e' r' declared b seed)).
Proof.
  intros a b seed [(n & -> & ->)|(c & c' & s & s' & -> & -> & A & R)] S.
  - destruct seed as [z|].
    + destruct n; cbn; split; try reflexivity; left; now eexists.
    + destruct S as [S|E]; [now destruct S|]. injection E as ->. cbn. split; [reflexivity|]. left. now eexists.
  - destruct seed as [z|]; [|destruct S as [S|E]; [now destruct S|discriminate]]. cbn [build_sampler fst snd].
    assert (E : reseed z 0 s = reseed z 0 s') by (apply reseed_equal; [exact A|exact R]).
    split; [now rewrite E|]. assert (X : alike s (reseed z 0 s)) by apply reseed_alike. assert (Y : alike s' (reseed z 0 s')) by apply reseed_alike.
    right. destruct c, c'; do 4 eexists; (split; [reflexivity|split; [reflexivity|split; [|first [exact R|exact (reachable_alike _ _ X R)]]]]).
    + exact A.
    + exact (alike_trans _ _ A _ Y).
    + exact (alike_trans _ _ (alike_sym _ _ X) _ A).
    + rewrite E. apply alike_refl.
Qed.
Lemma trials_related : forall a b, related a b ->
  related (match a with Instance false s => Instance false (t s) | _ => a end) (match b with Instance false s => Instance false (t' s) | _ => b end).
Proof.
  intros a b [(n & -> & ->)|(c & c' & s & s' & -> & -> & A & R)]; [left; now exists n|]. right.
  destruct c, c'; do 4 eexists; (split; [reflexivity|split; [reflexivity|split; [|first [exact R|exact (reachable_alike _ _ (t_alike s) R)]]]]).
  - exact A.
  - exact (alike_trans _ _ A _ (t_alike' s')).
  - exact (alike_trans _ _ (alike_sym _ _ (t_alike s)) _ A).
  - exact (alike_trans _ _ (alike_sym _ _ (t_alike s)) _ (alike_trans _ _ A _ (t_alike' s'))).
Qed.
Lemma named_grid : forall a b, related a b -> a = ByName NGrid -> b = ByName NGrid.
Proof. intros a b [(n & -> & ->)|(c & c' & s & s' & -> & _)] E; [exact E|discriminate]. Qed.
Lemma windows_related : forall n dir seed w st ts wu count a b arg arg' index, related arg arg' -> seed <> None \/ arg = ByName NGrid ->
  snd (start_windows e r t declared arg (mk_args a n dir seed w st ts wu) size index count) =
  snd (start_windows e' r' t' declared arg' (mk_args b n dir seed w st ts wu) size index count).
Proof.
  intros n dir seed w st ts wu. induction count as [|count IH]; intros a b arg arg' index R S; [reflexivity|]. cbn [start_windows a_seed a_direction].
  assert (SW : window_seed seed index <> None \/ arg = ByName NGrid) by (destruct S as [S|S]; [left; destruct seed; [discriminate|now destruct S]|now right]).
  destruct (build_related arg arg' (window_seed seed index) R SW) as [SE RE].
  assert (KG : arg = ByName NGrid -> fst (build_sampler e r declared arg (window_seed seed index)) = ByName NGrid) by now intros ->.
  destruct (build_sampler e r declared arg _) as [arg1 built]. destruct (build_sampler e' r' declared arg' _) as [arg1' built']. cbn [fst snd] in *. subst built'.
  destruct (bind built _) as [st1|ex]; [|reflexivity].
  pose proof (trials_related _ _ RE) as RT.
  specialize (IH a b _ _ (Datatypes.S index) RT). destruct (start_windows e r t _ _ _ _ _ _) as [x rest]. destruct (start_windows e' r' t' _ _ _ _ _ _) as [x' rest']. cbn [snd] in *.
  rewrite IH; [reflexivity|]. destruct S as [S|S]; [now left|]. right. rewrite (KG S). reflexivity.
Qed.
End Two.
