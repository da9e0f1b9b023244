(** Proofs about the start of an optimization (C100, C101). *)
From Verif Require Export LaunchSpec.
Open Scope nat_scope.

(** ** Samplers *)
Lemma reseed_at : forall s z d p g, generator_at (reseed z d s) p g <->
  exists g0, generator_at s p g0 /\ g = (if d + length p <=? 3 then set_gen g0 (z + 1000003 * weight p) else g0).
Proof.
  induction s as [|k g0 a IHa b IHb c IHc]; intros z d p g; cbn [reseed].
  - split; [intros H; inversion H|intros (x & H & _); inversion H].
  - destruct (3 <? d) eqn:D.
    + apply Nat.ltb_lt in D. assert (E : forall n, (d + n <=? 3) = false) by (intros n; apply Nat.leb_gt; lia).
      split; [intros H; exists g; split; [exact H|now rewrite E]|intros (x & H & ->); now rewrite E].
    + apply Nat.ltb_ge in D. split.
      * intros H. inversion H as [? ? ? ? ?|? ? ? ? ? p0 y0 H6|? ? ? ? ? p0 y0 H6|? ? ? ? ? p0 y0 H6]; subst.
        -- exists g0. split; [constructor|]. cbn [length weight]. rewrite Nat.add_0_r. replace (d <=? 3) with true by (symmetry; now apply Nat.leb_le). f_equal. lia.
        -- apply IHa in H6. destruct H6 as (x & X & ->). exists x. split; [now constructor|]. cbn [length weight]. rewrite <- plus_n_Sm. cbn [Nat.add]. destruct (S (d + length p0) <=? 3); [f_equal; lia|reflexivity].
        -- apply IHb in H6. destruct H6 as (x & X & ->). exists x. split; [now constructor|]. cbn [length weight]. rewrite <- plus_n_Sm. cbn [Nat.add]. destruct (S (d + length p0) <=? 3); [f_equal; lia|reflexivity].
        -- apply IHc in H6. destruct H6 as (x & X & ->). exists x. split; [now constructor|]. cbn [length weight]. rewrite <- plus_n_Sm. cbn [Nat.add]. destruct (S (d + length p0) <=? 3); [f_equal; lia|reflexivity].
      * intros (x & H & ->). inversion H as [? ? ? ? ?|? ? ? ? ? p0 y0 H6|? ? ? ? ? p0 y0 H6|? ? ? ? ? p0 y0 H6]; subst; cbn [length weight].
        -- rewrite Nat.add_0_r. replace (d <=? 3) with true by (symmetry; now apply Nat.leb_le). replace (z + 1000003 * 0)%Z with z by lia. constructor.
        -- constructor. apply IHa. exists x. split; [assumption|]. rewrite <- plus_n_Sm. cbn [Nat.add]. destruct (S (d + length p0) <=? 3); [f_equal; lia|reflexivity].
        -- constructor. apply IHb. exists x. split; [assumption|]. rewrite <- plus_n_Sm. cbn [Nat.add]. destruct (S (d + length p0) <=? 3); [f_equal; lia|reflexivity].
        -- constructor. apply IHc. exists x. split; [assumption|]. rewrite <- plus_n_Sm. cbn [Nat.add]. destruct (S (d + length p0) <=? 3); [f_equal; lia|reflexivity].
Qed.
Lemma alike_gens : forall s s', alike s s' -> forall p g, generator_at s p g -> exists g', generator_at s' p g' /\ same_gen g g'.
Proof.
  induction 1 as [|k g a b c g' a' b' c' G A IHa B IHb C IHc]; intros p x H; inversion H as [? ? ? ? ?|? ? ? ? ? p0 y0 H6|? ? ? ? ? p0 y0 H6|? ? ? ? ? p0 y0 H6]; subst.
  - exists g'. split; [constructor|exact G].
  - destruct (IHa _ _ H6) as (y & Y & S). exists y. split; [now constructor|exact S].
  - destruct (IHb _ _ H6) as (y & Y & S). exists y. split; [now constructor|exact S].
  - destruct (IHc _ _ H6) as (y & Y & S). exists y. split; [now constructor|exact S].
Qed.
Lemma alike_refl : forall s, alike s s.
Proof. induction s as [|k g a IHa b IHb c IHc]; constructor; try assumption. destruct g; constructor. Qed.
Lemma same_gen_sym : forall g h, same_gen g h -> same_gen h g.
Proof. intros g h []; constructor. Qed.
Lemma alike_sym : forall s t, alike s t -> alike t s.
Proof. induction 1; constructor; try assumption. now apply same_gen_sym. Qed.
Lemma alike_trans : forall s t, alike s t -> forall u, alike t u -> alike s u.
Proof.
  induction 1 as [|k g a b c g' a' b' c' G A IHa B IHb C IHc]; intros u U; inversion U; subst; constructor; auto.
  match goal with H : same_gen g' _ |- _ => inversion G; subst; inversion H; constructor end.
Qed.
Lemma set_same_gen : forall g z, same_gen g (set_gen g z).
Proof. intros [] z; constructor. Qed.
Lemma reseed_alike : forall s z d, alike s (reseed z d s).
Proof.
  induction s as [|k g a IHa b IHb c IHc]; intros z d; cbn [reseed]; [constructor|]. destruct (3 <? d); [apply alike_refl|].
  constructor; auto. apply set_same_gen.
Qed.
Lemma reseed_equal : forall s s', alike s s' -> forall z d,
  (forall p g, generator_at s p g -> d + length p <= 3 /\ forall h, g <> Hidden h) -> reseed z d s = reseed z d s'.
Proof.
  induction 1 as [|k g a b c g' a' b' c' G A IHa B IHb C IHc]; intros z d R; [reflexivity|]. cbn [reseed].
  assert (D : (3 <? d) = false). { destruct (R [] g) as [L _]; [constructor|]. cbn in L. apply Nat.ltb_ge. lia. }
  rewrite D. f_equal.
  - destruct G; [reflexivity|reflexivity|]. destruct (R [] (Hidden s)) as [_ N]; [constructor|]. now destruct (N s).
  - apply IHa. intros p x P. destruct (R (RandomSlot :: p) x) as [L N]; [now constructor|]. cbn in L. split; [lia|exact N].
  - apply IHb. intros p x P. destruct (R (IndependentSlot :: p) x) as [L N]; [now constructor|]. cbn in L. split; [lia|exact N].
  - apply IHc. intros p x P. destruct (R (BaseSlot :: p) x) as [L N]; [now constructor|]. cbn in L. split; [lia|exact N].
Qed.
Lemma alike_class : forall s t, alike s t -> same_class s t.
Proof. intros s t []; constructor. Qed.
Lemma weight_pos : forall p, (0 <= weight p)%Z.
Proof. induction p as [|[] p IH]; cbn [weight]; lia. Qed.
Lemma weight_app : forall p q, weight (p ++ q) = (weight p + weight q)%Z.
Proof. induction p as [|[] p IH]; intros q; cbn [weight app]; try rewrite IH; lia. Qed.

Lemma seeded_inj : forall x y, Seeded x = Seeded y -> x = y.
Proof. intros x y E. now injection E as E. Qed.

(** ** The grid of a sampler *)
Definition grid (s : sampler) : option (list nat) := match s with Sampler (KGrid n) _ _ _ _ => Some n | _ => None end.
Lemma grid_is : forall s gr, grid_of_sampler s gr <-> grid s = gr.
Proof.
  intros s gr. split.
  - intros [names g a b c|t N]; [reflexivity|]. destruct t as [|[] g a b c]; try reflexivity. now destruct (N names g a b c).
  - intros <-. destruct s as [|[] g a b c]; cbn; constructor; intros; discriminate.
Qed.
Lemma class_grid : forall s t, same_class s t -> grid s = grid t.
Proof. intros s t []; [reflexivity|]. now destruct k. Qed.
Lemma member_in : forall n l, member n l = true <-> In n l.
Proof.
  intros n l. unfold member. rewrite existsb_exists. split.
  - intros (x & I & E). apply Nat.eqb_eq in E. now subst.
  - intros I. exists n. split; [exact I|apply Nat.eqb_refl].
Qed.
Lemma valid_grid : forall declared s, validate_grid_sampler declared s = Ok tt <-> forall names, grid s = Some names -> incl names declared.
Proof.
  intros declared [|[names| | |x] g a b c]; cbn; try (split; [intros _ ? H; discriminate|reflexivity]).
  destruct (forallb _ names) eqn:F.
  - split; [|reflexivity]. intros _ ns H. injection H as <-. intros n I. rewrite forallb_forall in F. apply member_in. now apply F.
  - split; [discriminate|]. intros H. exfalso. specialize (H names eq_refl).
    assert (T : forallb (fun n => member n declared) names = true) by (apply forallb_forall; intros n I; apply member_in; now apply H). congruence.
Qed.
Lemma covers_grid : forall declared s, covers_declared declared s = Ok tt <-> forall names, grid s = Some names -> incl declared names.
Proof.
  intros declared [|[names| | |x] g a b c]; cbn; try (split; [intros _ ? H; discriminate|reflexivity]).
  destruct (forallb _ declared) eqn:F.
  - split; [|reflexivity]. intros _ ns H. injection H as <-. intros n I. rewrite forallb_forall in F. apply member_in. now apply F.
  - split; [discriminate|]. intros H. exfalso. specialize (H names eq_refl).
    assert (T : forallb (fun n => member n names) declared = true) by (apply forallb_forall; intros n I; apply member_in; now apply H). congruence.
Qed.
Lemma resolved : forall size n s m, resolve_n_trials size n s = Ok m <-> n = Some m \/ (n = None /\ m = size /\ grid s <> None).
Proof.
  intros size [n|] s m; cbn.
  - split; [intros H; injection H as <-; now left|]. intros [H|[H _]]; [now injection H as <-|discriminate].
  - destruct s as [|[] g a b c]; cbn; split; intros H; try discriminate; try (destruct H as [H|(_ & _ & H)]; [discriminate|now destruct H]).
    + injection H as <-. right. repeat split; discriminate.
    + destruct H as [H|(_ & -> & _)]; [discriminate|reflexivity].
Qed.

Section Launch.
Context (entropy : state) (reseed_rng trials : sampler -> sampler) (declared : list nat) (grid_size : Z).
Hypothesis renew_alike : forall s, alike s (reseed_rng s).
Hypothesis trials_alike : forall s, alike s (trials s).
Notation build := (build_sampler entropy reseed_rng declared).

(** The argument of a call as later windows find it. *)
Inductive kept : sampler_arg -> sampler_arg -> Prop :=
| kept_same a : kept a a
| kept_own s t : alike s t -> kept (Instance false s) (Instance false t).
Lemma kept_trans : forall a b c, kept a b -> kept b c -> kept a c.
Proof. intros a b c K L. destruct K; [exact L|]. inversion L; subst; constructor; [assumption|]. eapply alike_trans; eassumption. Qed.
Lemma build_known : forall a seed, a <> ByName NUnknown -> exists s, snd (build a seed) = Ok s /\ of_kind declared a s /\ kept a (fst (build a seed)) /\
  (forall c i, a = Instance c i -> s = match seed with Some z => reseed z 0 i | None => reseed_rng i end).
Proof.
  intros [[| | |]|c i] seed N; try (now destruct N); cbn [build_sampler fst snd].
  - eexists. split; [reflexivity|]. split; [now eexists|]. split; [constructor|discriminate].
  - eexists. split; [reflexivity|]. split; [now do 2 eexists|]. split; [constructor|discriminate].
  - eexists. split; [reflexivity|]. split; [now eexists|]. split; [constructor|discriminate].
  - eexists. split; [reflexivity|]. assert (A : alike i match seed with Some z => reseed z 0 i | None => reseed_rng i end)
      by (destruct seed; [apply reseed_alike|apply renew_alike]).
    split; [now apply alike_class|]. split; [destruct c; constructor; exact A|]. intros c' i' E. now injection E as <- <-.
Qed.
Lemma build_unknown : forall seed, build (ByName NUnknown) seed = (ByName NUnknown, Raise ValueErr).
Proof. reflexivity. Qed.
Definition arg_grid (a : sampler_arg) : option (list nat) :=
  match a with ByName NGrid => Some declared | ByName _ => None | Instance _ s => grid s end.
Lemma kind_grid : forall a s, of_kind declared a s -> grid s = arg_grid a.
Proof.
  intros [[| | |]|c i] s K; cbn in *.
  - now destruct K as [g ->].
  - now destruct K as (g & g' & ->).
  - now destruct K as [g ->].
  - destruct K.
  - symmetry. now apply class_grid.
Qed.
Lemma kept_kind : forall a b s, kept a b -> of_kind declared b s -> of_kind declared a s.
Proof.
  intros a b s K. destruct K as [|i t A]; [auto|]. cbn. intros C. apply alike_class in A. destruct A; inversion C; subst; constructor.
Qed.
Lemma kept_known : forall a b, kept a b -> a <> ByName NUnknown -> b <> ByName NUnknown.
Proof. intros a b [] N; [exact N|discriminate]. Qed.
Lemma kept_grid : forall a b, kept a b -> arg_grid a = arg_grid b.
Proof. intros a b []; [reflexivity|]. cbn. apply class_grid. now apply alike_class. Qed.

(** ** Windows *)
Lemma windows_started : forall a n count arg index l,
  snd (start_windows entropy reseed_rng trials declared arg a n index count) = Ok l ->
  length l = count /\
  forall i st, nth_error l i = Some st -> exists b, kept arg b /\ snd (build b (window_seed (a_seed a) (index + i))) = Ok (p_sampler st) /\
    p_trials st = n /\ a_direction a = Word (p_direction st) /\ covers_declared declared (p_sampler st) = Ok tt.
Proof.
  intros a n. induction count as [|count IH]; intros arg index l; cbn [start_windows].
  - intros H. injection H as <-. split; [reflexivity|]. intros [|i] st H; discriminate.
  - destruct (build arg (window_seed (a_seed a) index)) as [arg1 built] eqn:B.
    destruct (bind built _) as [st|e] eqn:X; [|discriminate].
    set (arg2 := match arg1 with Instance false s => Instance false (trials s) | _ => arg1 end).
    destruct (start_windows _ _ _ _ arg2 a n (S index) count) as [arg3 rest] eqn:R. cbn [snd]. intros H.
    destruct rest as [l'|e]; cbn [bind] in H; [|discriminate]. injection H as <-.
    destruct (IH arg2 (S index) l') as [L N]; [now rewrite R|]. split; [cbn; now rewrite L|].
    destruct built as [s|e]; cbn [bind] in X; [|discriminate].
    destruct (created_direction (a_direction a)) as [d|e] eqn:D; cbn [bind] in X; [|discriminate].
    destruct (covers_declared declared s) as [[]|e] eqn:C; cbn [bind] in X; [|discriminate]. injection X as <-.
    assert (DW : a_direction a = Word d). { destruct (a_direction a); cbn in D; try discriminate. now injection D as <-. }
    assert (K1 : kept arg arg1).
    { destruct (build_known arg (window_seed (a_seed a) index)) as (s0 & S0 & _ & K & _).
      - intros ->. rewrite build_unknown in B. discriminate.
      - rewrite B in K. exact K. }
    assert (K2 : kept arg arg2).
    { apply (kept_trans arg arg1); [exact K1|]. unfold arg2. destruct arg1 as [|[|] s1]; [constructor|constructor|]. apply kept_own. apply trials_alike. }
    intros [|i] st I; cbn [nth_error] in I.
    + injection I as <-. exists arg. rewrite Nat.add_0_r, B. cbn [p_sampler p_trials p_direction snd]. repeat split; [constructor|assumption|assumption].
    + destruct (N i st I) as (b & Kb & Sb & T & Dd & Cc). exists b. split; [exact (kept_trans _ _ _ K2 Kb)|]. rewrite <- plus_n_Sm. now repeat split.
Qed.
Lemma windows_start : forall a n d, a_direction a = Word d -> forall count arg index, arg <> ByName NUnknown ->
  (forall names, arg_grid arg = Some names -> incl declared names) ->
  exists l, snd (start_windows entropy reseed_rng trials declared arg a n index count) = Ok l.
Proof.
  intros a n d D. induction count as [|count IH]; intros arg index N G; cbn [start_windows]; [now exists []|].
  destruct (build_known arg (window_seed (a_seed a) index) N) as (s & S & K & KA & _).
  destruct (build arg (window_seed (a_seed a) index)) as [arg1 built] eqn:B. cbn [snd fst] in S, KA. subst built. cbn [bind]. rewrite D. cbn [created_direction bind].
  assert (C : covers_declared declared s = Ok tt). { apply covers_grid. intros names. rewrite (kind_grid _ _ K). apply G. }
  rewrite C. cbn [bind]. set (arg2 := match arg1 with Instance false s => Instance false (trials s) | _ => arg1 end).
  assert (K2 : kept arg arg2).
  { apply (kept_trans arg arg1); [exact KA|]. unfold arg2. destruct arg1 as [|[|] s1]; [constructor|constructor|]. apply kept_own. apply trials_alike. }
  destruct (IH arg2 (Datatypes.S index)) as [l L]; [now apply (kept_known _ _ K2)|now rewrite <- (kept_grid _ _ K2)|].
  destruct (start_windows _ _ _ _ arg2 a n (Datatypes.S index) count) as [arg3 rest]. cbn [snd] in *. rewrite L. cbn [bind]. now eexists.
Qed.
Lemma windows_arg : forall a n count arg index, (forall s, arg <> Instance false s) ->
  fst (start_windows entropy reseed_rng trials declared arg a n index count) = arg.
Proof.
  intros a n. induction count as [|count IH]; intros arg index N; cbn [start_windows]; [reflexivity|].
  assert (F : fst (build arg (window_seed (a_seed a) index)) = arg).
  { destruct arg as [[| | |]|[|] s]; try reflexivity. now destruct (N s). }
  destruct (build arg (window_seed (a_seed a) index)) as [arg1 built] eqn:B. cbn [fst] in F. subst arg1.
  destruct (bind built _); [|reflexivity].
  assert (E : match arg with Instance false s => Instance false (trials s) | _ => arg end = arg).
  { destruct arg as [|[|] s]; try reflexivity. now destruct (N s). }
  rewrite E. specialize (IH arg (S index) N). destruct (start_windows _ _ _ _ arg a n (S index) count) as [arg3 rest]. exact IH.
Qed.
End Launch.
