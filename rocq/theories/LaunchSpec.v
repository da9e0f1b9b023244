(** Specification of C100 and C101. *)
From Verif Require Export LaunchModel.

(** ** C100: when a search starts *)
(** [names] is the grid that the sampler enumerates; [None] for a sampler without one. *)
Inductive grid_of_sampler : sampler -> option (list nat) -> Prop :=
| grid_some names g a b c : grid_of_sampler (Sampler (KGrid names) g a b c) (Some names)
| grid_none s : (forall names g a b c, s <> Sampler (KGrid names) g a b c) -> grid_of_sampler s None.
(** The grid that a call searches: that of the supplied study's sampler, else of
    [sampler=]. *)
Inductive grid_of (declared : list nat) (a : args) : option (list nat) -> Prop :=
| grid_study st gr : a_study a = Some st -> grid_of_sampler (st_sampler st) gr -> grid_of declared a gr
| grid_named : a_study a = None -> a_sampler a = ByName NGrid -> grid_of declared a (Some declared)
| grid_tpe : a_study a = None -> a_sampler a = ByName NTpe -> grid_of declared a None
| grid_random : a_study a = None -> a_sampler a = ByName NRandom -> grid_of declared a None
| grid_instance c s gr : a_study a = None -> a_sampler a = Instance c s -> grid_of_sampler s gr -> grid_of declared a gr.
(** The direction of a call: that of a supplied study, which [direction=] must name, in
    any spelling; else one of the two words. *)
Inductive direction_of (a : args) : direction -> Prop :=
| dir_study st d : a_study a = Some st -> st_directions st = [d] -> a_direction a = Word d \/ a_direction a = Spelled d -> direction_of a d
| dir_new d : a_study a = None -> a_direction a = Word d -> direction_of a d.
Definition may_search (declared : list nat) (g : strategy) (a : args) : Prop :=
  (0 < a_train_size a < 1)%Q /\
  (forall w, a_warmup a = Some w -> (1 <= w)%Z) /\
  (forall w, a_windows a = Some w -> (1 <= w)%Z) /\
  (forall st w, a_study a = Some st -> a_windows a = Some w -> w = 1%Z) /\
  s_executions g <> [] /\
  (forall models m, In models (s_executions g) -> In m models -> s_trainable g m = false) /\
  exists gr d, grid_of declared a gr /\ direction_of a d /\
    match gr with
    | None => a_n_trials a <> None
    | Some names => forall n, In n names <-> In n declared
    end.
(** The number of studies. *)
Definition studies (a : args) (n : nat) : Prop :=
  match a_windows a with None => n = 1%nat | Some w => Z.of_nat n = w end.
(** A sampler of the same class. *)
Inductive same_class : sampler -> sampler -> Prop :=
| class_none : same_class NoSampler NoSampler
| class_same k g a b c g' a' b' c' : same_class (Sampler k g a b c) (Sampler k g' a' b' c').
(** [s] is a sampler of the kind asked for. *)
Definition of_kind (declared : list nat) (arg : sampler_arg) (s : sampler) : Prop :=
  match arg with
  | ByName NGrid => exists g, s = Sampler (KGrid declared) g NoSampler NoSampler NoSampler
  | ByName NTpe => exists g g', s = Sampler KTpe g (Sampler KRandom g' NoSampler NoSampler NoSampler) NoSampler NoSampler
  | ByName NRandom => exists g, s = Sampler KRandom g NoSampler NoSampler NoSampler
  | ByName NUnknown => False
  | Instance _ i => same_class i s
  end.

(** ** C101: what the generators of a sampler draw from *)
Inductive slot := RandomSlot | IndependentSlot | BaseSlot.
(** The generator of the sampler that is reached through the attributes [p]. *)
Inductive generator_at : sampler -> list slot -> gen -> Prop :=
| at_root k g a b c : generator_at (Sampler k g a b c) [] g
| at_random k g a b c p x : generator_at a p x -> generator_at (Sampler k g a b c) (RandomSlot :: p) x
| at_independent k g a b c p x : generator_at b p x -> generator_at (Sampler k g a b c) (IndependentSlot :: p) x
| at_base k g a b c p x : generator_at c p x -> generator_at (Sampler k g a b c) (BaseSlot :: p) x.
(** What the attributes add to the seed, in units of 1000003. *)
Fixpoint weight (p : list slot) : Z :=
  match p with [] => 0 | RandomSlot :: p => 1 + weight p | IndependentSlot :: p => 2 + weight p | BaseSlot :: p => 3 + weight p end%Z.
Definition seed_of (seed : Z) (window : nat) (p : list slot) : Z := (seed + Z.of_nat window + 1000003 * weight p)%Z.
(** The same sampler but for the states of its generators. *)
Inductive same_gen : gen -> gen -> Prop :=
| same_no_gen : same_gen NoGen NoGen
| same_exposed s t : same_gen (Exposed s) (Exposed t)
| same_hidden s t : same_gen (Hidden s) (Hidden t).
Inductive alike : sampler -> sampler -> Prop :=
| alike_none : alike NoSampler NoSampler
| alike_some k g a b c g' a' b' c' : same_gen g g' -> alike a a' -> alike b b' -> alike c c' ->
    alike (Sampler k g a b c) (Sampler k g' a' b' c').
(** Every generator can be reached: at most four samplers deep, and exposed. *)
Definition reachable (s : sampler) : Prop :=
  forall p g, generator_at s p g -> (length p <= 3)%nat /\ forall h, g <> Hidden h.
(** Two calls that differ in the states of the generators of their sampler only. *)
Inductive same_call : args -> args -> Prop :=
| same_args arg arg' n d seed w st ts wu :
    (exists n, arg = ByName n /\ arg' = ByName n) \/ (exists c c' s s', arg = Instance c s /\ arg' = Instance c' s' /\ alike s s' /\ reachable s) ->
    same_call (mk_args arg n d seed w st ts wu) (mk_args arg' n d seed w st ts wu).
