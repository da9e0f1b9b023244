(** Properties C64 to C67: hyperparameters and their search. *)
From Coq Require Import List Bool Arith ZArith QArith Permutation Lia Lqa.
From Verif Require Import HyperSpec HyperProofs StudyProofs.
Import ListNotations.
Open Scope nat_scope.

(** C64: a declaration is accepted exactly when it is well formed; otherwise the
    constructor raises: a TypeError when the numbers are not all ints or all
    floats, else a ValueError. *)
Theorem C64_declared : forall scale h, short scale h ->
  (post_init scale h = Ok tt <-> well_declared scale h) /\
  (~ uniform h -> post_init scale h = Raise TypeErr) /\
  (uniform h -> ~ well_declared scale h -> post_init scale h = Raise ValueErr).
Proof.
  intros scale h S. split; [now apply post_init_ok|]. split; intros U.
  - rewrite post_init_raises; [|exact S|intros (W & _); tauto].
    replace (forallb is_int (fields h) || forallb is_float (fields h))%bool with false; [easy|]. symmetry. apply orb_false_iff.
    rewrite uniform_bool in U. revert U. unfold fields. destruct (h_default h), (h_low h), (h_high h), (h_step h); cbn; intuition.
  - intros W. rewrite post_init_raises by assumption. apply uniform_bool in U. now destruct U as (_ & [-> | ->]); rewrite ?orb_true_r.
Qed.
Print Assumptions C64_declared.

(** C64: the candidates of an accepted declaration: iterating ends; the i-th value
    is low + i * step exactly, for every i for which that is at most high, and no
    other; the last is high; [len] counts them; all have the declared type. *)
Theorem C64_candidates : forall scale h, short scale h -> post_init scale h = Ok tt -> searchable scale h ->
  exists l, iterates scale h l /\ lattice_count scale h = Ok (Z.of_nat (length l)) /\
    (forall i, i < length l <-> (value scale (h_low h) + inject_Z (Z.of_nat i) * value scale (h_step h) <= value scale (h_high h))%Q) /\
    (forall i v, nth_error l i = Some v ->
       same_type v (h_default h) /\ (value scale v == value scale (h_low h) + inject_Z (Z.of_nat i) * value scale (h_step h))%Q) /\
    nth_error l 0 = Some (h_low h) /\ nth_error l (length l - 1) = Some (h_high h).
Proof.
  intros scale h S P L. apply post_init_ok in P; [|exact S]. apply value_lt in L.
  destruct (lattice_spec scale h P S L) as (n & E & C & V). destruct P as (U & Sp & _). apply value_pos in Sp.
  exists (line scale h n). rewrite line_length. split; [now exists (n + 2)|]. split; [exact C|]. split; [|split; [|split]].
  - intros i. rewrite value_line_le, E. split; nia.
  - intros i v N. assert (I : i < n + 1) by (rewrite <- (line_length scale h n); apply nth_error_Some; congruence).
    destruct (units_line scale h n i U I) as (w & W & T & Uw). assert (v = w) by congruence. subst w. split; [exact T|]. now apply value_line.
  - destruct (units_line scale h n 0 U) as (w & W & T & Uw); [lia|]. rewrite W. f_equal. apply (units_inj scale); [|lia].
    apply same_type_trans with (h_default h); [exact T|apply U].
  - replace (n + 1 - 1) with n by lia. destruct (units_line scale h n n U) as (w & W & T & Uw); [lia|]. rewrite W. f_equal. apply (units_inj scale); [|lia].
    apply same_type_trans with (h_default h); [exact T|apply U].
Qed.
Print Assumptions C64_candidates.

(** C64: a fixed hyperparameter has no candidates: [len] and iteration raise. *)
Theorem C64_fixed : forall scale h fuel, (value scale (h_low h) == value scale (h_high h))%Q ->
  lattice_count scale h = Raise TypeErr /\ lattice_values scale fuel h = Raise TypeErr.
Proof.
  intros scale h fuel E. assert (U : units scale (h_low h) = units scale (h_high h)) by (apply Z.le_antisymm; apply value_le; rewrite E; apply Qle_refl).
  unfold lattice_values, lattice_count. rewrite U, Z.eqb_refl. easy.
Qed.
Print Assumptions C64_fixed.

(** C64: outside the guard: there are declarations the constructor accepts whose
    iteration never ends. *)
Theorem C64_long_decimals_never_end : exists scale h, post_init scale h = Ok tt /\ uniform h /\ searchable scale h /\
  forall fuel, lattice_values scale fuel h = Ok None.
Proof. exact long_never. Qed.
Print Assumptions C64_long_decimals_never_end.

(** [0.1, 0.25] to [0.7] in steps of 0.15, and an integer range. *)
Definition ex_float := mk_hyper 1 (PFloat 25) (PFloat 10) (PFloat 70) (PFloat 15).
Definition ex_int := mk_hyper 2 (PInt 10) (PInt 5) (PInt 15) (PInt 5).
Example ex_C64 : short 2 ex_float /\ post_init 2 ex_float = Ok tt /\ searchable 2 ex_float /\
  lattice_values 2 6 ex_float = Ok (Some [PFloat 10; PFloat 25; PFloat 40; PFloat 55; PFloat 70]) /\
  short 2 ex_int /\ post_init 2 ex_int = Ok tt /\ lattice_values 2 4 ex_int = Ok (Some [PInt 5; PInt 10; PInt 15]).
Proof. repeat split; vm_compute; reflexivity. Qed.

(** C65: the values of a run: every declared name, in the declared order, with the
    given value if there is one and else its default. *)
Theorem C65_run_values : forall (specs : list (nat * hyper)) (overrides : params), NoDup (map fst overrides) ->
  ((forall name, In name (map fst overrides) -> In name (map fst specs)) ->
     exists d, build_run h_default specs overrides = Ok d /\ map fst d = map fst specs /\
       forall name, dict_get d name = run_value specs overrides name) /\
  ((exists name, In name (map fst overrides) /\ ~ In name (map fst specs)) ->
     build_run h_default specs overrides = Raise ValueErr).
Proof.
  intros specs overrides N. split; [now apply build_run_ok|]. intros H. now apply merge_raises.
Qed.
Print Assumptions C65_run_values.

(** C65: the keyword arguments an indicator is called with: the same arguments in
    the same order, each hyperparameter replaced by the run's value of its name,
    every other argument untouched; a name without a value raises a KeyError. *)
Theorem C65_arguments : forall V (mapping : list (nat * kwarg V)) (p : list (nat * V)),
  ((forall key h, In (key, KHyper h) mapping -> In (h_name h) (map fst p)) ->
     exists d, resolve_hyperparams mapping p = Ok d /\ length d = length mapping /\
       forall i key k, nth_error mapping i = Some (key, k) ->
         exists v, nth_error d i = Some (key, v) /\
           match k with KHyper h => dict_get p (h_name h) = Some v | KVal v' => v = v' end) /\
  ((exists key h, In (key, KHyper h) mapping /\ ~ In (h_name h) (map fst p)) -> resolve_hyperparams mapping p = Raise KeyErr).
Proof.
  intros V mapping p. split; [|apply resolve_raises]. intros H. destruct (resolve_ok mapping p H) as (d & E & F). exists d. split; [exact E|].
  clear E H. induction F as [|[key k] [key' v] mapping d (A & B) F IH]; [split; [easy|intros [|i]; easy]|]. destruct IH as (L & G).
  split; [cbn; lia|]. intros [|i] key0 k0 N; cbn [nth_error] in *; [|now apply G].
  injection N as <- <-. cbn in *. subst key'. exists v. split; [easy|]. exact B.
Qed.
Print Assumptions C65_arguments.

Example ex_C65 : build_run h_default [(1, ex_float); (2, ex_int)] [(2, PInt 5)] = Ok [(1, PFloat 25); (2, PInt 5)] /\
  resolve_hyperparams [(7, KHyper ex_int); (8, KVal (PInt 3))] [(1, PFloat 25); (2, PInt 5)] = Ok [(7, PInt 5); (8, PInt 3)].
Proof. split; reflexivity. Qed.

(** C66: grid search: with any number of workers and any schedule, the study is
    the one the sequential search makes, from any study and for any budget; and
    one raises when the other does. *)
Theorem C66_grid_workers : forall evaluate grids n study order,
  complete (length grids) order ->
  (forall out, grid_parallel evaluate order grids n study = Ok out <-> grid_sequential evaluate n grids study = Ok out).
Proof.
  intros evaluate grids n study order C out. rewrite grid_parallel_ok, grid_sequential_iff; [reflexivity|].
  intros i I. apply C. rewrite firstn_length, skipn_length in I. lia.
Qed.
Print Assumptions C66_grid_workers.

(** C66: random search: batches of any size, evaluated in any order, make the study
    and leave the generator as the sequential search does. *)
Theorem C66_random_workers : forall evaluate (rng : Type) (draw : rng -> params * rng) workers orders n g study,
  1 <= workers -> (forall r, complete (Nat.min workers r) (orders r)) ->
  forall g' out, random_parallel evaluate draw n workers n orders g study = Ok (g', out) <->
                 random_sequential evaluate draw n g study = Ok (g', out).
Proof.
  intros evaluate rng draw workers orders n g study W C g' out. rewrite random_parallel_iff, random_sequential_iff by (assumption || lia). reflexivity.
Qed.
Print Assumptions C66_random_workers.

(** C66: what a study records: the points tried, in order, each with the score it
    earned; a score that is None, NaN or not a number is recorded as failed and
    the search goes on. *)
Theorem C66_recorded : forall evaluate grids n study out, grid_sequential evaluate n grids study = Ok out ->
  exists trials, out = study ++ trials /\ map t_params trials = firstn n (skipn (length study) grids) /\
    forall t, In t trials -> exists s, evaluate (t_params t) = Ok s /\
      t_score t = match s with SNan | SNone | SOther => None | _ => Some s end.
Proof.
  intros evaluate grids n study out E. apply grid_sequential_ok in E. destruct E as (ts & -> & T). exists ts. split; [easy|].
  induction T as [|p s ps ts V T IH]; [easy|]. destruct IH as (M & F). split; [cbn; now rewrite M|]. intros t [<-|I]; [|auto].
  exists s. split; [exact V|]. now destruct s.
Qed.
Print Assumptions C66_recorded.

Definition ex_eval (p : params) : res score := Ok (match p with [(1, PInt 2)] => SNan | [(1, PInt z)] => SNum (inject_Z z) | _ => SNone end).
Example ex_C66 : complete 3 [2; 0; 1] /\
  grid_parallel ex_eval [2; 0; 1] [[(1, PInt 5)]; [(1, PInt 2)]; [(1, PInt 9)]] 2 [] =
  Ok [mk_trial [(1, PInt 5)] (Some (SNum 5)); mk_trial [(1, PInt 2)] None].
Proof. split; [|reflexivity]. intros i I. cbn. lia. Qed.

(** ** C67: the winner of a grid search *)
Lemma dict_ext {V} : forall (a b : list (nat * V)), map fst a = map fst b -> NoDup (map fst a) -> (forall k, dict_get a k = dict_get b k) -> a = b.
Proof.
  induction a as [|[k v] a IH]; intros [|[k' v'] b] K N G; try discriminate; [easy|]. cbn in K. injection K as -> K. inversion N; subst.
  pose proof (G k') as G0. cbn in G0. rewrite Nat.eqb_refl in G0. injection G0 as ->. f_equal. apply IH; [exact K|easy|].
  intros j. specialize (G j). cbn in G. destruct (Nat.eqb_spec j k') as [E|]; [|exact G]. subst j.
  transitivity (@None V); [now apply dict_get_none|]. symmetry. apply dict_get_none. now rewrite <- K.
Qed.
Lemma space_in scale specs name h : In (name, h) (search_space scale specs) <-> In (name, h) specs /\ searchable scale h.
Proof.
  unfold search_space. rewrite filter_In. unfold searchable. rewrite value_lt. now rewrite Z.ltb_lt.
Qed.
Lemma filter_keys {V} f (l : list (nat * V)) : NoDup (map fst l) -> NoDup (map fst (filter f l)).
Proof.
  induction l as [|x l IH]; cbn; [easy|]. intros N. inversion N; subst. destruct (f x); cbn; [|auto]. constructor; [|auto].
  intros I. apply H1. apply in_map_iff in I. destruct I as (y & E & I). apply filter_In in I. apply in_map_iff. exists y. tauto.
Qed.

Lemma failed_numeric s : failed_score s = false <-> numeric s.
Proof. now destruct s. Qed.

Section Winner.
Context (scale : nat) (specs : list (nat * hyper)).
Context (names : NoDup (map fst specs)) (accepted : forall name h, In (name, h) specs -> post_init scale h = Ok tt /\ short scale h).
Let space := search_space scale specs.
Let sorted := sort_names space.
Lemma space_sound : Forall (fun x => sound scale (snd x)) sorted.
Proof.
  apply Forall_forall. intros [n h] I. unfold sorted in I. rewrite sort_names_perm in I. apply space_in in I. destruct I as [I S].
  destruct (accepted n h I). now repeat split.
Qed.
Lemma sorted_names : NoDup (map fst sorted).
Proof. unfold sorted. rewrite sort_names_perm. now apply filter_keys. Qed.

Definition fits (x : nat * hyper) (y : nat * list pynum) : Prop :=
  fst x = fst y /\ iterates scale (snd x) (snd y) /\ lattice_count scale (snd x) = Ok (Z.of_nat (length (snd y))).
Lemma points_assign grid p : Forall2 fits sorted grid -> In p (product grid) -> assigns scale specs p.
Proof.
  intros F P. apply product_in in P.
  assert (K : map fst p = map fst sorted).
  { clear - F P. revert p P. induction F as [|x y s g (E & _) F IH]; intros p P; inversion P; subst; [easy|]. cbn. destruct H1. f_equal; [congruence|now apply IH]. }
  split; [|split].
  - rewrite K. apply sorted_names.
  - intros name. rewrite K. unfold sorted. rewrite sort_names_perm. rewrite in_map_iff. split.
    + intros ([n h] & <- & I). apply space_in in I. now exists h.
    + intros (h & I). exists (name, h). split; [easy|]. now apply space_in.
  - intros name v h l I Ih Il.
    assert (G : exists h' l', In (name, h') sorted /\ iterates scale h' l' /\ In v l').
    { clear - F P I. revert p P I. induction F as [|[a h1] [b l1] s g (E & J & _) F IH]; intros p P I; inversion P; subst; [easy|]. cbn [fst snd] in *.
      destruct I as [->|I].
      - destruct H1 as [A B]. cbn in *. subst. exists h1, l1. repeat split; [now left|exact J|exact B].
      - destruct (IH _ H3 I) as (h2 & l2 & X & Y & Z). exists h2, l2. split; [now right|easy]. }
    destruct G as (h' & l' & X & Y & Z). unfold sorted in X. rewrite sort_names_perm in X. apply space_in in X. destruct X as [X _].
    assert (h' = h). { apply (dict_in_get specs) in X; [|exact names]. apply (dict_in_get specs) in Ih; [|exact names]. congruence. }
    subst. now rewrite (iterates_fun scale h l l' Il Y).
Qed.
Lemma assign_point grid p : Forall2 fits sorted grid -> assigns scale specs p ->
  exists q, In q (product grid) /\ forall name, dict_get q name = dict_get p name.
Proof.
  intros F (N & K & A).
  exists (map (fun x => (fst x, match dict_get p (fst x) with Some v => v | None => POther end)) sorted). split.
  - apply product_in.
    assert (G : forall s, Forall2 fits s grid -> (forall x, In x s -> In x sorted) -> Forall2 (fun (x : nat * list pynum) (y : nat * pynum) => fst y = fst x /\ In (snd y) (snd x)) grid
       (map (fun x => (fst x, match dict_get p (fst x) with Some v => v | None => POther end)) s)).
    { clear F. intros s F. induction F as [|[n h] [n' l] s g (E & I & _) F IH]; intros Sub; cbn [map]; constructor; cbn [fst snd] in *.
      - split; [exact E|]. assert (J : In (n, h) sorted) by (apply Sub; now left). unfold sorted in J. rewrite sort_names_perm in J. apply space_in in J.
        assert (B : In n (map fst p)) by (apply K; exists h; exact J). destruct (dict_get p n) as [v|] eqn:G; [|apply dict_get_none in G; tauto].
        apply (A n v h l); [now apply dict_get_in|apply J|exact I].
      - apply IH. intros x X. apply Sub. now right. }
    now apply G.
  - intros name.
    assert (G : forall s, dict_get (map (fun x : nat * hyper => (fst x, match dict_get p (fst x) with Some v => v | None => POther end)) s) name
                = if in_dec Nat.eq_dec name (map fst s) then Some (match dict_get p name with Some v => v | None => POther end) else None).
    { clear. induction s as [|[n h] s IH]; [easy|]. cbn [map dict_get fst]. destruct (Nat.eqb_spec name n) as [->|D].
      - destruct (in_dec Nat.eq_dec n (n :: map fst s)) as [|X]; [easy|]. destruct X. now left.
      - rewrite IH. destruct (in_dec Nat.eq_dec name (map fst s)) as [I|I], (in_dec Nat.eq_dec name (n :: map fst s)) as [J|J]; try easy.
        + destruct J. now right.
        + destruct J; [congruence|tauto]. }
    rewrite G. destruct (in_dec Nat.eq_dec name (map fst sorted)) as [I|I].
    + unfold sorted in I. rewrite sort_names_perm in I. apply in_map_iff in I. destruct I as ([n h] & <- & I). apply space_in in I.
      assert (B : In n (map fst p)) by (apply K; exists h; exact I). cbn [fst]. destruct (dict_get p n) eqn:E; [easy|]. apply dict_get_none in E. tauto.
    + symmetry. apply dict_get_none. intros J. apply K in J. destruct J as (h & J). apply space_in in J. apply I. unfold sorted. rewrite sort_names_perm.
      now apply (in_map fst) in J.
Qed.
Lemma assigns_declared p : assigns scale specs p -> NoDup (map fst p) /\ forall n, In n (map fst p) -> In n (map fst specs).
Proof. intros (N & K & _). split; [exact N|]. intros n I. apply K in I. destruct I as (h & I & _). now apply (in_map fst) in I. Qed.

Lemma run_of_fun p a b : run_of specs p a -> run_of specs p b -> a = b.
Proof. intros [A1 A2] [B1 B2]. apply dict_ext; [congruence|now rewrite A1|]. intros k. now rewrite A2, B2. Qed.

Lemma optimum : exists fuel, forall more (maximize : bool) (shuffle : list params -> list params) workers order backtest,
  (forall l, Permutation (shuffle l) l) -> (forall n, complete n (order n)) -> never_raises backtest ->
  exists study : list trial,
    (forall p, In p (map t_params study) -> assigns scale specs p) /\ NoDup (map t_params study) /\
    (forall p, assigns scale specs p -> exists q, In q (map t_params study) /\ forall name, dict_get q name = dict_get p name) /\
    match optimize_grid scale (fuel + more) maximize specs None shuffle workers order backtest with
    | Ok None => False
    | Ok (Some (st, (values, s))) =>
        st = study /\
        (exists p, assigns scale specs p /\ run_of specs p values /\ backtest values = Ok s /\ numeric s) /\
        (forall p values' s', assigns scale specs p -> run_of specs p values' -> backtest values' = Ok s' -> numeric s' ->
           as_good maximize s s')
    | Raise e => e = ValueErr /\ forall p values' s', assigns scale specs p -> run_of specs p values' -> backtest values' = Ok s' -> ~ numeric s'
    end.
Proof.
  destruct (candidates_ok scale sorted space_sound) as (fuel & grid & G). exists fuel. intros more maximize shuffle workers order backtest Sh Co NR.
  destruct (G more) as [G1 G2]. fold fits in G2. unfold optimize_grid, sampler_grid. fold space. fold sorted. rewrite G1. cbn [bind].
  set (points := shuffle (product grid)).
  assert (Pin : forall p, In p points <-> In p (product grid)) by (intros p; unfold points; now rewrite Sh).
  assert (Gs : grid_size scale space = Ok (Z.of_nat (length points))).
  { transitivity (grid_size scale sorted); [symmetry; apply grid_size_perm; [apply sort_names_perm|exact space_sound]|].
    rewrite (product_length scale sorted grid G2). unfold points. now rewrite Sh. }
  cbn [resolve_n_trials]. rewrite Gs. cbn [bind]. rewrite Nat2Z.id.
  assert (Ev : forall p, In p points -> exists values s, run_of specs p values /\ backtest values = Ok s /\ score_overrides specs backtest p = Ok s).
  { intros p I. apply Pin in I. pose proof (points_assign grid p G2 I) as A. destruct (assigns_declared p A) as [N D].
    destruct (build_run_ok specs p N D) as (d & B & K & V). destruct (NR d) as [s S]. exists d, s. split; [now split|]. split; [exact S|].
    unfold score_overrides. now rewrite B. }
  assert (T : exists ts, tries (score_overrides specs backtest) points ts).
  { clear - Ev. induction points as [|p ps IH]; [exists []; constructor|]. destruct (Ev p) as (v & s & _ & _ & E); [now left|].
    destruct IH as [ts T]; [intros q Q; apply Ev; now right|]. exists (finish p s :: ts). now constructor. }
  destruct T as [study T]. exists study.
  assert (Par : map t_params study = points) by (clear - T; induction T; cbn; congruence). rewrite Par.
  split; [intros p I; apply Pin in I; now apply (points_assign grid)|].
  split; [unfold points; rewrite Sh; apply product_nodup|].
  { pose proof space_sound as S. clear - G2 S. induction G2 as [|[n h] [n' l] s g (E & I & _) F IH]; [constructor|]. inversion S; subst. constructor; [|now apply IH].
    cbn in *. destruct (sound_iterates scale h H1) as (m & _ & _ & V). rewrite (iterates_fun scale h l (line scale h m)); [now apply line_nodup|exact I|now exists (m + 2)]. }
  split. { intros p A. destruct (assign_point grid p G2 A) as (q & Q & Dq). exists q. split; [now apply Pin|exact Dq]. }
  assert (Run : (if workers <=? 1 then grid_sequential (score_overrides specs backtest) (length points) points []
                 else grid_parallel (score_overrides specs backtest) (order (length points)) points (length points) []) = Ok study).
  { destruct (workers <=? 1).
    - apply grid_sequential_iff. exists study. split; [easy|]. cbn [length skipn]. now rewrite firstn_all.
    - apply grid_parallel_ok; [cbn [length skipn]; rewrite firstn_all; apply Co|]. exists study. split; [easy|]. cbn [length skipn]. now rewrite firstn_all. }
  rewrite Run. cbn [bind]. unfold winner.
  assert (St : forall p values s, assigns scale specs p -> run_of specs p values -> backtest values = Ok s -> exists t, In t study /\ t = finish (t_params t) s).
  { intros p values s A R B. destruct (assign_point grid p G2 A) as (q & Q & Dq). apply Pin in Q.
    destruct (Ev q Q) as (v' & s' & R' & B' & E'). assert (v' = values).
    { apply (run_of_fun p); [|exact R]. destruct R' as [R1 R2]. split; [exact R1|]. intros n. rewrite R2. unfold run_value. now rewrite Dq. }
    subst. assert (s' = s) by congruence. subst. clear - T Q E'. induction T as [|p0 s0 ps ts V T IH]; [easy|]. destruct Q as [->|Q].
    - exists (finish q s). split; [left|easy]. congruence.
    - destruct (IH Q) as (t & I & F). exists t. split; [now right|exact F]. }
  assert (Ts : forall t s, In t study -> t_score t = Some s -> exists values, assigns scale specs (t_params t) /\ run_of specs (t_params t) values /\ backtest values = Ok s
                /\ build_run h_default specs (t_params t) = Ok values).
  { intros t s I Sc. assert (P : In (t_params t) points) by (rewrite <- Par; now apply in_map). destruct (Ev _ P) as (v & s' & R & B & E).
    assert (A : assigns scale specs (t_params t)) by (apply (points_assign grid); [exact G2|now apply Pin]).
    exists v. split; [exact A|]. split; [exact R|].
    assert (s = s').
    { clear - T I Sc E. induction T as [|p0 s0 ps ts V T IH]; [easy|]. destruct I as [<-|I]; [|auto]. cbn in *. destruct (failed_score s0); congruence. }
    subst. split; [exact B|]. destruct (assigns_declared _ A) as [N D]. destruct (build_run_ok specs _ N D) as (d & Bd & K & V).
    rewrite Bd. f_equal. apply (run_of_fun (t_params t)); [now split|exact R]. }
  pose proof (best_trial_spec maximize study None (tries_scored _ _ _ T)) as Best. destruct (best_trial maximize study None) as [[p s]|].
  - destruct Best as (Fs & [D|(t & I & <- & Sc)] & _ & H); [discriminate|discriminate|]. destruct (Ts t s I Sc) as (v & A & R & B & Bd). rewrite Bd. cbn [bind].
    split; [easy|]. split; [exists (t_params t); now apply failed_numeric in Fs|]. intros p' v' s' A' R' B' F'. apply failed_numeric in F'. destruct (St p' v' s' A' R' B') as (t' & I' & E').
    apply (H t'); [exact I'|]. rewrite E'. cbn. now rewrite F'.
  - destruct Best as (_ & H); [discriminate|]. split; [easy|]. intros p' v' s' A' R' B'. destruct (St p' v' s' A' R' B') as (t' & I' & E').
    specialize (H t' I'). rewrite E' in H. cbn in H. rewrite <- failed_numeric. now destruct (failed_score s').
Qed.
End Winner.

(** C67: [optimize] with the grid sampler and its default number of trials: every
    combination of candidates is tried exactly once, and the returned values are
    those of a combination whose score is as good as that of every combination;
    with any order of the grid, any number of workers and any schedule. When every
    combination's score is undefined, [optimize] raises. *)
Theorem C67_optimum : forall scale specs,
  NoDup (map fst specs) -> (forall name h, In (name, h) specs -> post_init scale h = Ok tt /\ short scale h) ->
  exists fuel, forall more maximize shuffle workers order backtest,
  (forall l : list params, Permutation (shuffle l) l) -> (forall n, complete n (order n)) -> never_raises backtest ->
  exists study : list trial,
    (forall p, In p (map t_params study) -> assigns scale specs p) /\ NoDup (map t_params study) /\
    (forall p, assigns scale specs p -> exists q, In q (map t_params study) /\ forall name, dict_get q name = dict_get p name) /\
    match optimize_grid scale (fuel + more) maximize specs None shuffle workers order backtest with
    | Ok None => False
    | Ok (Some (st, (values, s))) =>
        st = study /\
        (exists p, assigns scale specs p /\ run_of specs p values /\ backtest values = Ok s /\ numeric s) /\
        (forall p values' s', assigns scale specs p -> run_of specs p values' -> backtest values' = Ok s' -> numeric s' ->
           as_good maximize s s')
    | Raise e => e = ValueErr /\ forall p values' s', assigns scale specs p -> run_of specs p values' -> backtest values' = Ok s' -> ~ numeric s'
    end.
Proof. intros scale specs N D. now apply optimum. Qed.
Print Assumptions C67_optimum.

(** C67: the number of workers and the schedule change neither the outcome nor the
    study, whatever the number of trials. *)
Theorem C67_workers : forall scale fuel maximize specs n_trials shuffle backtest workers order workers' order',
  (forall n, complete n (order n)) -> (forall n, complete n (order' n)) ->
  forall out, optimize_grid scale fuel maximize specs n_trials shuffle workers order backtest = Ok out <->
              optimize_grid scale fuel maximize specs n_trials shuffle workers' order' backtest = Ok out.
Proof.
  intros scale fuel maximize specs n_trials shuffle backtest workers order workers' order' C C' out.
  unfold optimize_grid. destruct (sampler_grid _ _ _) as [[grid|]|]; cbn [bind]; [|reflexivity|reflexivity].
  destruct (resolve_n_trials _ _ _ _) as [n|]; cbn [bind]; [|reflexivity]. set (grids := shuffle (product grid)). set (ev := score_overrides specs backtest).
  assert (G : forall w o, (forall n, complete n (o n)) -> forall f : list trial -> res (option (list trial * (params * score))),
    bind (if w <=? 1 then grid_sequential ev n grids [] else grid_parallel ev (o (length grids)) grids n []) f = Ok out <->
    bind (grid_sequential ev n grids []) f = Ok out).
  { intros w o Co f. destruct (w <=? 1); [reflexivity|]. pose proof (C66_grid_workers ev grids n [] (o (length grids)) (Co _)) as E.
    destruct (grid_sequential ev n grids []) as [a|e].
    - destruct (E a) as [_ ->]; reflexivity.
    - destruct (grid_parallel ev (o (length grids)) grids n []) as [a|e']; cbn [bind]; [|split; discriminate]. destruct (E a) as [E1 _]. discriminate (E1 eq_refl). }
  rewrite (G workers order C), (G workers' order' C'). reflexivity.
Qed.
Print Assumptions C67_workers.

(** Two hyperparameters, one of them fixed; the score is undefined at the default. *)
Definition ex_specs := [(1, mk_hyper 1 (PInt 3) (PInt 3) (PInt 3) (PInt 1)); (2, ex_int)].
Definition ex_backtest (values : params) : res score :=
  Ok (match dict_get values 2 with Some (PInt 10) => SNan | Some (PInt z) => SNum (inject_Z z) | _ => SNone end).
Example ex_C67 : NoDup (map fst ex_specs) /\ (forall name h, In (name, h) ex_specs -> post_init 2 h = Ok tt /\ short 2 h) /\
  (forall n, complete n (seq 0 n)) /\ never_raises ex_backtest /\
  optimize_grid 2 10 false ex_specs None (fun l => l) 4 (seq 0) ex_backtest =
  Ok (Some ([mk_trial [(2, PInt 5)] (Some (SNum 5)); mk_trial [(2, PInt 10)] None; mk_trial [(2, PInt 15)] (Some (SNum 15))],
            ([(1, PInt 3); (2, PInt 5)], SNum 5))).
Proof.
  split; [repeat constructor; cbn; lia|]. split; [|split; [intros n i I; apply in_seq; lia|split; [intros p; now eexists|vm_compute; reflexivity]]].
  intros name h [[= <- <-]|[[= <- <-]|[]]]; split; vm_compute; reflexivity.
Qed.
