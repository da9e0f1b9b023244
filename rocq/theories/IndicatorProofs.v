(** Proofs for C68. *)
From Coq Require Import List Bool Arith ZArith QArith Permutation Lia.
From Verif Require Export IndicatorSpec HyperProofs StudyProofs.
Import ListNotations.
Open Scope nat_scope.

(** ** Arguments *)
Definition arg_of (p : params) (declared : nat * kwarg pynum) (given : nat * pynum) : Prop :=
  fst given = fst declared /\ match snd declared with KVal v => snd given = v | KHyper h => dict_get p (h_name h) = Some (snd given) end.
Lemma resolve_iff : forall (m : list (nat * kwarg pynum)) p d, resolve_hyperparams m p = Ok d <-> Forall2 (arg_of p) m d.
Proof.
  induction m as [|[key k] m IH]; intros p d; cbn [resolve_hyperparams].
  - split; [intros [= <-]; constructor|intros F; inversion F; easy].
  - assert (G : forall v, bind (resolve_hyperparams m p) (fun d => Ok ((key, v) :: d)) = Ok d <-> exists d', d = (key, v) :: d' /\ Forall2 (arg_of p) m d').
    { intros v. destruct (resolve_hyperparams m p) as [x|e] eqn:E; cbn [bind].
      - assert (Fx : Forall2 (arg_of p) m x) by now apply IH. split; [intros [= <-]; now exists x|]. intros (d' & -> & F). apply IH in F. congruence.
      - split; [discriminate|]. intros (d' & _ & F). apply IH in F. congruence. }
    destruct k as [h|v].
    + destruct (dict_get p (h_name h)) as [v|] eqn:E.
      * rewrite G. split.
        -- intros (d' & -> & F). constructor; [split; [easy|exact E]|exact F].
        -- intros F. inversion F as [|a [b c] r t (A & B) F']; subst. cbn in *. subst. exists t. split; [|easy]. congruence.
      * split; [discriminate|]. intros F. inversion F as [|a [b c] r t (A & B) F']; subst. cbn in *. congruence.
    + rewrite G. split.
      * intros (d' & -> & F). constructor; [split; easy|exact F].
      * intros F. inversion F as [|a [b c] r t (A & B) F']; subst. cbn in *. subst. now exists t.
Qed.
Lemma names_in : forall (m : list (nat * kwarg pynum)) n, In n (hyperparam_names m) <-> exists key h, In (key, KHyper h) m /\ h_name h = n.
Proof.
  induction m as [|[key k] m IH]; intros n; cbn [hyperparam_names]; [split; [easy|intros (? & ? & [] & _)]|]. destruct k as [h|v].
  - cbn [In]. rewrite filter_In, IH. split.
    + intros [<-|((key' & h' & I & E) & _)]; [exists key, h; split; [now left|easy]|exists key', h'; split; [now right|easy]].
    + intros (key' & h' & [[= <- <-]|I] & E); [now left|]. destruct (Nat.eqb_spec n (h_name h)); [now left|right]. split; [now exists key', h'|easy].
  - rewrite IH. split; intros (key' & h' & I & E); exists key', h'; (split; [|exact E]); [now right|]. now destruct I.
Qed.
Lemma names_nodup : forall (m : list (nat * kwarg pynum)), NoDup (hyperparam_names m).
Proof.
  induction m as [|[key [h|v]] m IH]; cbn [hyperparam_names]; [constructor| |exact IH]. constructor; [|now apply NoDup_filter].
  rewrite filter_In, Nat.eqb_refl. easy.
Qed.
Lemma specs_get ind : (forall key h key' h', In (key, KHyper h) (i_kwargs ind) -> In (key', KHyper h') (i_kwargs ind) -> h_name h = h_name h' -> h = h') ->
  (forall key h, In (key, KHyper h) (i_kwargs ind) -> dict_get (hyperparam_specs (i_kwargs ind)) (h_name h) = Some h) /\
  NoDup (map fst (hyperparam_specs (i_kwargs ind))).
Proof.
  unfold hyperparam_specs. intros U.
  assert (G : forall (m : list (nat * kwarg pynum)) d, (forall key h, In (key, KHyper h) m -> exists key', In (key', KHyper h) (i_kwargs ind)) ->
    (forall n h, dict_get d n = Some h -> exists key, In (key, KHyper h) (i_kwargs ind) /\ h_name h = n) -> NoDup (map fst d) ->
    let d' := fold_left (fun d '(_, k) => match k with KHyper h => dict_set d (h_name h) h | KVal _ => d end) m d in
    (forall key h, In (key, KHyper h) m -> dict_get d' (h_name h) = Some h) /\ (forall n h, dict_get d n = Some h -> dict_get d' n = Some h) /\ NoDup (map fst d')).
  { induction m as [|[key k] m IH]; intros d M D N; cbn [fold_left]; [easy|]. destruct k as [h|v].
    - destruct (M key h) as (kh & Ih); [now left|].
      destruct (IH (dict_set d (h_name h) h)) as (A & B & C).
      + intros k1 h1 I1. apply (M k1). now right.
      + intros n h1. rewrite dict_get_set. destruct (Nat.eqb_spec n (h_name h)) as [->|]; [intros [= <-]; now exists kh|apply D].
      + destruct (in_dec Nat.eq_dec (h_name h) (map fst d)) as [I|I]; [now rewrite dict_set_keys|].
        clear - N I. induction d as [|[a b] d IH]; cbn in *; [repeat constructor; easy|]. destruct (Nat.eqb_spec (h_name h) a) as [->|]; [tauto|]. cbn. inversion N; subst.
        constructor; [|apply IH; tauto]. intros J. apply H1. clear - J n. assert (G : forall d : list (nat * hyper), In a (map fst (dict_set d (h_name h) h)) -> a <> h_name h -> In a (map fst d)).
        { clear. induction d as [|[x y] d IH]; cbn; [intros [E|[]]; congruence|]. destruct (Nat.eqb_spec (h_name h) x) as [->|]; cbn; [tauto|]. intros [E|J] D; [tauto|right; auto]. }
        apply (G d); [exact J|congruence].
      + cbn. split; [|split; [|exact C]].
        * intros k1 h1 [[= <- <-]|I1]; [|now apply (A k1)]. apply B. now rewrite dict_get_set, Nat.eqb_refl.
        * intros n h1 E. apply B. rewrite dict_get_set. destruct (Nat.eqb_spec n (h_name h)) as [->|]; [|exact E]. f_equal.
          destruct (D _ _ E) as (k1 & I1 & E1). apply (U kh h k1 h1); [exact Ih|exact I1|now symmetry].
    - destruct (IH d) as (A & B & C); [intros k1 h1 I1; apply (M k1); now right|exact D|exact N|]. cbn. split; [|now split].
      intros k1 h1 [[=]|I1]. now apply (A k1). }
  destruct (G (i_kwargs ind) []) as (A & _ & C); [intros k h I; now exists k|easy|constructor|]. now split.
Qed.
(** The values in force. *)
Definition given (ind : indicator) (hps : option params) (vals : params) : Prop :=
  forall key h, In (key, KHyper h) (i_kwargs ind) -> dict_get vals (h_name h) = match hps with Some p => dict_get p (h_name h) | None => Some (h_default h) end.
Lemma arguments_given ind hps vals args : given ind hps vals -> (arguments ind hps args <-> Forall2 (arg_of vals) (i_kwargs ind) args).
Proof.
  unfold given, arguments. intros G.
  assert (S : forall m, (forall x, In x m -> In x (i_kwargs ind)) -> (Forall2 (fun declared given => fst given = fst declared /\
    match snd declared with
    | KVal v => snd given = v
    | KHyper h => match hps with Some p => dict_get p (h_name h) = Some (snd given) | None => snd given = h_default h end
    end) m args <-> Forall2 (arg_of vals) m args)).
  { intros m. revert args. induction m as [|[key k] m IH]; intros args Sub; [split; intros F; inversion F; constructor|].
    assert (R : forall a, (fst a = key /\ match k with KVal v => snd a = v | KHyper h => match hps with Some p => dict_get p (h_name h) = Some (snd a) | None => snd a = h_default h end end)
      <-> arg_of vals (key, k) a).
    { intros a. unfold arg_of. cbn [fst snd]. destruct k as [h|v]; [|reflexivity]. rewrite (G key h) by (apply Sub; now left).
      destruct hps; [reflexivity|]. split; intros [A B]; (split; [exact A|]); congruence. }
    split; intros F; inversion F as [|x y l l' A B]; subst; (constructor; [now apply R in A|]); (apply IH in B; [exact B|]); intros z Z; apply Sub; now right. }
  now apply S.
Qed.
Lemma given_self ind p : given ind (Some p) p. Proof. easy. Qed.
Lemma plain_ok ind hps args : hyperparam_names (i_kwargs ind) = [] -> (arguments ind hps args <-> args = plain_kwargs (i_kwargs ind)).
Proof.
  unfold arguments, plain_kwargs. generalize (i_kwargs ind) as m. intros m. revert args. induction m as [|[key [h|v]] m IH]; intros args E; [split; [intros F; now inversion F|intros ->; constructor]|discriminate|].
  cbn [flat_map app]. split.
  - intros F. inversion F as [|x [a b] l l' (A & B) F']; subst. cbn in *. subst. f_equal. now apply IH.
  - intros ->. constructor; [easy|]. now apply IH.
Qed.
Lemma call_iff ind bars hps s :
  (forall key h key' h', In (key, KHyper h) (i_kwargs ind) -> In (key', KHyper h') (i_kwargs ind) -> h_name h = h_name h' -> h = h') ->
  (call_indicator ind bars hps = Ok s <-> exists args values, arguments ind hps args /\ i_fn ind bars args = Ok (1, values) /\
     length values = length (bd_date bars) /\ s = combine (bd_date bars) values).
Proof.
  intros U. unfold call_indicator.
  assert (Post : forall x : res (nat * list (option Q)), bind x (fun '(dims, values) => if dims =? 1 then to_series (bd_date bars) values else Raise ValueErr) = Ok s <->
    exists values, x = Ok (1, values) /\ length values = length (bd_date bars) /\ s = combine (bd_date bars) values).
  { intros [[dims values]|e]; cbn [bind]; [|split; [discriminate|intros (v & [=] & _)]]. unfold to_series. split.
    - destruct (Nat.eqb_spec dims 1) as [->|]; [|discriminate]. destruct (Nat.eqb_spec (length values) (length (bd_date bars))); [|discriminate].
      intros [= <-]. now exists values.
    - intros (v & [= -> ->] & L & ->). now rewrite Nat.eqb_refl, L, Nat.eqb_refl. }
  rewrite Post. clear Post. destruct (hyperparam_names (i_kwargs ind)) as [|n ns] eqn:N.
  - split.
    + intros (v & E). exists (plain_kwargs (i_kwargs ind)), v. split; [now apply plain_ok|exact E].
    + intros (args & v & A & E). apply plain_ok in A; [|exact N]. subst. now exists v.
  - set (eff := match hps with Some p => Ok p | None => build_run h_default (hyperparam_specs (i_kwargs ind)) [] end).
    assert (He : exists p, eff = Ok p /\ given ind hps p).
    { unfold eff. destruct hps as [p|]; [now exists p|]. cbn [build_run merge_overrides]. eexists. split; [reflexivity|]. intros key h I.
      rewrite dict_get_map. destruct (specs_get ind U) as [S _]. now rewrite (S key h I). }
    destruct He as (p & -> & G). cbn [bind]. split.
    + intros (v & E & L). destruct (resolve_hyperparams (i_kwargs ind) p) as [args|] eqn:R; cbn [bind] in E; [|discriminate].
      exists args, v. split; [|now split]. apply (arguments_given ind hps p args G). now apply resolve_iff.
    + intros (args & v & A & E & L). exists v. split; [|exact L]. apply (arguments_given ind hps p args G) in A. apply resolve_iff in A. rewrite A. exact E.
Qed.

(** ** Tasks *)
Lemma in_turn_iff {A B} (f : A -> res B) : forall l ys, in_turn f l = Ok ys <-> Forall2 (fun x y => f x = Ok y) l ys.
Proof.
  induction l as [|x l IH]; intros ys; cbn [in_turn]; [split; [intros [= <-]; constructor|intros F; inversion F; easy]|].
  destruct (f x) as [y|e] eqn:E; cbn [bind].
  - destruct (in_turn f l) as [t|e] eqn:T; cbn [bind].
    + split; [intros [= <-]; constructor; [exact E|now apply IH]|]. intros F. inversion F as [|a b c d P Q]; subst. apply IH in Q. congruence.
    + split; [discriminate|]. intros F. inversion F as [|a b c d P Q]; subst. apply IH in Q. congruence.
  - split; [discriminate|]. intros F. inversion F as [|a b c d P Q]; subst. congruence.
Qed.
Lemma nth_ext_opt {A} : forall l l' : list A, (forall i, nth_error l i = nth_error l' i) -> l = l'.
Proof.
  induction l as [|x l IH]; intros [|y l'] E; [easy|discriminate (E 0)|discriminate (E 0)|].
  pose proof (E 0) as E0. injection E0 as ->. f_equal. apply IH. intros i. apply (E (S i)).
Qed.
Section PoolTasks.
Context {A B : Type} (f : A -> res B).
Lemma put_slot_nth {C} (l : list C) : forall i x j, nth_error (put_slot l i x) j =
  if Nat.eqb i j then (match nth_error l j with Some _ => Some x | None => None end) else nth_error l j.
Proof. induction l as [|y l IH]; intros [|i] x [|j]; cbn; try easy; now destruct (Nat.eqb i j). Qed.
Lemma put_slot_length {C} (l : list C) : forall i x, length (put_slot l i x) = length l.
Proof. induction l as [|y l IH]; intros [|i] x; cbn; [easy..|]. now rewrite IH. Qed.
Lemma pool_tasks_slots tasks : forall order slots out, pool_tasks f tasks order slots = Ok out -> length slots = length tasks ->
  length out = length tasks /\
  forall i, nth_error out i = if in_dec Nat.eq_dec i order then match nth_error tasks i with Some x => match f x with Ok y => Some (Some y) | Raise _ => None end | None => None end
                              else nth_error slots i.
Proof.
  induction order as [|i r IH]; intros slots out E L; cbn [pool_tasks] in E; [injection E as <-; now split|].
  destruct (nth_error tasks i) as [x|] eqn:N.
  - destruct (f x) as [y|] eqn:F; cbn [bind] in E; [|discriminate]. apply IH in E; [|now rewrite put_slot_length]. destruct E as [L' E]. split; [exact L'|].
    intros j. rewrite E. destruct (in_dec Nat.eq_dec j r) as [I|I], (in_dec Nat.eq_dec j (i :: r)) as [J|J]; [easy|destruct J; now right| |].
    + destruct J as [->|J]; [|tauto]. rewrite put_slot_nth, Nat.eqb_refl, N, F.
      assert (j < length tasks) by (apply nth_error_Some; congruence). destruct (nth_error slots j) eqn:S; [easy|]. apply nth_error_None in S. lia.
    + rewrite put_slot_nth. destruct (Nat.eqb_spec i j) as [->|]; [destruct J; now left|easy].
  - apply IH in E; [|exact L]. destruct E as [L' E]. split; [exact L'|]. intros j. rewrite E.
    destruct (in_dec Nat.eq_dec j r) as [I|I], (in_dec Nat.eq_dec j (i :: r)) as [J|J]; [easy|destruct J; now right| |easy].
    destruct J as [->|J]; [|tauto]. rewrite N. apply nth_error_None. apply nth_error_None in N. lia.
Qed.
Lemma pool_tasks_total tasks ys : Forall2 (fun x y => f x = Ok y) tasks ys -> forall order slots, exists out, pool_tasks f tasks order slots = Ok out.
Proof.
  intros F. induction order as [|i r IH]; intros slots; cbn [pool_tasks]; [now exists slots|].
  destruct (nth_error tasks i) as [x|] eqn:N; [|apply IH].
  assert (exists y, f x = Ok y) as [y ->]. { clear - F N. revert i N. induction F; intros [|i] N; cbn in N; [discriminate..| |]; [injection N as <-; now exists y|now apply (IHF i)]. }
  apply IH.
Qed.
Lemma all_slots_some {C} : forall (l : list (option C)) out, all_slots l = Some out <-> l = map Some out.
Proof.
  induction l as [|[x|] l IH]; intros out; cbn.
  - split; [intros [= <-]; easy|destruct out; easy].
  - destruct (all_slots l) as [t|] eqn:E; cbn.
    + assert (l = map Some t) by now apply IH. subst. split; [intros [= <-]; easy|]. intros M. destruct out as [|y out]; [discriminate|]. injection M as <- M.
      do 2 f_equal. clear - M. revert out M. induction t as [|a t IH]; intros [|b out] M; try discriminate; [easy|]. injection M as <- M. f_equal. now apply IH.
    + split; [discriminate|]. intros M. destruct out as [|y out]; [discriminate|]. injection M as <- M. apply IH in M. congruence.
  - split; [discriminate|destruct out; discriminate].
Qed.
Lemma in_pool_iff order tasks ys : complete (length tasks) order -> (in_pool f order tasks = Ok ys <-> Forall2 (fun x y => f x = Ok y) tasks ys).
Proof.
  intros C.
  assert (D : forall ys, in_pool f order tasks = Ok ys -> Forall2 (fun x y => f x = Ok y) tasks ys).
  { intros zs. unfold in_pool. destruct (pool_tasks f tasks order (map (fun _ => None) tasks)) as [slots|] eqn:P; cbn [bind]; [|discriminate].
    destruct (all_slots slots) as [t|] eqn:S; [|discriminate]. intros [= ->]. apply all_slots_some in S. subst.
    apply pool_tasks_slots in P; [|apply map_length]. destruct P as [L E]. rewrite map_length in L.
    assert (G : forall i, i < length tasks -> exists x y, nth_error tasks i = Some x /\ nth_error zs i = Some y /\ f x = Ok y).
    { intros i I. specialize (E i). destruct (in_dec Nat.eq_dec i order) as [_|J]; [|destruct J; now apply C].
      rewrite nth_error_map in E. destruct (nth_error tasks i) as [x|] eqn:N; [|apply nth_error_None in N; lia].
      destruct (nth_error zs i) as [y|] eqn:Z; [|apply nth_error_None in Z; lia]. cbn in E. exists x, y. destruct (f x); [|discriminate]. injection E as ->. easy. }
    clear - G L. revert zs L G. induction tasks as [|x l IH]; intros [|y zs] L G; try discriminate; [constructor|]. constructor.
    - destruct (G 0) as (a & b & [= <-] & [= <-] & E); [cbn; lia|exact E].
    - apply IH; [cbn in L; lia|]. intros i I. apply (G (S i)). cbn. lia. }
  split; [apply D|]. intros F. destruct (pool_tasks_total tasks ys F order (map (fun _ => None) tasks)) as [slots P].
  assert (exists zs, in_pool f order tasks = Ok zs) as [zs Z].
  { unfold in_pool. rewrite P. cbn [bind]. apply pool_tasks_slots in P; [|apply map_length]. destruct P as [L E].
    enough (exists t, slots = map Some t) as [t ->]. { exists t. destruct (all_slots (map Some t)) as [l|] eqn:X0; [apply all_slots_some in X0|].
      - f_equal. clear - X0. revert l X0. induction t as [|a t IH]; intros [|b l] X0; try discriminate; [easy|]. injection X0 as <- X0. f_equal. now apply IH.
      - assert (X : all_slots (map Some t) = Some t) by now apply all_slots_some. congruence. }
    exists ys. apply nth_ext_opt. intros i. rewrite E, nth_error_map. destruct (in_dec Nat.eq_dec i order) as [I|I].
    - clear - F. revert i. induction F as [|x y l t Q F IH]; intros [|i]; cbn; [easy..|now rewrite Q|apply IH].
    - assert (length tasks <= i) by (destruct (le_lt_dec (length tasks) i); [easy|]; destruct I; now apply C).
      assert (length tasks = length ys) by (clear - F; induction F; cbn; lia).
      rewrite ?nth_error_map, (proj2 (nth_error_None tasks i)), (proj2 (nth_error_None ys i)) by lia. easy. }
  rewrite Z. f_equal. apply D in Z. clear - F Z. revert zs Z. induction F; intros zs Z; inversion Z; subst; [easy|]. f_equal; [congruence|auto].
Qed.
End PoolTasks.
