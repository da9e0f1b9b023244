(** Proofs about declarations, candidates and run values (C64, C65). *)
From Coq Require Import List Bool Arith ZArith QArith Permutation Lia Lqa Psatz.
From Verif Require Import HyperSpec.
Import ListNotations.
Open Scope Z_scope.

Lemma coeff_pos : 0 < coefficients. Proof. reflexivity. Qed.
Lemma round28_id z : Z.abs z < 10 ^ 28 -> round28 z = z.
Proof.
  intros H. unfold round28. change (10 ^ 28) with coefficients in H.
  assert (E : excess (S (Z.to_nat (Z.log2 (Z.abs z)))) 1 (Z.abs z) = 1).
  { cbn [excess]. rewrite Z.mul_1_r. destruct (Z.ltb_spec (Z.abs z) coefficients); [easy|lia]. }
  rewrite E. rewrite Z.div_1_r, Z.mod_1_r. cbn [Z.mul]. destruct (Z.ltb_spec 1 0); [lia|].
  destruct (Z.eqb_spec 0 1); [lia|]. cbn [orb andb]. rewrite Z.mul_1_r. rewrite Z.mul_comm. apply Z.abs_sgn.
Qed.

Section One.
Context (scale : nat).
Notation U := (units scale).
Definition ten : Z := 10 ^ Z.of_nat scale.
Lemma ten_pos : 0 < ten. Proof. apply Z.pow_pos_nonneg; lia. Qed.
Lemma value_units x : (value scale x == inject_Z (U x) / inject_Z ten)%Q.
Proof.
  pose proof ten_pos as P.
  assert (N : ~ (inject_Z ten == 0)%Q) by (unfold Qeq; cbn; lia).
  destruct x as [z|z|b|]; cbn [value units]; fold ten.
  - rewrite inject_Z_mult. field. exact N.
  - reflexivity.
  - unfold Qdiv. now rewrite Qmult_0_l.
  - unfold Qdiv. now rewrite Qmult_0_l.
Qed.
Lemma q_le a b : (inject_Z a / inject_Z ten <= inject_Z b / inject_Z ten)%Q <-> a <= b.
Proof.
  pose proof ten_pos as P. split; intros H.
  - apply (Qmult_le_compat_r _ _ (inject_Z ten)) in H; [|unfold Qle; cbn; lia].
    unfold Qdiv in H. rewrite <- !Qmult_assoc, (Qmult_comm (/ _)), Qmult_inv_r, !Qmult_1_r in H by (unfold Qeq; cbn; lia).
    now rewrite <- Zle_Qle in H.
  - apply Qmult_le_compat_r; [now rewrite <- Zle_Qle|]. apply Qinv_le_0_compat. unfold Qle; cbn; lia.
Qed.
Lemma value_le x y : (value scale x <= value scale y)%Q <-> U x <= U y.
Proof. rewrite !value_units. apply q_le. Qed.
Lemma value_lt x y : (value scale x < value scale y)%Q <-> U x < U y.
Proof. pose proof (value_le y x). split; intros H0; [|apply Qnot_le_lt; intros H1; apply H in H1; lia]. apply Qlt_not_le in H0. destruct (Z.lt_ge_cases (U x) (U y)); [easy|]. tauto. Qed.
Lemma value_pos x : (0 < value scale x)%Q <-> 0 < U x.
Proof. pose proof (value_lt POther x) as H. exact H. Qed.
Lemma value_line x low step i : (value scale x == value scale low + inject_Z i * value scale step)%Q <-> U x = U low + i * U step.
Proof.
  rewrite !value_units. pose proof ten_pos as P. assert (N : ~ (inject_Z ten == 0)%Q) by (unfold Qeq; cbn; lia).
  assert (E : (inject_Z (U low) / inject_Z ten + inject_Z i * (inject_Z (U step) / inject_Z ten)
               == inject_Z (U low + i * U step) / inject_Z ten)%Q).
  { rewrite inject_Z_plus, inject_Z_mult. field. exact N. }
  rewrite E. split; intros H; [|now rewrite H].
  apply Z.le_antisymm; apply q_le; rewrite H; apply Qle_refl.
Qed.
Lemma value_line_le high low step i : (value scale low + inject_Z i * value scale step <= value scale high)%Q <-> U low + i * U step <= U high.
Proof.
  rewrite !value_units. pose proof ten_pos as P. assert (N : ~ (inject_Z ten == 0)%Q) by (unfold Qeq; cbn; lia).
  assert (E : (inject_Z (U low) / inject_Z ten + inject_Z i * (inject_Z (U step) / inject_Z ten)
               == inject_Z (U low + i * U step) / inject_Z ten)%Q).
  { rewrite inject_Z_plus, inject_Z_mult. field. exact N. }
  rewrite E. apply q_le.
Qed.

Lemma uniform_bool h : uniform h <-> forallb is_number (fields h) = true /\ (forallb is_int (fields h) = true \/ forallb is_float (fields h) = true).
Proof.
  unfold uniform, fields. destruct (h_default h), (h_low h), (h_high h), (h_step h); cbn; intuition (auto; discriminate).
Qed.

Lemma quot_small a b : 0 <= a < 10 ^ 28 -> 0 < b -> Z.abs (Z.quot a b) <? coefficients = true.
Proof.
  intros A B. apply Z.ltb_lt. change coefficients with (10 ^ 28).
  rewrite Z.quot_div_nonneg by lia. rewrite Z.abs_eq by (apply Z.div_pos; lia).
  apply Z.le_lt_trans with a; [|lia]. apply Z.div_le_upper_bound; nia.
Qed.
Lemma dec_mod_exact a b : 0 <= a < 10 ^ 28 -> 0 < b < 10 ^ 28 -> dec_mod a b = Ok (a mod b).
Proof.
  intros A B. unfold dec_mod. rewrite quot_small by lia. rewrite Z.rem_mod_nonneg by lia.
  rewrite round28_id; [easy|]. pose proof (Z.mod_pos_bound a b). lia.
Qed.
Lemma dec_floordiv_exact a b : 0 <= a < 10 ^ 28 -> 0 < b -> dec_floordiv a b = Ok (a / b).
Proof. intros A B. unfold dec_floordiv. rewrite quot_small by lia. now rewrite Z.quot_div_nonneg by lia. Qed.

Lemma steps_iff a b s : 0 < s -> a <= b -> ((b - a) mod s = 0 <-> exists n : nat, b = a + Z.of_nat n * s).
Proof.
  intros S L. split.
  - intros H. apply Z.div_exact in H; [|lia]. exists (Z.to_nat ((b - a) / s)). rewrite Z2Nat.id by (apply Z.div_pos; lia). lia.
  - intros [n ->]. replace (a + Z.of_nat n * s - a) with (Z.of_nat n * s) by lia. apply Z.mod_mul. lia.
Qed.

Lemma post_init_ok h : short scale h -> (post_init scale h = Ok tt <-> well_declared scale h).
Proof.
  intros Sh. unfold short in Sh. unfold well_declared. rewrite value_pos, value_le. rewrite uniform_bool. unfold post_init.
  destruct (forallb is_number (fields h)); cbn [negb]; [|split; [discriminate|intros [[D _] _]; discriminate]].
  destruct (forallb is_int (fields h)) eqn:Ei, (forallb is_float (fields h)) eqn:Ef; cbn [negb andb];
    try (split; [discriminate|intros [[_ [D|D]] _]; discriminate]).
  all: destruct (Z.leb_spec (U (h_step h)) 0); [split; [discriminate|intros (_ & ? & _); lia]|].
  all: destruct (Z.ltb_spec (U (h_high h)) (U (h_low h))); [split; [discriminate|intros (_ & _ & ? & _); lia]|].
  all: assert (G : (exists n : nat, (value scale (h_high h) == value scale (h_low h) + inject_Z (Z.of_nat n) * value scale (h_step h))%Q)
      <-> (U (h_high h) - U (h_low h)) mod U (h_step h) = 0)
    by (rewrite steps_iff by lia; split; intros [n N]; exists n; [now apply value_line|now apply value_line]).
  all: rewrite G; clear G; destruct (Z.eqb_spec (U (h_low h)) (U (h_high h))) as [E|E]; cbn [negb];
    [split; [intros _|easy]; rewrite E, Z.sub_diag, Z.mod_0_l by lia; intuition (try reflexivity; lia)|].
  all: unfold dec_sub; rewrite round28_id by lia; rewrite dec_mod_exact by lia; cbn [bind];
    destruct (Z.eqb_spec ((U (h_high h) - U (h_low h)) mod U (h_step h)) 0); cbn [negb]; intuition (try discriminate; try lia).
Qed.

Lemma post_init_raises h : short scale h -> ~ well_declared scale h ->
  post_init scale h = Raise (if forallb is_int (fields h) || forallb is_float (fields h) then ValueErr else TypeErr).
Proof.
  intros Sh N. assert (P : post_init scale h <> Ok tt) by (intros E; now apply N, post_init_ok). clear N. unfold short in Sh.
  unfold post_init in *.
  destruct (forallb is_number (fields h)) eqn:En; cbn [negb] in *.
  2:{ replace (forallb is_int (fields h) || forallb is_float (fields h)) with false; [easy|]. symmetry.
      revert En. unfold fields. destruct (h_default h), (h_low h), (h_high h), (h_step h); cbn; easy. }
  destruct (forallb is_int (fields h)), (forallb is_float (fields h)); cbn [negb andb orb] in *; try easy.
  all: destruct (Z.leb_spec (U (h_step h)) 0); [easy|].
  all: destruct (Z.ltb_spec (U (h_high h)) (U (h_low h))); [easy|].
  all: destruct (Z.eqb_spec (U (h_low h)) (U (h_high h))) as [E|E]; cbn [negb] in *; [easy|].
  all: unfold dec_sub in *; rewrite round28_id in * by lia; rewrite dec_mod_exact in * by lia; cbn [bind] in *.
  all: destruct (Z.eqb_spec ((U (h_high h) - U (h_low h)) mod U (h_step h)) 0); cbn [negb] in *; easy.
Qed.

Lemma lattice_loop_line add step high : 0 < step -> forall n val, high = val + Z.of_nat n * step ->
  (forall v, val <= v <= high -> add v step = v + step) ->
  forall more, lattice_loop add (n + 2 + more) val high step = Some (map (fun i => val + Z.of_nat i * step) (seq 0 (n + 1))).
Proof.
  intros S n. induction n as [|n IH]; intros val E A more.
  - cbn [Nat.add lattice_loop seq map]. destruct (Z.leb_spec val high); [|lia]. rewrite A by lia.
    destruct (Z.leb_spec (val + step) high); [lia|]. cbn. do 2 f_equal. lia.
  - cbn [Nat.add lattice_loop]. destruct (Z.leb_spec val high); [|lia]. rewrite A by lia.
    rewrite IH; [|lia|intros v V; apply A; lia]. cbn [option_map Nat.add seq map]. f_equal. f_equal; [lia|].
    rewrite <- seq_shift, map_map. apply map_ext. intros i. lia.
Qed.

Definition line (h : hyper) (n : nat) : list pynum :=
  map (fun i => match h_default h with PFloat _ => PFloat (U (h_low h) + Z.of_nat i * U (h_step h))
                | _ => PInt (int_of (h_low h) + Z.of_nat i * int_of (h_step h)) end) (seq 0 (n + 1)).

Lemma lattice_spec h : well_declared scale h -> short scale h -> U (h_low h) < U (h_high h) ->
  exists n : nat, U (h_high h) = U (h_low h) + Z.of_nat n * U (h_step h) /\ lattice_count scale h = Ok (Z.of_nat (n + 1)) /\
    forall more, lattice_values scale (n + 2 + more) h = Ok (Some (line h n)).
Proof.
  intros (Un & Sp & Le & n & N) Sh Lt. apply value_pos in Sp. apply value_line in N. unfold short in Sh.
  exists n. split; [exact N|].
  assert (C : lattice_count scale h = Ok (Z.of_nat (n + 1))).
  { unfold lattice_count. destruct (Z.eqb_spec (U (h_low h)) (U (h_high h))); [lia|].
    destruct (h_default h) eqn:Ed; cbn [is_float]; unfold uniform in Un; rewrite Ed in Un; cbn in Un; try tauto.
    - destruct (h_low h), (h_high h), (h_step h); try tauto. cbn [int_of]. cbn [units] in *. fold ten in *. pose proof ten_pos.
      f_equal. replace (z1 - z0) with (Z.of_nat n * z2) by nia. rewrite Z.div_mul by nia. lia.
    - unfold dec_sub. rewrite round28_id by lia. rewrite dec_floordiv_exact by lia. cbn [bind]. f_equal.
      replace (U (h_high h) - U (h_low h)) with (Z.of_nat n * U (h_step h)) by lia. rewrite Z.div_mul by lia. lia. }
  split; [exact C|]. intros more. unfold lattice_values. rewrite C. cbn [bind].
  destruct (Z.eqb_spec (U (h_low h)) (U (h_high h))); [lia|]. destruct (Z.eqb_spec (Z.of_nat (n + 1)) 0); [lia|].
  unfold line. destruct (h_default h) eqn:Ed; cbn [is_float]; unfold uniform in Un; rewrite Ed in Un; cbn in Un; try tauto.
  - destruct (h_low h), (h_high h), (h_step h); try tauto. cbn [int_of]. cbn [units] in *. fold ten in *. pose proof ten_pos.
    rewrite (lattice_loop_line Z.add) by (try easy; nia). cbn [option_map]. now rewrite map_map.
  - rewrite (lattice_loop_line dec_add); [cbn [option_map]; now rewrite map_map|lia|lia|].
    intros v V. unfold dec_add. apply round28_id. lia.
Qed.
Lemma units_line h n i : uniform h -> (i < n + 1)%nat -> exists v, nth_error (line h n) i = Some v /\ same_type v (h_default h) /\
  U v = U (h_low h) + Z.of_nat i * U (h_step h).
Proof.
  intros Un L. unfold line.
  assert (E : nth_error (seq 0 (n + 1)) i = Some i).
  { rewrite (nth_error_nth' _ 0%nat) by (rewrite seq_length; lia). now rewrite seq_nth by lia. }
  eexists. split; [apply map_nth_error; exact E|].
  unfold uniform in Un. destruct (h_default h); cbn in *; try tauto.
  destruct (h_low h), (h_step h); try tauto. split; [easy|]. cbn. fold ten. ring.
Qed.
Lemma line_length h n : length (line h n) = (n + 1)%nat.
Proof. unfold line. now rewrite map_length, seq_length. Qed.
Lemma units_inj a b : same_type a b -> U a = U b -> a = b.
Proof. pose proof ten_pos. destruct a, b; cbn; try tauto; fold ten; intros _ E; f_equal; nia. Qed.
Lemma same_type_sym a b : same_type a b -> same_type b a. Proof. destruct a, b; cbn; tauto. Qed.
Lemma same_type_trans a b c : same_type a b -> same_type b c -> same_type a c. Proof. destruct a, b, c; cbn; tauto. Qed.
End One.

Lemma long_never : exists scale h, post_init scale h = Ok tt /\ uniform h /\ (value scale (h_low h) < value scale (h_high h))%Q /\
  forall fuel, lattice_values scale fuel h = Ok None.
Proof.
  exists 30%nat, (mk_hyper 0 (PFloat (10 ^ 30)) (PFloat (10 ^ 30)) (PFloat (10 ^ 30 + 200000000000000)) (PFloat 1)).
  split; [vm_compute; reflexivity|]. split; [vm_compute; tauto|]. split; [vm_compute; reflexivity|].
  intros fuel. unfold lattice_values.
  assert (F : forall f, lattice_loop dec_add f (10 ^ 30) (10 ^ 30 + 200000000000000) 1 = None).
  { induction f as [|f IH]; [easy|]. cbn [lattice_loop]. change (10 ^ 30 <=? 10 ^ 30 + 200000000000000) with true.
    change (dec_add (10 ^ 30) 1) with (10 ^ 30) || replace (dec_add (10 ^ 30) 1) with (10 ^ 30) by (vm_compute; reflexivity).
    now rewrite IH. }
  cbn [h_low h_high h_step h_default units is_float]. rewrite F. vm_compute. reflexivity.
Qed.

(** ** Run values *)
Lemma dict_get_in {V} (d : list (nat * V)) k v : dict_get d k = Some v -> In (k, v) d.
Proof.
  induction d as [|[k' v'] d IH]; cbn; [easy|]. destruct (Nat.eqb_spec k k') as [->|N]; [intros [= ->]; now left|intros H; right; auto].
Qed.
Lemma dict_get_none {V} (d : list (nat * V)) k : dict_get d k = None <-> ~ In k (map fst d).
Proof.
  induction d as [|[k' v'] d IH]; cbn; [tauto|]. destruct (Nat.eqb_spec k k') as [->|N]; [split; [easy|intros H; now destruct H; left]|].
  rewrite IH. split; [intros H [E|E]; [now apply N|tauto]|tauto].
Qed.
Lemma dict_in_get {V} (d : list (nat * V)) k v : NoDup (map fst d) -> In (k, v) d -> dict_get d k = Some v.
Proof.
  induction d as [|[k' v'] d IH]; cbn; [easy|]. intros N [E|I].
  - injection E as -> ->. now rewrite Nat.eqb_refl.
  - inversion N; subst. destruct (Nat.eqb_spec k k') as [->|D]; [|auto]. exfalso. apply H1. now apply (in_map fst) in I.
Qed.
Lemma dict_has_in {V} (d : list (nat * V)) k : dict_has d k = true <-> In k (map fst d).
Proof.
  unfold dict_has. destruct (dict_get d k) eqn:E; [split; [intros _; apply dict_get_in in E; now apply (in_map fst) in E|easy]|].
  apply dict_get_none in E. split; [easy|tauto].
Qed.
Lemma dict_get_set {V} (d : list (nat * V)) k v k' : dict_get (dict_set d k v) k' = if Nat.eqb k' k then Some v else dict_get d k'.
Proof.
  induction d as [|[a b] d IH]; cbn; [now destruct (Nat.eqb_spec k' k)|].
  destruct (Nat.eqb_spec k a) as [->|N]; cbn; [now destruct (Nat.eqb k' a)|].
  rewrite IH. destruct (Nat.eqb_spec k' a) as [->|N']; [|easy]. destruct (Nat.eqb_spec a k); [congruence|easy].
Qed.
Lemma dict_set_keys {V} (d : list (nat * V)) k v : In k (map fst d) -> map fst (dict_set d k v) = map fst d.
Proof.
  induction d as [|[a b] d IH]; cbn; [easy|]. destruct (Nat.eqb_spec k a) as [->|N]; [easy|]. intros [E|I]; [congruence|]. cbn. now rewrite IH.
Qed.
Lemma dict_get_map {S V} (f : S -> V) (d : list (nat * S)) k : dict_get (map (fun '(n, s) => (n, f s)) d) k = option_map f (dict_get d k).
Proof. induction d as [|[a b] d IH]; cbn; [easy|]. now destruct (Nat.eqb k a). Qed.

Lemma merge_ok {S V} (specs : list (nat * S)) : forall (overrides result : list (nat * V)),
  map fst result = map fst specs -> NoDup (map fst overrides) ->
  (forall n, In n (map fst overrides) -> In n (map fst specs)) ->
  exists d, merge_overrides specs result overrides = Ok d /\ map fst d = map fst specs /\
    forall n, dict_get d n = match dict_get overrides n with Some v => Some v | None => dict_get result n end.
Proof.
  induction overrides as [|[n v] r IH]; intros result K N I; cbn [merge_overrides].
  - exists result. repeat split; auto.
  - assert (Hn : In n (map fst specs)) by (apply I; now left).
    replace (dict_has specs n) with true by (symmetry; now apply dict_has_in). inversion N; subst.
    destruct (IH (dict_set result n v)) as (d & E & Kd & G); [rewrite dict_set_keys; congruence|easy|intros m M; apply I; now right|].
    exists d. split; [exact E|]. split; [exact Kd|]. intros m. rewrite G, dict_get_set. cbn [dict_get].
    destruct (Nat.eqb_spec m n) as [->|D]; [|easy]. apply dict_get_none in H1. now rewrite H1.
Qed.
Lemma merge_raises {S V} (specs : list (nat * S)) : forall (overrides result : list (nat * V)),
  (exists n, In n (map fst overrides) /\ ~ In n (map fst specs)) -> merge_overrides specs result overrides = Raise ValueErr.
Proof.
  induction overrides as [|[n v] r IH]; intros result (m & M & O); cbn in M; [easy|]. cbn [merge_overrides].
  destruct (dict_has specs n) eqn:E; [|easy]. apply IH. exists m. split; [|exact O]. destruct M as [->|M]; [|exact M].
  apply dict_has_in in E. tauto.
Qed.
Lemma build_run_ok (specs : list (nat * hyper)) (overrides : params) : NoDup (map fst overrides) ->
  (forall n, In n (map fst overrides) -> In n (map fst specs)) ->
  exists d, build_run h_default specs overrides = Ok d /\ map fst d = map fst specs /\ forall n, dict_get d n = run_value specs overrides n.
Proof.
  intros N I. unfold build_run.
  destruct (merge_ok specs overrides (map (fun '(n, s) => (n, h_default s)) specs)) as (d & E & K & G); [|easy|easy|].
  - rewrite map_map. apply map_ext. now intros [? ?].
  - exists d. split; [exact E|]. split; [exact K|]. intros n. rewrite G. unfold run_value. destruct (dict_get overrides n); [easy|].
    apply dict_get_map.
Qed.

Lemma resolve_ok {V} : forall (mapping : list (nat * kwarg V)) (p : list (nat * V)),
  (forall key h, In (key, KHyper h) mapping -> In (h_name h) (map fst p)) ->
  exists d, resolve_hyperparams mapping p = Ok d /\
    Forall2 (fun arg out => fst out = fst arg /\ match snd arg with KHyper h => dict_get p (h_name h) = Some (snd out) | KVal v => snd out = v end) mapping d.
Proof.
  induction mapping as [|[key k] r IH]; intros p H; cbn [resolve_hyperparams]; [exists []; split; [easy|constructor]|].
  destruct (IH p) as (d & E & F); [intros k' h I; apply (H k' h); now right|].
  destruct k as [h|v].
  - destruct (dict_get p (h_name h)) as [v|] eqn:G; [|apply dict_get_none in G; destruct G; apply (H key h); now left].
    rewrite E. cbn [bind]. exists ((key, v) :: d). split; [easy|]. constructor; [now split|exact F].
  - rewrite E. cbn [bind]. exists ((key, v) :: d). split; [easy|]. constructor; [now split|exact F].
Qed.
Lemma resolve_raises {V} : forall (mapping : list (nat * kwarg V)) (p : list (nat * V)),
  (exists key h, In (key, KHyper h) mapping /\ ~ In (h_name h) (map fst p)) -> resolve_hyperparams mapping p = Raise KeyErr.
Proof.
  induction mapping as [|[key k] r IH]; intros p (k' & h & I & N); [easy|]. cbn [resolve_hyperparams]. destruct I as [E|I].
  - injection E as -> ->. apply dict_get_none in N. now rewrite N.
  - assert (R : resolve_hyperparams r p = Raise KeyErr) by (apply IH; eauto). destruct k as [g|v]; rewrite R; cbn; [|easy].
    now destruct (dict_get p (h_name g)).
Qed.
