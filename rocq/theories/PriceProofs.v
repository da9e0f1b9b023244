(** Proofs about fill prices: the per-bar cache and rounding to the cent. *)
From Verif Require Import ScopeSpec ScopeProofs Lemmas.
From Coq Require Import Lqa.
Open Scope list_scope.
Open Scope Z_scope.

(** ** Rounding *)
Section rounding.
  Open Scope Q_scope.

  Lemma qfloor_bounds y : inject_Z (Qfloor y) <= y /\ y < inject_Z (Qfloor y) + 1.
  Proof.
    split; [apply Qfloor_le|]. pose proof (Qlt_floor y) as H. rewrite inject_Z_plus in H. exact H.
  Qed.

  Lemma trunc_nonneg y : 0 <= y -> py_trunc y = Qfloor y.
  Proof. intros H. unfold py_trunc. apply Qle_bool_iff in H. now rewrite H. Qed.

  (** The cents of the rounded price. *)
  Definition cents (x : Q) : Z := if Qle_bool 0 x then Qfloor (x * 100 + (1#2)) else (- Qfloor (- x * 100 + (1#2)))%Z.

  Lemma round_cents x : round_float true (Some x) = Some (inject_Z (cents x) / 100).
  Proof.
    unfold round_float, cents. cbn [negb]. destruct (Qle_bool 0 x) eqn:E.
    - apply Qle_bool_iff in E. rewrite trunc_nonneg by lra. easy.
    - assert (x < 0) by (apply Qnot_le_lt; intros H; apply Qle_bool_iff in H; congruence).
      rewrite trunc_nonneg by lra. easy.
  Qed.

  Lemma cents_near x : inject_Z (cents x) - (1#2) <= x * 100 <= inject_Z (cents x) + (1#2).
  Proof.
    unfold cents. destruct (Qle_bool 0 x) eqn:E.
    - pose proof (qfloor_bounds (x * 100 + (1#2))). lra.
    - pose proof (qfloor_bounds (- x * 100 + (1#2))). rewrite inject_Z_opp. lra.
  Qed.

  Lemma div100 a : a / 100 == a * (1#100).
  Proof. reflexivity. Qed.

  Lemma round_near x : - (1#200) <= inject_Z (cents x) / 100 - x <= (1#200).
  Proof. pose proof (cents_near x). rewrite div100. lra. Qed.

  Lemma cents_mono x y : x <= y -> (cents x <= cents y)%Z.
  Proof.
    intros H. unfold cents. destruct (Qle_bool 0 x) eqn:Ex; destruct (Qle_bool 0 y) eqn:Ey.
    - apply Qfloor_resp_le. lra.
    - apply Qle_bool_iff in Ex. assert (0 <= y) by lra. apply Qle_bool_iff in H0. congruence.
    - assert (0 <= Qfloor (- x * 100 + (1#2)))%Z.
      { change 0%Z with (Qfloor 0). apply Qfloor_resp_le.
        assert (x < 0) by (apply Qnot_le_lt; intros K; apply Qle_bool_iff in K; congruence). lra. }
      assert (0 <= Qfloor (y * 100 + (1#2)))%Z.
      { change 0%Z with (Qfloor 0). apply Qfloor_resp_le. apply Qle_bool_iff in Ey. lra. }
      lia.
    - apply Z.opp_le_mono. rewrite !Z.opp_involutive. apply Qfloor_resp_le. lra.
  Qed.

  Lemma floor_half n : Qfloor (inject_Z n + (1#2)) = n.
  Proof.
    pose proof (qfloor_bounds (inject_Z n + (1#2))) as [H1 H2].
    assert (A : inject_Z (Qfloor (inject_Z n + (1#2))) < inject_Z (n + 1)) by (rewrite inject_Z_plus; change (inject_Z 1) with 1; lra).
    assert (B : inject_Z n < inject_Z (Qfloor (inject_Z n + (1#2)) + 1)) by (rewrite inject_Z_plus; change (inject_Z 1) with 1; lra).
    rewrite <- Zlt_Qlt in A, B. lia.
  Qed.

  Lemma cents_exact n x : x == inject_Z n / 100 -> cents x = n.
  Proof.
    intros H. unfold cents. destruct (Qle_bool 0 x) eqn:E.
    - rewrite (Qfloor_comp _ (inject_Z n + (1#2))); [apply floor_half|]. rewrite H. field.
    - rewrite (Qfloor_comp _ (inject_Z (- n) + (1#2))); [rewrite floor_half; lia|]. rewrite H, inject_Z_opp. field.
  Qed.

  (** No whole number of cents is nearer. *)
  Lemma cents_nearest x n : Qabs (inject_Z (cents x) / 100 - x) <= Qabs (inject_Z n / 100 - x).
  Proof.
    pose proof (cents_near x) as [H1 H2]. rewrite !div100.
    destruct (Z.eq_dec n (cents x)) as [->|N]; [lra|].
    assert (C : (n <= cents x - 1 \/ cents x + 1 <= n)%Z) by lia.
    apply Qabs_case; intros; apply Qabs_case; intros;
      (destruct C as [C|C]; rewrite Zle_Qle in C; unfold Z.sub in C; rewrite inject_Z_plus in C;
       change (inject_Z 1) with 1 in C; change (inject_Z (-(1))) with (-(1)) in C; lra).
  Qed.
End rounding.

(** ** The cache *)

(** A read that ignores the cache. *)
Definition plain (s : price_scope) (symbol : nat) (t : PortfolioModel.price_type) : result (option Q) :=
  match t with
  | PortfolioModel.PTOpen => column_value s symbol col_open
  | PortfolioModel.PTHigh => column_value s symbol col_high
  | PortfolioModel.PTLow => column_value s symbol col_low
  | PortfolioModel.PTClose => column_value s symbol col_close
  | PortfolioModel.PTMiddle =>
      bind (column_value s symbol col_low) (fun low =>
      bind (column_value s symbol col_high) (fun high => Ok (fadd low (fdiv (fsub high low) 2))))
  | PortfolioModel.PTAverage =>
      bind (column_value s symbol col_open) (fun open =>
      bind (column_value s symbol col_low) (fun low =>
      bind (column_value s symbol col_high) (fun high =>
      bind (column_value s symbol col_close) (fun close =>
      Ok (fdiv (fadd (fadd (fadd open low) high) close) 4)))))
  end.
Definition price_cache_ok (s : price_scope) (c : price_cache) : Prop :=
  forall symbol t v, bar_cache_get symbol t c = Some v -> plain s symbol t = Ok v.

Lemma price_type_eqb_spec a b : reflect (a = b) (price_type_eqb a b).
Proof. destruct a, b; constructor; easy. Qed.

Lemma cached_read_ok s symbol t c read :
  price_cache_ok s c ->
  (forall c, price_cache_ok s c -> fst (read c) = plain s symbol t /\ price_cache_ok s (snd (read c))) ->
  fst (cached_read symbol t c read) = plain s symbol t /\ price_cache_ok s (snd (cached_read symbol t c read)).
Proof.
  intros C H. unfold cached_read. destruct (bar_cache_get symbol t c) as [v|] eqn:E.
  - split; [cbn; now rewrite (C _ _ _ E)|easy].
  - destruct (H c C) as (H1 & H2). destruct (read c) as [[v|e] c']; cbn [fst snd] in *; [|easy].
    split; [easy|]. intros sy u w. cbn [bar_cache_get].
    destruct (Nat.eqb_spec sy symbol) as [->|]; destruct (price_type_eqb_spec u t) as [->|]; cbn [andb]; try apply H2.
    intros [= <-]. now rewrite H1.
Qed.

Lemma then_read_ok s r p f g :
  fst r = p -> price_cache_ok s (snd r) ->
  (forall v c, price_cache_ok s c -> fst (f v c) = g v /\ price_cache_ok s (snd (f v c))) ->
  fst (then_read r f) = bind p g /\ price_cache_ok s (snd (then_read r f)).
Proof.
  intros <- C H. destruct r as [[v|e] c]; cbn [then_read fst snd bind] in *; [|easy]. now apply H.
Qed.

Lemma fetch_column_ok s symbol col t c :
  plain s symbol t = column_value s symbol col -> price_cache_ok s c ->
  fst (fetch_column s symbol col t c) = column_value s symbol col /\ price_cache_ok s (snd (fetch_column s symbol col t c)).
Proof.
  intros E C. rewrite <- E. apply cached_read_ok; [easy|]. intros c' C'. cbn. now rewrite E.
Qed.

Lemma fetch_price_type_ok s symbol t c :
  price_cache_ok s c ->
  fst (fetch_price_type s symbol t c) = plain s symbol t /\ price_cache_ok s (snd (fetch_price_type s symbol t c)).
Proof.
  intros C. destruct t; cbn [fetch_price_type plain]; try (apply fetch_column_ok; easy).
  - apply (cached_read_ok s symbol PortfolioModel.PTMiddle); [easy|]. clear c C. intros c C.
    repeat (apply then_read_ok; [now apply fetch_column_ok..|]; clear c C; intros ? c C). easy.
  - apply (cached_read_ok s symbol PortfolioModel.PTAverage); [easy|]. clear c C. intros c C.
    repeat (apply then_read_ok; [now apply fetch_column_ok..|]; clear c C; intros ? c C). easy.
Qed.

Lemma price_history_ok reg s calls : forall c, price_cache_ok s c -> price_cache_ok s (price_history reg s calls c).
Proof.
  induction calls as [|[symbol p] calls IH]; intros c C; [easy|]. cbn [price_history]. apply IH.
  unfold fetch_float. destruct p as [t|q|f]; cbn [snd]; [|easy..].
  pose proof (proj2 (fetch_price_type_ok s symbol t c C)). destruct (fetch_price_type s symbol t c). easy.
Qed.

Lemma price_cache_nil s : price_cache_ok s [].
Proof. intros sy t v [=]. Qed.

(** ** Prices of the current bar *)
Lemma column_value_bar s symbol col e cols a v :
  lookup symbol (ps_end_index s) = Some (Z.of_nat (S e)) -> lookup symbol (ps_store s) = Some cols ->
  lookup col cols = Some a -> nth_error a e = Some v -> column_value s symbol col = Ok v.
Proof.
  intros E S L N. unfold column_value. rewrite E, S, L.
  destruct (Z.leb_spec (Z.of_nat (Datatypes.S e)) 0); [lia|].
  assert (e < length a)%nat by (apply nth_error_Some; congruence).
  destruct (last_value_spec (Z.of_nat (Datatypes.S e)) a) as (w & W1 & W2); [lia|destruct a; easy|].
  rewrite W1. replace (Nat.min (Z.to_nat (Z.of_nat (Datatypes.S e))) (length a) - 1)%nat with e in W2 by lia.
  congruence.
Qed.

Lemma plain_bar s symbol o h l c t :
  bar_is s symbol o h l c -> exists p, plain s symbol t = Ok (Some p) /\ (p == price_of o h l c t)%Q.
Proof.
  intros (e & cols & os & hs & ls & cs & E & S & O1 & O2 & H1 & H2 & L1 & L2 & C1 & C2).
  pose proof (column_value_bar _ _ _ _ _ _ _ E S O1 O2) as VO.
  pose proof (column_value_bar _ _ _ _ _ _ _ E S H1 H2) as VH.
  pose proof (column_value_bar _ _ _ _ _ _ _ E S L1 L2) as VL.
  pose proof (column_value_bar _ _ _ _ _ _ _ E S C1 C2) as VC.
  destruct t; cbn [plain price_of]; rewrite ?VO, ?VH, ?VL, ?VC; cbn [bind fadd fsub fdiv]; eexists; (split; [reflexivity|]);
    try reflexivity; field.
Qed.
