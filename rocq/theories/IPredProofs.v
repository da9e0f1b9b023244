(** Proofs for C80. *)
From Verif Require Import IPredSpec.
From Coq Require Import Lia.
Open Scope list_scope.
Open Scope Z_scope.

Lemma visible_fun : forall d e j k, visible d e j -> visible d e k -> j = k.
Proof.
  intros d e j k. unfold visible. destruct (nth_error _ _); [destruct (0 <? e)|]; lia.
Qed.
Lemma completed_visible : forall {R} (d : csdata) (rows : list R) e, well_formed d rows ->
  visible d e (Z.to_nat (completed_index d e + 1)).
Proof.
  intros R d rows e (_ & _ & B). unfold visible, completed_index.
  destruct (nth_error _ _) as [c|] eqn:N.
  - assert (IN := nth_error_In _ _ N). assert (LT : (Nat.min (Z.to_nat e) (length (cs_completed d)) - 1 < length (cs_completed d))%nat)
      by (apply nth_error_Some; congruence).
    destruct (0 <? e) eqn:E; [apply Z.ltb_lt in E|apply Z.ltb_ge in E].
    + replace (e <=? 0) with false by (symmetry; apply Z.leb_gt; lia).
      destruct (Nat.eqb_spec (length (cs_completed d)) 0); [lia|]. cbn [orb].
      assert (Q : nth (Z.to_nat ((if Z.of_nat (length (cs_completed d)) <? e then Z.of_nat (length (cs_completed d)) else e) - 1)) (cs_completed d) 0 = c).
      { apply nth_error_nth. rewrite <- N. f_equal. destruct (Z.ltb_spec (Z.of_nat (length (cs_completed d))) e); lia. }
      rewrite Q. specialize (B c IN). lia.
    + replace (e <=? 0) with true by (symmetry; apply Z.leb_le; lia). reflexivity.
  - apply nth_error_None in N. destruct (Nat.eqb_spec (length (cs_completed d)) 0) as [Z0|NZ].
    + rewrite orb_true_r. reflexivity.
    + lia.
Qed.
Lemma index_visible : forall {R} (d : csdata) (rows : list R) e k, well_formed d rows -> visible d e k ->
  completed_index d e + 1 <= Z.of_nat k /\ Z.to_nat (completed_index d e + 1) = k /\ (completed_index d e < 0 <-> k = 0%nat).
Proof.
  intros R d rows e k W V. assert (C := completed_visible d rows e W). assert (K := visible_fun _ _ _ _ C V). lia.
Qed.
Lemma window_visible : forall {R} (d : csdata) (rows : list R) k, well_formed d rows -> in_window d k ->
  Z.to_nat (window_len d) = k /\ (k <= length rows)%nat.
Proof.
  intros R d rows k (LR & _ & B). unfold in_window, visible, window_len.
  destruct (cs_completed d) as [|c0 rest] eqn:C.
  - cbn. intros ->. lia.
  - set (l := c0 :: rest) in *. assert (LL : (length l > 0)%nat) by (cbn; lia).
    rewrite Nat2Z.id, Nat.min_id. destruct (nth_error l (length l - 1)) as [c|] eqn:N.
    2:{ apply nth_error_None in N. lia. }
    replace (0 <? Z.of_nat (length l)) with true by (symmetry; apply Z.ltb_lt; lia).
    intros K. assert (LA : last l 0 = c).
    { destruct (exists_last (l := l)) as (a & z & Q); [discriminate|]. rewrite Q in *. rewrite last_last.
      rewrite app_length in N. cbn [length] in N. rewrite nth_error_app2 in N by lia.
      replace (length a + 1 - 1 - length a)%nat with 0%nat in N by lia. cbn in N. congruence. }
    rewrite LA. assert (BC := B c (nth_error_In _ _ N)).
    destruct (Nat.eqb_spec (length l) 0); [lia|]. destruct (Z.ltb_spec c 0); lia.
Qed.
Lemma visible_le : forall {R} (d : csdata) (rows : list R) e k cap, well_formed d rows -> visible d e k -> in_window d cap ->
  (k <= cap)%nat.
Proof.
  intros R d rows e k cap (_ & M & B). unfold in_window, visible. rewrite Nat2Z.id, Nat.min_id.
  destruct (nth_error (cs_completed d) (Nat.min _ _ - 1)) as [c|] eqn:N; [|intros ->; lia].
  destruct (Z.ltb_spec 0 e); [|intros ->; lia]. intros K.
  assert (LT : (Nat.min (Z.to_nat e) (length (cs_completed d)) - 1 < length (cs_completed d))%nat) by (apply nth_error_Some; congruence).
  destruct (nth_error (cs_completed d) (length (cs_completed d) - 1)) as [z|] eqn:N'.
  - replace (0 <? Z.of_nat (length (cs_completed d))) with true by (symmetry; apply Z.ltb_lt; lia).
    intros K'. assert (c <= z) by (refine (M _ _ _ _ _ N N'); lia). lia.
  - apply nth_error_None in N'. lia.
Qed.

Section Proofs.
Context {R P L A : Type}.
Implicit Types (u : setup R P L A) (m : minput P L) (rows : list R).

(** ** The per-bar loop *)
Lemma fill_length : forall nan u m n l out, fill nan u m n l = (None, out) -> length out = (length l + n)%nat.
Proof.
  intros nan u m. induction n as [|n IH]; intros l out; cbn [fill].
  - intros H. injection H as <-. lia.
  - destruct (Nat.ltb _ _).
    + intros H. apply IH in H. rewrite app_length in H. cbn in H. lia.
    + destruct (run_predict_scalar _ _) as [v|e]; [|discriminate].
      intros H. apply IH in H. rewrite app_length in H. cbn in H. lia.
Qed.
Lemma fill_app : forall nan u m a b l,
  fill nan u m (a + b) l = match fill nan u m a l with (None, l') => fill nan u m b l' | (Some e, l') => (Some e, l') end.
Proof.
  intros nan u m. induction a as [|a IH]; intros b l; cbn [fill Nat.add]; [reflexivity|].
  destruct (Nat.ltb _ _); [apply IH|]. destruct (run_predict_scalar _ _) as [v|e]; [apply IH|reflexivity].
Qed.
Lemma fill_stops : forall nan u m n l e out, fill nan u m n l = (Some e, out) ->
  exists k, (k < n)%nat /\ fill nan u m k l = (None, out) /\ length out = (length l + k)%nat /\
    forall j, (k < j)%nat -> fill nan u m j l = (Some e, out).
Proof.
  intros nan u m. induction n as [|n IH]; intros l e out; cbn [fill]; [discriminate|].
  destruct (Nat.ltb (length l) (lag_warmup_len m)) eqn:W.
  - intros H. apply IH in H. destruct H as (k & LT & F & LN & AF). exists (S k). split; [lia|].
    cbn [fill]. rewrite W. split; [exact F|]. split; [rewrite app_length in LN; cbn in LN; lia|].
    intros [|j] J; [lia|]. cbn [fill]. rewrite W. apply AF. lia.
  - destruct (run_predict_scalar _ _) as [v|e'] eqn:Q.
    + intros H. apply IH in H. destruct H as (k & LT & F & LN & AF). exists (S k). split; [lia|].
      cbn [fill]. rewrite W, Q. split; [exact F|]. split; [rewrite app_length in LN; cbn in LN; lia|].
      intros [|j] J; [lia|]. cbn [fill]. rewrite W, Q. apply AF. lia.
    + intros [= <- <-]. exists O. split; [lia|]. split; [reflexivity|]. split; [lia|].
      intros [|j] J; [lia|]. cbn [fill]. now rewrite W, Q.
Qed.
Lemma fill_prefix : forall nan u m n l e out, fill nan u m n l = (e, out) -> firstn (length l) out = l.
Proof.
  intros nan u m. induction n as [|n IH]; intros l e out; cbn [fill].
  - intros [= <- <-]. apply firstn_all.
  - destruct (Nat.ltb _ _).
    + intros H. apply IH in H. rewrite app_length in H. cbn in H.
      assert (firstn (length l) out = firstn (length l) (firstn (length l + 1) out)) as -> by (rewrite firstn_firstn; f_equal; lia).
      rewrite H, firstn_app, Nat.sub_diag, firstn_all. cbn. apply app_nil_r.
    + destruct (run_predict_scalar _ _) as [v|e'].
      * intros H. apply IH in H. rewrite app_length in H. cbn in H.
        assert (firstn (length l) out = firstn (length l) (firstn (length l + 1) out)) as -> by (rewrite firstn_firstn; f_equal; lia).
        rewrite H, firstn_app, Nat.sub_diag, firstn_all. cbn. apply app_nil_r.
      * intros [= <- <-]. apply firstn_all.
Qed.

(** ** The caches after a history of reads *)
Definition good (nan : A) u d rows (s : cache P L A) : Prop :=
  (forall m, c_input s = Some m -> build_input u d rows = IOk m) /\
  (forall pred, c_preds s = Some pred -> exists m, build_input u d rows = IOk m /\ predict_window nan u m = IOk pred) /\
  (c_bars s = [] \/ exists m, build_input u d rows = IOk m /\ fill nan u m (length (c_bars s)) [] = (None, c_bars s)).
Lemma good_none : forall nan u d rows, good nan u d rows no_cache.
Proof. intros. split; [discriminate|]. split; [discriminate|]. now left. Qed.
Lemma full_ok : forall nan u d rows s, good nan u d rows s ->
  fst (full_input u d rows s) = build_input u d rows /\ good nan u d rows (snd (full_input u d rows s)) /\
  c_bars (snd (full_input u d rows s)) = c_bars s /\ c_preds (snd (full_input u d rows s)) = c_preds s.
Proof.
  intros nan u d rows s (GI & GP & GB). unfold full_input. destruct (c_input s) as [m|] eqn:CI.
  - cbn. rewrite (GI m eq_refl). split; [reflexivity|]. split; [|now split]. split; [|now split]. intros m0 H. apply GI. congruence.
  - destruct (build_input u d rows) as [m|e] eqn:B; cbn.
    + split; [reflexivity|]. split; [|now split]. split; cbn; [congruence|]. rewrite B. now split.
    + split; [reflexivity|]. split; [|now split]. split; [congruence|]. rewrite B. now split.
Qed.
(** What a fresh scope answers. *)
Definition bars_answer (nan : A) u d rows (n : nat) : ires (list A) :=
  if Nat.eqb n 0 then IOk []
  else match build_input u d rows with
       | IErr e => IErr e
       | IOk m => match fill nan u m n [] with (Some e, _) => IErr e | (None, l) => IOk l end
       end.
Lemma per_bar_ok : forall nan u d rows s e, good nan u d rows s ->
  fst (fetch_preds_per_bar nan u d rows s e) = bars_answer nan u d rows (Z.to_nat (completed_index d e + 1)) /\
  good nan u d rows (snd (fetch_preds_per_bar nan u d rows s e)).
Proof.
  intros nan u d rows s e G. unfold fetch_preds_per_bar, bars_answer.
  destruct (Z.leb_spec (completed_index d e + 1) 0) as [LE|GT].
  { replace (Z.to_nat (completed_index d e + 1)) with 0%nat by lia. cbn. now split. }
  set (n := Z.to_nat (completed_index d e + 1)). assert (n > 0)%nat by lia.
  destruct (Nat.eqb_spec n 0); [lia|].
  destruct (Nat.leb_spec n (length (c_bars s))) as [LN|GN].
  - cbn. split; [|exact G]. destruct G as (_ & _ & [Z0|(m & B & F)]).
    + rewrite Z0 in LN. cbn in LN. lia.
    + rewrite B. replace (length (c_bars s)) with (n + (length (c_bars s) - n))%nat in F by lia.
      rewrite fill_app in F. destruct (fill nan u m n []) as [[e'|] l] eqn:FN; [discriminate|].
      f_equal. apply fill_length in FN. cbn in FN. apply fill_prefix in F. now rewrite FN in F.
  - destruct (full_ok nan u d rows s G) as (FI & G' & CB & CP). destruct (full_input u d rows s) as [r s']. cbn [fst snd] in *.
    subst r. destruct (build_input u d rows) as [m|e'] eqn:B; [|now split].
    assert (F : fill nan u m (length (c_bars s)) [] = (None, c_bars s)).
    { destruct G as (_ & _ & [Z0|(m' & B' & F)]); [now rewrite Z0|]. assert (m' = m) by congruence. now subst m'. }
    assert (FF : fill nan u m n [] = fill nan u m (n - length (c_bars s')) (c_bars s')).
    { rewrite CB. replace n with (length (c_bars s) + (n - length (c_bars s)))%nat at 1 by lia. rewrite fill_app. now rewrite F. }
    rewrite <- FF. destruct (fill nan u m n []) as [[e'|] l] eqn:FN; cbn.
    + split; [reflexivity|]. destruct G' as (GI & GP & GB). split; [exact GI|]. split; [exact GP|]. cbn. right. exists m. split; [exact B|].
      destruct (fill_stops _ _ _ _ _ _ _ FN) as (k & _ & FK & LK & _). cbn in LK. now rewrite LK.
    + assert (LL := fill_length _ _ _ _ _ _ FN). cbn in LL. split; [f_equal; rewrite <- LL; apply firstn_all|].
      destruct G' as (GI & GP & GB). split; [exact GI|]. split; [exact GP|]. cbn. right. exists m. split; [exact B|]. now rewrite LL.
Qed.
Definition window_answer (nan : A) u d rows (n : nat) : ires (list A) :=
  if Nat.eqb n 0 then IOk []
  else match build_input u d rows with
       | IErr e => IErr e
       | IOk m => match predict_window nan u m with IErr e => IErr e | IOk pred => IOk (firstn n pred) end
       end.
Definition preds_answer (nan : A) u d rows (n : nat) : ires (list A) :=
  if negb (u_found u) then IErr ENoModel
  else if u_per_bar u then bars_answer nan u d rows n else window_answer nan u d rows n.
Lemma preds_ok : forall nan u d rows s e, good nan u d rows s ->
  fst (fetch_preds nan u d rows s e) = preds_answer nan u d rows (Z.to_nat (completed_index d e + 1)) /\
  good nan u d rows (snd (fetch_preds nan u d rows s e)).
Proof.
  intros nan u d rows s e G. unfold fetch_preds, preds_answer. destruct (u_found u); cbn [negb]; [|now split].
  destruct (u_per_bar u); [now apply per_bar_ok|]. unfold window_answer.
  destruct (Z.ltb_spec (completed_index d e) 0) as [LT|GE].
  { replace (Z.to_nat (completed_index d e + 1)) with 0%nat by lia. now split. }
  destruct (Nat.eqb_spec (Z.to_nat (completed_index d e + 1)) 0); [lia|].
  destruct (c_preds s) as [pred|] eqn:CP.
  - cbn. split; [|exact G]. destruct G as (_ & GP & _). destruct (GP pred CP) as (m & B & W). now rewrite B, W.
  - destruct (full_ok nan u d rows s G) as (FI & G' & CB & CP'). destruct (full_input u d rows s) as [r s']. cbn [fst snd] in *.
    subst r. destruct (build_input u d rows) as [m|e'] eqn:B; [|now split].
    destruct (predict_window nan u m) as [pred|e'] eqn:W; [|now split]. cbn. split; [reflexivity|].
    destruct G' as (GI & GP & GB). split; [exact GI|]. split; [|exact GB]. cbn. intros q [= <-]. now exists m.
Qed.
Definition input_answer u d rows (n : nat) : ires (list P) :=
  match build_input u d rows with IErr e => IErr e | IOk m => IOk (firstn n (in_rows m)) end.
Lemma input_ok : forall nan u d rows s e, good nan u d rows s ->
  fst (fetch_input u d rows s e) = input_answer u d rows (Z.to_nat (completed_index d e + 1)) /\
  good nan u d rows (snd (fetch_input u d rows s e)).
Proof.
  intros nan u d rows s e G. unfold fetch_input, input_answer.
  destruct (full_ok nan u d rows s G) as (FI & G' & _). destruct (full_input u d rows s) as [r s']. cbn [fst snd] in *.
  subst r. destruct (build_input u d rows) as [m|e'] eqn:B; [|now split]. cbn. split; [|exact G']. f_equal.
  destruct (Z.ltb_spec (completed_index d e) 0) as [LT|GE]; [|reflexivity].
  now replace (Z.to_nat (completed_index d e + 1)) with 0%nat by lia.
Qed.
Lemma after_good : forall nan u d rows history, good nan u d rows (after nan u d rows history).
Proof.
  intros nan u d rows history. unfold after. assert (G := good_none nan u d rows). revert G. generalize (no_cache (P := P) (L := L) (A := A)).
  induction history as [|r rest IH]; intros s G; [exact G|]. cbn [fold_left]. apply IH. destruct r; cbn [do_read].
  - now apply input_ok.
  - now apply preds_ok.
Qed.
Lemma preds_after : forall nan u d rows history e,
  fst (fetch_preds nan u d rows (after nan u d rows history) e) = preds_answer nan u d rows (Z.to_nat (completed_index d e + 1)).
Proof. intros. apply preds_ok. apply after_good. Qed.
Lemma input_after : forall nan u d rows history e,
  fst (fetch_input u d rows (after nan u d rows history) e) = input_answer u d rows (Z.to_nat (completed_index d e + 1)).
Proof. intros. apply (input_ok nan). apply after_good. Qed.

(** ** The input of the window *)
Lemma lead_ok : forall (l : list (option L)), existsb row_valid l = true ->
  (first_valid l < length l)%nat /\ (forall i, (i < first_valid l)%nat -> nth_error l i = Some None) /\
  exists v, nth_error l (first_valid l) = Some (Some v).
Proof.
  induction l as [|[v|] rest IH]; cbn [existsb row_valid orb first_valid]; [discriminate| |].
  - intros _. cbn. split; [lia|]. split; [lia|]. now exists v.
  - intros E. destruct (IH E) as (LT & B & (v & V)). cbn [length]. split; [lia|]. split; [|now exists v].
    intros [|i] I; [reflexivity|]. cbn. apply B. lia.
Qed.
Lemma warm_unique : forall u rows cap w w', warm_up u rows cap w -> warm_up u rows cap w' -> w = w'.
Proof.
  intros u rows cap w w'. unfold warm_up. destruct (u_lags u) as [lag|]; [|congruence].
  intros (A1 & A2 & A3) (B1 & B2 & B3). destruct (Nat.lt_trichotomy w w') as [LT|[E|GT]]; [|exact E|].
  - specialize (B2 w LT). destruct A3 as [->|NE]; [lia|contradiction].
  - specialize (A2 w' GT). destruct B3 as [->|NE]; [lia|contradiction].
Qed.
Lemma nth_error_map_seq : forall {T} (f : nat -> T) n i, (i < n)%nat -> nth_error (map f (seq 0 n)) i = Some (f i).
Proof. intros T f n i H. rewrite nth_error_map. rewrite (nth_error_nth' _ 0%nat) by now rewrite seq_length. now rewrite seq_nth. Qed.
Lemma build_ok : forall u d rows cap m, well_formed d rows -> in_window d cap -> build_input u d rows = IOk m ->
  in_n m = cap /\ warm_up u rows cap (lag_warmup_len m) /\
  in_lags m = match u_lags u with None => None | Some lag => Some (map (fun i => lag (firstn (S i) rows)) (seq 0 cap)) end /\
  exists p, u_prepare u (firstn cap rows) = Some (in_cols m, p) /\
    (if in_cols m then length p = cap /\ in_rows m = p else in_rows m = []).
Proof.
  intros u d rows cap m W IW. destruct (window_visible d rows cap W IW) as [WL LE]. unfold build_input. rewrite WL.
  rewrite firstn_length_le by exact LE. destruct (u_found u); cbn [negb]; [|discriminate].
  destruct (u_prepare u (firstn cap rows)) as [[cols p]|] eqn:PR; [|discriminate].
  destruct (cols && negb (Nat.eqb (length p) cap)) eqn:CK; [discriminate|]. intros H.
  assert (J : forall (T : Type) (a b : T), IOk a = IOk b -> a = b) by congruence. apply J in H. subst m. cbn [in_n in_cols in_rows in_lags].
  split; [reflexivity|]. split.
  2:{ split; [reflexivity|]. exists p. split; [reflexivity|]. destruct cols; [|reflexivity]. cbn in CK.
      apply negb_false_iff, Nat.eqb_eq in CK. now split. }
  unfold lag_warmup_len, warm_up. cbn [in_n in_lags]. destruct (u_lags u) as [lag|]; [|reflexivity].
  set (l := map (fun i => lag (firstn (S i) rows)) (seq 0 cap)). assert (LL : length l = cap) by (unfold l; now rewrite map_length, seq_length).
  assert (AT : forall i, (i < cap)%nat -> nth_error l i = Some (lag (firstn (S i) rows))) by (intros; now apply nth_error_map_seq with (f := fun i => lag (firstn (S i) rows))).
  destruct (Nat.eqb_spec cap 0) as [Z0|NZ]; [rewrite Z0; split; [lia|]; split; [lia|now left]|].
  destruct (forallb row_valid l) eqn:FA.
  { split; [lia|]. split; [lia|]. right. rewrite forallb_forall in FA. specialize (FA _ (nth_error_In _ _ (AT 0%nat ltac:(lia)))).
    destruct (lag (firstn 1 rows)); [discriminate|]. cbn in FA. discriminate. }
  destruct (existsb row_valid l) eqn:EX; cbn [negb].
  - destruct (lead_ok l EX) as (LT & B & (v & V)). rewrite LL in LT. split; [lia|]. split.
    + intros i I. specialize (B i I). rewrite AT in B by lia. congruence.
    + right. rewrite AT in V by lia. congruence.
  - rewrite LL. split; [lia|]. split; [|now left]. intros i I. destruct (lag (firstn (S i) rows)) as [v|] eqn:LG; [|reflexivity].
    exfalso. assert (existsb row_valid l = true); [|congruence]. apply existsb_exists. exists (Some v). split; [|reflexivity].
    apply (nth_error_In _ i). rewrite AT by exact I. now rewrite LG.
Qed.
Lemma firstn_seq : forall a n k, firstn k (seq a n) = seq a (Nat.min k n).
Proof.
  intros a n. revert a. induction n as [|n IH]; intros a k; destruct k as [|k]; cbn; try reflexivity. now rewrite IH.
Qed.
Lemma skipn_seq : forall a n k, skipn k (seq a n) = seq (a + k) (n - k).
Proof.
  intros a n. revert a. induction n as [|n IH]; intros a k; destruct k as [|k]; cbn; try reflexivity; [now rewrite Nat.add_0_r|].
  rewrite IH. f_equal. lia.
Qed.
Lemma skip_first : forall {T} a b (l : list T), skipn a (firstn b l) = firstn (b - a) (skipn a l).
Proof. intros T a b l. apply skipn_firstn_comm. Qed.
(** The features of the bars [w], ..., [b - 1] of the window. *)
Lemma range_seen : forall u d rows cap m w b, well_formed d rows -> in_window d cap -> build_input u d rows = IOk m -> (b <= cap)%nat ->
  seen u rows cap w b (features_of (mrange w (Some b) m)).
Proof.
  intros u d rows cap m w b W IW B LE. destruct (build_ok u d rows cap m W IW B) as (N & _ & LG & (p & PR & RW)).
  unfold seen, features_of, mrange. cbn [in_lags in_rows]. rewrite LG. destruct (u_lags u) as [lag|]; cbn [option_map].
  - f_equal. rewrite firstn_map, firstn_seq, skipn_map, skipn_seq. cbn [Nat.add]. now replace (Nat.min b cap) with b by lia.
  - exists (in_cols m), p. split; [exact PR|]. destruct (in_cols m).
    + destruct RW as [LP ->]. split; [exact LP|]. now rewrite skip_first.
    + rewrite RW. now rewrite firstn_nil, skipn_nil.
Qed.
Lemma range_all : forall u d rows cap m w, well_formed d rows -> in_window d cap -> build_input u d rows = IOk m ->
  mrange w None m = mrange w (Some cap) m.
Proof.
  intros u d rows cap m w W IW B. destruct (build_ok u d rows cap m W IW B) as (N & _ & LG & (p & PR & RW)).
  unfold mrange. f_equal.
  - lia.
  - rewrite firstn_all2; [reflexivity|]. destruct (in_cols m); [destruct RW as [LP ->]; lia|rewrite RW; cbn; lia].
  - rewrite LG. destruct (u_lags u) as [lag|]; cbn [option_map]; [|reflexivity]. f_equal. rewrite firstn_all2; [reflexivity|].
    rewrite map_length, seq_length. lia.
Qed.
Lemma range_zero : forall u d rows cap m, well_formed d rows -> in_window d cap -> build_input u d rows = IOk m ->
  mrange 0 None m = m.
Proof.
  intros. unfold mrange. destruct m as [n c r l]; cbn. f_equal; [lia|]. now destruct l.
Qed.

(** ** The answers, bar by bar *)
Lemma scalar_ok : forall u m v, run_predict_scalar u m = IOk v ->
  exists answer front, u_predict u (features_of m) = Some answer /\ answer = front ++ [v] /\ (length answer = 1 \/ length answer = in_n m)%nat.
Proof.
  intros u m v. unfold run_predict_scalar, run_predict. destruct (u_predict u (features_of m)) as [flat|]; [|discriminate].
  destruct (rev flat) as [|z rest] eqn:RV; [discriminate|].
  destruct (negb (Nat.eqb (length flat) 1) && negb (Nat.eqb (length flat) (in_n m))) eqn:C; [discriminate|].
  intros H. injection H as <-. exists flat, (rev rest). split; [reflexivity|]. split.
  - now rewrite <- (rev_involutive flat), RV.
  - apply andb_false_iff in C. destruct C as [C|C]; apply negb_false_iff, Nat.eqb_eq in C; auto.
Qed.
Lemma nth_snoc : forall {T} (l : list T) v, nth_error (l ++ [v]) (length l) = Some v.
Proof. intros T l v. rewrite nth_error_app2 by lia. now rewrite Nat.sub_diag. Qed.
Lemma fill_bars : forall nan u m n l out, fill nan u m n l = (None, out) ->
  forall i, (length l <= i < length l + n)%nat ->
    if Nat.ltb i (lag_warmup_len m) then nth_error out i = Some nan
    else exists v, nth_error out i = Some v /\ run_predict_scalar u (mrange (lag_warmup_len m) (Some (S i)) m) = IOk v.
Proof.
  intros nan u m. induction n as [|n IH]; intros l out F i I; [lia|]. cbn [fill] in F.
  destruct (Nat.ltb (length l) (lag_warmup_len m)) eqn:W.
  - destruct (Nat.eq_dec i (length l)) as [->|NE].
    + rewrite W. apply fill_prefix in F. rewrite app_length in F. cbn [length] in F.
      rewrite <- (nth_snoc l nan), <- F. rewrite <- (firstn_skipn (length l + 1) out) at 1. apply nth_error_app1.
      assert (LF := f_equal (@length A) F). rewrite app_length in LF. cbn in LF. lia.
    + apply (IH _ _ F). rewrite app_length. cbn. lia.
  - destruct (run_predict_scalar _ _) as [v|e] eqn:Q; [|discriminate].
    destruct (Nat.eq_dec i (length l)) as [->|NE].
    + rewrite W. exists v. split; [|exact Q]. apply fill_prefix in F. rewrite app_length in F. cbn [length] in F.
      rewrite <- (nth_snoc l v), <- F. rewrite <- (firstn_skipn (length l + 1) out) at 1. apply nth_error_app1.
      assert (LF := f_equal (@length A) F). rewrite app_length in LF. cbn in LF. lia.
    + apply (IH _ _ F). rewrite app_length. cbn. lia.
Qed.
Lemma bars_ok : forall nan u d rows cap k w preds, well_formed d rows -> in_window d cap -> (k <= cap)%nat -> warm_up u rows cap w ->
  bars_answer nan u d rows k = IOk preds ->
  length preds = k /\ forall i, (i < k)%nat ->
    ((i < w)%nat -> nth_error preds i = Some nan) /\
    ((w <= i)%nat -> exists v, nth_error preds i = Some v /\ bar_prediction u rows cap w i v).
Proof.
  intros nan u d rows cap k w preds W IW LE WU. unfold bars_answer. destruct (Nat.eqb_spec k 0) as [->|NZ].
  { intros H. injection H as <-. split; [reflexivity|]. lia. }
  destruct (build_input u d rows) as [m|] eqn:B; [|discriminate]. destruct (fill nan u m k []) as [[e|] l] eqn:F; [discriminate|].
  intros H. injection H as ->. destruct (build_ok u d rows cap m W IW B) as (N & WM & _).
  assert (lag_warmup_len m = w) by (eapply warm_unique; eassumption). subst w.
  assert (LL := fill_length _ _ _ _ _ _ F). cbn in LL. split; [exact LL|]. intros i I.
  assert (FB := fill_bars _ _ _ _ _ _ F i). cbn [length Nat.add] in FB. specialize (FB ltac:(lia)).
  destruct (Nat.ltb_spec i (lag_warmup_len m)).
  - split; [auto|lia].
  - split; [lia|]. intros _. destruct FB as (v & V & Q). exists v. split; [exact V|].
    destruct (scalar_ok _ _ _ Q) as (answer & front & PA & AE & LA).
    exists (features_of (mrange (lag_warmup_len m) (Some (S i)) m)), answer, front.
    split; [eapply range_seen; eauto; lia|]. split; [exact PA|]. split; [exact AE|].
    destruct LA as [LA|LA]; [now left|]. right. cbn [in_n mrange] in LA. rewrite N in LA. lia.
Qed.

(** ** The answers for the whole window *)
Lemma window_pred_ok : forall nan u d rows cap w m pred, well_formed d rows -> in_window d cap -> warm_up u rows cap w ->
  build_input u d rows = IOk m -> predict_window nan u m = IOk pred ->
  (0 < cap)%nat /\ length pred = cap /\ firstn w pred = repeat nan w /\
  ((w < cap)%nat -> exists f, seen u rows cap w cap f /\ u_predict u f = Some (skipn w pred)).
Proof.
  intros nan u d rows cap w m pred W IW WU B. destruct (build_ok u d rows cap m W IW B) as (N & WM & _).
  assert (lag_warmup_len m = w) by (eapply warm_unique; eassumption). subst w. set (w := lag_warmup_len m) in *.
  assert (WL : (w <= cap)%nat) by (unfold warm_up in WU; destruct (u_lags u); [tauto|lia]).
  assert (RS := range_seen u d rows cap m w cap W IW B (Nat.le_refl _)).
  assert (RA := range_all u d rows cap m w W IW B). assert (RZ := range_zero u d rows cap m W IW B).
  unfold predict_window. fold w. rewrite N. destruct (Nat.eqb_spec cap 0) as [|NZ]; [discriminate|].
  destruct (in_cols m); cbn [negb orb]; [|discriminate].
  destruct (Nat.leb_spec cap w) as [LE|GT].
  - intros H. injection H as <-. split; [lia|]. split; [apply repeat_length|]. assert (w = cap) as -> by lia.
    split; [|lia]. rewrite firstn_all2; [reflexivity|]. rewrite repeat_length. lia.
  - destruct (Nat.eqb_spec w 0) as [W0|WN]; cbn [negb].
    + unfold run_predict. destruct (u_predict u (features_of m)) as [p|] eqn:Q; [|discriminate].
      destruct (Nat.eqb_spec (length p) cap) as [LP|]; cbn [negb]; [|discriminate]. intros H. injection H as <-.
      split; [lia|]. split; [exact LP|]. rewrite W0 in *. split; [reflexivity|]. intros _. exists (features_of m).
      split; [|exact Q]. now rewrite <- RZ, RA.
    + unfold run_predict. destruct (u_predict u (features_of (mrange w None m))) as [t|] eqn:Q; [|discriminate].
      destruct (Nat.eqb_spec (length t) (cap - w)) as [LP|]; cbn [negb]; [|discriminate]. intros H. injection H as <-.
      split; [lia|]. split; [rewrite app_length, repeat_length; lia|].
      assert (LR := repeat_length nan w). split.
      * rewrite firstn_app, LR, Nat.sub_diag. cbn. rewrite app_nil_r. apply firstn_all2. lia.
      * intros _. exists (features_of (mrange w None m)). split; [now rewrite RA|]. rewrite Q. f_equal.
        rewrite skipn_app, LR, Nat.sub_diag. rewrite skipn_all2 by lia. reflexivity.
Qed.

(** ** When an answer is given *)
Lemma scalar_answers : forall u m, answers_all u -> rows_in (features_of m) = in_n m -> (0 < in_n m)%nat -> exists v, run_predict_scalar u m = IOk v.
Proof.
  intros u m AA RI PO. unfold run_predict_scalar, run_predict. destruct (AA (features_of m)) as (ans & -> & LA).
  destruct (rev ans) as [|z rest] eqn:RV.
  { apply (f_equal (@length A)) in RV. rewrite rev_length in RV. cbn in RV. lia. }
  rewrite RI in LA. rewrite LA, Nat.eqb_refl. cbn. rewrite andb_false_r. now exists z.
Qed.
Lemma range_rows : forall u d rows cap m w b, well_formed d rows -> in_window d cap -> build_input u d rows = IOk m -> in_cols m = true ->
  rows_in (features_of (mrange w b m)) = in_n (mrange w b m) /\ in_n (mrange w b m) = (match b with None => cap | Some b => Nat.min b cap end - w)%nat.
Proof.
  intros u d rows cap m w b W IW B C. destruct (build_ok u d rows cap m W IW B) as (N & _ & LG & (p & PR & RW)).
  rewrite C in RW. destruct RW as [LP RP].
  unfold features_of, mrange. cbn [in_lags in_rows in_n]. rewrite LG, N, RP.
  destruct (u_lags u) as [lag|]; cbn [option_map rows_in]; destruct b as [b|];
    rewrite ?skipn_length, ?firstn_length, ?map_length, ?seq_length; (split; lia).
Qed.
Lemma fill_answers : forall nan u d rows cap m n l, well_formed d rows -> in_window d cap -> build_input u d rows = IOk m -> in_cols m = true ->
  answers_all u -> (length l + n <= cap)%nat -> exists out, fill nan u m n l = (None, out).
Proof.
  intros nan u d rows cap m n l W IW B C AA. revert l. induction n as [|n IH]; intros l LE; cbn [fill]; [now exists l|].
  destruct (Nat.ltb_spec (length l) (lag_warmup_len m)); [apply IH; rewrite app_length; cbn; lia|].
  destruct (range_rows u d rows cap m (lag_warmup_len m) (Some (S (length l))) W IW B C) as [R1 R2].
  destruct (scalar_answers u _ AA R1) as [v ->]; [rewrite R2; lia|]. apply IH. rewrite app_length. cbn. lia.
Qed.
Lemma window_answers : forall nan u d rows cap m, well_formed d rows -> in_window d cap -> build_input u d rows = IOk m -> in_cols m = true ->
  answers_all u -> (0 < cap)%nat -> exists pred, predict_window nan u m = IOk pred.
Proof.
  intros nan u d rows cap m W IW B C AA PO. destruct (build_ok u d rows cap m W IW B) as (N & _).
  unfold predict_window. rewrite N, C. destruct (Nat.eqb_spec cap 0); [lia|]. cbn [negb orb].
  destruct (Nat.leb_spec cap (lag_warmup_len m)); [eauto|].
  destruct (Nat.eqb_spec (lag_warmup_len m) 0) as [W0|WN]; cbn [negb].
  - destruct (range_rows u d rows cap m 0 None W IW B C) as [R1 R2]. rewrite (range_zero u d rows cap m W IW B) in R1, R2.
    unfold run_predict. destruct (AA (features_of m)) as (ans & -> & LA). rewrite LA, R1, R2.
    replace (Nat.eqb (cap - 0) cap) with true by (symmetry; apply Nat.eqb_eq; lia). cbn. eauto.
  - destruct (range_rows u d rows cap m (lag_warmup_len m) None W IW B C) as [R1 R2].
    unfold run_predict. destruct (AA (features_of (mrange (lag_warmup_len m) None m))) as (ans & -> & LA). rewrite LA, R1, R2, Nat.eqb_refl. cbn. eauto.
Qed.
Lemma preds_answered : forall nan u d rows cap k, well_formed d rows -> in_window d cap -> (k <= cap)%nat ->
  u_found u = true -> answers_all u -> (exists p, u_prepare u (firstn cap rows) = Some (true, p) /\ length p = cap) ->
  exists preds, preds_answer nan u d rows k = IOk preds.
Proof.
  intros nan u d rows cap k W IW LE FD AA (p & PR & LP). unfold preds_answer. rewrite FD. cbn [negb].
  assert (B : exists m, build_input u d rows = IOk m /\ in_cols m = true).
  { destruct (window_visible d rows cap W IW) as [WL LC]. unfold build_input. rewrite WL, PR, FD. rewrite firstn_length_le by exact LC.
    rewrite LP, Nat.eqb_refl. cbn [negb andb]. eexists. split; reflexivity. }
  destruct B as (m & B & C). destruct (u_per_bar u).
  - unfold bars_answer. destruct (Nat.eqb_spec k 0); [eauto|]. rewrite B.
    destruct (fill_answers nan u d rows cap m k [] W IW B C AA LE) as [out ->]. eauto.
  - unfold window_answer. destruct (Nat.eqb_spec k 0); [eauto|]. rewrite B.
    destruct (window_answers nan u d rows cap m W IW B C AA) as [pred ->]; [lia|]. eauto.
Qed.

(** ** Two runs *)
Lemma firstn_agree : forall {T} i n (a b : list T), (i <= n)%nat -> firstn n a = firstn n b -> firstn i a = firstn i b.
Proof.
  intros T i n a b LE E. rewrite <- (Nat.min_l i n LE), <- (firstn_firstn a), <- (firstn_firstn b). now rewrite E.
Qed.
Lemma build_beyond : forall u d rows rows' cap, well_formed d rows -> well_formed d rows' -> in_window d cap ->
  firstn cap rows = firstn cap rows' -> build_input u d rows = build_input u d rows'.
Proof.
  intros u d rows rows' cap W W' IW E. destruct (window_visible d rows cap W IW) as [WL LC]. unfold build_input. rewrite WL, <- E.
  assert (LG : forall lag : list R -> option L, map (fun i => lag (firstn (S i) rows)) (seq 0 (length (firstn cap rows))) =
                 map (fun i => lag (firstn (S i) rows')) (seq 0 (length (firstn cap rows)))).
  { intros lag. apply map_ext_in. intros i I. apply in_seq in I. rewrite firstn_length_le in I by exact LC. f_equal.
    apply (firstn_agree (S i) cap); [lia|exact E]. }
  destruct (u_lags u) as [lag|]; [now rewrite LG|reflexivity].
Qed.
Lemma warm_exists : forall u d rows cap m, well_formed d rows -> in_window d cap -> build_input u d rows = IOk m -> exists w, warm_up u rows cap w.
Proof. intros u d rows cap m W IW B. destruct (build_ok u d rows cap m W IW B) as (_ & WM & _). eauto. Qed.
End Proofs.
