(** C80: inputs and predictions of a model on a compressed interval. *)
From Verif Require Import IPredSpec IPredProofs.
From Verif Require ScopeModel.
From Coq Require Import Lia.
Open Scope list_scope.
Open Scope Z_scope.

(** A model asked bar by bar: one prediction for each compressed bar complete by
    now, NaN while its lag features are undefined, and otherwise the last value of
    its answer on the bars from the end of the warm-up to that bar. *)
Theorem C80_per_bar : forall R P L A (nan : A) (u : setup R P L A) d rows history e k cap w preds,
  well_formed d rows -> visible d e k -> in_window d cap -> warm_up u rows cap w -> u_per_bar u = true ->
  fst (fetch_preds nan u d rows (after nan u d rows history) e) = IOk preds ->
  length preds = k /\ (k <= cap)%nat /\ forall i, (i < k)%nat ->
    ((i < w)%nat -> nth_error preds i = Some nan) /\
    ((w <= i)%nat -> exists v, nth_error preds i = Some v /\ bar_prediction u rows cap w i v).
Proof.
  intros R P L A nan u d rows history e k cap w preds W V IW WU PB H. rewrite preds_after in H.
  destruct (index_visible d rows e k W V) as (_ & K & _). rewrite K in H. unfold preds_answer in H. rewrite PB in H.
  destruct (u_found u); cbn [negb] in H; [|discriminate]. assert (LE := visible_le d rows e k cap W V IW).
  destruct (bars_ok nan u d rows cap k w preds W IW LE WU H) as [LN B]. now split.
Qed.
Print Assumptions C80_per_bar.

(** A model asked once per window: it is shown every bar of the window from the end
    of the warm-up, its answer has one prediction for each, and a read shows those
    of the bars complete by now, after NaN for the warm-up. *)
Theorem C80_window : forall R P L A (nan : A) (u : setup R P L A) d rows history e k cap w preds,
  well_formed d rows -> visible d e k -> in_window d cap -> warm_up u rows cap w -> u_per_bar u = false ->
  fst (fetch_preds nan u d rows (after nan u d rows history) e) = IOk preds ->
  length preds = k /\ (k <= cap)%nat /\ ((0 < k)%nat -> exists all, length all = cap /\ preds = firstn k all /\
    firstn w all = repeat nan w /\
    ((w < cap)%nat -> exists f, seen u rows cap w cap f /\ u_predict u f = Some (skipn w all))).
Proof.
  intros R P L A nan u d rows history e k cap w preds W V IW WU PB H. rewrite preds_after in H.
  destruct (index_visible d rows e k W V) as (_ & K & _). rewrite K in H. unfold preds_answer in H. rewrite PB in H.
  destruct (u_found u); cbn [negb] in H; [|discriminate]. assert (LE := visible_le d rows e k cap W V IW).
  unfold window_answer in H. destruct (Nat.eqb_spec k 0) as [->|NZ].
  { injection H as <-. split; [reflexivity|]. split; [exact LE|lia]. }
  destruct (build_input u d rows) as [m|] eqn:B; [|discriminate]. destruct (predict_window nan u m) as [pred|] eqn:Q; [|discriminate].
  injection H as <-. destruct (window_pred_ok nan u d rows cap w m pred W IW WU B Q) as (PO & LN & FW & FS).
  split; [rewrite firstn_length_le; lia|]. split; [exact LE|]. intros _. now exists pred.
Qed.
Print Assumptions C80_window.

(** The input: the rows [input_data_fn] makes of the window's bars, one for each
    bar, up to the last complete bar. *)
Theorem C80_input : forall R P L A (nan : A) (u : setup R P L A) d rows history e k cap shown,
  well_formed d rows -> visible d e k -> in_window d cap ->
  fst (fetch_input u d rows (after nan u d rows history) e) = IOk shown ->
  exists cols p, u_prepare u (firstn cap rows) = Some (cols, p) /\
    if cols then length p = cap /\ shown = firstn k p /\ length shown = k else shown = [].
Proof.
  intros R P L A nan u d rows history e k cap shown W V IW H. rewrite input_after in H.
  destruct (index_visible d rows e k W V) as (_ & K & _). rewrite K in H. unfold input_answer in H.
  destruct (build_input u d rows) as [m|] eqn:B; [|discriminate]. injection H as <-.
  destruct (build_ok u d rows cap m W IW B) as (_ & _ & _ & (p & PR & RW)). exists (in_cols m), p. split; [exact PR|].
  assert (LE := visible_le d rows e k cap W V IW).
  destruct (in_cols m); [destruct RW as [LP ->]; split; [exact LP|]; split; [reflexivity|rewrite firstn_length_le; lia]|].
  rewrite RW. apply firstn_nil.
Qed.
Print Assumptions C80_input.

(** A read answers what it would answer first in a fresh window, whatever was read
    before and whether those reads raised. *)
Theorem C80_history : forall R P L A (nan : A) (u : setup R P L A) d rows history e,
  fst (fetch_preds nan u d rows (after nan u d rows history) e) = fst (fetch_preds nan u d rows no_cache e) /\
  fst (fetch_input u d rows (after nan u d rows history) e) = fst (fetch_input u d rows (no_cache (A := A)) e).
Proof.
  intros. split.
  - rewrite preds_after. change (no_cache (A := A)) with (after nan u d rows []). now rewrite preds_after.
  - rewrite (input_after nan). change (no_cache (A := A)) with (after nan u d rows []). now rewrite input_after.
Qed.
Print Assumptions C80_history.

(** There is an answer whenever [input_data_fn] keeps one row per bar and the model
    answers one value per row; a model that was not trained on the interval never
    answers. *)
Theorem C80_answers : forall R P L A (nan : A) (u : setup R P L A) d rows history e cap,
  well_formed d rows -> in_window d cap ->
  (u_found u = true -> answers_all u -> (exists p, u_prepare u (firstn cap rows) = Some (true, p) /\ length p = cap) ->
   (exists preds, fst (fetch_preds nan u d rows (after nan u d rows history) e) = IOk preds) /\
   (exists shown, fst (fetch_input u d rows (after nan u d rows history) e) = IOk shown)) /\
  (u_found u = false -> fst (fetch_preds nan u d rows (after nan u d rows history) e) = IErr ENoModel /\
     fst (fetch_input u d rows (after nan u d rows history) e) = IErr ENoModel).
Proof.
  intros R P L A nan u d rows history e cap W IW. rewrite preds_after, input_after.
  set (k := Z.to_nat (completed_index d e + 1)).
  assert (V : visible d e k) by now apply (completed_visible d rows).
  split.
  - intros FD AA PR. split.
    + apply (preds_answered nan u d rows cap k W IW); auto. exact (visible_le d rows e k cap W V IW).
    + unfold input_answer. destruct PR as (p & PR & LP).
      destruct (window_visible d rows cap W IW) as [WL LC]. unfold build_input. rewrite WL, PR, FD. rewrite firstn_length_le by exact LC.
      rewrite LP, Nat.eqb_refl. cbn [negb andb]. eauto.
  - intros FD. unfold preds_answer, input_answer, build_input. rewrite FD. now split.
Qed.
Print Assumptions C80_answers.

(** Compressed bars that complete after the window never matter. *)
Theorem C80_beyond_window : forall R P L A (nan : A) (u : setup R P L A) d rows rows' history history' e cap,
  well_formed d rows -> well_formed d rows' -> in_window d cap -> firstn cap rows = firstn cap rows' ->
  fst (fetch_preds nan u d rows (after nan u d rows history) e) = fst (fetch_preds nan u d rows' (after nan u d rows' history') e) /\
  fst (fetch_input u d rows (after nan u d rows history) e) = fst (fetch_input u d rows' (after nan u d rows' history') e).
Proof.
  intros R P L A nan u d rows rows' history history' e cap W W' IW E.
  rewrite !preds_after, !(input_after nan). assert (B := build_beyond u d rows rows' cap W W' IW E).
  unfold preds_answer, input_answer, bars_answer, window_answer. now rewrite B.
Qed.
Print Assumptions C80_beyond_window.

(** Predictions asked bar by bar depend only on the bars complete by now, provided
    [input_data_fn] does not look ahead within the window. *)
Theorem C80_no_lookahead_partial : forall R P L A (nan : A) (u : setup R P L A) d rows rows' history history' e k cap preds preds',
  well_formed d rows -> well_formed d rows' -> visible d e k -> in_window d cap ->
  u_per_bar u = true -> looks_back_only (u_prepare u) -> firstn k rows = firstn k rows' ->
  fst (fetch_preds nan u d rows (after nan u d rows history) e) = IOk preds ->
  fst (fetch_preds nan u d rows' (after nan u d rows' history') e) = IOk preds' -> preds = preds'.
Proof.
  intros R P L A nan u d rows rows' history history' e k cap preds preds' W W' V IW PB LB E H H'.
  assert (LE := visible_le d rows e k cap W V IW).
  rewrite preds_after in H, H'. destruct (index_visible d rows e k W V) as (_ & K & _). rewrite K in H, H'. clear K.
  unfold preds_answer in H, H'. rewrite PB in H, H'. destruct (u_found u); cbn [negb] in H, H'; [|discriminate].
  destruct (Nat.eq_dec k 0) as [->|NZ]; [cbn in H, H'; congruence|].
  assert (B := H). assert (B' := H'). unfold bars_answer in B, B'. destruct (Nat.eqb_spec k 0); [lia|].
  destruct (build_input u d rows) as [m|] eqn:BI; [|discriminate]. destruct (build_input u d rows') as [m'|] eqn:BI'; [|discriminate]. clear B B'.
  destruct (warm_exists u d rows cap m W IW BI) as [w WU]. destruct (warm_exists u d rows' cap m' W' IW BI') as [w' WU'].
  destruct (bars_ok nan u d rows cap k w preds W IW LE WU H) as [LN AT].
  destruct (bars_ok nan u d rows' cap k w' preds' W' IW LE WU' H') as [LN' AT'].
  assert (PE : forall i, (i < k)%nat -> firstn (S i) rows = firstn (S i) rows') by (intros; apply (firstn_agree (S i) k); [lia|exact E]).
  assert (WW : w = w' \/ (k <= w /\ k <= w')%nat).
  { unfold warm_up in WU, WU'. destruct (u_lags u) as [lag|]; [|left; congruence].
    destruct WU as (A1 & A2 & A3), WU' as (C1 & C2 & C3). destruct (Nat.lt_trichotomy w w') as [LT|[EQ|GT]]; [|now left|].
    - destruct (le_lt_dec k w) as [|LK]; [right; lia|]. exfalso. specialize (C2 w LT). rewrite <- PE in C2 by exact LK.
      destruct A3 as [->|NE]; [lia|contradiction].
    - destruct (le_lt_dec k w') as [|LK]; [right; lia|]. exfalso. specialize (A2 w' GT). rewrite PE in A2 by exact LK.
      destruct C3 as [->|NE]; [lia|contradiction]. }
  assert (DET : forall i v v', (i < k)%nat -> bar_prediction u rows cap w i v -> bar_prediction u rows' cap w i v' -> v = v').
  { intros i v v' I (f & ans & fr & SN & PR & AE & _) (f' & ans' & fr' & SN' & PR' & AE' & _).
    assert (f = f').
    { unfold seen in SN, SN'. destruct (u_lags u) as [lag|].
      - rewrite SN, SN'. f_equal. apply map_ext_in. intros j J. apply in_seq in J. rewrite PE; [reflexivity|lia].
      - destruct SN as (c & p & P1 & P2), SN' as (c' & q & Q1 & Q2).
        assert (E2 : firstn k (firstn cap rows) = firstn k (firstn cap rows')) by (rewrite !firstn_firstn; replace (Nat.min k cap) with k by lia; exact E).
        destruct (LB k _ _ _ _ _ _ E2 P1 Q1) as [<- PQ]. destruct c; [|congruence].
        destruct P2 as [_ ->], Q2 as [_ ->]. f_equal. rewrite <- !skip_first. f_equal. apply (firstn_agree (S i) k); [lia|exact PQ]. }
    subst f'. assert (X : fr ++ [v] = fr' ++ [v']) by congruence. apply app_inj_tail in X. tauto. }
  apply (nth_ext _ _ nan nan); [congruence|]. rewrite LN. intros i I.
  destruct (AT i I) as [A1 A2]. destruct (AT' i I) as [C1 C2].
  destruct WW as [<-|[KW KW']].
  - destruct (le_lt_dec w i) as [LI|LT].
    + destruct (A2 LI) as (v & N & BP). destruct (C2 LI) as (v' & N' & BP').
      rewrite (nth_error_nth _ _ nan N), (nth_error_nth _ _ nan N'). exact (DET i v v' I BP BP').
    + now rewrite (nth_error_nth _ _ nan (A1 LT)), (nth_error_nth _ _ nan (C1 LT)).
  - now rewrite (nth_error_nth _ _ nan (A1 ltac:(lia))), (nth_error_nth _ _ nan (C1 ltac:(lia))).
Qed.
Print Assumptions C80_no_lookahead_partial.

(** Two base bars per compressed bar; the window has six base bars and three
    complete compressed bars of the run's four. *)
Definition demo_bar : cbar := mk_cbar 0 None None None None None None [].
Definition demo_data : csdata := mk_csdata [demo_bar; demo_bar; demo_bar; demo_bar] [-1; 0; 0; 1; 1; 2] [1; 2; 3; 4; 5; 6].
Lemma demo_formed : forall rows : list Z, length rows = 4%nat -> well_formed demo_data rows.
Proof.
  intros rows L. split; [exact L|]. split.
  - intros i j x y LE. destruct i as [|[|[|[|[|[|i]]]]]]; destruct j as [|[|[|[|[|[|j]]]]]]; cbn; intros X Y; try lia;
      try (destruct i; discriminate); try (destruct j; discriminate); injection X as <-; injection Y as <-; lia.
  - cbn. intros x I. lia.
Qed.
(** The sum of the last two bars, if there are two. *)
Definition demo_lag (l : list Z) : option Z := match rev l with a :: b :: _ => Some (a + b) | _ => None end.
Definition demo_lagged (per_bar : bool) : setup Z Z Z Z :=
  mk_setup true per_bar (fun l => Some (true, l)) (Some demo_lag)
    (fun f => match f with FLags l => Some (map (fun o => match o with Some x => 10 * x | None => 0 end) l) | FRows l => Some l end).
Example C80_example : forall per_bar,
  let reads := fun e => fst (fetch_preds (-1) (demo_lagged per_bar) demo_data [1; 2; 3; 4]
    (after (-1) (demo_lagged per_bar) demo_data [1; 2; 3; 4] [RPreds 3; RInput 5]) e) in
  well_formed demo_data [1; 2; 3; 4] /\ in_window demo_data 3 /\ warm_up (demo_lagged per_bar) [1; 2; 3; 4] 3 1 /\
  answers_all (demo_lagged per_bar) /\
  reads 1 = IOk [] /\ visible demo_data 1 0 /\ reads 3 = IOk [-1] /\ reads 4 = IOk [-1; 30] /\ visible demo_data 4 2 /\
  reads 6 = IOk [-1; 30; 50] /\ reads 9 = IOk [-1; 30; 50].
Proof.
  intros [|]; (split; [now apply demo_formed|]; split; [reflexivity|]; split; [split; [lia|]; split;
    [intros i I; assert (i = 0%nat) as -> by lia; reflexivity|right; discriminate]|]; split;
    [intros [l|l]; eexists; (split; [reflexivity|]); cbn; rewrite ?map_length; reflexivity|]; repeat (split; [vm_compute; reflexivity|]); vm_compute; reflexivity).
Qed.

(** [input_data_fn] is applied to all the bars of the window at once: when it looks
    across rows (here, a maximum), a per-bar model's prediction depends on bars
    that are not complete yet ... *)
Definition demo_max (l : list Z) : option (bool * list Z) := Some (true, map (fun x => x - fold_right Z.max 0 l) l).
Definition demo_peek : setup Z Z Z Z :=
  mk_setup true true demo_max None (fun f => match f with FRows l => Some l | FLags _ => Some [] end).
Theorem C80_no_lookahead_refuted : exists (u : setup Z Z Z Z) d rows rows' e k cap preds preds',
  well_formed d rows /\ well_formed d rows' /\ visible d e k /\ in_window d cap /\ u_per_bar u = true /\
  firstn k rows = firstn k rows' /\
  fst (fetch_preds 0 u d rows no_cache e) = IOk preds /\ fst (fetch_preds 0 u d rows' no_cache e) = IOk preds' /\ preds <> preds'.
Proof.
  exists demo_peek, demo_data, [1; 2; 3; 4], [1; 2; 9; 4], 4, 2%nat, 3%nat, [-2; -1], [-8; -7].
  split; [now apply demo_formed|]. split; [now apply demo_formed|]. do 6 (split; [vm_compute; reflexivity|]). discriminate.
Qed.
Print Assumptions C80_no_lookahead_refuted.
(** ... and so it is on the base timeframe. *)
Theorem C80_base_lookahead_refuted : exists (prepare : list Z -> option (bool * list Z)) (p : ScopeModel.predictor Z Z) rows rows' i j k preds preds',
  firstn k rows = firstn k rows' /\ length rows = length rows' /\
  base_input prepare rows = Some i /\ base_input prepare rows' = Some j /\
  fst (ScopeModel.fetch_per_bar p i (fun _ => 0) ScopeModel.pb_new (Some (Z.of_nat k))) = ScopeModel.Ok preds /\
  fst (ScopeModel.fetch_per_bar p j (fun _ => 0) ScopeModel.pb_new (Some (Z.of_nat k))) = ScopeModel.Ok preds' /\ preds <> preds'.
Proof.
  exists demo_max, (fun l => Some l), [1; 2; 3], [1; 2; 9], [-2; -1; 0], [-8; -7; 0], 2%nat, [-2; -1], [-8; -7].
  do 6 (split; [vm_compute; reflexivity|]). discriminate.
Qed.
Print Assumptions C80_base_lookahead_refuted.
