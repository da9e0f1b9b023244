(** * C86: every column of the signals means one thing *)
From Verif Require Import Tac TextProofs DeclareProofs DeclareRun SignalSpec SignalProofs.
From Coq Require Import Lia.
Open Scope list_scope.
Open Scope nat_scope.

(** A run starts only if no indicator an execution lists has the name of a data
    column, and no name reserved for the predictions of a model an execution lists is
    that of a data column or of such an indicator. *)
Theorem C86_names : forall evs cols, run_validates cols (executions evs) = true <->
  (forall a i t n, In a (accepted evs) -> declares_ind a i t -> variant_name (i_name i) t n -> ~ In n cols) /\
  (forall a m t n c, In a (accepted evs) -> declares_model a m t -> variant_name (s_name m) t n -> reserved n c ->
     ~ In c cols /\ forall a' i t', In a' (accepted evs) -> declares_ind a' i t' -> ~ variant_name (i_name i) t' c).
Proof.
  intros evs cols. destruct (run_all evs) as (_ & F & _). unfold run_validates. rewrite validate_iff. unfold apart.
  assert (X : forall n, In n (concat (map x_inds (executions evs))) <-> exists a i t, In a (accepted evs) /\ declares_ind a i t /\ variant_name (i_name i) t n).
  { intro n. rewrite in_concat. split.
    - intros (l & L & I). apply in_map_iff in L as (x & <- & J). destruct (Forall2_r _ _ _ _ F J) as (a & A & (_ & _ & T & _)). destruct (proj1 (T n) I) as (i & t & D & V). eauto 6.
    - intros (a & i & t & A & D & V). destruct (Forall2_l _ _ _ _ F A) as (x & J & (_ & _ & T & _)). exists (x_inds x). split; [now apply in_map|]. apply T. eauto. }
  assert (Y : forall n, In n (concat (map x_models (executions evs))) <-> exists a m t, In a (accepted evs) /\ declares_model a m t /\ variant_name (s_name m) t n).
  { intro n. rewrite in_concat. split.
    - intros (l & L & I). apply in_map_iff in L as (x & <- & J). destruct (Forall2_r _ _ _ _ F J) as (a & A & (_ & T & _)). destruct (proj1 (T n) I) as (i & t & D & V). eauto 6.
    - intros (a & i & t & A & D & V). destruct (Forall2_l _ _ _ _ F A) as (x & J & (_ & T & _)). exists (x_models x). split; [now apply in_map|]. apply T. eauto. }
  split; intros [H K]; split.
  - intros a i t n A D V. apply H, X. eauto 6.
  - intros a m t n c A D V R. destruct (K n c) as [K1 K2]; [apply Y; eauto 6|easy|]. split; [easy|]. intros a' i t' A' D' V'. apply K2, X. eauto 6.
  - intros i I. apply X in I as (a & i0 & t & A & D & V). eauto.
  - intros m c I R. apply Y in I as (a & m0 & t & A & D & V). destruct (K a m0 t m c A D V R) as [K1 K2]. split; [easy|].
    intro J. apply X in J as (a' & i & t' & A' & D' & V'). eapply K2; eauto.
Qed.
Print Assumptions C86_names.

(** The frame of a symbol in a window of a run that started. Computed are only
    indicators that a call wants, and predictions are only of models a call lists
    (C85). When the indicators of the models, too, are named unlike the data columns
    and the predictions, then the frame has each column once, its columns are exactly
    the data columns, the computed indicators and the predictions, and each holds
    what its name says; it exists when all have a value for every bar. That the check
    at the start of the run covers the indicators of the models is missing: see
    [C86_signals_refuted]. *)
Theorem C86_signals_partial : forall evs cols bars fetch computed preds,
  run_validates cols (executions evs) = true ->
  (forall n l, computed n = Some l -> exists a, In a (accepted evs) /\ wants (registry evs) a n) ->
  (forall n p, preds n = Some p -> exists a m t, In a (accepted evs) /\ declares_model a m t /\ variant_name (s_name m) t n) ->
  (forall a m t r ind n, In a (accepted evs) -> declares_model a m t -> registered (s_name m) r (g_sources (registry evs)) ->
     In ind (s_indicators r) -> variant_name ind t n ->
     ~ In n cols /\ forall a' m' t' n', In a' (accepted evs) -> declares_model a' m' t' -> variant_name (s_name m') t' n' -> ~ reserved n' n) ->
  let inds := map fst (g_inds (registry evs)) in
  let models := map fst (g_sources (registry evs)) in
  ((exists f, signals bars cols inds models fetch computed preds = Some f) <->
   forall c v, holds bars cols inds models fetch computed preds c v -> length v = bars) /\
  forall f, signals bars cols inds models fetch computed preds = Some f ->
    rectangular bars f /\ forall c v, In (c, v) f <-> holds bars cols inds models fetch computed preds c v.
Proof.
  intros evs cols bars fetch computed preds V C P G inds models. apply C86_names in V as [V1 V2].
  destruct (signal_data_ok bars cols inds models fetch computed preds) as [N H].
  { split.
    - intros i I J. apply filter_In in I as [_ I]. destruct (computed i) as [l|] eqn:E; [|easy]. destruct (C _ _ E) as (a & A & [(j & t & D & Q)|(m & t & r & ind & D & R & Q & W)]).
      + eapply V1; eauto.
      + destruct (G _ _ _ _ _ _ A D R Q W). auto.
    - intros m c I R. apply filter_In in I as [_ I]. destruct (preds m) as [p|] eqn:E; [|easy]. destruct (P _ _ E) as (a & s & t & A & D & Q).
      destruct (V2 _ _ _ _ _ A D Q R) as [K1 K2]. split; [easy|]. intro J. apply filter_In in J as [_ J]. destruct (computed c) as [l|] eqn:E'; [|easy].
      destruct (C _ _ E') as (a' & A' & [(j & t' & D' & Q')|(m' & t' & r & ind & D' & R' & Q' & W)]).
      + eapply K2; eauto.
      + destruct (G _ _ _ _ _ _ A' D' R' Q' W) as [_ G2]. exact (G2 a s t m A D Q R). }
  set (d := signal_data bars cols inds models fetch computed preds) in *.
  assert (S0 : forall f, signals bars cols inds models fetch computed preds = Some f <-> f = d /\ forall c v, holds bars cols inds models fetch computed preds c v -> length v = bars).
  { intro f. unfold signals, make_frame. fold d. destruct (forallb (fun kc => Nat.eqb (length (snd kc)) bars) d) eqn:E.
    - split; [intros [= <-]|now intros [-> _]]. split; [easy|]. intros c v I. apply H in I. rewrite forallb_forall in E. apply E in I. now apply Nat.eqb_eq in I.
    - split; [easy|]. intros [_ L]. exfalso. rewrite <- not_true_iff_false in E. apply E, forallb_forall. intros [c v] I. apply Nat.eqb_eq, (L c). now apply H. }
  split.
  - split; [intros [f E]; now apply S0 in E as [_ E]|]. intro L. exists d. now apply S0.
  - intros f E. apply S0 in E as [-> L]. split; [|exact H]. split; [exact N|]. intros c v I. apply (L c). now apply H.
Qed.
Print Assumptions C86_signals_partial.

(** Not of every run that started: the indicators of a model are not checked. Here a
    model has a registered indicator named "close": the run starts, and the column
    "close" of the signals is the indicator's, not the data's. *)
Definition bad_ind : indicator := mk_ind 1 (lit "close") [].
Definition bad_model : source := mk_source 2 (lit "m") true [lit "close"] [].
Definition bad_evs : list event := [RegInd bad_ind; RegSource bad_model; Add (mk_request (Some [1]) [Plain bad_model] [] [] None true)].
Theorem C86_signals_refuted : exists evs cols bars fetch computed preds f u v,
  run_validates cols (executions evs) = true /\ NoDup cols /\
  (forall n l, computed n = Some l -> exists a, In a (accepted evs) /\ wants (registry evs) a n) /\
  (forall n p, preds n = Some p -> exists a m t, In a (accepted evs) /\ declares_model a m t /\ variant_name (s_name m) t n) /\
  signals bars cols (map fst (g_inds (registry evs))) (map fst (g_sources (registry evs))) fetch computed preds = Some f /\
  In (lit "close") cols /\ fetch (lit "close") = Some u /\ In (lit "close", v) f /\ u <> v.
Proof.
  exists bad_evs, [lit "date"; lit "open"; lit "close"], 1, (fun _ => Some [Some 10%Q]),
    (fun n => if str_eqb n (lit "close") then Some [Some 3%Q] else None), (fun n => if str_eqb n (lit "m") then Some (Single [Some 7%Q]) else None).
  eexists. eexists. eexists.
  assert (A : accepted bad_evs = [mk_request (Some [1]) [Plain bad_model] [] [] None true]) by comp.
  assert (R : registry bad_evs = mk_scope [(lit "close", bad_ind)] [(lit "m", bad_model)] []) by comp.
  split; [comp|]. split; [repeat constructor; cbn; intuition discriminate|]. split; [|split; [|split; [comp|split; [cbn; auto|split; [reflexivity|split; [right; right; left; reflexivity|discriminate]]]]]].
  - intros n l E. destruct (str_eqb n (lit "close")) eqn:Q; [|easy]. apply str_eqb_iff in Q as ->. rewrite A, R. eexists. split; [now left|]. right.
    exists bad_model, None, bad_model, (lit "close"). split; [eexists; split; [now left|constructor]|]. split; [constructor|]. split; [now left|constructor].
  - intros n p E. destruct (str_eqb n (lit "m")) eqn:Q; [|easy]. apply str_eqb_iff in Q as ->. rewrite A. eexists. exists bad_model, None. split; [now left|].
    split; [eexists; split; [now left|constructor]|constructor].
Qed.
Print Assumptions C86_signals_refuted.

(** The signals of all windows: the rows of the windows' frames one after another, and
    every column that some window has; at the row [i] of the window [k], the value is
    that window's, or missing when it has no such column. *)
Theorem C86_windows : forall fs, fs <> [] -> Forall (fun f => rectangular (fst f) (snd f)) fs ->
  rectangular (list_sum (map fst fs)) (concat_frames fs) /\
  (forall c, In c (map fst (concat_frames fs)) <-> exists f, In f fs /\ In c (map fst (snd f))) /\
  forall c v, In (c, v) (concat_frames fs) -> forall k bars f i, nth_error fs k = Some (bars, f) -> i < bars ->
    exists x, nth_error v (list_sum (map fst (firstn k fs)) + i) = Some x /\
      ((exists u, In (c, u) f /\ nth_error u i = Some x) \/ (~ In c (map fst f) /\ x = None)).
Proof.
  intros fs NE F. destruct (concat_frames_ok fs NE F) as (A & B & C). split; [|split; [exact B|]].
  - split; [exact A|]. intros c v I. rewrite (C c v I). now apply concat_column_length.
  - intros c v I k bars f i K L. rewrite (C c v I). fold (total (firstn k fs)). rewrite (concat_column_at fs c F k (bars, f) i K L).
    assert (R : rectangular (fst (bars, f)) (snd (bars, f))) by (rewrite Forall_forall in F; apply F; eapply nth_error_In; eauto). exact (part_value c (bars, f) i R L).
Qed.
Print Assumptions C86_windows.

(** A model with two outputs and its indicator, another with one, and two windows, in
    the second of which the second model has no predictions. *)
Definition sg_ind : indicator := mk_ind 1 (lit "sma") [].
Definition sg_m : source := mk_source 2 (lit "m") true [lit "sma"] [].
Definition sg_m2 : source := mk_source 3 (lit "m_pred") true [] [].
Definition sg_evs : list event := [RegInd sg_ind; RegSource sg_m; RegSource sg_m2; Add (mk_request (Some [1]) [Plain sg_m; Plain sg_m2] [] [] None true)].
Definition sg_cols : list str := [lit "date"; lit "close"; lit "vwap"].
Definition sg_fetch (c : str) : option column := if str_eqb c (lit "vwap") then None else Some [Some 10; Some 11]%Q.
Definition sg_computed (n : str) : option column := if str_eqb n (lit "sma") then Some [None; Some 3]%Q else None.
Definition sg_preds (two : bool) (n : str) : option prediction :=
  if str_eqb n (lit "m") then Some (Multi [[Some 1; Some 2]; [Some 3; Some 4]]%Q) else
  if str_eqb n (lit "m_pred") then (if two then Some (Single [Some 5; Some 6]%Q) else None) else None.
Example C86_example :
  run_validates sg_cols (executions sg_evs) = true /\
  (forall n l, sg_computed n = Some l -> exists a, In a (accepted sg_evs) /\ wants (registry sg_evs) a n) /\
  (forall n p, sg_preds true n = Some p -> exists a m t, In a (accepted sg_evs) /\ declares_model a m t /\ variant_name (s_name m) t n) /\
  (forall a m t r ind n, In a (accepted sg_evs) -> declares_model a m t -> registered (s_name m) r (g_sources (registry sg_evs)) ->
     In ind (s_indicators r) -> variant_name ind t n ->
     ~ In n sg_cols /\ forall a' m' t' n', In a' (accepted sg_evs) -> declares_model a' m' t' -> variant_name (s_name m') t' n' -> ~ reserved n' n) /\
  exists f g, signals 2 sg_cols [lit "sma"] [lit "m"; lit "m_pred"] sg_fetch sg_computed (sg_preds true) = Some f /\
    signals 2 sg_cols [lit "sma"] [lit "m"; lit "m_pred"] sg_fetch sg_computed (sg_preds false) = Some g /\
    concat_frames [(2, f); (2, g)] =
      [(lit "date", [Some 10; Some 11; Some 10; Some 11]); (lit "close", [Some 10; Some 11; Some 10; Some 11]); (lit "vwap", [None; None; None; None]);
       (lit "sma", [None; Some 3; None; Some 3]); (lit "m_pred_0", [Some 1; Some 2; Some 1; Some 2]); (lit "m_pred_1", [Some 3; Some 4; Some 3; Some 4]);
       (lit "m_pred_pred", [Some 5; Some 6; None; None])]%Q.
Proof.
  assert (A : accepted sg_evs = [mk_request (Some [1]) [Plain sg_m; Plain sg_m2] [] [] None true]) by comp.
  assert (R : registry sg_evs = mk_scope [(lit "sma", sg_ind)] [(lit "m_pred", sg_m2); (lit "m", sg_m)] []) by comp.
  assert (D : forall a m t, In a (accepted sg_evs) -> declares_model a m t -> (m = sg_m \/ m = sg_m2) /\ t = None).
  { rewrite A. intros a m t [<-|[]] (e & I & B). destruct I as [<-|[<-|[]]]; inversion B; auto. }
  split; [comp|]. split; [|split; [|split]].
  - intros n l E. unfold sg_computed in E. destruct (str_eqb n (lit "sma")) eqn:Q; [|easy]. apply str_eqb_iff in Q as ->. rewrite A, R. eexists. split; [now left|]. right.
    exists sg_m, None, sg_m, (lit "sma"). split; [eexists; split; [now left|constructor]|]. split; [constructor; [discriminate|constructor]|]. split; [now left|constructor].
  - intros n p E. unfold sg_preds in E. rewrite A. destruct (str_eqb n (lit "m")) eqn:Q; [|destruct (str_eqb n (lit "m_pred")) eqn:Q'; [|easy]].
    + apply str_eqb_iff in Q as ->. eexists. exists sg_m, None. split; [now left|]. split; [eexists; split; [now left|constructor]|constructor].
    + apply str_eqb_iff in Q' as ->. eexists. exists sg_m2, None. split; [now left|]. split; [eexists; split; [right; now left|constructor]|constructor].
  - intros a m t r ind n Aa Dm Rg I V. rewrite R in Rg. destruct (D a m t Aa Dm) as [M ->]. inversion V; subst.
    assert (n = lit "sma") as ->.
    { apply registered_in in Rg. destruct Rg as [E|[E|[]]]; injection E as _ <-; [destruct I|destruct I as [<-|[]]; reflexivity]. }
    split; [cbn; intuition discriminate|]. intros a' m' t' n' A' D' V' [E|(d & _ & _ & E)]; destruct (D a' m' t' A' D') as [M' ->]; inversion V'; subst; destruct M' as [-> | ->]; discriminate E.
  - eexists. eexists. split; [comp|]. split; [comp|]. comp.
Qed.
