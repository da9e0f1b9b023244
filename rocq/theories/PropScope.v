(** C33, C34, C36, C57: reads of columns, indicators, predictions and prices. *)
From Verif Require Import ScopeSpec ScopeProofs PriceProofs Lemmas.
From Coq Require Import Lqa.
Open Scope list_scope.
Open Scope Z_scope.

(** ** C33: column and indicator views never reveal the future *)

(** A view at bar [t] holds exactly the first [t] values of the column; the other
    reads show the same values. *)
Theorem C33_view_is_prefix : forall A (s : store A) symbol name cols array t,
  lookup symbol s = Some cols -> lookup name cols = Some array ->
  exists view, fetch s symbol name (Some (Z.of_nat t)) = Ok (Some view) /\
    (forall i, (i < t)%nat -> nth_error view i = nth_error array i) /\
    (length view <= t)%nat /\
    (forall names, In name names -> exists d,
       fetch_dict s symbol names (Some (Z.of_nat t)) = Ok d /\ In (name, Some view) d) /\
    (forall registered, In name registered -> exists d,
       bar_data registered s symbol (Some (Z.of_nat t)) = Ok d /\ In (name, view) d) /\
    (forall v, (0 < t)%nat -> (fetch_value s symbol name (Z.of_nat t) = Ok (Some v) <-> nth_error (rev view) 0 = Some v)).
Proof.
  intros A s symbol name cols array t S N.
  exists (firstn t array). unfold fetch. rewrite S, N, upto_nonneg, Nat2Z.id by lia.
  split; [easy|]. split; [intros i H; now apply firstn_nth_error|].
  split; [rewrite firstn_length; lia|]. split; [|split].
  - intros names I. unfold fetch_dict. rewrite S. destruct names as [|n0 names]; [easy|].
    eexists. split; [reflexivity|].
    apply (in_map (fun n => (n, match lookup n cols with None => None | Some a => Some (upto (Some (Z.of_nat t)) a) end))) in I.
    rewrite N, upto_nonneg, Nat2Z.id in I by lia. exact I.
  - intros registered I. unfold bar_data. rewrite S. eexists. split; [reflexivity|].
    apply in_flat_map. exists name. split; [easy|]. rewrite N, upto_nonneg, Nat2Z.id by lia. now left.
  - intros v T. unfold fetch_value. rewrite S, N. rewrite <- (last_value_view array t v T).
    destruct (last_value array (Z.of_nat t)); cbn [bind]; split; congruence.
Qed.
Print Assumptions C33_view_is_prefix.

(** No read at bar [t] depends on a value of a later bar. *)
Theorem C33_no_future : forall A (s1 s2 : store A) t, agree_until t s1 s2 ->
  forall symbol,
    (forall name, fetch s1 symbol name (Some (Z.of_nat t)) = fetch s2 symbol name (Some (Z.of_nat t))) /\
    (forall name, fetch_value s1 symbol name (Z.of_nat t) = fetch_value s2 symbol name (Z.of_nat t)) /\
    (forall names, fetch_dict s1 symbol names (Some (Z.of_nat t)) = fetch_dict s2 symbol names (Some (Z.of_nat t))) /\
    (forall registered, bar_data registered s1 symbol (Some (Z.of_nat t)) = bar_data registered s2 symbol (Some (Z.of_nat t))).
Proof.
  intros A s1 s2 t H symbol. specialize (H symbol). unfold fetch, fetch_value, fetch_dict, bar_data.
  destruct (lookup symbol s1) as [c1|], (lookup symbol s2) as [c2|]; try easy.
  assert (G : forall name a1 a2, lookup name c1 = Some a1 -> lookup name c2 = Some a2 ->
              upto (Some (Z.of_nat t)) a1 = upto (Some (Z.of_nat t)) a2 /\ last_value a1 (Z.of_nat t) = last_value a2 (Z.of_nat t)).
  { intros name a1 a2 E1 E2. specialize (H name). rewrite E1, E2 in H.
    rewrite !upto_nonneg, Nat2Z.id by lia. split; [easy|]. apply last_value_agree; [lia|]. now rewrite Nat2Z.id. }
  assert (D : forall name, lookup name c1 = None <-> lookup name c2 = None).
  { intros name. specialize (H name). destruct (lookup name c1), (lookup name c2); easy. }
  split; [|split; [|split]].
  - intros name. destruct (lookup name c1) as [a1|] eqn:E1, (lookup name c2) as [a2|] eqn:E2; try easy.
    + now rewrite (proj1 (G _ _ _ E1 E2)).
    + apply D in E2. congruence.
    + apply D in E1. congruence.
  - intros name. destruct (lookup name c1) as [a1|] eqn:E1, (lookup name c2) as [a2|] eqn:E2; try easy.
    + now rewrite (proj2 (G _ _ _ E1 E2)).
    + apply D in E2. congruence.
    + apply D in E1. congruence.
  - intros names. destruct names as [|n0 names]; [easy|]. f_equal. apply map_ext. intros name.
    destruct (lookup name c1) as [a1|] eqn:E1, (lookup name c2) as [a2|] eqn:E2; try easy.
    + now rewrite (proj1 (G _ _ _ E1 E2)).
    + apply D in E2. congruence.
    + apply D in E1. congruence.
  - intros registered. f_equal. induction registered as [|name r IH]; [easy|]. cbn [flat_map]. rewrite IH. f_equal.
    destruct (lookup name c1) as [a1|] eqn:E1, (lookup name c2) as [a2|] eqn:E2; try easy.
    + now rewrite (proj1 (G _ _ _ E1 E2)).
    + apply D in E2. congruence.
    + apply D in E1. congruence.
Qed.
Print Assumptions C33_no_future.

(** A later view extends an earlier one. *)
Theorem C33_later_view_extends : forall A (s : store A) symbol name t u v w, (t <= u)%nat ->
  fetch s symbol name (Some (Z.of_nat t)) = Ok (Some v) -> fetch s symbol name (Some (Z.of_nat u)) = Ok (Some w) ->
  exists more, w = v ++ more.
Proof.
  intros A s symbol name t u v w H. unfold fetch. destruct (lookup symbol s) as [cols|]; [|easy].
  destruct (lookup name cols) as [a|]; [|easy]. rewrite !upto_nonneg, !Nat2Z.id by lia. intros [= <-] [= <-].
  exists (skipn t (firstn u a)). rewrite <- (firstn_le t u a H). now rewrite firstn_skipn.
Qed.
Print Assumptions C33_later_view_extends.

(** An indicator view at bar [t], whatever was read before: the first [t] values
    of the indicator on the dates of the window. *)
Theorem C33_indicator_view : forall A (s : ind_scope A) history symbol name series t,
  snd (parse_interval_name name) = None -> is_data s name symbol = Some (RSeries series) ->
  fst (ind_fetch s (ind_history s history []) symbol name (Some (Z.of_nat t))) =
  Ok (firstn t (map snd (filter (fun x => existsb (Z.eqb (fst x)) (is_dates s)) series))).
Proof.
  intros A s history symbol name series t N D.
  rewrite ind_fetch_fresh by apply ind_history_ok, ind_cache_nil.
  unfold ind_fetch. rewrite N, D. cbn [cache_get fst ind_array]. rewrite upto_nonneg, Nat2Z.id by lia. easy.
Qed.
Print Assumptions C33_indicator_view.

(** It does not depend on values of later bars: two runs whose indicator values
    share a beginning that holds [t] bars of the window read the same. The scalar
    read neither. *)
Theorem C33_indicator_no_future : forall A (s1 s2 : ind_scope A) h1 h2 symbol name p r1 r2 t,
  snd (parse_interval_name name) = None -> is_dates s1 = is_dates s2 ->
  is_data s1 name symbol = Some (RSeries (p ++ r1)) -> is_data s2 name symbol = Some (RSeries (p ++ r2)) ->
  (t <= length (filter (fun x => existsb (Z.eqb (fst x)) (is_dates s1)) p))%nat ->
  fst (ind_fetch s1 (ind_history s1 h1 []) symbol name (Some (Z.of_nat t))) =
  fst (ind_fetch s2 (ind_history s2 h2 []) symbol name (Some (Z.of_nat t))) /\
  fst (ind_fetch_value s1 (ind_history s1 h1 []) symbol name (Z.of_nat t)) =
  fst (ind_fetch_value s2 (ind_history s2 h2 []) symbol name (Z.of_nat t)).
Proof.
  intros A s1 s2 h1 h2 symbol name p r1 r2 t N D D1 D2 L.
  assert (P : firstn t (map snd (filter (fun x => existsb (Z.eqb (fst x)) (is_dates s1)) (p ++ r1))) =
              firstn t (map snd (filter (fun x => existsb (Z.eqb (fst x)) (is_dates s2)) (p ++ r2)))).
  { rewrite <- D, !filter_app, !map_app, !firstn_app, !map_length.
    replace (t - _)%nat with 0%nat by lia. easy. }
  split; [rewrite !(C33_indicator_view _ _ _ _ _ _ _ N D1), !(C33_indicator_view _ _ _ _ _ _ _ N D2); now f_equal|].
  unfold ind_fetch_value. rewrite N.
  pose proof (ind_fetch_fresh s1 (ind_history s1 h1 []) symbol name None (ind_history_ok _ _ _ (ind_cache_nil _))) as F1.
  pose proof (ind_fetch_fresh s2 (ind_history s2 h2 []) symbol name None (ind_history_ok _ _ _ (ind_cache_nil _))) as F2.
  destruct (ind_fetch s1 (ind_history s1 h1 []) symbol name None) as [v1 c1].
  destruct (ind_fetch s2 (ind_history s2 h2 []) symbol name None) as [v2 c2]. cbn [fst] in *.
  rewrite F1, F2. unfold ind_fetch. rewrite N, D1, D2. cbn [cache_get fst bind upto ind_array].
  apply last_value_agree; [lia|]. rewrite Nat2Z.id. exact P.
Qed.
Print Assumptions C33_indicator_no_future.

(** An indicator bound to an interval has one value per compressed bar: it cannot
    be read with a base bar index at all. *)
Theorem C33_interval_indicator_rejected : forall A (s : ind_scope A) cache symbol name t,
  snd (parse_interval_name name) <> None ->
  fst (ind_fetch s cache symbol name (Some t)) = Raise IntervalBound /\
  fst (ind_fetch_value s cache symbol name t) = Raise IntervalBound.
Proof.
  intros A s cache symbol name t N. unfold ind_fetch_value, ind_fetch.
  destruct (snd (parse_interval_name name)); easy.
Qed.
Print Assumptions C33_interval_indicator_rejected.

Example C33_nontrivial :
  let s : store Z := [(7%nat, [(0%nat, [10; 11; 12; 13]); (1%nat, [5; 6; 7; 8])])] in
  let s' : store Z := [(7%nat, [(0%nat, [10; 11; 99]); (1%nat, [5; 6])])] in
  agree_until 2 s s' /\ fetch s 7 0 (Some 2) = Ok (Some [10; 11]) /\ fetch s' 7 0 (Some 2) = Ok (Some [10; 11]) /\
  fetch_value s 7 1 2 = Ok (Some 6) /\ fetch_value s' 7 1 2 = Ok (Some 6) /\ fetch s 8 0 (Some 2) = Raise SymbolNotFound /\
  let i := mk_ind_scope (fun n y => if Nat.eqb y 7 then Some (RSeries [(1, 10); (2, 20); (3, 30); (5, 50)]) else None) [2; 3; 4; 5] in
  fst (ind_fetch i (ind_history i [(7%nat, lit "rsi", None); (7%nat, lit "rsi@weekly", None)] []) 7 (lit "rsi") (Some 2)) = Ok [20; 30] /\
  snd (parse_interval_name (lit "rsi")) = None /\ snd (parse_interval_name (lit "rsi@weekly")) <> None.
Proof.
  split.
  - intros symbol. cbn. destruct (Nat.eqb symbol 7); [|easy]. intros name.
    destruct name as [|[|name]]; easy.
  - repeat split; vm_compute; easy.
Qed.

(** ** C34: the buffer of per-bar predictions *)

(** A view of the first [n] predictions, taken at any time, shows the first [n]
    values appended by then (all of them if there are fewer), at once and after
    whatever is appended later. *)
Theorem C34_buffer_is_a_list : forall A (before after : list (pb_op A)) n,
  let now := pb_run before pb_new in
  let view := pb_values n now in
  show now view = firstn (Z.to_nat n) (appended before) /\
  show (pb_run after now) view = firstn (Z.to_nat n) (appended before).
Proof.
  intros A before after n now view.
  destruct (pb_run_inv before [] pb_new pb_new_inv) as (I & _). cbn [app] in I.
  pose proof (pb_values_ok n _ _ I) as V.
  split; [exact (proj1 (proj2 V))|].
  destruct (pb_run_inv after _ _ I) as (_ & K). exact (proj1 (proj2 (K _ _ V))).
Qed.
Print Assumptions C34_buffer_is_a_list.

(** Two reallocations, with a view taken before each. *)
Example C34_nontrivial :
  let ops := map (fun i => Append (fun _ => 77) (Z.of_nat i)) (seq 0 16) in
  let now := pb_run ops pb_new in
  let later := pb_run (map (fun i => Append (fun _ => 88) (Z.of_nat i)) (seq 16 20)) now in
  length (pb_heap now) = 2%nat /\ length (pb_heap later) = 4%nat /\
  show later (pb_values 3 now) = [0; 1; 2] /\ length (show later (pb_values 100 now)) = 16%nat /\
  length (show later (pb_values 100 later)) = 36%nat /\ show later (pb_values (-1) later) = [].
Proof. vm_compute. repeat split. Qed.

(** ** C57: predictions *)

(** The predictions of a per-bar model for the first [t] bars, whatever was read
    before (reads that failed included) and whatever fresh memory contains: if
    the read succeeds there are [t] of them, and the one of bar [i] is the last
    value that the model returns for the first [i + 1] input rows. *)
Theorem C57_per_bar_predictions : forall R A (p : predictor R A) input history junk t preds,
  fst (fetch_per_bar p input junk (pred_history p input history pb_new) (Some (Z.of_nat t))) = Ok preds ->
  length preds = t /\
  forall i, (i < t)%nat -> exists answer v,
    p (firstn (S i) input) = Some answer /\ nth_error (rev answer) 0 = Some v /\ nth_error preds i = Some v /\
    (length answer = 1%nat \/ length answer = length (firstn (S i) input)).
Proof.
  intros R A p input history junk t preds E.
  rewrite fetch_per_bar_spec in E.
  2: { apply pred_history_ok. exists []. split; [apply pb_new_inv|easy]. }
  split; [exact (per_bar_preds_length _ _ _ _ _ E)|]. intros i I.
  destruct (per_bar_preds_nth _ _ _ _ _ E i I) as (v & V1 & V2). cbn [Nat.add] in V2.
  unfold predict_scalar in V2. destruct (p (firstn (S i) input)) as [flat|]; [|easy].
  exists flat, v. split; [easy|]. destruct (rev flat) as [|x r] eqn:F; [easy|].
  destruct (Nat.eqb_spec (length flat) 1); cbn [negb andb] in V2.
  - injection V2 as ->. auto.
  - destruct (Nat.eqb_spec (length flat) (length (firstn (S i) input))); cbn [negb] in V2; [|easy].
    injection V2 as ->. auto.
Qed.
Print Assumptions C57_per_bar_predictions.

(** Neither the predictions nor an error of the model depend on rows after bar
    [t], on earlier reads or on memory. *)
Theorem C57_per_bar_no_future : forall R A (p : predictor R A) in1 in2 t, firstn t in1 = firstn t in2 ->
  forall h1 h2 junk1 junk2,
  fst (fetch_per_bar p in1 junk1 (pred_history p in1 h1 pb_new) (Some (Z.of_nat t))) =
  fst (fetch_per_bar p in2 junk2 (pred_history p in2 h2 pb_new) (Some (Z.of_nat t))).
Proof.
  intros R A p in1 in2 t E h1 h2 junk1 junk2. rewrite !fetch_per_bar_spec.
  - apply (per_bar_preds_ext p in1 in2 t 0 t); [lia|easy].
  - apply pred_history_ok. exists []. split; [apply pb_new_inv|easy].
  - apply pred_history_ok. exists []. split; [apply pb_new_inv|easy].
Qed.
Print Assumptions C57_per_bar_no_future.

(** A model that predicts every bar at once is asked once, must answer with one
    prediction per row, and the view at bar [t] is the first [t] of its answers.
    If it works row by row, the view depends on the first [t] rows alone. *)
Theorem C57_series_predictions : forall R A (p : predictor R A) found input cached t view cached',
  (cached = None \/ exists preds, cached = Some preds /\ p input = Some preds /\ length preds = length input) ->
  fetch_predictions p found input cached (Some (Z.of_nat t)) = (Ok view, cached') ->
  (exists preds, p input = Some preds /\ length preds = length input /\ cached' = Some preds /\ view = firstn t preds) /\
  forall f, (forall rows, p rows = Some (map f rows)) -> view = map f (firstn t input).
Proof.
  intros R A p found input cached t view cached' C E.
  assert (G : exists preds, p input = Some preds /\ length preds = length input /\ cached' = Some preds /\ view = firstn t preds).
  { unfold fetch_predictions in E. destruct C as [->|(preds & -> & P & L)].
    - destruct input as [|r input]; [easy|]. destruct found; cbn [negb] in E; [|easy].
      destruct (p (r :: input)) as [preds|]; [|easy].
      destruct (Nat.eqb_spec (length preds) (length (r :: input))); cbn [negb] in E; [|easy].
      rewrite upto_nonneg, Nat2Z.id in E by lia. injection E as <- <-. now exists preds.
    - rewrite upto_nonneg, Nat2Z.id in E by lia. injection E as <- <-. now exists preds. }
  split; [exact G|]. intros f F. destruct G as (preds & P & _ & _ & ->). rewrite F in P. injection P as <-.
  now rewrite firstn_map.
Qed.
Print Assumptions C57_series_predictions.

(** A running mean, predicted bar by bar; the second input differs after bar 2. *)
Example C57_nontrivial :
  let mean : predictor Z Z := fun l => Some [fold_left Z.add l 0 / Z.of_nat (length l)] in
  let each : predictor Z Z := fun l => Some (map (Z.mul 10) l) in
  let junk := fun _ : nat => 77 in
  fst (fetch_per_bar mean [4; 6; 20] junk pb_new (Some 3)) = Ok [4; 5; 10] /\
  fst (fetch_per_bar mean [4; 6; 20] junk (pred_history mean [4; 6; 20] [(None, junk)] pb_new) (Some 2)) = Ok [4; 5] /\
  fst (fetch_per_bar mean [4; 6; 99; 1] junk pb_new (Some 2)) = Ok [4; 5] /\
  fst (fetch_per_bar (fun _ => Some []) [4; 6; 20] junk pb_new (Some 1)) = Raise BadPredictions (A := list Z) /\
  fst (fetch_per_bar each [4; 6; 20] junk pb_new (Some 2)) = Ok [40; 60] /\
  fetch_predictions each true [4; 6; 20] None (Some 2) = (Ok [40; 60], Some [40; 60; 200]) /\
  fst (fetch_predictions (fun _ => Some [1]) true [4; 6; 20] None (Some 2)) = Raise BadPredictions (A := list Z).
Proof. vm_compute. repeat split. Qed.

(** ** C36: fill prices *)

(** Whatever prices were read before on this bar, the price of a bar is the one
    its type names, rounded when the option is on: at most half a cent away, a
    whole number of cents, and no whole number of cents is nearer. *)
Theorem C36_price_of_bar : forall reg s history symbol o h l c t,
  bar_is s symbol o h l c ->
  exists p, fst (fetch_float reg s symbol (PType t) (price_history reg s history [])) = Ok (Some p) /\
    (ps_round s = false -> (p == price_of o h l c t)%Q) /\
    (ps_round s = true -> in_cents p /\ (Qabs (p - price_of o h l c t) <= 1#200)%Q /\
       forall q, in_cents q -> (Qabs (p - price_of o h l c t) <= Qabs (q - price_of o h l c t))%Q).
Proof.
  intros reg s history symbol o h l c t B.
  destruct (plain_bar s symbol o h l c t B) as (p & P & E).
  unfold fetch_float.
  pose proof (proj1 (fetch_price_type_ok s symbol t _ (price_history_ok reg s history [] (price_cache_nil s)))) as F.
  destruct (fetch_price_type s symbol t (price_history reg s history [])) as [r c']. cbn [fst] in *. subst r. rewrite P.
  cbn [bind]. destruct (ps_round s).
  - rewrite round_cents. eexists. split; [reflexivity|]. split; [easy|]. intros _.
    rewrite <- !E. split; [now exists (cents p)|]. split.
    + pose proof (round_near p). apply Qabs_Qle_condition. lra.
    + intros q (n & N). rewrite N, <- E. apply cents_nearest.
  - exists p. split; [easy|]. split; [intros _; exact E|easy].
Qed.
Print Assumptions C36_price_of_bar.

(** On a bar whose prices lie between its low and high, every price type does. *)
Theorem C36_between_low_and_high : forall o h l c t,
  (l <= o <= h)%Q -> (l <= c <= h)%Q -> (l <= price_of o h l c t <= h)%Q.
Proof.
  intros o h l c t O C. assert (l <= h)%Q by lra.
  destruct t; cbn [price_of]; try lra.
  - split; [apply Qle_shift_div_l|apply Qle_shift_div_r]; lra.
  - split; [apply Qle_shift_div_l|apply Qle_shift_div_r]; lra.
Qed.
Print Assumptions C36_between_low_and_high.

(** Rounding of any price: near, monotone, idempotent; NaN stays NaN. *)
Theorem C36_rounding : forall x,
  exists r, round_float true (Some x) = Some r /\ in_cents r /\ (Qabs (r - x) <= 1#200)%Q /\
    (in_cents x -> (r == x)%Q) /\
    (forall y s, (x <= y)%Q -> round_float true (Some y) = Some s -> (r <= s)%Q) /\
    (exists r', round_float true (Some r) = Some r' /\ (r' == r)%Q) /\
    round_float true None = None /\ round_float false (Some x) = Some x.
Proof.
  intros x. exists (inject_Z (cents x) / 100)%Q. split; [apply round_cents|]. split; [now exists (cents x)|].
  split; [pose proof (round_near x); apply Qabs_Qle_condition; lra|].
  split; [intros (n & N); rewrite (cents_exact n x N); now rewrite N|].
  split; [|split].
  - intros y s H E. rewrite round_cents in E. injection E as <-.
    apply cents_mono in H. rewrite Zle_Qle in H. rewrite !div100. lra.
  - eexists. split; [apply round_cents|]. rewrite (cents_exact (cents x)); [easy|]. reflexivity.
  - easy.
Qed.
Print Assumptions C36_rounding.

(** Prices do not depend on later bars: scopes that agree up to the symbol's
    current bar give the same price or the same error. *)
Theorem C36_no_future : forall reg s1 s2 h1 h2 symbol t p,
  ps_end_index s1 = ps_end_index s2 -> ps_round s1 = ps_round s2 ->
  lookup symbol (ps_end_index s1) = Some (Z.of_nat t) -> agree_until t (ps_store s1) (ps_store s2) ->
  fst (fetch_float reg s1 symbol p (price_history reg s1 h1 [])) =
  fst (fetch_float reg s2 symbol p (price_history reg s2 h2 [])).
Proof.
  intros reg s1 s2 h1 h2 symbol t p E R L H. unfold fetch_float. rewrite <- R.
  assert (CV : forall col, column_value s1 symbol col = column_value s2 symbol col).
  { intros col. unfold column_value. rewrite <- E, L. destruct (Z.of_nat t <=? 0); [easy|].
    specialize (H symbol). destruct (lookup symbol (ps_store s1)) as [c1|], (lookup symbol (ps_store s2)) as [c2|]; try easy.
    specialize (H col). destruct (lookup col c1), (lookup col c2); try easy.
    apply last_value_agree; [lia|]. now rewrite Nat2Z.id. }
  destruct p as [ty|q|f].
  - pose proof (proj1 (fetch_price_type_ok s1 symbol ty _ (price_history_ok reg s1 h1 [] (price_cache_nil s1)))) as F1.
    pose proof (proj1 (fetch_price_type_ok s2 symbol ty _ (price_history_ok reg s2 h2 [] (price_cache_nil s2)))) as F2.
    destruct (fetch_price_type s1 symbol ty _), (fetch_price_type s2 symbol ty _). cbn [fst] in *. subst. f_equal.
    destruct ty; cbn [plain]; rewrite !CV; easy.
  - easy.
  - cbn [fst]. rewrite <- E, L. destruct (C33_no_future _ _ _ t H symbol) as (_ & _ & _ & B). now rewrite B.
Qed.
Print Assumptions C36_no_future.

(** [has_bar] says whether a symbol can be priced: it holds on every bar that has
    prices, and where it does not hold every price type raises, whatever was read
    before. *)
Theorem C36_has_bar : forall s symbol,
  ((exists o h l c, bar_is s symbol o h l c) -> has_bar s symbol = true) /\
  (has_bar s symbol = false -> forall reg history t,
     exists e, fst (fetch_float reg s symbol (PType t) (price_history reg s history [])) = Raise e).
Proof.
  intros s symbol. split.
  - intros (o & h & l & c & e & cols & os & hs & ls & cs & E & _). unfold has_bar. rewrite E. apply Z.ltb_lt. lia.
  - intros H reg history t.
    assert (forall col, exists e, column_value s symbol col = Raise e) as R.
    { intros col. unfold column_value. unfold has_bar in H. destruct (lookup symbol (ps_end_index s)) as [e|]; [|eauto].
      apply Z.ltb_ge in H. destruct (Z.leb_spec e 0); [eauto|lia]. }
    unfold fetch_float.
    pose proof (proj1 (fetch_price_type_ok s symbol t _ (price_history_ok reg s history [] (price_cache_nil s)))) as F.
    destruct (fetch_price_type s symbol t (price_history reg s history [])) as [r c']. cbn [fst] in *. subst r.
    destruct t; cbn [plain];
      [destruct (R col_open) as (e & ->)|destruct (R col_low) as (e & ->)|destruct (R col_high) as (e & ->)
      |destruct (R col_close) as (e & ->)|destruct (R col_low) as (e & ->)|destruct (R col_open) as (e & ->)]; cbn; eauto.
Qed.
Print Assumptions C36_has_bar.

Example C36_nontrivial :
  let s := mk_price_scope [(7%nat, [(0%nat, [None; Some 10]); (1%nat, [None; Some (10503#1000)]);
                                    (2%nat, [None; Some (98#10)]); (3%nat, [None; Some (104#10)])])]%Q [(7%nat, 2)] true in
  bar_is s 7 10 (10503#1000) (98#10) (104#10) /\
  (fst (fetch_float [] s 7 (PType PortfolioModel.PTMiddle) []) = Ok (Some (1015 # 100)))%Q /\
  round_float true (Some (-(10151#2000)))%Q = Some (-508#100)%Q.
Proof.
  split; [|split; vm_compute; reflexivity].
  exists 1%nat, [(0%nat, [None; Some 10]); (1%nat, [None; Some (10503#1000)]); (2%nat, [None; Some (98#10)]); (3%nat, [None; Some (104#10)])]%Q.
  do 4 eexists. cbn. repeat split.
Qed.
