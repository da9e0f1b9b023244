(** Proofs about the metrics of the rounded tables. *)
From Verif Require WholeProofs.
From Verif Require Import PriceProofs PropEval EvalTrades EvalDrawdown.
From Verif Require Import Prelude Lemmas PortfolioFacts PortfolioRun RecordTotals ResultSpec ResultTables.
From Coq Require Import Lqa Qabs Lia.
Open Scope list_scope.
Open Scope Q_scope.

Definition near (rnd : bool) (x y : Q) : Prop := if rnd then nearest_cent x y else y == x.
Lemma shows_all {A B} rnd (f : A -> Q) (g : B -> option Q) xs rows : Forall2 (fun x r => shows' rnd (f x) (g r)) xs rows ->
  exists ys, all_some (map g rows) = Some ys /\ Forall2 (near rnd) (map f xs) ys.
Proof.
  induction 1 as [|x r xs rows H _ [ys [E F]]]; cbn; [exists []; split; [easy|constructor]|].
  unfold shows', shows in H. destruct (g r) as [y|]; [|easy]. rewrite E. exists (y :: ys). split; [easy|]. constructor; [exact H|exact F].
Qed.
Lemma forall2_weaken {A B} (P Q : A -> B -> Prop) l m : (forall x y, P x y -> Q x y) -> Forall2 P l m -> Forall2 Q l m.
Proof. intros H. induction 1; constructor; auto. Qed.
Lemma forall2_len {A B} (P : A -> B -> Prop) l m : Forall2 P l m -> length l = length m.
Proof. induction 1; cbn; congruence. Qed.
Lemma near_within rnd x y : near rnd x y -> within (slack rnd) y x.
Proof. unfold near, within, slack. destruct rnd; [apply nc_near|]. intros H. setoid_replace (y - x) with 0 by lra. discriminate. Qed.
Lemma within_iff e a b : within e a b <-> - e <= a - b <= e.
Proof. unfold within. apply Qabs_Qle_condition. Qed.
Lemma slack_pos rnd : 0 <= slack rnd. Proof. destruct rnd; discriminate. Qed.

Lemma near_nth rnd xs ys k x : Forall2 (near rnd) xs ys -> nth_error xs k = Some x -> exists y, nth_error ys k = Some y /\ within (slack rnd) y x.
Proof.
  intros F. revert k. induction F as [|a b xs ys H F IH]; intros [|k] E; try discriminate.
  - injection E as <-. exists b. split; [easy|]. now apply near_within.
  - now apply IH.
Qed.
Lemma near_nth0 rnd xs ys k : Forall2 (near rnd) xs ys -> within (slack rnd) (nth k ys 0) (nth k xs 0).
Proof.
  intros F. revert k. induction F as [|a b xs ys H F IH]; intros k.
  - destruct k; rewrite within_iff; cbn; pose proof (slack_pos rnd); lra.
  - destruct k as [|k]; cbn; [now apply near_within|]. apply IH.
Qed.
Lemma near_sum rnd xs ys : Forall2 (near rnd) xs ys -> within (inject_Z (Z.of_nat (length xs)) * slack rnd) (Qsum ys) (Qsum xs).
Proof.
  induction 1 as [|a b xs ys H F IH]; [destruct rnd; discriminate|].
  apply near_within in H. rewrite within_iff in *. cbn [length Qsum]. rewrite Nat2Z.inj_succ. unfold Z.succ. rewrite inject_Z_plus. change (inject_Z 1) with 1.
  set (n := inject_Z (Z.of_nat (length xs))) in *. setoid_replace ((n + 1) * slack rnd) with (n * slack rnd + slack rnd) by ring. lra.
Qed.
Lemma last_nth (l : list Q) d : l <> [] -> nth_error l (length l - 1) = Some (last l d).
Proof.
  induction l as [|x l IH]; [easy|]. intros _. destruct l as [|y l]; [easy|]. cbn [length]. replace (S (S (length l)) - 1)%nat with (S (length l)) by lia.
  cbn [nth_error]. specialize (IH ltac:(easy)). cbn [length] in IH. replace (S (length l) - 1)%nat with (length l) in IH by lia. cbn [nth_error] in IH. exact IH.
Qed.

(** Winners and losers. *)
Lemma near_won rnd x y : near rnd x y -> 0 < y -> 0 < x.
Proof.
  unfold near. destruct rnd; [|intros ->; easy]. intros [[n N] D T] P. rewrite div100 in N.
  apply Qabs_Qle_condition in D. assert (X : 1 <= inject_Z n).
  { change 1 with (inject_Z 1). rewrite <- Zle_Qle. assert (0 < inject_Z n) by lra. change 0 with (inject_Z 0) in H. rewrite <- Zlt_Qlt in H. lia. }
  lra.
Qed.
Lemma near_surely rnd x y : near rnd x y -> (if rnd then 1#200 <= x else 0 < x) -> 0 < y.
Proof.
  unfold near. destruct rnd; [|intros ->; easy]. intros [_ D T] P. pose proof D as D'. apply Qabs_Qle_condition in D'.
  destruct (Qlt_le_dec 0 y) as [L|L]; [exact L|exfalso]. assert (Y : y == 0) by lra. assert (X : x == 1#200) by lra.
  assert (E : Qabs (y - x) == 1#200) by (rewrite Y, X; reflexivity). specialize (T E). rewrite X, Y in T. now apply T.
Qed.
Lemma near_opp rnd x y : near rnd x y -> near rnd (- x) (- y).
Proof.
  unfold near. destruct rnd; [|intros ->; reflexivity]. intros [[n N] D T].
  assert (E : Qabs (- y - - x) == Qabs (y - x)) by (rewrite <- (Qabs_opp (y - x)); apply Qabs_wd; ring).
  constructor.
  - exists (- n)%Z. rewrite N, inject_Z_opp. field.
  - now rewrite E.
  - rewrite E, !Qabs_opp. exact T.
Qed.
Lemma those_exists {A} (P : A -> Prop) l : (forall x, P x \/ ~ P x) -> exists m, those P l m.
Proof.
  intros D. induction l as [|x l [m IH]]; [exists []; constructor|]. destruct (D x); [exists (x :: m)|exists m]; now constructor.
Qed.
Lemma those_count {A B} (P : A -> Prop) (Q : B -> Prop) l m : Forall2 (fun x y => P x -> Q y) l m ->
  forall a b, those P l a -> those Q m b -> (length a <= length b)%nat.
Proof.
  induction 1 as [|x y l m H F IH]; intros a b T U; inversion T; inversion U; subst; cbn; try lia.
  - apply le_n_S. now apply IH.
  - exfalso. auto.
  - apply le_S. now apply IH.
  - now apply IH.
Qed.

(** The trades as [evaluate] reads them. *)
Definition read_trades (pnls pcts : list Q) (bars : list nat) : list trade_row :=
  map (fun x => mk_tr (fst (fst x)) (snd (fst x)) (Z.of_nat (snd x))) (combine (combine pnls pcts) bars).
Lemma read_pnls pnls pcts bars : length pnls = length pcts -> length pcts = length bars -> map tr_pnl (read_trades pnls pcts bars) = pnls.
Proof.
  revert pcts bars. induction pnls as [|a l IH]; intros [|b m] [|c n] E F; try easy. cbn. f_equal. apply IH; [now injection E|now injection F].
Qed.
Lemma sum_of_map l : sum_of tr_pnl l == Qsum (map tr_pnl l).
Proof. induction l as [|t l IH]; cbn; [reflexivity|]. now rewrite IH. Qed.
Lemma forall2_map_l {A B C} (P : B -> C -> Prop) (f : A -> B) l m : Forall2 P (map f l) m <-> Forall2 (fun x y => P (f x) y) l m.
Proof.
  split.
  - revert m. induction l as [|x l IH]; intros m H; inversion H; subst; constructor; auto.
  - induction 1; cbn; constructor; auto.
Qed.
Lemma forall2_map_r {A B C} (P : A -> C -> Prop) (f : B -> C) l m : Forall2 P l (map f m) <-> Forall2 (fun x y => P x (f y)) l m.
Proof.
  split.
  - revert l. induction m as [|x m IH]; intros l H; inversion H; subst; constructor; auto.
  - induction 1; cbn; constructor; auto.
Qed.
Lemma worst_close f g n e d d' : (forall k, within e (f k) (g k)) -> worst_fall f n d -> worst_fall g n d' -> within (2 * e) d d'.
Proof.
  intros W [[i [j [L E]]] U] [[i' [j' [L' E']]] U']. pose proof (U i' j' L'). pose proof (U' i j L).
  pose proof (W i). pose proof (W j). pose proof (W i'). pose proof (W j'). rewrite within_iff in *. lra.
Qed.

Section evaluate.
  Context (rnd fr : bool) (p : port) (bars : list bar_row) (trades : list trade_line).
  Hypothesis HB : Forall2 (bar_shown rnd) (p_bars p) bars.
  Hypothesis HT : Forall2 (trade_shown rnd fr) (p_trades p) trades.

  Lemma evaluate_ok :
    ((length (p_bars p) < 2)%nat -> evaluate bars trades = EvDefault) /\
    ((2 <= length (p_bars p))%nat -> exists m, evaluate bars trades = EvMetrics m /\ metrics_close rnd p m).
  Proof.
    destruct (shows_all rnd b_mv br_mv (p_bars p) bars) as [mv [EM FM]]; [eapply forall2_weaken; [|exact HB]; intros; now apply bs_mv|].
    destruct (shows_all rnd b_fees br_fees (p_bars p) bars) as [fees [EF FF]]; [eapply forall2_weaken; [|exact HB]; intros; now apply bs_fees|].
    destruct (shows_all rnd t_pnl tl_pnl (p_trades p) trades) as [pnls [EP FP]]; [eapply forall2_weaken; [|exact HT]; intros ? ? []; assumption|].
    destruct (shows_all rnd t_return tl_return (p_trades p) trades) as [pcts [EC FC]]; [eapply forall2_weaken; [|exact HT]; intros ? ? []; assumption|].
    unfold evaluate. rewrite EM, EF, EP, EC. fold (read_trades pnls pcts (map tl_bars trades)).
    pose proof (forall2_len _ _ _ FM) as LM. pose proof (forall2_len _ _ _ FF) as LF. pose proof (forall2_len _ _ _ FP) as LP. pose proof (forall2_len _ _ _ FC) as LC.
    pose proof (forall2_len _ _ _ HT) as LT. rewrite map_length in LM, LF, LP, LC.
    split; intros N.
    { assert (X : length (bar_changes mv) = 0%nat) by (rewrite changes_length; lia). destruct (bar_changes mv); easy. }
    assert (X : length (bar_changes mv) <> 0%nat) by (rewrite changes_length; lia).
    destruct (bar_changes mv) as [|ch chs] eqn:CH; [easy|]. clear X.
    destruct mv as [|v0 mv]; [cbn in LM; lia|]. destruct fees as [|f0 fees]; [cbn in LF; lia|].
    set (mvs := v0 :: mv) in *. set (fs := f0 :: fees) in *. set (rows := read_trades pnls pcts (map tl_bars trades)).
    assert (RP : map tr_pnl rows = pnls) by (apply read_pnls; rewrite ?map_length; congruence).
    assert (LR : length rows = length (p_trades p)) by (rewrite <- (map_length tr_pnl), RP; congruence).
    eexists. split; [reflexivity|].
    assert (FR : Forall2 (fun t r => near rnd (t_pnl t) (tr_pnl r)) (p_trades p) rows).
    { apply (proj1 (forall2_map_r (fun t x => near rnd (t_pnl t) x) tr_pnl _ _)). rewrite RP. now apply (proj1 (forall2_map_l (near rnd) t_pnl _ _)). }
    destruct (those_exists won rows) as [w TW]; [intros x; unfold won; destruct (Qlt_le_dec 0 (tr_pnl x)); [now left|right; now apply Qle_not_lt]|].
    destruct (those_exists lost rows) as [o TO]; [intros x; unfold lost; destruct (Qlt_le_dec (tr_pnl x) 0); [now left|right; now apply Qle_not_lt]|].
    destruct (C47_totals rows w o TW TO) as [C1 [C2 [C3 [_ [_ [C6 [_ [_ [_ [_ [_ [_ [C13 _]]]]]]]]]]]]].
    assert (SUM : within (inject_Z (Z.of_nat (length (p_trades p))) * slack rnd) (ts_total_pnl (trade_stats rows)) (Qsum (map t_pnl (p_trades p)))).
    { pose proof (near_sum _ _ _ FP) as S1. rewrite map_length in S1. rewrite sum_of_map, RP in C6. unfold within in *. now rewrite C6. }
    assert (I0 : forall b, nth_error (p_bars p) 0 = Some b -> within (slack rnd) v0 (b_mv b)).
    { intros b E. destruct (near_nth _ _ _ 0%nat (b_mv b) FM) as [y [Y W]]; [now apply map_nth_error|]. cbn in Y. injection Y as <-. exact W. }
    assert (J0 : forall b, nth_error (p_bars p) 0 = Some b -> within (slack rnd) f0 (b_fees b)).
    { intros b E. destruct (near_nth _ _ _ 0%nat (b_fees b) FF) as [y [Y W]]; [now apply map_nth_error|]. cbn in Y. injection Y as <-. exact W. }
    assert (IN : forall b, nth_error (p_bars p) (length (p_bars p) - 1) = Some b -> within (slack rnd) (last mvs v0) (b_mv b)).
    { intros b E. destruct (near_nth _ _ _ (length (p_bars p) - 1)%nat (b_mv b) FM) as [y [Y W]]; [now apply map_nth_error|].
      rewrite LM, (last_nth mvs v0) in Y by easy. injection Y as <-. exact W. }
    assert (JN : forall b, nth_error (p_bars p) (length (p_bars p) - 1) = Some b -> within (slack rnd) (last fs f0) (b_fees b)).
    { intros b E. destruct (near_nth _ _ _ (length (p_bars p) - 1)%nat (b_fees b) FF) as [y [Y W]]; [now apply map_nth_error|].
      rewrite LF, (last_nth fs f0) in Y by easy. injection Y as <-. exact W. }
    constructor; cbn [me_initial me_end me_fees me_drawdown me_trades me_unrealized]; auto.
    - intros d D. destruct (C46_market_value mvs v0 eq_refl) as [W _]. rewrite <- LM in W.
      eapply worst_close; [|exact W|exact D]. intros k. now apply near_nth0.
    - congruence.
    - intros NE.
      assert (M : ts_avg_pnl (trade_stats rows) * inject_Z (Z.of_nat (length rows)) == sum_of tr_pnl rows).
      { clear - C13 LR NE. unfold mean_of in C13. destruct rows; [destruct (p_trades p); easy|exact C13]. }
      rewrite sum_of_map, RP, LR in M. clear C13. rename M into C13.
      set (n := inject_Z (Z.of_nat (length (p_trades p)))) in *.
      assert (PN : 0 < n) by (apply nat_pos; destruct (p_trades p); [easy|cbn; lia]).
      pose proof (near_sum _ _ _ FP) as S1. rewrite map_length in S1. fold n in S1. rewrite within_iff in *. rewrite <- C13 in S1.
      set (a := ts_avg_pnl (trade_stats rows)) in *. set (s := Qsum (map t_pnl (p_trades p))) in *.
      assert (D : s / n * n == s) by (field; lra). set (q := s / n) in *. rewrite <- D in S1.
      assert (B1 : n * - slack rnd <= n * (a - q)) by lra. assert (B2 : n * (a - q) <= n * slack rnd) by lra.
      rewrite Qmult_le_l in B1, B2 by exact PN. split; assumption.
    - intros w' s W S'. rewrite C2. split.
      + eapply those_count; [|exact S'|exact TW]. eapply forall2_weaken; [|exact FR]. intros x y H P. unfold surely_won in P. now apply (near_surely rnd (t_pnl x)).
      + assert (FR' : Forall2 (fun r t => won r -> 0 < t_pnl t) rows (p_trades p)).
        { clear - FR. induction FR; constructor; auto. intros P. now apply (near_won rnd _ _ H). }
        exact (those_count _ _ _ _ FR' _ _ TW W).
    - intros w' s W S'. rewrite C3. split.
      + eapply those_count; [|exact S'|exact TO]. eapply forall2_weaken; [|exact FR]. intros x y H P. unfold surely_lost in P. unfold lost.
        apply near_opp in H. assert (0 < - tr_pnl y); [|lra]. apply (near_surely rnd _ _ H). destruct rnd; lra.
      + assert (FR' : Forall2 (fun r t => lost r -> t_pnl t < 0) rows (p_trades p)).
        { clear - FR. induction FR; constructor; auto. unfold lost. intros P. apply near_opp in H. assert (0 < - t_pnl x); [|lra]. apply (near_won rnd _ _ H). lra. }
        exact (those_count _ _ _ _ FR' _ _ TO W).
    - intros b0 b E0 EN. pose proof (I0 _ E0). pose proof (J0 _ E0). pose proof (IN _ EN). pose proof (JN _ EN). rewrite within_iff in *.
      set (n := inject_Z (Z.of_nat (length (p_trades p)))) in *. setoid_replace ((n + 4) * slack rnd) with (n * slack rnd + 4 * slack rnd) by ring. lra.
  Qed.
End evaluate.

(** ** The metrics of the tables *)
Lemma changes_steps mv : bar_changes mv = map (fun k => nth (S k) mv 0 - nth k mv 0) (seq 0 (length mv - 1)).
Proof.
  induction mv as [|a mv IH]; [easy|]. destruct mv as [|b mv]; [easy|].
  change (bar_changes (a :: b :: mv)) with ((b - a) :: bar_changes (b :: mv)). rewrite IH. cbn [length]. replace (S (S (length mv)) - 1)%nat with (S (length mv)) by lia.
  replace (S (length mv) - 1)%nat with (length mv) by lia. cbn [seq map]. f_equal. rewrite <- seq_shift, map_map. easy.
Qed.
Lemma all_some_map {A B} (f : A -> option B) l ys : map f l = map Some ys -> all_some (map f l) = Some ys.
Proof.
  intros ->. induction ys as [|y ys IH]; cbn; [easy|]. now rewrite IH.
Qed.
Lemma evaluate_of bars trades mv fees pnls pcts m : map br_mv bars = map Some mv -> map br_fees bars = map Some fees -> map tl_pnl trades = map Some pnls -> map tl_return trades = map Some pcts ->
  evaluate bars trades = EvMetrics m -> metrics_of mv fees (read_trades pnls pcts (map tl_bars trades)) m.
Proof.
  intros EM EF EP EC. unfold evaluate. rewrite (all_some_map _ _ _ EM), (all_some_map _ _ _ EF), (all_some_map _ _ _ EP), (all_some_map _ _ _ EC).
  destruct (bar_changes mv) as [|ch chs] eqn:CH; [discriminate|]. fold (read_trades pnls pcts (map tl_bars trades)). set (rows := read_trades _ _ _).
  destruct mv as [|v0 mv]; [discriminate|]. destruct fees as [|f0 fees]; [discriminate|]. unfold calc_metrics. cbv beta iota zeta. intros H. assert (HI : forall a b, EvMetrics a = EvMetrics b -> a = b) by (intros a b [=]; easy). apply HI in H. subst m. clear HI.
  assert (SUM : ts_total_pnl (trade_stats rows) == sum_of tr_pnl rows).
  { destruct (those_exists won rows) as [w TW]; [intros x; unfold won; destruct (Qlt_le_dec 0 (tr_pnl x)); [now left|right; now apply Qle_not_lt]|].
    destruct (those_exists lost rows) as [o TO]; [intros x; unfold lost; destruct (Qlt_le_dec (tr_pnl x) 0); [now left|right; now apply Qle_not_lt]|].
    now destruct (C47_totals rows w o TW TO) as [_ [_ [_ [_ [_ [C6 _]]]]]]. }
  set (mvs := v0 :: mv) in *. set (fs := f0 :: fees) in *.
  destruct (C46_market_value mvs v0 eq_refl) as [W WP].
  constructor; cbn [me_initial me_end me_drawdown me_drawdown_pct me_trades me_unrealized me_return_pct me_fees me_pf].
  - reflexivity.
  - exact (last_nth mvs v0 ltac:(easy)).
  - exact (last_nth fs f0 ltac:(easy)).
  - exact W.
  - intros P. specialize (WP P). destruct (max_drawdown_percent (bar_returns mvs)) as [d idx]. destruct WP as [_ WP]. eexists. exact WP.
  - reflexivity.
  - intros f E. injection E as <-. rewrite SUM. reflexivity.
  - intros NZ. unfold total_return_percent. destruct (Qeq_bool v0 0) eqn:E; [apply Qeq_bool_iff in E; easy|]. rewrite SUM. field. exact NZ.
  - intros Z. unfold total_return_percent. apply Qeq_bool_iff in Z. now rewrite Z.
  - intros up down U D NE. rewrite <- changes_steps in U, D.
    destruct (C56_profit_factor (bar_changes mvs) up down U D) as [_ P]. destruct P as [_ [P _]].
    + intros Z. apply NE. assert (X : forall (Q' : Q -> Prop) l m', those Q' l m' -> (forall x, In x l -> ~ Q' x) -> m' = []).
      { induction 1 as [|x l m' H T IH|x l m' H T IH]; intros F; [easy|exfalso; now apply (F x (or_introl eq_refl))|apply IH; intros y I; apply F; now right]. }
      split; [apply (X _ _ _ U)|apply (X _ _ _ D)]; intros x I; rewrite (Z x I); apply Qlt_irrefl.
    + rewrite P. apply Qmult_comp; [reflexivity|]. apply Qinv_comp. ring.
Qed.

(** ** The result *)
Lemma result_ok c f ops b rnd fr stops : cfg_ok c -> run_rec c f ops = Some b -> exists r, to_test_result rnd fr false stops b = Some r /\
  Forall2 (bar_shown rnd) (p_bars (k_port b)) (re_portfolio r) /\ Forall2 (position_shown rnd fr) (k_rows b) (re_positions r) /\
  Forall2 (order_shown rnd fr) (p_orders (k_port b)) (re_orders r) /\ Forall2 (trade_shown rnd fr) (p_trades (k_port b)) (re_trades r) /\
  re_stops r = (if stops then Some (k_stops b) else None) /\ re_metrics r = evaluate (re_portfolio r) (re_trades r).
Proof.
  intros K R. pose proof (rec_port _ _ _ _ R) as RP. destruct (logs c ops (k_port b) K RP) as [IO [IT _]].
  unfold to_test_result. destruct (positions_shown rnd fr (k_rows b)) as [t1 [-> H1]].
  assert (BE : (match k_bars b with [] => p_bars (k_port b) | p :: l => p :: l end) = p_bars (k_port b))
    by (rewrite (bars_recorded c f ops b K R); destruct (f_bars f); [destruct (p_bars (k_port b)); easy|easy]).
  rewrite BE.
  destruct (bars_shown rnd (p_bars (k_port b))) as [t2 [-> H2]].
  destruct (orders_shown rnd fr (p_orders (k_port b))) as [t3 [-> H3]]; [rewrite IO; apply seq_NoDup|].
  destruct (trades_shown rnd fr (p_trades (k_port b))) as [t4 [-> H4]]; [rewrite IT; apply seq_NoDup|].
  eexists. split; [reflexivity|]. cbn. repeat (split; [assumption|]). split; reflexivity.
Qed.

(** ** Whole shares *)
Lemma rows_whole c f ops b : cfg_ok c -> c_fractional c = false -> run_rec c f ops = Some b -> Forall asks_whole ops ->
  Forall (fun w => whole (w_long w) /\ whole (w_short w)) (k_rows b).
Proof.
  intros K FR. revert b. induction ops as [|o ops IH] using rev_ind; intros b R A.
  { injection R as <-. constructor. }
  rewrite rec_snoc in R. destruct (run_rec c f ops) as [b1|] eqn:E; [|discriminate].
  apply Forall_app in A. destruct A as [A _]. specialize (IH b1 eq_refl A).
  destruct o; try (rewrite (proj1 (proj1 (other_calls c f b1 _ b R) I)); exact IH).
  destruct (capture_step c f ops b1 date bar b K E R) as [ws [pb [_ [_ [KR [_ [DS _]]]]]]]. rewrite KR. apply Forall_app. split; [exact IH|].
  destruct (f_rows f); [|constructor]. pose proof (WholeProofs.account_whole c ops (k_port b1) FR A (rec_port _ _ _ _ E)) as WA.
  eapply Forall_impl; [|exact DS]. intros w D. destruct (wa_held _ WA Long (w_sym w)) as [n N]. destruct (wa_held _ WA Short (w_sym w)) as [m M].
  split; [exists n; now rewrite (ds_long _ _ _ _ D)|exists m; now rewrite (ds_short _ _ _ _ D)].
Qed.
Lemma forall2_with {A B} (P : A -> Prop) (R S : A -> B -> Prop) l m : Forall P l -> Forall2 R l m -> (forall x y, P x -> R x y -> S x y) -> Forall2 S l m.
Proof. intros F G H. induction G; constructor; rewrite Forall_cons_iff in F; [apply H; tauto|apply IHG; tauto]. Qed.
Lemma cent_kept n x y : x == inject_Z n / 100 -> nearest_cent x y -> y == x.
Proof.
  intros X [[m M] D _]. apply Qabs_Qle_condition in D. rewrite M, X in *. rewrite !div100 in *.
  assert (A : inject_Z m < inject_Z (n + 1)) by (rewrite inject_Z_plus; change (inject_Z 1) with 1; lra).
  assert (B : inject_Z n < inject_Z (m + 1)) by (rewrite inject_Z_plus; change (inject_Z 1) with 1; lra).
  rewrite <- Zlt_Qlt in A, B. now replace m with n by lia.
Qed.
