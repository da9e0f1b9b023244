From Coq Require Import List Bool Arith Lia ZArith QArith Qminmax Lqa Psatz.
From Verif Require Import Lemmas EvalModel EvalSpec.
Import ListNotations.
Open Scope list_scope.
Open Scope Q_scope.

Definition winb (t : trade_row) : bool := Qltb 0 (tr_pnl t).
Definition loseb (t : trade_row) : bool := Qltb (tr_pnl t) 0.
Lemma winb_won t : winb t = true <-> won t.
Proof. unfold winb, won. split; intro H; [now qb|]. destruct (Qltb 0 (tr_pnl t)) eqn:E; qb; [reflexivity|lra]. Qed.
Lemma loseb_lost t : loseb t = true <-> lost t.
Proof. unfold loseb, lost. split; intro H; [now qb|]. destruct (Qltb (tr_pnl t) 0) eqn:E; qb; [reflexivity|lra]. Qed.
Lemma winb_false t : winb t = false <-> ~ won t.
Proof. rewrite <- winb_won. destruct (winb t); split; congruence. Qed.
Lemma loseb_false t : loseb t = false <-> ~ lost t.
Proof. rewrite <- loseb_lost. destruct (loseb t); split; congruence. Qed.

Lemma those_filter {A} (P : A -> Prop) b l m : (forall x, b x = true <-> P x) -> those P l m -> m = filter b l.
Proof.
  intros H T. induction T as [|x l m Px T IH|x l m Px T IH]; cbn; [reflexivity| |].
  - apply H in Px. rewrite Px. now f_equal.
  - destruct (b x) eqn:E; [apply H in E; tauto|exact IH].
Qed.
Lemma filter_snoc {A} (f : A -> bool) l x : filter f (l ++ [x]) = filter f l ++ (if f x then [x] else []).
Proof. rewrite filter_app. reflexivity. Qed.
Definition qadd (f : trade_row -> Q) (l : list trade_row) : Q := fold_left Qplus (map f l) 0.
Definition zadd (f : trade_row -> Z) (l : list trade_row) : Z := fold_left Z.add (map f l) 0%Z.
Lemma qadd_snoc f l x : qadd f (l ++ [x]) = qadd f l + f x.
Proof. unfold qadd. rewrite map_app, fold_left_app. reflexivity. Qed.
Lemma zadd_snoc f l x : zadd f (l ++ [x]) = (zadd f l + f x)%Z.
Proof. unfold zadd. rewrite map_app, fold_left_app. reflexivity. Qed.
Lemma qadd_sum f l : qadd f l == sum_of f l.
Proof.
  unfold qadd. assert (forall a, fold_left Qplus (map f l) a == a + sum_of f l) as H; [|rewrite H; lra].
  induction l as [|x l IH]; intro a; cbn; [lra|]. rewrite IH. unfold sum_of. lra.
Qed.
Lemma zadd_sum f l : inject_Z (zadd f l) == sum_of (fun t => inject_Z (f t)) l.
Proof.
  unfold zadd. assert (forall a, inject_Z (fold_left Z.add (map f l) a) == inject_Z a + sum_of (fun t => inject_Z (f t)) l) as H; [|rewrite H; change (inject_Z 0) with 0; lra].
  induction l as [|x l IH]; intro a; cbn; [lra|]. rewrite IH, inject_Z_plus. unfold sum_of. lra.
Qed.

(** ** Counters and sums *)
Record counts (l : list trade_row) (s : tloop) : Prop := {
  k_nz : l_nonzero s = (length (filter winb l) + length (filter loseb l))%nat;
  k_w : l_wins s = length (filter winb l); k_l : l_losses s = length (filter loseb l);
  k_pc : l_pcount s = length (filter winb l); k_lc : l_lcount s = length (filter loseb l);
  k_profit : l_profit s = qadd tr_pnl (filter winb l); k_loss : l_loss s = qadd tr_pnl (filter loseb l);
  k_ppct : l_ppct s = qadd tr_pct (filter winb l); k_lpct : l_lpct s = qadd tr_pct (filter loseb l);
  k_wb : l_wbars s = zadd tr_bars (filter winb l); k_lb : l_lbars s = zadd tr_bars (filter loseb l);
  k_pnl : l_pnl s = qadd tr_pnl l; k_pct : l_pct s = qadd tr_pct l; k_bars : l_bars s = zadd tr_bars l }.
Lemma counts_fold l : counts l (fold_left tl_step l tl_init).
Proof.
  induction l as [|t l IH] using rev_ind; [now constructor|].
  rewrite fold_left_app. cbn [fold_left]. set (s := fold_left tl_step l tl_init) in *. destruct IH.
  assert (T : (winb t = true /\ loseb t = false /\ Qeq_bool (tr_pnl t) 0 = false) \/
              (winb t = false /\ loseb t = true /\ Qeq_bool (tr_pnl t) 0 = false) \/
              (winb t = false /\ loseb t = false /\ Qeq_bool (tr_pnl t) 0 = true)).
  { unfold winb, loseb. destruct (Qltb 0 (tr_pnl t)) eqn:A, (Qltb (tr_pnl t) 0) eqn:B, (Qeq_bool (tr_pnl t) 0) eqn:C; qb; auto; try lra. }
  unfold tl_step. fold (winb t). fold (loseb t).
  destruct T as [[A [B C]]|[[A [B C]]|[A [B C]]]]; rewrite A, ?B, C; cbn [negb]; constructor;
    cbn [l_nonzero l_wins l_losses l_profit l_loss l_pcount l_lcount l_ppct l_lpct l_wbars l_lbars l_pnl l_pct l_bars];
    rewrite ?filter_snoc, ?A, ?B, ?app_nil_r, ?app_length, ?qadd_snoc, ?zadd_snoc; cbn [length]; try congruence; lia.
Qed.

(** ** Streaks *)
Section Streak.
  Variable P : trade_row -> Prop. Variable b : trade_row -> bool. Hypothesis Pb : forall t, b t = true <-> P t.
  Definition row_step (st : nat * nat) (t : trade_row) : nat * nat :=
    if b t then (Nat.max (fst st) (S (snd st)), S (snd st)) else (fst st, 0%nat).
  Definition tail_row (l : list trade_row) (k : nat) : Prop :=
    (exists a m, l = a ++ m /\ length m = k /\ Forall P m) /\ forall a m, l = a ++ m -> Forall P m -> (length m <= k)%nat.
  Lemma row_fold l : let st := fold_left row_step l (0, 0)%nat in longest_row P l (fst st) /\ tail_row l (snd st).
  Proof.
    induction l as [|t l IH] using rev_ind.
    - cbn. split; [split|split].
      + exists [], [], []. auto.
      + intros k [a [m [c [E [L _]]]]]. symmetry in E. apply app_eq_nil in E. destruct E as [_ E]. apply app_eq_nil in E. destruct E as [-> _]. cbn in L. lia.
      + exists [], []. auto.
      + intros a m E _. symmetry in E. apply app_eq_nil in E. destruct E as [_ ->]. cbn. lia.
    - rewrite fold_left_app. cbn [fold_left]. destruct (fold_left row_step l (0, 0)%nat) as [mx cur]. cbn [fst snd] in *.
      destruct IH as [[[a [m [c [E [L F]]]]] MX] [[a' [m' [E' [L' F']]]] TX]].
      assert (IN : forall k, in_a_row P (l ++ [t]) k -> in_a_row P l k \/ exists a0 m0, l ++ [t] = a0 ++ m0 /\ length m0 = k /\ Forall P m0).
      { intros k [x [y [z [Ez [Ly Fy]]]]]. destruct z as [|u z] using rev_ind.
        - right. exists x, y. rewrite app_nil_r in Ez. auto.
        - left. exists x, y, z. rewrite !app_assoc in Ez. apply app_inj_tail in Ez. destruct Ez as [Ez _]. rewrite <- app_assoc in Ez. auto. }
      unfold row_step. cbn [fst snd]. destruct (b t) eqn:B; cbn [fst snd].
      + apply Pb in B.
        assert (SX : forall a0 m0, l ++ [t] = a0 ++ m0 -> Forall P m0 -> (length m0 <= S cur)%nat).
        { intros a0 m0 E0 F0. destruct m0 as [|u m0] using rev_ind; [cbn; lia|]. rewrite app_assoc in E0. apply app_inj_tail in E0. destruct E0 as [E0 _].
          apply Forall_app in F0. destruct F0 as [F0 _]. specialize (TX a0 m0 E0 F0). rewrite app_length. cbn. lia. }
        split; [split|split].
        * destruct (Nat.le_gt_cases mx (S cur)) as [H|H].
          -- rewrite Nat.max_r by exact H. exists a', (m' ++ [t]), []. rewrite app_nil_r, app_assoc, <- E', app_length. cbn. split; [reflexivity|]. split; [lia|]. apply Forall_app. auto.
          -- rewrite Nat.max_l by lia. exists a, m, (c ++ [t]). rewrite E, <- !app_assoc. auto.
        * intros k H. apply IN in H. destruct H as [H|[a0 [m0 [E0 [L0 F0]]]]]; [apply MX in H; lia|]. specialize (SX a0 m0 E0 F0). lia.
        * exists a', (m' ++ [t]). rewrite app_assoc, <- E', app_length. cbn. split; [reflexivity|]. split; [lia|]. apply Forall_app. auto.
        * exact SX.
      + assert (NP : ~ P t) by (rewrite <- Pb; congruence).
        assert (SX : forall a0 m0, l ++ [t] = a0 ++ m0 -> Forall P m0 -> (length m0 <= 0)%nat).
        { intros a0 m0 E0 F0. destruct m0 as [|u m0] using rev_ind; [cbn; lia|]. rewrite app_assoc in E0. apply app_inj_tail in E0. destruct E0 as [_ ->].
          apply Forall_app in F0. destruct F0 as [_ F0]. inversion F0. tauto. }
        split; [split|split].
        * exists a, m, (c ++ [t]). rewrite E, <- !app_assoc. auto.
        * intros k H. apply IN in H. destruct H as [H|[a0 [m0 [E0 [L0 F0]]]]]; [apply MX in H; lia|]. specialize (SX a0 m0 E0 F0). lia.
        * exists (l ++ [t]), []. rewrite app_nil_r. auto.
        * exact SX.
  Qed.
End Streak.
Lemma ltb_max a b : (if Nat.ltb a b then b else a) = Nat.max a b.
Proof. destruct (Nat.ltb a b) eqn:E; [apply Nat.ltb_lt in E|apply Nat.ltb_ge in E]; lia. Qed.
Lemma tl_rows l : let s := fold_left tl_step l tl_init in
  (l_mw s, l_cw s) = fold_left (row_step winb) l (0, 0)%nat /\ (l_ml s, l_cl s) = fold_left (row_step loseb) l (0, 0)%nat.
Proof.
  induction l as [|t l IH] using rev_ind; [split; reflexivity|].
  cbv zeta in *. rewrite !fold_left_app. cbn [fold_left]. destruct IH as [<- <-]. set (s := fold_left tl_step l tl_init).
  unfold row_step, tl_step. cbn [fst snd]. fold (winb t). fold (loseb t).
  destruct (winb t) eqn:A.
  - assert (B : loseb t = false).
    { apply winb_won in A. apply loseb_false. unfold won, lost in *. lra. }
    rewrite B. cbn [l_mw l_cw l_ml l_cl]. rewrite ltb_max. auto.
  - destruct (loseb t) eqn:B; cbn [l_mw l_cw l_ml l_cl]; rewrite ?ltb_max; auto.
Qed.
Lemma streak_rows l : let '(mw, ml, w, lo) := fold_left streak_step (map tr_pnl l) (0, 0, 0, 0)%nat in
  (mw, w) = fold_left (row_step winb) l (0, 0)%nat /\ (ml, lo) = fold_left (row_step loseb) l (0, 0)%nat.
Proof.
  induction l as [|t l IH] using rev_ind; [split; reflexivity|].
  rewrite map_app, !fold_left_app. cbn [fold_left map].
  destruct (fold_left streak_step (map tr_pnl l) (0, 0, 0, 0)%nat) as [[[mw ml] w] lo]. destruct IH as [<- <-].
  unfold row_step, streak_step. cbn [fst snd]. fold (winb t). fold (loseb t).
  destruct (winb t), (loseb t); auto.
Qed.

(** ** Largest win and loss *)
Section Largest.
  Variable f : trade_row -> Q.
  Definition lg_step (st : option trade_row) (t : trade_row) : option trade_row :=
    if Qltb 0 (f t) then match st with
                         | None => Some t
                         | Some u => if Qltb (f u) (f t) then Some t else Some u
                         end else st.
  Lemma lg_fold l : match fold_left lg_step l None with
    | None => Forall (fun t => f t <= 0) l
    | Some t => 0 < f t /\ first_largest f l t
    end.
  Proof.
    induction l as [|t l IH] using rev_ind; [constructor|].
    rewrite fold_left_app. cbn [fold_left]. unfold lg_step at 1. destruct (Qltb 0 (f t)) eqn:A; qb.
    - destruct (fold_left lg_step l None) as [u|].
      + destruct IH as [U [a [c [E [F1 F2]]]]]. destruct (Qltb (f u) (f t)) eqn:B; qb.
        * split; [exact A|]. exists l, []. split; [reflexivity|]. split; [|constructor].
          rewrite E. apply Forall_app. split; [eapply Forall_impl; [|exact F1]; cbn; intros; lra|].
          constructor; [exact B|]. eapply Forall_impl; [|exact F2]; cbn; intros; lra.
        * split; [exact U|]. exists a, (c ++ [t]). rewrite E, <- app_assoc. split; [reflexivity|]. split; [exact F1|].
          apply Forall_app. split; [exact F2|]. repeat constructor. exact B.
      + split; [exact A|]. exists l, []. split; [reflexivity|]. split; [|constructor].
        eapply Forall_impl; [|exact IH]. cbn. intros; lra.
    - destruct (fold_left lg_step l None) as [u|].
      + destruct IH as [U [a [c [E [F1 F2]]]]]. split; [exact U|]. exists a, (c ++ [t]). rewrite E, <- app_assoc. split; [reflexivity|]. split; [exact F1|].
        apply Forall_app. split; [exact F2|]. repeat constructor. lra.
      + apply Forall_app. auto.
  Qed.
End Largest.
Definition neg_pnl (t : trade_row) : Q := - tr_pnl t.
Definition of_opt {A} (st : option trade_row) (f : trade_row -> A) (d : A) : A := match st with Some t => f t | None => d end.
Lemma tl_largest l : let s := fold_left tl_step l tl_init in
  let w := fold_left (lg_step tr_pnl) l None in let o := fold_left (lg_step neg_pnl) l None in
  (l_lwin s = of_opt w tr_pnl 0 /\ l_lwpct s = of_opt w tr_pct 0 /\ l_lwbars s = of_opt w tr_bars 0%Z) /\
  (l_lloss s = of_opt o tr_pnl 0 /\ l_llpct s = of_opt o tr_pct 0 /\ l_llbars s = of_opt o tr_bars 0%Z).
Proof.
  induction l as [|t l IH] using rev_ind; [repeat split|].
  pose proof (lg_fold tr_pnl l) as IW. pose proof (lg_fold neg_pnl l) as IO.
  cbv zeta in *. rewrite !fold_left_app. cbn [fold_left].
  set (s := fold_left tl_step l tl_init) in *. set (w := fold_left (lg_step tr_pnl) l None) in *. set (o := fold_left (lg_step neg_pnl) l None) in *.
  destruct IH as [[W1 [W2 W3]] [O1 [O2 O3]]].
  assert (NB : Qltb 0 (neg_pnl t) = loseb t).
  { unfold loseb, neg_pnl. destruct (Qltb 0 (- tr_pnl t)) eqn:A, (Qltb (tr_pnl t) 0) eqn:B; qb; auto; lra. }
  unfold lg_step, tl_step. rewrite NB. fold (winb t). fold (loseb t).
  assert (X : winb t = true -> loseb t = false).
  { rewrite winb_won, loseb_false. unfold won, lost. intros. lra. }
  destruct (winb t) eqn:A.
  - rewrite (X eq_refl). cbn [l_lwin l_lloss l_lwpct l_llpct l_lwbars l_llbars]. split; [|auto].
    apply winb_won in A. unfold won in A. rewrite W1, W2, W3. destruct w as [u|]; cbn [of_opt].
    + destruct (Qltb (tr_pnl u) (tr_pnl t)); auto.
    + destruct (Qltb 0 (tr_pnl t)) eqn:B; qb; [auto|lra].
  - destruct (loseb t) eqn:B; cbn [l_lwin l_lloss l_lwpct l_llpct l_lwbars l_llbars]; (split; [auto|]); [|auto].
    apply loseb_lost in B. unfold lost in B. rewrite O1, O2, O3. destruct o as [u|]; cbn [of_opt].
    + assert (Q : Qltb (tr_pnl t) (tr_pnl u) = Qltb (neg_pnl u) (neg_pnl t)).
      { unfold neg_pnl. destruct (Qltb (tr_pnl t) (tr_pnl u)) eqn:Y, (Qltb (- tr_pnl u) (- tr_pnl t)) eqn:Z; qb; auto; lra. }
      rewrite Q. destruct (Qltb (neg_pnl u) (neg_pnl t)); auto.
    + destruct (Qltb (tr_pnl t) 0) eqn:C; qb; [auto|lra].
Qed.

(** ** The fields of the result *)
Lemma stats_loop l : let s := fold_left tl_step l tl_init in let r := trade_stats l in
  ts_count r = length l /\ ts_wins r = l_wins s /\ ts_losses r = l_losses s /\ ts_total_profit r = l_profit s /\ ts_total_loss r = l_loss s /\
  ts_largest_win r = l_lwin s /\ ts_largest_loss r = l_lloss s /\ ts_largest_win_pct r = l_lwpct s /\ ts_largest_loss_pct r = l_llpct s /\
  ts_largest_win_bars r = l_lwbars s /\ ts_largest_loss_bars r = l_llbars s /\ ts_max_wins r = l_mw s /\ ts_max_losses r = l_ml s /\
  ts_total_pnl r = l_pnl s /\
  ts_avg_profit r = over (l_profit s) (l_pcount s) /\ ts_avg_loss r = over (l_loss s) (l_lcount s) /\
  ts_avg_profit_pct r = over (l_ppct s) (l_pcount s) /\ ts_avg_loss_pct r = over (l_lpct s) (l_lcount s) /\
  ts_avg_win_bars r = over (inject_Z (l_wbars s)) (l_pcount s) /\ ts_avg_loss_bars r = over (inject_Z (l_lbars s)) (l_lcount s) /\
  ts_avg_pnl r = over (l_pnl s) (length l) /\ ts_avg_return_pct r = over (l_pct s) (length l) /\ ts_avg_bars r = over (inject_Z (l_bars s)) (length l) /\
  ts_win_rate r = (match l_nonzero s with O => 0 | k => inject_Z (Z.of_nat (l_wins s)) / inject_Z (Z.of_nat k) * 100 end) /\
  ts_loss_rate r = (match l_nonzero s with O => 0 | k => inject_Z (Z.of_nat (l_losses s)) / inject_Z (Z.of_nat k) * 100 end).
Proof. destruct l as [|t l]; [cbn; repeat split|]. unfold trade_stats, over. repeat split. Qed.

Lemma nat_pos n : (0 < n)%nat -> 0 < inject_Z (Z.of_nat n).
Proof. intro H. change 0 with (inject_Z 0). rewrite <- Zlt_Qlt. lia. Qed.
Lemma over_spec a n : (n = 0%nat -> over a n == 0) /\ (n <> 0%nat -> over a n * inject_Z (Z.of_nat n) == a).
Proof.
  split; intro H; [now subst|]. destruct n as [|n]; [congruence|]. unfold over. pose proof (nat_pos (S n) ltac:(lia)). field. lra.
Qed.
(** What a mean is: the sum over the count, 0 of nothing. *)
Lemma over_sum f l : let n := length l in over (qadd f l) n == match l with [] => 0 | _ => sum_of f l / inject_Z (Z.of_nat n) end.
Proof. destruct l as [|t l]; [reflexivity|]. cbn [length over]. rewrite qadd_sum. reflexivity. Qed.
Lemma over_zsum f l : let n := length l in over (inject_Z (zadd f l)) n == match l with [] => 0 | _ => sum_of (fun t => inject_Z (f t)) l / inject_Z (Z.of_nat n) end.
Proof. destruct l as [|t l]; [reflexivity|]. cbn [length over]. rewrite zadd_sum. reflexivity. Qed.

(** ** Against the separate functions *)
Lemma wins_map l : wins_of (map tr_pnl l) = map tr_pnl (filter winb l).
Proof. induction l as [|t l IH]; [reflexivity|]. unfold wins_of in *. cbn [map filter]. fold (winb t). destruct (winb t); cbn [map]; now rewrite IH. Qed.
Lemma losses_map l : losses_of (map tr_pnl l) = map tr_pnl (filter loseb l).
Proof. induction l as [|t l IH]; [reflexivity|]. unfold losses_of in *. cbn [map filter]. fold (loseb t). destruct (loseb t); cbn [map]; now rewrite IH. Qed.
Lemma wins_flat l : wins_of (flat_out l) = wins_of l.
Proof.
  unfold wins_of, flat_out. induction l as [|x l IH]; [reflexivity|]. cbn [filter]. destruct (Qeq_bool x 0) eqn:E; cbn [negb filter]; [|now rewrite IH].
  destruct (Qltb 0 x) eqn:L; [qb; lra|exact IH].
Qed.
Lemma losses_flat l : losses_of (flat_out l) = losses_of l.
Proof.
  unfold losses_of, flat_out. induction l as [|x l IH]; [reflexivity|]. cbn [filter]. destruct (Qeq_bool x 0) eqn:E; cbn [negb filter]; [|now rewrite IH].
  destruct (Qltb x 0) eqn:L; [qb; lra|exact IH].
Qed.
Lemma flat_count l : length (flat_out l) = (length (wins_of l) + length (losses_of l))%nat.
Proof.
  unfold flat_out, wins_of, losses_of. induction l as [|x l IH]; [reflexivity|]. cbn [filter].
  destruct (Qeq_bool x 0) eqn:E, (Qltb 0 x) eqn:A, (Qltb x 0) eqn:B; cbn [negb length]; try lia; qb; try lra.
Qed.
Lemma max_fold l : forall x, (forall y, In y l -> y <= fold_left Qmax l x) /\ x <= fold_left Qmax l x /\
  (fold_left Qmax l x == x \/ exists y, In y l /\ fold_left Qmax l x == y).
Proof.
  induction l as [|a l IH]; intro x; cbn.
  - split; [tauto|]. split; [lra|]. left. reflexivity.
  - destruct (IH (Qmax x a)) as [A [B C]]. pose proof (Q.le_max_l x a). pose proof (Q.le_max_r x a). split; [|split].
    + intros y [<-|H1]; [lra|auto].
    + lra.
    + destruct C as [C|[y [Hy C]]]; [|right; exists y; auto].
      destruct (Q.max_spec x a) as [[H1 E]|[H1 E]]; [right; exists a; split; [auto|now rewrite C]|left; now rewrite C].
Qed.
Lemma min_fold l : forall x, (forall y, In y l -> fold_left Qmin l x <= y) /\ fold_left Qmin l x <= x /\
  (fold_left Qmin l x == x \/ exists y, In y l /\ fold_left Qmin l x == y).
Proof.
  induction l as [|a l IH]; intro x; cbn.
  - split; [tauto|]. split; [lra|]. left. reflexivity.
  - destruct (IH (Qmin x a)) as [A [B C]]. pose proof (Q.le_min_l x a). pose proof (Q.le_min_r x a). split; [|split].
    + intros y [<-|H1]; [lra|auto].
    + lra.
    + destruct C as [C|[y [Hy C]]]; [|right; exists y; auto].
      destruct (Q.min_spec x a) as [[H1 E]|[H1 E]]; [left; now rewrite C|right; exists a; split; [auto|now rewrite C]].
Qed.
Lemma first_largest_all f l t : first_largest f l t -> In t l /\ forall u, In u l -> f u <= f t.
Proof.
  intros [a [c [-> [A B]]]]. rewrite Forall_forall in A, B. split; [apply in_app_iff; right; now left|].
  intros u H. apply in_app_iff in H. destruct H as [H|[<-|H]]; [apply A in H; lra|lra|auto].
Qed.
Lemma filter_nil_all {A} (b : A -> bool) l : (forall x, In x l -> b x = false) -> filter b l = [].
Proof. induction l as [|x l IH]; intro H; [reflexivity|]. cbn. rewrite H by now left. apply IH. intros y I. apply H. now right. Qed.
Theorem stats_agree l : let r := trade_stats l in let pn := map tr_pnl l in
  (ts_win_rate r, ts_loss_rate r) = win_loss_rate pn /\
  (ts_wins r, ts_losses r) = winning_losing_trades pn /\
  (ts_total_profit r, ts_total_loss r) = total_profit_loss pn /\
  (ts_avg_profit r, ts_avg_loss r) = avg_profit_loss pn /\
  (ts_largest_win r == fst (largest_win_loss pn) /\ ts_largest_loss r == snd (largest_win_loss pn)) /\
  (ts_max_wins r, ts_max_losses r) = max_wins_losses pn.
Proof.
  pose proof (stats_loop l) as S. pose proof (counts_fold l) as K. pose proof (tl_rows l) as R. pose proof (tl_largest l) as G.
  pose proof (streak_rows l) as SR. pose proof (lg_fold tr_pnl l) as IW. pose proof (lg_fold neg_pnl l) as IO.
  cbv zeta in *. set (s := fold_left tl_step l tl_init) in *.
  destruct S as [S1 [S2 [S3 [S4 [S5 [S6 [S7 [S8 [S9 [S10 [S11 [S12 [S13 [S14 [S15 [S16 [_ [_ [_ [_ [_ [_ [_ [S24 S25]]]]]]]]]]]]]]]]]]]]]]]].
  destruct K as [K1 K2 K3 K4 K5 K6 K7 _ _ _ _ _ _ _].
  assert (LW : length (wins_of (map tr_pnl l)) = length (filter winb l)) by now rewrite wins_map, map_length.
  assert (LL : length (losses_of (map tr_pnl l)) = length (filter loseb l)) by now rewrite losses_map, map_length.
  pose proof (flat_count (map tr_pnl l)) as FC. rewrite LW, LL in FC.
  split; [|split; [|split; [|split; [|split]]]].
  - rewrite S24, S25. unfold win_loss_rate, qlen. rewrite wins_flat, losses_flat, LW, LL. rewrite K1, K2, K3, <- FC.
    destruct (flat_out (map tr_pnl l)); reflexivity.
  - rewrite S2, S3, K2, K3. unfold winning_losing_trades. rewrite wins_flat, losses_flat, LW, LL.
    destruct (flat_out (map tr_pnl l)); [|reflexivity]. cbn in FC. f_equal; lia.
  - rewrite S4, S5, K6, K7. unfold total_profit_loss, qadd. rewrite wins_map, losses_map.
    destruct (map tr_pnl (filter winb l)), (map tr_pnl (filter loseb l)); reflexivity.
  - rewrite S15, S16, K4, K5, K6, K7. unfold avg_profit_loss, qmean, qlen, qadd, over. rewrite wins_map, losses_map.
    f_equal; [destruct (filter winb l)|destruct (filter loseb l)]; cbn [map length]; rewrite ?map_length; reflexivity.
  - destruct G as [[G1 _] [G2 _]]. rewrite S6, S7, G1, G2. unfold largest_win_loss. cbn [fst snd]. rewrite wins_map, losses_map. split.
    + destruct (fold_left (lg_step tr_pnl) l None) as [t|]; cbn [of_opt].
      * destruct IW as [T F]. apply first_largest_all in F. destruct F as [I F].
        assert (It : In t (filter winb l)) by (apply filter_In; split; [exact I|now apply winb_won]).
        destruct (filter winb l) as [|u r] eqn:E; [destruct It|]. cbn [map].
        destruct (max_fold (map tr_pnl r) (tr_pnl u)) as [A [B C]].
        assert (L1 : tr_pnl t <= fold_left Qmax (map tr_pnl r) (tr_pnl u)).
        { destruct It as [->|It]; [exact B|]. apply A. now apply in_map. }
        assert (L2 : forall x, In x (u :: r) -> tr_pnl x <= tr_pnl t).
        { intros x Hx. apply F. rewrite <- E in Hx. now apply filter_In in Hx. }
        destruct C as [C|[y [Hy C]]]; [specialize (L2 u (or_introl eq_refl)); lra|].
        apply in_map_iff in Hy. destruct Hy as [x [<- Hx]]. specialize (L2 x (or_intror Hx)). lra.
      * rewrite filter_nil_all; [reflexivity|]. rewrite Forall_forall in IW. intros x Hx. apply IW in Hx. apply winb_false. unfold won. lra.
    + destruct (fold_left (lg_step neg_pnl) l None) as [t|]; cbn [of_opt].
      * destruct IO as [T F]. apply first_largest_all in F. destruct F as [I F]. unfold neg_pnl in T, F.
        assert (It : In t (filter loseb l)) by (apply filter_In; split; [exact I|apply loseb_lost; unfold lost; lra]).
        destruct (filter loseb l) as [|u r] eqn:E; [destruct It|]. cbn [map].
        destruct (min_fold (map tr_pnl r) (tr_pnl u)) as [A [B C]].
        assert (L1 : fold_left Qmin (map tr_pnl r) (tr_pnl u) <= tr_pnl t).
        { destruct It as [->|It]; [exact B|]. apply A. now apply in_map. }
        assert (L2 : forall x, In x (u :: r) -> tr_pnl t <= tr_pnl x).
        { intros x Hx. rewrite <- E in Hx. apply filter_In in Hx. destruct Hx as [Hx _]. apply F in Hx. lra. }
        destruct C as [C|[y [Hy C]]]; [specialize (L2 u (or_introl eq_refl)); lra|].
        apply in_map_iff in Hy. destruct Hy as [x [<- Hx]]. specialize (L2 x (or_intror Hx)). lra.
      * rewrite filter_nil_all; [reflexivity|]. rewrite Forall_forall in IO. intros x Hx. apply IO in Hx. apply loseb_false. unfold lost, neg_pnl in *. lra.
  - rewrite S12, S13. unfold max_wins_losses. destruct (fold_left streak_step (map tr_pnl l) (0, 0, 0, 0)%nat) as [[[mw ml] w] lo].
    destruct SR as [A B], R as [C D]. rewrite <- A in C. rewrite <- B in D. congruence.
Qed.

Theorem stats_streaks l : longest_row won l (ts_max_wins (trade_stats l)) /\ longest_row lost l (ts_max_losses (trade_stats l)).
Proof.
  pose proof (stats_loop l) as S. pose proof (tl_rows l) as R. cbv zeta in *.
  destruct S as [_ [_ [_ [_ [_ [_ [_ [_ [_ [_ [_ [-> [-> _]]]]]]]]]]]]]. destruct R as [A B].
  pose proof (row_fold won winb winb_won l) as [X _]. pose proof (row_fold lost loseb loseb_lost l) as [Y _].
  rewrite <- A in X. rewrite <- B in Y. auto.
Qed.

Theorem stats_largest l : let r := trade_stats l in
  (Forall (fun t => ~ won t) l /\ ts_largest_win r = 0 /\ ts_largest_win_pct r = 0 /\ ts_largest_win_bars r = 0%Z \/
   exists t, won t /\ first_largest tr_pnl l t /\ ts_largest_win r = tr_pnl t /\ ts_largest_win_pct r = tr_pct t /\ ts_largest_win_bars r = tr_bars t) /\
  (Forall (fun t => ~ lost t) l /\ ts_largest_loss r = 0 /\ ts_largest_loss_pct r = 0 /\ ts_largest_loss_bars r = 0%Z \/
   exists t, lost t /\ first_largest (fun t => - tr_pnl t) l t /\ ts_largest_loss r = tr_pnl t /\ ts_largest_loss_pct r = tr_pct t /\ ts_largest_loss_bars r = tr_bars t).
Proof.
  pose proof (stats_loop l) as S. pose proof (tl_largest l) as G. cbv zeta in *.
  pose proof (lg_fold tr_pnl l) as IW. pose proof (lg_fold neg_pnl l) as IO.
  destruct S as [_ [_ [_ [_ [_ [-> [-> [-> [-> [-> [-> _]]]]]]]]]]]. destruct G as [[-> [-> ->]] [-> [-> ->]]]. split.
  - destruct (fold_left (lg_step tr_pnl) l None) as [t|]; cbn [of_opt]; [right|left].
    + exists t. destruct IW. auto.
    + split; [|auto]. eapply Forall_impl; [|exact IW]. unfold won. cbn. intros. lra.
  - destruct (fold_left (lg_step neg_pnl) l None) as [t|]; cbn [of_opt]; [right|left].
    + exists t. destruct IO as [T F]. unfold neg_pnl in T. split; [unfold lost; lra|]. auto.
    + split; [|auto]. eapply Forall_impl; [|exact IO]. unfold lost, neg_pnl. cbn. intros. lra.
Qed.

Lemma over_mean f l : mean_of f l (over (qadd f l) (length l)).
Proof.
  destruct l as [|t l]; [reflexivity|]. unfold mean_of. destruct (over_spec (qadd f (t :: l)) (length (t :: l))) as [_ H].
  rewrite H by discriminate. apply qadd_sum.
Qed.
Lemma over_zmean f l : mean_of (fun t => inject_Z (f t)) l (over (inject_Z (zadd f l)) (length l)).
Proof.
  destruct l as [|t l]; [reflexivity|]. unfold mean_of. destruct (over_spec (inject_Z (zadd f (t :: l))) (length (t :: l))) as [_ H].
  rewrite H by discriminate. apply zadd_sum.
Qed.
Theorem stats_totals l w o : those won l w -> those lost l o -> let r := trade_stats l in
  ts_count r = length l /\ ts_wins r = length w /\ ts_losses r = length o /\
  ts_total_profit r == sum_of tr_pnl w /\ ts_total_loss r == sum_of tr_pnl o /\ ts_total_pnl r == sum_of tr_pnl l /\
  mean_of tr_pnl w (ts_avg_profit r) /\ mean_of tr_pnl o (ts_avg_loss r) /\
  mean_of tr_pct w (ts_avg_profit_pct r) /\ mean_of tr_pct o (ts_avg_loss_pct r) /\
  mean_of (fun t => inject_Z (tr_bars t)) w (ts_avg_win_bars r) /\ mean_of (fun t => inject_Z (tr_bars t)) o (ts_avg_loss_bars r) /\
  mean_of tr_pnl l (ts_avg_pnl r) /\ mean_of tr_pct l (ts_avg_return_pct r) /\ mean_of (fun t => inject_Z (tr_bars t)) l (ts_avg_bars r).
Proof.
  intros TW TO. apply (those_filter _ winb _ _ winb_won) in TW. apply (those_filter _ loseb _ _ loseb_lost) in TO. subst w o.
  pose proof (stats_loop l) as S. pose proof (counts_fold l) as K. cbv zeta in *.
  destruct S as [S1 [S2 [S3 [S4 [S5 [_ [_ [_ [_ [_ [_ [_ [_ [S14 [S15 [S16 [S17 [S18 [S19 [S20 [S21 [S22 [S23 _]]]]]]]]]]]]]]]]]]]]]]].
  destruct K as [K1 K2 K3 K4 K5 K6 K7 K8 K9 K10 K11 K12 K13 K14].
  rewrite S1, S2, S3, S4, S5, S14, S15, S16, S17, S18, S19, S20, S21, S22, S23, K2, K3, K4, K5, K6, K7, K8, K9, K10, K11, K12, K13, K14.
  repeat (split; [try reflexivity; try apply qadd_sum; try apply over_mean; apply over_zmean|]). apply over_zmean.
Qed.
Theorem stats_rates l w o : those won l w -> those lost l o -> let r := trade_stats l in
  (w = [] /\ o = [] -> ts_win_rate r == 0 /\ ts_loss_rate r == 0) /\
  (~ (w = [] /\ o = []) -> ts_win_rate r + ts_loss_rate r == 100 /\
     ts_win_rate r * inject_Z (Z.of_nat (length w + length o)) == 100 * inject_Z (Z.of_nat (length w))).
Proof.
  intros TW TO. apply (those_filter _ winb _ _ winb_won) in TW. apply (those_filter _ loseb _ _ loseb_lost) in TO. subst w o.
  pose proof (stats_loop l) as S. pose proof (counts_fold l) as K. cbv zeta in *.
  destruct S as [_ [_ [_ [_ [_ [_ [_ [_ [_ [_ [_ [_ [_ [_ [_ [_ [_ [_ [_ [_ [_ [_ [_ [S24 S25]]]]]]]]]]]]]]]]]]]]]]]].
  destruct K as [K1 K2 K3 _ _ _ _ _ _ _ _ _ _ _]. rewrite S24, S25, K1, K2, K3.
  set (a := length (filter winb l)) in *. set (c := length (filter loseb l)) in *. split.
  - intros [A B]. unfold a, c. rewrite A, B. cbn. split; reflexivity.
  - intro N. assert (P : (0 < a + c)%nat).
    { unfold a, c. destruct (filter winb l), (filter loseb l); cbn; try lia. tauto. }
    pose proof (nat_pos _ P) as Q. destruct (a + c)%nat as [|n] eqn:E; [lia|].
    assert (E' : inject_Z (Z.of_nat a) + inject_Z (Z.of_nat c) == inject_Z (Z.of_nat (S n))).
    { rewrite <- inject_Z_plus, <- Nat2Z.inj_add, E. reflexivity. }
    split; [|field; lra].
    rewrite <- E' in *. field. lra.
Qed.
