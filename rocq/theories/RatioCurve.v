(** Proofs about drawdowns, the Calmar ratio, the ulcer index and UPI, for C87, C88. *)
From Verif Require Import RatioSpec RatioProofs.
From Coq Require Import Lia Lra Psatz.
Open Scope list_scope.
Open Scope R_scope.

(** ** Peaks *)
Lemma peak_fun f k p q : peak f k p -> peak f k q -> p = q.
Proof. intros [(i & I & ->) A] [(j & J & ->) B]. apply Rle_antisym; [now apply B|now apply A]. Qed.
Lemma peak_0 f : peak f 0 (f 0%nat).
Proof. split; [exists 0%nat; auto|]. intros i I. assert (i = 0%nat) as -> by lia. lra. Qed.
Lemma peak_S f k p : peak f k p -> peak f (S k) (Rmax p (f (S k))).
Proof.
  intros [(i & I & ->) A]. split.
  - unfold Rmax. destruct (Rle_dec (f i) (f (S k))); [exists (S k); auto|exists i; auto].
  - intros j J. destruct (Nat.eq_dec j (S k)) as [->|N]; [apply Rmax_r|]. eapply Rle_trans; [apply A; lia|apply Rmax_l].
Qed.
Lemma peak_ext f g k p : (forall i, (i <= k)%nat -> f i = g i) -> peak f k p -> peak g k p.
Proof. intros E [(i & I & ->) A]. split; [exists i; split; [easy|now apply E]|]. intros j J. rewrite <- E by easy. now apply A. Qed.
Lemma peak_ex f k : exists p, peak f k p.
Proof. induction k as [|k [p P]]; [exists (f 0%nat); apply peak_0|eexists; apply peak_S; eauto]. Qed.
Lemma drawdown_fun f n d d' : (forall k, peak f k 0 -> False) -> 0 < f 0%nat -> drawdown f n d -> drawdown f n d' -> d = d'.
Proof.
  intros _ F0 (A & B & C) (A' & B' & C').
  assert (P : forall k p, peak f k p -> 0 < p) by (intros k p [_ H]; specialize (H 0%nat ltac:(lia)); lra).
  apply Rle_antisym.
  - destruct C as [->|(k & p & K & Q & E)]; [easy|]. specialize (B' k p K Q). rewrite E in B'. specialize (P _ _ Q). nra.
  - destruct C' as [->|(k & p & K & Q & E)]; [easy|]. specialize (B k p K Q). rewrite E in B. specialize (P _ _ Q). nra.
Qed.

(** ** Compounding *)
Lemma compounded_app l r k : (k <= length l)%nat -> compounded (l ++ [r]) k = compounded l k.
Proof. intro K. unfold compounded. rewrite firstn_app. replace (k - length l)%nat with 0%nat by lia. cbn. now rewrite app_nil_r. Qed.
Lemma fold_mult l : forall a, fold_right (fun r a => (1 + r) * a) a l = fold_right (fun r a => (1 + r) * a) 1 l * a.
Proof. induction l as [|x l IH]; intros a; cbn [fold_right]; [lra|]. rewrite IH. ring. Qed.
Lemma compounded_snoc l r : compounded (l ++ [r]) (S (length l)) = compounded l (length l) * (1 + r).
Proof.
  unfold compounded. rewrite firstn_all. replace (S (length l)) with (length (l ++ [r])) by (rewrite app_length; cbn; lia).
  rewrite firstn_all, fold_right_app. cbn [fold_right]. rewrite fold_mult. ring.
Qed.
Definition ddp l := fold_left ddp_step (map Some l) (Some 1, 1, 0).
Definition dd_inv (f : nat -> R) (n : nat) (me dd : R) : Prop :=
  peak f n me /\ 1 <= me /\ dd <= 0 /\ (forall k p, (k <= n)%nat -> peak f k p -> dd <= (f k / p - 1) * 100) /\
  (dd = 0 \/ exists k p, (k <= n)%nat /\ peak f k p /\ dd = (f k / p - 1) * 100).
Lemma ddp_ok l : exists me dd, ddp l = (Some (compounded l (length l)), me, dd) /\ dd_inv (compounded l) (length l) me dd.
Proof.
  induction l as [|r l (me & dd & E & P & M & D & W & X)] using rev_ind.
  - exists 1, 0. split; [reflexivity|]. split; [exact (peak_0 (compounded []))|]. split; [lra|]. split; [lra|]. split; [|now left].
    intros k p K Q. assert (k = 0%nat) as -> by (cbn in K; lia). rewrite (peak_fun _ _ _ _ Q (peak_0 _)). cbn. lra.
  - unfold ddp in *. rewrite map_app, fold_left_app, E. cbn [map fold_left ddp_step option_map lift2].
    rewrite app_length. cbn [length]. rewrite Nat.add_1_r, compounded_snoc. set (c := compounded l (length l) * (1 + r)).
    replace (compounded l (length l) * (r + 1)) with c by (unfold c; ring).
    assert (Ext : forall i, (i <= length l)%nat -> compounded l i = compounded (l ++ [r]) i) by (intros; symmetry; now apply compounded_app).
    assert (P' := peak_S _ _ _ (peak_ext _ _ _ _ Ext P)). rewrite compounded_snoc in P'. fold c in P'.
    assert (Wold : forall k p, (k <= length l)%nat -> peak (compounded (l ++ [r])) k p -> dd <= (compounded (l ++ [r]) k / p - 1) * 100).
    { intros k p K Q. rewrite <- Ext by easy. apply W; [easy|]. eapply peak_ext; [|exact Q]. intros i I. symmetry. apply Ext. lia. }
    assert (Xold : dd = 0 \/ exists k p, (k <= S (length l))%nat /\ peak (compounded (l ++ [r])) k p /\ dd = (compounded (l ++ [r]) k / p - 1) * 100).
    { destruct X as [->|(k & p & K & Q & R)]; [now left|]. right. exists k, p. split; [lia|]. split; [eapply peak_ext; [|exact Q]; intros; apply Ext; lia|]. now rewrite <- Ext. }
    assert (Cn : compounded (l ++ [r]) (S (length l)) = c) by (rewrite compounded_snoc; reflexivity).
    destruct (ltb me c) eqn:L.
    + apply ltb_iff in L. rewrite Rmax_right in P' by lra. exists c, dd. split; [reflexivity|]. split; [exact P'|]. split; [lra|]. split; [easy|]. split; [|exact Xold].
      intros k p K Q. destruct (Nat.eq_dec k (S (length l))) as [->|N]; [|apply Wold; [lia|easy]]. rewrite (peak_fun _ _ _ _ Q P'), Cn. replace (c / c) with 1 by (field; lra). lra.
    + apply ltb_false in L. rewrite Rmax_left in P' by lra. replace (ltb 0 me) with true by (symmetry; apply ltb_iff; lra). destruct (ltb ((c / me - 1) * 100) dd) eqn:Q.
      * apply ltb_iff in Q. exists me, ((c / me - 1) * 100). split; [reflexivity|]. split; [exact P'|]. split; [easy|]. split; [lra|]. split.
        { intros k p K Q'. destruct (Nat.eq_dec k (S (length l))) as [->|N]; [rewrite (peak_fun _ _ _ _ Q' P'), Cn; lra|]. specialize (Wold k p ltac:(lia) Q'). lra. }
        right. exists (S (length l)), me. split; [lia|]. split; [exact P'|]. now rewrite Cn.
      * apply ltb_false in Q. exists me, dd. split; [reflexivity|]. split; [exact P'|]. split; [easy|]. split; [easy|]. split; [|exact Xold].
        intros k p K Q'. destruct (Nat.eq_dec k (S (length l))) as [->|N]; [rewrite (peak_fun _ _ _ _ Q' P'), Cn; lra|apply Wold; [lia|easy]].
Qed.
Lemma compounded_0 l : compounded l 0 = 1.
Proof. reflexivity. Qed.
Lemma peak_pos f k p : 0 < f 0%nat -> peak f k p -> 0 < p.
Proof. intros F [_ H]. specialize (H 0%nat ltac:(lia)). lra. Qed.
Lemma mdd_ok l : exists d, drawdown (compounded l) (length l) d /\ max_drawdown_percent (map Some l) = - (100 * d).
Proof.
  destruct (ddp_ok l) as (me & dd & E & P & M & D & W & X). unfold max_drawdown_percent. unfold ddp in E. rewrite E.
  assert (F0 : 0 < compounded l 0) by (rewrite compounded_0; lra).
  exists (- dd / 100). split; [|lra]. split; [lra|]. split.
  - intros k p K Q. specialize (W k p K Q). assert (0 < p) by (eapply peak_pos; eauto). assert (compounded l k / p * p = compounded l k) by (field; lra). nra.
  - destruct X as [->|(k & p & K & Q & R)]; [left; lra|]. right. exists k, p. split; [easy|]. split; [easy|]. assert (0 < p) by (eapply peak_pos; eauto).
    replace (1 - - dd / 100) with (compounded l k / p) by lra. field. lra.
Qed.
Lemma growth_ok l : fold_left (lift2 Rmult) (map (option_map (fun r => 1 + r)) (map Some l)) (Some 1) = Some (compounded l (length l)).
Proof.
  rewrite map_map. cbn [option_map]. induction l as [|r l IH] using rev_ind; [reflexivity|].
  rewrite map_app, fold_left_app, IH, app_length. cbn [map fold_left lift2 length]. now rewrite Nat.add_1_r, compounded_snoc.
Qed.
Lemma calmar_ok l n : l <> [] -> exists d, drawdown (compounded l) (length l) d /\
  calmar_ratio (map Some l) n = if eqb d 0 then (if ltb 1 (compounded l (length l)) then PInf else Fin 0)
    else Fin ((if ltb 0 (compounded l (length l)) then Rpower (compounded l (length l)) (INR n / INR (length l)) - 1 else -1) / d).
Proof.
  intro NE. destruct (mdd_ok l) as (d & D & E). exists d. split; [exact D|]. unfold calmar_ratio. destruct l as [|x l]; [easy|].
  change (map Some (x :: l)) with (Some x :: map Some l) at 1. cbv iota beta. change (Some x :: map Some l) with (map Some (x :: l)).
  rewrite growth_ok, E. rewrite map_length. destruct D as (D0 & _).
  replace (Rabs (- (100 * d)) / 100) with d; [reflexivity|]. rewrite Rabs_Ropp, Rabs_right by lra. field.
Qed.
Lemma calmar_none returns n : In None returns -> calmar_ratio returns n = NaN.
Proof.
  intro H. unfold calmar_ratio. destruct returns as [|x l]; [easy|]. rewrite fold_in_none; [easy|]. apply in_map_iff. exists None. split; [reflexivity|exact H].
Qed.

(** ** The ulcer index *)
Lemma value_at_app l v k : (k < length l)%nat -> value_at (l ++ [v]) k = value_at l k.
Proof. intro H. unfold value_at. now rewrite app_nth1. Qed.
Lemma value_at_snoc l v : value_at (l ++ [v]) (length l) = v.
Proof. unfold value_at. rewrite app_nth2, Nat.sub_diag by lia. reflexivity. Qed.
Definition fall_of (v p : R) : R := if eqb p 0 then 0 else (v - p) / p * 100.
Lemma ulcer_fold l : forall v0 r, l = v0 :: r -> exists p dd, fold_left ulcer_step (map Some l) (Some v0, []) = (Some p, map Some dd) /\
  peak (value_at l) (length l - 1) p /\ length dd = length l /\
  forall k q, (k < length l)%nat -> peak (value_at l) k q -> value_at dd k = fall_of (value_at l k) q.
Proof.
  induction l as [|v l IH] using rev_ind; intros v0 r E; [easy|]. destruct l as [|a l].
  - cbn in E. injection E as <- <-. cbn [app map fold_left ulcer_step nlt]. replace (ltb v v) with false by (symmetry; apply ltb_false; lra).
    exists v, [fall_of v v]. split; [|split; [exact (peak_0 (value_at [v]))|split; [reflexivity|]]].
    + unfold fall_of. cbn [neq0 lift2 option_map app map]. now destruct (eqb v 0).
    + intros k q K Q. assert (k = 0%nat) as -> by (cbn in K; lia). rewrite (peak_fun _ _ _ _ Q (peak_0 _)). reflexivity.
  - cbn in E. injection E as <- <-. destruct (IH a l eq_refl) as (p & dd & F & P & L & W). rewrite map_app, fold_left_app, F. cbn [map fold_left ulcer_step nlt].
    set (V := (a :: l) ++ [v]). set (n := length (a :: l)) in *. assert (n >= 1)%nat by (unfold n; cbn; lia).
    assert (Ext : forall i, (i < n)%nat -> value_at (a :: l) i = value_at V i) by (intros i I; symmetry; now apply value_at_app).
    assert (P1 : peak (value_at V) (n - 1) p) by (eapply peak_ext; [|exact P]; intros i I; apply Ext; lia).
    assert (P2 := peak_S _ _ _ P1). replace (S (n - 1)) with n in P2 by lia. unfold V in P2 at 2. unfold n in P2 at 2. rewrite value_at_snoc in P2.
    assert (Len : length V = S n) by (unfold V; rewrite app_length; cbn; lia). set (p' := Rmax p v) in *.
    assert (Np : (if ltb p v then Some v else Some p) = Some p').
    { unfold p', Rmax. destruct (ltb p v) eqn:E; [apply ltb_iff in E|apply ltb_false in E]; destruct (Rle_dec p v); try reflexivity; f_equal; lra. }
    rewrite Np. exists p', (dd ++ [fall_of v p']). split; [|split; [rewrite Len; cbn [Nat.sub]; rewrite Nat.sub_0_r; exact P2|split; [rewrite app_length, Len, L; cbn; lia|]]].
    + rewrite map_app. f_equal. f_equal. unfold fall_of. cbn [neq0 lift2 option_map map]. now destruct (eqb p' 0).
    + intros k q K Q. rewrite Len in K. destruct (Nat.eq_dec k n) as [->|Nk].
      * rewrite (peak_fun _ _ _ _ Q P2). unfold V. unfold n at 2. rewrite value_at_snoc. rewrite <- L. apply value_at_snoc.
      * rewrite value_at_app by lia. rewrite (W k q); [|lia|eapply peak_ext; [|exact Q]; intros i I; symmetry; apply Ext; lia]. now rewrite Ext by lia.
Qed.
Lemma ulcer_ok l : l <> [] -> exists dd, length dd = length l /\ ulcer_index (map Some l) = Some (sqrt (average (map (fun x => x ^ 2) dd))) /\
  forall k q, (k < length l)%nat -> peak (value_at l) k q -> value_at dd k = fall_of (value_at l k) q.
Proof.
  intro N. destruct l as [|a l]; [easy|]. destruct (ulcer_fold (a :: l) a l eq_refl) as (p & dd & F & _ & L & W). exists dd. split; [easy|]. split; [|exact W].
  unfold ulcer_index. cbn [map]. change (Some a :: map Some l) with (map Some (a :: l)). rewrite F, map_map. cbn [lift2].
  rewrite <- (map_map (fun x => x * x) Some), nmean_some. cbn. do 2 f_equal. f_equal. apply map_ext. intro. ring.
Qed.
Lemma in_value_at l x : In x l <-> exists k, (k < length l)%nat /\ value_at l k = x.
Proof. unfold value_at. split; [intro I; apply (In_nth l x 0) in I as (k & K & E); eauto|intros (k & K & <-); now apply nth_In]. Qed.
Lemma rising_at l : rising l <-> forall i j, (i <= j)%nat -> (j < length l)%nat -> value_at l i <= value_at l j.
Proof.
  unfold rising, value_at. split.
  - intros H i j I J. apply (H i j); [easy| |]; apply nth_error_nth'; lia.
  - intros H i j x y I X Y. assert (j < length l)%nat by (apply nth_error_Some; congruence).
    apply (nth_error_nth _ _ 0) in X. apply (nth_error_nth _ _ 0) in Y. subst. now apply H.
Qed.
Lemma rising_peak l k p : rising l -> (k < length l)%nat -> peak (value_at l) k p -> p = value_at l k.
Proof.
  rewrite rising_at. intros H K [(i & I & ->) A]. apply Rle_antisym; [apply H; lia|apply A; lia].
Qed.
Lemma rising_ulcer l : rising l -> ulcer_index (map Some l) = Some 0.
Proof.
  intro H. destruct l as [|a l]; [reflexivity|]. destruct (ulcer_ok (a :: l)) as (dd & L & E & W); [easy|]. rewrite E. f_equal.
  replace (average _) with 0; [apply sqrt_0|]. unfold average. rewrite (total_ext _ (fun _ => 0)); [rewrite total_const; unfold Rdiv; ring|].
  intros x I. apply in_value_at in I as (k & K & <-). rewrite L in K. destruct (peak_ex (value_at (a :: l)) k) as [p P]. rewrite (W k p K P), (rising_peak _ _ _ H K P).
  unfold fall_of. destruct (eqb _ 0) eqn:Q; [ring|]. apply eqb_false in Q. field. exact Q.
Qed.
Lemma ulcer_zero_iff l : (forall x, In x l -> 0 < x) -> (ulcer_index (map Some l) = Some 0 <-> rising l).
Proof.
  intro Pos. split; [|apply rising_ulcer]. intro E. destruct l as [|a l]; [intros i j x y _ X; now destruct i|].
  destruct (ulcer_ok (a :: l)) as (dd & L & E' & W); [easy|]. rewrite E' in E. injection E as E. apply sqrt_zero in E; [|apply average_pos; intros; apply pow2_ge_0].
  assert (Z := average_zero (fun x => x ^ 2) dd (fun x _ => pow2_ge_0 _) E).
  apply rising_at. intros i j I J. destruct (peak_ex (value_at (a :: l)) j) as [p P].
  assert (V : value_at dd j = 0). { assert (K : value_at dd j ^ 2 = 0) by (apply Z, in_value_at; exists j; split; [lia|easy]). nra. }
  assert (Pp : 0 < p). { eapply Rlt_le_trans; [apply Pos; now left|]. destruct P as [_ P]. exact (P 0%nat ltac:(lia)). }
  rewrite (W j p J P) in V. unfold fall_of in V. replace (eqb p 0) with false in V by (symmetry; apply eqb_false; lra).
  assert (value_at (a :: l) j = p). { assert ((value_at (a :: l) j - p) / p * p = value_at (a :: l) j - p) by (field; lra). nra. }
  destruct P as [_ P]. rewrite H. now apply P.
Qed.

(** ** UPI *)
Lemma existsb_none l : existsb (fun v : num => match v with None => true | _ => false end) (map Some l) = false.
Proof. induction l; cbn; auto. Qed.
Lemma never_falls_ok l : forall v, never_falls (Some v) (map Some l) = true <-> rising (v :: l).
Proof.
  induction l as [|x l IH]; intro v; cbn [map never_falls nlt].
  - split; [|easy]. intros _. apply rising_at. intros i j I J. cbn in J. assert (i = 0 /\ j = 0)%nat as [-> ->] by lia. lra.
  - destruct (ltb x v) eqn:E.
    + apply ltb_iff in E. split; [easy|]. intro H. specialize (H 0%nat 1%nat v x ltac:(lia) eq_refl eq_refl). lra.
    + apply ltb_false in E. rewrite IH, !rising_at. split.
      * intros H i j I J. destruct i as [|i]; destruct j as [|j]; cbn [value_at nth]; try lra; try lia.
        -- eapply Rle_trans; [exact E|]. apply (H 0%nat j); [lia|cbn in *; lia].
        -- apply (H i j); [lia|cbn in *; lia].
      * intros H i j I J. apply (H (S i) (S j)); [lia|cbn in *; lia].
Qed.
Lemma last_map (l : list R) : last (map Some l) None = match l with [] => None | _ => Some (last l 0) end.
Proof. induction l as [|x [|y l] IH]; [reflexivity|reflexivity|]. cbn [map last] in *. exact IH. Qed.
Lemma last_value l : l <> [] -> last l 0 = value_at l (length l - 1).
Proof.
  unfold value_at. induction l as [|x [|y l] IH]; [easy|reflexivity|]. intros _. change (last (x :: y :: l) 0) with (last (y :: l) 0). rewrite IH by easy.
  cbn [length Nat.sub]. rewrite !Nat.sub_0_r. reflexivity.
Qed.
Fixpoint percents (l : list R) : list R :=
  match l with prev :: ((cur :: _) as r) => (if eqb prev 0 then 0 else (cur - prev) / prev * 100) :: percents r | _ => [] end.
Lemma bar_percents_ok l : bar_percents (map Some l) = map Some (percents l).
Proof.
  induction l as [|x [|y l] IH]; [reflexivity|reflexivity|]. cbn [map bar_percents percents] in *. rewrite IH. cbn [neq0 lift2 option_map]. now destruct (eqb x 0).
Qed.
Lemma upi_ok a b l ui obs : ui <> None -> upi (map Some (a :: b :: l)) (Some ui) obs =
  if neq0 ui then (if ltb a (last (a :: b :: l) 0) then (if never_falls (Some a) (map Some (b :: l)) then PInf else Fin 0) else Fin 0)
  else match ui with
       | None => NaN
       | Some u =>
           match obs with
           | Some n => if eqb a 0 then Fin 0
                       else let ratio := last (a :: b :: l) 0 / a in
                            Fin ((if ltb 0 ratio then (Rpower ratio (INR n / INR (length l + 1)) - 1) * 100 else -100) / u)
           | None => Fin (average (percents (a :: b :: l)) / u)
           end
       end.
Proof.
  intro U. destruct ui as [u|]; [|easy]. unfold upi. cbn [map]. cbv zeta. change (Some a :: Some b :: map Some l) with (map Some (a :: b :: l)).
  rewrite existsb_none, last_map, bar_percents_ok, nmean_some, map_length. cbn [nlt].
  replace (length (a :: b :: l) - 1)%nat with (length l + 1)%nat by (cbn; lia). cbn [lift2]. change (neq0 (Some a)) with (eqb a 0).
  destruct (neq0 (Some u)); [now destruct (ltb a (last (a :: b :: l) 0))|]. destruct obs; [|reflexivity]. reflexivity.
Qed.

(** ** Market values *)
Lemma bar_returns_length mv : length (bar_returns mv) = (length mv - 1)%nat.
Proof. induction mv as [|x [|y l] IH]; [reflexivity|reflexivity|]. cbn [bar_returns length] in *. rewrite IH. lia. Qed.
Lemma compounded_values mv : (forall x, In x mv -> 0 < x) -> forall k, (k < length mv)%nat -> compounded (bar_returns mv) k = value_at mv k / value_at mv 0.
Proof.
  induction mv as [|x [|y l] IH]; intros P k K; [cbn in K; lia| |].
  - cbn in K. assert (k = 0%nat) as -> by lia. assert (0 < x) by (apply P; now left). cbn. field. lra.
  - assert (0 < x) by (apply P; now left). assert (0 < y) by (apply P; right; now left). destruct k as [|k].
    + cbn. field. lra.
    + change (bar_returns (x :: y :: l)) with ((if eqb x 0 then 0 else (y - x) / x) :: bar_returns (y :: l)).
      unfold compounded. cbn [firstn fold_right]. fold (compounded (bar_returns (y :: l)) k). rewrite IH; [|intros; apply P; now right|cbn in *; lia].
      replace (eqb x 0) with false by (symmetry; apply eqb_false; lra). cbn [value_at nth]. change (nth k (y :: l) 0) with (value_at (y :: l) k). unfold value_at. field. lra.
Qed.
Lemma peak_values mv k p : (forall x, In x mv -> 0 < x) -> (k < length mv)%nat -> peak (value_at mv) k p <-> peak (compounded (bar_returns mv)) k (p / value_at mv 0).
Proof.
  intros P K. assert (V0 : 0 < value_at mv 0) by (apply P, in_value_at; exists 0%nat; split; [lia|easy]). split; intros [(i & I & E) A]; split.
  - exists i. split; [easy|]. rewrite compounded_values by (try easy; lia). now rewrite E.
  - intros j J. rewrite compounded_values by (try easy; lia). apply Rmult_le_compat_r; [left; now apply Rinv_0_lt_compat|now apply A].
  - exists i. split; [easy|]. rewrite compounded_values in E by (try easy; lia). apply (f_equal (fun z => z * value_at mv 0)) in E. unfold Rdiv in E. rewrite !Rmult_assoc, Rinv_l in E by lra. lra.
  - intros j J. specialize (A j J). rewrite compounded_values in A by (try easy; lia). apply (Rmult_le_compat_r (value_at mv 0)) in A; [|lra]. unfold Rdiv in A. rewrite !Rmult_assoc, Rinv_l in A by lra. lra.
Qed.
Lemma values_drawdown mv d : mv <> [] -> (forall x, In x mv -> 0 < x) -> drawdown (compounded (bar_returns mv)) (length mv - 1) d -> drawdown (value_at mv) (length mv - 1) d.
Proof.
  intros NE P (D & A & B). assert (V0 : 0 < value_at mv 0) by (apply P, in_value_at; exists 0%nat; split; [destruct mv; [easy|cbn; lia]|easy]).
  assert (Len : (0 < length mv)%nat) by (destruct mv; [easy|cbn; lia]). split; [easy|]. split.
  - intros k p K Q. apply peak_values in Q; [|easy|lia]. specialize (A k _ K Q). rewrite compounded_values in A by (try easy; lia).
    apply (Rmult_le_compat_r (value_at mv 0)) in A; [|lra]. unfold Rdiv in A. rewrite !Rmult_assoc, Rinv_l in A by lra. lra.
  - destruct B as [B|(k & p & K & Q & E)]; [now left|]. right. exists k, (p * value_at mv 0). split; [easy|]. split.
    + apply peak_values; [easy|lia|]. replace (p * value_at mv 0 / value_at mv 0) with p by (field; lra). exact Q.
    + rewrite compounded_values in E by (try easy; lia). apply (f_equal (fun z => z * value_at mv 0)) in E. unfold Rdiv in E. rewrite !Rmult_assoc, Rinv_l in E by lra. lra.
Qed.
(** The root mean square of the falls is at most the worst. *)
Lemma ulcer_le mv d : mv <> [] -> (forall x, In x mv -> 0 < x) -> drawdown (value_at mv) (length mv - 1) d ->
  exists u, ulcer_index (map Some mv) = Some u /\ 0 <= u <= 100 * d.
Proof.
  intros NE P (D & A & _). destruct (ulcer_ok mv NE) as (dd & L & E & W). eexists. split; [exact E|]. split; [apply sqrt_pos|].
  replace (100 * d) with (sqrt ((100 * d) ^ 2)) by (rewrite <- Rsqr_pow2; apply sqrt_Rsqr; lra). apply sqrt_le_1_alt.
  assert (Nd : 0 < INR (length dd)) by (rewrite L; now apply length_pos). unfold average. rewrite map_length. apply Rmult_le_reg_r with (INR (length dd)); [easy|].
  replace (total (map (fun x => x ^ 2) dd) / INR (length dd) * INR (length dd)) with (total (map (fun x => x ^ 2) dd)) by (field; lra).
  rewrite <- total_const. apply total_le. intros x I. apply in_value_at in I as (k & K & <-). rewrite L in K. destruct (peak_ex (value_at mv) k) as [p Pk].
  rewrite (W k p K Pk). assert (Q := A k p ltac:(lia) Pk). assert (Up : value_at mv k <= p) by (destruct Pk as [_ H]; apply H; lia).
  assert (0 < p). { eapply peak_pos; [|exact Pk]. apply P, in_value_at. exists 0%nat. split; [lia|easy]. }
  unfold fall_of. replace (eqb p 0) with false by (symmetry; apply eqb_false; lra).
  assert (B1 : - d <= (value_at mv k - p) / p). { apply Rmult_le_reg_r with p; [easy|]. replace ((value_at mv k - p) / p * p) with (value_at mv k - p) by (field; lra). lra. }
  assert (B2 : (value_at mv k - p) / p <= 0). { apply Rmult_le_reg_r with p; [easy|]. replace ((value_at mv k - p) / p * p) with (value_at mv k - p) by (field; lra). lra. }
  nra.
Qed.
