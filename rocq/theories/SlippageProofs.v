(** Proofs about the slippage models. *)
From Coq Require Import List Bool Arith Lia ZArith QArith Qround Qminmax Lqa.
From Verif Require Import VectModel VectSpec VectLemmas VectExact VectWindow VectSum VectBounds VectRanges VectRanges2.
From Verif Require Import Lemmas.
From Verif Require Import SlippageSpec ScopeProofs.
Import ListNotations.
Open Scope list_scope.
Open Scope Q_scope.

Lemma qle_false a b : Qle_bool a b = false <-> b < a.
Proof.
  split; intros H.
  - assert (~ a <= b) by (intros G; apply Qle_bool_iff in G; congruence). lra.
  - destruct (Qle_bool a b) eqn:E; [|easy]. apply Qle_bool_iff in E. lra.
Qed.
Lemma trunc_nn y : 0 <= y -> py_trunc y = Qfloor y.
Proof. intros H. unfold py_trunc. apply Qle_bool_iff in H. now rewrite H. Qed.
Lemma trunc_range y : 0 <= y -> 0 <= inject_Z (py_trunc y) <= y.
Proof.
  intros H. rewrite (trunc_nn y H). split; [|apply Qfloor_le].
  change 0 with (inject_Z 0). rewrite <- Zle_Qle. change 0%Z with (Qfloor 0). now apply Qfloor_resp_le.
Qed.
Lemma price_self buy p : 0 < p -> no_better buy p (Fin p) /\ positive (Fin p).
Proof. intros H. split; [destruct buy; cbn; apply Qle_bool_iff; lra|apply xlt_fin; lra]. Qed.
Lemma xlt_true_le x y : xlt x y = true -> xle x y = true.
Proof.
  destruct x as [p| | |], y as [q| | |]; cbn; try easy. intros H. change (xlt (Fin p) (Fin q) = true) in H. apply xlt_fin in H.
  apply Qle_bool_iff. lra.
Qed.
Lemma xlt_false_le x y : xnan x = false -> xnan y = false -> xlt x y = false -> xle y x = true.
Proof. unfold xlt. intros -> ->. cbn. now rewrite negb_false_iff. Qed.

(** Adding a nonnegative amount adversely, with the one percent floor. *)
Lemma adverse_ok buy p x : 0 < p -> nonneg x -> xnan x = false ->
  let r := adverse_price buy (Fin p) x in
  let r' := if xlt r (Fin (p * (1#100))) then Fin (p * (1#100)) else r in
  no_better buy p r' /\ positive r'.
Proof.
  intros Hp Hx Hn. cbv zeta.
  destruct buy, x as [q| | |]; cbn [nonneg xnan adverse_price xadd xsub xneg] in *; try easy.
  - assert (E : xlt (Fin (p + q)) (Fin (p * (1 # 100))) = false) by (apply xlt_fin_false; lra). rewrite E.
    split; [cbn; apply Qle_bool_iff; lra|apply xlt_fin; lra].
  - destruct (xlt (Fin (p + - q)) _) eqn:E; [apply xlt_fin in E|apply xlt_fin_false in E];
      (split; [cbn; apply Qle_bool_iff; lra|apply xlt_fin; lra]).
  - cbn. split; [apply Qle_bool_iff; lra|apply xlt_fin; lra].
Qed.
Lemma scale_nonneg k x : 0 < k -> nonneg x -> xnan x = false -> nonneg (xmul (Fin k) x) /\ xnan (xmul (Fin k) x) = false.
Proof.
  intros Hk. destruct x as [q| | |]; cbn; try easy; intros.
  - split; [nra|easy].
  - assert (E : xsigned (Fin k) = PInf).
    { unfold xsigned. cbn [xzero xpos]. destruct (Qeq_bool k 0) eqn:E; [apply Qeq_bool_iff in E; lra|].
      now rewrite (proj2 (qle_false k 0)). }
    now rewrite E.
Qed.

Section ATR.
Context (lg ex sq : xq -> xq) (pi : Q) (junk : list xq -> Z -> xq).
Notation A := (exact lg ex sq pi junk).
Notation rd := (VectModel.rd A).
Ltac lx := change (VectModel.F A) with xq in *; lia.
Open Scope Z_scope.

Lemma last_n_length {B} n (l : list B) : 0 <= n <= len l -> len (last_n n l) = n.
Proof. intros H. unfold last_n, len in *. rewrite skipn_length. lia. Qed.
Lemma nth_skipn {B} k : forall (l : list B) i, nth_error (skipn k l) i = nth_error l (k + i).
Proof. induction k; intros [|x l] i; cbn; try easy; try apply IHk; now destruct i. Qed.
Lemma atr_last h l c n : 1 <= n -> len h = n + 1 -> len l = n + 1 -> len c = n + 1 ->
  exists v, atr A h l c n = Some v /\ item v (-1) = Ok (atr_at A n n h l c false).
Proof.
  intros Hn Hh Hl Hc. unfold atr, same_len. cbn [forallb]. change (VectModel.F A) with xq in *.
  rewrite Hh, Hl, Hc, Z.eqb_refl. cbn [andb].
  destruct c as [|c0 c']; [unfold len in Hc; cbn in Hc; lia|]. set (c := c0 :: c') in *. clearbody c.
  unfold verify_input. change (VectModel.F A) with xq. rewrite Hc. replace (0 <? n) with true by lia. replace (n <=? n + 1) with true by lia.
  cbn [andb]. eexists. split; [reflexivity|]. set (f := fun i => _).
  assert (L : len (tab A (n + 1) f) = n + 1) by (apply len_tab; lia). unfold len in L. change (VectModel.F A) with xq in L.
  unfold item. cbv zeta. replace (-1 <? 0) with true by easy. change (VectModel.F A) with xq. rewrite L.
  replace (-1 + (n + 1) <? 0) with false by lia. replace (-1 + (n + 1)) with n by lia.
  pose proof (rd_in A (tab A (n + 1) f) n) as R. change (VectModel.F A) with xq in R. rewrite R by (unfold len; change (VectModel.F A) with xq; lia).
  rewrite rd_tab by lia. unfold f. now rewrite Z.ltb_irrefl.
Qed.
Lemma atr_at_nonneg h l c n : 1 <= n -> len h = n + 1 -> len l = n + 1 -> len c = n + 1 ->
  (forall i x y, nth_error h i = Some x -> nth_error l i = Some y -> xlt x y = false) -> nonneg (atr_at A n n h l c false).
Proof.
  intros Hn Hh Hl Hc Hb. unfold atr_at. rewrite Z.ltb_irrefl. replace (n =? 0) with false by lia.
  apply nonneg_div; [|apply z_nn; lia]. apply floop_inv; [cbn; change (inject_Z 0) with 0%Q; lra|]. intros i s Hi Hs.
  apply nonneg_add; [exact Hs|]. cbv zeta.
  assert (G : nonneg (sub A (rd h i) (rd l i))).
  { assert (H : xlt (rd h i) (rd l i) = false) by (apply (Hb (Z.to_nat i)); apply (rd_in A); lx).
    cbn [sub exact]. destruct (rd h i) as [p| | |], (rd l i) as [q| | |]; cbn; try easy. apply xlt_fin_false in H. lra. }
  assert (G1 : nonneg (if lt A (sub A (rd h i) (rd l i)) (sub A (rd h i) (rd c (i - 1))) then sub A (rd h i) (rd c (i - 1)) else sub A (rd h i) (rd l i))).
  { destruct (lt A _ _) eqn:E; [|easy]. exact (gt_nonneg lg ex sq pi junk _ _ E G). }
  match goal with |- nonneg (if ?b then _ else _) => destruct b eqn:E end; [|easy]. exact (gt_nonneg lg ex sq pi junk _ _ E G1).
Qed.

(** The sum of true ranges on columns of numbers. *)
Lemma max3 (a b c : Q) : exists q,
  (let t := Fin a in let t := if xlt t (Fin b) then Fin b else t in if xlt t (Fin c) then Fin c else t) = Fin q /\
  (q == Qmax a (Qmax b c))%Q.
Proof.
  cbv zeta. destruct (xlt (Fin a) (Fin b)) eqn:E1; [apply xlt_fin in E1|apply xlt_fin_false in E1];
  [destruct (xlt (Fin b) (Fin c)) eqn:E2|destruct (xlt (Fin a) (Fin c)) eqn:E2];
  first [apply xlt_fin in E2|apply xlt_fin_false in E2]; eexists; (split; [reflexivity|]);
  destruct (Q.max_spec b c) as [[? ->]|[? ->]]; [idtac|idtac|idtac|idtac|idtac|idtac|idtac|idtac];
  match goal with |- context [Qmax ?x ?y] => destruct (Q.max_spec x y) as [[? ->]|[? ->]] end; lra.
Qed.
Definition fh (l : list ohlc) := map (fun b => Fin (b_high b)) l.
Definition fl (l : list ohlc) := map (fun b => Fin (b_low b)) l.
Definition fc (l : list ohlc) := map (fun b => Fin (b_close b)) l.
Lemma rd_map (f : ohlc -> xq) pre b post : rd (map f (pre ++ b :: post)) (len pre) = f b.
Proof.
  apply rd_eq; [|apply len_nonneg]. unfold len. rewrite Nat2Z.id, map_app. rewrite nth_error_app2 by now rewrite map_length.
  now rewrite map_length, Nat.sub_diag.
Qed.
Definition tr_step (all : list ohlc) (i : Z) (total : xq) : xq :=
  let term := sub A (rd (fh all) i) (rd (fl all) i) in
  let term := if lt A term (sub A (rd (fh all) i) (rd (fc all) (i - 1))) then sub A (rd (fh all) i) (rd (fc all) (i - 1)) else term in
  let term := if lt A term (sub A (rd (fc all) (i - 1)) (rd (fl all) i)) then sub A (rd (fc all) (i - 1)) (rd (fl all) i) else term in
  add A total term.
Lemma tr_loop bs : forall pre b0 acc, exists q,
  floop (len pre + 1) (len pre + 1 + len bs) (tr_step (pre ++ b0 :: bs)) (Fin acc) = Fin q /\
  (q == acc + sum_true_range (b_close b0) bs)%Q.
Proof.
  induction bs as [|b bs IH]; intros pre b0 acc.
  - exists acc. unfold floop. rewrite zrange_empty by (unfold len; cbn; lia). split; [easy|]. cbn. lra.
  - set (all := pre ++ b0 :: b :: bs). unfold floop.
    rewrite (zrange_split _ (len pre + 1 + 1)) by (unfold len; cbn; lia). rewrite fold_left_app.
    rewrite (zrange_last (len pre + 1) (len pre + 1)) by lia. rewrite (zrange_empty (len pre + 1) (len pre + 1)) by lia. cbn [app fold_left].
    assert (E : exists q, tr_step all (len pre + 1) (Fin acc) = Fin q /\
       (q == acc + Qmax (b_high b - b_low b) (Qmax (b_high b - b_close b0) (b_close b0 - b_low b)))%Q).
    { unfold tr_step. replace (len pre + 1 - 1) with (len pre) by lia.
      assert (RC : rd (fc all) (len pre) = Fin (b_close b0)) by apply (rd_map (fun b => Fin (b_close b))).
      assert (RX : forall f : ohlc -> xq, rd (map f all) (len pre + 1) = f b).
      { intros f. unfold all. replace (len pre + 1) with (len (pre ++ [b0])) by (unfold len; rewrite app_length; cbn; lia).
        replace (pre ++ b0 :: b :: bs) with ((pre ++ [b0]) ++ b :: bs) by now rewrite <- app_assoc. apply rd_map. }
      rewrite RC. unfold fh, fl. rewrite !RX. cbn [sub lt add exact]. unfold xsub. cbn [xadd xneg].
      destruct (max3 (b_high b + - b_low b) (b_high b + - b_close b0) (b_close b0 + - b_low b)) as (q & E & Hq). 
      exists (acc + q)%Q. split; [change (Fin (acc + q)%Q) with (xadd (Fin acc) (Fin q)); rewrite <- E; reflexivity|]. rewrite Hq. reflexivity. }
    destruct E as (q & E & Hq). rewrite E.
    destruct (IH (pre ++ [b0]) b q) as (q' & E' & Hq'). exists q'. split; [|cbn [sum_true_range]; rewrite Hq', Hq; lra].
    rewrite <- E'. unfold floop. unfold all. rewrite <- app_assoc. cbn [app].
    replace (len (pre ++ [b0])) with (len pre + 1) by (unfold len; rewrite app_length; cbn; lia).
    f_equal. f_equal. unfold len. cbn [length]. lia.
Qed.
Lemma atr_at_mean b0 bs : (1 <= length bs)%nat -> exists q,
  atr_at A (len bs) (len bs) (fh (b0 :: bs)) (fl (b0 :: bs)) (fc (b0 :: bs)) false = Fin q /\
  (q == sum_true_range (b_close b0) bs / inject_Z (len bs))%Q.
Proof.
  intros Hn. unfold atr_at. rewrite Z.ltb_irrefl. replace (len bs =? 0) with false by (unfold len; lia).
  replace (len bs - len bs + 1) with 1 by lia.
  destruct (tr_loop bs [] b0 0) as (q & E & Hq). change (len (@nil ohlc) + 1) with 1 in E. cbn [app] in E.
  replace (1 + len bs) with (len bs + 1) in E by lia.
  change (z_ A 0) with (Fin (inject_Z 0)). change (inject_Z 0) with 0%Q.
  match goal with |- context [floop 1 _ ?f _] => change f with (tr_step (b0 :: bs)) end.
  match type of E with ?x = _ => match goal with |- context [floop 1 ?u ?v ?w] => change (floop 1 u v w) with x end end. rewrite E. cbn [div exact z_ num xdiv].
  assert (P : ~ (inject_Z (len bs) == 0)%Q) by (intros G; apply (inject_Z_injective (len bs) 0) in G; unfold len in G; lia).
  cbn. destruct (Qeq_bool (inject_Z (len bs)) 0) eqn:B; [apply Qeq_bool_iff in B; easy|].
  eexists. split; [reflexivity|]. rewrite Hq. rewrite Qplus_0_l. reflexivity.
Qed.

(** ** The volatility model *)
Lemma never_above_window (h l : list xq) e n :
  length h = length l -> (forall i x y, nth_error h i = Some x -> nth_error l i = Some y -> xlt x y = false) ->
  forall i x y, nth_error (last_n n (firstn e h)) i = Some x -> nth_error (last_n n (firstn e l)) i = Some y -> xlt x y = false.
Proof.
  intros L H i x y. unfold last_n. rewrite !nth_skipn, !firstn_length, L. intros Hx Hy.
  set (k := (Nat.min e (length l) - Z.to_nat n + i)%nat) in *.
  assert (K : (k < Nat.min e (length l))%nat) by (assert (G : nth_error (firstn e l) k <> None) by congruence; apply nth_error_Some in G; rewrite firstn_length in G; exact G).
  rewrite firstn_nth_error in Hx, Hy by lia. exact (H k x y Hx Hy).
Qed.
Lemma volatility_ok period scale ctx s' p' :
  1 <= period -> (0 <= scale)%Q -> (0 < sx_price ctx)%Q ->
  (forall cols, sx_cols ctx = Some cols -> highs_above_lows cols) ->
  apply_volatility lg ex sq pi junk period scale ctx = Ok (s', p') ->
  s' = sx_shares ctx /\ no_better (sx_buy ctx) (sx_price ctx) p' /\ positive p'.
Proof.
  intros Hn Hs Hp Hb E. unfold apply_volatility in E. cbv zeta in E.
  assert (U : Ok (sx_shares ctx, Fin (sx_price ctx)) = Ok (s', p') ->
     s' = sx_shares ctx /\ no_better (sx_buy ctx) (sx_price ctx) p' /\ positive p').
  { intros [= <- <-]. split; [easy|]. now apply price_self. }
  destruct (Qeq_bool scale 0) eqn:S0; [now apply U|].
  assert (Hs' : (0 < scale)%Q).
  { assert (~ scale == 0)%Q by (intros G; apply Qeq_bool_iff in G; congruence). lra. }
  destruct (sx_cols ctx) as [cols|]; [|now apply U]. destruct (sx_end_index ctx) as [ends|]; [|now apply U].
  destruct (lookup (sx_symbol ctx) ends) as [e|]; [|easy].
  destruct (Z.ltb_spec e (period + 1)) as [L|L]; [now apply U|].
  specialize (Hb cols eq_refl (sx_symbol ctx)). unfold fetch in E.
  destruct (lookup (sx_symbol ctx) cols) as [c|]; [|now apply U].
  destruct (lookup col_high c) as [h|] eqn:Lh; [|now apply U]. destruct (lookup col_low c) as [l|] eqn:Ll; [|now apply U].
  destruct (lookup col_close c) as [cl|]; [|now apply U].
  destruct (Hb c h l eq_refl Lh Ll) as (HL & HB). clear Hb.
  rewrite !upto_nonneg in E by lia.
  destruct (_ || _ || _) eqn:C in E; [now apply U|]. apply orb_false_iff in C. destruct C as [C C3].
  apply orb_false_iff in C. destruct C as [C1 C2]. apply Z.ltb_ge in C1, C2, C3.
  destruct (atr_last (last_n (period + 1) (firstn (Z.to_nat e) h)) (last_n (period + 1) (firstn (Z.to_nat e) l))
     (last_n (period + 1) (firstn (Z.to_nat e) cl)) period) as (v & Ev & Ei); try (apply last_n_length); try lx.
  change (VectModel.F A) with xq in *.
  rewrite Ev in E. unfold bind in E. rewrite Ei in E.
  assert (NN : nonneg (atr_at A period period (last_n (period + 1) (firstn (Z.to_nat e) h)) (last_n (period + 1) (firstn (Z.to_nat e) l))
     (last_n (period + 1) (firstn (Z.to_nat e) cl)) false)).
  { apply atr_at_nonneg; try (apply last_n_length); try lx. intros i x y. now apply never_above_window. }
  revert E NN. generalize (atr_at A period period (last_n (period + 1) (firstn (Z.to_nat e) h)) (last_n (period + 1) (firstn (Z.to_nat e) l))
     (last_n (period + 1) (firstn (Z.to_nat e) cl)) false). intros a E NN.
  destruct (xnan a) eqn:Na; [now apply U|]. injection E as <- <-.
  destruct (scale_nonneg scale a Hs' NN Na) as (G1 & G2). split; [easy|].
  apply (adverse_ok (sx_buy ctx) (sx_price ctx) _ Hp G1 G2).
Qed.
End ATR.

(** ** The volume model *)
Lemma cap_some limit l : cap limit = Some l -> limit = Some l /\ 0 < l.
Proof.
  unfold cap. destruct limit as [x|]; [|easy]. destruct (Qle_bool x 0) eqn:E; [easy|]. intros [= <-]. now apply qle_false in E.
Qed.
Lemma impact_some i : impact_enabled i = true <-> 0 < i.
Proof. unfold impact_enabled. rewrite negb_true_iff. apply qle_false. Qed.
Lemma impact_none i : impact_enabled i = false <-> i <= 0.
Proof. unfold impact_enabled. rewrite negb_false_iff. apply Qle_bool_iff. Qed.
(** The share count the model returns. *)
Lemma volume_shares impact limit ctx v cols ends e :
  is_fill_noop (SVolume impact limit) = false -> sx_cols ctx = Some cols -> sx_end_index ctx = Some ends ->
  lookup (sx_symbol ctx) ends = Some e -> fetch_value cols (sx_symbol ctx) col_volume e = Ok (Some v) -> xnan v = false ->
  0 <= sx_shares ctx -> 0 < sx_price ctx -> 0 <= impact ->
  exists s' p', apply_volume impact limit ctx = Ok (s', p') /\
    0 <= s' <= sx_shares ctx /\ no_better (sx_buy ctx) (sx_price ctx) p' /\ positive p' /\
    (forall l q, cap limit = Some l -> v = Fin q ->
       s' = (if Qle_bool q 0 then 0 else if Qle_bool (sx_shares ctx) (l * q) then sx_shares ctx
             else if sx_fractional ctx then l * q else inject_Z (py_trunc (l * q)))) /\
    (cap limit = None -> s' = sx_shares ctx) /\
    (sx_fractional ctx = false -> (exists z, sx_shares ctx == inject_Z z) -> exists z, s' == inject_Z z) /\
    (forall q, v = Fin q -> 0 < q ->
       exists r, p' = Fin r /\ r == if sx_buy ctx then sx_price ctx * (1 + impact * (s' / q) * (s' / q))
                                     else Qmax (sx_price ctx * (1 - impact * (s' / q) * (s' / q))) (sx_price ctx / 100)).
Proof.
  intros N C I L F Nv Hs Hp Hi. unfold apply_volume. cbv zeta. rewrite N, C, I, L. unfold fetch_scalar. rewrite F. cbn [bind].
  assert (P0 := price_self (sx_buy ctx) (sx_price ctx) Hp). destruct P0 as [P0 P1].
  destruct v as [q| | |]; try easy.
  2: { (* infinite volume *)
    cbn [xle].
    assert (K : forall l, cap limit = Some l -> xmul (Fin l) PInf = PInf).
    { intros l Hl. apply cap_some in Hl. destruct Hl as [_ Hl]. cbn [xmul]. unfold xsigned. cbn [xzero xpos].
      destruct (Qeq_bool l 0) eqn:E; [apply Qeq_bool_iff in E; lra|]. now rewrite (proj2 (qle_false l 0)). }
    assert (SE : match cap limit with
      | Some l => match xmul (Fin l) PInf with
        | Fin max_shares => if Qle_bool (sx_shares ctx) max_shares then sx_shares ctx else if sx_fractional ctx then max_shares else inject_Z (py_trunc max_shares)
        | _ => sx_shares ctx end
      | None => sx_shares ctx end = sx_shares ctx).
    { destruct (cap limit) as [l|]; [|easy]. now rewrite (K l eq_refl). }
    rewrite SE. eexists _, _. split; [reflexivity|]. split; [lra|].
    assert (PP : no_better (sx_buy ctx) (sx_price ctx) (if impact_enabled impact && negb (Qle_bool (sx_shares ctx) 0)
        then if sx_buy ctx then xmul (Fin (sx_price ctx)) (xadd (Fin 1) (xmul (xmul (Fin impact) (xdiv (Fin (sx_shares ctx)) PInf)) (xdiv (Fin (sx_shares ctx)) PInf)))
          else if xlt (xmul (Fin (sx_price ctx)) (xsub (Fin 1) (xmul (xmul (Fin impact) (xdiv (Fin (sx_shares ctx)) PInf)) (xdiv (Fin (sx_shares ctx)) PInf)))) (Fin (sx_price ctx * (1 # 100)))
            then Fin (sx_price ctx * (1 # 100)) else xmul (Fin (sx_price ctx)) (xsub (Fin 1) (xmul (xmul (Fin impact) (xdiv (Fin (sx_shares ctx)) PInf)) (xdiv (Fin (sx_shares ctx)) PInf)))
        else Fin (sx_price ctx)) /\ positive (if impact_enabled impact && negb (Qle_bool (sx_shares ctx) 0)
        then if sx_buy ctx then xmul (Fin (sx_price ctx)) (xadd (Fin 1) (xmul (xmul (Fin impact) (xdiv (Fin (sx_shares ctx)) PInf)) (xdiv (Fin (sx_shares ctx)) PInf)))
          else if xlt (xmul (Fin (sx_price ctx)) (xsub (Fin 1) (xmul (xmul (Fin impact) (xdiv (Fin (sx_shares ctx)) PInf)) (xdiv (Fin (sx_shares ctx)) PInf)))) (Fin (sx_price ctx * (1 # 100)))
            then Fin (sx_price ctx * (1 # 100)) else xmul (Fin (sx_price ctx)) (xsub (Fin 1) (xmul (xmul (Fin impact) (xdiv (Fin (sx_shares ctx)) PInf)) (xdiv (Fin (sx_shares ctx)) PInf)))
        else Fin (sx_price ctx))).
    { destruct (_ && _); [|easy]. cbn [xdiv xmul]. unfold xsub. cbn [xneg xadd xmul].
      destruct (sx_buy ctx).
      - split; [cbn; apply Qle_bool_iff; lra|apply xlt_fin; lra].
      - destruct (xlt _ _) eqn:E; [apply xlt_fin in E; lra|]. split; [cbn; apply Qle_bool_iff; lra|apply xlt_fin; lra]. }
    destruct PP as [PP1 PP2]. split; [exact PP1|]. split; [exact PP2|]. split; [easy|]. split; [easy|]. split; [easy|]. easy. }
  2: { (* minus infinity *)
    cbn [xle]. destruct (cap limit) as [l|] eqn:EC.
    - eexists _, _. split; [reflexivity|]. split; [lra|]. split; [exact P0|]. split; [exact P1|].
      split; [easy|]. split; [easy|]. split; [|easy]. intros _ _. now exists 0%Z.
    - eexists _, _. split; [reflexivity|]. split; [lra|]. split; [exact P0|]. split; [exact P1|]. easy. }
  change (xle (Fin q) (Fin 0)) with (Qle_bool q 0). destruct (Qle_bool q 0) eqn:Q0.
  - apply Qle_bool_iff in Q0. destruct (cap limit) as [l|] eqn:EC.
    + eexists _, _. split; [reflexivity|]. split; [lra|]. split; [exact P0|]. split; [exact P1|].
      split; [intros l' q' _ [= <-]; now rewrite (proj2 (Qle_bool_iff q 0))|]. split; [easy|].
      split; [intros _ _; now exists 0%Z|]. intros q' [= <-] Hq. lra.
    + eexists _, _. split; [reflexivity|]. split; [lra|]. split; [exact P0|]. split; [exact P1|].
      split; [easy|]. split; [easy|]. split; [easy|]. intros q' [= <-] Hq. lra.
  - apply qle_false in Q0.
    set (s' := match cap limit with Some _ => _ | None => _ end).
    assert (S' : 0 <= s' <= sx_shares ctx).
    { unfold s'. destruct (cap limit) as [l|] eqn:EC; [|lra]. apply cap_some in EC. destruct EC as [_ EC]. cbn [xmul].
      destruct (Qle_bool (sx_shares ctx) (l * q)) eqn:B; [lra|]. apply qle_false in B.
      assert (0 <= l * q) by nra. pose proof (trunc_range _ H). destruct (sx_fractional ctx); lra. }
    assert (S1 : forall l q0, cap limit = Some l -> Fin q = Fin q0 ->
       s' = (if Qle_bool q0 0 then 0 else if Qle_bool (sx_shares ctx) (l * q0) then sx_shares ctx
             else if sx_fractional ctx then l * q0 else inject_Z (py_trunc (l * q0)))).
    { intros l q0 EC [= <-]. rewrite (proj2 (qle_false q 0) Q0). unfold s'. now rewrite EC. }
    assert (S2 : cap limit = None -> s' = sx_shares ctx) by (intros EC; unfold s'; now rewrite EC).
    assert (S3 : sx_fractional ctx = false -> (exists z, sx_shares ctx == inject_Z z) -> exists z, s' == inject_Z z).
    { intros Fr W. unfold s'. destruct (cap limit) as [l|]; [|exact W]. cbn [xmul]. destruct (Qle_bool _ _); [exact W|]. rewrite Fr. now eexists. }
    clearbody s'. eexists _, _. split; [reflexivity|]. split; [exact S'|].
    assert (D : ~ q == 0) by lra.
    assert (G : exists r, (if impact_enabled impact && negb (Qle_bool s' 0)
        then if sx_buy ctx then xmul (Fin (sx_price ctx)) (xadd (Fin 1) (xmul (xmul (Fin impact) (xdiv (Fin s') (Fin q))) (xdiv (Fin s') (Fin q))))
          else if xlt (xmul (Fin (sx_price ctx)) (xsub (Fin 1) (xmul (xmul (Fin impact) (xdiv (Fin s') (Fin q))) (xdiv (Fin s') (Fin q))))) (Fin (sx_price ctx * (1 # 100)))
            then Fin (sx_price ctx * (1 # 100)) else xmul (Fin (sx_price ctx)) (xsub (Fin 1) (xmul (xmul (Fin impact) (xdiv (Fin s') (Fin q))) (xdiv (Fin s') (Fin q))))
        else Fin (sx_price ctx)) = Fin r /\
        r == if sx_buy ctx then sx_price ctx * (1 + impact * (s' / q) * (s' / q))
                                     else Qmax (sx_price ctx * (1 - impact * (s' / q) * (s' / q))) (sx_price ctx / 100)).
    { cbn [xdiv]. destruct (Qeq_bool q 0) eqn:EQ; [apply Qeq_bool_iff in EQ; lra|]. cbn [xmul xadd]. unfold xsub. cbn [xneg xadd xmul].
      destruct (impact_enabled impact && negb (Qle_bool s' 0)) eqn:B.
      - destruct (sx_buy ctx); [eexists; split; [reflexivity|reflexivity]|].
        destruct (xlt _ _) eqn:E; [apply xlt_fin in E|apply xlt_fin_false in E]; (eexists; split; [reflexivity|]).
        + rewrite Q.max_r; [field|]. unfold Qdiv. change (/ 100) with (1 # 100). apply Qlt_le_weak. exact E.
        + rewrite Q.max_l; [reflexivity|]. unfold Qdiv at 1. change (/ 100) with (1 # 100). exact E.
      - assert (Z : impact * (s' / q) * (s' / q) == 0).
        { apply andb_false_iff in B. destruct B as [B|B].
          - apply impact_none in B. assert (E : impact == 0) by lra. rewrite E. ring.
          - rewrite negb_false_iff in B. apply Qle_bool_iff in B. assert (E : s' == 0) by lra. rewrite E. field. exact D. }
        eexists. split; [reflexivity|]. destruct (sx_buy ctx); [rewrite Z; ring|].
        rewrite Q.max_l; [rewrite Z; ring|]. rewrite Z. unfold Qdiv. change (/ 100) with (1 # 100). lra. }
    destruct G as (r & -> & Hr).
    assert (NI : 0 <= impact * (s' / q) * (s' / q)).
    { assert (0 <= s' / q) by (apply Qle_shift_div_l; lra). assert (0 <= impact * (s' / q)) by nra. nra. }
    assert (RP : 0 < r /\ if sx_buy ctx then sx_price ctx <= r else r <= sx_price ctx).
    { assert (PN : 0 <= sx_price ctx * (impact * (s' / q) * (s' / q))) by (apply Qmult_le_0_compat; lra).
      revert PN Hr. generalize (impact * (s' / q) * (s' / q)). intros t PN Hr.
      assert (D1 : 0 < sx_price ctx / 100 <= sx_price ctx) by (unfold Qdiv; change (/ 100) with (1 # 100); lra).
      destruct (sx_buy ctx); [rewrite Hr; split; lra|].
      pose proof (Q.max_spec (sx_price ctx * (1 - t)) (sx_price ctx / 100)) as [[? M]|[? M]]; rewrite M in Hr; rewrite Hr; split; lra. }
    destruct RP as [RP1 RP2].
    split; [unfold no_better; destruct (sx_buy ctx); cbn; now apply Qle_bool_iff|]. split; [now apply xlt_fin|].
    split; [exact S1|]. split; [exact S2|]. split; [exact S3|].
    intros q0 [= <-] _. now exists r.
Qed.
(** Without volume data nothing changes. *)
Lemma volume_unchanged impact limit ctx s' p' :
  is_fill_noop (SVolume impact limit) = true \/ sx_cols ctx = None \/ sx_end_index ctx = None \/
  (exists cols ends e, sx_cols ctx = Some cols /\ sx_end_index ctx = Some ends /\ lookup (sx_symbol ctx) ends = Some e /\
     (fetch_value cols (sx_symbol ctx) col_volume e = Ok None \/ fetch_value cols (sx_symbol ctx) col_volume e = Ok (Some NaN))) ->
  apply_volume impact limit ctx = Ok (s', p') -> s' = sx_shares ctx /\ p' = Fin (sx_price ctx).
Proof.
  intros H E. unfold apply_volume in E. cbv zeta in E. destruct (is_fill_noop _); [now injection E as <- <-|].
  destruct H as [H|[H|[H|(cols & ends & e & C & I & L & F)]]]; [easy| | |].
  - rewrite H in E. now injection E as <- <-.
  - rewrite H in E. destruct (sx_cols ctx); now injection E as <- <-.
  - rewrite C, I, L in E. unfold fetch_scalar in E. destruct F as [F|F]; rewrite F in E; cbn in E; now injection E as <- <-.
Qed.
Lemma volume_ok impact limit ctx s' p' : 0 <= impact -> 0 < sx_price ctx -> 0 <= sx_shares ctx ->
  apply_volume impact limit ctx = Ok (s', p') ->
  0 <= s' <= sx_shares ctx /\ no_better (sx_buy ctx) (sx_price ctx) p' /\ positive p' /\
  (sx_fractional ctx = false -> (exists z, sx_shares ctx == inject_Z z) -> exists z, s' == inject_Z z).
Proof.
  intros Hi Hp Hs E.
  assert (U : s' = sx_shares ctx /\ p' = Fin (sx_price ctx) ->
    0 <= s' <= sx_shares ctx /\ no_better (sx_buy ctx) (sx_price ctx) p' /\ positive p' /\
    (sx_fractional ctx = false -> (exists z, sx_shares ctx == inject_Z z) -> exists z, s' == inject_Z z)).
  { intros [-> ->]. pose proof (price_self (sx_buy ctx) _ Hp). repeat split; try lra; try easy. }
  destruct (is_fill_noop (SVolume impact limit)) eqn:N; [apply U; eapply volume_unchanged; eauto|].
  destruct (sx_cols ctx) as [cols|] eqn:C; [|apply U; eapply volume_unchanged; eauto].
  destruct (sx_end_index ctx) as [ends|] eqn:I; [|apply U; eapply volume_unchanged; eauto].
  destruct (lookup (sx_symbol ctx) ends) as [e|] eqn:L.
  2: { unfold apply_volume in E. cbv zeta in E. now rewrite N, C, I, L in E. }
  destruct (fetch_value cols (sx_symbol ctx) col_volume e) as [[v|]|x] eqn:F.
  - destruct (xnan v) eqn:Nv.
    + destruct v; try easy. apply U. eapply volume_unchanged; [|exact E]. right; right; right. exists cols, ends, e. tauto.
    + destruct (volume_shares impact limit ctx v cols ends e N C I L F Nv Hs Hp Hi) as (s & p & E' & G1 & G2 & G3 & _ & _ & G4 & _).
      rewrite E' in E. injection E as <- <-. tauto.
  - apply U. eapply volume_unchanged; [|exact E]. right; right; right. exists cols, ends, e. tauto.
  - unfold apply_volume in E. cbv zeta in E. rewrite N, C, I, L in E. unfold fetch_scalar in E. rewrite F in E. discriminate.
Qed.
Lemma fixed_ok bps buy p : 0 <= bps < 10000 -> 0 < p ->
  no_better buy p (Fin (adjust_fixed bps buy p)) /\ positive (Fin (adjust_fixed bps buy p)).
Proof.
  intros Hb Hp. unfold adjust_fixed. destruct (Qeq_bool bps 0); [now apply price_self|].
  assert (D : 0 <= bps / 10000 < 1) by (split; [apply Qle_shift_div_l; lra|apply Qlt_shift_div_r; lra]).
  assert (PD : 0 <= p * (bps / 10000) < p) by (split; nra).
  destruct buy; (split; [cbn [no_better xle]; apply Qle_bool_iff; lra|apply xlt_fin; lra]).
Qed.
