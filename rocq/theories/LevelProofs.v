(** Proofs about the Aroon and stochastic oscillators. *)
From Coq Require Import List Bool Arith Lia ZArith QArith Qabs Qminmax Lqa.
From Verif Require Import VectModel VectSpec VectLemmas VectExact VectWindow VectSum VectBounds VectRanges VectRanges3 PropVect LevelSpec.
Import ListNotations.
Open Scope list_scope.
Open Scope Z_scope.

Section Level.
Context (lg ex sq : xq -> xq) (pi : Q) (junk : list xq -> Z -> xq).
Notation A := (exact lg ex sq pi junk).
Notation rd := (VectModel.rd A).
Ltac lx := change (VectModel.F A) with xq in *; lia.

Lemma len_map (l : list Q) : len (map Fin l) = Z.of_nat (length l).
Proof. unfold len. rewrite map_length. reflexivity. Qed.
Lemma rd_fin (l : list Q) k x : nth_error l k = Some x -> rd (map Fin l) (Z.of_nat k) = Fin x.
Proof. intros H. apply (rd_eq A); [|lia]. rewrite Nat2Z.id. apply map_nth_error, H. Qed.
Lemma nth_some {T} (l : list T) k : (k < length l)%nat -> exists x, nth_error l k = Some x.
Proof. intros H. destruct (nth_error l k) eqn:E; [eauto|]. apply nth_error_None in E. lia. Qed.
Lemma xlt_fin p q : xlt (Fin p) (Fin q) = true <-> (p < q)%Q.
Proof.
  unfold xlt. cbn. rewrite negb_true_iff. split.
  - intros H. apply Qnot_le_lt. intros L. apply Qle_bool_iff in L. congruence.
  - intros H. destruct (Qle_bool q p) eqn:E; [|reflexivity]. apply Qle_bool_iff in E. lra.
Qed.

(** ** Aroon *)
Section Scan.
Variables (beats : Q -> Q -> Prop) (better : xq -> xq -> bool) (l : list Q) (i n : nat).
Hypothesis B : forall x y, better (Fin x) (Fin y) = true <-> beats x y.
Hypothesis Tr : forall x y z, beats x y -> beats y z -> beats x z.
Hypothesis Irr : forall x, ~ beats x x.
Hypothesis Neg : forall x y z, ~ beats x y -> beats z y -> beats z x.
Hypothesis Li : (i < length l)%nat.
Lemma scan_latest : forall steps j best x,
  (best <= i)%nat -> j < Z.of_nat best -> nth_error l best = Some x -> (steps <= n)%nat ->
  (j + Z.of_nat n = Z.of_nat i - 1 + Z.of_nat steps) -> (i <= best + n)%nat -> 
  (forall k y, (k <= i)%nat -> j < Z.of_nat k -> nth_error l k = Some y -> ~ beats y x /\ ((best < k)%nat -> beats x y)) ->
  exists k, extreme_scan A (map Fin l) better j steps (Fin x) (Z.of_nat best) = Z.of_nat k /\ latest_best beats n i k l.
Proof using B Tr Irr Neg Li.
  induction steps as [|steps IH]; intros j best x Hb Hj Hx Hs E Hn H; cbn [extreme_scan].
  - exists best. split; [reflexivity|]. split; [lia|]. exists x. split; [exact Hx|]. intros k y [K1 K2] Hy. apply (H k y); [exact K1|lia|exact Hy].
  - destruct (Z.ltb_spec j 0) as [J|J].
    + exists best. split; [reflexivity|]. split; [lia|]. exists x. split; [exact Hx|]. intros k y [K1 K2] Hy. apply (H k y); [exact K1|lia|exact Hy].
    + destruct (nth_some l (Z.to_nat j)) as (y & Hy); [lia|].
      assert (R : rd (map Fin l) j = Fin y) by (rewrite <- (Z2Nat.id j) by lia; apply rd_fin, Hy). rewrite R.
      destruct (better (Fin y) (Fin x)) eqn:Bt.
      * apply B in Bt. enough (G : exists k, extreme_scan A (map Fin l) better (j - 1) steps (Fin y) (Z.of_nat (Z.to_nat j)) = Z.of_nat k /\ latest_best beats n i k l) by (rewrite Z2Nat.id in G by lia; exact G).
        apply IH; try lia; [exact Hy|].
        intros k z K1 K2 Hz. destruct (Z.eq_dec (Z.of_nat k) j) as [Ek|Nk].
        -- replace k with (Z.to_nat j) in * by lia. rewrite Hy in Hz. injection Hz as <-. split; [apply Irr|lia].
        -- destruct (H k z K1 ltac:(lia) Hz) as [N1 N2]. split.
           ++ intros C. exact (N1 (Tr _ _ _ C Bt)).
           ++ intros _. exact (Neg z x y N1 Bt).
      * apply IH; try lia; [exact Hx|]. intros k z K1 K2 Hz. destruct (Z.eq_dec (Z.of_nat k) j) as [Ek|Nk].
        -- replace k with (Z.to_nat j) in * by lia. rewrite Hy in Hz. injection Hz as <-. split; [|lia]. intros C. apply B in C. congruence.
        -- apply (H k z K1); [lia|exact Hz].
Qed.
Lemma scan_latest0 x : nth_error l i = Some x ->
  exists k, extreme_scan A (map Fin l) better (Z.of_nat i - 1) n (rd (map Fin l) (Z.of_nat i)) (Z.of_nat i) = Z.of_nat k /\ latest_best beats n i k l.
Proof using B Tr Irr Neg Li.
  intros Hx. rewrite (rd_fin _ _ _ Hx). apply scan_latest; try lia; [exact Hx|].
  intros k y K1 K2 Hy. assert (k = i) by lia. subst k. rewrite Hx in Hy. injection Hy as <-. split; [apply Irr|lia].
Qed.
End Scan.
Lemma level_eq n i k : (0 < n)%nat -> exists v,
  div A (z_ A (100 * (Z.of_nat n - (Z.of_nat i - Z.of_nat k)))) (z_ A (Z.of_nat n)) = Fin v /\ (v == aroon_level n i k)%Q.
Proof.
  intros Hn. unfold z_. cbn [div exact num xdiv].
  assert (P : (0 < inject_Z (Z.of_nat n))%Q) by (change 0%Q with (inject_Z 0); rewrite <- Zlt_Qlt; lia).
  destruct (Qeq_bool (inject_Z (Z.of_nat n)) 0) eqn:E; [apply Qeq_bool_iff in E; lra|].
  eexists. split; [reflexivity|]. unfold aroon_level. rewrite inject_Z_mult. unfold Z.sub at 1. rewrite inject_Z_plus, inject_Z_opp. change (inject_Z 100) with 100%Q.
  field. lra.
Qed.
Lemma aroon_value hs ls n ty : hs <> [] -> length ls = length hs -> (0 < n)%nat ->
  exists r, aroon A (map Fin hs) (map Fin ls) (Z.of_nat n) ty = Some r /\ length r = length hs /\
    nth_error r 0 = Some (Fin (match ty with AroonDiff => 0 | _ => 50 end)) /\
    forall i, (0 < i < length hs)%nat -> exists kh kl v, latest_high n i kh hs /\ latest_low n i kl ls /\ nth_error r i = Some (Fin v) /\
      (v == match ty with AroonUp => aroon_level n i kh | AroonDown => aroon_level n i kl | AroonDiff => aroon_level n i kh - aroon_level n i kl end)%Q.
Proof.
  intros Hh HL Hn. unfold aroon. change (VectModel.F A) with xq in *.
  assert (L : (0 < length hs)%nat) by (destruct hs; [contradiction|cbn; lia]).
  rewrite !len_map. unfold same_len. cbn [forallb].
  change (@len (VectModel.F A)) with (@len xq) in *. rewrite !len_map.
  replace ((Z.of_nat (length hs) =? Z.of_nat (length ls)) && true && (0 <? Z.of_nat n) && (0 <? Z.of_nat (length hs))) with true.
  2:{ symmetry. rewrite !andb_true_iff, Z.eqb_eq, !Z.ltb_lt. lia. }
  eexists. split; [reflexivity|]. split; [unfold tab; rewrite map_length, zrange_length; lia|]. unfold tab. split.
  - erewrite map_nth_error by (unfold zrange; apply zrange_n_nth; lia). cbn. destruct ty; reflexivity.
  - intros i [I0 I1]. destruct (nth_some hs i I1) as (x & Hx). destruct (nth_some ls i ltac:(lia)) as (y & Hy).
    destruct (scan_latest0 (fun x y => (y < x)%Q) (fun x y => xlt y x) hs i n) with (x := x) as (kh & Ek & Lk); try (intros; lra); auto; [intros; apply xlt_fin|].
    destruct (scan_latest0 (fun x y => (x < y)%Q) (fun x y => xlt x y) ls i n) with (x := y) as (kl & El & Ll); try (intros; lra); auto; [intros; apply xlt_fin|lia|].
    destruct (level_eq n i kh Hn) as (vh & Eh & Qh). destruct (level_eq n i kl Hn) as (vl & Ev & Ql).
    exists kh, kl. erewrite map_nth_error by (unfold zrange; apply zrange_n_nth; lia). rewrite Z.add_0_l.
    destruct (Z.eqb_spec (Z.of_nat i) 0); [lia|]. cbv zeta. rewrite Nat2Z.id.
    change (fun x0 y0 : xq => lt A y0 x0) with (fun x0 y0 : xq => xlt y0 x0). change (fun x0 y0 : xq => lt A x0 y0) with (fun x0 y0 : xq => xlt x0 y0).
    rewrite Ek, El, Eh, Ev. destruct ty; eexists; (split; [exact Lk|]); (split; [exact Ll|]); (split; [reflexivity|]); try assumption.
    rewrite Qh, Ql. lra.
Qed.

(** ** Stochastic *)
Lemma window_map n i (l : list Q) : window n i (map Fin l) = map Fin (window n i l).
Proof. unfold window. rewrite skipn_map, firstn_map. reflexivity. Qed.
Lemma no_nan (l : list Q) : existsb xnan (map Fin l) = false.
Proof. induction l; [reflexivity|exact IHl]. Qed.
Lemma ext_fin (leb : xq -> xq -> bool) n i (l : list Q) x : (n <= S i)%nat ->
  rolling_extreme xnan NaN leb n i (map Fin l) x -> exists q, x = Fin q /\ In q (window n i l) /\ forall y, In y (window n i l) -> leb (Fin q) (Fin y) = true.
Proof.
  intros H R. unfold rolling_extreme in R. destruct (Nat.ltb_spec (S i) n); [lia|]. rewrite window_map, no_nan in R. destruct R as [J M].
  apply in_map_iff in J. destruct J as (q & <- & J). exists q. split; [reflexivity|]. split; [exact J|]. intros y Y. apply M. apply in_map, Y.
Qed.
Definition fin (x : xq) : Q := match x with Fin q => q | _ => 0%Q end.

Section Sto.
Variables (hs ls cs : list Q) (n : nat).
Hypothesis Hn : (0 < n <= length cs)%nat.
Hypothesis Lh : length hs = length cs.
Hypothesis Ll : length ls = length cs.
Hypothesis Le : forall i h l, nth_error hs i = Some h -> nth_error ls i = Some l -> (l <= h)%Q.
Variables (mn mx : list xq).
Hypothesis Emn : lowv A (map Fin ls) (Z.of_nat n) = Some mn.
Hypothesis Emx : highv A (map Fin hs) (Z.of_nat n) = Some mx.
Definition sto0 (i : Z) : xq := div A (sub A (rd (map Fin cs) i) (rd mn i)) (add A (sub A (rd mx i) (rd mn i)) (e60 A)).
Lemma sto0_ok i : (n - 1 <= i < length cs)%nat -> exists q, sto0 (Z.of_nat i) = Fin q /\ stochastic_of n i hs ls cs q.
Proof using Hn Lh Ll Le Emn Emx.
  intros Hi. destruct (C43_lowv A _ _ _ xle_total Emn) as [L1 R1]. destruct (C43_highv A _ _ _ xge_total Emx) as [L2 R2].
  change (VectModel.F A) with xq in *. rewrite map_length in *. rewrite Nat2Z.id in *.
  destruct (R1 i ltac:(lia)) as (x & Ex & X). destruct (R2 i ltac:(lia)) as (y & Ey & Y).
  apply ext_fin in X; [|lia]. apply ext_fin in Y; [|lia]. destruct X as (lo & -> & Jl & Ml). destruct Y as (hi & -> & Jh & Mh).
  destruct (nth_some cs i ltac:(lia)) as (c & Hc). unfold sto0. rewrite (rd_fin cs i c Hc).
  rewrite (rd_eq A mn (Z.of_nat i) (Fin lo)) by (try lia; rewrite Nat2Z.id; exact Ex). rewrite (rd_eq A mx (Z.of_nat i) (Fin hi)) by (try lia; rewrite Nat2Z.id; exact Ey).
  assert (Ml' : forall z, In z (window n i ls) -> (lo <= z)%Q) by (intros z Z0; apply Qle_bool_iff; exact (Ml z Z0)).
  assert (Mh' : forall z, In z (window n i hs) -> (z <= hi)%Q) by (intros z Z0; apply Qle_bool_iff; exact (Mh z Z0)).
  destruct (nth_some hs i ltac:(lia)) as (h & Hh). destruct (nth_some ls i ltac:(lia)) as (l & Hl).
  assert (lo <= hi)%Q.
  { apply Qle_trans with l; [apply Ml', window_last; [lia|lia|exact Hl]|]. apply Qle_trans with h; [exact (Le i h l Hh Hl)|]. apply Mh', window_last; [lia|lia|exact Hh]. }
  assert (E : (0 < 1 # 10 ^ 60)%Q) by reflexivity.
  unfold e60, q_. cbn [div sub add exact num xsub xneg xadd xdiv].
  destruct (Qeq_bool (hi + - lo + (1 # 10 ^ 60)) 0) eqn:Z0; [apply Qeq_bool_iff in Z0; lra|].
  eexists. split; [reflexivity|]. exists c, hi, lo. repeat (split; [assumption|]). reflexivity.
Qed.
Definition raw (i : nat) : Q := fin (sto0 (Z.of_nat i)).
Lemma raw_eq i : (n - 1 <= i < length cs)%nat -> sto0 (Z.of_nat i) = Fin (raw i).
Proof using Hn Lh Ll Le Emn Emx. intros H. unfold raw. destruct (sto0_ok i H) as (q & -> & _). reflexivity. Qed.
Lemma raw_ok i : (n - 1 <= i < length cs)%nat -> stochastic_of n i hs ls cs (raw i).
Proof using Hn Lh Ll Le Emn Emx. intros H. destruct (sto0_ok i H) as (q & E & S). unfold raw. rewrite E. exact S. Qed.
End Sto.
Lemma once_step n raw i : (0 < n)%nat -> (n <= i)%nat -> once n raw i = ((33333333 # 100000000) * raw i + (66666667 # 100000000) * once n raw (i - 1))%Q.
Proof.
  intros Hn H. unfold once. replace (i - (n - 1))%nat with (S (i - 1 - (n - 1))) by lia. cbn [smoothed].
  replace (n - 1 + S (i - 1 - (n - 1)))%nat with i by lia. reflexivity.
Qed.
Lemma twice_step n f i : (n < i)%nat -> smoothed f n (i - n) = ((33333333 # 100000000) * f i + (66666667 # 100000000) * smoothed f n (i - 1 - n))%Q.
Proof.
  intros H. replace (i - n)%nat with (S (i - 1 - n)) by lia. cbn [smoothed]. replace (n + S (i - 1 - n))%nat with i by lia. reflexivity.
Qed.
Lemma zeros_nth k i : (i < k)%nat -> nth_error (zeros A (Z.of_nat k)) i = Some (Fin 0).
Proof.
  intros H. unfold zeros, full. rewrite Nat2Z.id. unfold z_. cbn. change (inject_Z 0) with 0%Q. revert i H.
  induction k as [|k IH]; intros [|i] H; try lia; [reflexivity|]. cbn. apply IH. lia.
Qed.
Lemma stochastic_value hs ls cs n times : (0 < n)%nat -> length hs = length cs -> length ls = length cs -> (times <= 2)%nat ->
  (forall i h l, nth_error hs i = Some h -> nth_error ls i = Some l -> (l <= h)%Q) ->
  exists r raw, stochastic A (map Fin hs) (map Fin ls) (map Fin cs) (Z.of_nat n) (Z.of_nat times) = Some r /\ length r = length cs /\
    (forall i, (n - 1 <= i < length cs)%nat -> stochastic_of n i hs ls cs (raw i)) /\
    forall i, (i < length cs)%nat -> exists v, nth_error r i = Some (Fin v) /\
      if (S i <? n)%nat then (v == 0)%Q else (v == 100 * shown times n raw i - 50)%Q.
Proof.
  intros Hn Lh Ll Ht Le. unfold stochastic. change (VectModel.F A) with xq in *. unfold same_len. cbn [forallb]. change (@len (VectModel.F A)) with (@len xq) in *. rewrite !len_map.
  replace ((Z.of_nat (length hs) =? Z.of_nat (length ls)) && ((Z.of_nat (length hs) =? Z.of_nat (length cs)) && true) && (0 <? Z.of_nat n) &&
           ((Z.of_nat times =? 0) || (Z.of_nat times =? 1) || (Z.of_nat times =? 2))) with true.
  2:{ symmetry. rewrite !andb_true_iff, !orb_true_iff, !Z.eqb_eq, !Z.ltb_lt. lia. }
  destruct (Z.ltb_spec (Z.of_nat (length cs)) (Z.of_nat n)) as [G|G].
  - exists (zeros A (Z.of_nat (length cs))), (fun _ => 0%Q). split; [reflexivity|]. split; [unfold zeros, full; rewrite repeat_length; lia|]. split; [intros; lia|].
    intros i Hi. exists 0%Q. split; [apply zeros_nth, Hi|]. destruct (Nat.ltb_spec (S i) n); [reflexivity|lia].
  - destruct (C43_returns A (map Fin ls) (Z.of_nat n)) as [(mn & Emn) _]; [left; rewrite map_length; lia|].
    destruct (C43_returns A (map Fin hs) (Z.of_nat n)) as [_ (mx & Emx)]; [left; rewrite map_length; lia|].
    rewrite Emn, Emx. cbv zeta. set (rw := raw cs mn mx).
    pose proof (raw_eq hs ls cs n ltac:(lia) Lh Ll Le mn mx Emn Emx) as RE. pose proof (raw_ok hs ls cs n ltac:(lia) Lh Ll Le mn mx Emn Emx) as RO. fold rw in RE, RO.
    match goal with |- context [scan ?f ?s _] => set (F0 := f); set (s0 := s) end.
    eexists _, rw. split; [reflexivity|].
    split; [rewrite app_length, scan_length, zrange_length; unfold zeros, full; rewrite repeat_length; lia|]. split; [exact RO|].
    assert (INV : forall k x, nth_error (snd (scan F0 s0 (zrange (Z.of_nat n - 1) (Z.of_nat (length cs))))) k = Some x ->
              exists v, x = Fin v /\ (v == 100 * shown times n rw (n - 1 + k) - 50)%Q).
    { intros k x Hx.
      apply (scan_inv (fun j s => forall i, j = Z.of_nat i -> (n - 1 < i)%nat -> times <> 0%nat ->
                 fst s = Fin (once n rw (i - 1)) /\ ((times = 2%nat) -> (n < i)%nat -> snd s = Fin (smoothed (once n rw) n (i - 1 - n))))
                (fun j x => forall i, j = Z.of_nat i -> exists v, x = Fin v /\ (v == 100 * shown times n rw i - 50)%Q)) with (f := F0) (s := s0) (n := Z.of_nat (length cs)) (k := k) (a := Z.of_nat n - 1); [| |exact Hx|lia].
      - intros i E1 E2. lia.
      - intros j [s1 s2] Hj P. cbn [fst snd] in P. set (i := Z.to_nat j). assert (Ej : j = Z.of_nat i) by (unfold i; lia). clearbody i. subst j.
        unfold F0. fold (sto0 cs mn mx (Z.of_nat i)). rewrite (RE i) by lia.
        unfold z_, q_. cbn [sub mul add exact num xmul xadd xsub xneg].
        change (inject_Z 100) with 100%Q. change (inject_Z 50) with 50%Q.
        destruct (Z.eqb_spec (Z.of_nat times) 0) as [T0|T0].
        { cbn [fst snd]. split; [intros; lia|]. intros i' Ei. assert (i' = i) by lia. subst i'. assert (times = 0%nat) by lia. subst times. eexists. split; [reflexivity|]. cbn. lra. }
        assert (O1 : once n rw (n - 1) = rw (n - 1)%nat) by (unfold once; replace (n - 1 - (n - 1))%nat with 0%nat by lia; reflexivity).
        destruct (Z.eqb_spec (Z.of_nat i) (Z.of_nat n - 1)) as [F1|F1].
        { assert (i = (n - 1)%nat) by lia. subst i. cbn [fst snd]. split.
          - intros i' Ei Hi' _. assert (i' = n) by lia. subst i'. rewrite O1. split; [reflexivity|lia].
          - intros i' Ei. assert (i' = (n - 1)%nat) by lia. subst i'. eexists. split; [reflexivity|].
            unfold shown. destruct times as [|[|times]]; [lia|rewrite O1; lra|]. destruct (Nat.ltb_spec (n - 1) n); [lra|lia]. }
        destruct (P i eq_refl ltac:(lia) ltac:(lia)) as [P1 P2]. rewrite P1. cbn [xmul xadd xneg]. rewrite <- (once_step n rw i Hn ltac:(lia)).
        destruct (Z.eqb_spec (Z.of_nat times) 1) as [T1|T1].
        { cbn [fst snd]. split.
          - intros i' Ei Hi' _. replace (i' - 1)%nat with i by lia. split; [reflexivity|lia].
          - intros i' Ei. assert (i' = i) by lia. subst i'. eexists. split; [reflexivity|]. assert (times = 1%nat) by lia. subst times. cbn [shown]. lra. }
        assert (times = 2%nat) by lia. subst times.
        destruct (Z.eqb_spec (Z.of_nat i) (Z.of_nat n - 1 + 1)) as [F2|F2].
        { assert (i = n) by lia. subst i. cbn [fst snd]. split.
          - intros i' Ei Hi' _. replace (i' - 1)%nat with n by lia. split; [reflexivity|]. intros _ _. rewrite Nat.sub_diag. reflexivity.
          - intros i' Ei. assert (i' = n) by lia. subst i'. eexists. split; [reflexivity|]. unfold shown. destruct (Nat.ltb_spec n n); [lia|]. rewrite Nat.sub_diag. cbn [smoothed]. lra. }
        rewrite (P2 eq_refl) by lia. cbn [xmul xadd xneg fst snd]. rewrite <- (twice_step n (once n rw) i) by lia. split.
        + intros i' Ei Hi' _. replace (i' - 1)%nat with i by lia. split; [reflexivity|]. intros _ _. reflexivity.
        + intros i' Ei. assert (i' = i) by lia. subst i'. eexists. split; [reflexivity|]. unfold shown. destruct (Nat.ltb_spec i n); [lia|]. lra. }
    intros i Hi. destruct (Nat.ltb_spec (S i) n) as [S1|S1].
    + exists 0%Q. split; [|reflexivity]. rewrite nth_error_app1 by (unfold zeros, full; rewrite repeat_length; lia).
      replace (Z.of_nat n - 1) with (Z.of_nat (n - 1)) by lia. apply zeros_nth. lia.
    + assert (LZ : length (zeros A (Z.of_nat n - 1)) = (n - 1)%nat) by (unfold zeros, full; rewrite repeat_length; lia).
      change (VectModel.F A) with xq in *. rewrite nth_error_app2 by (rewrite LZ; lia). rewrite LZ.
      destruct (nth_some (snd (scan F0 s0 (zrange (Z.of_nat n - 1) (Z.of_nat (length cs))))) (i - (n - 1))) as (x & Hx).
      { rewrite scan_length, zrange_length. lia. }
      destruct (INV _ _ Hx) as (v & -> & V). exists v. split; [exact Hx|]. replace (n - 1 + (i - (n - 1)))%nat with i in V by lia. exact V.
Qed.

(** ** Average true range *)
Lemma qmax_cases a b : (Qmax a b == if Qlt_le_dec a b then b else a)%Q.
Proof. destruct (Qlt_le_dec a b); [apply Q.max_r; lra|apply Q.max_l; assumption]. Qed.
Lemma true_range_eq h l p : (l <= h)%Q ->
  exists t, (let term := sub A (Fin h) (Fin l) in
             let term := if lt A term (sub A (Fin h) (Fin p)) then sub A (Fin h) (Fin p) else term in
             if lt A term (sub A (Fin p) (Fin l)) then sub A (Fin p) (Fin l) else term) = Fin t /\
    (t == Qmax (h - l) (Qmax (Qabs (h - p)) (Qabs (l - p))))%Q.
Proof.
  intros H. cbn [sub lt exact xsub xneg xadd]. cbv zeta.
  assert (V : (Qmax (h - l) (Qmax (Qabs (h - p)) (Qabs (l - p))) == Qmax (h - l) (Qmax (h - p) (p - l)))%Q).
  { destruct (Qlt_le_dec h p) as [G|G].
    - rewrite (Qabs_neg (h - p)) by lra. rewrite (Qabs_neg (l - p)) by lra.
      rewrite (Q.max_r (- (h - p)) (- (l - p))) by lra. rewrite (Q.max_r (h - p) (p - l)) by lra. rewrite !Q.max_r by lra. lra.
    - rewrite (Qabs_pos (h - p)) by lra. destruct (Qlt_le_dec l p) as [K|K].
      + rewrite (Qabs_neg (l - p)) by lra. apply Q.max_compat; [reflexivity|]. apply Q.max_compat; [reflexivity|lra].
      + rewrite (Qabs_pos (l - p)) by lra. rewrite !(Q.max_l (h - p)) by lra. reflexivity. }
  destruct (xlt (Fin (h + - l)) (Fin (h + - p))) eqn:E1; [apply xlt_fin in E1|assert (N1 : ~ (h + - l < h + - p)%Q) by (intros C; apply xlt_fin in C; congruence)];
    (match goal with |- context [xlt ?a ?b] => destruct (xlt a b) eqn:E2 end; [apply xlt_fin in E2|match type of E2 with xlt (Fin ?a) (Fin ?b) = _ => assert (N2 : ~ (a < b)%Q) by (intros C; apply xlt_fin in C; congruence) end]);
    eexists; (split; [reflexivity|]); rewrite V;
    (destruct (Qlt_le_dec (h - p) (p - l)); [rewrite (Q.max_r (h - p) (p - l)) by lra|rewrite (Q.max_l (h - p) (p - l)) by lra]);
    rewrite qmax_cases; match goal with |- context [Qlt_le_dec ?a ?b] => destruct (Qlt_le_dec a b) end; lra.
Qed.
Lemma sum_loop (term : Z -> xq) (tr : nat -> Q) m : forall a s v,
  (forall j, (a <= j < a + m)%nat -> exists t, term (Z.of_nat j) = Fin t /\ (t == tr j)%Q) -> s = Fin v ->
  exists u, fold_left (fun t j => xadd t (term j)) (zrange_n (Z.of_nat a) m) s = Fin u /\ (u == v + fold_right Qplus 0 (map tr (seq a m)))%Q.
Proof.
  induction m as [|m IH]; intros a s v H ->; cbn [zrange_n fold_left seq map fold_right]; [exists v; split; [reflexivity|lra]|].
  destruct (H a ltac:(lia)) as (t & E & Q). rewrite E. cbn [xadd].
  replace (Z.of_nat a + 1)%Z with (Z.of_nat (S a)) by lia.
  destruct (IH (S a) (Fin (v + t)) (v + t)%Q) as (u & Eu & Qu); [intros j J; apply H; lia|reflexivity|].
  exists u. split; [exact Eu|]. rewrite Qu, Q. lra.
Qed.
Definition tr_of (hs ls cs : list Q) (i : nat) : Q :=
  match nth_error hs i, nth_error ls i, nth_error cs (i - 1) with
  | Some h, Some l, Some p => Qmax (h - l) (Qmax (Qabs (h - p)) (Qabs (l - p)))
  | _, _, _ => 0%Q
  end.
Lemma atr_value hs ls cs n : (0 < n <= length cs)%nat -> length hs = length cs -> length ls = length cs ->
  (forall i h l, nth_error hs i = Some h -> nth_error ls i = Some l -> (l <= h)%Q) ->
  exists r tr, atr A (map Fin hs) (map Fin ls) (map Fin cs) (Z.of_nat n) = Some r /\ length r = length cs /\
    (forall i, (0 < i < length cs)%nat -> true_range i hs ls cs (tr i)) /\
    (forall i, (i < n)%nat -> nth_error r i = Some NaN) /\
    forall i, (n <= i < length cs)%nat -> exists v, nth_error r i = Some (Fin v) /\ (v == mean (map tr (seq (i + 1 - n) n)))%Q.
Proof.
  intros Hn Lh Ll Le. unfold atr. change (VectModel.F A) with xq in *. unfold same_len, verify_input. cbn [forallb]. change (@len (VectModel.F A)) with (@len xq) in *. rewrite !len_map.
  replace ((Z.of_nat (length hs) =? Z.of_nat (length ls)) && ((Z.of_nat (length hs) =? Z.of_nat (length cs)) && true)) with true.
  2:{ symmetry. rewrite !andb_true_iff, !Z.eqb_eq. lia. }
  replace ((0 <? Z.of_nat n) && (Z.of_nat n <=? Z.of_nat (length cs))) with true.
  2:{ symmetry. rewrite !andb_true_iff, Z.ltb_lt, Z.leb_le. lia. }
  destruct (map Fin cs) as [|c0 cs0] eqn:Ec; [destruct cs; [cbn in Hn; lia|discriminate]|]. rewrite <- Ec. clear Ec c0 cs0.
  eexists _, (tr_of hs ls cs). split; [reflexivity|]. split; [unfold tab; rewrite map_length, zrange_length; lia|].
  assert (TR : forall i, (0 < i < length cs)%nat -> true_range i hs ls cs (tr_of hs ls cs i)).
  { intros i Hi. destruct (nth_some hs i ltac:(lia)) as (h & Hh). destruct (nth_some ls i ltac:(lia)) as (l & Hl). destruct (nth_some cs (i - 1) ltac:(lia)) as (p & Hp).
    exists h, l, p. repeat (split; [assumption|]). unfold tr_of. rewrite Hh, Hl, Hp. reflexivity. }
  split; [exact TR|]. unfold tab. split.
  - intros i Hi. erewrite map_nth_error by (unfold zrange; apply zrange_n_nth; lia). rewrite Z.add_0_l. destruct (Z.ltb_spec (Z.of_nat i) (Z.of_nat n)); [reflexivity|lia].
  - intros i Hi. erewrite map_nth_error by (unfold zrange; apply zrange_n_nth; lia). rewrite Z.add_0_l. destruct (Z.ltb_spec (Z.of_nat i) (Z.of_nat n)); [lia|].
    unfold atr_at. destruct (Z.ltb_spec (Z.of_nat i) (Z.of_nat n)); [lia|]. destruct (Z.eqb_spec (Z.of_nat n) 0); [lia|]. unfold floop, zrange.
    replace (Z.of_nat i - Z.of_nat n + 1)%Z with (Z.of_nat (i + 1 - n)) by lia. replace (Z.to_nat (Z.of_nat i + 1 - Z.of_nat (i + 1 - n))) with n by lia.
    match goal with |- context [fold_left (fun s j => add A s (@?f j)) _ _] => destruct (sum_loop f (tr_of hs ls cs) n (i + 1 - n) (z_ A 0) 0%Q) as (u & Eu & Qu) end; [|reflexivity|].
    + intros j Hj. destruct (nth_some hs j ltac:(lia)) as (h & Hh). destruct (nth_some ls j ltac:(lia)) as (l & Hl). destruct (nth_some cs (j - 1) ltac:(lia)) as (p & Hp).
      replace (Z.of_nat j - 1)%Z with (Z.of_nat (j - 1)) by lia. rewrite (rd_fin _ _ _ Hh), (rd_fin _ _ _ Hl), (rd_fin _ _ _ Hp). unfold tr_of. rewrite Hh, Hl, Hp.
      apply true_range_eq. exact (Le j h l Hh Hl).
    + change (VectModel.F A) with xq in *. cbn [add exact] in *. rewrite Eu. unfold z_. cbn [div exact num xdiv].
      assert (P : (0 < inject_Z (Z.of_nat n))%Q) by (change 0%Q with (inject_Z 0); rewrite <- Zlt_Qlt; lia).
      destruct (Qeq_bool (inject_Z (Z.of_nat n)) 0) eqn:E; [apply Qeq_bool_iff in E; lra|].
      eexists. split; [reflexivity|]. unfold mean. rewrite map_length, seq_length, Qu. field. lra.
Qed.
End Level.
