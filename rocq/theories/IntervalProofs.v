(** Proofs about compression: groups of rows and their compressed bars. *)
From Verif Require Export IntervalSpec.
From Verif Require Import Lemmas TextProofs NameProofs IntervalCalendar.
Open Scope list_scope.
Open Scope Z_scope.

(** ** Sums and extremes *)
Lemma nsum_from l : forall a, fold_left nadd l a = nadd a (fold_left nadd l (Some 0%Q)) \/
  (exists q p, fold_left nadd l a = Some q /\ nadd a (fold_left nadd l (Some 0%Q)) = Some p /\ (q == p)%Q).
Proof.
  assert (N : forall l, fold_left nadd l None = None) by (intro m; induction m as [|[x|] m IH]; cbn; auto).
  assert (G : forall l a b, (a == b)%Q -> match fold_left nadd l (Some a), fold_left nadd l (Some b) with
             | Some x, Some y => (x == y)%Q | None, None => True | _, _ => False end).
  { intro l0; induction l0 as [|[x|] l0 IH]; intros a b E; cbn; [exact E| |rewrite N; easy]. apply IH. now rewrite E. }
  assert (H : forall l a, match fold_left nadd l (Some a), nadd (Some a) (fold_left nadd l (Some 0%Q)) with
             | Some x, Some y => (x == y)%Q | None, None => True | _, _ => False end).
  { intro l0; induction l0 as [|[x|] l0 IH]; intro a; cbn [fold_left nadd].
    - cbn. ring.
    - pose proof (IH (a + x)%Q) as A. pose proof (IH (0 + x)%Q) as B.
      destruct (fold_left nadd l0 (Some (a + x)%Q)), (fold_left nadd l0 (Some 0%Q)), (fold_left nadd l0 (Some (0 + x)%Q)); cbn in *; try easy.
      rewrite A, B. ring.
    - rewrite N. easy. }
  intros [a|]; [|left; rewrite N; easy]. specialize (H l a).
  destruct (fold_left nadd l (Some a)) as [x|], (nadd (Some a) (fold_left nadd l (Some 0%Q))) as [y|] eqn:Y; try easy; [|now left].
  right. exists x, y. auto.
Qed.
Lemma nsum_total l : total l (nsum l).
Proof.
  unfold nsum. induction l as [|[x|] l IH].
  - left. exists [], 0%Q. split; [easy|]. split; [easy|]. reflexivity.
  - cbn [fold_left nadd]. destruct (nsum_from l (Some (0 + x)%Q)) as [E|(q & p & E & P & QP)].
    + rewrite E. destruct IH as [(qs & q & -> & Q & S)|[I ->]].
      * rewrite Q. left. exists (x :: qs), (0 + x + q)%Q. split; [easy|]. split; [easy|]. cbn [Qsum]. rewrite S. ring.
      * right. split; [now right|easy].
    + rewrite E. destruct IH as [(qs & q' & -> & Q & S)|[I N]].
      * rewrite Q in P. cbn in P. injection P as <-. left. exists (x :: qs), q. split; [easy|]. split; [easy|]. cbn [Qsum].
        rewrite QP, S. ring.
      * rewrite N in P. discriminate.
  - right. split; [now left|]. cbn. clear. induction l as [|[x|] l IH]; cbn; auto.
Qed.
Lemma nanmax_greatest l : greatest l (nanmax l).
Proof.
  unfold nanmax.
  assert (G : forall l acc, greatest (match acc with Some q => [Some q] | None => [] end ++ l) (fold_left max_step l acc)).
  { clear l. induction l as [|x l IH]; intro acc; cbn [fold_left].
    - rewrite app_nil_r. destruct acc as [q|]; cbn; [|easy]. split; [now left|]. intros p [H|[]]. injection H as ->. lra.
    - specialize (IH (max_step acc x)). destruct (fold_left max_step l (max_step acc x)) as [q|]; cbn [greatest] in *.
      + destruct IH as [I B]. destruct x as [a|]; destruct acc as [b|]; cbn [max_step app] in *.
        * destruct (Qltb b a) eqn:E; cbn [app] in *; unfold Qltb in E.
          -- apply Bool.negb_true_iff in E. split; [destruct I as [I|I]; [right; now left|right; now right]|].
             intros p [H|H]; [|apply B; destruct H; [now left|now right]]. injection H as <-.
             apply Qle_trans with a; [|apply B; now left]. destruct (Qlt_le_dec b a) as [L|L]; [lra|].
             apply Qle_bool_iff in L. congruence.
          -- apply Bool.negb_false_iff in E. apply Qle_bool_iff in E. split; [destruct I as [I|I]; [now left|right; now right]|].
             intros p [H|[H|H]]; [apply B; now left| |apply B; now right]. injection H as <-.
             apply Qle_trans with b; [easy|]. apply B. now left.
        * split; [exact I|exact B].
        * split; [destruct I as [I|I]; [now left|right; now right]|]. intros p [H|[H|H]]; [apply B; now left|discriminate|apply B; now right].
        * split; [now right|]. intros p [H|H]; [discriminate|apply B; easy].
      + intros y H. destruct x as [a|]; destruct acc as [b|]; cbn [max_step app] in *.
        * destruct (Qltb b a); cbn [app] in IH; discriminate (IH _ (or_introl eq_refl)).
        * discriminate (IH _ (or_introl eq_refl)).
        * discriminate (IH _ (or_introl eq_refl)).
        * destruct H as [<-|H]; [easy|]. apply IH. easy. }
  exact (G l None).
Qed.
Lemma nanmin_least l : least l (nanmin l).
Proof.
  unfold nanmin.
  assert (G : forall l acc, least (match acc with Some q => [Some q] | None => [] end ++ l) (fold_left min_step l acc)).
  { clear l. induction l as [|x l IH]; intro acc; cbn [fold_left].
    - rewrite app_nil_r. destruct acc as [q|]; cbn; [|easy]. split; [now left|]. intros p [H|[]]. injection H as ->. lra.
    - specialize (IH (min_step acc x)). destruct (fold_left min_step l (min_step acc x)) as [q|]; cbn [least] in *.
      + destruct IH as [I B]. destruct x as [a|]; destruct acc as [b|]; cbn [min_step app] in *.
        * destruct (Qltb a b) eqn:E; cbn [app] in *; unfold Qltb in E.
          -- apply Bool.negb_true_iff in E. split; [destruct I as [I|I]; [right; now left|right; now right]|].
             intros p [H|H]; [|apply B; destruct H; [now left|now right]]. injection H as <-.
             apply Qle_trans with a; [apply B; now left|]. destruct (Qlt_le_dec a b) as [L|L]; [lra|].
             apply Qle_bool_iff in L. congruence.
          -- apply Bool.negb_false_iff in E. apply Qle_bool_iff in E. split; [destruct I as [I|I]; [now left|right; now right]|].
             intros p [H|[H|H]]; [apply B; now left| |apply B; now right]. injection H as <-.
             apply Qle_trans with b; [|easy]. apply B. now left.
        * split; [exact I|exact B].
        * split; [destruct I as [I|I]; [now left|right; now right]|]. intros p [H|[H|H]]; [apply B; now left|discriminate|apply B; now right].
        * split; [now right|]. intros p [H|H]; [discriminate|apply B; easy].
      + intros y H. destruct x as [a|]; destruct acc as [b|]; cbn [min_step app] in *.
        * destruct (Qltb a b); cbn [app] in IH; discriminate (IH _ (or_introl eq_refl)).
        * discriminate (IH _ (or_introl eq_refl)).
        * discriminate (IH _ (or_introl eq_refl)).
        * destruct H as [<-|H]; [easy|]. apply IH. easy. }
  exact (G l None).
Qed.

(** ** The compressed bar of a group *)
Definition group_vwap_of (g : list row) : option Q :=
  vwap_bin (nsum (map (fun r => nmul (r_vwap r) (r_volume r)) g)) (nsum (map r_volume g)) (nsum (map r_vwap g)) (length g).
Definition full_bar (hv : bool) (g : list row) : cbar :=
  let b := chunk_bar g in
  if hv then mk_cbar (c_date b) (c_open b) (c_high b) (c_low b) (c_close b) (c_volume b) (Some (group_vwap_of g)) (c_custom b)
  else b.
Lemma quotient_ndiv a q : (0 < q)%Q -> quotient a q (ndiv a q).
Proof.
  intro P. destruct a as [x|]; cbn; [|easy]. exists (x / q)%Q. split; [easy|]. field. lra.
Qed.
Lemma group_vwap_ok g : g <> [] -> group_vwap g (group_vwap_of g).
Proof.
  intro N. unfold group_vwap_of.
  assert (L : (0 < inject_Z (Z.of_nat (length g)))%Q).
  { change 0%Q with (inject_Z 0). rewrite <- Zlt_Qlt. destruct g; [easy|]. cbn [length]. lia. }
  exists (nsum (map r_volume g)), (nsum (map (fun r => nmul (r_vwap r) (r_volume r)) g)), (nsum (map r_vwap g)).
  split; [apply nsum_total|]. split; [apply nsum_total|]. split; [apply nsum_total|].
  unfold vwap_bin. destruct (nsum (map r_volume g)) as [v|].
  - destruct (Qltb 0 v) eqn:E; unfold Qltb in E.
    + left. exists v. apply Bool.negb_true_iff in E.
      assert (V : (0 < v)%Q) by (destruct (Qlt_le_dec 0 v) as [V|V]; [easy|]; apply Qle_bool_iff in V; congruence).
      split; [easy|]. split; [easy|]. now apply quotient_ndiv.
    + right. apply Bool.negb_false_iff in E. apply Qle_bool_iff in E. split; [|now apply quotient_ndiv].
      intros q H. now injection H as <-.
  - right. split; [discriminate|]. now apply quotient_ndiv.
Qed.
Lemma at_row_first x r : at_row (x :: r) 0 = x.
Proof. reflexivity. Qed.
Lemma at_row_last r y : at_row (r ++ [y]) (length (r ++ [y]) - 1) = y.
Proof.
  unfold at_row. rewrite app_length. cbn. replace (length r + 1 - 1)%nat with (length r) by lia.
  rewrite app_nth2 by lia. now rewrite Nat.sub_diag.
Qed.
Lemma full_bar_summarises hv g : g <> [] -> summarises hv g (full_bar hv g).
Proof.
  intro N.
  assert (S : summarises false g (chunk_bar g)).
  { unfold summarises. split; [|split; [|split; [|split; [|split]]]].
    - destruct g as [|x r]; [easy|]. exists x, r. split; [easy|]. reflexivity.
    - destruct (exists_last N) as (r & y & E). exists y, r. split; [easy|]. subst g. unfold chunk_bar. rewrite at_row_last. auto.
    - apply nanmax_greatest.
    - apply nanmin_least.
    - apply nsum_total.
    - reflexivity. }
  destruct hv; [|exact S]. destruct S as (A & B & C & D & E & _). unfold summarises, full_bar. cbn. split; [exact A|]. split; [exact B|].
  split; [exact C|]. split; [exact D|]. split; [exact E|]. exists (group_vwap_of g). split; [easy|]. now apply group_vwap_ok.
Qed.

(** ** Bounds of groups *)
Lemma bounds_app off a b : bounds off (a ++ b) = bounds off a ++ bounds (off + length (concat a)) b.
Proof.
  revert off. induction a as [|g a IH]; intro off; cbn; [now rewrite Nat.add_0_r|].
  rewrite IH, app_length. do 3 f_equal. lia.
Qed.
Lemma bounds_len off gs : length (bounds off gs) = length gs.
Proof. revert off. induction gs; intro; cbn; auto. Qed.
Lemma skipn_pre {A} (p l : list A) : skipn (length p) (p ++ l) = l.
Proof. induction p; cbn; auto. Qed.
Lemma firstn_pre {A} (p l : list A) : firstn (length p) (p ++ l) = p.
Proof. induction p; cbn; [now destruct l|]. now f_equal. Qed.
Lemma aggregate_groups rows gs : forall pre, rows = pre ++ concat gs -> (forall g, In g gs -> g <> []) ->
  map (aggregate_bin rows) (bounds (length pre) gs) = map chunk_bar gs.
Proof.
  induction gs as [|g gs IH]; intros pre E N; [easy|]. cbn [bounds map]. f_equal.
  - assert (G : g <> []) by (apply N; now left). destruct (exists_last G) as (r & y & Ey).
    assert (LG : length g = S (length r)) by (rewrite Ey, app_length; cbn; lia).
    assert (SL : slice (length pre) (length pre + length g - 1 + 1) rows = g).
    { unfold slice. rewrite E, skipn_pre. replace (length pre + length g - 1 + 1 - length pre)%nat with (length g) by lia.
      cbn [concat]. apply firstn_pre. }
    unfold aggregate_bin, chunk_bar. rewrite SL.
    assert (A1 : at_row rows (length pre) = at_row g 0).
    { unfold at_row. rewrite E, app_nth2 by lia. rewrite Nat.sub_diag. cbn [concat]. rewrite app_nth1 by lia. reflexivity. }
    assert (A2 : at_row rows (length pre + length g - 1) = at_row g (length g - 1)).
    { unfold at_row. rewrite E, app_nth2 by lia. replace (length pre + length g - 1 - length pre)%nat with (length g - 1)%nat by lia.
      cbn [concat]. rewrite app_nth1 by lia. reflexivity. }
    now rewrite A1, A2.
  - replace (length pre + length g)%nat with (length (pre ++ g)) by now rewrite app_length. apply IH.
    + rewrite <- app_assoc. exact E.
    + intros g' H. apply N. now right.
Qed.
Lemma reduceat_groups (h : row -> option Q) rows gs : forall pre, rows = pre ++ concat gs ->
  reduceat (map h rows) (map fst (bounds (length pre) gs)) = map (fun g => nsum (map h g)) gs.
Proof.
  induction gs as [|g gs IH]; intros pre E; [easy|]. cbn [bounds map fst].
  assert (IH' := IH (pre ++ g)). rewrite app_length in IH'. rewrite <- app_assoc in IH'. specialize (IH' E).
  assert (M : forall s, skipn s (map h rows) = map h (skipn s rows)) by (intro s; apply skipn_map).
  destruct gs as [|g2 gs].
  - cbn [bounds map reduceat]. rewrite M, E, skipn_pre. cbn [concat]. now rewrite app_nil_r.
  - cbn [bounds map fst] in IH' |- *. cbn [reduceat]. f_equal; [|exact IH'].
    unfold slice. rewrite M, firstn_map, E, skipn_pre. replace (length pre + length g - length pre)%nat with (length g) by lia.
    cbn [concat]. now rewrite firstn_pre.
Qed.
Lemma counts_groups rows gs : forall pre, rows = pre ++ concat gs ->
  counts (length rows) (map fst (bounds (length pre) gs)) = map (@length row) gs.
Proof.
  induction gs as [|g gs IH]; intros pre E; [easy|]. cbn [bounds map fst].
  assert (IH' := IH (pre ++ g)). rewrite app_length in IH'. rewrite <- app_assoc in IH'. specialize (IH' E).
  destruct gs as [|g2 gs].
  - cbn [bounds map counts]. rewrite E. cbn [concat]. rewrite !app_length. cbn [length]. f_equal. lia.
  - cbn [bounds map fst] in IH' |- *. cbn [counts]. f_equal; [lia|exact IH'].
Qed.
Lemma combine_map {A B C} (f : A -> B) (g : A -> C) l : combine (map f l) (map g l) = map (fun x => (f x, g x)) l.
Proof. induction l; cbn; congruence. Qed.
Lemma with_vwap_groups hv gs :
  with_vwap hv (concat gs) (starts_of gs) (map chunk_bar gs) = map (full_bar hv) gs.
Proof.
  unfold with_vwap. destruct hv; [|reflexivity]. unfold aggregate_vwap, starts_of.
  pose proof (fun h => reduceat_groups h (concat gs) gs [] eq_refl) as R. cbn [length] in R. rewrite !R.
  pose proof (counts_groups (concat gs) gs [] eq_refl) as C. cbn [length] in C. rewrite C.
  rewrite !combine_map, map_map, combine_map, map_map. reflexivity.
Qed.

(** ** Bins by period *)
Section Bins.
  Variable bin : Z -> Z.
  Let id (r : row) : Z := bin (r_date r).
  Fixpoint runs (rows : list row) : list (list row) :=
    match rows with
    | [] => []
    | x :: r =>
        match runs r with
        | (y :: g) :: gs => if Z.eqb (id y) (id x) then (x :: y :: g) :: gs else [x] :: (y :: g) :: gs
        | _ => [[x]]
        end
    end.
  Lemma runs_shape x r : exists g gs, runs (x :: r) = (x :: g) :: gs /\ (forall z, In z g -> id z = id x) /\
    (forall y g' gs', gs = (y :: g') :: gs' -> id y <> id x) /\ (x :: g) ++ concat gs = x :: r /\
    (forall h, In h gs -> h <> []).
  Proof.
    revert x. induction r as [|y r IH]; intro x.
    - exists [], []. cbn. repeat split; auto; easy.
    - destruct (IH y) as (g & gs & E & S & D & C & N). cbn [runs] in *. rewrite E. destruct (Z.eqb_spec (id y) (id x)) as [H|H].
      + exists (y :: g), gs. split; [easy|]. split; [|split; [|split]].
        * intros z [<-|Z]; [easy|]. rewrite <- H. auto.
        * intros y' g' gs' Q. rewrite <- H. eapply D, Q.
        * cbn in *. congruence.
        * easy.
      + exists [], ((y :: g) :: gs). split; [easy|]. split; [easy|]. split; [|split].
        * intros y' g' gs' Q. injection Q as <- _ _. easy.
        * cbn in *. congruence.
        * intros h [<-|Z]; [discriminate|auto].
  Qed.
  Lemma runs_concat rows : concat (runs rows) = rows.
  Proof.
    destruct rows as [|x r]; [easy|]. destruct (runs_shape x r) as (g & gs & E & _ & _ & C & _). rewrite E. exact C.
  Qed.
  Lemma runs_nonempty rows g : In g (runs rows) -> g <> [].
  Proof.
    destruct rows as [|x r]; [easy|]. destruct (runs_shape x r) as (h & gs & E & _ & _ & _ & N). rewrite E.
    intros [<-|H]; [discriminate|auto].
  Qed.
  Lemma runs_same rows g z z' : In g (runs rows) -> In z g -> In z' g -> id z = id z'.
  Proof.
    revert g. induction rows as [|x r IH]; [easy|]. intros g. cbn [runs]. destruct r as [|y r].
    - cbn. intros [<-|[]] [<-|[]] [<-|[]]. easy.
    - destruct (runs_shape y r) as (h & gs & E & S & _). rewrite E in *. destruct (Z.eqb_spec (id y) (id x)) as [H|H].
      + intros [<-|G] A B; [|apply (IH g); auto; now right].
        assert (Q : forall z, In z (x :: y :: h) -> id z = id x).
        { intros w [<-|[<-|W]]; [easy|easy|]. rewrite <- H. auto. }
        rewrite (Q z A), (Q z' B). easy.
      + intros [<-|G] A B; [|apply (IH g); auto]. destruct A as [<-|[]]. destruct B as [<-|[]]. easy.
  Qed.
  Lemma runs_adjacent rows : forall a g g' b z z', runs rows = a ++ g :: g' :: b -> In z g -> In z' g' -> id z <> id z'.
  Proof.
    induction rows as [|x r IH]; intros a g g' b z z' E A B; [destruct a; discriminate|].
    destruct r as [|y r]; [cbn in E; destruct a as [|? [|? a]]; discriminate|].
    assert (SAME : forall h, In h (runs (x :: y :: r)) -> forall w w', In w h -> In w' h -> id w = id w')
      by (intros; eapply runs_same; eauto).
    cbn [runs] in E. fold (runs (y :: r)) in E. destruct (runs_shape y r) as (h & gs & F & S & D & C & N).
    change (match runs r with (y0 :: g0) :: gs0 => if id y0 =? id y then (y :: y0 :: g0) :: gs0 else [y] :: (y0 :: g0) :: gs0 | _ => [[y]] end)
      with (runs (y :: r)) in E. rewrite F in E. destruct (Z.eqb_spec (id y) (id x)) as [H|H].
    - destruct a as [|a0 a].
      + injection E as E1 E2. subst g. destruct g' as [|w g']; [easy|]. pose proof (D w g' b E2) as DW.
        assert (ZX : id z = id x) by (destruct A as [<-|[<-|A]]; [easy|easy|]; rewrite <- H; auto).
        assert (WZ : id z' = id w) by (apply (runs_same (y :: r) (w :: g')); [rewrite F, E2; right; now left|easy|now left]).
        rewrite ZX, WZ, <- H. auto.
      + injection E as E1 E2. apply (IH ((y :: h) :: a) g g' b z z'); auto. rewrite F, E2. easy.
    - destruct a as [|a0 a].
      + injection E as E1 E2 E3. subst g g' b. destruct A as [<-|[]].
        assert (WZ : id z' = id y) by (destruct B as [<-|B]; auto). rewrite WZ. auto.
      + injection E as E1 E2. apply (IH a g g' b z z'); auto. now rewrite F.
  Qed.
  Lemma find_bins_runs rows : find_bins (map id rows) = bounds 0 (runs rows).
  Proof.
    destruct rows as [|x r]; [easy|]. cbn [find_bins map].
    assert (G : forall r x i start, (start < i)%nat -> bins_from i start (id x) (map id r) =
              match runs (x :: r) with
              | g :: gs => (start, i - 1 + length g - 1)%nat :: bounds (i - 1 + length g) gs | [] => [] end).
    { clear. induction r as [|y r IH]; intros x i start L.
      - cbn. do 2 f_equal. lia.
      - cbn [map bins_from]. change (runs (x :: y :: r)) with
          (match runs (y :: r) with (y0 :: g0) :: gs0 => if id y0 =? id x then (x :: y0 :: g0) :: gs0 else [x] :: (y0 :: g0) :: gs0 | _ => [[x]] end).
        destruct (runs_shape y r) as (h & gs & F & _). rewrite F. destruct (Z.eqb_spec (id y) (id x)) as [H|H].
        + rewrite IH by lia. rewrite F. cbn [length]. f_equal; [f_equal; lia|f_equal; lia].
        + rewrite IH by lia. rewrite F. cbn [length bounds]. f_equal; [f_equal; lia|].
          f_equal; [f_equal; lia|f_equal; lia]. }
    rewrite G by lia. destruct (runs_shape x r) as (g & gs & E & _). rewrite E. cbn [bounds]. f_equal.
  Qed.
  (** Rows in front. *)
  Lemma runs_app_cut p : forall f x y, id (last p x) <> id y -> p <> [] -> runs (p ++ y :: f) = runs p ++ runs (y :: f).
  Proof.
    induction p as [|a p IH]; intros f x y D N; [easy|]. destruct p as [|b p].
    - cbn [app]. change (runs (a :: y :: f)) with
        (match runs (y :: f) with (y0 :: g0) :: gs0 => if id y0 =? id a then (a :: y0 :: g0) :: gs0 else [a] :: (y0 :: g0) :: gs0 | _ => [[a]] end).
      destruct (runs_shape y f) as (h & gs & F & _). rewrite F. cbn [last] in D. destruct (Z.eqb_spec (id y) (id a)); [congruence|]. reflexivity.
    - assert (I : runs ((b :: p) ++ y :: f) = runs (b :: p) ++ runs (y :: f)) by (apply (IH f x); [exact D|discriminate]).
      cbn [app] in *. change (runs (a :: b :: p ++ y :: f)) with
        (match runs (b :: p ++ y :: f) with (y0 :: g0) :: gs0 => if id y0 =? id a then (a :: y0 :: g0) :: gs0 else [a] :: (y0 :: g0) :: gs0 | _ => [[a]] end).
      rewrite I. change (runs (a :: b :: p)) with
        (match runs (b :: p) with (y0 :: g0) :: gs0 => if id y0 =? id a then (a :: y0 :: g0) :: gs0 else [a] :: (y0 :: g0) :: gs0 | _ => [[a]] end).
      destruct (runs_shape b p) as (h & gs & F & _). rewrite F. cbn [app]. destruct (id b =? id a); reflexivity.
  Qed.
  Lemma runs_app_join p : forall f x y, id (last p x) = id y -> p <> [] ->
    exists a l g b, runs p = a ++ [l] /\ runs (y :: f) = g :: b /\ runs (p ++ y :: f) = a ++ (l ++ g) :: b.
  Proof.
    induction p as [|z p IH]; intros f x y D N; [easy|]. destruct p as [|b p].
    - cbn [app]. change (runs (z :: y :: f)) with
        (match runs (y :: f) with (y0 :: g0) :: gs0 => if id y0 =? id z then (z :: y0 :: g0) :: gs0 else [z] :: (y0 :: g0) :: gs0 | _ => [[z]] end).
      destruct (runs_shape y f) as (h & gs & F & _). rewrite F. cbn [last] in D. destruct (Z.eqb_spec (id y) (id z)); [|congruence].
      exists [], [z], (y :: h), gs. auto.
    - destruct (IH f x y D ltac:(discriminate)) as (a & l & g & r & E1 & E2 & E3). cbn [app] in *.
      change (runs (z :: b :: p ++ y :: f)) with
        (match runs (b :: p ++ y :: f) with (y0 :: g0) :: gs0 => if id y0 =? id z then (z :: y0 :: g0) :: gs0 else [z] :: (y0 :: g0) :: gs0 | _ => [[z]] end).
      change (runs (z :: b :: p)) with
        (match runs (b :: p) with (y0 :: g0) :: gs0 => if id y0 =? id z then (z :: y0 :: g0) :: gs0 else [z] :: (y0 :: g0) :: gs0 | _ => [[z]] end).
      rewrite E3, E1. destruct (runs_shape b p) as (h & gs & F & _). rewrite E1 in F. destruct a as [|a0 a].
      + cbn [app] in F |- *. injection F as -> <-. cbn [app]. destruct (id b =? id z).
        * exists [], (z :: b :: h), g, r. auto.
        * exists [[z]], (b :: h), g, r. auto.
      + cbn [app] in F |- *. injection F as -> <-. destruct (id b =? id z).
        * exists ((z :: b :: h) :: a), l, g, r. auto.
        * exists ([z] :: (b :: h) :: a), l, g, r. auto.
  Qed.
End Bins.
