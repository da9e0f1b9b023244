(** The groups behind [compress], and what is visible of them at a base bar. *)
From Verif Require Export IntervalProofs.
From Verif Require Import Lemmas TextProofs NameProofs IntervalCalendar.
Open Scope list_scope.
Open Scope Z_scope.

(** ** Every-n groups *)
Definition groups_every (k : nat) (rows : list row) : list (list row) :=
  let n := length rows in let n_full := (n / k * k)%nat in
  chunks (n / k) k (firstn n_full rows) ++ (if Nat.ltb n_full n then [slice n_full n rows] else []).
Lemma chunks_ok k m : forall l, length l = (m * k)%nat -> concat (chunks m k l) = l /\ length (chunks m k l) = m /\
  forall g, In g (chunks m k l) -> length g = k.
Proof.
  induction m as [|m IH]; intros l L; cbn [chunks concat length].
  - destruct l; [easy|discriminate].
  - cbn in L. destruct (IH (skipn k l)) as (A & B & C); [rewrite skipn_length; lia|]. split; [|split].
    + rewrite A. apply firstn_skipn.
    + now rewrite B.
    + intros g [<-|G]; [rewrite firstn_length; lia|auto].
Qed.
Lemma chunks_firstn k m : forall m' l, (m <= m')%nat -> firstn m (chunks m' k l) = chunks m k (firstn (m * k) l).
Proof.
  induction m as [|m IH]; intros m' l L; [easy|]. destruct m' as [|m']; [lia|]. cbn [chunks firstn]. f_equal.
  - rewrite firstn_firstn. f_equal. cbn. lia.
  - rewrite IH by lia. rewrite firstn_skipn_comm. do 2 f_equal.
Qed.
Lemma full_rows k (rows : list row) : (0 < k)%nat -> length (firstn (length rows / k * k) rows) = (length rows / k * k)%nat.
Proof.
  intro K. rewrite firstn_length. pose proof (Nat.div_mod (length rows) k ltac:(lia)). lia.
Qed.
Lemma slice_rest {A} s (l : list A) : slice s (length l) l = skipn s l.
Proof. unfold slice. apply firstn_all2. rewrite skipn_length. lia. Qed.
Lemma groups_every_concat k rows : (0 < k)%nat -> concat (groups_every k rows) = rows.
Proof.
  intro K. unfold groups_every. cbv zeta. rewrite concat_app. destruct (chunks_ok k (length rows / k) _ (full_rows k rows K)) as (A & _).
  rewrite A. destruct (Nat.ltb_spec (length rows / k * k) (length rows)) as [L|L].
  - cbn [concat]. rewrite app_nil_r, slice_rest. apply firstn_skipn.
  - cbn. rewrite app_nil_r. now apply firstn_all2.
Qed.
Lemma groups_every_tail k rows : (0 < k)%nat -> exists full tail, groups_every k rows = full ++ tail /\
  (forall g, In g full -> length g = k) /\ length full = (length rows / k)%nat /\
  ((tail = [] /\ length rows = (length rows / k * k)%nat) \/
   exists g, tail = [g] /\ g <> [] /\ (length g < k)%nat /\ length rows = (length rows / k * k + length g)%nat).
Proof.
  intro K. unfold groups_every. cbv zeta. destruct (chunks_ok k (length rows / k) _ (full_rows k rows K)) as (A & B & C).
  eexists _, _. split; [reflexivity|]. split; [exact C|]. split; [exact B|].
  pose proof (Nat.div_mod (length rows) k ltac:(lia)). pose proof (Nat.mod_upper_bound (length rows) k ltac:(lia)).
  destruct (Nat.ltb_spec (length rows / k * k) (length rows)) as [L|L].
  - right. eexists. split; [reflexivity|]. rewrite slice_rest.
    assert (LS : length (skipn (length rows / k * k) rows) = (length rows - length rows / k * k)%nat) by apply skipn_length.
    split; [intro N; rewrite N in LS; cbn in LS; lia|]. lia.
  - left. split; [easy|]. lia.
Qed.
Lemma starts_const k gs off : (forall g, In g gs -> length g = k) ->
  map fst (bounds off gs) = map (fun j => (off + j * k)%nat) (seq 0 (length gs)).
Proof.
  revert off. induction gs as [|g gs IH]; intros off H; [easy|]. cbn [bounds map fst length seq]. f_equal; [lia|].
  rewrite IH by (intros; apply H; now right). rewrite (H g) by now left. rewrite <- seq_shift, map_map. apply map_ext. intro j. lia.
Qed.
Lemma every_starts k rows : (0 < k)%nat ->
  map (fun j => (j * k)%nat) (seq 0 (length rows / k)) ++
  (if Nat.ltb (length rows / k * k) (length rows) then [(length rows / k * k)%nat] else []) = starts_of (groups_every k rows).
Proof.
  intro K. unfold groups_every, starts_of. cbv zeta. destruct (chunks_ok k (length rows / k) _ (full_rows k rows K)) as (A & B & C).
  rewrite bounds_app, map_app, (starts_const k) by exact C. rewrite B, A, full_rows by easy. f_equal.
  destruct (Nat.ltb _ _); reflexivity.
Qed.
Lemma every_bars hv kz rows : 0 < kz ->
  fst (compress_every hv kz rows) = map (full_bar hv) (groups_every (Z.to_nat kz) rows).
Proof.
  intro K. assert (K' : (0 < Z.to_nat kz)%nat) by lia. unfold compress_every. cbv zeta. cbn [fst]. rewrite every_starts by easy.
  rewrite <- with_vwap_groups, groups_every_concat by easy. f_equal. unfold groups_every. cbv zeta. rewrite map_app. f_equal.
  destruct (Nat.ltb _ _); reflexivity.
Qed.
Lemma nth_map_seq (f : nat -> Z) n t d : (t < n)%nat -> nth t (map f (seq 0 n)) d = f t.
Proof.
  intro T. rewrite nth_indep with (d' := f 0%nat) by (rewrite map_length, seq_length; lia). rewrite map_nth, seq_nth by easy. easy.
Qed.
Lemma combine_seq (f : nat -> Z) n : combine (seq 0 n) (map f (seq 0 n)) = map (fun t => (t, f t)) (seq 0 n).
Proof. rewrite <- (map_id (seq 0 n)) at 1. apply combine_map. Qed.
Lemma every_completed hv kz rows t : 1 < kz -> (t < length rows)%nat ->
  nth t (snd (compress_every hv kz rows)) 0 = (Z.of_nat t + 1) / kz - 1.
Proof.
  intros K T. unfold compress_every. cbv zeta. cbn [snd].
  assert (G : (if Z.of_nat t mod kz =? kz - 1 then Z.of_nat t / kz else Z.of_nat t / kz - 1) = (Z.of_nat t + 1) / kz - 1).
  { pose proof (Z.div_mod (Z.of_nat t) kz ltac:(lia)) as D. pose proof (Z.mod_pos_bound (Z.of_nat t) kz ltac:(lia)) as M.
    destruct (Z.eqb_spec (Z.of_nat t mod kz) (kz - 1)) as [E|E].
    - assert ((Z.of_nat t + 1) / kz = Z.of_nat t / kz + 1); [|lia].
      symmetry. apply (Z.div_unique_pos _ _ _ 0); [lia|]. rewrite E in D. nia.
    - assert ((Z.of_nat t + 1) / kz = Z.of_nat t / kz); [|lia].
      symmetry. apply (Z.div_unique_pos _ _ _ (Z.of_nat t mod kz + 1)); [lia|]. nia. }
  destruct (Z.eqb_spec (Z.of_nat (length rows) mod kz) 0) as [E|E]; cbn [negb].
  - rewrite nth_map_seq by easy. exact G.
  - rewrite combine_seq, map_map, nth_map_seq by easy. destruct (Z.eqb_spec (Z.of_nat t / kz) (Z.of_nat (length rows - 1) / kz)) as [H|H]; [|exact G].
    rewrite <- H.
    pose proof (Z.div_mod (Z.of_nat t) kz ltac:(lia)) as D. pose proof (Z.mod_pos_bound (Z.of_nat t) kz ltac:(lia)) as M.
    pose proof (Z.div_mod (Z.of_nat (length rows - 1)) kz ltac:(lia)) as D2. pose proof (Z.mod_pos_bound (Z.of_nat (length rows - 1)) kz ltac:(lia)) as M2.
    assert (NM : Z.of_nat (length rows - 1) mod kz <> kz - 1).
    { intro X. apply E. symmetry. apply (Z.mod_unique_pos _ _ (Z.of_nat (length rows - 1) / kz + 1)); [lia|]. rewrite X in D2. nia. }
    assert ((Z.of_nat t + 1) / kz = Z.of_nat t / kz); [|lia].
    symmetry. apply (Z.div_unique_pos _ _ _ (Z.of_nat t mod kz + 1)); [|nia].
    split; [lia|]. assert (Z.of_nat t <= Z.of_nat (length rows - 1)) by lia. rewrite <- H in D2. nia.
Qed.

(** ** Completed groups *)
Lemma groups_split (gs : list (list row)) : forall m, (forall g, In g gs -> g <> []) -> (m <= length (concat gs))%nat ->
  exists A B, gs = A ++ B /\ (length (concat A) <= m)%nat /\
    match B with [] => m = length (concat gs) | g :: _ => (m < length (concat A) + length g)%nat end.
Proof.
  induction gs as [|g gs IH]; intros m N L.
  - exists [], []. cbn in *. split; [easy|]. lia.
  - destruct (Nat.ltb_spec m (length g)) as [H|H].
    + exists [], (g :: gs). cbn. split; [easy|]. lia.
    + cbn [concat] in L. rewrite app_length in L. destruct (IH (m - length g)%nat) as (A & B & E & LA & LB);
        [intros; apply N; now right|lia|].
      exists (g :: A), B. subst gs. split; [easy|]. cbn [concat]. rewrite app_length. split; [lia|].
      destruct B as [|b B]; [|lia]. rewrite app_nil_r in *. cbn [app concat]. rewrite app_length. lia.
Qed.
Lemma ends_count off gs t : (forall g, In g gs -> g <> []) -> forall A B, gs = A ++ B -> (off + length (concat A) <= S t)%nat ->
  match B with [] => True | g :: _ => (S t < off + length (concat A) + length g)%nat end ->
  length (filter (fun e => Nat.leb e t) (map snd (bounds off gs))) = length A.
Proof.
  intros N A. revert off gs N. induction A as [|g A IH]; intros off gs N B -> LA LB.
  - cbn [app] in *. cbn [concat length] in *.
    assert (G : forall B o, (S t < o)%nat -> (forall g, In g B -> g <> []) -> filter (fun e => Nat.leb e t) (map snd (bounds o B)) = []).
    { clear. induction B as [|g B IH]; intros o L N; [easy|]. cbn [bounds map snd filter].
      assert (length g <> 0)%nat by (specialize (N g (or_introl eq_refl)); destruct g; cbn; [easy|lia]).
      destruct (Nat.leb_spec (o + length g - 1) t); [lia|]. apply IH; [lia|]. intros; apply N; now right. }
    destruct B as [|g B]; [easy|]. cbn [bounds map snd filter].
    assert (length g <> 0)%nat by (specialize (N g (or_introl eq_refl)); destruct g; cbn; [easy|lia]).
    destruct (Nat.leb_spec (off + length g - 1) t); [lia|]. rewrite G; [easy|lia|]. intros; apply N; now right.
  - cbn [app bounds map snd filter]. cbn [concat] in LA, LB. rewrite app_length in LA, LB.
    destruct (Nat.leb_spec (off + length g - 1) t); [|lia]. cbn [length]. f_equal.
    apply (IH (off + length g)%nat (A ++ B)) with (B := B); [intros; apply N; now right|easy|lia|].
    destruct B; [easy|]. lia.
Qed.
Lemma completed_at gs t A B interval_n : (forall g, In g gs -> g <> []) -> gs <> [] -> gs = A ++ B ->
  (length (concat A) <= S t)%nat -> (t < length (concat gs))%nat ->
  match B with [] => True | g :: _ => (S t < length (concat A) + length g)%nat end ->
  nth t (compute_completed (length (concat gs)) (starts_of gs) (ends_of gs) interval_n) 0 =
  match B with
  | [] => if Z.ltb 0 interval_n && Z.leb interval_n (Z.of_nat (length (last gs []))) then Z.of_nat (length gs) - 1 else Z.of_nat (length gs) - 2
  | _ => Z.of_nat (length A) - 1
  end.
Proof.
  intros N NE E LA T LB. unfold compute_completed.
  assert (C : length (filter (fun e => Nat.leb e t) (ends_of gs)) = length A).
  { apply (ends_count 0 gs t N A B E); [lia|]. destruct B; [easy|]. cbn. lia. }
  assert (NL : length (ends_of gs) = length gs) by (unfold ends_of; rewrite map_length; apply bounds_len).
  assert (LS : Z.of_nat (last (ends_of gs) 0%nat) - Z.of_nat (last (starts_of gs) 0%nat) + 1 = Z.of_nat (length (last gs []))).
  { destruct (exists_last NE) as (a & g & ->). unfold ends_of, starts_of. rewrite bounds_app, !map_app. cbn [bounds map fst snd].
    rewrite !last_last. assert (length g <> 0)%nat by (specialize (N g ltac:(apply in_or_app; right; now left)); destruct g; cbn; [easy|lia]). lia. }
  destruct (ends_of gs) as [|e0 es] eqn:EE; [cbn in NL; destruct gs; [easy|discriminate]|].
  rewrite LS, NL. clear LS. destruct B as [|b B].
  - rewrite app_nil_r in E. subst A. destruct (0 <? interval_n); cbn [andb].
    + destruct (interval_n <=? _).
      * rewrite nth_map_seq, C by easy. easy.
      * rewrite map_map, nth_map_seq, C by easy. rewrite Z.eqb_refl. lia.
    + rewrite map_map, nth_map_seq, C by easy. rewrite Z.eqb_refl. lia.
  - assert (length A < length gs)%nat by (rewrite E, app_length; cbn; lia).
    destruct ((0 <? interval_n) && (interval_n <=? Z.of_nat (length (last gs [])))).
    + rewrite nth_map_seq, C by easy. easy.
    + rewrite map_map, nth_map_seq, C by easy. destruct (Z.eqb_spec (Z.of_nat (length A) - 1) (Z.of_nat (length gs) - 1)); lia.
Qed.

(** ** [compress] by groups *)
Definition bin_of (s : str) : Z -> Z :=
  if str_in s calendar_intervals then calendar_bin s
  else match to_seconds (Some s) with Some secs => duration_bin secs | None => fun _ => 0 end.
Definition groups (j : interval) (rows : list row) : list (list row) :=
  match j with Every k => groups_every (Z.to_nat k) rows | Named s => runs (bin_of s) rows end.
Lemma duration_seconds i t : duration i t -> exists secs, to_seconds (Some t) = Some secs.
Proof.
  intros (w & d & u & w' & n & d' & u' & _ & _ & _ & _ & P & _ & U & D & ->). apply decimal_iff in D as [_ ->].
  destruct (canonical_seconds n u' P U) as (k & K & _). eauto.
Qed.
Lemma bin_of_period j s date k : normal_form j (Named s) -> (period s date k <-> bin_of s date = k).
Proof.
  intro N. unfold bin_of. destruct (str_in s calendar_intervals) eqn:C.
  - apply period_calendar. now apply calendar_iff.
  - inversion N as [|s' C'|s' t D]; subst; [apply calendar_iff in C'; congruence|].
    destruct (duration_seconds _ _ D) as [secs S]. rewrite S. apply period_duration; [|easy].
    apply normal_form_idem in N. inversion N as [|s2 C2|s2 t2 D2]; subst; [apply calendar_iff in C2; congruence|easy].
Qed.
Lemma groups_ok i j rows : normal_form i j -> concat (groups j rows) = rows /\ forall g, In g (groups j rows) -> g <> [].
Proof.
  intro N. destruct j as [k|s]; cbn [groups].
  - assert (K : 1 < k) by (inversion N; easy). assert (K' : (0 < Z.to_nat k)%nat) by lia. split; [now apply groups_every_concat|].
    destruct (groups_every_tail (Z.to_nat k) rows K') as (full & tail & -> & F & _ & T).
    intros g G. apply in_app_or in G as [G|G]; [specialize (F g G); intros ->; cbn in F; lia|].
    destruct T as [[-> _]|(g' & -> & NE & _)]; [easy|]. destruct G as [<-|[]]. easy.
  - split; [apply runs_concat|apply runs_nonempty].
Qed.
Lemma groups_cut i j rows : normal_form i j -> cut j rows (groups j rows).
Proof.
  intro N. destruct (groups_ok i j rows N) as [C NE]. split; [exact C|]. split; [exact NE|]. destruct j as [k|s].
  - assert (K : 1 < k) by (inversion N; easy). assert (K' : (0 < Z.to_nat k)%nat) by lia.
    intros a g b E. cbn [groups] in E. destruct (groups_every_tail (Z.to_nat k) rows K') as (full & tail & Q & F & _ & T). rewrite Q in E.
    destruct T as [[-> _]|(g' & -> & _ & LT & _)].
    + rewrite app_nil_r in E. assert (length g = Z.to_nat k) by (apply F; rewrite E; apply in_or_app; right; now left). lia.
    + destruct b as [|b0 b _] using rev_ind.
      * apply app_inj_tail in E as [_ <-]. split; [lia|easy].
      * change (a ++ g :: b ++ [b0]) with (a ++ (g :: b) ++ [b0]) in E. rewrite app_assoc in E. apply app_inj_tail in E as [-> _].
        assert (length g = Z.to_nat k) by (apply F; apply in_or_app; right; now left). lia.
  - split.
    + intros g G. destruct g as [|x g]; [exfalso; now apply (NE _ G)|]. exists (bin_of s (r_date x)). intros r R.
      apply (bin_of_period i); [easy|]. apply (runs_same (bin_of s) rows (x :: g)); [exact G|exact R|now left].
    + intros a g g' b r r' k E R R' P P'. apply (bin_of_period i) in P; [|easy]. apply (bin_of_period i) in P'; [|easy].
      apply (runs_adjacent (bin_of s) rows a g g' b r r' E R R'). congruence.
Qed.
Definition closing (bin : Z -> Z) (p f : list row) : bool :=
  match f with y :: _ => negb (Z.eqb (bin (r_date (last p y))) (bin (r_date y))) | [] => false end.
Definition seen (j : interval) (p f : list row) : list (list row) :=
  match j with
  | Every k => firstn (length p / Z.to_nat k) (groups_every (Z.to_nat k) p)
  | Named s => if closing (bin_of s) p f then runs (bin_of s) p else removelast (runs (bin_of s) p)
  end.
Lemma bins_compress hv bin rows : fst (compress_bins hv bin rows) = map (full_bar hv) (runs bin rows) /\
  snd (compress_bins hv bin rows) = compute_completed (length rows) (starts_of (runs bin rows)) (ends_of (runs bin rows)) (-1).
Proof.
  unfold compress_bins. cbv zeta. cbn [fst snd]. rewrite find_bins_runs. split; [|easy].
  pose proof (aggregate_groups rows (runs bin rows) [] ltac:(symmetry; apply runs_concat) ltac:(apply runs_nonempty)) as A. cbn [length] in A.
  rewrite A. rewrite <- with_vwap_groups, runs_concat. easy.
Qed.
Lemma compress_some hv rows i bars completed : compress hv rows i = Some (bars, completed) ->
  exists j, normal_form i j /\ bars = map (full_bar hv) (groups j rows) /\
    match j with
    | Every k => completed = snd (compress_every hv k rows)
    | Named s => completed = compute_completed (length rows) (starts_of (groups j rows)) (ends_of (groups j rows)) (-1)
    end.
Proof.
  unfold compress. destruct (normalize_interval i) as [j|] eqn:NI; [|discriminate]. apply normalize_iff in NI. intro H. exists j. split; [easy|].
  destruct rows as [|x r].
  - injection H as <- <-. destruct j as [k|s]; [|easy]. assert (K : 1 < k) by (inversion NI; easy). split.
    + cbn [groups]. rewrite <- every_bars by lia. cbn [length]. unfold compress_every. cbn [length]. rewrite Nat.div_0_l by lia. cbn.
      now destruct hv.
    + unfold compress_every. cbn [length seq map combine]. now destruct (negb _).
  - destruct j as [k|s].
    + assert (K : 1 < k) by (inversion NI; easy). cbn [groups]. rewrite <- every_bars by lia. set (c := compress_every hv k (x :: r)) in *. assert (c = (bars, completed)) as -> by congruence. easy.
    + cbn [groups]. unfold bin_of. destruct (str_in s calendar_intervals).
      * destruct (bins_compress hv (calendar_bin s) (x :: r)) as [A B]. set (c := compress_bins hv (calendar_bin s) (x :: r)) in *. assert (X : c = (bars, completed)) by congruence. rewrite X in A, B. auto.
      * destruct (to_seconds (Some s)) as [secs|]; [|discriminate]. destruct (bins_compress hv (duration_bin secs) (x :: r)) as [A B]. set (c := compress_bins hv (duration_bin secs) (x :: r)) in *.
        assert (X : c = (bars, completed)) by congruence. rewrite X in A, B. auto.
Qed.
Lemma compress_none hv rows i : compress hv rows i = None <-> normalize_interval i = None.
Proof.
  unfold compress. destruct (normalize_interval i) as [j|] eqn:NI; [|easy]. split; [|discriminate]. intro H. exfalso.
  destruct rows as [|x r]; [discriminate|]. destruct j as [k|s]; [discriminate|]. destruct (str_in s calendar_intervals) eqn:C; [discriminate|].
  apply normalize_iff in NI. inversion NI as [|s' C'|s' t D]; subst; [apply calendar_iff in C'; congruence|].
  destruct (duration_seconds _ _ D) as [secs S]. rewrite S in H. discriminate.
Qed.
Lemma firstn_pre_len {A} n (p l : list A) : length p = n -> firstn n (p ++ l) = p.
Proof. intros <-. apply firstn_pre. Qed.
Lemma last_default (p : list row) : forall x y, p <> [] -> last p x = last p y.
Proof. induction p as [|a [|b p] IH]; intros; [easy|easy|]. cbn [last] in *. now apply IH. Qed.

(** What is visible at base bar [t]. *)
Lemma view_seen hv rows i bars completed j t : compress hv rows i = Some (bars, completed) -> normal_form i j -> (t < length rows)%nat ->
  length completed = length rows /\
  -1 <= nth t completed 0 /\
  firstn (Z.to_nat (nth t completed 0 + 1)) (groups j rows) = seen j (firstn (S t) rows) (skipn (S t) rows).
Proof.
  intros H N T. destruct (compress_some _ _ _ _ _ H) as (j' & N' & _ & C).
  assert (j' = j) by (apply normalize_iff in N, N'; congruence). subst j'. clear H N'.
  assert (LP : length (firstn (S t) rows) = S t) by (rewrite firstn_length; lia).
  destruct j as [k|s].
  - assert (K : 1 < k) by (inversion N; easy). subst completed. split; [|split].
    + unfold compress_every. cbv zeta. cbn [snd]. destruct (negb _); now rewrite ?map_length, ?combine_length, ?map_length, ?seq_length, ?Nat.min_id.
    + rewrite every_completed by easy. pose proof (Z.div_pos (Z.of_nat t + 1) k ltac:(lia) ltac:(lia)). lia.
    + rewrite every_completed by easy. replace ((Z.of_nat t + 1) / k - 1 + 1) with ((Z.of_nat t + 1) / k) by lia.
      cbn [seen groups]. rewrite LP.
      assert (Q : Z.to_nat ((Z.of_nat t + 1) / k) = (S t / Z.to_nat k)%nat).
      { replace (Z.of_nat t + 1) with (Z.of_nat (S t)) by lia. rewrite <- (Z2Nat.id k) at 1 by lia. rewrite <- Nat2Z.inj_div. apply Nat2Z.id. }
      rewrite Q. set (kk := Z.to_nat k). assert (KK : (0 < kk)%nat) by (unfold kk; lia).
      assert (F : forall l : list row, (S t <= length l)%nat -> firstn (S t / kk) (groups_every kk l) = chunks (S t / kk) kk (firstn (S t / kk * kk) l)).
      { intros l L. assert (D : (S t / kk <= length l / kk)%nat) by (apply Nat.div_le_mono; lia).
        unfold groups_every. cbv zeta. destruct (chunks_ok kk (length l / kk) _ (full_rows kk l KK)) as (_ & B & _).
        rewrite firstn_app, B. replace (S t / kk - length l / kk)%nat with 0%nat by lia. cbn [firstn]. rewrite app_nil_r, chunks_firstn by easy.
        rewrite firstn_firstn. do 2 f_equal. nia. }
      rewrite !F by lia. rewrite firstn_firstn. do 2 f_equal. pose proof (Nat.div_mod (S t) kk ltac:(lia)). lia.
  - cbn [groups] in *. set (bin := bin_of s) in *. set (gs := runs bin rows) in *.
    assert (CC : concat gs = rows) by apply runs_concat. assert (NE : forall g, In g gs -> g <> []) by (apply runs_nonempty).
    assert (GN : gs <> []) by (intro X; rewrite X in CC; cbn in CC; subst rows; cbn in T; lia).
    assert (LC : length completed = length rows).
    { subst completed. unfold compute_completed. destruct (ends_of gs); [now rewrite !map_length, seq_length|].
      destruct (_ && _); now rewrite !map_length, seq_length. }
    split; [exact LC|]. set (p := firstn (S t) rows) in *. set (f := skipn (S t) rows) in *.
    assert (E : rows = p ++ f) by (symmetry; apply firstn_skipn).
    assert (PN : p <> []) by (intro X; rewrite X in LP; discriminate).
    assert (RL : length (concat (runs bin p)) = S t) by now rewrite runs_concat.
    assert (AT := fun A B => completed_at gs t A B (-1) NE GN). rewrite CC in AT. rewrite <- C in AT.
    cbn [seen]. change (bin_of s) with bin. destruct f as [|y f'] eqn:FE.
    + rewrite app_nil_r in E. cbn [closing]. rewrite <- E. fold gs.
      assert (V : nth t completed 0 = Z.of_nat (length gs) - 2).
      { rewrite (AT gs []); [easy|now rewrite app_nil_r| |easy|easy]. rewrite CC. rewrite E, LP. lia. }
      rewrite V. assert (LG : (0 < length gs)%nat) by (destruct gs; [easy|cbn; lia]). split; [lia|]. destruct (exists_last GN) as (a & l & ->).
      rewrite removelast_last. apply firstn_pre_len. rewrite app_length. cbn [length]. lia.
    + cbn [closing]. destruct (Z.eqb_spec (bin (r_date (last p y))) (bin (r_date y))) as [J|J]; cbn [negb].
      * destruct (runs_app_join bin p f' y y J PN) as (a & l & g & b & E1 & E2 & E3). rewrite <- E in E3. fold gs in E3.
        assert (LL : l <> []) by (apply (runs_nonempty bin p); rewrite E1; apply in_or_app; right; now left).
        assert (GG : g <> []) by (apply (runs_nonempty bin (y :: f')); rewrite E2; now left).
        assert (0 < length g)%nat by (destruct g; [easy|cbn; lia]). assert (0 < length l)%nat by (destruct l; [easy|cbn; lia]).
        rewrite E1, concat_app, app_length in RL. cbn [concat] in RL. rewrite app_nil_r in RL.
        assert (V : nth t completed 0 = Z.of_nat (length a) - 1).
        { rewrite (AT a ((l ++ g) :: b)); [easy|exact E3|lia|easy|]. rewrite app_length. lia. }
        rewrite V. split; [lia|]. rewrite E1, removelast_last, E3. apply firstn_pre_len. lia.
      * pose proof (runs_app_cut bin p f' y y J PN) as E3. rewrite <- E in E3. fold gs in E3.
        assert (V : nth t completed 0 = Z.of_nat (length (runs bin p)) - 1).
        { rewrite (AT (runs bin p) (runs bin (y :: f'))); [|exact E3|lia|easy|].
          - destruct (runs_shape bin y f') as (g & gs' & -> & _). easy.
          - destruct (runs_shape bin y f') as (g & gs' & -> & _). cbn [length]. lia. }
        rewrite V. split; [lia|]. rewrite E3. apply firstn_pre_len. lia.
Qed.
Lemma fetch_seen hv rows i bars completed j dates (p f : list row) : rows = p ++ f -> p <> [] ->
  compress hv rows i = Some (bars, completed) -> normal_form i j ->
  fetch_bars (mk_csdata bars completed dates) (Z.of_nat (length p)) = map (full_bar hv) (seen j p f).
Proof.
  intros E PN H N. set (t := (length p - 1)%nat). assert (L : length p = S t) by (destruct p; [easy|cbn in *; unfold t; cbn; lia]).
  assert (T : (t < length rows)%nat) by (rewrite E, app_length; lia).
  destruct (view_seen _ _ _ _ _ _ t H N T) as (LC & V0 & V). destruct (compress_some _ _ _ _ _ H) as (j' & N' & B & _).
  assert (j' = j) by (apply normalize_iff in N, N'; congruence). subst j'.
  assert (FP : firstn (S t) rows = p) by (rewrite E; apply firstn_pre_len, L).
  assert (FS : skipn (S t) rows = f) by (rewrite E, <- L; apply skipn_pre). rewrite FP, FS in V. rewrite <- V.
  unfold fetch_bars, completed_index. cbn [cs_completed cs_bars]. rewrite LC.
  destruct (Z.leb_spec (Z.of_nat (length p)) 0); [lia|]. destruct (Nat.eqb_spec (length rows) 0); [lia|]. cbn [orb].
  destruct (Z.ltb_spec (Z.of_nat (length rows)) (Z.of_nat (length p))); [rewrite E, app_length in *; lia|].
  replace (Z.to_nat (Z.of_nat (length p) - 1)) with t by lia. rewrite <- firstn_map, <- B.
  destruct (Z.ltb_spec (nth t completed 0) 0); [|easy]. replace (nth t completed 0) with (-1) by lia. easy.
Qed.
Lemma bars_ok hv gs : (forall g, In g gs -> g <> []) -> Forall2 (summarises hv) gs (map (full_bar hv) gs).
Proof.
  induction gs as [|g gs IH]; intro NE; constructor; [apply full_bar_summarises, NE; now left|]. apply IH. intros; apply NE. now right.
Qed.
Lemma closing_iff i s p f : normal_form i (Named s) -> p <> [] -> (closing (bin_of s) p f = true <-> closes (Named s) p f).
Proof.
  intros N PN. destruct (exists_last PN) as (p' & x & ->). unfold closing, closes. destruct f as [|y f'].
  - split; [discriminate|]. intros (? & ? & ? & ? & ? & _ & X & _). discriminate.
  - rewrite last_last. destruct (Z.eqb_spec (bin_of s (r_date x)) (bin_of s (r_date y))) as [H|H]; cbn [negb].
    + split; [discriminate|]. intros (x' & y' & p2 & f2 & k & A & B & D & G). apply app_inj_tail in A as [-> ->]. injection B as -> ->.
      exfalso. apply G. apply (bin_of_period i); [easy|]. apply (bin_of_period i) in D; [|easy]. congruence.
    + split; [|easy]. intros _. exists x, y, p', f', (bin_of s (r_date x)). split; [easy|]. split; [easy|].
      split; [now apply (bin_of_period i)|]. intro G. apply (bin_of_period i) in G; [|easy]. congruence.
Qed.
Lemma bin_mono i s d d' : normal_form i (Named s) -> d <= d' -> bin_of s d <= bin_of s d'.
Proof.
  intros N L. unfold bin_of. destruct (str_in s calendar_intervals) eqn:C.
  - assert (D : day_of d <= day_of d') by (unfold day_of; apply Z.div_le_mono; [unfold ns_per_day; lia|easy]).
    assert (M : month_of d <= month_of d').
    { unfold month_of. pose proof (month_of_day_ok (day_of d)) as A. pose proof (month_of_day_ok (day_of d')) as B.
      apply Z.lt_succ_r, Z.nle_gt. intro Q. apply month_start_mono in Q. unfold Z.succ in Q. lia. }
    unfold calendar_bin. destruct (str_eqb s (lit "daily")); [easy|]. destruct (str_eqb s (lit "weekly")); [apply Z.div_le_mono; lia|].
    destruct (str_eqb s (lit "monthly")); [easy|]. destruct (str_eqb s (lit "quarterly")); apply Z.div_le_mono; lia.
  - inversion N as [|s' C'|s' t D]; subst; [apply calendar_iff in C'; congruence|].
    destruct D as (w & dd & u & w' & n & d2 & u' & _ & _ & _ & _ & P & _ & U & D & ->). apply decimal_iff in D as [_ ->].
    destruct (canonical_seconds n u' P U) as (k & -> & K). unfold duration_bin. apply Z.div_le_mono; lia.
Qed.
Lemma seen_spec i j p f : normal_form i j -> p <> [] ->
  exists gs l, cut j p (gs ++ [l]) /\
    ((finished j p f l /\ seen j p f = gs ++ [l]) \/ (~ finished j p f l /\ seen j p f = gs)).
Proof.
  intros N PN. pose proof (groups_cut i j p N) as C.
  assert (GN : groups j p <> []) by (intro X; destruct C as (C & _); rewrite X in C; now subst).
  destruct (exists_last GN) as (gs & l & E). exists gs, l. rewrite <- E. split; [exact C|]. destruct j as [k|s]; cbn [finished seen].
  - assert (K : 1 < k) by (inversion N; easy). assert (K' : (0 < Z.to_nat k)%nat) by lia. cbn [groups] in *.
    destruct (groups_every_tail (Z.to_nat k) p K') as (full & tail & F1 & F2 & F3 & T). rewrite F1 in *. rewrite firstn_app, F3, Nat.sub_diag.
    cbn [firstn]. rewrite app_nil_r, <- F3, firstn_all. destruct T as [[-> _]|(g & -> & _ & LG & _)].
    + left. rewrite app_nil_r in E |- *. split; [|easy]. assert (length l = Z.to_nat k) by (apply F2; rewrite E; apply in_or_app; right; now left). lia.
    + right. apply app_inj_tail in E as [-> ->]. split; [lia|easy].
  - cbn [groups] in *. set (bin := bin_of s) in *. fold bin.
    pose proof (closing_iff i s p f N PN) as CL. fold bin in CL.
    destruct (closing bin p f) eqn:CB.
    + left. split; [now apply CL|easy].
    + right. split; [intro X; apply CL in X; discriminate|]. rewrite E. apply removelast_last.
Qed.
