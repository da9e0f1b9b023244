From Verif Require Export LagSpec.

(** [map_r] *)
Lemma map_r_ok {A B} (f : A -> result B) l ys : map_r f l = Ok ys -> Forall2 (fun x y => f x = Ok y) l ys.
Proof.
  revert ys. induction l as [|x r IH]; intros ys E; cbn [map_r] in E; [inversion E; constructor|].
  destruct (f x) as [y|e] eqn:F; cbn [bind] in E; [|discriminate]. destruct (map_r f r) as [zs|e]; cbn [bind] in E; [|discriminate].
  inversion E; subst. constructor; auto.
Qed.
Lemma map_r_all {A B} (f : A -> result B) l : (forall x, In x l -> exists y, f x = Ok y) -> exists ys, map_r f l = Ok ys.
Proof.
  induction l as [|x r IH]; intros H; [eexists; reflexivity|]. destruct (H x (or_introl eq_refl)) as (y & Y).
  destruct IH as (ys & E); [intros z I; apply H; right; exact I|]. exists (y :: ys). cbn [map_r]. rewrite Y. cbn [bind]. rewrite E. reflexivity.
Qed.
Lemma Forall2_nth {A B} (R : A -> B -> Prop) l m : Forall2 R l m -> forall i x, nth_error l i = Some x -> exists y, nth_error m i = Some y /\ R x y.
Proof. induction 1 as [|a b l m H F IH]; intros [|i] x E; cbn in E; try discriminate; [inversion E; subst; exists b; auto|exact (IH i x E)]. Qed.
Lemma Forall2_len {A B} (R : A -> B -> Prop) l m : Forall2 R l m -> length l = length m.
Proof. induction 1; cbn; congruence. Qed.
Lemma Forall2_intro {A B} (R : A -> B -> Prop) l : forall m, length l = length m ->
  (forall i x y, nth_error l i = Some x -> nth_error m i = Some y -> R x y) -> Forall2 R l m.
Proof.
  induction l as [|x l IH]; intros [|y m] L H; try discriminate L; constructor.
  - exact (H 0 x y eq_refl eq_refl).
  - apply IH; [cbn in L; lia|]. intros i a b. exact (H (S i) a b).
Qed.
Lemma nth_some_lt {A} (l : list A) i x : nth_error l i = Some x -> i < length l.
Proof. intros E. apply nth_error_Some. congruence. Qed.
Lemma nth_lt_some {A} (l : list A) i : i < length l -> exists x, nth_error l i = Some x.
Proof. intros H. destruct (nth_error l i) eqn:E; [eauto|]. apply nth_error_None in E. lia. Qed.
Lemma nth_error_firstn' {A} (l : list A) n i : i < n -> nth_error (firstn n l) i = nth_error l i.
Proof. revert n i. induction l as [|x r IH]; intros [|n] [|i] H; try lia; try reflexivity. cbn. apply IH. lia. Qed.
Lemma nth_error_skipn' {A} (l : list A) n i : nth_error (skipn n l) i = nth_error l (n + i).
Proof. revert l. induction n as [|n IH]; intros [|x l]; try reflexivity; [cbn; destruct i; reflexivity|]. cbn. apply IH. Qed.
Lemma nth_error_repeat' {A} (x : A) n i : i < n -> nth_error (repeat x n) i = Some x.
Proof. revert i. induction n as [|n IH]; intros [|i] H; try lia; [reflexivity|]. cbn. apply IH. lia. Qed.

(** Shifted series. *)
Lemma shifted_length v k : length (shifted v k) = length v.
Proof. unfold shifted. rewrite app_length, repeat_length, firstn_length. lia. Qed.
Lemma shifted_nth v k j : j < length v -> nth_error (shifted v k) j = if k <=? j then nth_error v (j - k) else Some None.
Proof.
  intros H. unfold shifted. destruct (Nat.leb_spec k j).
  - rewrite nth_error_app2 by (rewrite repeat_length; lia). rewrite repeat_length, nth_error_firstn' by lia. f_equal. lia.
  - rewrite nth_error_app1 by (rewrite repeat_length; lia). apply nth_error_repeat'. lia.
Qed.
Lemma stacked_length v n : length (build_stacked v n) = S n.
Proof. unfold build_stacked. rewrite map_length, seq_length. reflexivity. Qed.
Lemma nth_error_seq n i : i < n -> nth_error (seq 0 n) i = Some i.
Proof.
  intros H. rewrite (nth_error_nth' (seq 0 n) 0) by (rewrite seq_length; exact H). rewrite seq_nth by exact H. reflexivity.
Qed.
Lemma stacked_nth v n k : k <= n -> nth_error (build_stacked v n) k = Some (shifted v k).
Proof. intros H. unfold build_stacked. rewrite (map_nth_error (shifted v) k (seq 0 (S n)) (nth_error_seq (S n) k ltac:(lia))). reflexivity. Qed.

(** The cache. *)
Lemma lkey_eqb_spec a b : lkey_eqb a b = true <-> a = b.
Proof.
  unfold lkey_eqb, opt_eqb. rewrite !andb_true_iff, !Nat.eqb_eq. destruct a as [a1 a2 a3], b as [b1 b2 b3]; cbn. split.
  - intros ((-> & ->) & H). destruct a3, b3; try discriminate; [apply Nat.eqb_eq in H; subst|]; reflexivity.
  - intros E. inversion E; subst. destruct b3; rewrite ?Nat.eqb_refl; auto.
Qed.
Definition entry (hist : lkey -> option (list value)) (c : lcache) : Prop := forall k st, lget k c = Some st ->
  exists v n, hist k = Some v /\ st = build_stacked v n.
Definition deeper (c c' : lcache) : Prop := forall k st, lget k c = Some st -> exists st', lget k c' = Some st' /\ length st <= length st'.
Lemma deeper_refl c : deeper c c.
Proof. intros k st E. exists st. auto. Qed.
Lemma deeper_trans a b c : deeper a b -> deeper b c -> deeper a c.
Proof. intros H1 H2 k st E. destruct (H1 k st E) as (s1 & E1 & L1). destruct (H2 k s1 E1) as (s2 & E2 & L2). exists s2. split; [exact E2|lia]. Qed.
Lemma store_spec hist c key v n : entry hist c -> hist key = Some v ->
  entry hist (store_stacked c key (build_stacked v n)) /\ deeper c (store_stacked c key (build_stacked v n))
  /\ exists st, lget key (store_stacked c key (build_stacked v n)) = Some st /\ S n <= length st.
Proof.
  intros E H.
  assert (entry hist ((key, build_stacked v n) :: c)) as E'.
  { intros k st. cbn [lget]. destruct (lkey_eqb k key) eqn:K; [|apply E]. intros Q. inversion Q. apply lkey_eqb_spec in K. subst. eauto. }
  assert (lkey_eqb key key = true) as R by (apply lkey_eqb_spec; reflexivity).
  unfold store_stacked. destruct (lget key c) as [ex|] eqn:G.
  - rewrite stacked_length. destruct (Nat.leb_spec (S n) (length ex)).
    + split; [exact E|]. split; [apply deeper_refl|]. exists ex. auto.
    + split; [exact E'|]. split.
      * intros k st Q. cbn [lget]. destruct (lkey_eqb k key) eqn:K; [|exists st; auto]. apply lkey_eqb_spec in K. subst k.
        rewrite G in Q. inversion Q; subst. eexists. split; [reflexivity|]. rewrite stacked_length. lia.
      * exists (build_stacked v n). cbn [lget]. rewrite R. rewrite stacked_length. auto.
  - split; [exact E'|]. split.
    + intros k st Q. cbn [lget]. destruct (lkey_eqb k key) eqn:K; [|exists st; auto]. apply lkey_eqb_spec in K. subst k. congruence.
    + exists (build_stacked v n). cbn [lget]. rewrite R. rewrite stacked_length. auto.
Qed.
Lemma merge_spec hist sym interval lags columns : forall c c' r, entry hist c ->
  merge_arrays c sym interval columns lags (fun col => hist (mk_lkey sym col interval)) = (c', r) ->
  entry hist c' /\ deeper c c' /\
  (r = Ok tt -> forall col, In col columns -> exists st, lget (mk_lkey sym col interval) c' = Some st /\ S lags <= length st) /\
  ((forall col, In col columns -> hist (mk_lkey sym col interval) <> None) -> r = Ok tt).
Proof.
  induction columns as [|col cols IH]; intros c c' r E M; cbn [merge_arrays] in M.
  - inversion M; subst. split; [exact E|]. split; [apply deeper_refl|]. split; [intros _ col []|auto].
  - destruct (hist (mk_lkey sym col interval)) as [v|] eqn:H.
    + destruct (store_spec hist c (mk_lkey sym col interval) v lags E H) as (E1 & D1 & st & G1 & L1).
      destruct (IH _ _ _ E1 M) as (E2 & D2 & A2 & O2). split; [exact E2|]. split; [exact (deeper_trans _ _ _ D1 D2)|]. split.
      * intros R x [<-|I]; [|exact (A2 R x I)]. destruct (D2 _ _ G1) as (st' & G' & L'). exists st'. split; [exact G'|lia].
      * intros N. apply O2. intros x I. apply N. right. exact I.
    + inversion M; subst. split; [exact E|]. split; [apply deeper_refl|]. split; [discriminate|].
      intros N. destruct (N col (or_introl eq_refl) H).
Qed.
Lemma built_entry hist c : built hist c -> entry hist c.
Proof. induction 1 as [|c c' sym interval columns lags r B IH M]; [intros k st; discriminate|]. exact (proj1 (merge_spec hist _ _ _ _ _ _ _ IH M)). Qed.

(** One symbol's matrix. *)
Lemma dates_eqb_spec a : forall b, dates_eqb a b = true <-> a = b.
Proof.
  induction a as [|x a IH]; intros [|y b]; cbn [dates_eqb]; try (split; [discriminate|congruence]); [tauto|].
  rewrite andb_true_iff, Z.eqb_eq, IH. split; [intros [-> ->]; reflexivity|intros E; inversion E; auto].
Qed.
Lemma offset_ok hd rd o : history_date_offset hd rd = Ok o -> rd <> [] ->
  forall r d, nth_error rd r = Some d -> nth_error hd (o + r) = Some d.
Proof.
  intros E N r d G. destruct rd as [|first rest]; [congruence|]. unfold history_date_offset in E. cbv zeta in E.
  set (o' := searchsorted hd first) in *. destruct (_ <? _); [discriminate|].
  destruct (dates_eqb _ _) eqn:Q; [|discriminate]. inversion E; subst o. apply dates_eqb_spec in Q. rewrite <- Q in G.
  pose proof (nth_some_lt _ _ _ G) as L. rewrite firstn_length in L. rewrite nth_error_firstn' in G by lia. rewrite nth_error_skipn' in G. exact G.
Qed.
Lemma concat_nth {A} n (b : list (list A)) : (forall x, In x b -> length x = n) -> forall ci k x, k < n -> nth_error b ci = Some x ->
  nth_error (concat b) (ci * n + k) = nth_error x k.
Proof.
  induction b as [|y b IH]; intros H ci k x K E; [destruct ci; discriminate|]. cbn [concat].
  pose proof (H y (or_introl eq_refl)) as Ly. destruct ci as [|ci]; cbn in E.
  - inversion E; subst y. cbn [Nat.mul Nat.add]. rewrite nth_error_app1 by lia. reflexivity.
  - rewrite nth_error_app2 by (rewrite Ly; lia). replace (S ci * n + k - length y) with (ci * n + k) by (rewrite Ly; lia).
    apply IH; auto. intros z I. apply H. right. exact I.
Qed.
Lemma concat_len {A} n (b : list (list A)) : (forall x, In x b -> length x = n) -> length (concat b) = length b * n.
Proof. induction b as [|y b IH]; intros H; [reflexivity|]. cbn [concat length]. rewrite app_length, (H y (or_introl eq_refl)), IH; [lia|]. intros z I. apply H. right. exact I. Qed.
Lemma Forall2_in_r {A B} (R : A -> B -> Prop) l m : Forall2 R l m -> forall y, In y m -> exists x, In x l /\ R x y.
Proof. induction 1 as [|a b l m H F IH]; intros y I; [destruct I|]. destruct I as [<-|I]; [exists a; cbn; auto|]. destruct (IH y I) as (x & I' & Hx). exists x. cbn. auto. Qed.

Lemma matrix_rows hist c sym interval columns lags rd hd m : entry hist c ->
  build_matrix sym interval columns lags rd hd c = Ok m ->
  lag_rows hd (fun col => hist (mk_lkey sym col interval)) columns lags rd m.
Proof.
  intros E B. unfold build_matrix in B. destruct rd as [|d0 rd'] eqn:Erd; [inversion B; constructor|].
  assert (rd <> []) as NE by (rewrite Erd; discriminate). rewrite <- Erd in *. clear d0 rd' Erd.
  destruct (history_date_offset hd rd) as [o|e] eqn:EO; cbn [bind] in B; [|discriminate].
  pose proof (offset_ok _ _ _ EO NE) as OFF.
  destruct (map_r _ columns) as [blocks|e] eqn:EB; cbn [bind] in B; [|discriminate].
  apply map_r_ok in EB, B. apply Forall2_intro; [apply Forall2_len in B; rewrite seq_length in B; exact B|].
  intros r d row Hd Hr. pose proof (nth_some_lt _ _ _ Hd) as Lr.
  destruct (Forall2_nth _ _ _ B r r (nth_error_seq _ _ Lr)) as (row' & Er & Hrow). rewrite Hr in Er. inversion Er; subst row'. clear Er.
  destruct (map_r _ blocks) as [parts|e] eqn:EP; cbn [bind] in Hrow; [|discriminate]. inversion Hrow; subst row. clear Hrow. apply map_r_ok in EP.
  assert (forall x, In x parts -> length x = S lags) as LP.
  { intros x I. destruct (Forall2_in_r _ _ _ EP x I) as (st & _ & Q). apply map_r_ok, Forall2_len in Q. rewrite seq_length in Q. auto. }
  split.
  - rewrite (concat_len (S lags)) by exact LP. apply Forall2_len in EP, EB. lia.
  - intros ci col k Hc Hk. destruct (Forall2_nth _ _ _ EB _ _ Hc) as (st & Hst & Q).
    destruct (Forall2_nth _ _ _ EP _ _ Hst) as (part & Hpart & QP).
    rewrite (concat_nth (S lags) parts LP ci k part) by (auto; lia).
    unfold checked_stacked in Q. destruct (lget _ c) as [st'|] eqn:G; [|discriminate].
    destruct (Nat.ltb_spec (length st') (lags + 1)); [discriminate|]. destruct (Nat.ltb_spec (length (nth 0 st' [])) (o + length rd)) as [|LL]; [discriminate|].
    inversion Q; subst st'. clear Q. destruct (E _ _ G) as (values & n & Hv & ->).
    rewrite stacked_length in *. assert (nth 0 (build_stacked values n) [] = shifted values 0) as Z0
      by (apply nth_error_nth; apply stacked_nth; lia). rewrite Z0, shifted_length in LL.
    apply map_r_ok in QP. destruct (Forall2_nth _ _ _ QP k k) as (x & Hx & Ex); [apply nth_error_seq; lia|].
    rewrite stacked_nth in Ex by lia. rewrite shifted_nth in Ex by lia.
    exists values, x. split; [exact Hv|]. split; [exact Hx|]. exists (o + r). split; [exact (OFF r d Hd)|]. split; intros HK.
    + rewrite (proj2 (Nat.leb_le _ _) HK) in Ex. destruct (nth_error values (o + r - k)); [|discriminate]. inversion Ex; reflexivity.
    + rewrite (proj2 (Nat.leb_gt _ _) HK) in Ex. inversion Ex; reflexivity.
Qed.

(** When the matrix is built. *)
Lemma searchsorted_app p x r : StronglySorted Z.lt (p ++ x :: r) -> searchsorted (p ++ x :: r) x = length p.
Proof.
  induction p as [|y p IH]; cbn [app searchsorted length]; intros HS.
  - rewrite (proj2 (Z.ltb_ge x x)) by lia. reflexivity.
  - inversion HS as [|? ? HS' F]; subst. rewrite Forall_forall in F.
    rewrite (proj2 (Z.ltb_lt y x)) by (apply F, in_or_app; right; left; reflexivity). rewrite IH by exact HS'. reflexivity.
Qed.
Lemma offset_defined p rd q : StronglySorted Z.lt (p ++ rd ++ q) -> rd <> [] -> history_date_offset (p ++ rd ++ q) rd = Ok (length p).
Proof.
  intros HS N. destruct rd as [|x r]; [congruence|]. unfold history_date_offset. cbv zeta. change ((x :: r) ++ q) with (x :: (r ++ q)) in *.
  rewrite searchsorted_app by exact HS. destruct (Nat.ltb_spec (length (p ++ x :: r ++ q)) (length p + length (x :: r))) as [L|L].
  - rewrite app_length in L. cbn [length] in L. rewrite app_length in L. lia.
  - rewrite skipn_app, skipn_all, Nat.sub_diag. cbn [skipn app]. change (x :: r ++ q) with ((x :: r) ++ q).
    rewrite firstn_app, firstn_all, Nat.sub_diag. cbn [firstn]. rewrite app_nil_r. rewrite (proj2 (dates_eqb_spec _ _) eq_refl). reflexivity.
Qed.
Lemma matrix_defined hist c sym interval columns lags p rd q : entry hist c -> StronglySorted Z.lt (p ++ rd ++ q) ->
  (forall col, In col columns -> exists v st, hist (mk_lkey sym col interval) = Some v /\ length v = length (p ++ rd ++ q)
     /\ lget (mk_lkey sym col interval) c = Some st /\ S lags <= length st) ->
  exists m, build_matrix sym interval columns lags rd (p ++ rd ++ q) c = Ok m.
Proof.
  intros E HS H. unfold build_matrix. destruct rd as [|d0 rd'] eqn:Erd; [eexists; reflexivity|].
  assert (rd <> []) as NE by (rewrite Erd; discriminate). rewrite <- Erd in *. clear d0 rd' Erd.
  rewrite offset_defined by assumption. cbn [bind].
  assert (exists blocks, map_r (fun col => checked_stacked c (mk_lkey sym col interval) lags (length p) (length rd)) columns = Ok blocks) as (blocks & EB).
  { apply map_r_all. intros col I. destruct (H col I) as (v & st & Hv & Lv & G & L). unfold checked_stacked. rewrite G.
    destruct (Nat.ltb_spec (length st) (lags + 1)); [lia|]. destruct (E _ _ G) as (v' & n & Hv' & ->). rewrite Hv in Hv'. inversion Hv'; subst v'.
    rewrite (nth_error_nth _ 0 [] (stacked_nth v n 0 ltac:(lia))), shifted_length, Lv.
    destruct (Nat.ltb_spec (length (p ++ rd ++ q)) (length p + length rd)) as [B|]; [rewrite !app_length in B; lia|]. eexists; reflexivity. }
  rewrite EB. cbn [bind]. apply map_r_ok in EB. apply map_r_all. intros r Ir. apply in_seq in Ir.
  assert (exists parts, map_r (fun st => fill_row lags st (length p + r)) blocks = Ok parts) as (parts & ->).
  { apply map_r_all. intros st I. destruct (Forall2_in_r _ _ _ EB st I) as (col & Ic & Q).
    destruct (H col Ic) as (v & st' & Hv & Lv & G & L). unfold checked_stacked in Q. rewrite G in Q.
    destruct (_ <? _); [discriminate|]. destruct (_ <? _); [discriminate|]. inversion Q; subst st'.
    destruct (E _ _ G) as (v' & n & Hv' & ->). rewrite Hv in Hv'. inversion Hv'; subst v'. rewrite stacked_length in L.
    apply map_r_all. intros k Ik. apply in_seq in Ik. rewrite stacked_nth by lia.
    destruct (nth_lt_some (shifted v k) (length p + r)) as (x & ->); [rewrite shifted_length, Lv, !app_length; lia|]. eexists; reflexivity. }
  eexists. reflexivity.
Qed.

(** Predictions. *)
Definition hist_of (h : history) (k : lkey) : option (list value) :=
  match l_interval k with None => h_column h (l_symbol k) (l_column k) | Some _ => None end.
Definition scope_inv (h : history) (s : lag_scope) : Prop :=
  entry (hist_of h) (s_cache s) /\ (forall sym d, dget sym (s_dates s) = Some d -> h_dates h sym = Some d) /\
  (forall sym col n, depth_get sym col (s_depth s) = Some n -> exists st, lget (mk_lkey sym col None) (s_cache s) = Some st /\ S n <= length st) /\
  (forall sym col n, depth_get sym col (s_depth s) = Some n -> dget sym (s_dates s) <> None).
Lemma depth_fold sym lags cols : forall d s c n,
  depth_get s c (fold_left (fun d col => ((sym, col), match depth_get sym col d with None => lags | Some n => max n lags end) :: d) cols d) = Some n ->
  depth_get s c d = Some n \/ (s = sym /\ In c cols /\ (n = lags \/ exists n0, depth_get s c d = Some n0 /\ n = max n0 lags)).
Proof.
  induction cols as [|col cols IH]; intros d s c n H; [left; exact H|]. cbn [fold_left] in H. apply IH in H. cbn [depth_get] in H.
  destruct (Nat.eqb_spec s sym) as [->|Ns]; cbn [andb] in H.
  - destruct (Nat.eqb_spec c col) as [->|Nc].
    + right. split; [reflexivity|]. split; [left; reflexivity|]. destruct H as [H|(_ & _ & [->|(n0 & H & ->)])].
      * destruct (depth_get sym col d) as [m|]; inversion H; eauto.
      * auto.
      * destruct (depth_get sym col d) as [m|]; inversion H; [|left; lia]. right. exists m. split; [reflexivity|lia].
    + destruct H as [H|(_ & I & H)]; [left; exact H|]. right. cbn [In]. auto.
  - destruct H as [H|(E & _)]; [left; exact H|congruence].
Qed.
Lemma depth_fold_ge sym lags cols : forall d c, (In c cols \/ shallower d sym lags c = false) ->
  shallower (fold_left (fun d col => ((sym, col), match depth_get sym col d with None => lags | Some n => max n lags end) :: d) cols d) sym lags c = false.
Proof.
  induction cols as [|col cols IH]; intros d c H; [destruct H as [[]|H]; exact H|]. cbn [fold_left]. apply IH.
  destruct (in_dec Nat.eq_dec c cols) as [I|NI]; [left; exact I|right]. unfold shallower. cbn [depth_get]. rewrite Nat.eqb_refl.
  destruct (Nat.eqb_spec c col) as [->|Nc]; cbn [andb].
  - apply Nat.ltb_ge. destruct (depth_get sym col d); lia.
  - destruct H as [[E|I]|H]; [congruence|contradiction|]. exact H.
Qed.
Lemma merge_cache_spec h sym columns lags s s' r : scope_inv h s -> dget sym (s_dates s) <> None ->
  merge_lag_cache h sym columns lags s = (s', r) ->
  scope_inv h s' /\ s_dates s' = s_dates s /\
  (r = Ok tt -> forall c, In c columns \/ shallower (s_depth s) sym lags c = false -> shallower (s_depth s') sym lags c = false) /\
  ((forall col, In col columns -> h_column h sym col <> None) -> r = Ok tt).
Proof.
  intros (I1 & I2 & I3 & I4) Hd M. unfold merge_lag_cache in M.
  destruct (existsb _ columns) eqn:X.
  - inversion M; subst. split; [repeat (split; [assumption|]); assumption|]. split; [reflexivity|]. split; [discriminate|].
    intros N. apply existsb_exists in X. destruct X as (col & Ic & Hc). destruct (h_column h sym col) eqn:E; [discriminate|]. destruct (N col Ic E).
  - destruct (merge_arrays _ _ _ _ _ _) as [c r0] eqn:E.
    change (h_column h sym) with (fun col => hist_of h (mk_lkey sym col None)) in E.
    destruct (merge_spec _ _ _ _ _ _ _ _ I1 E) as (E1 & D1 & A1 & O1).
    destruct r0 as [[]|e]; inversion M; subst s' r; clear M.
    + split; [|split; [reflexivity|split; [intros _ x Hx; apply depth_fold_ge; exact Hx|auto]]].
      split; [exact E1|]. split; [exact I2|]. cbn [s_cache s_dates s_depth]. split.
      * intros s0 c0 n H. apply depth_fold in H. destruct H as [H|(-> & Ic & [->|(n0 & H & ->)])].
        -- destruct (I3 _ _ _ H) as (st & G & L). destruct (D1 _ _ G) as (st' & G' & L'). exists st'. split; [exact G'|lia].
        -- apply A1; auto.
        -- destruct (I3 _ _ _ H) as (st & G & L). destruct (D1 _ _ G) as (st' & G' & L').
           destruct (A1 eq_refl _ Ic) as (st2 & G2 & L2). rewrite G' in G2. inversion G2; subst st2. exists st'. split; [exact G'|lia].
      * intros s0 c0 n H. apply depth_fold in H. destruct H as [H|(-> & _)]; [exact (I4 _ _ _ H)|exact Hd].
    + split; [|split; [reflexivity|split; [discriminate|]]].
      * split; [exact E1|]. split; [exact I2|]. split; [|exact I4]. intros s0 c0 n H. destruct (I3 _ _ _ H) as (st & G & L).
        destruct (D1 _ _ G) as (st' & G' & L'). exists st'. split; [exact G'|lia].
      * intros N. exact (O1 N).
Qed.
Lemma ensure_spec h sym cols lags s s' r : scope_inv h s -> ensure_lag_cache (Some h) sym cols lags s = (s', r) ->
  scope_inv h s' /\
  (r = Ok tt -> forall c, In c cols -> shallower (s_depth s') sym lags c = false) /\
  (h_dates h sym <> None -> (forall col, In col cols -> h_column h sym col <> None) -> r = Ok tt).
Proof.
  intros I E. unfold ensure_lag_cache in E. destruct (filter _ cols) as [|x missing] eqn:F.
  - inversion E; subst. split; [exact I|]. split; [|auto]. intros _ c Ic. destruct (shallower _ _ _ c) eqn:Sh; [|reflexivity].
    assert (In c []) by (rewrite <- F; apply filter_In; auto). contradiction.
  - set (ms := x :: missing) in *.
    assert (forall c d, In c cols -> (In c ms \/ shallower d sym lags c = false) \/ shallower (s_depth s) sym lags c = false) as Sp.
    { intros c d Ic. destruct (shallower (s_depth s) sym lags c) eqn:Sh; [|auto]. left. left. rewrite <- F. apply filter_In. auto. }
    assert (forall sx, scope_inv h sx -> s_depth sx = s_depth s -> dget sym (s_dates sx) <> None -> merge_lag_cache h sym ms lags sx = (s', r) ->
      scope_inv h s' /\ (r = Ok tt -> forall c, In c cols -> shallower (s_depth s') sym lags c = false) /\
      (h_dates h sym <> None -> (forall col, In col cols -> h_column h sym col <> None) -> r = Ok tt)) as Go.
    { intros sx Ix Dx Nx M. destruct (merge_cache_spec _ _ _ _ _ _ _ Ix Nx M) as (I' & _ & A & O). split; [exact I'|]. split.
      - intros Rr c Ic. apply (A Rr). rewrite Dx. destruct (Sp c (s_depth s) Ic) as [[H|H]|H]; auto.
      - intros _ N. apply O. intros col Ic. apply N. rewrite <- F in Ic. apply filter_In in Ic. tauto. }
    destruct (dget sym (s_dates s)) as [d|] eqn:Dg.
    + apply (Go s); auto. congruence.
    + destruct (h_dates h sym) as [dates|] eqn:Hh.
      * apply (Go (mk_lag_scope (s_cache s) ((sym, dates) :: s_dates s) (s_depth s))); auto.
        -- destruct I as (I1 & I2 & I3 & I4). split; [exact I1|]. cbn [s_cache s_dates s_depth dget]. split; [|split; [exact I3|]].
           ++ intros s0 d0. destruct (Nat.eqb_spec s0 sym) as [->|_]; [congruence|apply I2].
           ++ intros s0 c0 n H. destruct (s0 =? sym); [discriminate|exact (I4 _ _ _ H)].
        -- cbn [s_dates dget]. rewrite Nat.eqb_refl. discriminate.
      * inversion E; subst. split; [exact I|]. split; [discriminate|]. intros N. congruence.
Qed.
Lemma lag_features_inv h sym cols lags rd s s' r : scope_inv h s -> lag_features (Some h) sym cols lags rd s = (s', r) -> scope_inv h s'.
Proof.
  intros I E. unfold lag_features in E. destruct (ensure_lag_cache _ _ _ _ _) as [s1 [[]|e]] eqn:En; destruct (ensure_spec _ _ _ _ _ _ _ I En) as (I1 & _).
  - destruct (dget sym (s_dates s1)); inversion E; subst; exact I1.
  - inversion E; subst; exact I1.
Qed.
Lemma scope_of_inv h s : scope_of h s -> scope_inv h s.
Proof.
  induction 1 as [|s s' sym cols lags rd r B IH E]; [|exact (lag_features_inv _ _ _ _ _ _ _ _ IH E)].
  split; [intros k st; discriminate|]. split; [intros ? ?; discriminate|]. split; intros ? ? ?; discriminate.
Qed.
Lemma lag_features_rows h sym cols lags rd s s' rows : scope_inv h s -> lag_features (Some h) sym cols lags rd s = (s', Ok rows) ->
  exists dates, h_dates h sym = Some dates /\ lag_rows dates (h_column h sym) cols lags rd rows.
Proof.
  intros I E. unfold lag_features in E. destruct (ensure_lag_cache _ _ _ _ _) as [s1 [[]|e]] eqn:En; [|discriminate].
  destruct (ensure_spec _ _ _ _ _ _ _ I En) as ((I1 & I2 & I3 & I4) & A & _).
  destruct (dget sym (s_dates s1)) as [dates|] eqn:D; [|discriminate]. inversion E as [[Es B]]. rewrite <- Es in B. exists dates. split; [exact (I2 _ _ D)|].
  exact (matrix_rows _ _ _ _ _ _ _ _ _ I1 B).
Qed.
Lemma lag_features_defined h sym cols lags p rd q s : scope_inv h s -> history_ok h -> cols <> [] ->
  h_dates h sym = Some (p ++ rd ++ q) -> (forall col, In col cols -> h_column h sym col <> None) ->
  exists s' rows, lag_features (Some h) sym cols lags rd s = (s', Ok rows).
Proof.
  intros I HO NE Hd Hc. unfold lag_features. destruct (ensure_lag_cache _ _ _ _ _) as [s1 r] eqn:En.
  destruct (ensure_spec _ _ _ _ _ _ _ I En) as ((I1 & I2 & I3 & I4) & A & O). rewrite O in * by (auto; congruence).
  assert (forall c, In c cols -> exists n, depth_get sym c (s_depth s1) = Some n /\ lags <= n) as Dp.
  { intros c Ic. pose proof (A eq_refl c Ic) as Sh. unfold shallower in Sh. destruct (depth_get _ _ _) as [n|]; [|discriminate].
    apply Nat.ltb_ge in Sh. eauto. }
  destruct (dget sym (s_dates s1)) as [dates|] eqn:D.
  - rewrite (I2 _ _ D) in Hd. inversion Hd; subst dates. destruct (HO _ _ (I2 _ _ D)) as (Hs & Hl).
    destruct (matrix_defined (hist_of h) (s_cache s1) sym None cols lags p rd q I1 Hs) as (m & ->).
    + intros col Ic. destruct (h_column h sym col) as [v|] eqn:Hv; [|destruct (Hc col Ic Hv)].
      destruct (Dp col Ic) as (n & Hn & Ln). destruct (I3 _ _ _ Hn) as (st & G & L). exists v, st. split; [exact Hv|]. split; [exact (Hl _ _ Hv)|]. split; [exact G|lia].
    + eauto.
  - destruct cols as [|c cols]; [congruence|]. destruct (Dp c (or_introl eq_refl)) as (n & Hn & _). destruct (I4 _ _ _ Hn D).
Qed.

(** Training. *)
Definition train_inv (h : history) (c : lcache) (d : dates_cache) : Prop :=
  entry (hist_of h) c /\ forall sym dates, dget sym d = Some dates -> h_dates h sym = Some dates.
Lemma merge_store_spec h columns lags symbols : forall c d c' d' r, train_inv h c d -> merge_store c d h symbols columns lags = ((c', d'), r) ->
  train_inv h c' d' /\ deeper c c' /\ (forall s, dget s d <> None -> dget s d' <> None) /\
  (r = Ok tt -> forall sym dates, In sym symbols -> h_dates h sym = Some dates -> dates <> [] -> dget sym d' = Some dates /\
     forall col, In col columns -> exists st, lget (mk_lkey sym col None) c' = Some st /\ S lags <= length st) /\
  ((forall sym col, In sym symbols -> In col columns -> h_column h sym col <> None) -> r = Ok tt).
Proof.
  induction symbols as [|sym symbols IH]; intros c d c' d' r (I1 & I2) M; cbn [merge_store] in M.
  - inversion M; subst. split; [split; assumption|]. split; [apply deeper_refl|]. split; [auto|]. split; [intros _ ? ? []|auto].
  - assert (forall c d, train_inv h c d -> merge_store c d h symbols columns lags = (c', d', r) -> (h_dates h sym = None \/ h_dates h sym = Some []) ->
      train_inv h c' d' /\ deeper c c' /\ (forall s, dget s d <> None -> dget s d' <> None) /\
      (r = Ok tt -> forall sym0 dates, In sym0 (sym :: symbols) -> h_dates h sym0 = Some dates -> dates <> [] -> dget sym0 d' = Some dates /\
       forall col, In col columns -> exists st, lget (mk_lkey sym0 col None) c' = Some st /\ S lags <= length st) /\
      ((forall sym0 col, In sym0 (sym :: symbols) -> In col columns -> h_column h sym0 col <> None) -> r = Ok tt)) as Skip.
    { intros c0 d0 I0 M0 Hd. destruct (IH _ _ _ _ _ I0 M0) as (J1 & J2 & J3 & J4 & J5). split; [exact J1|]. split; [exact J2|]. split; [exact J3|]. split.
      - intros Rr s dates [<-|Is]; [|exact (J4 Rr s dates Is)]. intros Hx Nx. destruct Hd; congruence.
      - intros N. apply J5. intros s col Is. apply N. right. exact Is. }
    destruct (h_dates h sym) as [[|d0 ds]|] eqn:Hd; [apply (Skip c d (conj I1 I2) M); auto| |apply (Skip c d (conj I1 I2) M); auto]. clear Skip.
    set (dates := d0 :: ds) in *. destruct (merge_arrays _ _ _ _ _ _) as [c1 r1] eqn:E.
    change (h_column h sym) with (fun col => hist_of h (mk_lkey sym col None)) in E.
    destruct (merge_spec _ _ _ _ _ _ _ _ I1 E) as (E1 & D1 & A1 & O1).
    assert (train_inv h c1 ((sym, dates) :: d)) as I'.
    { split; [exact E1|]. intros s x. cbn [dget]. destruct (Nat.eqb_spec s sym) as [->|_]; [congruence|apply I2]. }
    destruct r1 as [[]|e].
    + destruct (IH _ _ _ _ _ I' M) as (J1 & J2 & J3 & J4 & J5). split; [exact J1|]. split; [exact (deeper_trans _ _ _ D1 J2)|]. split; [|split].
      * intros s Hs. apply J3. cbn [dget]. destruct (s =? sym); [discriminate|exact Hs].
      * intros Rr s x [<-|Is]; [|exact (J4 Rr s x Is)]. intros Hx Nx. rewrite Hd in Hx. inversion Hx; subst x. split.
        -- pose proof (J3 sym) as Q. cbn [dget] in Q. rewrite Nat.eqb_refl in Q. destruct (dget sym d') as [y|] eqn:G; [|destruct (Q ltac:(discriminate) eq_refl)].
           rewrite (proj2 J1 _ _ G) in Hd. congruence.
        -- intros col Ic. destruct (A1 eq_refl col Ic) as (st & G & L). destruct (J2 _ _ G) as (st' & G' & L'). exists st'. split; [exact G'|lia].
      * intros N. apply J5. intros s col Is. apply N. right. exact Is.
    + inversion M; subst. split; [exact I'|]. split; [exact D1|]. split; [|split; [discriminate|]].
      * intros s Hs. cbn [dget]. destruct (s =? sym); [discriminate|exact Hs].
      * intros N. rewrite <- O1; [reflexivity|]. intros col Ic. apply N; [left; reflexivity|exact Ic].
Qed.
Lemma trained_inv h c d : trained_of h c d -> train_inv h c d.
Proof.
  induction 1 as [|c d c' d' symbols columns lags r T IH M]; [split; [intros k st; discriminate|intros ? ?; discriminate]|].
  exact (proj1 (merge_store_spec _ _ _ _ _ _ _ _ _ IH M)).
Qed.

(** Pooled matrices. *)
Lemma set_nth_length {A} (x : A) l : forall i, length (set_nth i x l) = length l.
Proof. induction l as [|y l IH]; intros [|i]; cbn; try reflexivity. f_equal. apply IH. Qed.
Lemma set_nth_same {A} (x : A) l : forall i, i < length l -> nth_error (set_nth i x l) i = Some x.
Proof. induction l as [|y l IH]; intros [|i] H; cbn in *; try lia; [reflexivity|]. apply IH. lia. Qed.
Lemma set_nth_other {A} (x : A) l : forall i j, i <> j -> nth_error (set_nth i x l) j = nth_error l j.
Proof. induction l as [|y l IH]; intros [|i] [|j] H; cbn; try reflexivity; try lia. apply IH. lia. Qed.
Lemma scatter_length {A} idx : forall (m : list (option A)) rows, length (scatter m idx rows) = length m.
Proof. induction idx as [|i idx IH]; intros m [|x rows]; cbn; try reflexivity. rewrite IH. apply set_nth_length. Qed.
Lemma scatter_other {A} idx : forall (m : list (option A)) rows j, ~ In j idx -> nth_error (scatter m idx rows) j = nth_error m j.
Proof.
  induction idx as [|i idx IH]; intros m [|x rows] j N; cbn [scatter]; try reflexivity. rewrite IH by (intros I; apply N; right; exact I).
  apply set_nth_other. intros ->. apply N. left. reflexivity.
Qed.
Lemma scatter_in {A} idx : forall (m : list (option A)) rows p j x, NoDup idx -> nth_error idx p = Some j -> nth_error rows p = Some x -> j < length m ->
  nth_error (scatter m idx rows) j = Some (Some x).
Proof.
  induction idx as [|i idx IH]; intros m rows p j x ND Hp Hx L; [destruct p; discriminate|]. inversion ND as [|? ? NI ND']; subst.
  destruct rows as [|y rows]; [destruct p; discriminate|]. cbn [scatter]. destruct p as [|p]; cbn in Hp, Hx.
  - inversion Hp; inversion Hx; subst. rewrite scatter_other by exact NI. apply set_nth_same. exact L.
  - apply (IH _ rows p); auto. rewrite set_nth_length. exact L.
Qed.
Definition positions_from (b sym : nat) (l : list nat) : list nat := map fst (filter (fun p => snd p =? sym) (combine (seq b (length l)) l)).
Lemma positions_from_in sym l : forall b j, In j (positions_from b sym l) <-> b <= j /\ nth_error l (j - b) = Some sym.
Proof.
  unfold positions_from. induction l as [|x l IH]; intros b j; cbn [length seq combine filter map In snd fst].
  - split; [intros []|intros (_ & H); destruct (j - b); discriminate].
  - assert (In j (map fst (filter (fun p : nat * nat => snd p =? sym) (combine (seq (S b) (length l)) l))) <-> S b <= j /\ nth_error l (j - S b) = Some sym) as Q by apply IH.
    assert (S b <= j -> nth_error (x :: l) (j - b) = nth_error l (j - S b)) as Sh by (intros H; replace (j - b) with (S (j - S b)) by lia; reflexivity).
    destruct (Nat.eqb_spec x sym) as [->|Nx]; cbn [map In fst]; rewrite Q; clear Q IH; split.
    + intros [<-|(H & G)]; [rewrite Nat.sub_diag; auto|]. rewrite Sh by exact H. split; [lia|exact G].
    + intros (H & G). destruct (Nat.eq_dec b j) as [->|]; [left; reflexivity|right]. rewrite Sh in G by lia. split; [lia|exact G].
    + intros (H & G). rewrite Sh by exact H. split; [lia|exact G].
    + intros (H & G). destruct (Nat.eq_dec b j) as [->|]; [rewrite Nat.sub_diag in G; cbn in G; congruence|]. rewrite Sh in G by lia. split; [lia|exact G].
Qed.
Lemma positions_in sym l j : In j (positions sym l) <-> nth_error l j = Some sym.
Proof. change (positions sym l) with (positions_from 0 sym l). rewrite positions_from_in, Nat.sub_0_r. split; [tauto|intros; split; [lia|assumption]]. Qed.
Lemma positions_sorted sym l : forall b, StronglySorted lt (positions_from b sym l).
Proof.
  induction l as [|x l IH]; intros b; [constructor|]. unfold positions_from. cbn [length seq combine filter snd].
  destruct (x =? sym); cbn [map fst]; [|apply IH]. constructor; [apply IH|]. apply Forall_forall. intros j Ij.
  apply (positions_from_in sym l (S b) j) in Ij. lia.
Qed.
Lemma sorted_nodup l : StronglySorted lt l -> NoDup l.
Proof. induction 1 as [|x l HS IH F]; constructor; auto. intros I. rewrite Forall_forall in F. specialize (F x I). lia. Qed.
Lemma insert_u_in x l y : In y (insert_u x l) <-> y = x \/ In y l.
Proof.
  induction l as [|z l IH]; cbn [insert_u]; [cbn; intuition|]. destruct (x <? z); [cbn; intuition|]. destruct (Nat.eqb_spec x z) as [->|]; [cbn; intuition|].
  cbn [In]. rewrite IH. intuition.
Qed.
Lemma unique_in l y : In y (unique l) <-> In y l.
Proof. unfold unique. induction l as [|x l IH]; [tauto|]. cbn [fold_right]. rewrite insert_u_in, IH. cbn. intuition. Qed.
Lemma mem_in x l : mem x l = true <-> In x l.
Proof. unfold mem. rewrite existsb_exists. split; [intros (y & I & E); apply Nat.eqb_eq in E; subst; exact I|intros I; exists x; rewrite Nat.eqb_refl; auto]. Qed.

Lemma pooled_loop_spec hist sym_col columns lags rd dates c symbols interval : entry hist c -> forall syms m m',
  length m = length sym_col -> pooled_loop syms sym_col columns lags rd dates c symbols interval m = Ok m' ->
  length m' = length m /\ forall i sym, nth_error sym_col i = Some sym ->
    (In sym syms /\ In sym symbols -> exists hd d row, dget sym dates = Some hd /\ nth_error rd i = Some d /\ nth_error m' i = Some (Some row) /\
       lag_row hd (fun col => hist (mk_lkey sym col interval)) columns lags d row) /\
    (~ (In sym syms /\ In sym symbols) -> nth_error m' i = nth_error m i).
Proof.
  intros E. induction syms as [|s syms IH]; intros m m' Lm P; cbn [pooled_loop] in P.
  - inversion P; subst. split; [reflexivity|]. intros i sym Hi. split; [intros ([] & _)|auto].
  - destruct (mem s symbols) eqn:Ms.
    + apply mem_in in Ms. destruct (gather rd (positions s sym_col)) as [sd|e] eqn:G; cbn [bind] in P; [|discriminate].
      destruct (dget s dates) as [hd|] eqn:D; [|discriminate]. destruct (build_matrix _ _ _ _ _ _ _) as [rows|e] eqn:B; cbn [bind] in P; [|discriminate].
      apply IH in P; [|rewrite scatter_length; exact Lm]. rewrite scatter_length in P. destruct P as (L & P). split; [exact L|].
      intros i sym Hi. destruct (P i sym Hi) as (P1 & P2). split.
      * intros (I1 & I2). destruct (in_dec Nat.eq_dec sym syms) as [I|NI]; [exact (P1 (conj I I2))|]. destruct I1 as [<-|I1]; [|contradiction].
        pose proof (proj2 (positions_in s sym_col i) Hi) as Ip. apply In_nth_error in Ip. destruct Ip as (p & Hp).
        apply map_r_ok in G. destruct (Forall2_nth _ _ _ G p i Hp) as (d & Hd & Ed). destruct (nth_error rd i) as [d'|] eqn:Er; [|discriminate]. inversion Ed; subst d'.
        apply (matrix_rows hist) in B; [|exact E]. destruct (Forall2_nth _ _ _ B p d Hd) as (row & Hrow & LR).
        exists hd, d, row. split; [exact D|]. split; [reflexivity|]. split; [|exact LR]. rewrite P2 by tauto.
        apply (scatter_in _ m rows p); auto; [apply sorted_nodup; exact (positions_sorted s sym_col 0)|].
        rewrite Lm. apply nth_some_lt in Hi. exact Hi.
      * intros N. rewrite P2 by (intros (A & B'); apply N; split; [right; exact A|exact B']). apply scatter_other. intros Ip. apply positions_in in Ip.
        rewrite Hi in Ip. inversion Ip; subst. apply N. split; [left; reflexivity|exact Ms].
    + destruct (IH m m' Lm P) as (L & P'). split; [exact L|]. intros i sym Hi. destruct (P' i sym Hi) as (P1 & P2). split.
      * intros ([<-|I1] & I2); [|exact (P1 (conj I1 I2))]. apply mem_in in I2. congruence.
      * intros N. apply P2. intros (A & B'). apply N. split; [right; exact A|exact B'].
Qed.
Lemma pooled_defined hist sym_col columns lags rd dates c symbols interval : entry hist c -> length sym_col = length rd ->
  (forall sym, In sym sym_col -> In sym symbols -> exists p sd q, dget sym dates = Some (p ++ sd ++ q) /\ StronglySorted Z.lt (p ++ sd ++ q) /\
     gather rd (positions sym sym_col) = Ok sd /\
     (forall col, In col columns -> exists v st, hist (mk_lkey sym col interval) = Some v /\ length v = length (p ++ sd ++ q)
     /\ lget (mk_lkey sym col interval) c = Some st /\ S lags <= length st)) ->
  exists m, build_matrix_pooled sym_col columns lags rd dates c symbols interval = Ok m.
Proof.
  intros E L H. unfold build_matrix_pooled.
  assert (forall syms m, (forall s, In s syms -> In s sym_col) -> exists m', pooled_loop syms sym_col columns lags rd dates c symbols interval m = Ok m') as Go.
  { induction syms as [|s syms IH]; intros m Sub; cbn [pooled_loop]; [eauto|]. destruct (mem s symbols) eqn:Ms; [|apply IH; intros x I; apply Sub; right; exact I].
    apply mem_in in Ms. destruct (H s (Sub s (or_introl eq_refl)) Ms) as (p & sd & q & D & HS & G & Hc). rewrite G. cbn [bind]. rewrite D.
    destruct (matrix_defined hist c s interval columns lags p sd q E HS Hc) as (rows & ->). cbn [bind]. apply IH. intros x I. apply Sub. right. exact I. }
  apply Go. intros s I. apply unique_in. exact I.
Qed.

(** Rows only depend on the past. *)
Lemma sorted_nth_lt l : StronglySorted Z.lt l -> forall i j a b, i < j -> nth_error l i = Some a -> nth_error l j = Some b -> (a < b)%Z.
Proof.
  induction 1 as [|x l HS IH F]; intros i j a b L Ha Hb; [destruct i; discriminate|]. rewrite Forall_forall in F.
  destruct j as [|j]; [lia|]. cbn in Hb. destruct i as [|i]; cbn in Ha.
  - inversion Ha; subst. apply F. exact (nth_error_In _ _ Hb).
  - apply (IH i j); auto. lia.
Qed.
Lemma sorted_nth_inj l i j a : StronglySorted Z.lt l -> nth_error l i = Some a -> nth_error l j = Some a -> i = j.
Proof.
  intros HS Hi Hj. destruct (Nat.lt_trichotomy i j) as [L|[E|L]]; [|exact E|].
  - pose proof (sorted_nth_lt _ HS _ _ _ _ L Hi Hj). lia.
  - pose proof (sorted_nth_lt _ HS _ _ _ _ L Hj Hi). lia.
Qed.
Lemma nth_error_ext' {A} (l : list A) : forall m, length l = length m -> (forall i, i < length l -> nth_error l i = nth_error m i) -> l = m.
Proof.
  induction l as [|x l IH]; intros [|y m] L H; try discriminate L; [reflexivity|].
  pose proof (H 0 ltac:(cbn; lia)) as H0. cbn in H0. inversion H0; subst. f_equal. apply IH; [cbn in L; lia|]. intros i Li. apply (H (S i)). cbn. lia.
Qed.
Lemma lag_row_agree dates s1 s2 cols lags d r1 r2 : StronglySorted Z.lt dates ->
  (forall col v1 v2 i t, In col cols -> s1 col = Some v1 -> s2 col = Some v2 -> nth_error dates i = Some t -> (t <= d)%Z -> nth_error v1 i = nth_error v2 i) ->
  lag_row dates s1 cols lags d r1 -> lag_row dates s2 cols lags d r2 -> r1 = r2.
Proof.
  intros HS A (L1 & H1) (L2 & H2). apply nth_error_ext'; [congruence|]. intros j Lj. rewrite L1 in Lj.
  set (ci := j / S lags). set (k := j mod S lags). assert (j = ci * S lags + k) as Ej by (unfold ci, k; pose proof (Nat.div_mod j (S lags) ltac:(lia)); lia).
  assert (k <= lags) as Hk by (unfold k; pose proof (Nat.mod_upper_bound j (S lags) ltac:(lia)); lia).
  assert (ci < length cols) as Hci by (apply Nat.div_lt_upper_bound; lia).
  destruct (nth_lt_some _ _ Hci) as (col & Hc). destruct (H1 ci col k Hc Hk) as (v1 & x1 & S1 & N1 & i1 & D1 & A1 & B1).
  destruct (H2 ci col k Hc Hk) as (v2 & x2 & S2 & N2 & i2 & D2 & A2 & B2). rewrite Ej, N1, N2.
  rewrite (sorted_nth_inj _ _ _ _ HS D2 D1) in *. destruct (Nat.le_gt_cases k i1) as [K|K].
  - pose proof (nth_some_lt _ _ _ D1) as Li. destruct (nth_lt_some dates (i1 - k) ltac:(lia)) as (t & Ht).
    rewrite <- (A1 K), <- (A2 K). apply (A col v1 v2 (i1 - k) t); auto; [exact (nth_error_In _ _ Hc)|].
    destruct (Nat.eq_dec k 0) as [->|]; [rewrite Nat.sub_0_r in Ht; assert (t = d) by congruence; lia|].
    assert (i1 - k < i1) as Lt by lia. pose proof (sorted_nth_lt _ HS (i1 - k) i1 t d Lt Ht D1). lia.
  - rewrite (B1 K), (B2 K). reflexivity.
Qed.

(** Which rows are complete. *)
Lemma in_nth_none row : ~ In (None : value) row <-> forall j x, nth_error row j = Some x -> x <> None.
Proof. split; [intros N j x E ->; exact (N (nth_error_In _ _ E))|intros H I; apply In_nth_error in I; destruct I as (j & Hj); exact (H j None Hj eq_refl)]. Qed.
Lemma lag_row_complete dates series cols lags d row i : StronglySorted Z.lt dates -> cols <> [] -> nth_error dates i = Some d ->
  (forall col v, In col cols -> series col = Some v -> ~ In None v) ->
  lag_row dates series cols lags d row -> (~ In None row <-> lags <= i).
Proof.
  intros HS NE Hd NN (L & H). rewrite in_nth_none. split.
  - intros C. destruct cols as [|col cols]; [congruence|]. destruct (Nat.le_gt_cases lags i) as [K|K]; [exact K|].
    destruct (H 0 col lags eq_refl (le_n _)) as (v & x & _ & Hx & i' & D & _ & B). rewrite (sorted_nth_inj _ _ _ _ HS D Hd) in *.
    destruct (C _ _ Hx (B K)).
  - intros K j x Hx. pose proof (nth_some_lt _ _ _ Hx) as Lj. rewrite L in Lj.
    set (ci := j / S lags). set (k := j mod S lags). assert (j = ci * S lags + k) as Ej by (unfold ci, k; pose proof (Nat.div_mod j (S lags) ltac:(lia)); lia).
    assert (k <= lags) as Hk by (unfold k; pose proof (Nat.mod_upper_bound j (S lags) ltac:(lia)); lia).
    assert (ci < length cols) as Hci by (apply Nat.div_lt_upper_bound; lia).
    destruct (nth_lt_some _ _ Hci) as (col & Hc). destruct (H ci col k Hc Hk) as (v & y & Sv & Hy & i' & D & A & _).
    rewrite <- Ej, Hx in Hy. inversion Hy; subst y. rewrite (sorted_nth_inj _ _ _ _ HS D Hd) in *.
    intros ->. apply (NN col v (nth_error_In _ _ Hc) Sv). exact (nth_error_In _ _ (A ltac:(lia))).
Qed.

(** The warm-up mask. *)
Lemma argmax_first l : any l = true -> exists r, l = repeat false (argmax l) ++ true :: r.
Proof.
  unfold any. induction l as [|b l IH]; [discriminate|]. destruct b; cbn [argmax repeat app]; [eauto|]. cbn [existsb orb]. intros H.
  destruct (IH H) as (r & E). exists r. rewrite <- E. reflexivity.
Qed.
Lemma repeat_nth {A} (x : A) n i : nth_error (repeat x n) i = if i <? n then Some x else None.
Proof. destruct (Nat.ltb_spec i n); [apply nth_error_repeat'; assumption|]. apply nth_error_None. rewrite repeat_length. lia. Qed.
Lemma block_mask_spec valid s e : s <= e <= length valid ->
  length (block_mask valid (s, e)) = e - s /\
  forall j, s <= j < e -> exists b, nth_error (block_mask valid (s, e)) (j - s) = Some b /\
    (b = true <-> exists i, s <= i <= j /\ nth_error valid i = Some true).
Proof.
  intros H. unfold block_mask. cbn [fst snd]. set (block := firstn (e - s) (skipn s valid)).
  assert (length block = e - s) as Lb by (unfold block; rewrite firstn_length, skipn_length; lia).
  assert (forall i, i < e - s -> nth_error block i = nth_error valid (s + i)) as Nb.
  { intros i Hi. unfold block. rewrite nth_error_firstn' by exact Hi. apply nth_error_skipn'. }
  destruct (any block) eqn:A.
  - destruct (argmax_first block A) as (r & E). set (a := argmax block) in *.
    assert (a < length block) as La by (rewrite E, app_length, repeat_length; cbn; lia).
    split; [rewrite app_length, !repeat_length; lia|]. intros j Hj.
    exists (a <=? j - s). split.
    + destruct (Nat.leb_spec a (j - s)).
      * rewrite nth_error_app2 by (rewrite repeat_length; lia). rewrite repeat_length. apply nth_error_repeat'. lia.
      * rewrite nth_error_app1 by (rewrite repeat_length; lia). apply nth_error_repeat'. lia.
    + rewrite Nat.leb_le. split.
      * intros Ha. exists (s + a). split; [lia|]. rewrite <- Nb by lia. rewrite E, nth_error_app2 by (rewrite repeat_length; lia).
        rewrite repeat_length, Nat.sub_diag. reflexivity.
      * intros (i & Hi & Hv). destruct (Nat.le_gt_cases a (j - s)) as [|G]; [assumption|]. exfalso.
        replace i with (s + (i - s)) in Hv by lia. rewrite <- Nb in Hv by lia. rewrite E, nth_error_app1 in Hv by (rewrite repeat_length; lia).
        rewrite nth_error_repeat' in Hv by lia. discriminate.
  - split; [rewrite repeat_length; exact Lb|]. intros j Hj. exists false. split; [apply nth_error_repeat'; lia|]. split; [discriminate|].
    intros (i & Hi & Hv). exfalso. replace i with (s + (i - s)) in Hv by lia. rewrite <- Nb in Hv by lia. apply nth_error_In in Hv.
    unfold any in A. assert (existsb (fun b => b) block = true) as Q by (apply existsb_exists; eauto). congruence.
Qed.
Lemma changes_cons i x y l : changes i (x :: y :: l) = if x =? y then changes (S i) (y :: l) else S i :: changes (S i) (y :: l).
Proof. reflexivity. Qed.
Lemma flat_map_cons {A B} (f : A -> list B) x l : flat_map f (x :: l) = f x ++ flat_map f l.
Proof. reflexivity. Qed.
Definition runs_between (symbols : list nat) (s : nat) (valid : list bool) (j : nat) : Prop :=
  exists i, s <= i <= j /\ nth_error valid i = Some true /\ forall k, i <= k <= j -> nth_error symbols k = nth_error symbols i.
Lemma mask_spec valid symbols : length valid = length symbols -> forall l x i s, skipn i symbols = x :: l -> s <= i ->
  (forall k, s <= k <= i -> nth_error symbols k = Some x) ->
  let mask := flat_map (block_mask valid) (pairs (s :: changes i (x :: l) ++ [length symbols])) in
  length mask = length symbols - s /\
  forall j, s <= j < length symbols -> exists b, nth_error mask (j - s) = Some b /\ (b = true <-> runs_between symbols s valid j).
Proof.
  intros LV. cbv zeta. induction l as [|y l IH]; intros x i s Hsk Hs Hrun.
  - assert (length symbols = S i) as Ln by (pose proof (skipn_length i symbols) as Q; rewrite Hsk in Q; cbn in Q; lia).
    cbn [changes app pairs flat_map]. rewrite app_nil_r.
    destruct (block_mask_spec valid s (length symbols) ltac:(lia)) as (L & H). split; [exact L|]. intros j Hj.
    destruct (H j Hj) as (b & Hb & E). exists b. split; [exact Hb|]. rewrite E. split.
    + intros (k & Hk & Hv). exists k. split; [exact Hk|]. split; [exact Hv|]. intros k' Hk'. rewrite !Hrun by lia. reflexivity.
    + intros (k & Hk & Hv & _). eauto.
  - assert (skipn (S i) symbols = y :: l) as Hsk'.
    { change (S i) with (1 + i). rewrite <- (firstn_skipn i symbols) at 1. rewrite skipn_app.
      assert (length (firstn i symbols) = i) as Lf. { rewrite firstn_length. pose proof (skipn_length i symbols) as Q. rewrite Hsk in Q. cbn in Q. lia. }
      rewrite (skipn_all2 (firstn i symbols)) by lia. rewrite Lf, Hsk. replace (1 + i - i) with 1 by lia. reflexivity. }
    assert (nth_error symbols (S i) = Some y) as Hy.
    { replace (S i) with (S i + 0) by lia. rewrite <- nth_error_skipn', Hsk'. reflexivity. }
    pose proof (nth_some_lt _ _ _ Hy) as Li.
    rewrite changes_cons. destruct (Nat.eqb_spec x y) as [->|Nxy].
    + apply (IH y (S i) s Hsk'); [lia|]. intros k Hk. destruct (Nat.eq_dec k (S i)) as [->|]; [exact Hy|apply Hrun; lia].
    + change (pairs (s :: (S i :: changes (S i) (y :: l)) ++ [length symbols])) with ((s, S i) :: pairs (S i :: changes (S i) (y :: l) ++ [length symbols])).
      rewrite flat_map_cons.
      destruct (IH y (S i) (S i) Hsk' (le_n _)) as (L2 & H2).
      { intros k Hk. replace k with (S i) by lia. exact Hy. }
      destruct (block_mask_spec valid s (S i) ltac:(lia)) as (L1 & H1). split; [rewrite app_length, L1, L2; lia|].
      intros j Hj. destruct (Nat.le_gt_cases (S i) j) as [G|G].
      * rewrite nth_error_app2 by lia. rewrite L1. replace (j - s - (S i - s)) with (j - S i) by lia.
        destruct (H2 j ltac:(lia)) as (b & Hb & E). exists b. split; [exact Hb|]. rewrite E. split.
        -- intros (k & Hk & Hv & Hr). exists k. split; [lia|]. auto.
        -- intros (k & Hk & Hv & Hr). exists k. split; [|auto]. split; [|lia]. destruct (Nat.le_gt_cases (S i) k); [assumption|]. exfalso.
           pose proof (Hr i ltac:(lia)) as R1. pose proof (Hr (S i) ltac:(lia)) as R2. rewrite Hy in R2. rewrite (Hrun i) in R1 by lia. congruence.
      * rewrite nth_error_app1 by lia. destruct (H1 j ltac:(lia)) as (b & Hb & E). exists b. split; [exact Hb|]. rewrite E. split.
        -- intros (k & Hk & Hv). exists k. split; [exact Hk|]. split; [exact Hv|]. intros k' Hk'. rewrite !Hrun by lia. reflexivity.
        -- intros (k & Hk & Hv & _). eauto.
Qed.
Lemma valid_row_spec row : valid_row row = true <-> ~ In None row.
Proof.
  unfold valid_row. rewrite negb_true_iff. split.
  - intros E I. assert (existsb is_nan row = true) by (apply existsb_exists; exists None; auto). congruence.
  - intros N. apply not_true_is_false. intros E. apply existsb_exists in E. destruct E as ([q|] & I & H); [discriminate|auto].
Qed.
Lemma keep_spec m rows : input_ok m -> i_lags m = Some rows -> i_dates m <> [] ->
  length (keep_mask m (map valid_row rows)) = length (i_dates m) /\
  forall j, j < length (i_dates m) -> exists b, nth_error (keep_mask m (map valid_row rows)) j = Some b /\ (b = true <-> warm m rows j).
Proof.
  intros (O1 & O2 & O3) Hr NE. pose proof (O3 _ Hr) as Lr. assert (length (map valid_row rows) = length (i_dates m)) as Lv by (rewrite map_length; exact Lr).
  assert (forall i, nth_error (map valid_row rows) i = Some true <-> exists row, nth_error rows i = Some row /\ ~ In None row) as V.
  { intros i. rewrite nth_error_map. destruct (nth_error rows i) as [row|]; cbn [option_map].
    - split; [intros E; exists row; split; [reflexivity|apply valid_row_spec; congruence]|].
      intros (row' & E & H). inversion E; subst. f_equal. apply valid_row_spec. exact H.
    - split; [discriminate|intros (? & ? & _); discriminate]. }
  unfold keep_mask, symbol_blocks. set (n := length (i_dates m)) in *. assert (n <> 0) as Nn by (unfold n; destruct (i_dates m); [congruence|discriminate]).
  destruct (i_symbols m) as [symbols|] eqn:Hs.
  - pose proof (O1 _ eq_refl) as Ls. fold n in Ls. rewrite (proj2 (Nat.eqb_neq _ _) Nn). destruct symbols as [|x symbols]; [cbn in Ls; lia|].
    set (S0 := x :: symbols) in *. destruct (mask_spec (map valid_row rows) S0 ltac:(lia) symbols x 0 0 eq_refl (le_n _)) as (L & H).
    { intros k Hk. replace k with 0 by lia. reflexivity. }
    fold S0 in L, H. rewrite Ls in L, H. split; [lia|]. intros j Hj. destruct (H j ltac:(lia)) as (b & Hb & E). rewrite Nat.sub_0_r in Hb.
    exists b. split; [exact Hb|]. rewrite E. split.
    + intros (i & Hi & Hv & Hrun). apply V in Hv. destruct Hv as (row & Hrow & NN). exists i, row. split; [|auto]. split; [fold n; lia|].
      intros l El. rewrite Hs in El. injection El as <-. exact Hrun.
    + intros (i & row & (Hi & Hrun) & Hrow & NN). exists i. split; [lia|]. split; [apply V; eauto|exact (Hrun _ Hs)].
  - cbn [flat_map]. rewrite app_nil_r. destruct (block_mask_spec (map valid_row rows) 0 n ltac:(lia)) as (L & H). split; [lia|].
    intros j Hj. destruct (H j ltac:(lia)) as (b & Hb & E). rewrite Nat.sub_0_r in Hb. exists b. split; [exact Hb|]. rewrite E. split.
    + intros (i & Hi & Hv). apply V in Hv. destruct Hv as (row & Hrow & NN). exists i, row. split; [|auto]. split; [fold n; lia|]. congruence.
    + intros (i & row & (Hi & _) & Hrow & NN). exists i. split; [lia|]. apply V. eauto.
Qed.
Lemma masked_marked {A} keep : forall l : list A, masked keep l = marked keep l.
Proof. unfold marked. induction keep as [|b keep IH]; intros [|x l]; cbn; try reflexivity; destruct b; cbn; rewrite IH; reflexivity. Qed.
Lemma marked_all {A} keep : forall l : list A, all keep = true -> length keep = length l -> marked keep l = l.
Proof.
  unfold marked, all. induction keep as [|b keep IH]; intros [|x l] H L; try discriminate L; [reflexivity|]. cbn in H. apply andb_true_iff in H. destruct H as (-> & H).
  cbn. f_equal. apply IH; [exact H|]. cbn in L. lia.
Qed.

(** Rows of a reduced input. *)
Fixpoint sel (keep : list bool) (p : nat) : option nat :=
  match keep with
  | [] => None
  | true :: r => match p with O => Some 0 | S p => option_map S (sel r p) end
  | false :: r => option_map S (sel r p)
  end.
Lemma masked_nth {A} keep : forall (l : list A) p, length keep = length l ->
  nth_error (masked keep l) p = match sel keep p with Some i => nth_error l i | None => None end.
Proof.
  induction keep as [|b keep IH]; intros [|x l] p L; try discriminate L; [destruct p; reflexivity|]. cbn in L.
  destruct b; cbn [masked sel]; [destruct p as [|p]; [reflexivity|]; cbn [nth_error]|]; rewrite IH by lia; destruct (sel keep p); reflexivity.
Qed.
Lemma sel_lt keep : forall p i, sel keep p = Some i -> i < length keep.
Proof.
  induction keep as [|b keep IH]; intros p i E; [discriminate|]. cbn [sel length] in *.
  destruct b; [destruct p as [|p]; [inversion E; lia|]|]; destruct (sel keep p) as [k|] eqn:Q; try discriminate; inversion E; specialize (IH _ _ Q); lia.
Qed.
Lemma nth_error_ext {A} (l : list A) : forall m, (forall i, nth_error l i = nth_error m i) -> l = m.
Proof.
  induction l as [|x l IH]; intros [|y m] H; [reflexivity|discriminate (H 0)|discriminate (H 0)|].
  pose proof (H 0) as H0. cbn in H0. inversion H0; subst. f_equal. apply IH. intros i. exact (H (S i)).
Qed.
Lemma indexed_nth {A} (l : list A) : forall b i, nth_error (combine (seq b (length l)) l) i = option_map (pair (b + i)) (nth_error l i).
Proof.
  induction l as [|x l IH]; intros b [|i]; cbn [length seq combine nth_error option_map]; try reflexivity; [rewrite Nat.add_0_r; reflexivity|].
  rewrite IH. destruct (nth_error l i); cbn [option_map]; [do 2 f_equal; lia|reflexivity].
Qed.
Lemma rows_nth m i : nth_error (rows_of m) i = option_map (whole m i) (nth_error (i_dates m) i).
Proof. unfold rows_of. rewrite nth_error_map, indexed_nth. destruct (nth_error (i_dates m) i); reflexivity. Qed.
Lemma rows_length m : length (rows_of m) = length (i_dates m).
Proof. unfold rows_of. rewrite map_length, combine_length, seq_length. lia. Qed.
Definition reduced (keep : list bool) (m : input) (rows : list (list value)) : input :=
  mk_input (option_map' (masked keep) (i_symbols m)) (masked keep (i_dates m))
           (map (fun c => (fst c, masked keep (snd c))) (i_columns m)) (Some (masked keep rows)).
Lemma reduced_rows keep m rows : input_ok m -> i_lags m = Some rows -> length keep = length (i_dates m) ->
  rows_of (reduced keep m rows) = marked keep (rows_of m).
Proof.
  intros (O1 & O2 & O3) Hr L. apply nth_error_ext. intros p. rewrite rows_nth, <- masked_marked, masked_nth by (rewrite rows_length; exact L).
  cbn [reduced i_dates]. rewrite masked_nth by exact L. destruct (sel keep p) as [i|] eqn:Si; [|reflexivity]. rewrite rows_nth.
  destruct (nth_error (i_dates m) i) as [d|]; cbn [option_map]; [|reflexivity]. f_equal. unfold whole, reduced. cbn [i_symbols i_columns i_lags]. f_equal.
  - destruct (i_symbols m) as [l|] eqn:Es; [|reflexivity]. cbn [option_map']. rewrite masked_nth by (rewrite L; symmetry; apply O1; auto). rewrite Si. reflexivity.
  - rewrite map_map. apply map_ext_in. intros c Ic. cbn [fst snd]. rewrite masked_nth by (rewrite L; symmetry; apply O2; exact Ic). rewrite Si. reflexivity.
  - rewrite Hr. cbn [option_map']. rewrite masked_nth by (rewrite L; symmetry; apply O3; exact Hr). rewrite Si. reflexivity.
Qed.
Lemma masked_length {A B} keep : forall (l : list A) (l' : list B), length keep = length l -> length keep = length l' -> length (masked keep l) = length (masked keep l').
Proof. induction keep as [|b keep IH]; intros [|x l] [|y l'] L L'; try discriminate; [reflexivity|]. cbn in *. destruct b; cbn; rewrite (IH l l'); lia. Qed.
Lemma reduced_ok keep m rows : input_ok m -> i_lags m = Some rows -> length keep = length (i_dates m) -> input_ok (reduced keep m rows).
Proof.
  intros (O1 & O2 & O3) Hr L. unfold reduced. split; [|split]; cbn [i_symbols i_dates i_columns i_lags].
  - intros l E. destruct (i_symbols m) as [s|] eqn:Es; [|discriminate]. inversion E; subst. apply masked_length; [rewrite O1; auto|exact L].
  - intros c Ic. apply in_map_iff in Ic. destruct Ic as (c0 & <- & I0). cbn [snd]. apply masked_length; [rewrite O2; auto|exact L].
  - intros l E. inversion E; subst. apply masked_length; [rewrite O3; auto|exact L].
Qed.
Lemma all_nth l : all l = true <-> forall i b, nth_error l i = Some b -> b = true.
Proof.
  unfold all. rewrite forallb_forall. split; [intros H i b E; apply H; exact (nth_error_In _ _ E)|].
  intros H b I. apply In_nth_error in I. destruct I as (i & E). exact (H i b E).
Qed.
Lemma any_nth l : any l = true <-> exists i, nth_error l i = Some true.
Proof.
  unfold any. rewrite existsb_exists. split; [intros (b & I & ->); apply In_nth_error in I; exact I|]. intros (i & E). exists true. split; [exact (nth_error_In _ _ E)|reflexivity].
Qed.
Lemma self_warm m rows j row : input_ok m -> nth_error rows j = Some row -> j < length (i_dates m) -> ~ In None row -> warm m rows j.
Proof. intros O E L N. exists j, row. split; [|auto]. split; [lia|]. intros l El k Hk. replace k with j by lia. reflexivity. Qed.
Lemma drop_spec m rows m' : input_ok m -> i_lags m = Some rows -> drop_lag_warmup m = Ok m' ->
  exists keep, length keep = length (i_dates m) /\ (forall j, j < length (i_dates m) -> (nth_error keep j = Some true <-> warm m rows j)) /\
    rows_of m' = marked keep (rows_of m) /\ input_ok m'.
Proof.
  intros O Hr E. unfold drop_lag_warmup in E. rewrite Hr in E.
  assert (i_dates m = [] \/ i_dates m <> []) as [Ed|NE] by (destruct (i_dates m); [auto|right; discriminate]).
  { rewrite Ed in E. inversion E; subst m'. exists []. rewrite Ed. split; [reflexivity|]. split; [intros j Hj; cbn in Hj; lia|]. split; [|exact O].
    unfold rows_of. rewrite Ed. reflexivity. }
  pose proof (keep_spec m rows O Hr NE) as (Lk & Hk). set (keep := keep_mask m (map valid_row rows)) in *.
  assert (forall j, j < length (i_dates m) -> (nth_error keep j = Some true <-> warm m rows j)) as HK.
  { intros j Hj. destruct (Hk j Hj) as (b & Eb & Hb). rewrite Eb, <- Hb. split; [congruence|intros ->; reflexivity]. }
  exists keep. split; [exact Lk|]. split; [exact HK|].
  assert (all keep = true -> rows_of m = marked keep (rows_of m)) as AllK by (intros A; symmetry; apply marked_all; [exact A|rewrite rows_length; exact Lk]).
  destruct (i_dates m) as [|d0 ds] eqn:Ed; [congruence|]. rewrite <- Ed in *. clear NE.
  destruct (all (map valid_row rows)) eqn:A.
  - inversion E; subst m'. split; [|exact O]. apply AllK. apply all_nth. intros i b Hi. pose proof (nth_some_lt _ _ _ Hi) as Li. rewrite Lk in Li.
    rewrite all_nth in A. destruct O as (O1 & O2 & O3). pose proof (O3 _ Hr) as Lr. rewrite <- Lr in Li. destruct (nth_lt_some _ _ Li) as (row & Hrow).
    assert (valid_row row = true) as V by (apply (A i); apply map_nth_error; exact Hrow).
    assert (nth_error keep i = Some true) as Q by (apply HK; [lia|apply (self_warm m rows i row); [split; [exact O1|split; assumption]|exact Hrow|lia|apply valid_row_spec; exact V]]).
    congruence.
  - destruct (negb (any keep)); [discriminate|]. destruct (all keep) eqn:AK.
    + inversion E; subst m'. split; [apply AllK; reflexivity|exact O].
    + inversion E; subst m'. split; [apply reduced_rows; assumption|apply reduced_ok; assumption].
Qed.
Lemma drop_raises m rows e : input_ok m -> i_lags m = Some rows -> i_dates m <> [] ->
  (drop_lag_warmup m = Raise e <-> e = NothingToTrain /\ Forall (In None) rows).
Proof.
  intros O Hr NE. pose proof (keep_spec m rows O Hr NE) as (Lk & Hk). unfold drop_lag_warmup. rewrite Hr. set (keep := keep_mask m (map valid_row rows)) in *.
  destruct O as (O1 & O2 & O3). pose proof (O3 _ Hr) as Lr.
  assert (any keep = true <-> ~ Forall (In None) rows) as AK.
  { rewrite any_nth. split.
    - intros (j & Hj) F. pose proof (nth_some_lt _ _ _ Hj) as Lj. rewrite Lk in Lj. destruct (Hk j Lj) as (b & Eb & Hb). rewrite Hj in Eb. inversion Eb; subst b.
      destruct (proj1 Hb eq_refl) as (i & row & _ & Hi & N). rewrite Forall_forall in F. exact (N (F row (nth_error_In _ _ Hi))).
    - intros N. destruct (any (map valid_row rows)) eqn:A.
      + apply any_nth in A. destruct A as (j & Hj). rewrite nth_error_map in Hj. destruct (nth_error rows j) as [row|] eqn:Hrow; [|discriminate]. cbn in Hj. assert (valid_row row = true) as V by congruence. clear Hj.
        apply valid_row_spec in V. pose proof (nth_some_lt _ _ _ Hrow) as Lj. rewrite Lr in Lj. destruct (Hk j Lj) as (b & Eb & Hb). exists j. rewrite Eb. f_equal. apply Hb.
        apply (self_warm m rows j row); [split; [exact O1|split; assumption]|exact Hrow|exact Lj|exact V].
      + exfalso. apply N. apply Forall_forall. intros row I. destruct (in_dec (fun a b : value => ltac:(decide equality; decide equality; [apply Pos.eq_dec|apply Z.eq_dec])) None row) as [Y|Y]; [exact Y|].
        apply valid_row_spec in Y. assert (any (map valid_row rows) = true) as Q; [|congruence]. unfold any. apply existsb_exists. exists true. split; [|reflexivity]. apply in_map_iff. eauto. }
  destruct (i_dates m) as [|d0 ds] eqn:Ed; [congruence|].
  assert (all (map valid_row rows) = true -> any keep = true) as AV.
  { intros A. apply AK. intros F. rewrite all_nth in A. destruct rows as [|row rows]; [cbn in Lr; discriminate|].
    inversion F as [|? ? I _]; subst. pose proof (A 0 (valid_row row) eq_refl) as V. apply valid_row_spec in V. exact (V I). }
  destruct (all (map valid_row rows)) eqn:A.
  - split; [discriminate|]. intros (_ & F). destruct (proj1 AK (AV eq_refl) F).
  - destruct (any keep) eqn:K; cbn [negb].
    + split; [destruct (all keep); discriminate|]. intros (_ & F). destruct (proj1 AK eq_refl F).
    + split; [|intros (-> & _); reflexivity]. intros E. inversion E. split; [reflexivity|]. apply Forall_forall. intros row I.
      destruct (in_dec (fun a b : value => ltac:(decide equality; decide equality; [apply Pos.eq_dec|apply Z.eq_dec])) None row) as [Y|Y]; [exact Y|].
      exfalso. assert (false = true) by (apply AK; intros F; rewrite Forall_forall in F; exact (Y (F row I))). discriminate.
Qed.
