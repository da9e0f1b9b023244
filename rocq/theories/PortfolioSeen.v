(** What an entry has seen, and what removing stops leaves. *)
From Verif Require Export PortfolioLevels.

(** ** Bars *)
Lemma holds_In p sd s e : In e (queue p sd s) -> holds p sd s (e_id e) = true.
Proof. intro I. unfold holds. apply existsb_exists. exists e. split; auto. apply Nat.eqb_refl. Qed.
Lemma holds_bound c p sd s id : Good c p -> (p_entry_id p < id)%nat -> holds p sd s id = false.
Proof.
  intros G L. unfold holds. destruct (existsb _ _) eqn:E; auto. apply existsb_exists in E. destruct E as [e [I E]].
  apply Nat.eqb_eq in E. apply owns_queue in I. pose proof (co_bound _ _ (gd_core _ _ G) _ _ _ I). lia.
Qed.
(** Entry ids not handed out yet were never held. *)
Lemma ids_bound c ops p : cfg_ok c -> run c ops = Some p ->
  forall q o q', In (q, o, q') (history c ops) -> Good c q /\ (p_entry_id q <= p_entry_id p)%nat.
Proof.
  intros K R. revert ops p R.
  apply (hist_ind c (fun ops p => forall q o q', In (q, o, q') (history c ops) -> Good c q /\ (p_entry_id q <= p_entry_id p)%nat) K).
  { intros q o q' []. }
  intros ops p o p' R G IH E G' Hh q o' q' I. rewrite Hh in I. destruct (step_entry c o p p' K G E) as [L _].
  apply in_app_iff in I. destruct I as [I|[I|[]]].
  - destruct (IH _ _ _ I). split; auto. lia.
  - injection I as <- <- <-. auto.
Qed.
Lemma unseen c ops p sd s id : cfg_ok c -> run c ops = Some p -> (p_entry_id p < id)%nat ->
  bars_seen c ops sd s id = 0%nat /\ ranges_seen c ops sd s id = [].
Proof.
  intros K R L. pose proof (ids_bound c ops p K R) as B. unfold bars_seen, ranges_seen.
  induction (history c ops) as [|[[q o] q'] r IH]; auto.
  destruct (B q o q') as [Gq Lq]; [now left|]. assert (Hh : holds q sd s id = false) by (eapply holds_bound; eauto; lia).
  destruct IH as [I1 I2]; [intros a b d I; eapply B; right; eauto|].
  cbn. destruct o; rewrite ?Hh, ?andb_false_r; auto. rewrite I2. destruct (bar s) as [[[? ?] ?]|]; auto.
Qed.

Lemma seen_snoc c ops o p p' sd s id : history c (ops ++ [o]) = history c ops ++ [(p, o, p')] ->
  bars_seen c (ops ++ [o]) sd s id =
    (bars_seen c ops sd s id + match o with OpIncr hb => if hb s && holds p sd s id then 1 else 0 | _ => 0 end)%nat /\
  ranges_seen c (ops ++ [o]) sd s id = ranges_seen c ops sd s id ++
    match o with OpCapture _ bar => match bar s with Some (_, lo, hi) => if holds p sd s id then [(lo, hi)] else [] | None => [] end | _ => [] end.
Proof.
  intro H. unfold bars_seen, ranges_seen. rewrite H, filter_app, app_length, flat_map_app. cbn [filter flat_map]. rewrite app_nil_r.
  split; auto. destruct o; auto. destruct (has_bar s && holds p sd s id); auto.
Qed.

(** [symbol_bars] counts the bars of the symbol during which the entry was open. *)
Theorem symbol_bars c ops p sd s e : cfg_ok c -> run c ops = Some p -> In e (queue p sd s) ->
  e_symbars e = bars_seen c ops sd s (e_id e).
Proof.
  intros K R. revert ops p R e.
  apply (hist_ind c (fun ops p => forall e, In e (queue p sd s) -> e_symbars e = bars_seen c ops sd s (e_id e)) K).
  { intros e I. destruct sd; destruct I. }
  intros ops p o p' R G IH E G' Hh e' I. apply owns_queue in I.
  destruct (seen_snoc _ _ _ _ _ sd s (e_id e') Hh) as [-> _].
  destruct (step_entry c o p p' K G E) as [_ SE]. destruct (SE _ _ _ I) as [[e [Oe V]]|B].
  - apply owns_queue in Oe. rewrite (vo_symbars _ _ _ _ _ V), (vo_id _ _ _ _ _ V), <- (IH _ Oe), (holds_In _ _ _ _ Oe).
    destruct o; auto; try lia. rewrite andb_true_r. destruct (has_bar s); lia.
  - destruct (unseen c ops p sd s (e_id e') K R (bo_id _ _ _ B)) as [-> _]. rewrite (bo_symbars _ _ _ B).
    assert (Hd : holds p sd s (e_id e') = false) by (eapply holds_bound; eauto; apply B).
    destruct o; auto. now rewrite Hd, andb_false_r.
Qed.

(** ** Excursions *)
Lemma mark_parts sd lo hi e :
  e_mae (entry_mark sd lo hi e) =
    match adverse sd (e_price e) (lo, hi) with Some d => if Qltb d 0 && Qltb d (e_mae e) then d else e_mae e | None => e_mae e end /\
  e_mfe (entry_mark sd lo hi e) =
    match favourable sd (e_price e) (lo, hi) with Some d => if Qltb 0 d && Qltb (e_mfe e) d then d else e_mfe e | None => e_mfe e end.
Proof.
  unfold entry_mark, adverse, favourable, gain. cbn zeta. cbn [fst snd].
  set (loss := match sd with Long => option_map (fun l => l - e_price e) lo | Short => option_map (fun h => e_price e - h) hi end).
  set (profit := match sd with Long => option_map (fun h => h - e_price e) hi | Short => option_map (fun l => e_price e - l) lo end).
  set (e1 := match loss with Some d => if Qltb d 0 && Qltb d (e_mae e) then set_e_mae d e else e | None => e end).
  assert (A : e_mae e1 = match loss with Some d => if Qltb d 0 && Qltb d (e_mae e) then d else e_mae e | None => e_mae e end).
  { unfold e1. destruct loss as [d|]; auto. now destruct (Qltb d 0 && Qltb d (e_mae e)). }
  assert (B : e_mfe e1 = e_mfe e).
  { unfold e1. destruct loss as [d|]; auto. now destruct (Qltb d 0 && Qltb d (e_mae e)). }
  assert (L : loss = match sd with Long => option_map (fun x => x - e_price e) lo | Short => option_map (fun x => e_price e - x) hi end) by reflexivity.
  clearbody e1. split.
  - transitivity (e_mae e1); [destruct profit as [d|]; auto; now destruct (Qltb 0 d && Qltb (e_mfe e1) d)|].
    rewrite A. unfold loss. destruct sd; reflexivity.
  - unfold profit. rewrite B. destruct sd; cbn; [destruct hi as [h|]|destruct lo as [h|]]; cbn; auto.
    + destruct (Qltb 0 (h - e_price e) && Qltb (e_mfe e) (h - e_price e)); auto.
    + destruct (Qltb 0 (e_price e - h) && Qltb (e_mfe e) (e_price e - h)); auto.
Qed.
Lemma mark_mae sd lo hi e : e_mae e <= 0 ->
  e_mae (entry_mark sd lo hi e) == match adverse sd (e_price e) (lo, hi) with Some x => Qmin x (e_mae e) | None => e_mae e end.
Proof.
  intro H. rewrite (proj1 (mark_parts sd lo hi e)). destruct (adverse sd (e_price e) (lo, hi)) as [d|]; [|reflexivity].
  pose proof (Qmin_cases d (e_mae e)). destruct (Qltb d 0) eqn:E1; destruct (Qltb d (e_mae e)) eqn:E2; cbn; qb; lra.
Qed.
Lemma mark_mfe sd lo hi e : 0 <= e_mfe e ->
  e_mfe (entry_mark sd lo hi e) == match favourable sd (e_price e) (lo, hi) with Some x => Qmax x (e_mfe e) | None => e_mfe e end.
Proof.
  intro H. rewrite (proj2 (mark_parts sd lo hi e)). destruct (favourable sd (e_price e) (lo, hi)) as [d|]; [|reflexivity].
  pose proof (Qmax_cases d (e_mfe e)). destruct (Qltb 0 d) eqn:E1; destruct (Qltb (e_mfe e) d) eqn:E2; cbn; qb; lra.
Qed.
Lemma lowest_snoc l x : lowest (l ++ [x]) == Qmin x (lowest l).
Proof.
  unfold lowest. rewrite fold_right_app. cbn. induction l as [|y r IH]; cbn; [reflexivity|].
  rewrite IH. pose proof (Qmin_cases x (fold_right Qmin 0 r)). pose proof (Qmin_cases y (fold_right Qmin 0 r)).
  pose proof (Qmin_cases y (Qmin x (fold_right Qmin 0 r))). pose proof (Qmin_cases x (Qmin y (fold_right Qmin 0 r))). lra.
Qed.
Lemma highest_snoc l x : highest (l ++ [x]) == Qmax x (highest l).
Proof.
  unfold highest. rewrite fold_right_app. cbn. induction l as [|y r IH]; cbn; [reflexivity|].
  rewrite IH. pose proof (Qmax_cases x (fold_right Qmax 0 r)). pose proof (Qmax_cases y (fold_right Qmax 0 r)).
  pose proof (Qmax_cases y (Qmax x (fold_right Qmax 0 r))). pose proof (Qmax_cases x (Qmax y (fold_right Qmax 0 r))). lra.
Qed.
Lemma known_app l x : known (l ++ [x]) = known l ++ match x with Some q => [q] | None => [] end.
Proof. unfold known. rewrite flat_map_app. cbn. now rewrite app_nil_r. Qed.
Lemma Qmin_eq_r x a b : a == b -> Qmin x a == Qmin x b.
Proof. intro H. now rewrite H. Qed.

Theorem excursions c ops p sd s e : cfg_ok c -> run c ops = Some p -> In e (queue p sd s) ->
  e_mae e == lowest (known (map (adverse sd (e_price e)) (ranges_seen c ops sd s (e_id e)))) /\
  e_mfe e == highest (known (map (favourable sd (e_price e)) (ranges_seen c ops sd s (e_id e)))).
Proof.
  intros K R. revert ops p R e.
  apply (hist_ind c (fun ops p => forall e, In e (queue p sd s) ->
    e_mae e == lowest (known (map (adverse sd (e_price e)) (ranges_seen c ops sd s (e_id e)))) /\
    e_mfe e == highest (known (map (favourable sd (e_price e)) (ranges_seen c ops sd s (e_id e))))) K).
  { intros e I. destruct sd; destruct I. }
  intros ops p o p' R G IH E G' Hh e' I. apply owns_queue in I.
  destruct (seen_snoc _ _ _ _ _ sd s (e_id e') Hh) as [_ ->].
  destruct (step_entry c o p p' K G E) as [_ SE]. destruct (SE _ _ _ I) as [[e [Oe V]]|B].
  - pose proof Oe as Oo. apply owns_queue in Oe. destruct (IH _ Oe) as [IH1 IH2].
    rewrite (vo_mae _ _ _ _ _ V), (vo_mfe _ _ _ _ _ V), (vo_id _ _ _ _ _ V), (vo_price _ _ _ _ _ V), (holds_In _ _ _ _ Oe).
    destruct o; try (rewrite app_nil_r; auto).
    unfold mark_entry. destruct (bar s) as [[[cl lo] hi]|]; [|rewrite app_nil_r; auto].
    destruct Oo as [pos [Hg Ie]]. pose proof (po_entries _ _ _ _ (co_pos _ _ (gd_core _ _ G) _ _ _ Hg) e Ie) as Ok.
    rewrite (mark_mae sd lo hi e (eo_mae _ _ _ _ Ok)), (mark_mfe sd lo hi e (eo_mfe _ _ _ _ Ok)).
    rewrite !map_app. cbn [map]. rewrite !known_app. split.
    + destruct (adverse sd (e_price e) (lo, hi)); [|rewrite app_nil_r; auto]. rewrite lowest_snoc. now rewrite IH1.
    + destruct (favourable sd (e_price e) (lo, hi)); [|rewrite app_nil_r; auto]. rewrite highest_snoc. now rewrite IH2.
  - destruct (unseen c ops p sd s (e_id e') K R (bo_id _ _ _ B)) as [_ ->].
    assert (Hd : holds p sd s (e_id e') = false) by (eapply holds_bound; eauto; apply B).
    rewrite (bo_mae _ _ _ B), (bo_mfe _ _ _ B), Hd.
    destruct o; cbn; try (split; reflexivity). destruct (bar s) as [[[? ?] ?]|]; cbn; split; reflexivity.
Qed.
Theorem excursions_grow c o ops p p' sd s e e' : cfg_ok c -> run c ops = Some p -> exec c (Some p) o = Some p' ->
  In e (queue p sd s) -> In e' (queue p' sd s) -> e_id e' = e_id e ->
  e_mae e' <= e_mae e /\ e_mfe e <= e_mfe e'.
Proof.
  intros K R E I I' Ei. pose proof (run_good c ops p K R) as G. apply owns_queue in I, I'.
  destruct (step_entry c o p p' K G E) as [_ SE]. destruct (SE _ _ _ I') as [[e0 [Oe V]]|B].
  - destruct (core_owns_inj _ _ _ _ _ _ _ _ (gd_core _ _ G) Oe I) as [_ [_ ->]].
    { rewrite <- (vo_id _ _ _ _ _ V). auto. }
    rewrite (vo_mae _ _ _ _ _ V), (vo_mfe _ _ _ _ _ V). destruct o; try (split; lra).
    unfold mark_entry. destruct (bar s) as [[[cl lo] hi]|]; [|split; lra]. split; apply entry_mark_same.
  - exfalso. pose proof (bo_id _ _ _ B). pose proof (co_bound _ _ (gd_core _ _ G) _ _ _ I). lia.
Qed.
Theorem trade_excursions c ops p t : cfg_ok c -> run c ops = Some p -> In t (p_trades p) ->
  t_mae t <= 0 /\ 0 <= t_mfe t /\
  t_mae t <= gain (t_type t) (t_entry t) (t_exit t) /\ gain (t_type t) (t_entry t) (t_exit t) <= t_mfe t.
Proof.
  intros K R I. pose proof (run_good c ops p K R) as G. pose proof (ld_trades _ _ _ (gd_led _ _ G)) as F.
  rewrite Forall_forall in F. destruct (F t I). unfold per_share, gain in *. destruct (t_type t); auto.
Qed.

(** ** Removing stops *)
Lemma rm_about p v sd s e : Core [] p -> In e (queue p sd s) ->
  nmem (e_id e) (map e_id (rm_entries v p)) = targeted v sd s e.
Proof.
  intros HC I. apply owns_queue in I.
  assert (X : In (e_id e) (map e_id (rm_entries v p)) <-> targeted v sd s e = true).
  { rewrite in_map_iff. destruct v as [s'|sd' s'|id]; cbn.
    - split.
      + intros [x [Ex Ix]]. apply Nat.eqb_eq. apply in_app_iff in Ix.
        destruct Ix as [Ix|Ix]; apply owns_entries in Ix; destruct (core_owns_inj _ _ _ _ _ _ _ _ HC Ix I Ex); intuition.
      + intro Hs. apply Nat.eqb_eq in Hs. subst s'. exists e. split; auto. apply in_app_iff. apply owns_entries in I. destruct sd; auto.
    - split.
      + intros [x [Ex Ix]]. apply owns_entries in Ix. destruct (core_owns_inj _ _ _ _ _ _ _ _ HC Ix I Ex) as [-> [-> _]].
        now rewrite side_eqb_refl, Nat.eqb_refl.
      + intro Hs. apply andb_true_iff in Hs. destruct Hs as [H1 H2]. apply side_eqb_eq in H1. apply Nat.eqb_eq in H2. subst.
        exists e. split; auto. now apply owns_entries.
    - split.
      + intros [x [Ex Ix]]. apply filter_In in Ix. rewrite <- Ex. tauto.
      + intro Hs. exists e. split; auto. apply filter_In. split; auto. apply (all_entries_owns [] p); eauto. }
  destruct (nmem _ _) eqn:E, (targeted v sd s e) eqn:E2; auto.
  - apply nmem_In in E. apply X in E. discriminate.
  - apply nmem_notIn in E. exfalso. apply E, X. reflexivity.
Qed.
Lemma stop_type_eqb_eq a b : stop_type_eqb a b = true <-> a = b.
Proof. destruct a, b; cbn; split; congruence. Qed.
Lemma left_filter t l : one_per_type l -> NoDup l -> left_stops t l = filter (fun st => negb (of_type t st)) l.
Proof.
  intros O ND. destruct t as [t|]; cbn.
  - induction l as [|x r IH]; cbn; auto. inversion ND as [|? ? N1 N2]; subst.
    assert (O' : one_per_type r) by (intros a b Ia Ib; apply O; now right).
    destruct (stop_type_eqb (st_type x) t) eqn:E; cbn; [|f_equal; auto].
    apply stop_type_eqb_eq in E. symmetry. clear IH.
    assert (F : forall y, In y r -> stop_type_eqb (st_type y) t = false).
    { intros y Iy. destruct (stop_type_eqb (st_type y) t) eqn:Ey; auto. apply stop_type_eqb_eq in Ey.
      assert (x = y) by (apply O; [now left|now right|congruence]). subst. contradiction. }
    clear - F. induction r as [|y r IH]; cbn; auto. rewrite (F y) by now left. cbn. f_equal. apply IH. intros z Iz. apply F. now right.
  - induction l as [|x r IH]; cbn; auto. apply IH; [|now inversion ND]. intros a b Ia Ib. apply O; now right.
Qed.
Lemma gone_in t l st : one_per_type l -> In st l -> (In (st_id st) (gone_ids t l) <-> (exists st', In st' l /\ st_id st' = st_id st /\ of_type t st' = true)).
Proof.
  intros O I. destruct t as [t|]; cbn.
  - destruct (find _ l) as [x|] eqn:E.
    + apply find_some in E. destruct E as [Ix Tx]. cbn. split.
      * intros [H|[]]. exists x. auto.
      * intros [st' [I' [E' T']]]. left. apply stop_type_eqb_eq in Tx, T'. assert (x = st') by (apply O; auto; congruence). congruence.
    + split; [intros []|]. intros [st' [I' [_ T']]]. pose proof (find_none _ _ E st' I') as N. cbn in N. congruence.
  - rewrite in_map_iff. split; intros [x [A B]]; exists x; tauto.
Qed.

Theorem remove_stops_spec p v t : Core [] p -> StopInv p ->
  (forall sd s e, In e (queue p sd s) -> one_per_type (e_stops e)) ->
  let p' := remove_stops v t p in
  (forall sd s, queue p' sd s = map (fun e => if targeted v sd s e
      then set_e_stops (filter (fun st => negb (of_type t st)) (e_stops e)) e else e) (queue p sd s)) /\
  (forall sd s e st, In e (queue p sd s) -> In st (e_stops e) ->
      level p' (st_id st) = if targeted v sd s e && of_type t st then None else level p (st_id st)).
Proof.
  intros HC HS O. cbn zeta. destruct (remove_stops_effect p v t HC HS) as [A [B [C D]]]. cbn zeta in *. split.
  - intros sd s. change (queue (remove_stops v t p) sd s) with (entries_of (remove_stops v t p) sd s). rewrite A.
    change (queue p sd s) with (entries_of p sd s). apply map_ext_in. intros e I. unfold strip.
    change (entries_of p sd s) with (queue p sd s) in I. rewrite (rm_about p v sd s e HC I).
    destruct (targeted v sd s e); auto. f_equal. apply left_filter; [eapply O; eauto|].
    apply owns_queue in I. pose proof (si_nd _ HS _ _ _ I) as ND. eapply NoDup_map_inv; eauto.
  - intros sd s e st I Is. unfold level. rewrite B.
    assert (X : nmem (st_id st) (flat_map (fun e => gone_ids t (e_stops e)) (rm_entries v p)) = targeted v sd s e && of_type t st).
    2:{ rewrite X. now destruct (targeted v sd s e && of_type t st). }
    assert (Y : In (st_id st) (flat_map (fun e => gone_ids t (e_stops e)) (rm_entries v p)) <-> targeted v sd s e && of_type t st = true).
    { rewrite in_flat_map, andb_true_iff. split.
      - intros [x [Ix Gx]].
        assert (Hx : exists sd' s', owns p sd' s' x).
        { destruct v as [s'|sd' s'|id]; cbn in Ix.
          - apply in_app_iff in Ix. destruct Ix as [Ix|Ix]; apply owns_entries in Ix; eauto.
          - apply owns_entries in Ix. eauto.
          - apply filter_In in Ix. apply (all_entries_owns [] p); tauto. }
        destruct Hx as [sd' [s' Ox]].
        assert (Gi : exists st', In st' (e_stops x) /\ st_id st' = st_id st /\ of_type t st' = true).
        { destruct t as [t|]; cbn in Gx.
          - destruct (find _ (e_stops x)) as [y|] eqn:Ey; [|destruct Gx]. apply find_some in Ey. destruct Gx as [<-|[]]. exists y. tauto.
          - apply in_map_iff in Gx. destruct Gx as [y [Ey Iy]]. exists y. auto. }
        destruct Gi as [st' [I' [E' T']]]. pose proof I as Io. apply owns_queue in Io.
        pose proof (si_uniq _ HS _ _ _ _ _ _ _ _ Ox I' Io Is E') as Eid.
        destruct (core_owns_inj _ _ _ _ _ _ _ _ HC Ox Io Eid) as [-> [-> ->]].
        assert (st' = st) by (eapply st_id_inj; [apply (si_nd _ HS _ _ _ Io)|auto..]). subst st'.
        split; auto. rewrite <- (rm_about p v sd s e HC I). apply nmem_In. now apply in_map.
      - intros [Ta To]. rewrite <- (rm_about p v sd s e HC I) in Ta. apply nmem_In, in_map_iff in Ta. destruct Ta as [x [Ex Ix]].
        assert (Hx : exists sd' s', owns p sd' s' x).
        { destruct v as [s'|sd' s'|id]; cbn in Ix.
          - apply in_app_iff in Ix. destruct Ix as [Ix|Ix]; apply owns_entries in Ix; eauto.
          - apply owns_entries in Ix. eauto.
          - apply filter_In in Ix. apply (all_entries_owns [] p); tauto. }
        destruct Hx as [sd' [s' Ox]]. pose proof I as Io. apply owns_queue in Io.
        destruct (core_owns_inj _ _ _ _ _ _ _ _ HC Ox Io Ex) as [-> [-> ->]].
        exists e. split; auto. apply gone_in; [eapply O; eauto|auto|]. exists st. auto. }
    destruct (nmem _ _) eqn:E, (targeted v sd s e && of_type t st) eqn:E2; auto.
    + apply nmem_In in E. apply Y in E. discriminate.
    + apply nmem_notIn in E. exfalso. apply E, Y. reflexivity.
Qed.

(** If every order carries at most one stop of each type, so does every entry. *)
Theorem one_per_type_run c ops p : cfg_ok c -> run c ops = Some p -> Forall (fun o => one_per_type (op_stops o)) ops ->
  forall sd s e, In e (queue p sd s) -> one_per_type (e_stops e).
Proof.
  intros K R F sd s. revert ops p R F.
  apply (hist_ind c (fun ops p => Forall (fun o => one_per_type (op_stops o)) ops -> forall e, In e (queue p sd s) -> one_per_type (e_stops e)) K).
  { intros _ e I. destruct sd; destruct I. }
  intros ops p o p' R G IH E G' Hh F e' I. apply Forall_app in F. destruct F as [F1 F2]. inversion F2 as [|? ? F3 _]; subst.
  apply owns_queue in I. destruct (step_entry c o p p' K G E) as [_ SE]. destruct (SE _ _ _ I) as [[e [Oe V]]|B].
  - apply owns_queue in Oe. intros a b Ia Ib. apply (IH F1 _ Oe); now apply (vo_stops _ _ _ _ _ V).
  - intros a b Ia Ib. apply F3; now apply (bo_stops _ _ _ B).
Qed.
