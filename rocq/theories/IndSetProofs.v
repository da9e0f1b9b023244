(** Proofs about [IndicatorSet]. *)
From Coq Require Import List Bool Arith ZArith QArith Permutation Sorted Lia.
From Verif Require Import IndSetSpec IndicatorCaches StoreProofs.
Import ListNotations.
Open Scope nat_scope.

(** ** Sets and sorting *)
Lemma set_update_in n : forall l names, In n (set_update names l) <-> In n names \/ In n l.
Proof.
  unfold set_update. induction l as [|x l IH]; intros names; cbn [fold_left]; [cbn; tauto|]. rewrite IH.
  destruct (existsb (Nat.eqb x) names) eqn:E; cbn [In].
  - apply existsb_exists in E. destruct E as (y & I & Y). apply Nat.eqb_eq in Y. subst y. intuition (subst; tauto).
  - rewrite in_app_iff. cbn [In]. tauto.
Qed.
Lemma set_update_nodup : forall l names, NoDup names -> NoDup (set_update names l).
Proof.
  unfold set_update. induction l as [|x l IH]; intros names N; cbn [fold_left]; [exact N|]. apply IH.
  destruct (existsb (Nat.eqb x) names) eqn:E; [exact N|].
  apply Permutation_NoDup with (x :: names); [apply Permutation_cons_append|]. constructor; [|exact N].
  intros I. assert (existsb (Nat.eqb x) names = true) by (apply existsb_exists; exists x; split; [exact I|apply Nat.eqb_refl]). congruence.
Qed.
Lemma entry_names_ok l : match entry_names l with Ok t => ~ In None l /\ (forall n, In n t <-> In (Some n) l) | Raise _ => In None l end.
Proof.
  induction l as [|[x|] l IH]; cbn [entry_names]; [cbn; tauto| |now left]. destruct (entry_names l) as [t|]; cbn [bind].
  - destruct IH as [N H]. split; [intros [E|I]; [discriminate|tauto]|]. intros n. cbn [In]. rewrite H. split; (intros [E|I]; [left; congruence|now right]).
  - now right.
Qed.
Lemma set_run_app ops op : set_run (ops ++ [op]) = fst (set_step (set_run ops) op).
Proof. unfold set_run. now rewrite fold_left_app. Qed.
Lemma set_run_holds n ops : In n (set_run ops) <-> holds n ops.
Proof.
  induction ops as [|op ops IH] using rev_ind.
  - split; [intros []|]. intros H. inversion H; now destruct before.
  - rewrite set_run_app. assert (Inv : holds n (ops ++ [op]) <-> match op with
      | SClear => False
      | SAdd l => (~ In None l /\ In (Some n) l) \/ holds n ops
      | SRemove l => holds n ops /\ (In None l \/ ~ In (Some n) l)
      end).
    { split.
      - intros H. inversion H as [b l H1 H2 E|b l H1 E|b l H1 H2 E]; apply app_inj_tail in E; destruct E as [-> <-]; tauto.
      - destruct op as [l|l|]; [intros [[A B]|A]|intros [A B]|intros []]; [now apply holds_last|now apply holds_add|now apply holds_remove]. }
    rewrite Inv. destruct op as [l|l|]; cbn [set_step fst]; [| |cbn; tauto]; rewrite <- IH; pose proof (entry_names_ok l) as E; destruct (entry_names l) as [t|]; cbn [fst].
    + rewrite set_update_in. destruct E as [N E]. rewrite E. tauto.
    + tauto.
    + destruct E as [N E]. unfold set_difference. rewrite filter_In, negb_true_iff, <- not_true_iff_false, existsb_exists. rewrite <- E.
      split; intros [A B]; (split; [exact A|]); [right; intros I; apply B; exists n; split; [exact I|apply Nat.eqb_refl]|].
      intros (x & I & X). apply Nat.eqb_eq in X. subst x. tauto.
    + tauto.
Qed.
Lemma set_run_nodup ops : NoDup (set_run ops).
Proof.
  induction ops as [|op ops IH] using rev_ind; [constructor|]. rewrite set_run_app. destruct op as [l|l|]; cbn [set_step]; [destruct (entry_names l)|destruct (entry_names l)|constructor]; cbn [fst].
  - now apply set_update_nodup.
  - exact IH.
  - now apply NoDup_filter.
  - exact IH.
Qed.

Lemma insert_nat_perm x l : Permutation (insert_nat x l) (x :: l).
Proof. induction l as [|y l IH]; cbn [insert_nat]; [reflexivity|]. destruct (x <=? y); [reflexivity|]. rewrite IH. constructor. Qed.
Lemma sort_nats_perm l : Permutation (sort_nats l) l.
Proof. induction l as [|x l IH]; cbn; [reflexivity|]. fold (sort_nats l). now rewrite insert_nat_perm, IH. Qed.
Lemma insert_nat_sorted x l : StronglySorted lt l -> ~ In x l -> StronglySorted lt (insert_nat x l).
Proof.
  induction 1 as [|y l S IH F]; intros N; cbn [insert_nat]; [repeat constructor|]. rewrite Forall_forall in F.
  destruct (Nat.leb_spec x y) as [G|G].
  - assert (x <> y) by (intros ->; apply N; now left). constructor; [constructor; [exact S|now apply Forall_forall]|].
    constructor; [lia|]. apply Forall_forall. intros z I. specialize (F z I). lia.
  - constructor; [apply IH; intros I; apply N; now right|]. apply Forall_forall. intros z I. apply (Permutation_in _ (insert_nat_perm x l)) in I.
    destruct I as [<-|I]; [exact G|auto].
Qed.
Lemma sort_nats_sorted l : NoDup l -> StronglySorted lt (sort_nats l).
Proof.
  induction 1 as [|x l N D IH]; cbn; [constructor|]. fold (sort_nats l). apply insert_nat_sorted; [exact IH|].
  intros I. apply N. now apply (Permutation_in _ (sort_nats_perm l)).
Qed.

(** ** The rows in order, by symbol *)
Lemma insert_row_perm {A} (x : frame_row A) l : Permutation (insert_row x l) (x :: l).
Proof. induction l as [|y l IH]; cbn [insert_row]; [reflexivity|]. destruct (row_leb x y); [reflexivity|]. rewrite IH. constructor. Qed.
Lemma lexsort_perm {A} (l : list (frame_row A)) : Permutation (lexsort l) l.
Proof. induction l as [|x l IH]; cbn [lexsort]; [reflexivity|]. now rewrite insert_row_perm, IH. Qed.
Lemma split_first {A} s (l : list (frame_row A)) : StronglySorted row_le l -> (forall r, In r l -> s <= fr_sym r) ->
  l = of_sym s l ++ filter (fun r => negb (fr_sym r =? s)) l.
Proof.
  induction 1 as [|x l S IH F]; intros G; [easy|]. cbn [of_sym filter]. fold (of_sym s l). rewrite Forall_forall in F.
  destruct (Nat.eqb_spec (fr_sym x) s) as [E|E]; cbn [negb app].
  - f_equal. apply IH. intros r I. apply G. now right.
  - assert (Z : of_sym s l = []).
    { unfold of_sym. apply filter_nil. intros r I. apply Nat.eqb_neq. pose proof (F r I) as X. pose proof (G x (or_introl eq_refl)). unfold row_le in X. lia. }
    rewrite Z. cbn [app]. f_equal. specialize (IH (fun r I => G r (or_intror I))). now rewrite Z in IH.
Qed.
Lemma filter_sorted {X} (R : X -> X -> Prop) p l : StronglySorted R l -> StronglySorted R (filter p l).
Proof.
  induction 1 as [|x l S IH F]; cbn [filter]; [constructor|]. destruct (p x); [|exact IH]. constructor; [exact IH|].
  rewrite Forall_forall in *. intros y I. apply filter_In in I. now apply F.
Qed.
Lemma by_symbol {A} : forall ss (l : list (frame_row A)), StronglySorted row_le l -> StronglySorted lt ss -> (forall r, In r l -> In (fr_sym r) ss) ->
  flat_map (fun s => of_sym s l) ss = l.
Proof.
  induction ss as [|s ss IH]; intros l S T I.
  - destruct l as [|r l]; [easy|]. destruct (I r (or_introl eq_refl)).
  - inversion T as [|? ? T' F]; subst. rewrite Forall_forall in F. cbn [flat_map].
    assert (G : forall r, In r l -> s <= fr_sym r) by (intros r R; destruct (I r R) as [->|J]; [easy|apply F in J; lia]).
    transitivity (of_sym s l ++ filter (fun r => negb (fr_sym r =? s)) l); [|symmetry; now apply split_first]. f_equal.
    rewrite <- (IH (filter (fun r => negb (fr_sym r =? s)) l)); [|now apply filter_sorted|exact T'|].
    + rewrite !flat_map_concat_map. f_equal. apply map_ext_in. intros s' I'. apply F in I'. unfold of_sym. clear - I'.
      induction l as [|x l IH]; [easy|]. cbn [filter]. destruct (Nat.eqb_spec (fr_sym x) s) as [E|E]; cbn [negb].
      * destruct (Nat.eqb_spec (fr_sym x) s'); [lia|exact IH].
      * cbn [filter]. destruct (fr_sym x =? s'); [now f_equal|exact IH].
    + intros r R. apply filter_In in R. destruct R as [R N]. apply negb_true_iff, Nat.eqb_neq in N. destruct (I r R) as [E|J]; [now subst|exact J].
Qed.
Lemma combine_flat {S X Y} (f : S -> list X) (g : S -> list Y) : forall ss, (forall s, In s ss -> length (f s) = length (g s)) ->
  combine (flat_map f ss) (flat_map g ss) = flat_map (fun s => combine (f s) (g s)) ss.
Proof.
  induction ss as [|s ss IH]; intros H; [easy|]. cbn [flat_map]. rewrite <- IH by (intros; apply H; now right).
  assert (E : length (f s) = length (g s)) by (apply H; now left). revert E. generalize (f s) (g s). clear.
  induction l as [|x l IH]; intros [|y m] E; try discriminate; [easy|]. cbn. f_equal. apply IH. now injection E.
Qed.
Lemma pick_symbol {X} (f : nat -> list X) (p : X -> nat) s : forall ss, NoDup ss -> In s ss -> (forall s' x, In x (f s') -> p x = s') ->
  filter (fun x => p x =? s) (flat_map f ss) = f s.
Proof.
  induction ss as [|s' ss IH]; intros N I H; [easy|]. inversion N as [|? ? N1 N2]; subst. cbn [flat_map]. rewrite filter_app.
  assert (Z : forall t, ~ In s t -> filter (fun x => p x =? s) (flat_map f t) = []).
  { intros t T. apply filter_nil. intros x J. apply in_flat_map in J. destruct J as (u & U & J). apply H in J. apply Nat.eqb_neq. congruence. }
  destruct I as [->|I].
  - rewrite Z by exact N1. rewrite app_nil_r. apply filter_all. intros x J. apply H in J. now apply Nat.eqb_eq.
  - rewrite IH by assumption. rewrite filter_nil; [easy|]. intros x J. apply H in J. apply Nat.eqb_neq. congruence.
Qed.

(** ** Writing the columns *)
Lemma write_at {X} (pre rest v : list X) n : length v = n -> n <= length rest -> write (pre ++ rest) (length pre) n v = Ok (pre ++ v ++ skipn n rest).
Proof.
  intros E L. unfold write. rewrite E, Nat.eqb_refl, app_length. destruct (Nat.leb_spec (length pre + n) (length pre + length rest)); [|lia]. cbn [andb]. do 2 f_equal.
  - apply firstn_app_len.
  - f_equal. rewrite skipn_app. rewrite (skipn_all2 pre) by lia. cbn [app]. f_equal. lia.
Qed.
Lemma skipn_repeat {X} (x : X) n m : skipn n (repeat x m) = repeat x (m - n).
Proof. revert m. induction n as [|n IH]; intros [|m]; cbn; try easy; apply IH. Qed.
Lemma write_col_ok names name off n v g a : NoDup names -> In name names -> write (g name) off n v = Ok a ->
  write_col (map (fun k => (k, g k)) names) name off n v = Ok (map (fun k => (k, if k =? name then a else g k)) names).
Proof.
  induction names as [|k names IH]; intros N I W; [easy|]. inversion N as [|? ? N1 N2]; subst. cbn [map write_col].
  destruct (Nat.eqb_spec k name) as [->|E].
  - rewrite W. cbn [bind]. do 2 f_equal. apply map_ext_in. intros k K. destruct (Nat.eqb_spec k name) as [->|]; [now elim N1|easy].
  - destruct I as [->|I]; [easy|]. now rewrite (IH N2 I W).
Qed.
Lemma write_cols_ok names off n m pre : NoDup names -> (forall k, length (pre k) = off) -> n <= m -> forall entries g,
  NoDup (map (fun e => fst (fst e)) entries) -> (forall e, In e entries -> In (fst (fst e)) names /\ length (snd e) = n) ->
  (forall e, In e entries -> g (fst (fst e)) = pre (fst (fst e)) ++ repeat None m) ->
  exists g', write_cols (map (fun k => (k, g k)) names) off n entries = Ok (map (fun k => (k, g' k)) names) /\
    (forall e, In e entries -> g' (fst (fst e)) = pre (fst (fst e)) ++ map snd (snd e) ++ repeat None (m - n)) /\
    forall k, ~ In k (map (fun e => fst (fst e)) entries) -> g' k = g k.
Proof.
  intros N P M. induction entries as [|[[k s] ser] r IH]; intros g D I G.
  - exists g. split; [easy|]. now split.
  - inversion D as [|? ? D1 D2]; subst. cbn [map fst] in D1. destruct (I _ (or_introl eq_refl)) as [K L]. cbn [fst snd] in *.
    pose proof (G _ (or_introl eq_refl)) as Gk. cbn [fst] in Gk.
    assert (W : write (g k) off n (map snd ser) = Ok (pre k ++ map snd ser ++ repeat None (m - n))).
    { rewrite Gk, <- (P k). rewrite write_at; [now rewrite skipn_repeat|now rewrite map_length|now rewrite repeat_length]. }
    cbn [write_cols fst]. rewrite (write_col_ok _ _ _ _ _ _ _ N K W). cbn [bind].
    destruct (IH (fun k0 => if k0 =? k then pre k ++ map snd ser ++ repeat None (m - n) else g k0) D2) as (g' & E & A & B).
    + intros e Ie. apply I. now right.
    + intros e Ie. destruct (Nat.eqb_spec (fst (fst e)) k) as [X|X]; [|apply G; now right]. elim D1. rewrite <- X. now apply (in_map (fun e => fst (fst e))).
    + exists g'. split; [exact E|]. split.
      * intros e [<-|Ie]; [|now apply A]. cbn [fst snd]. rewrite B by exact D1. now rewrite Nat.eqb_refl.
      * intros k0 X. cbn [map fst In] in X. rewrite B by tauto. destruct (Nat.eqb_spec k0 k); [subst; tauto|easy].
Qed.

(** ** The loop over the symbols *)
Definition vals (d : data_dict) (k s : nat) : list (option Q) :=
  flat_map (fun e => map snd (snd e)) (filter (fun e => ind_sym_eqb (k, s) (fst e)) d).
Lemma vals_in d k s ser : NoDup (map fst d) -> In ((k, s), ser) d -> vals d k s = map snd ser.
Proof.
  unfold vals. induction d as [|[[k' s'] ser'] d IH]; intros N I; [easy|]. inversion N as [|? ? N1 N2]; subst. cbn [filter fst]. unfold ind_sym_eqb at 1. cbn [fst snd].
  destruct I as [[= -> -> ->]|I].
  - rewrite !Nat.eqb_refl. cbn [andb flat_map]. rewrite filter_nil; [cbn; now rewrite app_nil_r|].
    intros [[a b] c] X. destruct (ind_sym_eqb (k, s) _) eqn:E; [|easy]. unfold ind_sym_eqb in E. cbn in E. apply andb_true_iff in E. destruct E as [E1 E2].
    apply Nat.eqb_eq in E1, E2. subst. elim N1. now apply (in_map fst) in X.
  - destruct ((k =? k') && (s =? s')) eqn:E; [|now apply IH]. apply andb_true_iff in E. destruct E as [E1 E2]. apply Nat.eqb_eq in E1, E2. subst. elim N1. now apply (in_map fst) in I.
Qed.
Lemma fill_ok store d names (rows_of : nat -> list Z) : NoDup names -> NoDup (map fst d) -> forall ss ps pd pre,
  NoDup ss -> (forall s, In s ss -> exists cols, dict_get store s = Some (rows_of s, cols)) ->
  (forall k s ser, In ((k, s), ser) d -> In k names /\ length ser = length (rows_of s)) ->
  (forall k s, In k names -> In s ss -> exists ser, In ((k, s), ser) d) ->
  length pd = length ps -> (forall k, length (pre k) = length ps) ->
  let m := list_sum (map (fun s => length (rows_of s)) ss) in
  exists out, fill store d ss (length ps) (ps ++ repeat None m) (pd ++ repeat None m) (map (fun k => (k, pre k ++ repeat None m)) names) = Ok out /\
    o_syms out = ps ++ flat_map (fun s => repeat (Some s) (length (rows_of s))) ss /\
    o_dates out = pd ++ flat_map (fun s => map Some (rows_of s)) ss /\
    o_cols out = map (fun k => (k, pre k ++ flat_map (vals d k) ss)) names.
Proof.
  intros Nn Nd. induction ss as [|s ss IH]; intros ps pd pre Ns St Ent All Ld Lp.
  - cbn. eexists. split; [reflexivity|]. cbn. rewrite !app_nil_r. split; [easy|]. split; [easy|]. apply map_ext. intros k. now rewrite !app_nil_r.
  - inversion Ns as [|? ? Ns1 Ns2]; subst. set (m := list_sum (map (fun s => length (rows_of s)) ss)). set (n := length (rows_of s)).
    change (list_sum (map (fun s => length (rows_of s)) (s :: ss))) with (n + m). cbv zeta.
    destruct (St s (or_introl eq_refl)) as (cols & Ds). cbn [fill]. rewrite Ds. cbn [fst]. fold n.
    assert (Lr : length (repeat (@None nat) (n + m)) = n + m) by apply repeat_length.
    rewrite write_at; [|apply repeat_length|rewrite repeat_length; lia]. cbn [bind].
    rewrite <- Ld. rewrite write_at; [|now rewrite map_length|rewrite repeat_length; lia]. cbn [bind]. rewrite !skipn_repeat.
    replace (n + m - n) with m by lia.
    destruct (write_cols_ok names (length pd) n (n + m) pre Nn) with (entries := filter (fun e : ind_sym * series => snd (fst e) =? s) d) (g := fun k => pre k ++ repeat None (n + m)) as (g' & E & A & B).
    + intros k. now rewrite Lp.
    + lia.
    + clear - Nd. induction d as [|[[k s'] ser] d IH]; [constructor|]. inversion Nd as [|? ? N1 N2]; subst. cbn [filter fst snd]. destruct (Nat.eqb_spec s' s) as [->|]; [|auto].
      cbn [map fst]. constructor; [|auto]. intros I. apply in_map_iff in I. destruct I as ([[k' s''] ser'] & E & I). cbn in E. subst k'. apply filter_In in I. destruct I as [I X]. cbn in X. apply Nat.eqb_eq in X. subst s''.
      apply N1. now apply (in_map fst) in I.
    + intros [[k s'] ser] I. apply filter_In in I. destruct I as [I X]. cbn in *. apply Nat.eqb_eq in X. subst s'. now apply Ent in I.
    + easy.
    + unfold ind_sym in E. rewrite E. cbn [bind]. replace (n + m - n) with m in A by lia.
      assert (Gn : forall k, In k names -> g' k = (pre k ++ vals d k s) ++ repeat None m).
      { intros k K. destruct (All k s K (or_introl eq_refl)) as (ser & I). rewrite (vals_in d k s ser Nd I). rewrite <- app_assoc.
        apply (A ((k, s), ser)). apply filter_In. split; [exact I|]. cbn. apply Nat.eqb_refl. }
      assert (Lv : forall k, In k names -> length (vals d k s) = n).
      { intros k K. destruct (All k s K (or_introl eq_refl)) as (ser & I). rewrite (vals_in d k s ser Nd I), map_length. now apply (Ent k s ser). }
      destruct (IH (ps ++ repeat (Some s) n) (pd ++ map Some (rows_of s)) (fun k => if existsb (Nat.eqb k) names then pre k ++ vals d k s else pre k ++ repeat None n) Ns2) as (out & F & O1 & O2 & O3).
      * intros s' I. apply St. now right.
      * exact Ent.
      * intros k s' K I. apply All; [exact K|now right].
      * now rewrite !app_length, map_length, repeat_length, Ld.
      * intros k. destruct (existsb (Nat.eqb k) names) eqn:X.
        -- apply existsb_exists in X. destruct X as (y & K & Y). apply Nat.eqb_eq in Y. subst y. rewrite !app_length, repeat_length, Lv by exact K. now rewrite Lp.
        -- now rewrite !app_length, !repeat_length, Lp.
      * exists out. fold m in F. assert (Mp : map (fun k => (k, g' k)) names =
          map (fun k => (k, (if existsb (Nat.eqb k) names then pre k ++ vals d k s else pre k ++ repeat None n) ++ repeat None m)) names).
        { apply map_ext_in. intros k K. rewrite Gn by exact K. assert (X : existsb (Nat.eqb k) names = true) by (apply existsb_exists; exists k; split; [exact K|apply Nat.eqb_refl]). now rewrite X. }
        split; [|split; [|split]].
        -- rewrite Mp. rewrite <- F. rewrite !app_length, repeat_length, !app_assoc. f_equal. rewrite Ld. reflexivity.
        -- rewrite O1. cbn [flat_map]. fold n. now rewrite app_assoc.
        -- rewrite O2. cbn [flat_map]. now rewrite app_assoc.
        -- rewrite O3. apply map_ext_in. intros k K. assert (X : existsb (Nat.eqb k) names = true) by (apply existsb_exists; exists k; split; [exact K|apply Nat.eqb_refl]).
           rewrite X. cbn [flat_map]. now rewrite app_assoc.
Qed.
Lemma pick_cols_ok names f : forall l, (forall k, In k l -> In k names) -> pick_cols (map (fun k => (k, f k)) names) l = Ok (map (fun k => (k, f k)) l).
Proof.
  induction l as [|k l IH]; intros I; [easy|]. cbn [pick_cols].
  assert (G : dict_get (map (fun k => (k, f k)) names) k = Some (f k)).
  { assert (K : In k names) by (apply I; now left). clear - K. induction names as [|k' names IH]; [easy|]. cbn [map dict_get]. destruct (Nat.eqb_spec k k') as [->|E]; [easy|]. apply IH. destruct K; [now subst|easy]. }
  rewrite G, IH by (intros; apply I; now right). reflexivity.
Qed.
Lemma map_snd_combine {X Y} : forall (l : list X) (m : list Y), length l = length m -> map snd (combine l m) = m.
Proof. induction l as [|x l IH]; intros [|y m] E; try discriminate; [easy|]. cbn. f_equal. apply IH. now injection E. Qed.
