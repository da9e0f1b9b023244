(** Proofs about slicing, building and merging stores. *)
From Verif Require Import StoreSpec ScopeProofs Lemmas.
Open Scope list_scope.
Open Scope Z_scope.

(** ** Selected positions *)

Lemma isin_In x l : isin x l = true <-> In x l.
Proof.
  unfold isin. rewrite existsb_exists. split.
  - intros (y & I & E). apply Z.eqb_eq in E. now subst.
  - intros I. exists x. split; [easy|]. apply Z.eqb_refl.
Qed.

Lemma sorted_le_Sorted l : sorted_le l = true -> StronglySorted Z.le l.
Proof.
  intros H. apply Sorted_StronglySorted; [intros a b c; lia|].
  induction l as [|x [|y r] IH]; [constructor|repeat constructor|].
  cbn [sorted_le] in H. apply andb_true_iff in H. destruct H as (H1 & H2).
  constructor; [now apply IH|]. constructor. lia.
Qed.

Lemma strict_of l : StronglySorted Z.le l -> NoDup l -> StronglySorted Z.lt l.
Proof.
  induction 1 as [|x r S IH F]; intros N; [constructor|].
  inversion N; subst. constructor; [now apply IH|].
  rewrite Forall_forall in *. intros y I. specialize (F y I). assert (x <> y) by (intros ->; easy). lia.
Qed.

Lemma mask_ext (f g : Z -> bool) l i : (forall x, In x l -> f x = g x) -> true_positions i (map f l) = true_positions i (map g l).
Proof.
  revert i. induction l as [|x l IH]; intros i H; [easy|]. cbn [map true_positions].
  rewrite (H x) by now left. rewrite (IH (S i)); [easy|]. intros y I. apply H. now right.
Qed.

Lemma sorted_indices_mask dates : forall i target,
  StronglySorted Z.lt dates -> StronglySorted Z.le target ->
  sorted_indices i dates target = true_positions i (map (fun d => isin d target) dates).
Proof.
  induction dates as [|d ds IH]; intros i target SD ST; [easy|].
  inversion SD as [|? ? SD' FD]; subst. rewrite Forall_forall in FD.
  induction target as [|t ts IHt].
  - cbn [sorted_indices map true_positions]. unfold isin at 1. cbn [existsb].
    assert (E : forall j l, true_positions j (map (fun e : Z => isin e []) l) = []).
    { intros j l. revert j. induction l as [|x l IHl]; intros j; [easy|]. cbn. apply IHl. }
    now rewrite E.
  - inversion ST as [|? ? ST' FT]; subst. rewrite Forall_forall in FT.
    change (sorted_indices i (d :: ds) (t :: ts)) with
      (if d =? t then i :: sorted_indices (S i) ds ts
       else if d <? t then sorted_indices (S i) ds (t :: ts) else sorted_indices i (d :: ds) ts).
    assert (SAME : forall x, t < x -> isin x (t :: ts) = isin x ts).
    { intros x X. unfold isin. cbn [existsb]. destruct (Z.eqb_spec x t); [lia|easy]. }
    destruct (Z.eqb_spec d t) as [->|N].
    + cbn [map true_positions]. unfold isin at 1. cbn [existsb]. rewrite Z.eqb_refl. cbn [orb]. f_equal.
      rewrite IH by easy. apply mask_ext. intros x I. symmetry. apply SAME. now apply FD.
    + destruct (Z.ltb_spec d t) as [L|L].
      * cbn [map true_positions].
        destruct (isin d (t :: ts)) eqn:E.
        { apply isin_In in E. destruct E as [->|E]; [easy|]. specialize (FT d E). lia. }
        apply IH; easy.
      * rewrite IHt by easy. apply mask_ext. intros x [->|I]; symmetry; apply SAME; [lia|]. specialize (FD x I). lia.
Qed.

Lemma select_mask dates target :
  NoDup dates -> select_indices dates target = true_positions 0 (map (fun d => isin d target) dates).
Proof.
  intros N. unfold select_indices. destruct (sorted_le target) eqn:T; destruct (sorted_le dates) eqn:D; cbn [andb]; try easy.
  apply sorted_indices_mask.
  - apply strict_of; [now apply sorted_le_Sorted|easy].
  - now apply sorted_le_Sorted.
Qed.

(** ** Increasing positions and the two ways to cut them out *)

Lemma true_positions_ge m : forall i x, In x (true_positions i m) -> (i <= x < i + length m)%nat.
Proof.
  induction m as [|b m IH]; intros i x I; [easy|]. cbn [true_positions length] in *.
  destruct b; [destruct I as [->|I]; [lia|]|]; specialize (IH _ _ I); lia.
Qed.
Lemma true_positions_inc m : forall i, StronglySorted lt (true_positions i m).
Proof.
  induction m as [|b m IH]; intros i; [constructor|]. cbn [true_positions]. destruct b; [|apply IH].
  constructor; [apply IH|]. rewrite Forall_forall. intros x I. apply true_positions_ge in I. lia.
Qed.

Lemma inc_last l : StronglySorted lt l -> forall x r, l = x :: r -> (x + length r <= last l 0)%nat.
Proof.
  induction 1 as [|x r S IH F]; intros a b E; [easy|]. injection E as <- <-.
  destruct r as [|y r]; [cbn; lia|]. specialize (IH y r eq_refl).
  change (last (x :: y :: r) 0%nat) with (last (y :: r) 0%nat). inversion F; subst. cbn [length] in *. lia.
Qed.
Lemma inc_contiguous l : StronglySorted lt l -> forall x r, l = x :: r -> (last l 0 = x + length r)%nat -> l = seq x (length l).
Proof.
  induction 1 as [|x r S IH F]; intros a b E H; [easy|]. injection E as <- <-.
  destruct r as [|y r]; [easy|].
  change (last (x :: y :: r) 0%nat) with (last (y :: r) 0%nat) in H. cbn [length] in H.
  pose proof (inc_last _ S y r eq_refl). inversion F; subst.
  assert (y = Datatypes.S x) by lia. subst y. cbn [length seq]. f_equal.
  rewrite (IH (Datatypes.S x) r eq_refl) at 1; [easy|]. lia.
Qed.
Lemma rev_last (l : list nat) x r : rev l = x :: r -> last l 0%nat = x.
Proof.
  intros E. rewrite <- (rev_involutive l), E. cbn [rev]. now rewrite last_last.
Qed.

Lemma gather_Some {B} (l : list B) idx : (forall i, In i idx -> (i < length l)%nat) ->
  exists g, gather l idx = Some g /\ length g = length idx /\
    forall j i, nth_error idx j = Some i -> nth_error g j = nth_error l i.
Proof.
  induction idx as [|i idx IH]; intros H.
  - exists []. repeat split. intros [|j] i [=].
  - destruct IH as (g & G & L & N); [intros; apply H; now right|].
    cbn [gather]. destruct (nth_error l i) as [x|] eqn:E.
    2: { apply nth_error_None in E. specialize (H i (or_introl eq_refl)). lia. }
    rewrite G. exists (x :: g). split; [easy|]. split; [cbn; now rewrite L|].
    intros [|j] k; cbn [nth_error]; [intros [= <-]; now rewrite E|apply N].
Qed.

Lemma gather_seq {B} (l : list B) : forall n a, (a + n <= length l)%nat -> gather l (seq a n) = Some (firstn n (skipn a l)).
Proof.
  induction n as [|n IH]; intros a H; [easy|]. cbn [seq gather].
  rewrite IH by lia.
  assert (E : exists x, nth_error l a = Some x /\ skipn a l = x :: skipn (S a) l).
  { clear IH. revert l H. induction a as [|a IHa]; intros [|y l] H; cbn in H; try lia.
    - now exists y.
    - destruct (IHa l ltac:(lia)) as (x & X1 & X2). exists x. split; [easy|]. exact X2. }
  destruct E as (x & -> & ->). easy.
Qed.

Lemma gather_mask {B} : forall (l : list B) (mask : list bool) (pre : list B), length mask = length l ->
  gather (pre ++ l) (true_positions (length pre) mask) = Some (map snd (filter fst (combine mask l))).
Proof.
  induction l as [|x l IH]; intros [|b mask] pre H; try easy.
  cbn [true_positions combine filter fst]. injection H as H.
  specialize (IH mask (pre ++ [x]) H). rewrite <- app_assoc in IH. cbn [app] in IH.
  rewrite app_length in IH. cbn [length] in IH. rewrite Nat.add_1_r in IH.
  destruct b; [|exact IH]. cbn [gather]. rewrite nth_error_app2, Nat.sub_diag by lia. cbn [nth_error].
  rewrite IH. easy.
Qed.

Lemma on_dates_mask {B} target dates (l : list B) : length l = length dates ->
  map snd (filter fst (combine (map (fun d => isin d target) dates) l)) = on_dates target dates l.
Proof.
  unfold on_dates. revert l. induction dates as [|d dates IH]; intros [|x l] H; try easy.
  cbn [map combine filter fst]. injection H as H. specialize (IH l H). unfold isin at 1.
  destruct (existsb (Z.eqb d) target); cbn [map snd]; now rewrite IH.
Qed.

Lemma gather_on_dates {B} target dates (l : list B) : length l = length dates ->
  gather l (true_positions 0 (map (fun d => isin d target) dates)) = Some (on_dates target dates l).
Proof.
  intros H. rewrite <- on_dates_mask by easy.
  apply (gather_mask l (map (fun d => isin d target) dates) []). rewrite map_length. lia.
Qed.

(** The two paths give the same columns. *)
Definition gathered {A} (cols : list (nat * (bool * list A))) (indices : list nat) (cols' : list (nat * (bool * list A))) : Prop :=
  Forall2 (fun c c' => fst c = fst c' /\ fst (snd c) = fst (snd c') /\ gather (snd (snd c)) indices = Some (snd (snd c'))) cols cols'.

Lemma gather_cols_ok {A} (cast : A -> A) n indices cols :
  (forall i, In i indices -> (i < n)%nat) ->
  (forall name num col, In (name, (num, col)) cols -> length col = n /\ (num = true -> forall x, In x col -> cast x = x)) ->
  exists cols', gather_cols cast cols indices = Some cols' /\ gathered cols indices cols'.
Proof.
  intros I. induction cols as [|[name [num col]] cols IH]; intros H.
  - exists []. split; [easy|constructor].
  - destruct IH as (cs & C1 & C2); [intros; eapply H; right; eassumption|].
    destruct (H name num col (or_introl eq_refl)) as (L & K).
    assert (E : (if num then map cast col else col) = col).
    { destruct num; [|easy]. rewrite <- (map_id col) at 2. apply map_ext_in. auto. }
    cbn [gather_cols]. rewrite E, C1.
    destruct (gather_Some col indices) as (g & G & _ & _); [intros i J; rewrite L; auto|].
    rewrite G. exists ((name, (num, g)) :: cs). split; [easy|]. constructor; [easy|exact C2].
Qed.

Lemma build_sliced_ok {A} (cast : A -> A) dates (cols : list (nat * (bool * list A))) indices :
  StronglySorted lt indices -> indices <> [] -> (forall i, In i indices -> (i < length dates)%nat) ->
  (forall name num col, In (name, (num, col)) cols -> length col = length dates /\ (num = true -> forall x, In x col -> cast x = x)) ->
  exists d', build_sliced cast dates cols indices = Some (Some d') /\
    exists ds, sd_dates d' = Some ds /\ gather dates indices = Some ds /\ gathered cols indices (sd_cols d').
Proof.
  intros S NE I H. unfold build_sliced.
  destruct indices as [|first r] eqn:EI; [easy|]. rewrite <- EI in *.
  destruct (rev indices) as [|lst r'] eqn:R.
  { apply (f_equal (@rev nat)) in R. rewrite rev_involutive in R. subst. easy. }
  pose proof (rev_last _ _ _ R) as LST.
  destruct (Nat.eqb_spec (lst - first + 1) (length indices)) as [E|E].
  - pose proof (inc_last _ S first r EI) as IL. rewrite LST in IL.
    assert (LR : length indices = Datatypes.S (length r)) by now rewrite EI.
    pose proof (inc_contiguous _ S first r EI ltac:(lia)) as SEQ.
    assert (LI : In lst indices) by (rewrite in_rev, R; now left). specialize (I lst LI).
    assert (CUT : forall (B : Type) (l : list B), length l = length dates ->
      gather l indices = Some (firstn (lst + 1 - first) (skipn first l))).
    { intros B l LL. rewrite SEQ, gather_seq by lia. repeat f_equal. lia. }
    eexists. split; [reflexivity|]. cbn [sd_dates sd_cols]. eexists. split; [reflexivity|].
    split; [now apply CUT|]. unfold gathered. clear -H CUT.
    induction cols as [|[name [num col]] cols IH]; [constructor|]. cbn [map]. constructor.
    + cbn [fst snd]. split; [easy|]. split; [easy|]. apply CUT. apply (H name num col). now left.
    + apply IH. intros; eapply H; right; eassumption.
  - destruct (gather_Some dates indices I) as (ds & G & _ & _). rewrite G.
    destruct (gather_cols_ok cast (length dates) indices cols I H) as (cs & C1 & C2). rewrite C1.
    eexists. split; [reflexivity|]. exists ds. auto.
Qed.

Lemma lookup_In {V} k (v : V) l : lookup k l = Some v -> In (k, v) l.
Proof.
  induction l as [|[k' v'] l IH]; cbn [lookup]; [easy|].
  destruct (Nat.eqb_spec k k') as [->|]; [intros [= ->]; now left|right; auto].
Qed.
Lemma In_lookup {V} k (v : V) l : NoDup (map fst l) -> In (k, v) l -> lookup k l = Some v.
Proof.
  induction l as [|[k' v'] l IH]; [easy|]. intros N [E|E]; inversion N; subst; cbn [lookup].
  - injection E as -> ->. now rewrite Nat.eqb_refl.
  - destruct (Nat.eqb_spec k k') as [->|]; [|auto]. exfalso. apply H1. now apply (in_map fst) in E.
Qed.
Lemma lookup_None {V} k (l : list (nat * V)) : lookup k l = None <-> ~ In k (map fst l).
Proof.
  induction l as [|[k' v'] l IH]; cbn [lookup map fst]; [easy|].
  destruct (Nat.eqb_spec k k') as [->|N].
  - split; [easy|]. intros H. exfalso. apply H. now left.
  - rewrite IH. cbn [In]. split; [intros H [->|K]; auto|auto].
Qed.
Lemma gathered_lookup {A} (cols : list (nat * (bool * list A))) indices cols' name num col :
  gathered cols indices cols' -> lookup name cols = Some (num, col) ->
  exists col', lookup name cols' = Some (num, col') /\ gather col indices = Some col'.
Proof.
  induction 1 as [|[n [m c]] [n' [m' c']] cols cols' (E1 & E2 & E3) F IH]; cbn [lookup]; [easy|].
  cbn [fst snd] in *. subst n' m'. destruct (Nat.eqb name n); [|exact IH].
  intros [= -> ->]. exists c'. auto.
Qed.
Lemma gathered_names {A} (cols : list (nat * (bool * list A))) indices cols' :
  gathered cols indices cols' -> map fst cols' = map fst cols.
Proof. induction 1 as [|a b l l' (E & _) F IH]; [easy|]. cbn. now rewrite IH, E. Qed.

(** The whole store. *)
Lemma slice_symbols_ok {A} (cast : A -> A) target : forall s : array_store A, store_ok cast s ->
  exists s', slice_symbols cast s target = Some s' /\
    (forall sym, In sym (map fst s') -> In sym (map fst s)) /\
    forall sym d, In (sym, d) s ->
      match sd_dates d with
      | None => lookup sym s' = None
      | Some dates =>
          (on_dates target dates dates = [] -> lookup sym s' = None) /\
          (on_dates target dates dates <> [] -> exists d', lookup sym s' = Some d' /\
             sd_dates d' = Some (on_dates target dates dates) /\ map fst (sd_cols d') = map fst (sd_cols d) /\
             forall name num col, lookup name (sd_cols d) = Some (num, col) ->
               lookup name (sd_cols d') = Some (num, on_dates target dates col))
      end.
Proof.
  induction s as [|[sym d] s IH]; intros (N & H).
  - exists []. repeat split; easy.
  - inversion N as [|? ? N1 N2]; subst.
    destruct IH as (s' & E & K1 & K2); [split; [easy|intros; eapply H; [right; eassumption|easy]]|].
    cbn [slice_symbols]. rewrite E.
    assert (ABS : lookup sym s' = None) by (apply lookup_None; intros I; now apply K1 in I).
    assert (SKIP : forall z : nat * sym_data A, In z s -> fst z <> sym).
    { intros z I E'. apply N1. rewrite <- E'. now apply in_map. }
    destruct (sd_dates d) as [dates|] eqn:D.
    2: { exists s'. split; [easy|]. split; [intros x I; right; auto|]. intros y e [[= <- <-]|I]; [now rewrite D|now apply K2]. }
    destruct (H sym d (or_introl eq_refl) dates D) as (ND & HC).
    assert (KEEP : slice_symbols cast s target = Some s' -> on_dates target dates dates = [] ->
       (forall y, In y (map fst s') -> In y (sym :: map fst s)) /\
       forall y e, In (y, e) ((sym, d) :: s) ->
       match sd_dates e with
       | None => lookup y s' = None
       | Some ds => (on_dates target ds ds = [] -> lookup y s' = None) /\
          (on_dates target ds ds <> [] -> exists d', lookup y s' = Some d' /\
             sd_dates d' = Some (on_dates target ds ds) /\ map fst (sd_cols d') = map fst (sd_cols e) /\
             forall name num col, lookup name (sd_cols e) = Some (num, col) ->
               lookup name (sd_cols d') = Some (num, on_dates target ds col))
       end).
    { intros _ Z. split; [intros y I; right; auto|]. intros y e [[= <- <-]|I]; [rewrite D; split; [easy|congruence]|now apply K2]. }
    destruct dates as [|d0 ds] eqn:DD.
    { exists s'. split; [easy|]. apply KEEP; easy. }
    rewrite <- DD in *. clear DD d0 ds.
    pose proof (gather_on_dates target dates dates eq_refl) as GD. rewrite <- select_mask in GD by easy.
    pose proof (select_mask dates target ND) as SM.
    destruct (select_indices dates target) as [|i0 ir] eqn:SI.
    { exists s'. split; [easy|]. apply KEEP; [easy|]. cbn in GD. congruence. }
    rewrite <- SI in *.
    destruct (build_sliced_ok cast dates (sd_cols d) (select_indices dates target)) as (d' & B & ds & D1 & D2 & D3).
    + rewrite SM. apply true_positions_inc.
    + now rewrite SI.
    + rewrite SM. intros i I. apply true_positions_ge in I. rewrite map_length in I. lia.
    + exact HC.
    + rewrite B. exists ((sym, d') :: s'). split; [easy|]. split.
      { cbn [map fst]. intros y [->|I]; [now left|right; auto]. }
      intros y e [[= <- <-]|I].
      * rewrite D. cbn [lookup]. rewrite Nat.eqb_refl.
        assert (X : ds = on_dates target dates dates) by congruence.
        assert (NE : on_dates target dates dates <> []).
        { rewrite <- X. destruct (gather_Some dates (select_indices dates target)) as (g & G1 & G2 & _).
          - rewrite SM. intros i I. apply true_positions_ge in I. rewrite map_length in I. lia.
          - rewrite D2 in G1. injection G1 as <-. rewrite SI in G2. destruct ds; easy. }
        split; [congruence|]. intros _. exists d'. split; [easy|]. split; [now rewrite D1, X|].
        split; [now apply gathered_names in D3|].
        intros name num col L. destruct (gathered_lookup _ _ _ _ _ _ D3 L) as (col' & L1 & L2).
        rewrite L1. rewrite SM, gather_on_dates in L2; [congruence|]. apply lookup_In in L. now apply HC in L.
      * specialize (K2 y e I). specialize (SKIP _ I). cbn [fst] in SKIP. cbn [lookup].
        destruct (Nat.eqb_spec y sym); [easy|exact K2].
Qed.

(** ** The frame *)

Lemma filter_nil {B} (f : B -> bool) l : (forall x, In x l -> f x = false) -> filter f l = [].
Proof.
  induction l as [|x l IH]; intros H; [easy|]. cbn [filter]. rewrite (H x (or_introl eq_refl)). apply IH. auto using in_cons.
Qed.
Lemma filter_all {B} (f : B -> bool) l : (forall x, In x l -> f x = true) -> filter f l = l.
Proof.
  induction l as [|x l IH]; intros H; [easy|]. cbn [filter]. rewrite (H x (or_introl eq_refl)). f_equal. apply IH. auto using in_cons.
Qed.

Definition row_le {A} (a b : frame_row A) : Prop := (fr_sym a < fr_sym b)%nat \/ (fr_sym a = fr_sym b /\ fr_date a <= fr_date b).
Lemma row_leb_le {A} (a b : frame_row A) : row_leb a b = true <-> row_le a b.
Proof.
  unfold row_leb, row_le. rewrite orb_true_iff, andb_true_iff, Nat.ltb_lt, Nat.eqb_eq, Z.leb_le. easy.
Qed.
Lemma row_le_total {A} (a b : frame_row A) : row_leb a b = false -> row_le b a.
Proof.
  intros H. destruct (row_leb b a) eqn:E; [now apply row_leb_le|].
  unfold row_leb in *. apply orb_false_iff in H, E. rewrite andb_false_iff in *. rewrite Nat.ltb_ge, Nat.eqb_neq, Z.leb_gt in *.
  unfold row_le. lia.
Qed.
Lemma insert_In {A} (x : frame_row A) l y : In y (insert_row x l) <-> y = x \/ In y l.
Proof.
  induction l as [|z l IH]; cbn [insert_row In]; [intuition congruence|].
  destruct (row_leb x z); cbn [In]; [intuition congruence|]. rewrite IH. intuition congruence.
Qed.
Lemma insert_sorted {A} (x : frame_row A) l : StronglySorted row_le l -> StronglySorted row_le (insert_row x l).
Proof.
  induction 1 as [|y l S IH F]; cbn [insert_row]; [repeat constructor|].
  rewrite Forall_forall in F.
  destruct (row_leb x y) eqn:E.
  - apply row_leb_le in E. constructor; [constructor; [easy|now apply Forall_forall]|].
    constructor; [easy|]. apply Forall_forall. intros z I. specialize (F z I). unfold row_le in *. lia.
  - constructor; [easy|]. apply Forall_forall. intros z I. apply insert_In in I. destruct I as [->|I]; [now apply row_le_total|auto].
Qed.
Lemma lexsort_sorted {A} (l : list (frame_row A)) : StronglySorted row_le (lexsort l).
Proof. induction l as [|x l IH]; [constructor|]. now apply insert_sorted. Qed.
Lemma lexsort_In {A} (l : list (frame_row A)) x : In x (lexsort l) <-> In x l.
Proof. induction l as [|y l IH]; [easy|]. cbn [lexsort In]. rewrite insert_In, IH. intuition congruence. Qed.

Lemma insert_rows_at {A} sym date (x : frame_row A) l : StronglySorted row_le l ->
  rows_at sym date (insert_row x l) = rows_at sym date (x :: l).
Proof.
  unfold rows_at. induction 1 as [|y l S IH F]; [easy|]. cbn [insert_row].
  destruct (row_leb x y) eqn:E; [easy|]. cbn [filter] in *. rewrite IH.
  destruct (Nat.eqb_spec (fr_sym x) sym) as [X|X]; destruct (Z.eqb_spec (fr_date x) date) as [X'|X']; cbn [andb]; try easy.
  destruct (Nat.eqb_spec (fr_sym y) sym) as [Y|Y]; destruct (Z.eqb_spec (fr_date y) date) as [Y'|Y']; cbn [andb]; try easy.
  exfalso. unfold row_leb in E. apply orb_false_iff in E. rewrite andb_false_iff, Nat.ltb_ge, Nat.eqb_neq, Z.leb_gt in E. lia.
Qed.
Lemma lexsort_rows_at {A} sym date (l : list (frame_row A)) : rows_at sym date (lexsort l) = rows_at sym date l.
Proof.
  induction l as [|x l IH]; [easy|]. cbn [lexsort]. rewrite insert_rows_at by apply lexsort_sorted.
  unfold rows_at in *. cbn [filter]. now rewrite IH.
Qed.

(** Bins of sorted rows. *)
Definition of_sym {A} (sym : nat) (l : list (frame_row A)) : list (frame_row A) := filter (fun r => Nat.eqb (fr_sym r) sym) l.
Definition cut_bin {A} (sorted : list (frame_row A)) (b : nat * nat) : nat * list (frame_row A) :=
  (nth (fst b) (map fr_sym sorted) 0%nat, firstn (snd b + 1 - fst b) (skipn (fst b) sorted)).

Lemma skipn_app_len {B} (p q : list B) : skipn (length p) (p ++ q) = q.
Proof. rewrite skipn_app, skipn_all, Nat.sub_diag. easy. Qed.
Lemma firstn_app_len {B} (p q : list B) : firstn (length p) (p ++ q) = p.
Proof. rewrite firstn_app, firstn_all, Nat.sub_diag. cbn. apply app_nil_r. Qed.

Lemma sym_bins_ok {A} (rest : list (frame_row A)) : forall (pre g : list (frame_row A)) prev,
  StronglySorted row_le (pre ++ g ++ rest) -> g <> [] -> (forall x, In x g -> fr_sym x = prev) ->
  forall bins, bins = sym_bins (length pre + length g) (length pre) prev (map fr_sym rest) ->
  (forall b, In b bins -> (fst b <= snd b < length (pre ++ g ++ rest))%nat) /\
  forall sym, lookup sym (map (cut_bin (pre ++ g ++ rest)) bins) =
    match of_sym sym (g ++ rest) with [] => None | l => Some l end.
Proof.
  induction rest as [|x rest IH]; intros pre g prev S NE G bins ->.
  - cbn [map sym_bins].
    assert (LG : (0 < length g)%nat) by (destruct g; [easy|cbn; lia]).
    split. { intros b [<-|[]]. cbn [fst snd]. rewrite !app_length. cbn. lia. }
    intros sym. rewrite app_nil_r. unfold cut_bin. cbn [fst snd map lookup].
    rewrite map_app, app_nth2 by (rewrite map_length; lia). rewrite map_length, Nat.sub_diag.
    replace (length pre + length g - 1 + 1 - length pre)%nat with (length g) by lia.
    rewrite skipn_app_len, firstn_all.
    destruct g as [|y g]; [easy|]. cbn [map nth]. rewrite (G y (or_introl eq_refl)).
    destruct (Nat.eqb_spec sym prev) as [->|N].
    + unfold of_sym. rewrite filter_all; [easy|]. intros z I. rewrite (G z I). apply Nat.eqb_refl.
    + unfold of_sym. rewrite filter_nil; [easy|]. intros z I. rewrite (G z I). apply Nat.eqb_neq. lia.
  - cbn [map sym_bins].
    assert (LG : (0 < length g)%nat) by (destruct g; [easy|cbn; lia]).
    destruct (Nat.eqb_spec (fr_sym x) prev) as [E|E].
    + specialize (IH pre (g ++ [x]) prev). rewrite <- !app_assoc in IH. cbn [app] in IH.
      rewrite app_length in IH. cbn [length] in IH. rewrite Nat.add_1_r, Nat.add_succ_r in IH.
      rewrite E. apply IH; [easy|destruct g; easy| |easy].
      intros z I. apply in_app_iff in I. destruct I as [I|[<-|[]]]; auto.
    + specialize (IH (pre ++ g) [x] (fr_sym x)). rewrite <- !app_assoc in IH. cbn [app] in IH.
      rewrite app_length in IH. cbn [length] in IH. rewrite Nat.add_1_r in IH.
      destruct (IH S ltac:(easy) ltac:(intros z [->|[]]; easy) _ eq_refl) as (IH1 & IH2).
      split. { intros b [<-|I]; [cbn [fst snd]; rewrite !app_length; cbn [length]; lia|now apply IH1]. }
      intros sym. cbn [map lookup]. rewrite IH2. unfold cut_bin at 1. cbn [fst snd].
      rewrite map_app, app_nth2 by (rewrite map_length; lia). rewrite map_length, Nat.sub_diag.
      replace (length pre + length g - 1 + 1 - length pre)%nat with (length g) by lia.
      rewrite skipn_app_len, firstn_app_len.
      assert (HG : nth 0 (map fr_sym (g ++ x :: rest)) 0%nat = prev).
      { destruct g as [|y g]; [easy|]. cbn [map app nth]. now apply G; left. }
      cbn [lookup]. rewrite HG.
      destruct (Nat.eqb_spec sym prev) as [->|N].
      * unfold of_sym. rewrite filter_app.
        rewrite (filter_all _ g) by (intros z I; rewrite (G z I); apply Nat.eqb_refl).
        rewrite (filter_nil _ (x :: rest)), app_nil_r; [destruct g; easy|].
        intros z I. apply Nat.eqb_neq.
        assert (Q : forall z, In z (x :: rest) -> (prev <= fr_sym z)%nat /\ ((fr_sym x <= fr_sym z)%nat)).
        { clear -S G NE. intros z I.
          assert (SS : StronglySorted row_le (g ++ x :: rest)).
          { clear -S. induction pre as [|p pre IHp]; [easy|]. cbn in S. inversion S; auto. }
          split.
          - destruct g as [|y g]; [easy|]. cbn [app] in SS. inversion SS as [|? ? _ F]; subst. rewrite Forall_forall in F.
            specialize (F z ltac:(apply in_app_iff; now right)). rewrite <- (G y (or_introl eq_refl)). unfold row_le in F. lia.
          - assert (S2 : StronglySorted row_le (x :: rest)).
            { clear -SS. induction g as [|p g IHp]; [easy|]. cbn in SS. inversion SS; auto. }
            inversion S2 as [|? ? _ F]; subst. rewrite Forall_forall in F. destruct I as [->|I]; [lia|].
            specialize (F z I). unfold row_le in F. lia. }
        destruct (Q x (or_introl eq_refl)). destruct (Q z I). lia.
      * unfold of_sym. rewrite filter_app. rewrite (filter_nil _ g); [easy|].
        intros z I. rewrite (G z I). apply Nat.eqb_neq. lia.
Qed.

Lemma find_sym_bins_ok {A} (sorted : list (frame_row A)) : StronglySorted row_le sorted ->
  (forall b, In b (find_sym_bins (map fr_sym sorted)) -> (fst b <= snd b < length sorted)%nat) /\
  forall sym, lookup sym (map (cut_bin sorted) (find_sym_bins (map fr_sym sorted))) =
    match of_sym sym sorted with [] => None | l => Some l end.
Proof.
  intros S. destruct sorted as [|x rest]; [easy|].
  apply (sym_bins_ok rest [] [x] (fr_sym x)); try easy. intros z [->|[]]; easy.
Qed.

Lemma filter_same_length {B} (f : B -> bool) l : length (filter f l) = length l -> filter f l = l.
Proof.
  induction l as [|x l IH]; intros H; [easy|]. cbn [filter] in *. destruct (f x); cbn [length] in H.
  - f_equal. apply IH. lia.
  - assert (length (filter f l) <= length l)%nat by (clear; induction l as [|y l IH]; cbn; [lia|destruct (f y); cbn; lia]). lia.
Qed.

Lemma compact_ok {A} (sorted : list (frame_row A)) sel : forall pre,
  (forall x, In x sel -> (snd (fst x) <= snd x <= length sorted)%nat) ->
  let cut x := firstn (snd x - snd (fst x)) (skipn (snd (fst x)) sorted) in
  map (fun o => (fst o, firstn (snd (snd o) - fst (snd o)) (skipn (fst (snd o)) (pre ++ flat_map cut sel))))
      (compact_offsets (length pre) sel) =
  map (fun x : nat * nat * nat => (fst (fst x), cut x)) sel.
Proof.
  induction sel as [|[[sym s] e] sel IH]; intros pre H cut; [easy|].
  cbn [compact_offsets map flat_map fst snd].
  assert (L : length (cut (sym, s, e)) = (e - s)%nat).
  { unfold cut. cbn [fst snd]. rewrite firstn_length, skipn_length. specialize (H _ (or_introl eq_refl)). cbn in H. lia. }
  f_equal.
  - f_equal. rewrite skipn_app_len. replace (length pre + (e - s) - length pre)%nat with (length (cut (sym, s, e))) by lia.
    apply firstn_app_len.
  - specialize (IH (pre ++ cut (sym, s, e)) ltac:(intros; apply H; now right)). cbv zeta in IH. fold cut in IH.
    rewrite <- app_assoc in IH. rewrite app_length, L in IH. exact IH.
Qed.

Lemma lookup_filter {V} (want : nat -> bool) k (l : list (nat * V)) :
  lookup k (filter (fun x => want (fst x)) l) = if want k then lookup k l else None.
Proof.
  induction l as [|[k' v] l IH]; cbn [filter lookup fst]; [now destruct (want k)|].
  destruct (want k') eqn:W; cbn [lookup]; destruct (Nat.eqb_spec k k') as [->|]; rewrite ?W in *; try exact IH; easy.
Qed.
Lemma map_filter {X Y} (f : X -> Y) (p : X -> bool) (q : Y -> bool) l :
  (forall x, p x = q (f x)) -> map f (filter p l) = filter q (map f l).
Proof.
  intros H. induction l as [|x l IH]; [easy|]. cbn [filter map]. rewrite <- H. destruct (p x); cbn [map]; now rewrite IH.
Qed.

Lemma store_from_flat_lookup {A} (frame : list (frame_row A)) symbols sym :
  lookup sym (store_from_flat frame symbols) =
    if match symbols with None => true | Some want => existsb (Nat.eqb sym) want end
    then match of_sym sym (lexsort frame) with [] => None | l => Some l end
    else None.
Proof.
  unfold store_from_flat. set (sorted := lexsort frame). set (ids := map fr_sym sorted).
  set (want := fun k => match symbols with None => true | Some w => existsb (Nat.eqb k) w end).
  change (match symbols with None => true | Some w => existsb (Nat.eqb sym) w end) with (want sym).
  set (all := map (fun b => (nth (fst b) ids 0%nat, fst b, (snd b + 1)%nat)) (find_sym_bins ids)).
  set (cut := fun x : nat * nat * nat => firstn (snd x - snd (fst x)) (skipn (snd (fst x)) sorted)).
  assert (SEL : selected_bins ids symbols = filter (fun x => want (fst (fst x))) all).
  { unfold selected_bins. fold all. unfold want. destruct symbols; [easy|]. now rewrite filter_all. }
  destruct (find_sym_bins_ok sorted (lexsort_sorted frame)) as (BOUND & LOOK).
  assert (ALL : map (fun x => (fst (fst x), cut x)) all = map (cut_bin sorted) (find_sym_bins ids)).
  { unfold all. rewrite map_map. apply map_ext. intros b. easy. }
  assert (GOAL : lookup sym (map (fun x => (fst (fst x), cut x)) (selected_bins ids symbols)) =
     if want sym then match of_sym sym sorted with [] => None | l => Some l end else None).
  { rewrite SEL. rewrite (map_filter _ _ (fun y => want (fst y))) by easy. rewrite lookup_filter, ALL. now rewrite LOOK. }
  rewrite <- GOAL. clear GOAL.
  destruct (Nat.eqb (length (selected_bins ids symbols)) (length (find_sym_bins ids))).
  - f_equal. rewrite map_map. apply map_ext. intros x. easy.
  - f_equal. apply (compact_ok sorted (selected_bins ids symbols) []).
    rewrite SEL. intros x I. apply filter_In in I. destruct I as (I & _). unfold all in I. apply in_map_iff in I.
    destruct I as (b & <- & I). cbn [fst snd]. specialize (BOUND b I). lia.
Qed.

(** ** Merging *)
Lemma lookup_map_keys {V} (f : nat -> V) k keys :
  lookup k (map (fun x => (x, f x)) keys) = if existsb (Nat.eqb k) keys then Some (f k) else None.
Proof.
  induction keys as [|x keys IH]; [easy|]. cbn [map lookup existsb]. destruct (Nat.eqb_spec k x) as [->|]; [easy|exact IH].
Qed.
Lemma lookup_flat {V} (f : nat -> option V) k keys :
  lookup k (flat_map (fun x => match f x with Some a => [(x, a)] | None => [] end) keys) =
  if existsb (Nat.eqb k) keys then f k else None.
Proof.
  induction keys as [|x keys IH]; [easy|]. cbn [flat_map existsb]. destruct (Nat.eqb_spec k x) as [->|N].
  - destruct (f x) as [a|] eqn:E; cbn [app lookup orb]; [now rewrite Nat.eqb_refl|].
    rewrite IH. destruct (existsb (Nat.eqb x) keys); congruence.
  - destruct (f x) as [a|]; cbn [app lookup orb]; [|exact IH]. apply Nat.eqb_neq in N. now rewrite N.
Qed.
Lemma existsb_union k a b : existsb (Nat.eqb k) (nat_union a b) = existsb (Nat.eqb k) a || existsb (Nat.eqb k) b.
Proof.
  unfold nat_union. rewrite existsb_app. destruct (existsb (Nat.eqb k) a) eqn:E; [easy|]. cbn [orb].
  induction b as [|x b IH]; [easy|]. cbn [filter existsb].
  destruct (Nat.eqb_spec k x) as [->|N].
  - rewrite E. cbn [negb existsb]. now rewrite Nat.eqb_refl.
  - destruct (negb (existsb (Nat.eqb x) a)); cbn [existsb]; [|exact IH].
    apply Nat.eqb_neq in N. now rewrite N, IH.
Qed.
Lemma existsb_lookup {V} k (l : list (nat * V)) : existsb (Nat.eqb k) (map fst l) = match lookup k l with Some _ => true | None => false end.
Proof. induction l as [|[x v] l IH]; [easy|]. cbn [map existsb lookup fst]. destruct (Nat.eqb k x); [easy|exact IH]. Qed.
Lemma merge_stores_column {A} (left right : store A) sym name :
  column (merge_stores left right) sym name = merge_col (column left sym name) (column right sym name).
Proof.
  unfold merge_stores. unfold column at 1. rewrite lookup_map_keys, existsb_union, !existsb_lookup.
  destruct (lookup sym left) as [cl|] eqn:L; destruct (lookup sym right) as [cr|] eqn:R; cbn [orb];
    try (rewrite lookup_flat, existsb_union, !existsb_lookup; unfold column; rewrite L, R; cbn [merge_col existsb lookup map]).
  - destruct (lookup name cl), (lookup name cr); easy.
  - destruct (lookup name cl); easy.
  - destruct (lookup name cr); easy.
  - unfold column. rewrite L, R. easy.
Qed.
