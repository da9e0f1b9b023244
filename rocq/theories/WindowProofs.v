(** Proofs about the data of a walkforward window. *)
From Verif Require Import Lemmas StoreProofs ScopeProofs PropStore WalkProofs PropWalk.
From Verif Require Export WindowSpec.
From Coq Require Import Sorting.Sorted Permutation.
Import ListNotations.
Open Scope list_scope.
Open Scope Z_scope.

(** *** The store of the whole run *)
Lemma bins_keys : forall ids rest i start prev, nth start ids 0%nat = prev -> skipn i ids = rest -> (i <= length ids)%nat ->
  StronglySorted le (prev :: rest) ->
  StronglySorted lt (map (fun b => nth (fst b) ids 0%nat) (sym_bins i start prev rest)) /\
  forall k, In k (map (fun b => nth (fst b) ids 0%nat) (sym_bins i start prev rest)) -> (prev <= k)%nat.
Proof.
  intros ids. induction rest as [|x rest IH]; intros i start prev N SK L O; cbn [sym_bins].
  - cbn [map fst]. rewrite N. split; [repeat constructor|]. intros k [<-|[]]. cbn. lia.
  - assert (Lt : (i < length ids)%nat).
    { destruct (Nat.eq_dec i (length ids)) as [E|E]; [|lia]. rewrite E, skipn_all in SK. discriminate SK. }
    assert (S' : skipn (i + 1) ids = rest).
    { rewrite Nat.add_comm. clear -SK. revert i SK. induction ids as [|y ids IH]; intros [|i] SK; cbn [skipn] in *; try discriminate SK.
      - injection SK as _ SK. exact SK.
      - apply (IH i SK). }
    assert (X : nth i ids 0%nat = x).
    { clear -SK. revert i SK. induction ids as [|y ids IH]; intros [|i] SK; cbn [skipn] in *; try discriminate SK.
      - injection SK as SK _. exact SK.
      - apply (IH i SK). }
    apply StronglySorted_inv in O. destruct O as [O1 O2]. assert (P : (prev <= x)%nat) by (inversion O2; assumption).
    replace (i + 1)%nat with (S i) in S' by lia.
    destruct (Nat.eqb_spec x prev) as [E|E].
    + rewrite E in O1 |- *. destruct (IH (S i) start prev N S' Lt O1) as [A B]. split; [exact A|exact B].
    + destruct (IH (S i) i x X S' Lt O1) as [A B]. cbn [map]. cbn [fst]. rewrite N. split.
      * apply SSorted_cons; [exact A|]. apply Forall_forall. intros k K. apply B in K. lia.
      * intros k [<-|K]; [lia|]. apply B in K. lia.
Qed.
Lemma ids_sorted : forall A (l : list (frame_row A)), StronglySorted row_le l -> StronglySorted le (map fr_sym l).
Proof.
  intros A l S. induction S as [|x l S IH F]; cbn [map]; [constructor|]. constructor; [exact IH|].
  rewrite Forall_forall in *. intros k K. apply in_map_iff in K. destruct K as (y & <- & Y). apply F in Y. unfold row_le in Y. lia.
Qed.
Lemma flat_keys : forall A (frame : list (frame_row A)), NoDup (map fst (store_from_flat frame None)).
Proof.
  intros A frame. unfold store_from_flat, selected_bins. rewrite map_length, Nat.eqb_refl.
  rewrite !map_map. cbn [fst snd].
  pose proof (ids_sorted A _ (lexsort_sorted frame)) as S. destruct (map fr_sym (lexsort frame)) as [|x rest]; [constructor|].
  cbn [find_sym_bins].
  destruct (bins_keys (x :: rest) rest 1 0 x eq_refl eq_refl ltac:(cbn; lia) S) as [B _].
  clear S. set (f := fun b => nth (fst b) (x :: rest) 0%nat) in B.
  change (NoDup (map f (sym_bins 1 0 x rest))).
  clearbody f. induction B as [|k l B IH F]; [constructor|]. constructor; [|exact IH]. intros I. rewrite Forall_forall in F. apply F in I. lia.
Qed.
Lemma lexsort_perm : forall A (l : list (frame_row A)), Permutation (lexsort l) l.
Proof.
  assert (I : forall A (x : frame_row A) l, Permutation (insert_row x l) (x :: l)).
  { intros A x l. induction l as [|y l IH]; cbn [insert_row]; [reflexivity|]. destruct (row_leb x y); [reflexivity|].
    rewrite IH. apply perm_swap. }
  intros A l. induction l as [|x l IH]; cbn [lexsort]; [reflexivity|]. rewrite I. now constructor.
Qed.
Section W.
Context {A : Type}.
Variable cast : A -> A.
Implicit Type frame : list (frame_row A).

Lemma of_sym_in : forall frame sym r, In r (of_sym sym (lexsort frame)) <-> In r frame /\ fr_sym r = sym.
Proof. intros frame sym r. unfold of_sym. rewrite filter_In, lexsort_In, Nat.eqb_eq. easy. Qed.
Lemma of_sym_sorted : forall frame sym, distinct_bars frame -> StronglySorted Z.lt (map fr_date (of_sym sym (lexsort frame))).
Proof.
  intros frame sym D. assert (ND : NoDup (map (fun r : frame_row A => (fr_sym r, fr_date r)) (lexsort frame))).
  { eapply Permutation_NoDup; [|exact D]. apply Permutation_map. symmetry. apply lexsort_perm. }
  pose proof (lexsort_sorted frame) as S. unfold of_sym. induction S as [|x l S IH F]; cbn [filter map]; [constructor|].
  cbn [map] in ND. apply NoDup_cons_iff in ND. destruct ND as [N ND]. specialize (IH ND).
  destruct (Nat.eqb_spec (fr_sym x) sym) as [E|E]; [|exact IH]. cbn [map]. constructor; [exact IH|].
  apply Forall_forall. intros d K. apply in_map_iff in K. destruct K as (y & <- & Y). apply filter_In in Y. destruct Y as [Y1 Y2].
  apply Nat.eqb_eq in Y2. rewrite Forall_forall in F. specialize (F y Y1). unfold row_le in F.
  assert (fr_date x <> fr_date y).
  { intros Q. apply N. apply in_map_iff. exists y. split; [|exact Y1]. congruence. }
  lia.
Qed.
Lemma lt_nodup : forall l, StronglySorted Z.lt l -> NoDup l.
Proof.
  intros l S. induction S as [|x l S IH F]; constructor; [|exact IH]. intros I. rewrite Forall_forall in F. apply F in I. lia.
Qed.
Lemma master_fst : forall frame, map fst (master_store frame) = map fst (store_from_flat frame None).
Proof. intros frame. unfold master_store. rewrite map_map. reflexivity. Qed.
Lemma master_in : forall frame sym d, In (sym, d) (master_store frame) <->
  of_sym sym (lexsort frame) <> [] /\ d = arrays_of (of_sym sym (lexsort frame)).
Proof.
  intros frame sym d. pose proof (store_from_flat_lookup frame None sym) as L. cbv iota in L.
  unfold master_store. rewrite in_map_iff. split.
  - intros ([k rows] & E & I). cbn [fst snd] in E. injection E as -> <-.
    rewrite (In_lookup _ _ _ (flat_keys A frame) I) in L. destruct (of_sym sym (lexsort frame)); [discriminate L|].
    injection L as ->. split; [discriminate|reflexivity].
  - intros [N ->]. exists (sym, of_sym sym (lexsort frame)). split; [reflexivity|].
    apply lookup_In. rewrite L. destruct (of_sym sym (lexsort frame)); [congruence|reflexivity].
Qed.
Lemma master_ok : forall frame, distinct_bars frame -> store_ok cast (master_store frame).
Proof.
  intros frame D. split; [rewrite master_fst; apply flat_keys|].
  intros sym d I dates E. apply master_in in I. destruct I as [_ ->]. cbn [sd_dates arrays_of] in E. injection E as <-.
  split; [apply lt_nodup, of_sym_sorted, D|]. intros name num col [C|[]]. injection C as <- <- <-.
  split; [now rewrite !map_length|discriminate].
Qed.

(** *** A slice of it *)
Lemma on_dates_map : forall B (f : frame_row A -> B) target (rows : list (frame_row A)),
  on_dates target (map fr_date rows) (map f rows) = map f (filter (fun r => existsb (Z.eqb (fr_date r)) target) rows).
Proof.
  intros B f target rows. unfold on_dates. induction rows as [|r rows IH]; cbn [map combine filter]; [reflexivity|]. cbn [fst].
  destruct (existsb (Z.eqb (fr_date r)) target); cbn [map snd]; now rewrite IH.
Qed.
Lemma sorted_filter : forall (p : frame_row A -> bool) l, StronglySorted Z.lt (map fr_date l) -> StronglySorted Z.lt (map fr_date (filter p l)).
Proof.
  intros p l. induction l as [|r l IH]; cbn [map filter]; [auto|]. intros S. apply StronglySorted_inv in S. destruct S as [S F].
  destruct (p r); [|now apply IH]. cbn [map]. constructor; [now apply IH|]. rewrite Forall_forall in *. intros d D.
  apply F. apply in_map_iff in D. destruct D as (y & <- & Y). apply filter_In in Y. apply in_map, Y.
Qed.
Lemma slice_holds : forall frame target, distinct_bars frame ->
  exists s, slice_store_by_dates cast (master_store frame) target = Some s /\ holds s frame (fun r => In (fr_date r) target).
Proof.
  intros frame target D.
  destruct (C35_slice_selects_dates A cast (master_store frame) target (master_ok frame D)) as (s & E & K1 & K2).
  exists s. split; [exact E|]. intros sym.
  set (rows := of_sym sym (lexsort frame)).
  exists (filter (fun r => existsb (Z.eqb (fr_date r)) target) rows).
  split; [apply sorted_filter, of_sym_sorted, D|]. split.
  - intros r. rewrite filter_In. unfold rows. rewrite of_sym_in.
    assert (X : existsb (Z.eqb (fr_date r)) target = true <-> In (fr_date r) target).
    { rewrite existsb_exists. split; [intros (x & I & Q); apply Z.eqb_eq in Q; now subst|]. intros I. exists (fr_date r). now rewrite Z.eqb_refl. }
    rewrite X. tauto.
  - destruct rows as [|r0 rs] eqn:R.
    + cbn [filter]. apply lookup_None. intros I. apply K1 in I. apply in_map_iff in I. destruct I as ([k d] & Q & I). cbn in Q. subst k.
      apply master_in in I. destruct I as [N _]. fold rows in N. congruence.
    + rewrite <- R.
      assert (IN : In (sym, arrays_of rows) (master_store frame)).
      { apply master_in. fold rows. split; [congruence|reflexivity]. }
      destruct (K2 sym (arrays_of rows) (map fr_date rows) IN eq_refl) as [N1 N2].
      destruct (filter (fun r => existsb (Z.eqb (fr_date r)) target) rows) as [|x l] eqn:F.
      * apply N1. intros d I T. apply in_map_iff in I. destruct I as (y & <- & Y).
        assert (J : In y (filter (fun r => existsb (Z.eqb (fr_date r)) target) rows)).
        { apply filter_In. split; [exact Y|]. apply existsb_exists. exists (fr_date y). now rewrite Z.eqb_refl. }
        rewrite F in J. exact J.
      * destruct N2 as (d' & Q1 & Q2 & Q3 & Q4).
        { exists (fr_date x). assert (J : In x (filter (fun r => existsb (Z.eqb (fr_date r)) target) rows)) by (rewrite F; now left).
          apply filter_In in J. destruct J as [J1 J2]. apply existsb_exists in J2. destruct J2 as (t & T1 & T2). apply Z.eqb_eq in T2.
          split; [now apply in_map|]. now rewrite T2. }
        exists d'. split; [exact Q1|]. rewrite <- F. split; [rewrite Q2; f_equal; apply (on_dates_map Z fr_date)|].
        cbn [sd_cols arrays_of map] in Q3. specialize (Q4 0%nat false (map fr_vals rows) eq_refl).
        rewrite on_dates_map in Q4. destruct (sd_cols d') as [|[k c] [|? ?]]; try discriminate Q3. cbn [map fst] in Q3. injection Q3 as ->.
        cbn in Q4. injection Q4 as ->. reflexivity.
Qed.
Lemma holds_ext : forall s frame (p q : frame_row A -> Prop), (forall r, In r frame -> (p r <-> q r)) -> holds s frame p -> holds s frame q.
Proof.
  intros s frame p q E H sym. destruct (H sym) as (l & S & I & L). exists l. split; [exact S|]. split; [|exact L].
  intros r. rewrite I. split; intros (X & Y & Z); (split; [exact X|]); (split; [exact Y|]); now apply (E r X).
Qed.

(** *** A window *)
Lemma gather_in : forall (l : list Z) idx g, gather l idx = Some g -> forall x, In x g <-> exists i, In i idx /\ nth_error l i = Some x.
Proof.
  intros l. induction idx as [|i idx IH]; cbn [gather]; intros g E x.
  - injection E as <-. split; [intros []|]. now intros (? & [] & _).
  - destruct (nth_error l i) as [y|] eqn:N; [|discriminate E]. destruct (gather l idx) as [g'|]; [|discriminate E].
    injection E as <-. cbn [In]. rewrite (IH g' eq_refl). split.
    + intros [<-|(j & J & M)]; [exists i|exists j]; auto.
    + intros (j & [<-|J] & M); [left; congruence|right; now exists j].
Qed.
Lemma unique_dates_ok : forall frame rows, whole_bars (map fr_date frame) rows ->
  exists ds, unique_dates (map fr_date frame) rows = Some ds /\ StronglySorted Z.lt ds /\
    (forall r, In r frame -> (In (fr_date r) ds <-> numbered frame rows r)) /\
    (forall d, In d ds -> exists r, numbered frame rows r /\ fr_date r = d) /\ (rows <> [] -> ds <> []).
Proof.
  intros frame rows [ND [B W]].
  assert (G : exists g, gather (map fr_date frame) rows = Some g).
  { clear ND W. induction rows as [|i rows IH]; cbn [gather]; [now eexists|]. destruct (B i (or_introl eq_refl)) as [d D]. unfold row_date in D.
    rewrite D. destruct IH as [g ->]; [|now eexists]. intros j J. apply B. now right. }
  destruct G as [g G].
  exists (unique_sorted g). split.
  - unfold unique_dates. destruct rows as [|i rows]; [|now rewrite G]. cbn in G. injection G as <-. reflexivity.
  - split; [apply unique_sorted_sorted|]. split; [|split].
    + intros r I. rewrite unique_sorted_in, (gather_in _ _ _ G). unfold numbered. split.
      * intros (i & J & N). apply In_nth_error in I. destruct I as [k K]. exists k. split; [|exact K].
        apply (W i k (fr_date r)); [exact N| |exact J]. unfold row_date. rewrite nth_error_map, K. reflexivity.
      * intros (i & J & N). exists i. split; [exact J|]. rewrite nth_error_map, N. reflexivity.
    + intros d. rewrite unique_sorted_in, (gather_in _ _ _ G). intros (i & J & N). rewrite nth_error_map in N.
      destruct (nth_error frame i) as [r|] eqn:R; [|discriminate N]. injection N as <-. exists r. split; [|reflexivity]. now exists i.
    + intros NE E. destruct rows as [|i rows]; [congruence|]. destruct (B i (or_introl eq_refl)) as [d D].
      assert (I : In d (unique_sorted g)).
      { rewrite unique_sorted_in, (gather_in _ _ _ G). exists i. split; [now left|exact D]. }
      rewrite E in I. exact I.
Qed.
Lemma first_least : forall d ds, StronglySorted Z.lt (d :: ds) -> forall x, In x (d :: ds) -> d <= x.
Proof.
  intros d ds S x [->|I]; [lia|]. apply StronglySorted_inv in S. destruct S as [_ F]. rewrite Forall_forall in F. apply F in I. lia.
Qed.
Lemma last_greatest : forall ds d r, StronglySorted Z.lt ds -> rev ds = d :: r -> In d ds /\ forall x, In x ds -> x <= d.
Proof.
  intros ds d r S E. assert (Q : ds = rev r ++ [d]) by (rewrite <- (rev_involutive ds), E; reflexivity).
  split; [rewrite Q; apply in_or_app; right; now left|]. intros x I. rewrite Q in I, S.
  apply in_app_or in I. destruct I as [I|[->|[]]]; [|lia].
  clear -S I. induction (rev r) as [|y l IH]; [destruct I|]. cbn [app] in S. apply StronglySorted_inv in S. destruct S as [S F].
  destruct I as [->|I]; [|now apply IH]. rewrite Forall_forall in F. assert (x < d) by (apply F, in_or_app; right; now left). lia.
Qed.
Lemma window_ok : forall frame w, distinct_bars frame -> whole_bars (map fr_date frame) (w_train w) -> whole_bars (map fr_date frame) (w_test w) ->
  exists x, window_stores cast frame w = Some x /\
    match st_train x with None => w_train w = [] | Some s => w_train w <> [] /\ holds s frame (numbered frame (w_train w)) end /\
    match st_test x with None => w_test w = [] | Some s => w_test w <> [] /\ holds s frame (numbered frame (w_test w)) end /\
    match st_history x with
    | None => w_train w = [] /\ w_test w = []
    | Some s => holds s frame (fun r => (w_train w <> [] /\ w_test w <> [] /\ spanned frame (w_train w) (w_test w) r) \/
                                        (w_test w = [] /\ numbered frame (w_train w) r) \/ (w_train w = [] /\ numbered frame (w_test w) r))
    end.
Proof.
  intros frame w D WT WE.
  destruct (unique_dates_ok frame (w_train w) WT) as (td & E1 & S1 & I1 & R1 & N1).
  destruct (unique_dates_ok frame (w_test w) WE) as (ed & E2 & S2 & I2 & R2 & N2).
  destruct (slice_holds frame td D) as (ts & T1 & T2). destruct (slice_holds frame ed D) as (es & F1 & F2).
  apply (holds_ext _ _ _ _ I1) in T2. apply (holds_ext _ _ _ _ I2) in F2.
  unfold window_stores. rewrite E2, E1, T1, F1. cbn [option_map].
  destruct (w_test w) as [|te0 te] eqn:TE, (w_train w) as [|tr0 tr] eqn:TR.
  - eexists. split; [reflexivity|]. cbn. auto.
  - eexists. split; [reflexivity|]. cbn [st_train st_test st_history]. split; [split; [discriminate|exact T2]|]. split; [reflexivity|].
    apply holds_ext with (2 := T2). intros r _. split; [auto|]. intros [[_ [X _]]|[X|[X _]]]; [congruence|tauto|discriminate X].
  - eexists. split; [reflexivity|]. cbn [st_train st_test st_history]. split; [reflexivity|]. split; [split; [discriminate|exact F2]|].
    apply holds_ext with (2 := F2). intros r _. split; [auto|]. intros [[X _]|[[X _]|X]]; [congruence|discriminate X|tauto].
  - destruct td as [|first td']; [now elim N1|]. destruct (rev ed) as [|last er] eqn:RV.
    { assert (Q : ed = []) by (rewrite <- (rev_involutive ed), RV; reflexivity). now elim N2. }
    set (span := filter (fun d => (first <=? d) && (d <=? last)) (map fr_date frame)).
    destruct (slice_holds frame (unique_sorted span) D) as (hs & H1 & H2). rewrite H1.
    eexists. split; [reflexivity|]. cbn [st_train st_test st_history]. split; [split; [discriminate|exact T2]|]. split; [split; [discriminate|exact F2]|].
    destruct (last_greatest ed last er S2 RV) as [LI LG].
    apply holds_ext with (2 := H2). intros r I. rewrite unique_sorted_in. unfold span. rewrite filter_In, andb_true_iff, !Z.leb_le. split.
    + intros [_ X]. left. split; [discriminate|]. split; [discriminate|].
      destruct (R1 first (or_introl eq_refl)) as (a & A1 & A2). destruct (R2 last LI) as (b & B1 & B2).
      exists a, b. rewrite A2, B2. auto.
    + intros [[_ [_ (a & b & A1 & B1 & X)]]|[[X _]|[X _]]]; try discriminate X. split; [now apply in_map|].
      assert (Fa : In (fr_date a) (first :: td')). { apply I1; [|exact A1]. destruct A1 as (i & _ & Q). eapply nth_error_In, Q. }
      assert (Fb : In (fr_date b) ed). { apply I2; [|exact B1]. destruct B1 as (i & _ & Q). eapply nth_error_In, Q. }
      apply (first_least first td' S1) in Fa. apply LG in Fb. lia.
Qed.
End W.

(** *** Exit dates *)
Lemma latest_of_ok : forall l d, latest_of l = Some d <-> In d l /\ forall x, In x l -> x <= d.
Proof.
  assert (F : forall l a, (a = fold_left Z.max l a \/ In (fold_left Z.max l a) l) /\ a <= fold_left Z.max l a /\ forall x, In x l -> x <= fold_left Z.max l a).
  { induction l as [|x l IH]; intros a; cbn [fold_left]; [split; [now left|]; split; [lia|intros ? []]|].
    destruct (IH (Z.max a x)) as (A & B & C). split.
    - destruct A as [A|A]; [|now right; right]. destruct (Z.max_spec a x) as [[M Q]|[M Q]].
      + right. left. congruence.
      + left. congruence.
    - split; [lia|]. intros y [<-|Y]; [lia|]. now apply C. }
  intros [|a l] d; cbn [latest_of]; [split; [discriminate|intros [[] _]]|].
  destruct (F l a) as (A & B & C). split.
  - intros E. injection E as <-. split; [destruct A as [A|A]; [left|right]; congruence|]. intros x [<-|X]; [exact B|]. now apply C.
  - intros [I M]. f_equal. assert (d <= fold_left Z.max l a) by (destruct I as [<-|I]; [exact B|now apply C]).
    assert (fold_left Z.max l a <= d) by (destruct A as [A|A]; [rewrite <- A; apply M; now left|apply M; now right]). lia.
Qed.
Lemma aget_aset_any : forall V k k' (v : V) l, aget k (aset k' v l) = if Nat.eqb k k' then Some v else aget k l.
Proof.
  intros V k k' v l. induction l as [|[k0 v0] l IH]; cbn [aset aget].
  - reflexivity.
  - destruct (Nat.eqb_spec k' k0) as [->|N]; cbn [aget]; [now destruct (Nat.eqb k k0)|].
    destruct (Nat.eqb_spec k k0) as [->|M]; [|exact IH]. destruct (Nat.eqb_spec k0 k'); [congruence|reflexivity].
Qed.
Lemma fold_exit : forall wanted groups acc sym, NoDup (map fst groups) -> (forall g, In g groups -> nmem (fst g) wanted = true /\ snd g <> []) ->
  aget sym (fold_left (fun acc g => if nmem (fst g) wanted then match latest_of (snd g) with Some d => aset (fst g) d acc | None => acc end else acc) groups acc) =
  match lookup sym groups with Some ds => latest_of ds | None => aget sym acc end.
Proof.
  intros wanted. induction groups as [|[s ds] groups IH]; intros acc sym ND H; cbn [fold_left lookup]; [reflexivity|].
  cbn [map fst] in ND. apply NoDup_cons_iff in ND. destruct ND as [N ND]. rewrite IH; [|exact ND|intros g G; apply H; now right].
  cbn [fst snd]. destruct (H (s, ds) (or_introl eq_refl)) as [W NE]. cbn [fst snd] in W, NE. rewrite W.
  destruct ds as [|d0 ds]; [congruence|]. cbn [latest_of]. rewrite aget_aset_any.
  destruct (Nat.eqb_spec sym s) as [->|Q]; [|reflexivity].
  destruct (lookup s groups) as [x|] eqn:L; [|reflexivity]. elim N. apply lookup_In in L. apply in_map_iff. now exists (s, x).
Qed.
Lemma groups_lookup : forall A (frame : list (frame_row A)) sym, lookup sym (date_groups frame) =
  match map fr_date (filter (fun r => Nat.eqb (fr_sym r) sym) frame) with [] => None | l => Some l end.
Proof.
  intros A frame sym. unfold date_groups.
  set (f := fun s => map fr_date (filter (fun r : frame_row A => Nat.eqb (fr_sym r) s) frame)).
  rewrite (lookup_map_keys f). fold (f sym).
  assert (X : existsb (Nat.eqb sym) (nodup Nat.eq_dec (map fr_sym frame)) = true <-> f sym <> []).
  { rewrite existsb_exists. split.
    - intros (k & I & E). apply Nat.eqb_eq in E. subst k. apply nodup_In in I. apply in_map_iff in I. destruct I as (r & E & I). unfold f. intros N.
      assert (J : In (fr_date r) []).
      { rewrite <- N. apply in_map. apply filter_In. split; [exact I|]. now apply Nat.eqb_eq. }
      exact J.
    - intros N. exists sym. rewrite Nat.eqb_refl. split; [|reflexivity]. apply nodup_In.
      unfold f in N. destruct (filter (fun r => Nat.eqb (fr_sym r) sym) frame) as [|r l] eqn:F; [now elim N|].
      assert (J : In r (filter (fun r => Nat.eqb (fr_sym r) sym) frame)) by (rewrite F; now left). apply filter_In in J. destruct J as [J1 J2].
      apply Nat.eqb_eq in J2. rewrite <- J2. now apply in_map. }
  destruct (existsb (Nat.eqb sym) _); destruct (f sym); try reflexivity; exfalso.
  - now apply X.
  - assert (false = true) by (apply X; discriminate). discriminate.
Qed.
Lemma exit_dates_ok : forall A on execs (frame : list (frame_row A)) sym d,
  aget sym (exit_dates on execs frame) = Some d <->
  on = true /\ (In None execs \/ exists l, In (Some l) execs /\ In sym l) /\
  (exists r, In r frame /\ fr_sym r = sym /\ fr_date r = d) /\ (forall r, In r frame -> fr_sym r = sym -> fr_date r <= d).
Proof.
  intros A on execs frame sym d. unfold exit_dates. destruct on; cbn [negb]; [|split; [discriminate|intros [X _]; discriminate X]].
  set (sel := existsb _ execs).
  set (wanted := if sel then _ else _).
  assert (SEL : sel = true <-> In None execs).
  { unfold sel. rewrite existsb_exists. split; [intros ([e|] & I & E); [discriminate E|exact I]|]. intros I. now exists None. }
  assert (NM : forall k l, nmem k l = true <-> In k l).
  { intros k l. unfold nmem. rewrite existsb_exists. split; [intros (y & I & E); apply Nat.eqb_eq in E; now subst|]. intros I. exists k. now rewrite Nat.eqb_refl. }
  assert (WA : forall s, nmem s wanted = true <-> (In None execs /\ In s (map fr_sym frame)) \/ (~ In None execs /\ exists l, In (Some l) execs /\ In s l)).
  { intros s. rewrite NM. unfold wanted. destruct sel.
    - rewrite nodup_In. assert (In None execs) by now apply SEL. tauto.
    - assert (~ In None execs) by (intros I; apply SEL in I; discriminate I). rewrite in_flat_map. split.
      + intros ([l|] & I & J); [|destruct J]. right. split; [assumption|]. now exists l.
      + intros [[X _]|[_ (l & I & J)]]; [tauto|]. now exists (Some l). }
  clearbody wanted.
  rewrite fold_exit.
  - rewrite groups_lookup. cbn [aget].
    set (rows := filter (fun r => Nat.eqb (fr_sym r) sym) (filter (fun r => nmem (fr_sym r) wanted) frame)).
    assert (RI : forall r, In r rows <-> In r frame /\ nmem sym wanted = true /\ fr_sym r = sym).
    { intros r. unfold rows. rewrite !filter_In, Nat.eqb_eq. split; [intros [[X Y] <-]; auto|]. intros (X & Y & <-). auto. }
    replace (match match map fr_date rows with [] => None | l => Some l end with Some ds => latest_of ds | None => None end)
      with (latest_of (map fr_date rows)) by (now destruct (map fr_date rows)).
    rewrite latest_of_ok, in_map_iff. split.
    + intros [(r & <- & I) M]. apply RI in I. destruct I as (I & W & S). split; [reflexivity|]. apply WA in W. split; [tauto|]. split.
      * now exists r.
      * intros r' I' S'. apply M. apply in_map. apply RI. split; [exact I'|]. split; [|exact S']. now apply WA.
    + intros (_ & E & (r & I & S & D) & M).
      assert (W : nmem sym wanted = true).
      { apply WA. assert (In sym (map fr_sym frame)) by (rewrite <- S; now apply in_map).
        destruct sel eqn:X; [left; split; [now apply SEL|assumption]|]. right. split; [intros Y; apply SEL in Y; discriminate Y|].
        destruct E as [Y|E]; [apply SEL in Y; discriminate Y|exact E]. }
      split; [exists r; split; [exact D|]; now apply RI|]. intros x J. apply in_map_iff in J. destruct J as (r' & <- & J). apply RI in J. apply M; tauto.
  - unfold date_groups. rewrite map_map. cbn [fst]. rewrite map_id. apply NoDup_nodup.
  - intros [s ds] G. unfold date_groups in G. apply in_map_iff in G. destruct G as (s' & E & I). injection E as -> <-. cbn [fst snd].
    apply nodup_In, in_map_iff in I. destruct I as (r & <- & I). split.
    + apply filter_In in I. tauto.
    + intros N. assert (J : In (fr_date r) []).
      { rewrite <- N. apply in_map. apply filter_In. split; [exact I|]. apply Nat.eqb_refl. }
      exact J.
Qed.
