(** C35, C58: slicing a store by dates, building it from a frame, merging. *)
From Verif Require Import StoreSpec StoreProofs ScopeProofs Lemmas.
Open Scope list_scope.
Open Scope Z_scope.

(** ** C35: slicing by dates *)

(** Slicing never fails; a symbol with a requested date keeps exactly its rows on
    requested dates, in order, in every column, whichever path was taken (sorted
    merge or mask, contiguous cut or gather); other symbols disappear. *)
Theorem C35_slice_selects_dates : forall A (cast : A -> A) (s : array_store A) target, store_ok cast s ->
  exists s', slice_store_by_dates cast s target = Some s' /\
    (forall sym, In sym (map fst s') -> In sym (map fst s)) /\
    forall sym d dates, In (sym, d) s -> sd_dates d = Some dates ->
      ((forall date, In date dates -> ~ In date target) -> lookup sym s' = None) /\
      ((exists date, In date dates /\ In date target) -> exists d', lookup sym s' = Some d' /\
         sd_dates d' = Some (on_dates target dates dates) /\ map fst (sd_cols d') = map fst (sd_cols d) /\
         forall name num col, lookup name (sd_cols d) = Some (num, col) ->
           lookup name (sd_cols d') = Some (num, on_dates target dates col)).
Proof.
  intros A cast s target W.
  assert (ON : forall dates, on_dates target dates dates = [] <-> (forall date, In date dates -> ~ In date target)).
  { intros dates. unfold on_dates. split.
    - intros E date I T.
      assert (J : In (date, date) (filter (fun x => existsb (Z.eqb (fst x)) target) (combine dates dates))).
      { apply filter_In. split; [|apply isin_In; easy].
        clear -I. induction dates as [|x dates IH]; [easy|]. destruct I as [->|I]; [now left|right; auto]. }
      apply (in_map snd) in J. rewrite E in J. easy.
    - intros H. rewrite filter_nil; [easy|]. intros [x y] I. cbn [fst]. apply in_combine_l in I.
      destruct (existsb (Z.eqb x) target) eqn:E; [|easy]. apply isin_In in E. now apply H in I. }
  destruct (slice_symbols_ok cast target s W) as (s' & E & K1 & K2).
  destruct target as [|t0 ts] eqn:T.
  - exists []. split; [easy|]. split; [easy|]. intros sym d dates I D. split; [easy|]. intros (date & _ & []).
  - rewrite <- T in *. exists s'. split; [unfold slice_store_by_dates; now rewrite T at 1|]. split; [easy|].
    intros sym d dates I D. specialize (K2 sym d I). rewrite D in K2. destruct K2 as (K2 & K3). split.
    + intros H. apply K2, ON, H.
    + intros (date & I1 & I2). apply K3. intros N. rewrite ON in N. now apply (N date).
Qed.
Print Assumptions C35_slice_selects_dates.

(** The contiguous cut and the gather return the same rows: whatever increasing
    row numbers are selected, row [j] of every output column is the selected
    row. *)
Theorem C35_both_paths_agree : forall A (cast : A -> A) dates (cols : list (nat * (bool * list A))) indices,
  StronglySorted lt indices -> indices <> [] -> (forall i, In i indices -> (i < length dates)%nat) ->
  (forall name num col, In (name, (num, col)) cols -> length col = length dates /\ (num = true -> forall x, In x col -> cast x = x)) ->
  exists d' ds, build_sliced cast dates cols indices = Some (Some d') /\ sd_dates d' = Some ds /\
    length ds = length indices /\
    (forall j i, nth_error indices j = Some i -> nth_error ds j = nth_error dates i) /\
    forall name num col, lookup name cols = Some (num, col) -> exists col',
      lookup name (sd_cols d') = Some (num, col') /\ length col' = length indices /\
      forall j i, nth_error indices j = Some i -> nth_error col' j = nth_error col i.
Proof.
  intros A cast dates cols indices S NE I H.
  destruct (build_sliced_ok cast dates cols indices S NE I H) as (d' & B & ds & D1 & D2 & D3).
  exists d', ds. split; [easy|]. split; [easy|].
  destruct (gather_Some dates indices I) as (g & G1 & G2 & G3). rewrite D2 in G1. injection G1 as <-.
  split; [easy|]. split; [easy|]. intros name num col L.
  destruct (gathered_lookup _ _ _ _ _ _ D3 L) as (col' & L1 & L2). exists col'. split; [easy|].
  apply lookup_In in L. destruct (H _ _ _ L) as (LEN & _).
  destruct (gather_Some col indices) as (g' & G1' & G2' & G3'); [intros i J; rewrite LEN; auto|].
  rewrite L2 in G1'. injection G1' as <-. auto.
Qed.
Print Assumptions C35_both_paths_agree.

(** Symbol 5 takes the gather, symbol 6 the cut, symbol 7 the mask, symbol 8
    disappears. *)
Example C35_nontrivial :
  let s : array_store Z :=
    [(5%nat, mk_sym_data (Some [1; 2; 3; 4]) [(0%nat, (true, [10; 20; 30; 40])); (1%nat, (false, [11; 21; 31; 41]))]);
     (6%nat, mk_sym_data (Some [2; 4]) [(0%nat, (true, [22; 44]))]);
     (7%nat, mk_sym_data (Some [4; 9; 2]) [(0%nat, (true, [1; 2; 3]))]);
     (8%nat, mk_sym_data (Some [7]) [(0%nat, (true, [1]))])] in
  store_ok (fun x => x) s /\
  slice_store_by_dates (fun x => x) s [2; 4; 5] = Some
    [(5%nat, mk_sym_data (Some [2; 4]) [(0%nat, (true, [20; 40])); (1%nat, (false, [21; 41]))]);
     (6%nat, mk_sym_data (Some [2; 4]) [(0%nat, (true, [22; 44]))]);
     (7%nat, mk_sym_data (Some [4; 2]) [(0%nat, (true, [1; 3]))])].
Proof.
  split; [|vm_compute; easy]. split.
  - cbn [map fst]. repeat (constructor; [cbn; intuition discriminate|]). constructor.
  - intros sym d I dates D. cbn [In] in I.
    destruct I as [[= <- <-]|[[= <- <-]|[[= <- <-]|[[= <- <-]|[]]]]]; injection D as <-;
      (split; [repeat (constructor; [cbn; intuition discriminate|]); constructor|]);
      intros name num col C; cbn [sd_cols In] in C;
      repeat (destruct C as [[= <- <- <-]|C]; [easy|]); easy.
Qed.

(** ** C58: building and merging *)

(** The store built from a frame, in whatever order its rows come: a requested
    symbol has exactly its rows, in date order, rows of the same date as in the
    frame; a symbol without rows, or not requested, is absent. *)
Theorem C58_store_from_frame : forall A (frame : list (frame_row A)) symbols sym,
  let requested := match symbols with None => True | Some l => In sym l end in
  ((requested /\ exists r, In r frame /\ fr_sym r = sym) ->
     exists rows, lookup sym (store_from_flat frame symbols) = Some rows /\
       (forall r, In r rows <-> In r frame /\ fr_sym r = sym) /\
       StronglySorted Z.le (map fr_date rows) /\
       forall date, rows_at sym date rows = rows_at sym date frame) /\
  (~ (requested /\ exists r, In r frame /\ fr_sym r = sym) -> lookup sym (store_from_flat frame symbols) = None).
Proof.
  intros A frame symbols sym requested. rewrite store_from_flat_lookup.
  set (want := match symbols with None => true | Some want => existsb (Nat.eqb sym) want end).
  assert (W : want = true <-> requested).
  { unfold want, requested. destruct symbols as [l|]; [|easy]. rewrite existsb_exists. split.
    - intros (x & I & E). apply Nat.eqb_eq in E. now subst.
    - intros I. exists sym. split; [easy|]. apply Nat.eqb_refl. }
  assert (M : forall r, In r (of_sym sym (lexsort frame)) <-> In r frame /\ fr_sym r = sym).
  { intros r. unfold of_sym. rewrite filter_In, lexsort_In, Nat.eqb_eq. easy. }
  split.
  - intros (R & r & I & E). apply W in R. rewrite R.
    destruct (of_sym sym (lexsort frame)) as [|x rows] eqn:O; [exfalso; apply (in_nil (a := r)), M; easy|].
    exists (x :: rows). rewrite <- O in *. split; [easy|]. split; [exact M|]. split.
    + pose proof (lexsort_sorted frame) as S. clear O x rows M W R I E. unfold of_sym.
      induction S as [|y l S IH F]; [constructor|]. cbn [filter]. destruct (Nat.eqb_spec (fr_sym y) sym) as [Y|Y]; [|exact IH].
      cbn [map]. constructor; [exact IH|]. rewrite Forall_forall in *. intros d D. apply in_map_iff in D.
      destruct D as (z & <- & Z1). apply filter_In in Z1. destruct Z1 as (Z1 & Z2). apply Nat.eqb_eq in Z2.
      specialize (F z Z1). unfold row_le in F. lia.
    + intros date. rewrite <- (lexsort_rows_at sym date frame). clear O M. unfold rows_at, of_sym.
      induction (lexsort frame) as [|y l IH]; [easy|]. cbn [filter].
      destruct (Nat.eqb (fr_sym y) sym) eqn:Y; cbn [filter andb]; [|exact IH].
      rewrite Y. cbn [andb]. destruct (fr_date y =? date); [f_equal|]; exact IH.
  - intros N. destruct want; [|easy]. destruct (of_sym sym (lexsort frame)) as [|x rows] eqn:O; [easy|].
    exfalso. apply N. split; [now apply W|]. exists x. apply M. now left.
Qed.
Print Assumptions C58_store_from_frame.

(** Merging two stores: each column is the left one's values followed by the
    right one's; nothing is lost and nothing else appears. *)
Theorem C58_merge : forall A (left right : store A) sym name v,
  column (merge_stores left right) sym name = Some v <->
  (exists a, column left sym name = Some a /\ column right sym name = None /\ v = a) \/
  (exists b, column left sym name = None /\ column right sym name = Some b /\ v = b) \/
  (exists a b, column left sym name = Some a /\ column right sym name = Some b /\ v = a ++ b).
Proof.
  intros A left right sym name v. rewrite merge_stores_column.
  destruct (column left sym name) as [a|], (column right sym name) as [b|]; cbn [merge_col]; split.
  - intros [= <-]. right. right. now exists a, b.
  - intros [(x & E1 & E2 & E3)|[(x & E1 & E2 & E3)|(x & y & E1 & E2 & E3)]]; congruence.
  - intros [= <-]. left. now exists a.
  - intros [(x & E1 & E2 & E3)|[(x & E1 & E2 & E3)|(x & y & E1 & E2 & E3)]]; congruence.
  - intros [= <-]. right. left. now exists b.
  - intros [(x & E1 & E2 & E3)|[(x & E1 & E2 & E3)|(x & y & E1 & E2 & E3)]]; congruence.
  - easy.
  - intros [(x & E1 & E2 & E3)|[(x & E1 & E2 & E3)|(x & y & E1 & E2 & E3)]]; congruence.
Qed.
Print Assumptions C58_merge.

Example C58_nontrivial :
  let f := [mk_frame_row 3 2 10; mk_frame_row 1 5 11; mk_frame_row 3 1 12; mk_frame_row 2 1 13; mk_frame_row 1 5 14; mk_frame_row 1 4 15] in
  store_from_flat f None =
    [(1%nat, [mk_frame_row 1 4 15; mk_frame_row 1 5 11; mk_frame_row 1 5 14]); (2%nat, [mk_frame_row 2 1 13]);
     (3%nat, [mk_frame_row 3 1 12; mk_frame_row 3 2 10])] /\
  store_from_flat f (Some [3; 1; 9]%nat) =
    [(1%nat, [mk_frame_row 1 4 15; mk_frame_row 1 5 11; mk_frame_row 1 5 14]); (3%nat, [mk_frame_row 3 1 12; mk_frame_row 3 2 10])] /\
  column (merge_stores [(1%nat, [(0%nat, [10; 11])])] [(1%nat, [(0%nat, [12]); (4%nat, [7])]); (2%nat, [(0%nat, [5])])]) 1 0 = Some [10; 11; 12].
Proof. vm_compute. repeat split. Qed.
