(** C79: the data of a walkforward window. *)
From Verif Require Import WindowProofs PropWalk.
From Coq Require Import Sorting.Sorted.
Import ListNotations.
Open Scope list_scope.
Open Scope Z_scope.

(** Every window gets its three stores: exactly its training rows, exactly its
    test rows, and as history every row of the run from the first training date to
    the last test date, those skipped by [lookahead] included; rows are by date
    whatever the order of the frame and the shuffling. *)
Theorem C79_window_data : forall A (cast : A -> A) fl shuf (frame : list (frame_row A)) W la ts ws,
  distinct_bars frame -> split_domain fl shuf (map fr_date frame) W ts ->
  walkforward_split fl shuf (map fr_date frame) W la ts = SWindows ws ->
  exists data, run_stores cast fl shuf frame W la ts = Some data /\
  Forall2 (fun w d => exists x, d = Some x /\
    match st_train x with None => w_train w = [] | Some s => w_train w <> [] /\ holds s frame (numbered frame (w_train w)) end /\
    match st_test x with None => w_test w = [] | Some s => w_test w <> [] /\ holds s frame (numbered frame (w_test w)) end /\
    match st_history x with
    | None => w_train w = [] /\ w_test w = []
    | Some s => holds s frame (fun r => (w_train w <> [] /\ w_test w <> [] /\ spanned frame (w_train w) (w_test w) r) \/
                                        (w_test w = [] /\ numbered frame (w_train w) r) \/ (w_train w = [] /\ numbered frame (w_test w) r))
    end) ws data.
Proof.
  intros A cast fl shuf frame W la ts ws D S E. unfold run_stores. rewrite E. eexists. split; [reflexivity|].
  pose proof (C30_no_leak fl shuf _ W la ts ws S E) as L. clear E S.
  induction ws as [|w ws IH]; cbn [map]; constructor.
  - destruct (L w (or_introl eq_refl)) as (A1 & A2 & _). exact (window_ok cast frame w D A1 A2).
  - apply IH. intros w' I. apply L. now right.
Qed.
Print Assumptions C79_window_data.

(** No look-ahead and no gap: a window's history and test data end with its last
    test bar, its training data end at least [lookahead] bars before its first
    test bar, and between two rows of the history none of the run is missing. *)
Theorem C79_no_lookahead : forall A (cast : A -> A) fl shuf (frame : list (frame_row A)) W la ts ws k w data x,
  distinct_bars frame -> split_domain fl shuf (map fr_date frame) W ts ->
  walkforward_split fl shuf (map fr_date frame) W la ts = SWindows ws ->
  run_stores cast fl shuf frame W la ts = Some data -> nth_error ws k = Some w -> nth_error data k = Some (Some x) ->
  w_test w <> [] ->
  (exists last, numbered frame (w_test w) last /\
     forall sym s d dates, st_history x = Some s -> lookup sym s = Some d -> sd_dates d = Some dates -> forall t, In t dates -> t <= fr_date last) /\
  (forall sym s s' d d' dates dates', st_train x = Some s -> st_test x = Some s' -> lookup sym s = Some d -> lookup sym s' = Some d' ->
     sd_dates d = Some dates -> sd_dates d' = Some dates' ->
     forall t t', In t dates -> In t' dates' -> t < t' /\ la <= bars_from_to (map fr_date frame) t t') /\
  (forall sym s d dates, st_history x = Some s -> lookup sym s = Some d -> sd_dates d = Some dates -> w_train w <> [] ->
     forall t t' r, In t dates -> In t' dates -> In r frame -> fr_sym r = sym -> t <= fr_date r <= t' -> In (fr_date r) dates).
Proof.
  intros A cast fl shuf frame W la ts ws k w data x D S E R NW ND NE.
  destruct (C79_window_data A cast fl shuf frame W la ts ws D S E) as (data' & R' & F). rewrite R in R'. injection R' as <-.
  assert (FX : exists y, Some x = Some y /\
    match st_train y with None => w_train w = [] | Some s => w_train w <> [] /\ holds s frame (numbered frame (w_train w)) end /\
    match st_test y with None => w_test w = [] | Some s => w_test w <> [] /\ holds s frame (numbered frame (w_test w)) end /\
    match st_history y with
    | None => w_train w = [] /\ w_test w = []
    | Some s => holds s frame (fun r => (w_train w <> [] /\ w_test w <> [] /\ spanned frame (w_train w) (w_test w) r) \/
                                        (w_test w = [] /\ numbered frame (w_train w) r) \/ (w_train w = [] /\ numbered frame (w_test w) r))
    end).
  { clear -F NW ND. revert k NW ND. induction F as [|w0 d0 ws0 ds0 P F IH]; intros [|k] NW ND; cbn [nth_error] in *; try discriminate NW.
    - injection NW as ->. injection ND as ->. exact P.
    - apply (IH k NW ND). }
  destruct FX as (y & Q & T & U & H). injection Q as <-.
  destruct (C30_no_leak fl shuf _ W la ts ws S E w (nth_error_In _ _ NW)) as (WT & WE & LK).
  (* the dates of a symbol in a store are those of its rows *)
  assert (HD : forall s p sym d dates, holds s frame p -> lookup sym s = Some d -> sd_dates d = Some dates ->
            forall t, In t dates <-> exists r, In r frame /\ fr_sym r = sym /\ p r /\ fr_date r = t).
  { intros s p sym d dates HS L DS t. destruct (HS sym) as (l & _ & I & M). destruct l as [|r0 l0]; [congruence|].
    destruct M as (d' & L' & D' & _). assert (d' = d) by congruence. subst d'. rewrite DS in D'. injection D' as ->.
    set (l := r0 :: l0) in *. change (fr_date r0 :: map fr_date l0) with (map fr_date l). rewrite in_map_iff. split.
    - intros (r & <- & J). apply I in J. exists r. tauto.
    - intros (r & J1 & J2 & J3 & <-). exists r. split; [reflexivity|]. apply I. auto. }
  assert (LAST : exists last, numbered frame (w_test w) last /\ forall b, numbered frame (w_test w) b -> fr_date b <= fr_date last).
  { destruct (unique_dates_ok frame (w_test w) WE) as (ds & _ & SS & I & N & NN). destruct (rev ds) as [|m r] eqn:RV.
    - assert (Z : ds = []) by (rewrite <- (rev_involutive ds), RV; reflexivity). elim (NN NE Z).
    - destruct (last_greatest ds m r SS RV) as [LI LG]. destruct (N m LI) as (last & L1 & L2). exists last. split; [exact L1|].
      intros b B. rewrite L2. apply LG. apply I; [|exact B]. destruct B as (i & _ & Z). eapply nth_error_In, Z. }
  split; [|split].
  - destruct LAST as (last & L1 & L2). exists last. split; [exact L1|]. intros sym s d dates Hs L DS t I. rewrite Hs in H.
    apply (HD s _ sym d dates H L DS t) in I. destruct I as (r & _ & _ & [(_ & _ & a & b & _ & B & Z)|[(Z & _)|(_ & Z)]] & <-).
    + specialize (L2 b B). lia.
    + congruence.
    + now apply L2.
  - intros sym s s' d d' dates dates' Ts Us L L' DS DS' t t' I I'. rewrite Ts in T. rewrite Us in U. destruct T as [_ T]. destruct U as [_ U].
    apply (HD s _ sym d dates T L DS) in I. apply (HD s' _ sym d' dates' U L' DS') in I'.
    destruct I as (r & _ & _ & (i & I1 & I2) & <-). destruct I' as (r' & _ & _ & (j & J1 & J2) & <-).
    apply (LK i j); [exact I1|exact J1| |]; unfold row_date; rewrite nth_error_map; [now rewrite I2|now rewrite J2].
  - intros sym s d dates Hs L DS TR t t' r I I' RI RS B. rewrite Hs in H.
    apply (HD s _ sym d dates H L DS) in I, I'. apply (HD s _ sym d dates H L DS). exists r. split; [exact RI|]. split; [exact RS|]. split; [|reflexivity].
    destruct I as (u & _ & _ & PU & <-). destruct I' as (u' & _ & _ & PU' & <-).
    left. split; [exact TR|]. split; [exact NE|].
    destruct PU as [(_ & _ & a & b & A1 & _ & Z)|[(Z & _)|(Z & _)]]; try congruence.
    destruct PU' as [(_ & _ & a' & b' & _ & B1 & Z')|[(Z' & _)|(Z' & _)]]; try congruence.
    exists a, b'. split; [exact A1|]. split; [exact B1|]. lia.
Qed.
Print Assumptions C79_no_lookahead.

(** With [exit_on_last_bar] a symbol of an execution, or any symbol with a symbol
    selector, is exited on its last bar in the whole data, not in a window. *)
Theorem C79_exit_dates : forall A exit_on_last_bar execs (frame : list (frame_row A)) sym d,
  aget sym (exit_dates exit_on_last_bar execs frame) = Some d <->
  exit_on_last_bar = true /\ (In None execs \/ exists l, In (Some l) execs /\ In sym l) /\
  (exists r, In r frame /\ fr_sym r = sym /\ fr_date r = d) /\ (forall r, In r frame -> fr_sym r = sym -> fr_date r <= d).
Proof. exact exit_dates_ok. Qed.
Print Assumptions C79_exit_dates.

(** Two symbols over eleven dates as in the example of C30, the rows of the second
    not by date: the second of three windows trains on one bar, tests on one, and
    its history also holds the bar that [lookahead = 2] skips. *)
Definition walk_frame : list (frame_row nat) :=
  map (fun i => mk_frame_row 1%nat (Z.of_nat i) (100 + i)%nat) (seq 1 11) ++ map (fun i => mk_frame_row 2%nat (Z.of_nat i) (200 + i)%nat) (rev (seq 1 11)).
Example C79_example : distinct_bars walk_frame /\
  exists data x, run_stores (fun v => v) (fun q => q) (fun _ l => rev l) walk_frame 3 2 (1 # 2) = Some data /\ nth_error data 1 = Some (Some x) /\
    st_train x = Some [(1%nat, mk_sym_data (Some [8]) [(0%nat, (false, [108%nat]))]); (2%nat, mk_sym_data (Some [8]) [(0%nat, (false, [208%nat]))])] /\
    st_test x = Some [(1%nat, mk_sym_data (Some [10]) [(0%nat, (false, [110%nat]))]); (2%nat, mk_sym_data (Some [10]) [(0%nat, (false, [210%nat]))])] /\
    option_map (map (fun e => sd_dates (snd e))) (st_history x) = Some [Some [8; 9; 10]; Some [8; 9; 10]] /\
    exit_dates true [Some [2%nat]] walk_frame = [(2%nat, 11)].
Proof.
  split.
  - unfold distinct_bars. cbn. repeat (apply NoDup_cons; [cbn; intuition congruence|]). apply NoDup_nil.
  - eexists. eexists. split; [vm_compute; reflexivity|]. split; [reflexivity|]. vm_compute. auto.
Qed.
