(** C78: the bars a run is given. *)
From Verif Require Import RequestProofs.
Import ListNotations.
Open Scope list_scope.
Open Scope Z_scope.

(** A run on a data frame is given exactly the rows asked for, each as often and
    in the order it has in the frame. *)
Theorem C78_bars : forall R (q : request R) f start_date end_date times days l,
  q_source q = Given f -> fst (requested_bars q start_date end_date times days) = Done l ->
  forall p, (forall r, p r = true <-> wanted q start_date end_date times days r) -> l = filter p (bf_rows f).
Proof. intros R q f s e times days l E D p. apply (proj1 (request_ok q (bf_rows f) s e times days (given_fetched q f E))). exact D. Qed.
Print Assumptions C78_bars.

(** It raises exactly when there is no execution, a date is outside the dates of
    the strategy or after the other, a day is unknown, the times are not two,
    nothing is covered, or a symbol has two covered rows on one date. *)
Theorem C78_raises : forall R (q : request R) f start_date end_date times days, q_source q = Given f ->
  (exists l, fst (requested_bars q start_date end_date times days) = Done l) <->
  (q_execs q <> [] /\ dates_ok q start_date end_date /\ args_ok times days /\
   (exists r, In r (bf_rows f) /\ covered q r) /\ ~ covered_twice q (bf_rows f)).
Proof. intros R q f s e times days E. exact (proj2 (request_ok q (bf_rows f) s e times days (given_fetched q f E))). Qed.
Print Assumptions C78_raises.

(** No symbol has two bars on one date in a run, whatever the source. *)
Theorem C78_distinct : forall R (q : request R) start_date end_date times days l,
  fst (requested_bars q start_date end_date times days) = Done l -> NoDup (map (fun r => (b_sym r, b_date r)) l).
Proof. exact request_distinct. Qed.
Print Assumptions C78_distinct.

(** With a DataSource the same holds of the rows it answers with, provided that
    it answers with what it was asked for. *)
Theorem C78_source_partial : forall R (q : request R) query start_date end_date times days,
  q_source q = Queried query -> answers query ->
  (dynamic q -> forall l, fst (requested_bars q start_date end_date times days) <> Done l) /\
  (~ dynamic q -> exists syms, (forall s, In s syms <-> executed q s) /\
     let rows := bf_rows (query syms (q_start q) (q_end q)) in
     (forall l p, fst (requested_bars q start_date end_date times days) = Done l ->
        (forall r, p r = true <-> wanted q start_date end_date times days r) -> l = filter p rows) /\
     ((exists l, fst (requested_bars q start_date end_date times days) = Done l) <->
      (q_execs q <> [] /\ dates_ok q start_date end_date /\ args_ok times days /\
       (exists r, In r rows /\ covered q r) /\ ~ covered_twice q rows))).
Proof.
  intros R q query s e times days E A. split.
  - intros D l. apply selector_iff in D. unfold requested_bars, fetch_bars. rewrite E, D.
    destruct (q_end q <? q_start q); [discriminate|]. destruct (q_execs q); [discriminate|].
    destruct (_ || _); [discriminate|]. destruct (_ || _); [discriminate|]. destruct (_ <? _); discriminate.
  - intros D. exists (static_symbols (q_execs q)). split; [intros s0; apply static_iff|].
    exact (request_ok q _ s e times days (queried_fetched q query E A D)).
Qed.
Print Assumptions C78_source_partial.

(** A custom source that answers with more gets all of it into the run: dates
    after the end date and symbols of no execution. *)
Definition over_source : list nat -> Z -> Z -> bframe nat := fun _ _ hi =>
  mk_bframe None true [mk_brow 1%nat hi 0%nat; mk_brow 1%nat (hi + one_day) 1%nat; mk_brow 2%nat hi 2%nat].
Theorem C78_source_refuted : exists (q : request nat) query l, q_source q = Queried query /\
  fst (requested_bars q None None None None) = Done l /\
  (exists r, In r l /\ q_end q < b_date r) /\ (exists r, In r l /\ ~ executed q (b_sym r)).
Proof.
  exists (mk_request (Queried over_source) a_monday (a_monday + one_day) [Some [1%nat]]), over_source.
  eexists. split; [reflexivity|]. split; [vm_compute; reflexivity|]. split.
  - eexists. split; [right; left; reflexivity|]. vm_compute. reflexivity.
  - eexists. split; [right; right; left; reflexivity|]. intros [l [[E|[]] I]]. injection E as <-. cbn in I. intuition discriminate.
Qed.
Print Assumptions C78_source_refuted.

(** Days and times of day are read in UTC when the dates have a time zone, not as
    the frame shows them: of two bars of a frame five hours behind UTC, between
    9:30 and 16:00 keeps the one shown at 6:00 and drops the one shown at 14:00. *)
Definition shown (f : bframe nat) (r : brow nat) : Z := match bf_tz f with Some off => b_date r + off (b_date r) | None => b_date r end.
Definition hour (h : Z) : Z := h * 60 * 60 * 1000000.
Definition eastern : bframe nat :=
  mk_bframe (Some (fun _ => - (hour 5) * 1000)) true
    [mk_brow 1%nat (a_monday + hour 11 * 1000) 0%nat; mk_brow 1%nat (a_monday + hour 19 * 1000) 1%nat].
Theorem C78_local_time_refuted : exists (q : request nat) f lo hi l, q_source q = Given f /\
  fst (requested_bars q None None (Some [lo; hi]) None) = Done l /\
  (exists r, In r l /\ ~ in_hours lo hi (shown f r)) /\
  (exists r, In r (bf_rows f) /\ covered q r /\ in_hours lo hi (shown f r) /\ ~ In r l).
Proof.
  exists (mk_request (Given eastern) a_monday (a_monday + one_day) [Some [1%nat]]), eastern, (hour 9 + 30 * 60 * 1000000), (hour 16).
  eexists. split; [reflexivity|]. split; [vm_compute; reflexivity|]. split.
  - eexists. split; [left; reflexivity|]. intros H. apply hours_iff in H. vm_compute in H. discriminate H.
  - exists (mk_brow 1%nat (a_monday + hour 19 * 1000) 1%nat). split; [right; left; reflexivity|]. split; [|split].
    + split; [right; exists [1%nat]; cbn; auto|]. vm_compute. split; discriminate.
    + apply hours_iff. vm_compute. reflexivity.
    + intros [E|[]]. discriminate E.
Qed.
Print Assumptions C78_local_time_refuted.

(** A run leaves the user's data frame as it is, except that with a symbol
    selector it can take the time zone off its date column. *)
Theorem C78_frame_kept_partial : forall R (q : request R) start_date end_date times days,
  snd (requested_bars q start_date end_date times days) = q_source q \/
  (dynamic q /\ exists f off, q_source q = Given f /\ bf_tz f = Some off /\
     snd (requested_bars q start_date end_date times days) = Given (mk_bframe None (bf_range f) (bf_rows f))).
Proof. exact source_after. Qed.
Print Assumptions C78_frame_kept_partial.
Theorem C78_frame_kept_refuted : exists (q : request nat) f f', q_source q = Given f /\
  snd (requested_bars q None None None None) = Given f' /\ bf_tz f' = None /\ bf_tz f <> None.
Proof.
  exists (mk_request (Given eastern) a_monday (a_monday + one_day) [None]), eastern.
  eexists. split; [reflexivity|]. split; [vm_compute; reflexivity|]. split; [reflexivity|discriminate].
Qed.
Print Assumptions C78_frame_kept_refuted.

(** Bars at 10:00 and 20:00 on eight days from a Monday for two symbols, one of
    them traded: asking for Tuesday to the next Monday, on "Tues" and [Day.MON],
    between 9:30 and 16:00, leaves the bars of Tuesday and of the second Monday
    at 10:00. *)
Definition week : bframe nat :=
  mk_bframe None true (flat_map (fun d => flat_map (fun h => map (fun s => mk_brow s (a_monday + Z.of_nat d * one_day + hour h * 1000) (2 * d)%nat) [1%nat; 2%nat]) [10; 20]) (seq 0 8)).
Example C78_example :
  let q := mk_request (Given week) a_monday (a_monday + 8 * one_day) [Some [1%nat]] in
  let days := Some (ManyDays [DayName (lit "Tues"); DayOf Mon]) in
  let times := Some [hour 9 + 30 * 60 * 1000000; hour 16] in
  fst (requested_bars q (Some (a_monday + one_day)) None times days) =
    Done [mk_brow 1%nat (a_monday + one_day + hour 10 * 1000) 2%nat; mk_brow 1%nat (a_monday + 7 * one_day + hour 10 * 1000) 14%nat].
Proof. vm_compute. reflexivity. Qed.
(** Names and times that are refused. *)
Example C78_example_refused :
  let q := mk_request (Given week) a_monday (a_monday + 8 * one_day) [Some [1%nat]] in
  fst (requested_bars q None None None (Some (OneDay (DayName (lit "tue"))))) = Refused UnknownDay /\
  fst (requested_bars q None None (Some [hour 9]) None) = Refused BadTimes /\
  fst (requested_bars q (Some (a_monday - 1)) None None None) = Refused StartOutside.
Proof. vm_compute. auto. Qed.
