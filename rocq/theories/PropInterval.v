(** C38, C39, C40 and C54: compressed bars. *)
From Verif Require Import Tac Lemmas TextProofs NameProofs IntervalCalendar IntervalReads.
Open Scope list_scope.
Open Scope Z_scope.

(** Eight daily bars from Thursday 2024-01-04 (day 19726) on; the days of the
    second week start at day 19730. Volumes are 1 to 8, closes 10 to 17. *)
Definition demo_row (day n : Z) : row :=
  let q (z : Z) := Some (inject_Z z) in
  mk_row (day * 86400000000000) (q (9 + n)) (q (12 + n)) (q (8 - n)) (q (9 + n)) (q n) (q (20 * n)) [q (100 + n)].
Definition demo_rows : list row :=
  [demo_row 19726 1; demo_row 19727 2; demo_row 19730 3; demo_row 19731 4; demo_row 19732 5; demo_row 19733 6; demo_row 19734 7; demo_row 19737 8].
Definition weekly : interval := Named (lit "weekly").

(** ** C38 *)
(** Compression accepts the valid intervals. The base bars are cut into consecutive
    groups as the interval says, and the compressed bars summarise them, in order. *)
Theorem C38_accepts : forall has_vwap rows i, compress has_vwap rows i = None <-> ~ exists j, normal_form i j.
Proof.
  intros hv rows i. rewrite compress_none. split.
  - intros N [j J]. apply normalize_iff in J. congruence.
  - intro N. destruct (normalize_interval i) as [j|] eqn:E; [|easy]. apply normalize_iff in E. exfalso. eauto.
Qed.
Print Assumptions C38_accepts.
Theorem C38_groups : forall has_vwap rows i bars completed,
  compress has_vwap rows i = Some (bars, completed) ->
  exists j groups, normal_form i j /\ cut j rows groups /\ Forall2 (summarises has_vwap) groups bars.
Proof.
  intros hv rows i bars completed H. destruct (compress_some _ _ _ _ _ H) as (j & N & -> & _). exists j, (groups j rows).
  split; [exact N|]. split; [exact (groups_cut i j rows N)|].
  apply bars_ok, (groups_ok i j rows N).
Qed.
Print Assumptions C38_groups.
(** No volume is lost. *)
Theorem C38_volume : forall has_vwap rows i bars completed v v',
  compress has_vwap rows i = Some (bars, completed) ->
  total (map r_volume rows) (Some v) -> total (map c_volume bars) (Some v') -> (v == v')%Q.
Proof.
  intros hv rows i bars completed v v' H T T'. destruct (compress_some _ _ _ _ _ H) as (j & N & -> & _). destruct (groups_ok i j rows N) as [C _].
  rewrite <- C in T. clear C H N. set (gs := groups j rows) in *. clearbody gs.
  destruct T as [(qs & q & E & V & S)|[_ V]]; [|discriminate]. injection V as <-. destruct T' as [(qs' & q' & E' & V' & S')|[_ V']]; [|discriminate].
  injection V' as <-. rewrite S, S'. clear S S' v v'. revert qs qs' E E'. induction gs as [|g gs IH]; intros qs qs' E E'.
  - destruct qs; [|discriminate]. destruct qs'; [|discriminate]. easy.
  - destruct qs' as [|q' qs']; [discriminate|]. cbn [map concat] in E, E'. injection E' as E1 E2. rewrite map_app in E.
    destruct (map_eq_app _ _ _ _ (eq_sym E)) as (qa & qb & -> & A & B). rewrite Qsum_app, (IH qb qs') by auto. cbn [Qsum].
    assert (V : c_volume (full_bar hv g) = nsum (map r_volume g)) by (unfold full_bar; now destruct hv).
    pose proof (nsum_total (map r_volume g)) as [(qs2 & q2 & M & W & S2)|[I _]].
    + rewrite V, W in E1. injection E1 as ->. rewrite <- A in M.
      assert (qa = qs2) by (clear - M; revert qs2 M; induction qa as [|x l IH]; intros [|y m] M; try discriminate; [easy|]; injection M as -> M; f_equal; auto).
      subst. rewrite S2. ring.
    + rewrite <- A in I. apply in_map_iff in I as (x & X & _). discriminate.
Qed.
Print Assumptions C38_volume.
Theorem C38_every_bar_used : forall has_vwap rows i bars completed,
  compress has_vwap rows i = Some (bars, completed) -> (In None (map r_volume rows) <-> In None (map c_volume bars)).
Proof.
  intros hv rows i bars completed H. destruct (compress_some _ _ _ _ _ H) as (j & N & -> & _). destruct (groups_ok i j rows N) as [C _].
  rewrite <- C at 1. clear C H N. set (gs := groups j rows) in *. clearbody gs. rewrite map_map. induction gs as [|g gs IH]; [easy|].
  cbn [concat map In]. rewrite map_app, in_app_iff, IH.
  assert (V : c_volume (full_bar hv g) = nsum (map r_volume g)) by (unfold full_bar; now destruct hv). rewrite V.
  pose proof (nsum_total (map r_volume g)) as [(qs2 & q2 & M & W & S2)|[I W]]; rewrite W.
  - rewrite M. split; intros [X|X]; auto; [|discriminate]. apply in_map_iff in X as (x & X & _). discriminate.
  - tauto.
Qed.
Print Assumptions C38_every_bar_used.
Example C38_example :
  normal_form weekly weekly /\
  exists bars completed, compress true demo_rows weekly = Some (bars, completed) /\
    map c_open bars = map Some [10; 12; 17]%Q /\ map c_close bars = map Some [11; 16; 17]%Q /\ map c_high bars = map Some [14; 19; 20]%Q /\
    map c_low bars = map Some [6; 1; 0]%Q /\ map c_volume bars = map Some [3; 25; 8]%Q /\
    map c_date bars = [19727 * 86400000000000; 19734 * 86400000000000; 19737 * 86400000000000] /\ completed = [-1; 0; 0; 0; 0; 0; 1; 1] /\
    compress true demo_rows (Every 1) = None /\ compress true [] weekly = Some ([], []).
Proof.
  split; [apply normalize_iff; comp|]. eexists _, _. split; [vm_compute; reflexivity|]. calc.
Qed.

(** ** C39 *)
(** The bars visible at a base bar. With the base bars up to it as [p] and the
    later ones as [f]: the groups of [p] are visible, without the last one unless it
    is finished. *)
Theorem C39_visible : forall has_vwap rows i bars completed base_dates p f,
  compress has_vwap rows i = Some (bars, completed) -> rows = p ++ f -> p <> [] ->
  let visible := fetch_bars (mk_csdata bars completed base_dates) (Z.of_nat (length p)) in
  exists j gs l, normal_form i j /\ cut j p (gs ++ [l]) /\
    ((finished j p f l /\ Forall2 (summarises has_vwap) (gs ++ [l]) visible) \/
     (~ finished j p f l /\ Forall2 (summarises has_vwap) gs visible)).
Proof.
  intros hv rows i bars completed dates p f H E PN. destruct (compress_some _ _ _ _ _ H) as (j & N & _). cbv zeta.
  rewrite (fetch_seen hv rows i bars completed j dates p f E PN H N). destruct (seen_spec i j p f N PN) as (gs & l & C & S).
  exists j, gs, l. split; [exact N|]. split; [exact C|].
  assert (G : forall hs, (forall g, In g hs -> In g (gs ++ [l])) -> Forall2 (summarises hv) hs (map (full_bar hv) hs)).
  { intros hs Q. destruct C as (_ & NE & _). apply bars_ok. auto. }
  destruct S as [[F ->]|[F ->]]; [left|right]; (split; [exact F|]); apply G; intros g Q; [easy|]. apply in_or_app. now left.
Qed.
Print Assumptions C39_visible.
(** The visible bars are the first of the compressed bars; they only grow. *)
Theorem C39_grows : forall has_vwap rows i bars completed base_dates e e',
  compress has_vwap rows i = Some (bars, completed) -> e <= e' ->
  let d := mk_csdata bars completed base_dates in
  (exists r, fetch_bars d e' = fetch_bars d e ++ r) /\ (exists r, bars = fetch_bars d e ++ r).
Proof.
  intros hv rows i bars completed dates e e' H L d. split.
  - apply fetch_mono; [|easy]. exact (completed_mono _ _ _ _ _ H).
  - unfold fetch_bars. destruct (Z.ltb _ _); [now exists bars|]. eexists. symmetry. apply firstn_skipn.
Qed.
Print Assumptions C39_grows.
(** Whatever the later bars are, the same bars are visible -- except that the next
    bar's date tells whether a calendar or duration period is over. *)
Theorem C39_no_future : forall has_vwap i j p f f' bars completed base_dates bars' completed' base_dates',
  normal_form i j ->
  compress has_vwap (p ++ f) i = Some (bars, completed) -> compress has_vwap (p ++ f') i = Some (bars', completed') ->
  (closes j p f <-> closes j p f') -> p <> [] ->
  fetch_bars (mk_csdata bars completed base_dates) (Z.of_nat (length p)) =
  fetch_bars (mk_csdata bars' completed' base_dates') (Z.of_nat (length p)).
Proof.
  intros hv i j p f f' bars completed dates bars' completed' dates' N H H' CL PN.
  rewrite (fetch_seen hv (p ++ f) i bars completed j dates p f eq_refl PN H N).
  rewrite (fetch_seen hv (p ++ f') i bars' completed' j dates' p f' eq_refl PN H' N). f_equal. destruct j as [k|s]; [easy|].
  pose proof (fun f => closing_iff i s p f N PN) as CB.
  cbn [seen]. destruct (closing (bin_of s) p f) eqn:C1, (closing (bin_of s) p f') eqn:C2; try easy.
  - apply CB, CL, CB in C1. congruence.
  - apply CB, CL, CB in C2. congruence.
Qed.
Print Assumptions C39_no_future.
(** For n-bar intervals there is no exception, and the count is the number of full
    groups; the general computation of completed bars gives the same. *)
Theorem C39_every_n : forall has_vwap n p f bars completed base_dates,
  compress has_vwap (p ++ f) (Every n) = Some (bars, completed) ->
  Z.of_nat (length (fetch_bars (mk_csdata bars completed base_dates) (Z.of_nat (length p)))) = Z.of_nat (length p) / n.
Proof.
  intros hv n p f bars completed dates H. destruct (compress_some _ _ _ _ _ H) as (j & N & _).
  assert (j = Every n /\ 1 < n) as [-> K] by (inversion N; easy). destruct p as [|x p].
  - cbn [length]. rewrite fetch_low by (cbn; lia). now rewrite Z.div_0_l by lia.
  - rewrite (fetch_seen hv _ _ bars completed _ dates (x :: p) f eq_refl ltac:(discriminate) H N). rewrite map_length. cbn [seen].
    assert (K' : (0 < Z.to_nat n)%nat) by lia.
    destruct (groups_every_tail (Z.to_nat n) (x :: p) K') as (full & tail & F1 & F2 & F3 & T). rewrite F1, firstn_app, F3, Nat.sub_diag.
    cbn [firstn]. rewrite app_nil_r, <- F3, firstn_all, F3. rewrite Nat2Z.inj_div, Z2Nat.id by lia. easy.
Qed.
Print Assumptions C39_every_n.
Theorem C39_every_n_general : forall has_vwap n rows bars completed,
  rows <> [] -> compress has_vwap rows (Every n) = Some (bars, completed) ->
  exists gs, cut (Every n) rows gs /\ Forall2 (summarises has_vwap) gs bars /\
    completed = compute_completed (length rows) (starts_of gs) (ends_of gs) n.
Proof.
  intros hv n rows bars completed RN H. destruct (compress_some _ _ _ _ _ H) as (j & N & B & C).
  assert (j = Every n /\ 1 < n) as [-> K] by (inversion N; easy). exists (groups (Every n) rows).
  pose proof (groups_cut (Every n) (Every n) rows N) as CUT. split; [exact CUT|]. split.
  { subst bars. apply bars_ok, CUT. }
  destruct CUT as (CC & NE & CK). set (gs := groups (Every n) rows) in *.
  assert (GN : gs <> []) by (intro X; rewrite X in CC; now subst).
  assert (LC : length completed = length rows).
  { rewrite C. unfold compress_every. cbv zeta. cbn [snd]. destruct (negb _); now rewrite ?map_length, ?combine_length, ?map_length, ?seq_length, ?Nat.min_id. }
  apply nth_ext with (d := 0) (d' := 0).
  - rewrite LC. unfold compute_completed. destruct (ends_of gs); [now rewrite map_length, seq_length|].
    destruct (_ && _); now rewrite !map_length, seq_length.
  - intros t T. rewrite LC in T. rewrite C, every_completed by easy.
    destruct (groups_split gs (S t) NE) as (A & D & E & LA & LB); [rewrite CC; lia|].
    rewrite <- CC at 1. rewrite (completed_at gs t A D n NE GN E LA); [|now rewrite CC|destruct D; [easy|lia]].
    assert (FULL : forall X : list (list row), (forall g, In g X -> Z.of_nat (length g) = n) -> Z.of_nat (length (concat X)) = Z.of_nat (length X) * n).
    { clear. induction X as [|g X IH]; intro Q; [easy|]. cbn [concat]. rewrite app_length, Nat2Z.inj_add, IH by (intros; apply Q; now right).
      rewrite (Q g) by now left. cbn [length]. lia. }
    assert (AF : forall X g Y, gs = X ++ g :: Y -> forall h, In h X -> Z.of_nat (length h) = n).
    { intros X g Y Q h Hh. apply in_split in Hh as (X1 & X2 & ->). apply (CK X1 h (X2 ++ g :: Y)); [rewrite Q, <- app_assoc; easy|]. now destruct X2. }
    destruct D as [|d D].
    + destruct (exists_last GN) as (gi & gl & GE). pose proof (FULL gi (AF gi gl [] GE)) as FG.
      rewrite GE, last_last. pose proof (CK gi gl [] GE) as [LE _].
      assert (LG : (0 < length gl)%nat) by (assert (gl <> []) by (apply NE; rewrite GE; apply in_or_app; right; now left); destruct gl; [easy|cbn; lia]).
      rewrite GE, concat_app, app_length in LB. cbn [concat] in LB. rewrite app_nil_r in LB. rewrite app_length. cbn [length].
      destruct (Z.ltb_spec 0 n); [|lia]. cbn [andb]. destruct (Z.leb_spec n (Z.of_nat (length gl))).
      * assert ((Z.of_nat t + 1) / n = Z.of_nat (length gi) + 1); [|lia]. symmetry. apply (Z.div_unique_pos _ _ _ 0); [lia|]. nia.
      * assert ((Z.of_nat t + 1) / n = Z.of_nat (length gi)); [|lia]. symmetry. apply (Z.div_unique_pos _ _ _ (Z.of_nat (length gl))); [lia|]. nia.
    + pose proof (FULL A (AF A d D E)) as FA. pose proof (CK A d D E) as [LE _].
      assert ((Z.of_nat t + 1) / n = Z.of_nat (length A)); [|lia].
      symmetry. apply (Z.div_unique_pos _ _ _ (Z.of_nat t + 1 - Z.of_nat (length (concat A)))); [lia|]. nia.
Qed.
Print Assumptions C39_every_n_general.
(** Reads outside the base bars: nothing before the first, no more than at the last. *)
Theorem C39_clamped : forall d e,
  (e <= 0 -> fetch_bars d e = []) /\
  (Z.of_nat (length (cs_completed d)) <= e -> fetch_bars d e = fetch_bars d (Z.of_nat (length (cs_completed d)))) /\
  window_len d = Z.of_nat (length (fetch_bars d (Z.of_nat (length (cs_completed d))))).
Proof. intros d e. split; [apply fetch_low|]. split; [apply fetch_high|apply window_len_fetch]. Qed.
Print Assumptions C39_clamped.
(** Slicing to the dates of a test window keeps what is visible at each date. *)
Theorem C39_test_window : forall d dates, increasing (cs_base_dates d) -> length (cs_completed d) = length (cs_base_dates d) ->
  ((exists d', slice_for_test d dates = SData d') <-> dates <> [] /\ forall t, In t dates -> In t (cs_base_dates d)) /\
  forall d' e pos date, slice_for_test d dates = SData d' -> nth_error dates e = Some date ->
    nth_error (cs_base_dates d) pos = Some date -> fetch_bars d' (Z.of_nat e + 1) = fetch_bars d (Z.of_nat pos + 1).
Proof.
  intros d dates I L. split; [now apply slice_accepts|]. intros d' e pos date S E P. now apply (slice_reads d dates d' e date pos).
Qed.
Print Assumptions C39_test_window.
Definition demo_data : csdata :=
  match compress false demo_rows weekly with
  | Some (bars, completed) => mk_csdata bars completed (map r_date demo_rows)
  | None => mk_csdata [] [] []
  end.
Example C39_example :
  map (fun e => length (fetch_bars demo_data (Z.of_nat e))) (seq 0 10) = [0; 0; 1; 1; 1; 1; 1; 2; 2; 2]%nat /\
  increasing (cs_base_dates demo_data) /\
  (exists d', slice_for_test demo_data (firstn 4 (skipn 4 (cs_base_dates demo_data))) = SData d' /\
     map (fun e => length (fetch_bars d' e)) [1; 2; 3; 4] = [1; 1; 2; 2]%nat /\ window_len d' = 2) /\
  slice_for_test demo_data [5] = SNotSubset /\ slice_for_test demo_data [10 ^ 20] = SOutOfRange.
Proof. split; [comp|]. split; [vm_compute; auto 20|]. split; [eexists; split; [vm_compute; reflexivity|calc]|calc]. Qed.
(** The exception is real: the date of the next bar makes a weekly bar visible. *)
Example C39_next_date : let p := firstn 2 demo_rows in
  exists f f' bars completed bars' completed', compress false (p ++ f) weekly = Some (bars, completed) /\
    compress false (p ++ f') weekly = Some (bars', completed') /\
    fetch_bars (mk_csdata bars completed []) 2 = [] /\ fetch_bars (mk_csdata bars' completed' []) 2 <> [].
Proof.
  exists [demo_row 19728 3], [demo_row 19730 3]. do 4 eexists. split; [vm_compute; reflexivity|]. split; [vm_compute; reflexivity|].
  split; [vm_compute; reflexivity|]. vm_compute. discriminate.
Qed.
Example C39_no_future_example : let p := firstn 2 demo_rows in
  ~ closes weekly p [demo_row 19728 3] /\ closes weekly p [demo_row 19730 3].
Proof.
  assert (W : normal_form weekly weekly) by (apply normalize_iff; comp). split.
  - intros (x & y & p' & f' & k & A & B & P & Q). change (firstn 2 demo_rows) with ([demo_row 19726 1] ++ [demo_row 19727 2]) in A.
    apply app_inj_tail in A as [_ <-]. injection B as <- _. apply Q. apply (bin_of_period weekly) in P; [|easy]. apply (bin_of_period weekly); [easy|].
    rewrite <- P. vm_compute. reflexivity.
  - exists (demo_row 19727 2), (demo_row 19730 3), [demo_row 19726 1], [], (bin_of (lit "weekly") (r_date (demo_row 19727 2))).
    split; [easy|]. split; [easy|]. split; [now apply (bin_of_period weekly)|]. intro P. apply (bin_of_period weekly) in P; [|easy].
    vm_compute in P. discriminate.
Qed.

(** ** C40 *)
(** The bars kept for training are those of the train dates that lie at least
    [lookahead] bars before every bar of a test date; the count is of the others. *)
Theorem C40_holdout : forall bars train test lookahead kept dropped,
  increasing bars -> (forall d e, In d train -> In e test -> d < e) ->
  lookahead_train_dates bars train test lookahead = (kept, dropped) ->
  (forall i d, nth_error bars i = Some d ->
     (In d kept <-> In d train /\ forall t e, nth_error bars t = Some e -> In e test -> Z.of_nat i + lookahead <= Z.of_nat t)) /\
  (forall d, In d kept -> In d train) /\
  dropped = length (filter (fun d => zmem d train && negb (zmem d kept)) bars).
Proof.
  intros bars train test lookahead kept dropped I T R. split; [exact (holdout_kept bars train test lookahead kept dropped I T R)|].
  split; [exact (holdout_subset bars train test lookahead kept dropped R)|].
  exact (holdout_dropped bars train test lookahead kept dropped I R).
Qed.
Print Assumptions C40_holdout.
Example C40_example : lookahead_train_dates [10; 20; 30; 40; 50; 60] [10; 20; 25; 30; 40] [55; 60] 3 = ([10; 20; 30], 1%nat) /\
  increasing [10; 20; 30; 40; 50; 60] /\ (forall d e, In d [10; 20; 25; 30; 40] -> In e [55; 60] -> d < e).
Proof.
  split; [comp|]. split; [cbn; lia|]. intros d e D E. cbn [In] in *. lia.
Qed.

(** ** C54 *)
(** The periods are those of the calendar: the days, weeks from Monday, months,
    quarters and years of the proleptic Gregorian calendar, or multiples of a fixed
    duration from 1970-01-01 on; every date lies in exactly one period, and the
    bars are binned by it. *)
Theorem C54_periods : forall i s date, normal_form i (Named s) -> exists k, period s date k /\ forall k', period s date k' -> k' = k.
Proof.
  intros i s date N. exists (bin_of s date). split; [now apply (bin_of_period i)|]. intros k' P. now apply (bin_of_period i) in P.
Qed.
Print Assumptions C54_periods.
Theorem C54_calendar : forall s date k, calendar s -> (calendar_bin s date = k <-> period s date k).
Proof. intros s date k C. symmetry. now apply period_calendar. Qed.
Print Assumptions C54_calendar.
(** [month_start] is the only function with the right month lengths. *)
Theorem C54_months : first_days month_start /\ forall f, first_days f -> forall k, f k = month_start k.
Proof. split; [exact month_start_first|exact first_days_unique]. Qed.
Print Assumptions C54_months.
(** Later dates are never in earlier periods. *)
Theorem C54_ordered : forall i s d d' k k', normal_form i (Named s) -> d <= d' -> period s d k -> period s d' k' -> k <= k'.
Proof.
  intros i s d d' k k' N L P P'. apply (bin_of_period i) in P, P'; try easy. subst. now apply (bin_mono i).
Qed.
Print Assumptions C54_ordered.
(** 2000-02-29 exists and 1900-02-29 does not; 2024-01-01 was a Monday; Q2 starts in April. *)
Example C54_example :
  month_start (12 * 30 + 2) - month_start (12 * 30 + 1) = 29 /\ month_start (12 * -70 + 2) - month_start (12 * -70 + 1) = 28 /\
  month_start (12 * 54) = 19723 /\ period (lit "weekly") (19723 * 86400000000000) 2818 /\
  ~ period (lit "weekly") (19723 * 86400000000000 - 1) 2818 /\
  calendar_bin (lit "quarterly") (month_start (12 * 54 + 3) * 86400000000000) = 4 * 54 + 1 /\
  calendar_bin (lit "quarterly") (month_start (12 * 54 + 3) * 86400000000000 - 1) = 4 * 54 /\
  calendar (lit "weekly") /\ period (lit "90m") (12 * 5400 * 1000000000 - 1) 11 /\ normal_form (Named (lit "90M")) (Named (lit "90m")).
Proof.
  split; [comp|]. split; [comp|]. split; [comp|]. split; [apply period_calendar; [right; now left|comp]|].
  split; [intro P; apply period_calendar in P; [vm_compute in P; discriminate|right; now left]|]. split; [comp|]. split; [comp|].
  split; [right; now left|]. assert (N : normal_form (Named (lit "90M")) (Named (lit "90m"))) by (apply normalize_iff; comp).
  split; [|exact N]. apply (bin_of_period (Named (lit "90M"))); [exact N|comp].
Qed.
