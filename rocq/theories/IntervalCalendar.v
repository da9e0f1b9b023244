(** The calendar arithmetic of the model agrees with the calendar. *)
From Verif Require Export IntervalSpec.
From Verif Require Import TextProofs NameProofs.
Open Scope list_scope.
Open Scope Z_scope.

Lemma leap_cycle y : leap_year (y + 400) = leap_year y.
Proof.
  unfold leap_year. replace (y + 400) with (y + 100 * 4) by lia. rewrite Z_mod_plus_full.
  replace (y + 100 * 4) with (y + 4 * 100) by lia. rewrite Z_mod_plus_full.
  replace (y + 4 * 100) with (y + 1 * 400) by lia. rewrite Z_mod_plus_full. reflexivity.
Qed.
Lemma month_start_cycle k : month_start (k + 4800) = month_start k + 146097.
Proof.
  unfold month_start. replace (k + 4800) with (k + 400 * 12) by lia. rewrite Z_div_plus_full, Z_mod_plus_full by lia.
  replace (1970 + (k / 12 + 400)) with (1970 + k / 12 + 400) by lia. rewrite leap_cycle.
  set (y := 1970 + k / 12). 
  replace ((y + 400 - 1) / 4) with ((y - 1) / 4 + 100) by (rewrite <- Z_div_plus_full by lia; f_equal; lia).
  replace ((y + 400 - 1) / 100) with ((y - 1) / 100 + 4) by (rewrite <- Z_div_plus_full by lia; f_equal; lia).
  replace ((y + 400 - 1) / 400) with ((y - 1) / 400 + 1) by (rewrite <- Z_div_plus_full by lia; f_equal; lia).
  lia.
Qed.
Lemma month_start_cycles k c : month_start (k + 4800 * c) = month_start k + 146097 * c.
Proof.
  assert (P : forall n, month_start (k + 4800 * Z.of_nat n) = month_start k + 146097 * Z.of_nat n).
  { induction n as [|n IH]; [rewrite Z.mul_0_r, Z.add_0_r; lia|].
    replace (k + 4800 * Z.of_nat (S n)) with (k + 4800 * Z.of_nat n + 4800) by lia. rewrite month_start_cycle, IH. lia. }
  assert (M : forall n, month_start (k - 4800 * Z.of_nat n) = month_start k - 146097 * Z.of_nat n).
  { induction n as [|n IH]; [rewrite Z.mul_0_r, Z.sub_0_r; lia|].
    pose proof (month_start_cycle (k - 4800 * Z.of_nat (S n))) as C.
    replace (k - 4800 * Z.of_nat (S n) + 4800) with (k - 4800 * Z.of_nat n) in C by lia. lia. }
  destruct (Z_le_gt_dec 0 c).
  - specialize (P (Z.to_nat c)). rewrite Z2Nat.id in P by lia. exact P.
  - specialize (M (Z.to_nat (- c))). rewrite Z2Nat.id in M by lia.
    replace (k - 4800 * - c) with (k + 4800 * c) in M by lia. lia.
Qed.
(** Everything over one cycle of 400 years. *)
Definition month_days (y m : Z) : Z :=
  if Z.eqb m 1 then (if leap_year y then 29 else 28)
  else if Z.eqb m 3 || Z.eqb m 5 || Z.eqb m 8 || Z.eqb m 10 then 30 else 31.
Definition cycle_ok (k : Z) : bool :=
  Z.eqb (month_start (k + 1)) (month_start k + month_days (1970 + k / 12) (k mod 12)) &&
  Z.leb (month_start (k - 1) * 4800) (146097 * k) && Z.leb (146097 * (k + 1)) (month_start (k + 2) * 4800).
Lemma cycle_check : forallb (fun k => cycle_ok (Z.of_nat k)) (seq 0 4800) = true.
Proof. vm_compute. reflexivity. Qed.
Lemma month_days_cycle y m c : month_days (y + 400 * c) m = month_days y m.
Proof.
  unfold month_days, leap_year. destruct (m =? 1); [|reflexivity].
  replace (y + 400 * c) with (y + 100 * c * 4) by lia. rewrite Z_mod_plus_full.
  replace (y + 100 * c * 4) with (y + 4 * c * 100) by lia. rewrite Z_mod_plus_full.
  replace (y + 4 * c * 100) with (y + c * 400) by lia. rewrite Z_mod_plus_full. reflexivity.
Qed.
Lemma cycles k : month_start (k + 1) = month_start k + month_days (1970 + k / 12) (k mod 12) /\
  month_start (k - 1) * 4800 <= 146097 * k /\ 146097 * (k + 1) <= month_start (k + 2) * 4800.
Proof.
  assert (E : k = k mod 4800 + 4800 * (k / 4800)) by (pose proof (Z.div_mod k 4800); lia).
  set (c := k / 4800) in *. set (j := k mod 4800) in *.
  assert (J : 0 <= j < 4800) by (apply Z.mod_pos_bound; lia).
  assert (K : cycle_ok j = true).
  { pose proof cycle_check as H. rewrite forallb_forall in H. specialize (H (Z.to_nat j)). rewrite Z2Nat.id in H by lia.
    apply H. apply in_seq. lia. }
  unfold cycle_ok in K. rewrite !Bool.andb_true_iff, Z.eqb_eq, !Z.leb_le in K. destruct K as ((K1 & K2) & K3). rewrite E.
  replace (j + 4800 * c + 1) with (j + 1 + 4800 * c) by lia. replace (j + 4800 * c - 1) with (j - 1 + 4800 * c) by lia.
  replace (j + 4800 * c + 2) with (j + 2 + 4800 * c) by lia. rewrite !month_start_cycles.
  replace (j + 4800 * c) with (j + 400 * c * 12) by lia. rewrite Z_div_plus_full, Z_mod_plus_full by lia.
  rewrite Z.add_assoc, month_days_cycle. split; [rewrite K1; ring|]. split; lia.
Qed.
Lemma leap_iff y : leap_year y = true <-> is_leap y.
Proof.
  unfold leap_year, is_leap. rewrite Bool.orb_true_iff, Bool.andb_true_iff, Bool.negb_true_iff, !Z.eqb_eq, Z.eqb_neq.
  rewrite !Z.mod_divide by lia. reflexivity.
Qed.
Lemma month_days_iff y m days : 0 <= m < 12 -> (month_length y m days <-> days = month_days y m).
Proof.
  intro M. unfold month_length, month_days.
  assert (C : m = 0 \/ m = 1 \/ m = 2 \/ m = 3 \/ m = 4 \/ m = 5 \/ m = 6 \/ m = 7 \/ m = 8 \/ m = 9 \/ m = 10 \/ m = 11) by lia.
  destruct C as [->|[->|[->|[->|[->|[->|[->|[->|[->|[->|[->| ->]]]]]]]]]]]; cbn [Z.eqb Pos.eqb orb]; try lia.
  destruct (leap_year y) eqn:L.
  - apply leap_iff in L. intuition lia.
  - assert (N : ~ is_leap y) by (rewrite <- leap_iff; congruence). intuition lia.
Qed.
Lemma month_start_first : first_days month_start.
Proof.
  split; [reflexivity|]. intro k. destruct (cycles k) as [C _]. apply month_days_iff; [apply Z.mod_pos_bound; lia|lia].
Qed.
Lemma first_days_unique f : first_days f -> forall k, f k = month_start k.
Proof.
  intros [F0 FS].
  assert (F : forall k, f (k + 1) = f k + month_days (1970 + k / 12) (k mod 12)).
  { intro k. specialize (FS k). apply month_days_iff in FS; [lia|apply Z.mod_pos_bound; lia]. }
  assert (P : forall n, f (Z.of_nat n) = month_start (Z.of_nat n)).
  { induction n as [|n IH]; [exact F0|]. rewrite Nat2Z.inj_succ, <- Z.add_1_r, F, (proj1 (cycles _)), IH. reflexivity. }
  assert (N : forall n, f (- Z.of_nat n) = month_start (- Z.of_nat n)).
  { induction n as [|n IH]; [exact F0|]. specialize (F (- Z.of_nat (S n))). pose proof (proj1 (cycles (- Z.of_nat (S n)))) as MS.
    replace (- Z.of_nat (S n) + 1) with (- Z.of_nat n) in * by lia. lia. }
  intro k. destruct (Z_le_gt_dec 0 k).
  - specialize (P (Z.to_nat k)). now rewrite Z2Nat.id in P by lia.
  - specialize (N (Z.to_nat (- k))). rewrite Z2Nat.id in N by lia. now rewrite Z.opp_involutive in N.
Qed.
Lemma month_days_pos y m : 0 < month_days y m.
Proof.
  unfold month_days. destruct (m =? 1), (leap_year y); try lia; destruct ((m =? 3) || (m =? 5) || (m =? 8) || (m =? 10)); lia.
Qed.
Lemma month_start_mono a b : a <= b -> month_start a <= month_start b.
Proof.
  intro H. assert (P : forall n, month_start a <= month_start (a + Z.of_nat n)).
  { induction n as [|n IH]; [rewrite Z.add_0_r; lia|].
    replace (a + Z.of_nat (S n)) with (a + Z.of_nat n + 1) by lia. rewrite (proj1 (cycles _)).
    pose proof (month_days_pos (1970 + (a + Z.of_nat n) / 12) ((a + Z.of_nat n) mod 12)). lia. }
  specialize (P (Z.to_nat (b - a))). rewrite Z2Nat.id in P by lia. now replace (a + (b - a)) with b in P by lia.
Qed.
(** The month of a day. *)
Lemma month_of_day_ok d : month_start (month_of_day d) <= d < month_start (month_of_day d + 1).
Proof.
  unfold month_of_day. set (k := d * 4800 / 146097).
  assert (K : 146097 * k <= d * 4800 < 146097 * k + 146097).
  { unfold k. pose proof (Z.div_mod (d * 4800) 146097). pose proof (Z.mod_pos_bound (d * 4800) 146097). lia. }
  destruct (cycles k) as (_ & A & B). destruct (Z.ltb_spec d (month_start k)) as [L|L].
  - replace (k - 1 + 1) with k by lia. lia.
  - destruct (Z.leb_spec (month_start (k + 1)) d) as [U|U]; [|lia]. replace (k + 1 + 1) with (k + 2) by lia. lia.
Qed.
(** ** Bins are periods *)
Lemma day_of_iff date d : on_day date d <-> day_of date = d.
Proof.
  unfold on_day, day_of, ns_per_day. split.
  - intro H. symmetry. apply Z.div_unique with (date - d * (86400 * 1000000000)); lia.
  - intros <-. pose proof (Z.div_mod date (86400 * 1000000000)). pose proof (Z.mod_pos_bound date (86400 * 1000000000)). lia.
Qed.
Lemma on_days_iff date a b : on_days date a b <-> a <= day_of date < b.
Proof.
  unfold on_days. split.
  - intros (d & D & H). apply day_of_iff in D. now subst d.
  - intro H. exists (day_of date). split; [now apply day_of_iff|easy].
Qed.
Lemma month_of_iff date a b : a <= b -> (on_days date (month_start a) (month_start b) <-> a <= month_of date < b).
Proof.
  intro AB. rewrite on_days_iff. unfold month_of. pose proof (month_of_day_ok (day_of date)) as [L U]. set (m := month_of_day (day_of date)) in *.
  split; intro H.
  - split.
    + destruct (Z_lt_ge_dec m a) as [X|]; [|lia]. pose proof (month_start_mono (m + 1) a). lia.
    + destruct (Z_lt_ge_dec m b) as [|X]; [lia|]. pose proof (month_start_mono b m). lia.
  - split.
    + pose proof (month_start_mono a m). lia.
    + pose proof (month_start_mono (m + 1) b). lia.
Qed.
Lemma div_iff x q k : 0 < q -> (q * k <= x < q * k + q <-> x / q = k).
Proof.
  intro Q. split.
  - intro H. symmetry. apply Z.div_unique with (x - q * k); lia.
  - intros <-. pose proof (Z.div_mod x q). pose proof (Z.mod_pos_bound x q). lia.
Qed.
Lemma text_letter s d u : s = d ++ [u] -> d <> [] -> forallb is_digit d = true -> existsb is_digit s = true.
Proof.
  intros -> N D. destruct d as [|c d]; [easy|]. cbn in *. apply Bool.andb_true_iff in D as [-> _]. reflexivity.
Qed.
Lemma period_calendar s date k : calendar s -> (period s date k <-> calendar_bin s date = k).
Proof.
  intro C.
  assert (ND : forall d u n, numeral d n -> s = d ++ [u] -> False).
  { intros d u n N E. apply numeral_iff in N as (N1 & N2 & _). pose proof (text_letter _ _ _ E N1 N2) as X.
    unfold calendar in C. destruct C as [C|[C|[C|[C|C]]]]; rewrite C in X; discriminate X. }
  unfold calendar in C. destruct C as [->|[->|[->|[->| ->]]]]; unfold calendar_bin; cbn [str_eqb].
  - change (if str_eqb (lit "daily") (lit "daily") then day_of date else _) with (day_of date). rewrite <- day_of_iff. split.
    + inversion 1; subst; [easy|]. exfalso; eauto.
    + now constructor.
  - change (_ = k) with ((day_of date + 3) / 7 = k). rewrite <- div_iff by lia. split.
    + intro H. inversion H; subst; [|exfalso; eauto]. match goal with X : on_days _ _ _ |- _ => apply on_days_iff in X end. lia.
    + intro H. constructor. apply on_days_iff. lia.
  - change (_ = k) with (month_of date = k). split.
    + intro H. inversion H; subst; [|exfalso; eauto]. match goal with X : on_days _ _ _ |- _ => apply month_of_iff in X end; lia.
    + intro H. constructor. apply month_of_iff; lia.
  - change (_ = k) with (month_of date / 3 = k). rewrite <- div_iff by lia. split.
    + intro H. inversion H; subst; [|exfalso; eauto]. match goal with X : on_days _ _ _ |- _ => apply month_of_iff in X end; lia.
    + intro H. constructor. apply month_of_iff; lia.
  - change (_ = k) with (month_of date / 12 = k). rewrite <- div_iff by lia. split.
    + intro H. inversion H; subst; [|exfalso; eauto]. match goal with X : on_days _ _ _ |- _ => apply month_of_iff in X end; lia.
    + intro H. constructor. apply month_of_iff; lia.
Qed.
Lemma period_duration s date k secs : duration s s -> to_seconds (Some s) = Some secs ->
  (period s date k <-> duration_bin secs date = k).
Proof.
  intros D T. pose proof D as (w & d0 & u0 & w' & n & d & u & _ & _ & _ & _ & P & _ & U & N & E).
  assert (X : exists long q, tf_unit [u] long q /\ 0 < q /\ secs = n * q).
  { assert (T0 : exists long secs, tf_unit [u] long secs /\ 0 < secs).
    { unfold tf_unit. cbn [In] in *. destruct U as [<-|[<-|[<-|[<-|[]]]]]; eexists _, _; (split; [eauto 8|reflexivity]). }
    destruct T0 as (long & q & T0 & Q). exists long, q. split; [easy|]. split; [easy|].
    assert (TF : timeframe s [(n, long)]).
    { exists [s]. split; [discriminate|]. split.
      - rewrite <- (app_nil_r s) at 2. apply (sp_one [] s []); constructor.
      - split; [|constructor; [easy|constructor]]. constructor; [|constructor].
        exists d, [u], [u], q. split; [easy|]. split; [apply N|]. split; [easy|]. left. now apply same_text_iff. }
    apply timeframe_parses in TF. unfold to_seconds in T. destruct s as [|c s]; [discriminate TF|]. rewrite TF in T.
    cbn [sum_seconds] in T. rewrite (unit_seconds_get _ _ _ T0) in T. injection T as <-. lia. }
  destruct X as (long & q & T0 & Q & ->). unfold duration_bin. rewrite <- div_iff by lia. split.
  - intro H. inversion H; subst.
    all: try (exfalso; destruct N as [N _]; apply numeral_iff in N as (N1 & N2 & _);
      match goal with E : _ = ?d ++ [?u] |- _ => pose proof (text_letter _ _ _ E N1 N2) as Y; discriminate Y end).
    apply app_inj_tail in H3 as [-> ->]. destruct N as [N _]. apply numeral_iff in N as (_ & _ & N). apply numeral_iff in H0 as (_ & _ & H0).
    assert (SS : secs = q).
    { destruct (unit_cases _ _ _ H1) as [(A & _ & ->)|[(A & _ & ->)|[(A & _ & ->)|[(A & _ & ->)|(A & _ & ->)]]]];
      destruct (unit_cases _ _ _ T0) as [(B & _ & ->)|[(B & _ & ->)|[(B & _ & ->)|[(B & _ & ->)|(B & _ & ->)]]]];
      rewrite A in B; try reflexivity; discriminate B. }
    subst secs. rewrite <- N in H0. subst n0. lia.
  - intro H. rewrite E. apply (pd_duration d u n long q); [apply N|easy|]. lia.
Qed.
