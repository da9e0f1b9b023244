(** What the settings of a run are to be, read off the calls the user made. *)
From Verif Require Export SettingsModel.

(** A configuration that a strategy may be built with. *)
Definition sound_config (f : config) : Prop :=
  0 < f_initial_cash f /\
  (forall m, f_max_long f = Some m -> (1 <= m)%Z) /\
  (forall m, f_max_short f = Some m -> (1 <= m)%Z) /\
  (forall a, f_fee_amount f = Some a -> 0 <= a) /\
  (1 <= f_buy_delay f)%Z /\ (1 <= f_sell_delay f)%Z /\ (1 <= f_bootstrap_samples f)%Z /\
  1 <= f_leverage f /\ 0 <= f_interest_rate f /\
  (0 < f_interest_rate f -> f_bars_per_year f <> None).

(** The three settings. *)
Inductive field : Type := LongLimit | ShortLimit | WorstRank.
(** The call is accepted and gives the setting this value; a limit given as a
    whole number has to be positive. *)
Inductive sets : call -> field -> option setting -> Prop :=
| sets_long_none : sets (SetLong None) LongLimit None
| sets_long_int : forall z, (1 <= z)%Z -> sets (SetLong (Some (SInt z))) LongLimit (Some (SInt z))
| sets_long_num : forall q, sets (SetLong (Some (SNum q))) LongLimit (Some (SNum q))
| sets_long_hyper : forall n, sets (SetLong (Some (SHyper n))) LongLimit (Some (SHyper n))
| sets_short_none : sets (SetShort None) ShortLimit None
| sets_short_int : forall z, (1 <= z)%Z -> sets (SetShort (Some (SInt z))) ShortLimit (Some (SInt z))
| sets_short_num : forall q, sets (SetShort (Some (SNum q))) ShortLimit (Some (SNum q))
| sets_short_hyper : forall n, sets (SetShort (Some (SHyper n))) ShortLimit (Some (SHyper n))
| sets_worst : forall v sizer, sets (EnableRotation v sizer) WorstRank v.
(** The value in effect: that of the last accepted call, or none. *)
Definition in_effect (cs : list call) (x : field) (v : option setting) : Prop :=
  (exists before c after, cs = before ++ c :: after /\ sets c x v /\ forall c' v', In c' after -> ~ sets c' x v') \/
  (v = None /\ forall c' v', In c' cs -> ~ sets c' x v').

(** The whole part of a number. *)
Definition whole_part (q : Q) (z : Z) : Prop :=
  (0 <= q -> inject_Z z <= q < inject_Z (z + 1)) /\ (q < 0 -> inject_Z (z - 1) < q <= inject_Z z).
(** The number a setting stands for in a run. *)
Inductive stands_for (h : values) : setting -> Z -> Prop :=
| stands_int : forall z, stands_for h (SInt z) z
| stands_num : forall q z, whole_part q z -> stands_for h (SNum q) z
| stands_hyper : forall n look q z, h = Some look -> look n = Some (Some q) -> whole_part q z -> stands_for h (SHyper n) z.
(** The limit of a run: what the setting stands for, or else what the
    configuration says. *)
Definition limit (h : values) (v : option setting) (conf : option Z) (o : option Z) : Prop :=
  match v with Some s => exists z, o = Some z /\ stands_for h s z | None => o = conf end.

(** These limits and this rank are usable together. *)
Definition usable (long short worst : option Z) : Prop :=
  (forall m, long = Some m -> (1 <= m)%Z) /\ (forall m, short = Some m -> (1 <= m)%Z) /\
  (forall w, worst = Some w ->
     (long <> None \/ short <> None) /\
     (forall m, long = Some m -> (m <= w)%Z) /\ (forall m, short = Some m -> (m <= w)%Z)).
(** The settings of a run after these calls. *)
Definition settled (f : config) (cs : list call) (h : values) (long short worst : option Z) : Prop :=
  exists vl vs vw,
    in_effect cs LongLimit vl /\ in_effect cs ShortLimit vs /\ in_effect cs WorstRank vw /\
    limit h vl (f_max_long f) long /\ limit h vs (f_max_short f) short /\ limit h vw None worst /\
    usable long short worst.
(** A natural number or nothing, as an integer or nothing. *)
Definition as_int (o : option nat) : option Z := option_map Z.of_nat o.
(** The slots that rotation shares the account among. *)
Definition slots (z : settings) : nat :=
  match z_max_long z with Some m => m | None => 0%nat end + match z_max_short z with Some m => m | None => 0%nat end.
