(** Vocabulary of C98: intervals that contain one another. *)
From Verif Require Export BootSpec NormalModel.
Open Scope list_scope.
Open Scope R_scope.

(** All six bounds are numbers; the interval for 10% lies within the one for 5%, and
    that within the one for 2.5%. *)
Definition nested (i : intervals) : Prop :=
  exists l1 l2 l3 h3 h2 h1,
    low_2p5 i = Some l1 /\ low_5 i = Some l2 /\ low_10 i = Some l3 /\
    high_10 i = Some h3 /\ high_5 i = Some h2 /\ high_2p5 i = Some h1 /\
    l1 <= l2 <= l3 /\ l3 <= h3 /\ h3 <= h2 <= h1.
(** The rarer the drawdown, the deeper. *)
Definition deeper (d : dd_confs) : Prop :=
  exists a b c e, q_001 d = Some a /\ q_01 d = Some b /\ q_05 d = Some c /\ q_10 d = Some e /\ a <= b <= c /\ c <= e.
