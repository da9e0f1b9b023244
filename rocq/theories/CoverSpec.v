(** Orders set through the cover attributes. *)
From Verif Require Export TurnSpec.

(** The run [l] reaches window [v]; in it, the bar of date [d] takes the state
    [b] to [b'], and the later bar of date [e] takes [c] to [c']. *)
Definition two_bars (cf : cfg) (k : nat) (l : list env) (v : env) (d : Z) (b b' : bstate) (e : Z) (c c' : bstate) : Prop :=
  exists l1 l2 b0 pre mid rest, l = l1 ++ v :: l2 /\ backtests l1 (fresh cf k) = Some b0 /\ v_dates v = pre ++ d :: mid ++ e :: rest /\
    bars_from v 0 pre (start v b0) = Some b /\ bar v (length pre) d b = Some b' /\
    bars_from v (S (length pre)) mid b' = Some c /\ bar v (length (pre ++ d :: mid)) e c = Some c'.
(** Order [n] was placed on the bar from [b] to [b']. *)
Definition placed_on (b b' : bstate) (n : pending) : Prop := In n (entered (b_kops b')) /\ ~ In n (entered (b_kops b)).
(** In the attempts [l], order [n] is not tried after a sell order of [ns]. *)
Definition before_sells (l : list (nat * Z * bool)) (n : pending) (ns : list pending) : Prop :=
  forall m l1 x f l2, In m ns -> n_type m = OSell -> l = l1 ++ (n_id m, x, f) :: l2 -> In (n_id n) (ids_of l) -> In (n_id n) (ids_of l1).
