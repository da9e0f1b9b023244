(** What rotational trading should do on one bar. [x] are the contexts of the
    symbols with a bar, [p] the account, [k] the pending orders. *)
From Verif Require Export PortfolioSpec PendingSpec RankSpec RotationModel.

(** ** Ranks *)
Definition own_score (sd : side) (g : sig) : option score := match sd with Long => g_lscore g | Short => g_sscore g end.
Definition scored (x : ctxs) (sd : side) (s : sym) (sc : score) : Prop :=
  exists g, aget s x = Some g /\ own_score sd g = Some sc /\ sc <> ScNaN.
Definition outranks (x : ctxs) (sd : side) (s t : sym) : Prop :=
  exists a b, scored x sd s a /\ scored x sd t b /\ beats s a t b.
(** A scored symbol's rank: one more than the number of symbols that outrank it. *)
Definition has_rank (x : ctxs) (sd : side) (s : sym) (r : nat) : Prop :=
  (exists sc, scored x sd s sc) /\
  exists l, NoDup l /\ (forall t, In t l <-> outranks x sd t s) /\ r = S (length l).
Definition good_rank (x : ctxs) (sd : side) (worst : nat) (s : sym) : Prop := exists r, has_rank x sd s r /\ (r <= worst)%nat.

(** ** Decisions *)
Definition holds (p : port) (s : sym) : Prop := position_of p Long s <> None \/ position_of p Short s <> None.
(** An order of this side is pending for the symbol. *)
Definition in_flight (k : pscope) (s : sym) (o : oside) : Prop :=
  exists n, In n (orders None None k) /\ n_sym n = s /\ n_type n = o.
(** A position to give up: it has a bar and a worse rank than allowed, or none. *)
Definition must_leave (p : port) (x : ctxs) (sd : side) (worst : nat) (s : sym) : Prop :=
  position_of p sd s <> None /\ In s (akeys x) /\ ~ good_rank x sd worst s.
(** A symbol that may be entered. *)
Definition may_enter (p : port) (k : pscope) (x : ctxs) (sd : side) (worst : nat) (s : sym) : Prop :=
  In s (akeys x) /\ ~ holds p s /\ ~ in_flight k s (entry_order sd) /\ good_rank x sd worst s.
(** An entry that is still on its way: for a symbol without a bar on this date an
    order marked as an exit does not count. *)
Definition awaited (p : port) (k : pscope) (x : ctxs) (sd : side) (s : sym) : Prop :=
  ~ holds p s /\ exists n, In n (orders None None k) /\ n_sym n = s /\ n_type n = entry_order sd /\ (n_exit n = None \/ In s (akeys x)).
(** [n] is the number of elements of a set. *)
Definition cardinal (P : sym -> Prop) (n : nat) : Prop := exists l, NoDup l /\ (forall s, In s l <-> P s) /\ length l = n.

(** [sel] are the symbols a side with at most [m] positions selects. *)
Record selection (p : port) (k : pscope) (x : ctxs) (worst m : nat) (sd : side) (sel : list sym) : Prop := mkSelection {
  se_nodup : NoDup sel;
  se_enter : forall s, In s sel -> may_enter p k x sd worst s;
  (** positions kept, entries on their way and the selection fit into [m]; no slot
      is left unused while there is a candidate *)
  se_slots : exists leaving waiting, cardinal (must_leave p x sd worst) leaving /\ cardinal (awaited p k x sd) waiting /\
    let free := Z.max 0 (Z.of_nat m - (Z.of_nat (length (poss sd p)) - Z.of_nat leaving) - Z.of_nat waiting) in
    (Z.of_nat (length sel) <= free)%Z /\
    ((exists t, may_enter p k x sd worst t /\ ~ In t sel) -> Z.of_nat (length sel) = free);
  (** the best candidates first *)
  se_best : forall s t, In s sel -> may_enter p k x sd worst t -> ~ In t sel -> outranks x sd s t
}.
(** A side without a limit takes no part. *)
Definition selected (p : port) (k : pscope) (x : ctxs) (worst : nat) (m : option nat) (sd : side) (sel : list sym) : Prop :=
  match m with Some m => selection p k x worst m sd sel | None => sel = [] end.
Definition opposite (sd : side) : side := match sd with Long => Short | Short => Long end.
(** A symbol selected by both sides goes to the one it ranks better on, in a tie
    to the long side. *)
Definition enters (x : ctxs) (sd : side) (sel other : list sym) (s : sym) : Prop :=
  In s sel /\ (In s other -> exists r r', has_rank x sd s r /\ has_rank x (opposite sd) s r' /\
                 match sd with Long => (r <= r')%nat | Short => (r < r')%nat end).
(** The position to be given up, on a side that takes part, without an exit order
    on its way. *)
Definition leaves (p : port) (k : pscope) (x : ctxs) (worst : nat) (m : option nat) (sd : side) (s : sym) : Prop :=
  m <> None /\ must_leave p x sd worst s /\ ~ in_flight k s (exit_order sd).
(** The order a context carries. *)
Definition only_order (g : sig) (o : oside) (q : Q) : Prop :=
  match o with
  | OBuy => g_bshares g = Some q /\ g_sshares g = None
  | OSell => g_sshares g = Some q /\ g_bshares g = None
  end.
Definition no_order (g : sig) : Prop := g_bshares g = None /\ g_sshares g = None.
Definition limit_of (z : settings) (sd : side) : option nat := match sd with Long => z_max_long z | Short => z_max_short z end.
(** What the context [g'] of symbol [s] carries after rotation: an order to leave
    the whole position, an order to enter a position of the target size (if the
    close is usable), or none. *)
Record decided (c : cfg) (p : port) (k : pscope) (close : fnum) (x : ctxs) (z : settings) (worst : nat)
    (size : Q) (sel : side -> list sym) (s : sym) (g' : sig) : Prop := mkDecided {
  de_leave : forall sd, leaves p k x worst (limit_of z sd) sd s ->
    exists pos, position_of p sd s = Some pos /\ only_order g' (exit_order sd) (ps_shares pos) /\ g_exit g' = Some sd;
  de_enter : forall sd, enters x sd (sel sd) (sel (opposite sd)) s ->
    match close with
    | Some y => if Qlt_le_dec 0 y then exists t, calc_target_shares c (p_equity p) size (Some y) None = Some t /\ only_order g' (entry_order sd) t
                else no_order g'
    | None => no_order g'
    end;
  de_else : (forall sd, ~ leaves p k x worst (limit_of z sd) sd s) -> (forall sd, ~ enters x sd (sel sd) (sel (opposite sd)) s) -> no_order g'
}.
