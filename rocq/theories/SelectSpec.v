(** Vocabulary: bars of a symbol, and when a symbol that is no longer selected is
    left. *)
From Verif Require Export SelectModel MarketSpec PortfolioSpec.
From Coq Require Export Permutation.

(** Symbol [s] has a bar on date [d]. *)
Definition row_on {R} (m : market R) (s : sym) (d : Z) : Prop := exists r, In (d, r) (m s).
Definition within (w : window) (d : Z) : Prop := (fst w <= d <= snd w)%Z.
(** The first date of the window on which any symbol of the data has a bar. *)
Definition first_date {R} (m : market R) (all : list sym) (w : window) (d0 : Z) : Prop :=
  within w d0 /\ (exists s, In s all /\ row_on m s d0) /\ (forall s d, In s all -> row_on m s d -> within w d -> (d0 <= d)%Z).
(** A dropped symbol is left on its first bar of the window; if it has none, on
    its last bar up to the first date of the window. *)
Definition leaves_on {R} (m : market R) (all : list sym) (w : window) (s : sym) (d : Z) : Prop :=
  row_on m s d /\
  ((within w d /\ forall d', row_on m s d' -> within w d' -> (d <= d')%Z) \/
   ((forall d', row_on m s d' -> ~ within w d') /\ exists d0, first_date m all w d0 /\ (d <= d0)%Z /\ forall d', row_on m s d' -> (d' <= d0)%Z -> (d' <= d)%Z)).
(** Every symbol that has a bar in the window has one on its first date. *)
Definition aligned {R} (m : market R) (all : list sym) (w : window) : Prop :=
  forall s d d0, row_on m s d -> within w d -> first_date m all w d0 -> row_on m s d0.
(** Every symbol of the data is in [all] and has a bar in the window, which is not
    empty. *)
Definition everyone_trades {R} (m : market R) (all : list sym) (w : window) : Prop :=
  (exists d0, first_date m all w d0) /\ forall s d, row_on m s d -> In s all /\ exists d', row_on m s d' /\ within w d'.
(** The rows up to a date. *)
Definition rows_known {R} (m : market R) (all : list sym) (d : Z) : list (sym * list (Z * R)) :=
  map (fun s => (s, filter (fun r => Z.leb (fst r) d) (m s))) all.
(** What is known when symbol data up to [d] has been seen. *)
Definition view_on {R} (m : market R) (all : list sym) (w : window) (d : Z) : view R := mkView R w d (rows_known m all d).
(** Order [o] closes position [pos] on side [sd] on date [d], at the prices and
    slippage of that bar. *)
Definition closing_order {U R} (y : strategy U R) (m : market R) (w : window) (d : Z) (sd : side) (pos : position) (o : order) : Prop :=
  let v := view_on m (y_all y) w d in
  let price := exit_price sd (fst (y_exit_fill y v (o_sym o))) (snd (y_exit_fill y v (o_sym o))) in
  o_date o = d /\ o_side o = exit_oside sd /\ o_shares o == ps_shares pos /\ o_market o = price /\
  slip_price (y_sm y v) (exit_oside sd) (o_sym o) (ps_shares pos) price = Some (o_fill o).
(** Training precedes testing. *)
Definition train_first (splits : list wsplit) : Prop := Forall (fun sp => (snd (fst sp) < fst (snd sp))%Z) splits.

(** What executions resolve to, given the training rows: fixed symbols as they
    are; a selector's symbols, which must be some, all different, and all have a
    training row. *)
Definition has_rows {R} (f : trows R) (s : sym) : Prop := exists l, In (s, l) f /\ l <> [].
Definition resolves_to {R} (f : trows R) (x : symbols R) (l : list sym) : Prop :=
  match x with
  | Fixed s => l = s
  | Selector g => g f = Some l /\ l <> [] /\ NoDup l /\ forall s, In s l -> has_rows f s
  end.
(** No symbol belongs to two executions. *)
Fixpoint disjoint_lists (l : list (list sym)) : Prop :=
  match l with [] => True | x :: r => (forall s y, In s x -> In y r -> ~ In s y) /\ disjoint_lists r end.
