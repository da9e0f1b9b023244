(** C108: what a function reads on a bar is the data of the bars dated up to it - nothing later, nothing
    out of date. *)
From Coq Require Import List ZArith Bool Arith Sorted Lia.
From Verif Require Import ReadModel ReadSpec ReadProofs.
Import ListNotations.
Open Scope nat_scope.

Section Read.
Context {A : Type} (w : window A) (WF : well_formed w).
(** The bars are the test dates, in order, each once; on each bar the contexts handed out are those of
    the symbols with a bar of that date and past the warm-up, each once. *)
Theorem C108_called : forall l, map fst l = w_dates w ->
  map (fun b => fst (fst b)) (bars w l start) = w_dates w /\
  forall d act as_, In (d, act, as_) (bars w l start) -> NoDup act /\ forall s, In s act <-> called w d s.
Proof using WF.
  intros l L. split; [rewrite bars_dates; exact L|]. intros d act as_ J.
  destruct (bars_right w WF l [] start (eq_sym L)) with (d := d) (act := act) (as_ := as_) as (P & Q & _); auto.
  intros s. cbn. destruct (data_of w s) as [x|]; [|reflexivity]. unfold seen. rewrite filter_none; [reflexivity|]. reflexivity.
Qed.
(** Every reading through a context of the bar, and every reading of the account, is right - whatever
    was read before, on that bar or on earlier ones, and through whichever contexts. *)
Theorem C108_present_partial : forall l, map fst l = w_dates w ->
  forall d act as_, In (d, act, as_) (bars w l start) ->
  (exists rs, In (d, rs) l /\ map fst as_ = rs) /\
  forall r a, In (r, a) as_ -> (forall c, through r = Some c -> In c act) -> right w d r a.
Proof using WF.
  intros l L d act as_ J.
  destruct (bars_right w WF l [] start (eq_sym L)) with (d := d) (act := act) (as_ := as_) as (_ & _ & rs & P & Q & R); auto.
  - intros s. cbn. destruct (data_of w s) as [x|]; [|reflexivity]. unfold seen. rewrite filter_none; [reflexivity|]. reflexivity.
  - split; [exists rs; auto|exact R].
Qed.
End Read.

(** Two symbols, the second missing the bar of date 2. *)
Definition w0 : window nat :=
  mk_window [1; 2; 3]%Z [(0, mk_data [1; 2; 3]%Z [(4, [10; 20; 30]); (9, [7; 8; 9])]); (1, mk_data [1; 3]%Z [(4, [11; 31])])] [(4, true); (5, true); (9, false)] None.
Lemma w0_ok : well_formed w0.
Proof.
  split; [repeat constructor|]. split; [repeat constructor; cbn; intuition discriminate|].
  intros s x [[= <- <-]|[[= <- <-]|[]]]; (split; [repeat constructor|]); (split; [intros e; cbn; intuition|]); cbn; intros c v H.
  - destruct H as [[= <- <-]|[[= <- <-]|[]]]; reflexivity.
  - destruct H as [[= <- <-]|[]]; reflexivity.
Qed.
Example C108_example :
  let l := [(1%Z, [Foreign 0 1; Own 1 4]); (2%Z, [Foreign 0 1; Value 0 4; Dt 0; Has_bar_on 1 2%Z; Bar_ohlc 1 2%Z]); (3%Z, [Foreign 0 1; Foreign 1 0; Bars 1; Bar_ohlc 1 3%Z])] in
  map fst l = w_dates w0 /\
  bars w0 l start =
    [(1%Z, [0; 1], [(Foreign 0 1, Bar [(4, Some [11]); (5, None)]); (Own 1 4, Column (Some [11]))]);
     (2%Z, [0], [(Foreign 0 1, Bar [(4, Some [11]); (5, None)]); (Value 0 4, Scalar (Some 20)); (Dt 0, Date 2%Z); (Has_bar_on 1 2%Z, Truth false); (Bar_ohlc 1 2%Z, Prices (None, None, None))]);
     (3%Z, [0; 1], [(Foreign 0 1, Bar [(4, Some [11; 31]); (5, None)]); (Foreign 1 0, Bar [(4, Some [10; 20; 30]); (5, None); (9, Some [7; 8; 9])]); (Bars 1, Count 2); (Bar_ohlc 1 3%Z, Prices (Some 31, None, None))])].
Proof. split; vm_compute; reflexivity. Qed.

(** Through a context kept from an earlier bar, whose symbol has no bar now, a foreign symbol is read as
    it was then. *)
Theorem C108_kept_refuted :
  ~ (forall (w : window nat) l, well_formed w -> map fst l = w_dates w ->
     forall d act as_, In (d, act, as_) (bars w l start) -> forall c s a, In (Foreign c s, a) as_ -> right w d (Foreign c s) a).
Proof.
  intros H.
  specialize (H w0 [(1%Z, [Foreign 1 0]); (2%Z, [Foreign 1 0]); (3%Z, [])] w0_ok eq_refl 2%Z [0] [(Foreign 1 0, Bar [(4, Some [10]); (5, None); (9, Some [7])])]).
  assert (J : In (2%Z, [0], [(Foreign 1 0, Bar [(4, Some [10]); (5, None); (9, Some [7])])]) (bars w0 [(1%Z, [Foreign 1 0]); (2%Z, [Foreign 1 0]); (3%Z, [])] start))
    by (vm_compute; right; left; reflexivity).
  specialize (H J 1 0 _ (or_introl eq_refl)). cbn in H.
  destruct H as [(x & b & D & S & E)|[E _]]; [|discriminate].
  injection E as <-. destruct D as [[= <-]|[D|[]]]; [|discriminate].
  assert (U : forall v, has_col (mk_data [1; 2; 3]%Z [(4, [10; 20; 30]); (9, [7; 8; 9])]) 4 (Some v) -> v = [10; 20; 30]).
  { intros v (l1 & l2 & E & N). destruct l1 as [|p l1]; [injection E as <- _; reflexivity|].
    injection E as <- _. exfalso. apply N. left. reflexivity. }
  inversion S as [|c std v r b C S' E1 [E2 E3]| |]; subst. rewrite (U v C) in E2. discriminate E2.
Qed.
Print Assumptions C108_called.
Print Assumptions C108_present_partial.
Print Assumptions C108_kept_refuted.
