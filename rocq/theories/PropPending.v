(** Property C23: the pending-order registry. A history [ops] is any sequence of
    calls on a fresh [PendingOrderScope]; [krun ops] is the registry it leaves and
    [live ops] (PendingSpec.v) the orders added and not removed since, in
    submission order. *)
From Verif Require Import PendingProofs Tac.

(** A new order's id is one more than the number of orders ever added, and so
    greater than the id of every order pending now or before. *)
Theorem C23_fresh_ids ops a :
  snd (add a (krun ops)) = S (added ops) /\
  live (ops ++ [KAdd a]) = live ops ++ [with_id (S (added ops)) a] /\
  forall l1 l2 o, ops = l1 ++ l2 -> In o (live l1) -> (n_id o < S (added ops))%nat.
Proof.
  split; [exact (add_id ops a)|]. split; [exact (live_snoc ops (KAdd a))|].
  intros l1 l2 o -> I. pose proof (live_le l1 o I). unfold added. rewrite filter_app, app_length. fold (added l1). apply le_n_S. 
  apply Nat.le_trans with (added l1); [apply H|apply Nat.le_add_r].
Qed.
Print Assumptions C23_fresh_ids.
(** The queries return exactly the live orders, in submission order. *)
Theorem C23_queries ops i s :
  orders None None (krun ops) = live ops /\
  orders (Some s) None (krun ops) = filter (fun o => Nat.eqb (n_sym o) s) (live ops) /\
  orders None (Some i) (krun ops) = filter (fun o => Nat.eqb (n_id o) i) (live ops) /\
  orders (Some s) (Some i) (krun ops) = filter (fun o => Nat.eqb (n_sym o) s && Nat.eqb (n_id o) i) (live ops) /\
  get i (krun ops) = find (fun o => Nat.eqb (n_id o) i) (live ops) /\
  contains i (krun ops) = is_live ops i /\
  has_orders (krun ops) = negb (match live ops with [] => true | _ => false end) /\
  StronglySorted lt (map n_id (live ops)).
Proof. exact (queries_spec ops i s). Qed.
Print Assumptions C23_queries.
(** Removing says whether the order was pending; once gone it stays gone. *)
Theorem C23_removed_for_good ops more i :
  snd (remove i (krun ops)) = is_live ops i /\
  contains i (krun (ops ++ [KRemove i])) = false /\
  ((i <= added ops)%nat -> contains i (krun ops) = false -> contains i (krun (ops ++ more)) = false).
Proof. exact (removed_spec ops more i). Qed.
Print Assumptions C23_removed_for_good.
(** The retry count is the number of retry bars recorded while pending, and 0 for
    an order that is not pending. *)
Theorem C23_retry_bars ops i :
  retry_bars i (krun ops) = if is_live ops i then retries ops i else 0%nat.
Proof. exact (retry_spec ops i). Qed.
Print Assumptions C23_retry_bars.
(** An order counts as attempted exactly when it is pending and was marked, and
    every index mentions live orders only, as long as only pending orders are
    marked (the bar loop marks an order right after finding it pending). *)
Theorem C23_attempted ops i : marks_live ops -> was_attempted i (krun ops) = is_live ops i && marked ops i.
Proof. exact (attempted_spec ops i). Qed.
Print Assumptions C23_attempted.
Theorem C23_no_residue ops : marks_live ops ->
  map fst (k_orders (krun ops)) = map n_id (live ops) /\ map fst (k_retry (krun ops)) = map n_id (live ops) /\
  (forall s l, aget s (k_sym (krun ops)) = Some l -> map snd l = filter (fun o => Nat.eqb (n_sym o) s) (live ops)) /\
  incl (k_att (krun ops)) (map n_id (live ops)).
Proof. exact (no_residue ops). Qed.
Print Assumptions C23_no_residue.
(** Without that proviso the claim is false: marking an order after its removal
    leaves its id in the set of attempted orders for ever. *)
Theorem C23_residue_refuted : exists ops i,
  contains i (krun ops) = false /\ was_attempted i (krun ops) = true /\
  forall more, (forall o, In o more -> o <> KMark i) -> was_attempted i (krun (ops ++ more)) = true.
Proof. exact residue_stays. Qed.
Print Assumptions C23_residue_refuted.

Definition pend (ty : oside) (s : sym) (d : Z) (sh : Q) : padd :=
  mkPadd ty s d (d + 1) sh None (FNum 5) 1 (Some 3%Z) None None.
Definition demo_pending : list kop :=
  [KAdd (pend OBuy 0 1 10); KAdd (pend OSell 1 1 5); KAdd (pend OBuy 0 2 7); KMark 1; KAdvance 1; KAdvance 1; KAdvance 9;
   KAdd (pend OSell 2 2 1); KRemove 2; KAdvance 3; KRemoveAll (Some 2%nat); KAdd (pend OBuy 1 3 2)].
Example C23_example :
  map n_id (live demo_pending) = [1; 3; 5]%nat /\ map n_id (orders (Some 0%nat) None (krun demo_pending)) = [1; 3]%nat /\
  retry_bars 1 (krun demo_pending) = 2%nat /\ retries demo_pending 1 = 2%nat /\ retry_bars 9 (krun demo_pending) = 0%nat /\
  contains 2 (krun demo_pending) = false /\ was_attempted 1 (krun demo_pending) = true.
Proof. conj; comp. Qed.
Example C23_example_marks : marks_live demo_pending.
Proof.
  intros l1 i l2 E. assert (L : (length l1 < 12)%nat) by (apply (f_equal (@length kop)) in E; rewrite app_length in E; cbn in E; lia).
  assert (N : nth_error demo_pending (length l1) = Some (KMark i)) by (rewrite E, nth_error_app2, Nat.sub_diag by lia; reflexivity).
  assert (P : l1 = firstn (length l1) demo_pending) by (rewrite E, firstn_app, Nat.sub_diag, firstn_all; cbn; now rewrite app_nil_r).
  rewrite P. clear E P. remember (length l1) as n eqn:En. clear En.
  do 12 (destruct n as [|n]; [first [discriminate N | injection N as <-; reflexivity]|]). lia.
Qed.
