(** Invariants of the pending-order registry. *)
From Coq Require Export Sorting.Sorted.
From Verif Require Export Lemmas.
From Verif Require Export PendingSpec.

Definition tag (L : list pending) : list (nat * pending) := map (fun o => (n_id o, o)) L.
Definition without (i : nat) (L : list pending) := filter (fun o => negb (Nat.eqb (n_id o) i)) L.
Definition of_sym (s : sym) (L : list pending) := filter (fun o => Nat.eqb (n_sym o) s) L.

Lemma keys_tag L : akeys (tag L) = map n_id L.
Proof. unfold akeys, tag. rewrite map_map. reflexivity. Qed.
Lemma vals_tag L : avals (tag L) = L.
Proof. unfold avals, tag. rewrite map_map. apply map_id. Qed.
Lemma without_notin i L : ~ In i (map n_id L) -> without i L = L.
Proof.
  induction L as [|o L IH]; cbn; auto. intro N. destruct (Nat.eqb_spec (n_id o) i) as [E|E]; cbn; [tauto|].
  f_equal. apply IH. tauto.
Qed.
Lemma adel_tag i L : NoDup (map n_id L) -> adel i (tag L) = tag (without i L).
Proof.
  induction L as [|o L IH]; cbn; auto. intro N. inversion N as [|? ? H1 H2]; subst.
  rewrite (Nat.eqb_sym i). destruct (Nat.eqb_spec (n_id o) i) as [E|E]; cbn.
  - subst i. fold (without (n_id o) L). rewrite without_notin; auto.
  - f_equal. apply IH. auto.
Qed.
Lemma aget_tag i L : aget i (tag L) = find (fun o => Nat.eqb (n_id o) i) L.
Proof.
  induction L as [|o L IH]; cbn; auto. rewrite (Nat.eqb_sym i). destruct (Nat.eqb (n_id o) i); auto.
Qed.
Lemma ids_filter f L : incl (map n_id (filter f L)) (map n_id L).
Proof. intros x I. apply in_map_iff in I. destruct I as [o [<- I]]. apply filter_In in I. apply in_map. tauto. Qed.
Lemma nodup_filter (f : pending -> bool) L : NoDup (map n_id L) -> NoDup (map n_id (filter f L)).
Proof.
  induction L as [|o L IH]; cbn; auto. intro N. inversion N as [|? ? H1 H2]; subst. destruct (f o); cbn; auto.
  constructor; auto. intro I. apply H1. eapply ids_filter; eauto.
Qed.
Lemma filter_comm {A} (f g : A -> bool) l : filter f (filter g l) = filter g (filter f l).
Proof. induction l as [|x l IH]; cbn; auto. destruct (f x) eqn:F, (g x) eqn:G; cbn; rewrite ?F, ?G, ?IH; auto. Qed.
Lemma find_id i L : NoDup (map n_id L) -> forall o, In o L -> n_id o = i -> find (fun o => Nat.eqb (n_id o) i) L = Some o.
Proof.
  induction L as [|x L IH]; cbn; [tauto|]. intros N o I E. inversion N as [|? ? H1 H2]; subst.
  destruct (Nat.eqb_spec (n_id x) (n_id o)) as [X|X].
  - destruct I as [->|I]; auto. exfalso. apply H1. rewrite X. now apply in_map.
  - destruct I as [->|I]; [tauto|]. auto.
Qed.

(** The registry agrees with the list of live orders. *)
Record KInv (n : nat) (L : list pending) (k : pscope) : Prop := mkKInv {
  ki_last : k_last k = n;
  ki_orders : k_orders k = tag L;
  ki_sym : forall s, match aget s (k_sym k) with Some l => l | None => [] end = tag (of_sym s L);
  ki_retry : akeys (k_retry k) = map n_id L;
  ki_sorted : StronglySorted lt (map n_id L);
  ki_le : forall o, In o L -> (n_id o <= n)%nat
}.
Lemma sorted_nodup l : StronglySorted lt l -> NoDup l.
Proof.
  induction 1 as [|x l S IH F]; constructor; auto. intro I. rewrite Forall_forall in F. specialize (F x I). lia.
Qed.
Lemma sorted_filter (f : pending -> bool) L : StronglySorted lt (map n_id L) -> StronglySorted lt (map n_id (filter f L)).
Proof.
  induction L as [|o L IH]; cbn; [constructor|]. intro S. inversion S as [|? ? H1 H2]; subst. destruct (f o); cbn; auto.
  constructor; auto. rewrite Forall_forall in *. intros x I. apply H2. eapply ids_filter; eauto.
Qed.
Lemma sorted_snoc l x : StronglySorted lt l -> (forall y, In y l -> (y < x)%nat) -> StronglySorted lt (l ++ [x]).
Proof.
  induction l as [|z l IH]; cbn; intros S H; [repeat constructor|]. inversion S as [|? ? H1 H2]; subst.
  constructor; [apply IH; auto|]. apply Forall_app. split; auto.
Qed.
Lemma ki_nd n L k : KInv n L k -> NoDup (map n_id L).
Proof. intro H. apply sorted_nodup, (ki_sorted _ _ _ H). Qed.

Lemma init_inv : KInv 0 [] pscope0.
Proof. constructor; cbn; auto; try constructor. tauto. Qed.

Lemma add_inv n L k a : KInv n L k -> KInv (S n) (L ++ [with_id (S n) a]) (fst (add a k)) /\ snd (add a k) = S n.
Proof.
  intros [H1 H2 H3 H4 H5 H6]. unfold add. cbn [fst snd]. rewrite H1. split; auto.
  assert (FR : ~ In (S n) (map n_id L)).
  { intro I. apply in_map_iff in I. destruct I as [o [E I]]. specialize (H6 o I). lia. }
  constructor; cbn [k_last k_orders k_sym k_retry]; auto.
  - rewrite H2. rewrite akeys_aset_new; [|now rewrite keys_tag]. unfold tag. rewrite map_app. reflexivity.
  - intro s. unfold of_sym. rewrite filter_app. cbn [filter]. rewrite aget_aset. cbn [with_id n_sym].
    rewrite (Nat.eqb_sym (d_sym a) s). destruct (Nat.eqb_spec s (d_sym a)) as [->|N].
    + rewrite (H3 (d_sym a)). rewrite akeys_aset_new.
      * unfold tag. rewrite map_app. reflexivity.
      * rewrite keys_tag. intro I. apply FR. eapply ids_filter; eauto.
    + rewrite app_nil_r. apply H3.
  - rewrite akeys_aset_new; [|rewrite H4; auto]. unfold akeys. rewrite map_app. fold (akeys (k_retry k)). rewrite H4, map_app. reflexivity.
  - rewrite map_app. apply sorted_snoc; auto. intros y I. apply in_map_iff in I. destruct I as [o [<- I]]. specialize (H6 o I). cbn. lia.
  - intros o I. apply in_app_iff in I. destruct I as [I|[<-|[]]]; [specialize (H6 o I); lia|cbn; lia].
Qed.

Lemma akeys_adel {V} i (l : list (nat * V)) : NoDup (akeys l) -> akeys (adel i l) = filter (fun x => negb (Nat.eqb x i)) (akeys l).
Proof.
  induction l as [|[j v] l IH]; cbn; auto. intro N. inversion N as [|? ? H1 H2]; subst.
  rewrite (Nat.eqb_sym i). destruct (Nat.eqb_spec j i) as [->|E]; cbn.
  - fold (akeys l) in *. symmetry. clear - H1. induction (akeys l) as [|x r IH]; cbn; auto. cbn in H1.
    destruct (Nat.eqb_spec x i); cbn; [subst; tauto|]. f_equal. tauto.
  - f_equal. auto.
Qed.
Lemma map_without i L : map n_id (without i L) = filter (fun x => negb (Nat.eqb x i)) (map n_id L).
Proof. unfold without. induction L as [|o L IH]; cbn; auto. destruct (Nat.eqb (n_id o) i); cbn; rewrite IH; auto. Qed.

Lemma remove_inv n L k i : KInv n L k ->
  KInv n (without i L) (fst (remove i k)) /\ snd (remove i k) = nmem i (map n_id L).
Proof.
  intro H. pose proof (ki_nd _ _ _ H) as ND. destruct H as [H1 H2 H3 H4 H5 H6]. unfold remove.
  rewrite H2, aget_tag. destruct (find (fun o => Nat.eqb (n_id o) i) L) as [o|] eqn:F.
  - apply find_some in F. destruct F as [I E]. apply Nat.eqb_eq in E. subst i. cbn [fst snd].
    split; [|symmetry; apply nmem_In; now apply in_map].
    constructor; cbn [k_last k_orders k_sym k_retry]; auto.
    + apply adel_tag; auto.
    + intro s. assert (Hs : of_sym s (without (n_id o) L) = without (n_id o) (of_sym s L)) by apply filter_comm.
      rewrite Hs. clear Hs. pose proof (H3 (n_sym o)) as H3o. destruct (aget (n_sym o) (k_sym k)) as [l|] eqn:El.
      * rewrite aget_aset. destruct (Nat.eqb_spec s (n_sym o)) as [->|N].
        -- rewrite H3o. apply adel_tag. now apply nodup_filter.
        -- rewrite H3. f_equal. symmetry. apply without_notin. intro I2. apply in_map_iff in I2. destruct I2 as [o' [E' I']].
           apply filter_In in I'. destruct I' as [I' Es]. apply Nat.eqb_eq in Es.
           assert (o' = o). { pose proof (find_id _ _ ND o' I' E'). pose proof (find_id _ _ ND o I eq_refl). congruence. }
           subst o'. auto.
      * exfalso. assert (I2 : In o (of_sym (n_sym o) L)) by (apply filter_In; split; auto; apply Nat.eqb_refl).
        destruct (of_sym (n_sym o) L); [destruct I2|discriminate].
    + rewrite akeys_adel; [|now rewrite H4]. rewrite H4. symmetry. apply map_without.
    + now apply sorted_filter.
    + intros x Ix. apply filter_In in Ix. apply H6. tauto.
  - cbn [fst snd]. assert (N : ~ In i (map n_id L)).
    { intro I. apply in_map_iff in I. destruct I as [o [E I]]. pose proof (find_id _ _ ND o I E). congruence. }
    split; [|symmetry; now apply nmem_notIn]. rewrite without_notin; auto. constructor; auto.
Qed.

Lemma remove_each_inv l : forall n L k, KInv n L k ->
  KInv n (filter (fun o => negb (nmem (n_id o) l)) L) (remove_each l k).
Proof.
  induction l as [|i l IH]; intros n L k H.
  - cbn. replace (filter (fun _ => true) L) with L; auto. clear. induction L as [|x L IH]; cbn; congruence.
  - destruct (remove_inv n L k i H) as [H1 _]. specialize (IH _ _ _ H1).
    change (remove_each (i :: l) k) with (remove_each l (fst (remove i k))).
    replace (filter (fun o => negb (nmem (n_id o) (i :: l))) L)
      with (filter (fun o => negb (nmem (n_id o) l)) (without i L)); auto.
    unfold without. clear. induction L as [|x L IH]; auto. cbn [filter]. unfold nmem in *. cbn [existsb] in *.
    destruct (Nat.eqb (n_id x) i); cbn [orb negb filter]; auto.
    destruct (existsb (Nat.eqb (n_id x)) l); cbn [negb]; congruence.
Qed.

Lemma remove_all_inv n L k s : KInv n L k ->
  KInv n (match s with None => [] | Some s => filter (fun o => negb (Nat.eqb (n_sym o) s)) L end) (remove_all s k).
Proof.
  intro H. pose proof (ki_nd _ _ _ H) as ND. unfold remove_all. destruct s as [s|].
  - pose proof (ki_sym _ _ _ H s) as Hs.
    assert (X : filter (fun o => negb (Nat.eqb (n_sym o) s)) L = filter (fun o => negb (nmem (n_id o) (map n_id (of_sym s L)))) L).
    { apply filter_ext_in. intros o I. f_equal. destruct (Nat.eqb_spec (n_sym o) s) as [E|E]; symmetry.
      - apply nmem_In. apply in_map. apply filter_In. split; auto. now apply Nat.eqb_eq.
      - apply nmem_notIn. intro I2. apply in_map_iff in I2. destruct I2 as [o' [E' I']]. apply filter_In in I'. destruct I' as [I' Es].
        apply Nat.eqb_eq in Es. apply E. assert (o' = o); [|congruence].
        pose proof (find_id _ _ ND o' I' E'). pose proof (find_id _ _ ND o I eq_refl). congruence. }
    rewrite X. destruct (aget s (k_sym k)) as [l|].
    + rewrite Hs, keys_tag. now apply remove_each_inv.
    + destruct (of_sym s L); [|discriminate]. cbn. replace (filter (fun _ => true) L) with L; auto.
      clear. induction L as [|x L IH]; cbn; congruence.
  - rewrite (ki_orders _ _ _ H), keys_tag. pose proof (remove_each_inv (map n_id L) _ _ _ H) as R.
    replace (@nil pending) with (filter (fun o => negb (nmem (n_id o) (map n_id L))) L); auto.
    assert (A : forall M, (forall o, In o M -> In o L) -> filter (fun o => negb (nmem (n_id o) (map n_id L))) M = []).
    { induction M as [|x M IH]; cbn; auto. intro IN. assert (T : nmem (n_id x) (map n_id L) = true) by (apply nmem_In, in_map, IN; auto).
      rewrite T. cbn. apply IH. intros o I. apply IN. auto. }
    now apply A.
Qed.

Lemma advance_inv n L k i : KInv n L k -> KInv n L (advance_retry_bars i k).
Proof.
  intros [H1 H2 H3 H4 H5 H6]. unfold advance_retry_bars. destruct (ahas i (k_orders k)) eqn:E; constructor; cbn [k_last k_orders k_sym k_retry k_att]; auto.
  rewrite akeys_aset_in; auto. rewrite H4. apply ahas_true in E. rewrite H2, keys_tag in E. exact E.
Qed.
Lemma mark_inv n L k i : KInv n L k -> KInv n L (mark_attempted i k).
Proof. intros [H1 H2 H3 H4 H5 H6]. constructor; cbn; auto. Qed.

Lemma step_inv n L k o : KInv n L k ->
  KInv (fst (live_step (n, L) o)) (snd (live_step (n, L) o)) (kstep k o).
Proof.
  intro H. destruct o as [a|i|s|i|i]; cbn [kstep live_step fst snd].
  - apply (add_inv n L k a H).
  - apply (remove_inv n L k i H).
  - destruct s as [s|]; [exact (remove_all_inv n L k (Some s) H)|exact (remove_all_inv n L k None H)].
  - now apply advance_inv.
  - now apply mark_inv.
Qed.
Lemma fold_inv ops : forall n L k, KInv n L k ->
  KInv (fst (fold_left live_step ops (n, L))) (snd (fold_left live_step ops (n, L))) (fold_left kstep ops k).
Proof.
  induction ops as [|o ops IH]; intros n L k H; cbn [fold_left]; auto.
  pose proof (step_inv n L k o H) as S. destruct (live_step (n, L) o) as [n' L']. apply IH. exact S.
Qed.
Lemma fold_added ops : forall x, fst (fold_left live_step ops x) = (fst x + added ops)%nat.
Proof.
  induction ops as [|o ops IH]; intro x; cbn [fold_left]; [unfold added; cbn; lia|].
  rewrite IH. unfold added. cbn [filter]. destruct o as [a|i|[s|]|i|i]; cbn; lia.
Qed.
Lemma krun_inv ops : KInv (added ops) (live ops) (krun ops).
Proof.
  pose proof (fold_inv ops 0 [] pscope0 init_inv) as H. rewrite fold_added in H. exact H.
Qed.

(** ** What the queries return *)
Lemma find_filter i L : NoDup (map n_id L) ->
  match find (fun o => Nat.eqb (n_id o) i) L with Some o => [o] | None => [] end = filter (fun o => Nat.eqb (n_id o) i) L.
Proof.
  induction L as [|o L IH]; cbn; auto. intro N. inversion N as [|? ? H1 H2]; subst.
  destruct (Nat.eqb_spec (n_id o) i) as [E|E]; auto. f_equal. subst i. symmetry.
  assert (A : forall M, (~ In (n_id o) (map n_id M)) -> filter (fun x => Nat.eqb (n_id x) (n_id o)) M = []).
  { induction M as [|x M IHM]; cbn; auto. intro NI. destruct (Nat.eqb_spec (n_id x) (n_id o)); [tauto|]. tauto. }
  now apply A.
Qed.
Lemma orders_spec ops s i : orders s i (krun ops) =
  filter (fun o => match s with Some s => Nat.eqb (n_sym o) s | None => true end &&
                   match i with Some i => Nat.eqb (n_id o) i | None => true end) (live ops).
Proof.
  pose proof (krun_inv ops) as H. pose proof (ki_nd _ _ _ H) as ND. destruct H as [H1 H2 H3 H4 H5 H6].
  unfold orders. destruct i as [i|], s as [s|].
  - rewrite H2, aget_tag. pose proof (find_filter i (live ops) ND) as F.
    destruct (find (fun o => Nat.eqb (n_id o) i) (live ops)) as [o|] eqn:E.
    + assert (X : forall L, filter (fun o => Nat.eqb (n_sym o) s && Nat.eqb (n_id o) i) L =
                   filter (fun o => Nat.eqb (n_sym o) s) (filter (fun o => Nat.eqb (n_id o) i) L)).
      { clear. induction L as [|x L IH]; cbn; auto. destruct (Nat.eqb (n_id x) i); cbn; rewrite ?andb_true_r, ?andb_false_r; auto.
        destruct (Nat.eqb (n_sym x) s); congruence. }
      rewrite X, <- F. cbn. destruct (Nat.eqb (n_sym o) s); auto.
    + symmetry. assert (X : forall L, filter (fun o => Nat.eqb (n_id o) i) L = [] -> filter (fun o => Nat.eqb (n_sym o) s && Nat.eqb (n_id o) i) L = []).
      { clear. induction L as [|x L IH]; cbn; auto. destruct (Nat.eqb (n_id x) i); cbn; [discriminate|]. rewrite andb_false_r. auto. }
      apply X. now rewrite <- F.
  - rewrite H2, aget_tag. cbn. apply find_filter; auto.
  - pose proof (H3 s) as Hs. rewrite (filter_ext _ (fun o => Nat.eqb (n_sym o) s)); [|intro; apply andb_true_r].
    destruct (aget s (k_sym (krun ops))) as [l|].
    + rewrite Hs, vals_tag. reflexivity.
    + unfold of_sym in Hs. destruct (filter (fun o => Nat.eqb (n_sym o) s) (live ops)); [reflexivity|discriminate].
  - rewrite H2, vals_tag. cbn. clear. induction (live ops) as [|x L IH]; cbn; congruence.
Qed.
Lemma existsb_ids i L : existsb (fun o => Nat.eqb (n_id o) i) L = nmem i (map n_id L).
Proof. unfold nmem. induction L as [|o L IH]; cbn; auto. rewrite IH, (Nat.eqb_sym i). reflexivity. Qed.
Lemma contains_spec ops i : contains i (krun ops) = is_live ops i.
Proof.
  unfold contains, is_live. rewrite existsb_ids. rewrite (ki_orders _ _ _ (krun_inv ops)).
  destruct (ahas i (tag (live ops))) eqn:E; symmetry.
  - apply ahas_true in E. rewrite keys_tag in E. now apply nmem_In.
  - apply ahas_false, aget_None in E. rewrite keys_tag in E. now apply nmem_notIn.
Qed.
Lemma get_spec ops i : get i (krun ops) = find (fun o => Nat.eqb (n_id o) i) (live ops).
Proof. unfold get. rewrite (ki_orders _ _ _ (krun_inv ops)). apply aget_tag. Qed.
Lemma has_orders_spec ops : has_orders (krun ops) = negb (match live ops with [] => true | _ => false end).
Proof. unfold has_orders. rewrite (ki_orders _ _ _ (krun_inv ops)). destruct (live ops); reflexivity. Qed.

Lemma krun_snoc ops o : krun (ops ++ [o]) = kstep (krun ops) o.
Proof. unfold krun. now rewrite fold_left_app. Qed.
Lemma live_snoc ops o : live (ops ++ [o]) = snd (live_step (added ops, live ops) o).
Proof.
  unfold live. rewrite fold_left_app. cbn [fold_left].
  destruct (fold_left live_step ops (0%nat, [])) as [n L] eqn:E. pose proof (fold_added ops (0%nat, [])) as A. rewrite E in A. cbn in A.
  subst n. reflexivity.
Qed.
Lemma add_id ops a : snd (add a (krun ops)) = S (added ops).
Proof. exact (proj2 (add_inv _ _ _ a (krun_inv ops))). Qed.
Lemma live_le ops o : In o (live ops) -> (1 <= n_id o <= added ops)%nat.
Proof.
  revert o. induction ops as [|x ops IH] using rev_ind; [cbn; tauto|]. intros o. rewrite live_snoc.
  assert (A : added (ops ++ [x]) = (added ops + match x with KAdd _ => 1 | _ => 0 end)%nat).
  { unfold added. rewrite filter_app, app_length. cbn. destruct x; reflexivity. }
  rewrite A. destruct x as [a|i|[s|]|i|i]; cbn [live_step fst snd]; intro I.
  - apply in_app_iff in I. destruct I as [I|[<-|[]]]; [specialize (IH o I); lia|cbn; lia].
  - apply filter_In in I. specialize (IH o (proj1 I)). lia.
  - apply filter_In in I. specialize (IH o (proj1 I)). lia.
  - destruct I.
  - specialize (IH o I). lia.
  - specialize (IH o I). lia.
Qed.
Lemma live_sorted ops : StronglySorted lt (map n_id (live ops)).
Proof. apply (ki_sorted _ _ _ (krun_inv ops)). Qed.
(** An order once gone never comes back. *)
Lemma gone_forever ops more i : (i <= added ops)%nat -> is_live ops i = false -> is_live (ops ++ more) i = false.
Proof.
  intros Hi H. induction more as [|x more IH] using rev_ind; [now rewrite app_nil_r|].
  rewrite app_assoc. unfold is_live in *. rewrite live_snoc.
  assert (A : (added ops <= added (ops ++ more))%nat).
  { unfold added. rewrite filter_app, app_length. lia. }
  assert (F : forall f, existsb (fun o => Nat.eqb (n_id o) i) (filter f (live (ops ++ more))) = false).
  { intro f. clear - IH. induction (live (ops ++ more)) as [|y L IHL]; cbn in *; auto. apply orb_false_iff in IH. destruct IH as [E1 E2].
    destruct (f y); cbn; rewrite ?E1; auto. }
  destruct x as [a|j|[s|]|j|j]; cbn [live_step fst snd]; auto.
  rewrite existsb_app, IH. cbn [existsb orb with_id n_id]. rewrite orb_false_r. apply Nat.eqb_neq. lia.
Qed.
Lemma removed_now ops i : is_live (ops ++ [KRemove i]) i = false.
Proof.
  unfold is_live. rewrite live_snoc. cbn [live_step fst snd]. induction (live ops) as [|o L IH]; cbn; auto.
  destruct (Nat.eqb (n_id o) i) eqn:E; cbn; auto. now rewrite E.
Qed.
Lemma remove_returns ops i : snd (remove i (krun ops)) = is_live ops i.
Proof. rewrite (proj2 (remove_inv _ _ _ i (krun_inv ops))). unfold is_live. symmetry. apply existsb_ids. Qed.

(** ** Retry counts *)
Lemma retries_snoc ops o i : retries (ops ++ [o]) i =
  (retries ops i + match o with KAdvance j => if Nat.eqb j i && is_live ops i then 1 else 0 | _ => 0 end)%nat.
Proof.
  unfold retries. rewrite app_length, Nat.add_1_r, seq_S, filter_app, app_length. f_equal.
  - f_equal. apply filter_ext_in. intros j I. apply in_seq in I. rewrite nth_error_app1 by lia.
    rewrite firstn_app. replace (j - length ops)%nat with 0%nat by lia. cbn [firstn]. now rewrite app_nil_r.
  - cbn [filter]. rewrite Nat.add_0_l, nth_error_app2, Nat.sub_diag by lia. cbn [nth_error].
    rewrite firstn_app, Nat.sub_diag, firstn_all. cbn [firstn]. rewrite app_nil_r.
    destruct o; auto. destruct (Nat.eqb i0 i && is_live ops i); reflexivity.
Qed.
Lemma retries_new ops i : (added ops < i)%nat -> retries ops i = 0%nat.
Proof.
  revert i. induction ops as [|o ops IH] using rev_ind; [reflexivity|]. intros i H. rewrite retries_snoc.
  assert (A : (added ops <= added (ops ++ [o]))%nat) by (unfold added; rewrite filter_app, app_length; lia).
  rewrite IH by lia. destruct o as [a|j|s|j|j]; auto. destruct (is_live ops i) eqn:E; [|now rewrite andb_false_r].
  exfalso. unfold is_live in E. apply existsb_exists in E. destruct E as [o [I E]]. apply Nat.eqb_eq in E.
  pose proof (live_le ops o I). lia.
Qed.
Lemma retry_remove j i k : retry_bars i (fst (remove j k)) = if ahas j (k_orders k) && Nat.eqb i j then retry_bars i (fst (remove j k)) else retry_bars i k.
Proof.
  unfold remove, ahas, retry_bars. destruct (aget j (k_orders k)); cbn [fst k_retry]; auto.
  destruct (Nat.eqb_spec i j) as [E|E]; cbn [andb]; auto. now rewrite aget_adel_neq.
Qed.
Lemma retry_each l : forall i k, ~ In i l -> retry_bars i (remove_each l k) = retry_bars i k.
Proof.
  induction l as [|j l IH]; intros i k N; [reflexivity|]. cbn in N. change (remove_each (j :: l) k) with (remove_each l (fst (remove j k))). rewrite IH by tauto.
  rewrite retry_remove. destruct (Nat.eqb_spec i j) as [E|E]; [subst; tauto|]. now rewrite andb_false_r.
Qed.
Lemma retry_live ops i : is_live ops i = true -> retry_bars i (krun ops) = retries ops i.
Proof.
  induction ops as [|o ops IH] using rev_ind; [discriminate|]. intro L. rewrite krun_snoc, retries_snoc.
  pose proof (krun_inv ops) as INV. pose proof (ki_nd _ _ _ INV) as ND.
  unfold is_live in L. rewrite live_snoc in L. apply existsb_exists in L. destruct L as [x [Ix E]]. apply Nat.eqb_eq in E.
  assert (LV : In x (live ops) -> is_live ops i = true).
  { intro I. apply existsb_exists. exists x. split; auto. now apply Nat.eqb_eq. }
  destruct o as [a|j|s|j|j]; cbn [kstep live_step fst snd] in *.
  - rewrite Nat.add_0_r. apply in_app_iff in Ix. unfold add, retry_bars. cbn [fst k_retry]. rewrite (ki_last _ _ _ INV).
    destruct Ix as [Ix|[<-|[]]].
    + pose proof (live_le ops x Ix). rewrite aget_aset_neq by lia. apply IH. auto.
    + cbn in E. subst i. rewrite aget_aset_eq. symmetry. apply retries_new. lia.
  - rewrite Nat.add_0_r. apply filter_In in Ix. destruct Ix as [Ix N]. rewrite E in N. rewrite retry_remove.
    destruct (Nat.eqb i j); [discriminate N|]. rewrite andb_false_r. apply IH. auto.
  - rewrite Nat.add_0_r. unfold remove_all. destruct s as [s|]; [|destruct Ix]. apply filter_In in Ix. destruct Ix as [Ix N].
    pose proof (ki_sym _ _ _ INV s) as Hs. destruct (aget s (k_sym (krun ops))) as [l|]; [|apply IH; auto].
    rewrite retry_each; [apply IH; auto|]. rewrite Hs, keys_tag. intro I2. apply in_map_iff in I2. destruct I2 as [o' [E' I']].
    apply filter_In in I'. destruct I' as [I' Es].
    assert (o' = x). { pose proof (find_id _ _ ND o' I' E'). pose proof (find_id _ _ ND x Ix E). congruence. }
    subst o'. rewrite Es in N. discriminate.
  - assert (H : is_live ops i = true) by auto. unfold advance_retry_bars.
    destruct (Nat.eqb_spec j i) as [->|N]; cbn [andb].
    + rewrite H. pose proof (contains_spec ops i) as C. unfold contains in C. rewrite C, H.
      unfold retry_bars at 1. cbn [k_retry]. rewrite aget_aset_eq, IH by auto. lia.
    + rewrite Nat.add_0_r. destruct (ahas j (k_orders (krun ops))); [|auto]. unfold retry_bars at 1. cbn [k_retry].
      rewrite aget_aset_neq by auto. apply IH. auto.
  - rewrite Nat.add_0_r. apply IH. auto.
Qed.
Lemma retry_spec ops i : retry_bars i (krun ops) = if is_live ops i then retries ops i else 0%nat.
Proof.
  destruct (is_live ops i) eqn:E; [now apply retry_live|]. unfold retry_bars.
  destruct (aget i (k_retry (krun ops))) as [n|] eqn:G; auto. exfalso. apply aget_Some_key in G.
  rewrite (ki_retry _ _ _ (krun_inv ops)) in G. unfold is_live in E. rewrite existsb_ids in E. apply nmem_notIn in E. auto.
Qed.

(** ** Attempted orders *)
Lemma att_remove j k : k_att (fst (remove j k)) = if ahas j (k_orders k) then filter (fun x => negb (Nat.eqb x j)) (k_att k) else k_att k.
Proof. unfold remove, ahas. destruct (aget j (k_orders k)); reflexivity. Qed.
Lemma att_each n : forall l L k i, KInv n L k -> (forall j, In j l -> In j (map n_id L)) -> NoDup l ->
  nmem i (k_att (remove_each l k)) = nmem i (k_att k) && negb (nmem i l).
Proof.
  induction l as [|j l IH]; intros L k i H IN ND; [cbn; now rewrite andb_true_r|].
  change (remove_each (j :: l) k) with (remove_each l (fst (remove j k))).
  change (nmem i (j :: l)) with (Nat.eqb i j || nmem i l)%bool. inversion ND as [|? ? N1 N2]; subst. destruct (remove_inv n L k j H) as [H1 _].
  rewrite (IH _ _ i H1); auto.
  - rewrite att_remove. assert (Ah : ahas j (k_orders k) = true).
    { apply ahas_true. rewrite (ki_orders _ _ _ H), keys_tag. apply IN. now left. }
    rewrite Ah.
    assert (X : nmem i (filter (fun x => negb (Nat.eqb x j)) (k_att k)) = nmem i (k_att k) && negb (Nat.eqb i j)).
    { clear. unfold nmem. induction (k_att k) as [|x r IH]; cbn; auto. destruct (Nat.eqb_spec x j) as [->|N]; cbn; rewrite IH.
      - destruct (Nat.eqb_spec i j); cbn; auto. now rewrite !andb_false_r.
      - destruct (Nat.eqb_spec i x) as [->|]; cbn; auto. destruct (Nat.eqb_spec x j); [contradiction|auto]. }
    rewrite X. destruct (nmem i (k_att k)), (Nat.eqb i j), (nmem i l); reflexivity.
  - intros x I. rewrite map_without. apply filter_In. split; [apply IN; now right|]. apply negb_true_iff, Nat.eqb_neq. intro; subst; auto.
Qed.
Lemma marks_snoc ops o : marks_live (ops ++ [o]) -> marks_live ops /\ (forall i, o = KMark i -> is_live ops i = true).
Proof.
  intro M. split.
  - intros l1 i l2 E. apply (M l1 i (l2 ++ [o])). rewrite E, <- app_assoc. reflexivity.
  - intros i ->. apply (M ops i []). reflexivity.
Qed.
Lemma marked_snoc ops o i : marked (ops ++ [o]) i = marked ops i || match o with KMark j => Nat.eqb j i | _ => false end.
Proof. unfold marked. rewrite existsb_app. cbn. now rewrite orb_false_r. Qed.
Lemma marked_known ops i : marks_live ops -> marked ops i = true -> (i <= added ops)%nat.
Proof.
  induction ops as [|o ops IH] using rev_ind; [discriminate|]. intros M E. destruct (marks_snoc _ _ M) as [M1 M2].
  assert (A : (added ops <= added (ops ++ [o]))%nat) by (unfold added; rewrite filter_app, app_length; lia).
  rewrite marked_snoc in E. apply orb_true_iff in E. destruct E as [E|E]; [specialize (IH M1 E); lia|].
  destruct o as [a|j|s|j|j]; try discriminate. apply Nat.eqb_eq in E. subst j. specialize (M2 i eq_refl).
  unfold is_live in M2. apply existsb_exists in M2. destruct M2 as [x [I X]]. apply Nat.eqb_eq in X. pose proof (live_le ops x I). lia.
Qed.
Lemma attempted_spec ops i : marks_live ops -> was_attempted i (krun ops) = is_live ops i && marked ops i.
Proof.
  unfold was_attempted. induction ops as [|o ops IH] using rev_ind; [reflexivity|]. intro M.
  destruct (marks_snoc _ _ M) as [M1 M2]. specialize (IH M1). rewrite krun_snoc, marked_snoc.
  pose proof (krun_inv ops) as INV. pose proof (ki_nd _ _ _ INV) as ND.
  assert (EX : forall f, existsb (fun o => Nat.eqb (n_id o) i) (filter f (live ops)) =
     match find (fun o => Nat.eqb (n_id o) i) (live ops) with Some x => f x | None => false end).
  { intro f. clear - ND. induction (live ops) as [|x L IHL]; cbn; auto. cbn in ND. inversion ND as [|? ? N1 N2]; subst. specialize (IHL N2).
    destruct (Nat.eqb_spec (n_id x) i) as [E|E].
    - destruct (f x); cbn; [rewrite (proj2 (Nat.eqb_eq _ _) E); auto|]. rewrite IHL.
      destruct (find (fun o => Nat.eqb (n_id o) i) L) as [y|] eqn:F; auto. apply find_some in F. destruct F as [I Y]. apply Nat.eqb_eq in Y.
      exfalso. apply N1. rewrite E, <- Y. now apply in_map.
    - destruct (f x); cbn; [rewrite (proj2 (Nat.eqb_neq _ _) E); auto|auto]. }
  assert (IL : is_live ops i = match find (fun o => Nat.eqb (n_id o) i) (live ops) with Some x => true | None => false end).
  { unfold is_live. clear. induction (live ops) as [|x L IHL]; cbn; auto. destruct (Nat.eqb (n_id x) i); auto. }
  unfold is_live at 1. rewrite live_snoc. destruct o as [a|j|[s|]|j|j]; cbn [kstep live_step fst snd]; rewrite ?orb_false_r.
  - rewrite existsb_app. cbn [existsb orb with_id n_id]. rewrite orb_false_r. fold (is_live ops i). cbn [add fst k_att].
    destruct (Nat.eqb_spec (S (added ops)) i) as [E|E]; [|now rewrite orb_false_r].
    rewrite IH. destruct (marked ops i) eqn:X; [|now rewrite !andb_false_r]. pose proof (marked_known ops i M1 X). lia.
  - rewrite EX, att_remove. pose proof (contains_spec ops j) as C. unfold contains in C. rewrite C.
    assert (X : forall l, nmem i (filter (fun x => negb (Nat.eqb x j)) l) = nmem i l && negb (Nat.eqb i j)).
    { clear. unfold nmem. induction l as [|x r IH]; cbn; auto. destruct (Nat.eqb_spec x j) as [->|N]; cbn; rewrite IH.
      - destruct (Nat.eqb_spec i j); cbn; auto. now rewrite !andb_false_r.
      - destruct (Nat.eqb_spec i x) as [->|]; cbn; auto. destruct (Nat.eqb_spec x j); [contradiction|auto]. }
    destruct (find (fun o => Nat.eqb (n_id o) i) (live ops)) as [x|] eqn:F.
    + apply find_some in F. destruct F as [I E]. apply Nat.eqb_eq in E. rewrite E. destruct (Nat.eqb_spec i j) as [->|N]; cbn [negb].
      * rewrite IL, X. cbn [negb]. now rewrite andb_false_r.
      * destruct (is_live ops j); rewrite ?X, ?IH, IL; destruct (Nat.eqb_spec i j); try contradiction; cbn; auto. now rewrite andb_true_r.
    + destruct (is_live ops j); rewrite ?X, ?IH, IL; reflexivity.
  - unfold remove_all.
    { pose proof (ki_sym _ _ _ INV s) as Hs. rewrite EX.
      destruct (aget s (k_sym (krun ops))) as [l|].
      * rewrite (att_each (added ops) (akeys l) (live ops) (krun ops) i INV), IH, IL, Hs, keys_tag.
        -- destruct (find (fun o => Nat.eqb (n_id o) i) (live ops)) as [x|] eqn:F; [|reflexivity].
           apply find_some in F. destruct F as [I E]. apply Nat.eqb_eq in E.
           assert (Y : nmem i (map n_id (of_sym s (live ops))) = Nat.eqb (n_sym x) s).
           { destruct (Nat.eqb_spec (n_sym x) s) as [Es|Es].
             - apply nmem_In. rewrite <- E. apply in_map, filter_In. split; auto. now apply Nat.eqb_eq.
             - apply nmem_notIn. intro I2. apply in_map_iff in I2. destruct I2 as [o' [E' I']]. apply filter_In in I'. destruct I' as [I' Ex].
               apply Nat.eqb_eq in Ex. apply Es. assert (o' = x); [|congruence].
               pose proof (find_id _ _ ND o' I' E'). pose proof (find_id _ _ ND x I E). congruence. }
           rewrite Y. cbn. destruct (marked ops i), (Nat.eqb (n_sym x) s); reflexivity.
        -- intros j I. rewrite Hs, keys_tag in I. eapply ids_filter; eauto.
        -- rewrite Hs, keys_tag. now apply nodup_filter.
      * rewrite IH, IL. destruct (find (fun o => Nat.eqb (n_id o) i) (live ops)) as [x|] eqn:F; auto.
        apply find_some in F. destruct F as [I E]. destruct (Nat.eqb (n_sym x) s) eqn:Ex; auto. exfalso.
        assert (I2 : In x (of_sym s (live ops))) by (apply filter_In; auto). destruct (of_sym s (live ops)); [destruct I2|discriminate]. }
  - unfold remove_all. cbn [existsb andb]. rewrite (ki_orders _ _ _ INV), keys_tag.
      rewrite (att_each (added ops) (map n_id (live ops)) (live ops) (krun ops) i INV); auto.
      rewrite IH. unfold is_live. rewrite existsb_ids. destruct (nmem i (map n_id (live ops))); cbn; auto. now rewrite andb_false_r.
  - fold (is_live ops i). rewrite <- IH. unfold advance_retry_bars. destruct (ahas j (k_orders (krun ops))); reflexivity.
  - fold (is_live ops i). cbn [mark_attempted k_att].
    assert (X : nmem i (if nmem j (k_att (krun ops)) then k_att (krun ops) else k_att (krun ops) ++ [j]) = nmem i (k_att (krun ops)) || Nat.eqb j i).
    { destruct (nmem j (k_att (krun ops))) eqn:Mj.
      - destruct (Nat.eqb_spec j i) as [->|]; [now rewrite Mj|now rewrite orb_false_r].
      - unfold nmem. rewrite existsb_app. cbn. now rewrite orb_false_r, (Nat.eqb_sym i). }
    rewrite X, IH. destruct (Nat.eqb_spec j i) as [->|]; [|now rewrite !orb_false_r]. rewrite (M2 i eq_refl). now rewrite !orb_true_r.
Qed.
(** Every index only mentions live orders. *)
Lemma no_residue ops : marks_live ops ->
  map fst (k_orders (krun ops)) = map n_id (live ops) /\ map fst (k_retry (krun ops)) = map n_id (live ops) /\
  (forall s l, aget s (k_sym (krun ops)) = Some l -> map snd l = filter (fun o => Nat.eqb (n_sym o) s) (live ops)) /\
  incl (k_att (krun ops)) (map n_id (live ops)).
Proof.
  intro M. pose proof (krun_inv ops) as [H1 H2 H3 H4 H5 H6]. split; [rewrite H2; apply keys_tag|]. split; [exact H4|]. split.
  - intros s l E. pose proof (H3 s) as Hs. rewrite E in Hs. subst l. apply vals_tag.
  - intros i I. apply nmem_In in I. fold (was_attempted i (krun ops)) in I. rewrite (attempted_spec ops i M) in I.
    apply andb_true_iff in I. destruct I as [I _]. unfold is_live in I. rewrite existsb_ids in I. now apply nmem_In.
Qed.
Lemma queries_spec ops i s :
  orders None None (krun ops) = live ops /\
  orders (Some s) None (krun ops) = filter (fun o => Nat.eqb (n_sym o) s) (live ops) /\
  orders None (Some i) (krun ops) = filter (fun o => Nat.eqb (n_id o) i) (live ops) /\
  orders (Some s) (Some i) (krun ops) = filter (fun o => Nat.eqb (n_sym o) s && Nat.eqb (n_id o) i) (live ops) /\
  get i (krun ops) = find (fun o => Nat.eqb (n_id o) i) (live ops) /\
  contains i (krun ops) = is_live ops i /\
  has_orders (krun ops) = negb (match live ops with [] => true | _ => false end) /\
  StronglySorted lt (map n_id (live ops)).
Proof.
  rewrite !orders_spec. split; [|split; [|split; [|split; [|split; [|split; [|split]]]]]].
  - cbn. induction (live ops) as [|x L IH]; cbn; congruence.
  - apply filter_ext. intro. apply andb_true_r.
  - reflexivity.
  - reflexivity.
  - apply get_spec.
  - apply contains_spec.
  - apply has_orders_spec.
  - apply live_sorted.
Qed.
Lemma removed_spec ops more i :
  snd (remove i (krun ops)) = is_live ops i /\
  contains i (krun (ops ++ [KRemove i])) = false /\
  ((i <= added ops)%nat -> contains i (krun ops) = false -> contains i (krun (ops ++ more)) = false).
Proof.
  rewrite !contains_spec. split; [apply remove_returns|]. split; [apply removed_now|]. apply gone_forever.
Qed.
Lemma residue_stays : exists ops i,
  contains i (krun ops) = false /\ was_attempted i (krun ops) = true /\
  forall more, (forall o, In o more -> o <> KMark i) -> was_attempted i (krun (ops ++ more)) = true.
Proof.
  set (a := mkPadd OBuy 0 0 1 1 None (FNum 0) 1 None None None).
  exists [KAdd a; KRemove 1; KMark 1], 1%nat. split; [reflexivity|]. split; [reflexivity|].
  intros more _. set (ops := [KAdd a; KRemove 1; KMark 1]).
  assert (G : is_live (ops ++ more) 1 = false /\ was_attempted 1 (krun (ops ++ more)) = true); [|tauto].
  induction more as [|o more IH] using rev_ind; [rewrite app_nil_r; split; reflexivity|].
  destruct IH as [IH1 IH2]. rewrite app_assoc. split.
  - rewrite <- app_assoc. apply gone_forever; [cbn; lia|reflexivity].
  - rewrite krun_snoc. unfold was_attempted in *. pose proof (krun_inv (ops ++ more)) as INV.
    pose proof (contains_spec (ops ++ more)) as C. unfold contains in C.
    assert (R : forall l k, KInv (added (ops ++ more)) (live (ops ++ more)) k \/ True -> ~ In 1%nat l -> nmem 1 (k_att k) = true -> nmem 1 (k_att (remove_each l k)) = true).
    { induction l as [|j l IHl]; intros k _ N H; [exact H|]. change (remove_each (j :: l) k) with (remove_each l (fst (remove j k))).
      apply IHl; [now right| |]; [intro; apply N; now right|]. rewrite att_remove. destruct (ahas j (k_orders k)); auto.
      apply nmem_In. apply nmem_In in H. apply filter_In. split; auto. apply negb_true_iff, Nat.eqb_neq. intro; subst. apply N. now left. }
    assert (NL : ~ In 1%nat (map n_id (live (ops ++ more)))).
    { intro I. unfold is_live in IH1. rewrite existsb_ids in IH1. apply nmem_notIn in IH1. auto. }
    destruct o as [b|j|s|j|j]; cbn [kstep].
    + exact IH2.
    + rewrite att_remove, C. destruct (is_live (ops ++ more) j) eqn:E; auto.
      apply nmem_In. apply nmem_In in IH2. apply filter_In. split; auto. apply negb_true_iff, Nat.eqb_neq. intros <-. congruence.
    + unfold remove_all. destruct s as [s|].
      * pose proof (ki_sym _ _ _ INV s) as Hs. destruct (aget s (k_sym (krun (ops ++ more)))) as [l|]; auto.
        apply R; auto. rewrite Hs, keys_tag. intro I. apply NL. eapply ids_filter; eauto.
      * apply R; auto. now rewrite (ki_orders _ _ _ INV), keys_tag.
    + unfold advance_retry_bars. destruct (ahas j (k_orders (krun (ops ++ more)))); auto.
    + cbn [mark_attempted k_att]. destruct (nmem j (k_att (krun (ops ++ more)))); auto. unfold nmem in *. rewrite existsb_app, IH2. reflexivity.
Qed.
