(** The bar loop: one order's life. *)
From Verif Require Export Lemmas PendingProofs LoopSpec.

(** ** The registry log *)
Lemma added_snoc ops o : added (ops ++ [o]) = (added ops + match o with KAdd _ => 1 | _ => 0 end)%nat.
Proof. unfold added. rewrite filter_app, app_length. destruct o; cbn; lia. Qed.
Lemma entered_snoc ops o : entered (ops ++ [o]) = entered_step (entered ops) o.
Proof. unfold entered. now rewrite fold_left_app. Qed.
Lemma entered_ids ops : map n_id (entered ops) = seq 1 (added ops).
Proof.
  induction ops as [|o ops IH] using rev_ind; [reflexivity|]. rewrite entered_snoc, added_snoc.
  destruct o as [a|i|s|i|i]; cbn [entered_step]; rewrite ?Nat.add_0_r; auto.
  rewrite map_app, IH, Nat.add_1_r, seq_S. cbn. do 2 f_equal. rewrite <- (map_length n_id), IH, seq_length. reflexivity.
Qed.
Lemma entered_length ops : length (entered ops) = added ops.
Proof. rewrite <- (map_length n_id), entered_ids, seq_length. reflexivity. Qed.
Lemma entered_le ops n : In n (entered ops) -> (1 <= n_id n <= added ops)%nat.
Proof. intro I. apply (in_map n_id) in I. rewrite entered_ids in I. apply in_seq in I. lia. Qed.
Lemma entered_unique ops n m : In n (entered ops) -> In m (entered ops) -> n_id n = n_id m -> n = m.
Proof.
  assert (H : NoDup (map n_id (entered ops))) by (rewrite entered_ids; apply seq_NoDup).
  revert H. generalize (entered ops) as l. induction l as [|x l IH]; cbn; [tauto|]. intros H I J E.
  inversion H as [|? ? H1 H2]; subst. destruct I as [->|I], J as [->|J]; auto.
  - exfalso. apply H1. rewrite E. now apply in_map.
  - exfalso. apply H1. rewrite <- E. now apply in_map.
Qed.
Lemma live_entered ops n : In n (live ops) -> In n (entered ops).
Proof.
  revert n. induction ops as [|o ops IH] using rev_ind; [cbn; tauto|]. intro n. rewrite live_snoc, entered_snoc.
  destruct o as [a|i|[s|]|i|i]; cbn [live_step entered_step fst snd]; auto.
  - rewrite entered_length. intro I. apply in_app_iff in I. apply in_app_iff. destruct I; auto.
  - intro I. apply filter_In in I. apply IH, I.
  - intro I. apply filter_In in I. apply IH, I.
  - intros [].
Qed.
Lemma is_live_In ops n : In n (live ops) -> is_live ops (n_id n) = true.
Proof. intro I. apply existsb_exists. exists n. split; auto. apply Nat.eqb_refl. Qed.
Lemma is_live_ex ops i : is_live ops i = true -> exists n, In n (live ops) /\ n_id n = i.
Proof. intro H. apply existsb_exists in H. destruct H as [n [I E]]. apply Nat.eqb_eq in E. eauto. Qed.
Lemma is_live_entered ops n : In n (entered ops) -> is_live ops (n_id n) = true -> In n (live ops).
Proof.
  intros I H. destruct (is_live_ex _ _ H) as [m [J E]]. rewrite (entered_unique ops n m); auto. now apply live_entered.
Qed.
Lemma is_live_le ops i : is_live ops i = true -> (i <= added ops)%nat.
Proof. intro H. destruct (is_live_ex _ _ H) as [m [J <-]]. apply (live_le ops m J). Qed.

Lemma existsb_filter_without i j L :
  existsb (fun o => Nat.eqb (n_id o) i) (filter (fun o => negb (Nat.eqb (n_id o) j)) L) =
  existsb (fun o => Nat.eqb (n_id o) i) L && negb (Nat.eqb i j).
Proof.
  induction L as [|o L IH]; [reflexivity|]. cbn [filter existsb]. destruct (Nat.eqb_spec (n_id o) j) as [E|E]; cbn [negb existsb].
  - rewrite IH. destruct (Nat.eqb_spec (n_id o) i) as [E'|E']; cbn [orb]; auto. rewrite <- E', E, Nat.eqb_refl. cbn. now rewrite !andb_false_r.
  - rewrite IH. destruct (Nat.eqb_spec (n_id o) i) as [E'|E']; cbn [orb]; auto. subst i.
    destruct (Nat.eqb_spec (n_id o) j); [tauto|]. reflexivity.
Qed.
Lemma live_remove ops i j : is_live (ops ++ [KRemove j]) i = is_live ops i && negb (Nat.eqb i j).
Proof. unfold is_live. rewrite live_snoc. cbn [live_step fst snd]. apply existsb_filter_without. Qed.
Lemma live_removeall ops s i : is_live (ops ++ [KRemoveAll s]) i = true -> is_live ops i = true.
Proof.
  unfold is_live. rewrite live_snoc. intro H. apply existsb_exists in H. destruct H as [n [I E]]. apply existsb_exists. exists n. split; auto.
  destruct s; cbn [live_step fst snd] in I; [apply filter_In in I; tauto|destruct I].
Qed.
Lemma live_add ops a i : is_live (ops ++ [KAdd a]) i = is_live ops i || Nat.eqb i (S (added ops)).
Proof.
  unfold is_live. rewrite live_snoc. cbn [live_step fst snd]. rewrite existsb_app. f_equal. cbn [existsb with_id n_id].
  rewrite orb_false_r. apply Nat.eqb_sym.
Qed.
Lemma live_advance ops i j : is_live (ops ++ [KAdvance j]) i = is_live ops i.
Proof. unfold is_live. now rewrite live_snoc. Qed.
Lemma live_mark ops i j : is_live (ops ++ [KMark j]) i = is_live ops i.
Proof. unfold is_live. now rewrite live_snoc. Qed.
Lemma marks_snoc_iff ops o : marks_live ops -> (forall i, o = KMark i -> is_live ops i = true) -> marks_live (ops ++ [o]).
Proof.
  intros M H l1 i l2 E. destruct l2 as [|x l2] using rev_ind.
  - apply app_inj_tail in E. destruct E as [<- E]. apply H, E.
  - change (KMark i :: l2 ++ [x]) with ((KMark i :: l2) ++ [x]) in E. rewrite app_assoc in E. apply app_inj_tail in E.
    apply (M l1 i l2), E.
Qed.
Lemma marks_nil : marks_live [].
Proof. intros l1 i l2 E. destruct l1; discriminate. Qed.

(** ** Attempts *)
Lemma attempts_log j d f b i : attempts (log_att j d f b) i = attempts b i ++ (if Nat.eqb j i then [(d, f)] else []).
Proof. unfold attempts, log_att. cbn [b_att]. rewrite filter_app, map_app. f_equal. cbn. destruct (Nat.eqb j i); reflexivity. Qed.

(** Everything but the account and the attempts. *)
Definition frame (b b' : bstate) : Prop :=
  b_pend b' = b_pend b /\ b_cover b' = b_cover b /\ b_buy b' = b_buy b /\ b_sell b' = b_sell b /\
  b_ends b' = b_ends b /\ b_ctx b' = b_ctx b /\ b_stop b' = b_stop b /\ b_kops b' = b_kops b.
Lemma frame_refl b : frame b b.
Proof. unfold frame. tauto. Qed.

Section Run.
Variable v : env.

(** What an attempt sends to the account. *)
Record sent (i : nat) (d : Z) (n : pending) (b : bstate) (p : port) (x : option order) (a : oargs) : Prop := mkSent {
  se_date : a_date a = d; se_sym : a_sym a = n_sym n; se_limit : a_limit a = n_limit n; se_stops : a_stops a = n_stops n;
  se_created : a_created a = Some (n_created n);
  se_type : a_otype a = match n_limit n with Some _ => OLimit | None => OMarket end;
  se_price : exists price, v_fetch v i (n_sym n) (n_fill n) = Some price /\ a_market a = Some price /\
     exists sh, clamp_exit (b_port b) n (get_shares v (n_shares n)) = Some sh /\
       apply_slip v i n sh price = Some (a_shares a, a_fill a);
  se_send : send (v_cfg v) (n_type n) a (b_port b) = Ret p x
}.
Lemma attempt_spec i d n b b' f : attempt v i d n b = Some (b', f) ->
  frame b b' /\ b_att b' = b_att b ++ [(n_id n, d, f)] /\
  (b_port b' = b_port b /\ b_ops b' = b_ops b /\ f = false \/
   exists a x, sent i d n b (b_port b') x a /\ f = given x /\
     b_ops b' = b_ops b ++ [send_op (n_type n) (if f then a else unstopped a)]).
Proof.
  unfold attempt. destruct (v_fetch v i (n_sym n) (n_fill n)) as [price|] eqn:F; [|intros [= <- <-]; split; [unfold frame; cbn; tauto|split; [reflexivity|left; auto]]].
  destruct (clamp_exit (b_port b) n (get_shares v (n_shares n))) as [sh|] eqn:C;
    [|intros [= <- <-]; split; [unfold frame; cbn; tauto|split; [reflexivity|left; auto]]].
  destruct (apply_slip v i n sh price) as [[sh' fill]|] eqn:S; [|discriminate].
  set (a := mkOArgs _ _ _ _ _ _ _ _ _).
  assert (E : match n_type n with OBuy => buy (v_cfg v) a (b_port b) | OSell => sell (v_cfg v) a (b_port b) end =
              send (v_cfg v) (n_type n) a (b_port b)) by (destruct (n_type n); reflexivity).
  rewrite E. clear E. destruct (send (v_cfg v) (n_type n) a (b_port b)) as [p x|] eqn:R; [|discriminate].
  intros [= <- <-]. split; [unfold frame; cbn; tauto|]. split; [reflexivity|]. right. exists a, x. split.
  - constructor; cbn; eauto 8.
  - split; [reflexivity|]. cbn. destruct (n_type n); reflexivity.
Qed.

(** ** The life of an order *)
Variable K : pending -> Prop.
(** Why an order is gone: the user asked for it ([K]), it filled, it was to be
    attempted once, or its timeout passed. *)
Definition finished (L : list Z) (b : bstate) (n : pending) : Prop :=
  K n \/ (exists l x, attempts b (n_id n) = l ++ [(x, true)]) \/
  (~ persistent n /\ length (attempts b (n_id n)) = 1%nat) \/
  (exists t, persistent n /\ n_timeout n = Some t /\ (0 <= t)%Z /\ Z.of_nat (length (attempts b (n_id n))) = (t + 1)%Z /\
     (length (attempts b (n_id n)) < length L)%nat).
(** [L]: the bars of the order so far. *)
Record order_ok (L : list Z) (b : bstate) (n : pending) : Prop := mkOrd {
  or_bars : exists rest, L = map fst (attempts b (n_id n)) ++ rest /\ (is_live (b_kops b) (n_id n) = true -> rest = []);
  or_cap : allowed_attempts n (length (attempts b (n_id n)));
  or_fill : forall l1 x l2, attempts b (n_id n) = l1 ++ x :: l2 -> snd x = true -> l2 = [] /\ is_live (b_kops b) (n_id n) = false;
  or_live : is_live (b_kops b) (n_id n) = true ->
    marked (b_kops b) (n_id n) = false /\ retries (b_kops b) (n_id n) = 0%nat /\ attempts b (n_id n) = [] \/
    marked (b_kops b) (n_id n) = true /\ length (attempts b (n_id n)) = S (retries (b_kops b) (n_id n)) /\ persistent n;
  or_gone : is_live (b_kops b) (n_id n) = false -> finished L b n
}.
Record core (b : bstate) : Prop := mkCore {
  co_pend : b_pend b = krun (b_kops b);
  co_marks : marks_live (b_kops b);
  co_att : forall x, In x (b_att b) -> (fst (fst x) <= added (b_kops b))%nat
}.
(** Same attempts and same registry facts of order [i]. *)
Definition same_order (b b' : bstate) (i : nat) : Prop :=
  attempts b' i = attempts b i /\ is_live (b_kops b') i = is_live (b_kops b) i /\
  marked (b_kops b') i = marked (b_kops b) i /\ retries (b_kops b') i = retries (b_kops b) i.
Lemma order_ok_same L b b' n : same_order b b' (n_id n) -> order_ok L b n -> order_ok L b' n.
Proof. intros [A [B [C D]]] [H1 H2 H3 H4 H5]. constructor; unfold finished in *; rewrite ?A, ?B, ?C, ?D; auto. Qed.
Lemma same_refl b i : same_order b b i.
Proof. unfold same_order. tauto. Qed.
Lemma same_trans b b1 b2 i : same_order b b1 i -> same_order b1 b2 i -> same_order b b2 i.
Proof. unfold same_order. intros [A [B [C D]]] [A' [B' [C' D']]]. repeat split; congruence. Qed.
(** An order that is no longer pending keeps its record. *)
Lemma order_ok_dead L x b b' n : attempts b' (n_id n) = attempts b (n_id n) -> is_live (b_kops b') (n_id n) = false ->
  finished (L ++ x) b n -> order_ok L b n -> order_ok (L ++ x) b' n.
Proof.
  intros A D F [H1 H2 H3 H4 H5]. constructor; unfold finished in *; rewrite ?A, ?D; auto; try discriminate.
  - destruct H1 as [r [E _]]. exists (r ++ x). split; [rewrite E; symmetry; apply app_assoc|discriminate].
  - intros l1 y l2 E T. split; auto. apply (H3 l1 y l2 E T).
Qed.
Lemma finished_more L x b n : finished L b n -> finished (L ++ x) b n.
Proof.
  unfold finished. intros [H|[H|[H|[t [H1 [H2 [H3 [H4 H5]]]]]]]]; auto. right. right. right. exists t. rewrite app_length. split; auto. split; auto. split; auto. split; auto. lia.
Qed.
Lemma order_ok_more L x b n : is_live (b_kops b) (n_id n) = false -> order_ok L b n -> order_ok (L ++ x) b n.
Proof. intros D H. apply (order_ok_dead L x b b n); auto. apply finished_more, H, D. Qed.

Lemma kstate_set k b : core b -> (forall i, k = KMark i -> is_live (b_kops b) i = true) -> core (set_pend k b).
Proof.
  intros [H1 H2 H3] M. constructor; unfold set_pend; cbn [b_pend b_kops b_att].
  - now rewrite krun_snoc, H1.
  - now apply marks_snoc_iff.
  - intros x I. specialize (H3 x I). rewrite added_snoc. lia.
Qed.
Lemma set_pend_att k b i : attempts (set_pend k b) i = attempts b i.
Proof. reflexivity. Qed.
Lemma same_remove b j i : i <> j -> same_order b (set_pend (KRemove j) b) i.
Proof.
  intro N. unfold same_order, set_pend. cbn [b_kops]. rewrite live_remove, marked_snoc, retries_snoc, orb_false_r, Nat.add_0_r.
  split; [reflexivity|]. apply Nat.eqb_neq in N. rewrite N, andb_true_r. tauto.
Qed.
Lemma same_mark b j i : i <> j -> same_order b (set_pend (KMark j) b) i.
Proof.
  intro N. unfold same_order, set_pend. cbn [b_kops]. rewrite live_mark, marked_snoc, retries_snoc, Nat.add_0_r.
  split; [reflexivity|]. assert (E : Nat.eqb j i = false) by (apply Nat.eqb_neq; congruence). rewrite E, orb_false_r. tauto.
Qed.
Lemma same_advance b j i : i <> j -> same_order b (set_pend (KAdvance j) b) i.
Proof.
  intro N. unfold same_order, set_pend. cbn [b_kops]. rewrite live_advance, marked_snoc, retries_snoc, orb_false_r.
  split; [reflexivity|]. assert (E : Nat.eqb j i = false) by (apply Nat.eqb_neq; congruence). rewrite E. cbn [andb]. rewrite Nat.add_0_r. tauto.
Qed.

(** One attempt of a pending order that has been attempted on all its bars. *)
Definition ready (b : bstate) (n : pending) : Prop :=
  marked (b_kops b) (n_id n) = false /\ retries (b_kops b) (n_id n) = 0%nat /\ attempts b (n_id n) = [] \/
  retries (b_kops b) (n_id n) = length (attempts b (n_id n)) /\ persistent n /\
  match n_timeout n with Some t => (0 <= t -> Z.of_nat (retries (b_kops b) (n_id n)) <= t)%Z | None => True end.
Lemma settle_one i d n b b' : core b -> is_live (b_kops b) (n_id n) = true -> ready b n ->
  (forall x, In x (attempts b (n_id n)) -> snd x = false) ->
  attempt_and_settle v i d n b = Some b' ->
  core b' /\ order_ok (map fst (attempts b (n_id n)) ++ [d]) b' n /\ (forall j, j <> n_id n -> same_order b b' j) /\
  exists f, attempts b' (n_id n) = attempts b (n_id n) ++ [(d, f)] /\
    (exists b1, attempt v i d n (set_pend (KMark (n_id n)) b) = Some (b1, f) /\
      b' = if f || negb (is_persistent_limit n) then set_pend (KRemove (n_id n)) b1 else b1).
Proof.
  intros C L R NF. unfold attempt_and_settle.
  assert (C1 : core (set_pend (KMark (n_id n)) b)) by (apply kstate_set; auto; intros ? [= <-]; auto).
  set (bm := set_pend (KMark (n_id n)) b) in *.
  destruct (attempt v i d n bm) as [[b1 f]|] eqn:A; [|discriminate].
  destruct (attempt_spec _ _ _ _ _ _ A) as [FR [AT _]]. destruct FR as [F1 [_ [_ [_ [_ [_ [_ F8]]]]]]].
  assert (ATT : forall j, attempts b1 j = attempts b j ++ (if Nat.eqb (n_id n) j then [(d, f)] else [])).
  { intro j. rewrite <- (attempts_log (n_id n) d f b j). unfold attempts. rewrite AT. reflexivity. }
  assert (C2 : core b1).
  { destruct C1 as [P1 P2 P3]. constructor; rewrite ?F1, ?F8; auto. intros x I. rewrite AT in I. apply in_app_iff in I.
    destruct I as [I|[<-|[]]]; auto. cbn [fst]. unfold bm, set_pend. cbn [b_kops]. rewrite added_snoc. cbn. pose proof (is_live_le _ _ L). lia. }
  assert (SM : forall j, j <> n_id n -> same_order b b1 j).
  { intros j N. apply same_trans with bm; [now apply same_mark|]. unfold same_order. rewrite F8, ATT.
    assert (E : Nat.eqb (n_id n) j = false) by (apply Nat.eqb_neq; congruence). rewrite E, app_nil_r. unfold bm. rewrite set_pend_att. tauto. }
  assert (AN : attempts b1 (n_id n) = attempts b (n_id n) ++ [(d, f)]) by (rewrite ATT, Nat.eqb_refl; reflexivity).
  assert (CAP : allowed_attempts n (length (attempts b (n_id n) ++ [(d, f)]))).
  { rewrite app_length, Nat.add_1_r. unfold allowed_attempts. destruct R as [[_ [_ R]]|[R [[P1 P2] P3]]].
    - rewrite R. cbn. destruct (n_limit n), (n_timeout n); auto. intro; lia.
    - destruct (n_limit n); [|congruence]. destruct (n_timeout n) as [t|]; [|congruence]. intro Ht. specialize (P3 Ht). lia. }
  assert (FILL : forall l1 x l2, attempts b (n_id n) ++ [(d, f)] = l1 ++ x :: l2 -> snd x = true -> l2 = [] /\ f = true).
  { intros l1 x l2 E T. destruct l2 as [|y l2 _] using rev_ind.
    - apply app_inj_tail in E. destruct E as [_ <-]. auto.
    - change (x :: l2 ++ [y]) with ((x :: l2) ++ [y]) in E. rewrite app_assoc in E. apply app_inj_tail in E. destruct E as [E _].
      rewrite (NF x) in T; [discriminate|]. rewrite E. apply in_app_iff. right. left. reflexivity. }
  destruct (f || negb (is_persistent_limit n)) eqn:G; intros [= <-].
  - split; [apply kstate_set; auto; discriminate|].
    assert (D : is_live (b_kops (set_pend (KRemove (n_id n)) b1)) (n_id n) = false).
    { unfold set_pend. cbn [b_kops]. rewrite live_remove, Nat.eqb_refl. apply andb_false_r. }
    split; [|split; [|exists f; split; [exact AN|exists b1; rewrite G; auto]]].
    + constructor; unfold finished; rewrite ?set_pend_att, ?AN, ?D; auto; try discriminate.
      * exists []. split; auto. rewrite map_app, app_nil_r. reflexivity.
      * intros l1 x l2 E T. split; auto. apply (FILL l1 x l2 E T).
      * intros _. right. destruct f; [left; eauto|]. right. left. cbn [orb] in G. apply negb_true_iff in G.
        assert (NP : ~ persistent n).
        { intros [P1 P2]. unfold is_persistent_limit in G. destruct (n_limit n); [|congruence]. destruct (n_timeout n); [discriminate|congruence]. }
        split; auto. destruct R as [[_ [_ ->]]|[_ [X _]]]; [reflexivity|tauto].
    + intros j N. apply same_trans with b1; auto. now apply same_remove.
  - apply orb_false_iff in G. destruct G as [-> G]. apply negb_false_iff in G.
    split; auto. split; [|split; [auto|exists false; split; [exact AN|exists b1; rewrite G; auto]]].
    assert (L1 : is_live (b_kops b1) (n_id n) = true) by (rewrite F8; unfold bm, set_pend; cbn [b_kops]; rewrite live_mark; exact L).
    constructor; rewrite ?AN, ?L1; auto; try discriminate.
    + exists []. split; auto. rewrite map_app, app_nil_r. reflexivity.
    + intros l1 x l2 E T. destruct (FILL l1 x l2 E T) as [_ KX]. discriminate.
    + intros _. right. rewrite F8. unfold bm, set_pend. cbn [b_kops]. rewrite marked_snoc, retries_snoc, Nat.eqb_refl, orb_true_r, Nat.add_0_r, app_length, Nat.add_1_r.
      split; auto. split.
      * f_equal. destruct R as [[_ [R ->]]|[R _]]; [now rewrite R|auto].
      * unfold is_persistent_limit in G. apply andb_true_iff in G. destruct G as [G1 G2]. split; intro X; [rewrite X in G1|rewrite X in G2]; discriminate.
Qed.
End Run.
