(** Proofs about execution contexts. *)
From Verif Require Export Lemmas ContextSpec.

Lemma given_true {A} (x : option A) : given x = true <-> x <> None.
Proof. destruct x; cbn; split; congruence. Qed.
Lemma given_false {A} (x : option A) : given x = false <-> x = None.
Proof. destruct x; cbn; split; congruence. Qed.
Lemma stop_given_iff g : stop_given g = true <-> some_stop g.
Proof. unfold stop_given, some_stop. rewrite !orb_true_iff, !given_true. tauto. Qed.
Lemma truthy_iff q : truthy q = true <-> exists x, q = Some x /\ ~ x == 0.
Proof.
  destruct q as [x|]; cbn; split; try discriminate.
  - intro H. exists x. split; auto. apply negb_true_iff in H. now apply Qis0_false.
  - intros [y [[= <-] H]]. destruct (Qis0 x) eqn:E; auto. apply Qis0_true in E. tauto.
  - intros [y [E _]]. discriminate.
Qed.

(** ** Stops *)
(** What one kind of stop contributes. *)
Record made (s : sym) (sd : side) (n : nat) (l : list stop) (n' : nat) (sh : list stop_shape) : Prop := mkMade {
  md_ids : map st_id l = seq (S n) (length l);
  md_next : n' = (n + length l)%nat;
  md_shape : map shape_of l = sh;
  md_sym : Forall (fun st => st_sym st = s /\ st_pos st = sd /\ stop_sized st) l
}.
Lemma made_app s sd n l n1 sh l' n2 sh' : made s sd n l n1 sh -> made s sd n1 l' n2 sh' -> made s sd n (l ++ l') n2 (sh ++ sh').
Proof.
  intros [A1 A2 A3 A4] [B1 B2 B3 B4]. constructor.
  - rewrite map_app, app_length, seq_app, A1, B1, A2. f_equal; auto.
  - rewrite app_length. lia.
  - now rewrite map_app, A3, B3.
  - now apply Forall_app.
Qed.
Lemma price_stop_spec s ty sd pt pc lim ex n : ty <> SBar ->
  match price_stop s ty sd pt pc lim ex n with
  | Some (l, n') => ~ bad_stop pt pc lim ex /\ made s sd n l n' (one_kind ty pt pc lim ex)
  | None => bad_stop pt pc lim ex
  end.
Proof.
  intro T. unfold price_stop, create_stop, bad_stop, one_kind.
  destruct pt as [pt|], pc as [pc|].
  - left. split; discriminate.
  - destruct ty; try (destruct (T eq_refl)); destruct ex as [[ex|]|]; try (right; right; reflexivity);
      (split; [intuition discriminate|constructor; cbn; auto; [lia|]; apply Forall_cons; [|apply Forall_nil]; unfold stop_sized; cbn; repeat split; right; ((left; eexists; reflexivity) + (right; eexists; reflexivity))]).
  - destruct ty; try (destruct (T eq_refl)); destruct ex as [[ex|]|]; try (right; right; reflexivity);
      (split; [intuition discriminate|constructor; cbn; auto; [lia|]; apply Forall_cons; [|apply Forall_nil]; unfold stop_sized; cbn; repeat split; right; ((left; eexists; reflexivity) + (right; eexists; reflexivity))]).
  - destruct lim, ex as [ex|]; try (right; left; split; [reflexivity|split; [reflexivity|]]; (left + right); discriminate).
    split; [intuition discriminate|constructor; cbn; auto; lia].
Qed.
Definition bad_stops (g : sig) : Prop :=
  (exists h, g_hold g = Some h /\ (h <= 0)%Z) \/
  bad_stop (g_loss g) (g_loss_pct g) (g_loss_limit g) (g_loss_exit g) \/
  bad_stop (g_profit g) (g_profit_pct g) (g_profit_limit g) (g_profit_exit g) \/
  bad_stop (g_trail g) (g_trail_pct g) (g_trail_limit g) (g_trail_exit g).
Lemma get_stops_spec s g n :
  match get_stops s g n with
  | None => bad_stops g
  | Some (ls, ss, n') =>
      match g_bshares g, g_sshares g with
      | None, None => ls = None /\ ss = None
      | Some _, _ => ~ bad_stops g /\ ss = None /\ exists l, ls = Some l /\ made s Long n l n' (described g)
      | None, Some _ => ~ bad_stops g /\ ls = None /\ exists l, ss = Some l /\ made s Short n l n' (described g)
      end
  end.
Proof.
  unfold get_stops.
  set (pos := match g_bshares g with Some _ => Some Long | None => match g_sshares g with Some _ => Some Short | None => None end end).
  assert (GEN : forall sd, match (match
        (match g_hold g with
        | None => Some ([], n)
        | Some h =>
            if Z.leb h 0 then None
            else
              match create_stop s SBar sd None None (Some (Z.to_nat h))
                 (Some match match sd with Long => g_sfill g | Short => g_bfill g end with Some f => f | None => FType PTMiddle end) None None n with
              | Some (st, n') => Some ([st], n')
              | None => None
              end
        end) with
      | None => None
      | Some (l0, n0) =>
          match price_stop s SLoss sd (g_loss g) (g_loss_pct g) (g_loss_limit g) (g_loss_exit g) n0 with
          | None => None
          | Some (l1, n1) =>
              match price_stop s SProfit sd (g_profit g) (g_profit_pct g) (g_profit_limit g) (g_profit_exit g) n1 with
              | None => None
              | Some (l2, n2) =>
                  match price_stop s STrailing sd (g_trail g) (g_trail_pct g) (g_trail_limit g) (g_trail_exit g) n2 with
                  | None => None
                  | Some (l3, n3) => Some (l0 ++ l1 ++ l2 ++ l3, n3)
                  end
              end
          end
      end) with
      | None => bad_stops g
      | Some (l, n3) => ~ bad_stops g /\ made s sd n l n3 (described g)
      end).
  { intro sd. unfold bad_stops, described.
    assert (H0 : match (match g_hold g with
        | None => Some ([], n)
        | Some h =>
            if Z.leb h 0 then None
            else
              match create_stop s SBar sd None None (Some (Z.to_nat h))
                 (Some match match sd with Long => g_sfill g | Short => g_bfill g end with Some f => f | None => FType PTMiddle end) None None n with
              | Some (st, n') => Some ([st], n')
              | None => None
              end
        end) with
        | None => exists h, g_hold g = Some h /\ (h <= 0)%Z
        | Some (l0, n0) => (~ exists h, g_hold g = Some h /\ (h <= 0)%Z) /\
            made s sd n l0 n0 (match g_hold g with Some h => [(SBar, Some h, None, None, None, None)] | None => [] end)
        end).
    { destruct (g_hold g) as [h|]; [|split; [intros [h [E _]]; discriminate|constructor; cbn; auto; lia]].
      destruct (Z.leb_spec h 0) as [L|L]; [eauto|]. unfold create_stop. split.
      - intros [h' [[= <-] X]]. lia.
      - constructor; cbn; auto; [lia| |].
        + unfold shape_of. cbn. now rewrite Z2Nat.id by lia.
        + apply Forall_cons; [|apply Forall_nil]. unfold stop_sized. cbn. auto. }
    match goal with |- context [match ?x with Some _ => _ | None => None end] => set (hold := x) in * end.
    destruct hold as [[l0 n0]|]; [|tauto]. destruct H0 as [N0 M0].
    pose proof (price_stop_spec s SLoss sd (g_loss g) (g_loss_pct g) (g_loss_limit g) (g_loss_exit g) n0 ltac:(discriminate)) as H1.
    destruct (price_stop s SLoss _ _ _ _ _ n0) as [[l1 n1]|]; [|tauto]. destruct H1 as [N1 M1].
    pose proof (price_stop_spec s SProfit sd (g_profit g) (g_profit_pct g) (g_profit_limit g) (g_profit_exit g) n1 ltac:(discriminate)) as H2.
    destruct (price_stop s SProfit _ _ _ _ _ n1) as [[l2 n2]|]; [|tauto]. destruct H2 as [N2 M2].
    pose proof (price_stop_spec s STrailing sd (g_trail g) (g_trail_pct g) (g_trail_limit g) (g_trail_exit g) n2 ltac:(discriminate)) as H3.
    destruct (price_stop s STrailing _ _ _ _ _ n2) as [[l3 n3]|]; [|tauto]. destruct H3 as [N3 M3].
    split; [tauto|]. eapply made_app; [exact M0|]. eapply made_app; [exact M1|]. eapply made_app; eauto. }
  unfold pos in *. destruct (g_bshares g) as [q|]; [specialize (GEN Long)|destruct (g_sshares g) as [q|]; [specialize (GEN Short)|auto]].
  - destruct (match g_hold g with Some _ => _ | None => _ end) as [[l0 n0]|]; [|exact GEN].
    destruct (price_stop s SLoss _ _ _ _ _ n0) as [[l1 n1]|]; [|exact GEN].
    destruct (price_stop s SProfit _ _ _ _ _ n1) as [[l2 n2]|]; [|exact GEN].
    destruct (price_stop s STrailing _ _ _ _ _ n2) as [[l3 n3]|]; [|exact GEN]. destruct GEN as [G1 G2]. eauto.
  - destruct (match g_hold g with Some _ => _ | None => _ end) as [[l0 n0]|]; [|exact GEN].
    destruct (price_stop s SLoss _ _ _ _ _ n0) as [[l1 n1]|]; [|exact GEN].
    destruct (price_stop s SProfit _ _ _ _ _ n1) as [[l2 n2]|]; [|exact GEN].
    destruct (price_stop s STrailing _ _ _ _ _ n2) as [[l3 n3]|]; [|exact GEN]. destruct GEN as [G1 G2]. eauto.
Qed.

(** ** Results *)
Lemma unusable_split g : unusable g <-> g_blimit g = Some None \/ g_slimit g = Some None \/ bad_stops g.
Proof. unfold unusable, bad_stops. tauto. Qed.
Lemma finite_limit_spec l : match finite_limit l with None => l = Some None | Some x => l <> Some None /\ match x with Some q => l = Some (Some q) | None => l = None end end.
Proof. destruct l as [[q|]|]; cbn; auto; split; congruence. Qed.

(** The result of a usable order. *)
Record result_of (s : sym) (date : Z) (g : sig) (n : nat) (r : result) (n' : nat) : Prop := mkResOf {
  ro_sym : r_sym r = s; ro_date : r_date r = date;
  ro_side : (exists q, g_bshares g = Some q /\ g_sshares g = None /\ ~ q == 0) \/
            (exists q, g_sshares g = Some q /\ g_bshares g = None /\ ~ q == 0);
  ro_buy : r_buy r = g_bshares g; ro_sell : r_sell r = g_sshares g;
  ro_bfill : r_bfill r = match g_bfill g with Some f => f | None => FType PTMiddle end;
  ro_sfill : r_sfill r = match g_sfill g with Some f => f | None => FType PTMiddle end;
  ro_blimit : option_map Some (r_blimit r) = g_blimit g; ro_slimit : option_map Some (r_slimit r) = g_slimit g;
  ro_btimeout : r_btimeout r = g_btimeout g; ro_stimeout : r_stimeout r = g_stimeout g;
  ro_scores : r_score r = g_score g /\ r_lscore r = g_lscore g /\ r_sscore r = g_sscore g;
  ro_cover : r_cover r = g_cover g; ro_exit : r_exit r = g_exit g; ro_pid : r_pid r = None;
  ro_stops : made s (match r_buy r with Some _ => Long | None => Short end) n (result_stops r) n' (described g)
}.
Lemma to_result_spec s date rot g n :
  match to_result s date rot g n with
  | ORaise => contradictory rot g \/ (wants g /\ unusable g)
  | ONone => ~ contradictory rot g /\ ~ wants g
  | OResult r n' => ~ contradictory rot g /\ wants g /\ ~ unusable g /\ result_of s date g n r n'
  end.
Proof.
  unfold to_result.
  destruct (is_noop_bar g) eqn:NB.
  { unfold is_noop_bar in NB. rewrite andb_true_iff, !negb_true_iff, !orb_false_iff, !given_false in NB.
    assert (NS : ~ some_stop g) by (rewrite <- stop_given_iff; destruct NB as [_ [_ X]]; rewrite X; discriminate).
    unfold contradictory, wants. split; [intuition congruence|]. intros [[q [E _]]|[q [E _]]]; intuition congruence. }
  clear NB.
  destruct (negb (given (g_bshares g)) && (given (g_blimit g) || given (g_bfill g) && negb (given (g_hold g)))) eqn:C1.
  { rewrite andb_true_iff, orb_true_iff, andb_true_iff, !negb_true_iff, !given_true, !given_false in C1. unfold contradictory. tauto. }
  destruct (negb (given (g_sshares g)) && (given (g_slimit g) || given (g_sfill g) && negb (given (g_hold g)))) eqn:C2.
  { rewrite andb_true_iff, orb_true_iff, andb_true_iff, !negb_true_iff, !given_true, !given_false in C2. unfold contradictory. tauto. }
  destruct (negb (given (g_bshares g)) && negb (given (g_sshares g)) && (stop_given g || given (g_hold g))) eqn:C3.
  { rewrite !andb_true_iff, orb_true_iff, !negb_true_iff, stop_given_iff, !given_true, !given_false in C3. unfold contradictory. tauto. }
  destruct (given (g_bshares g) && given (g_sshares g)) eqn:C4.
  { rewrite andb_true_iff, !given_true in C4. unfold contradictory. tauto. }
  destruct (given (g_score g) && (given (g_lscore g) || given (g_sscore g))) eqn:C5.
  { rewrite andb_true_iff, orb_true_iff, !given_true in C5. unfold contradictory. tauto. }
  destruct (rot && given (g_score g)) eqn:C6.
  { rewrite andb_true_iff, !given_true in C6. unfold contradictory. tauto. }
  assert (OK : ~ contradictory rot g).
  { apply not_true_iff_false in C1, C2, C3, C5, C6. pose proof C4 as C4'. apply not_true_iff_false in C4'.
    rewrite andb_true_iff, orb_true_iff, andb_true_iff, !negb_true_iff, !given_true, !given_false in C1, C2.
    rewrite !andb_true_iff, orb_true_iff, !negb_true_iff, stop_given_iff, !given_true, !given_false in C3.
    rewrite andb_true_iff, !given_true in C4'. rewrite andb_true_iff, !given_true in C6. rewrite andb_true_iff, orb_true_iff, !given_true in C5.
    unfold contradictory. tauto. }
  clear C1 C2 C3 C5 C6.
  destruct (negb (truthy (g_bshares g)) && negb (truthy (g_sshares g))) eqn:W.
  { split; auto. rewrite andb_true_iff, !negb_true_iff in W. destruct W as [W1 W2]. unfold wants. rewrite <- !truthy_iff, W1, W2. intuition discriminate. }
  assert (WG : wants g).
  { unfold wants. rewrite <- !truthy_iff. destruct (truthy (g_bshares g)), (truthy (g_sshares g)); cbn in W; try discriminate; auto. }
  pose proof (finite_limit_spec (g_blimit g)) as FB. pose proof (finite_limit_spec (g_slimit g)) as FS.
  pose proof (get_stops_spec s g n) as GS. pose proof (unusable_split g) as US.
  destruct (finite_limit (g_blimit g)) as [bl|]; [|tauto]. destruct (finite_limit (g_slimit g)) as [sl|]; [|tauto].
  destruct (get_stops s g n) as [[[ls ss] n']|]; [|tauto].
  assert (SD : (exists q, g_bshares g = Some q /\ g_sshares g = None /\ ~ q == 0) \/
               (exists q, g_sshares g = Some q /\ g_bshares g = None /\ ~ q == 0)).
  { destruct WG as [[q [E N]]|[q [E N]]]; rewrite E in *; cbn in C4.
    - left. exists q. destruct (g_sshares g); [discriminate|auto].
    - right. exists q. destruct (g_bshares g); [discriminate|auto]. }
  assert (ST : ~ bad_stops g /\ made s (match g_bshares g with Some _ => Long | None => Short end) n
            (match (match g_bshares g with Some _ => ls | None => ss end) with Some l => l | None => [] end) n' (described g)).
  { destruct SD as [[q [E1 [E2 _]]]|[q [E1 [E2 _]]]]; rewrite E1, ?E2 in *; cbn in GS.
    - destruct GS as [B [_ [l [-> M]]]]. auto.
    - destruct GS as [B [_ [l [-> M]]]]. auto. }
  split; auto. split; auto. split; [tauto|].
  constructor; cbn; auto; try tauto.
  - destruct FB as [_ FB]. destruct bl; cbn; auto.
  - destruct FS as [_ FS]. destruct sl; cbn; auto.
Qed.
Lemma to_result_raises s date rot g n : to_result s date rot g n = ORaise <-> contradictory rot g \/ (wants g /\ unusable g).
Proof.
  pose proof (to_result_spec s date rot g n) as H. destruct (to_result s date rot g n); split; auto; try discriminate; tauto.
Qed.
Lemma to_result_none s date rot g n : to_result s date rot g n = ONone <-> ~ contradictory rot g /\ ~ wants g.
Proof.
  pose proof (to_result_spec s date rot g n) as H. destruct (to_result s date rot g n); split; auto; try discriminate; tauto.
Qed.
Lemma to_result_ok s date rot g n r n' : to_result s date rot g n = OResult r n' ->
  ~ contradictory rot g /\ wants g /\ ~ unusable g /\ result_of s date g n r n'.
Proof. pose proof (to_result_spec s date rot g n) as H. intro E. now rewrite E in H. Qed.
Lemma result_one_sided s date g n r n' : result_of s date g n r n' ->
  (exists q, r_buy r = Some q /\ r_sell r = None /\ ~ q == 0) \/ (exists q, r_sell r = Some q /\ r_buy r = None /\ ~ q == 0).
Proof. intros []. rewrite ro_buy0, ro_sell0. destruct ro_side0 as [[q X]|[q X]]; eauto. Qed.
(** No kind of stop appears twice. *)
Lemma one_kind_types ty pt pc lim ex : Forall (fun x => fst (fst (fst (fst (fst x)))) = ty) (one_kind ty pt pc lim ex) /\ (length (one_kind ty pt pc lim ex) <= 1)%nat.
Proof. unfold one_kind. destruct pt, pc; cbn; split; repeat constructor. Qed.
Lemma made_one_per_type s sd n l n' g : made s sd n l n' (described g) -> one_per_type l.
Proof.
  intros [M1 M2 M3 M4]. assert (ND : NoDup (map st_type l)).
  { replace (map st_type l) with (map (fun x : stop_shape => fst (fst (fst (fst (fst x))))) (map shape_of l)) by (rewrite map_map; apply map_ext; reflexivity).
    rewrite M3. unfold described, one_kind. destruct (g_hold g), (g_loss g), (g_loss_pct g), (g_profit g), (g_profit_pct g), (g_trail g), (g_trail_pct g);
      cbn; repeat constructor; cbn; intuition discriminate. }
  clear - ND. intros a b Ia Ib E. induction l as [|x l IH]; [destruct Ia|]. cbn in ND. inversion ND as [|? ? N1 N2]; subst.
  destruct Ia as [->|Ia], Ib as [->|Ib]; auto.
  - exfalso. apply N1. rewrite E. now apply in_map.
  - exfalso. apply N1. rewrite <- E. now apply in_map.
Qed.
