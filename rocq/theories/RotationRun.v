(** Proofs about rotation, continued: both sides together, and inside a bar. *)
From Verif Require Import Lemmas PendingProofs PortfolioFacts.
From Verif Require Export RotationProofs LoopModel.
From Coq Require Import Sorting.Sorted Sorting.Permutation.

(** ** Only scores matter *)
Definition same_scores (x y : ctxs) : Prop := akeys x = akeys y /\ forall sd s sc, scored x sd s sc <-> scored y sd s sc.
Lemma same_refl x : same_scores x x.
Proof. split; [auto|reflexivity]. Qed.
Lemma same_trans x y z : same_scores x y -> same_scores y z -> same_scores x z.
Proof. intros [A B] [C D]. split; [congruence|]. intros. rewrite B. apply D. Qed.
Lemma same_sym x y : same_scores x y -> same_scores y x.
Proof. intros [A B]. split; [auto|]. intros. symmetry. apply B. Qed.
Section Same.
Context {x y : ctxs} (H : same_scores x y).
Lemma same_outranks sd s t : outranks x sd s t <-> outranks y sd s t.
Proof. destruct H as [_ S]. unfold outranks. split; intros [a [b [A [B C]]]]; exists a, b; rewrite S in *; auto; rewrite <- S in *; auto. Qed.
Lemma same_rank sd s r : has_rank x sd s r <-> has_rank y sd s r.
Proof.
  pose proof H as [_ S]. unfold has_rank. split; intros [[sc A] [l [N [L R]]]]; (split; [exists sc; now apply S|]); exists l; split; auto; split; auto;
    intro t; rewrite L; [|symmetry]; apply same_outranks.
Qed.
Lemma same_good sd w s : good_rank x sd w s <-> good_rank y sd w s.
Proof. unfold good_rank. split; intros [r [A B]]; exists r; split; auto; now apply same_rank. Qed.
Lemma same_leave p sd w s : must_leave p x sd w s <-> must_leave p y sd w s.
Proof. pose proof H as [K _]. unfold must_leave. rewrite K, same_good. reflexivity. Qed.
Lemma same_enter p k sd w s : may_enter p k x sd w s <-> may_enter p k y sd w s.
Proof. pose proof H as [K _]. unfold may_enter. rewrite K, same_good. reflexivity. Qed.
Lemma same_awaited p k sd s : awaited p k x sd s <-> awaited p k y sd s.
Proof. pose proof H as [K _]. unfold awaited. rewrite K. reflexivity. Qed.
Lemma card_ext (P Q : sym -> Prop) n : (forall s, P s <-> Q s) -> cardinal P n -> cardinal Q n.
Proof. intros E [l [N [L R]]]. exists l. split; auto. split; auto. intro s. rewrite L. apply E. Qed.
Lemma same_leaves p k w m sd s : leaves p k x w m sd s <-> leaves p k y w m sd s.
Proof. unfold leaves. rewrite same_leave. reflexivity. Qed.
Lemma same_enters sd a b s : enters x sd a b s <-> enters y sd a b s.
Proof.
  unfold enters. split; intros [A B]; split; auto; intro I; destruct (B I) as [r [r' [R1 [R2 R3]]]]; exists r, r'; rewrite same_rank in *; auto; rewrite <- same_rank in *; auto.
Qed.
Lemma same_selected p k w m sd l : selected p k x w m sd l -> selected p k y w m sd l.
Proof.
  destruct m as [m|]; cbn; auto. intros [S1 S2 [lv [wt [C1 [C2 [C3 C4]]]]] S4]. constructor; auto.
  - intros s I. apply same_enter. auto.
  - exists lv, wt. split; [eapply card_ext; [|exact C1]; intro; apply same_leave|]. split; [eapply card_ext; [|exact C2]; intro; apply same_awaited|].
    split; auto. intros [t [T N]]. apply C4. exists t. split; auto. now apply same_enter.
  - intros s t I T N. apply same_outranks. apply S4; auto. now apply same_enter.
Qed.
End Same.
Lemma all_shares_own sd p s g g' : all_shares sd p s g = Some g' -> forall sd', own_score sd' g' = own_score sd' g.
Proof.
  unfold all_shares, sell_all_shares, cover_all_shares. destruct sd; destruct (aget s _); try discriminate; intros [= <-] []; reflexivity.
Qed.
Lemma same_of x x' : akeys x' = akeys x -> (forall s, aget s x' = aget s x \/
    exists g g', aget s x = Some g /\ aget s x' = Some g' /\ forall sd, own_score sd g' = own_score sd g) -> same_scores x x'.
Proof.
  intros K C. split; auto. intros sd s sc. unfold scored. destruct (C s) as [->|[g [g' [-> [-> O]]]]]; [reflexivity|].
  split; intros [h [[= <-] [E N]]]; eexists; split; eauto; split; auto; [rewrite O|rewrite <- O]; auto.
Qed.

(** ** A leg that may take no part *)
Lemma leg_ok p ops worst m sd x x' ranks cand : let k := krun ops in
  NoDup (akeys x) -> NoDup (akeys (poss sd p)) -> rotation_leg p k worst m sd x = Some (x', ranks, cand) ->
  (m <> None -> ranks = rotation_ranks x sd) /\ same_scores x x' /\ selected p k x worst m sd cand /\
  (forall s, leaves p k x worst m sd s -> exists g g', aget s x = Some g /\ all_shares sd p s g = Some g' /\ aget s x' = Some g') /\
  (forall s, ~ leaves p k x worst m sd s -> aget s x' = aget s x).
Proof.
  intros k ND NP. destruct m as [m|].
  - intro E. destruct (leg_spec p ops worst m sd x x' ranks cand ND NP E) as [A [B [C [D F]]]]. fold k in C, D, F. split; auto. split; [|auto].
    apply same_of; auto. intro s. 
    assert (LD : leaves p k x worst (Some m) sd s \/ ~ leaves p k x worst (Some m) sd s).
    { unfold leaves. assert (MD : must_leave p x sd worst s \/ ~ must_leave p x sd worst s).
      { unfold must_leave. destruct (position_of p sd s); [|right; intros [X _]; congruence]. destruct (in_dec Nat.eq_dec s (akeys x)) as [I|I]; [|tauto].
        destruct (match aget s (rotation_ranks x sd) with Some r => Nat.leb r worst | None => false end) eqn:G.
        - right. apply good_rank_iff in G; tauto.
        - left. split; [discriminate|]. split; auto. rewrite good_rank_iff by auto. congruence. }
      destruct MD as [M|M]; [|tauto]. destruct (has_pending_order s (exit_order sd) k) eqn:P.
      - apply in_flight_iff in P. tauto.
      - left. split; [discriminate|]. split; auto. unfold k. rewrite <- in_flight_iff. fold k. congruence. }
    destruct LD as [L|L]; [|auto]. right. destruct (D s L) as [g [g' [G1 [G2 G3]]]]. exists g, g'. split; auto. split; auto. eapply all_shares_own; eauto.
  - cbn. intros [= <- <- <-]. split; [congruence|]. split; [apply same_refl|]. split; auto. split; [|auto]. intros s [X _]. congruence.
Qed.

(** ** Overlaps *)
Lemma overlap_spec x lc sc lr sr lc' sc' : NoDup (akeys x) -> resolve_overlap lc sc lr sr = (lc', sc') ->
  (forall s, In s lc -> exists r, has_rank x Long s r /\ rank_of lr s = r) ->
  (forall s, In s sc -> exists r, has_rank x Short s r /\ rank_of sr s = r) ->
  (forall s, In s lc' <-> enters x Long lc sc s) /\ (forall s, In s sc' <-> enters x Short sc lc s) /\ (forall s, In s lc' -> ~ In s sc').
Proof.
  intros ND E HL HS. unfold resolve_overlap in E. injection E as <- <-.
  assert (RK : forall s, In s lc -> In s sc -> exists r r', has_rank x Long s r /\ has_rank x Short s r' /\ rank_of lr s = r /\ rank_of sr s = r').
  { intros s I J. destruct (HL s I) as [r [R E1]]. destruct (HS s J) as [r' [R' E2]]. exists r, r'. auto. }
  assert (FUN : forall sd s a b, has_rank x sd s a -> has_rank x sd s b -> a = b).
  { intros sd s a b A B. apply rotation_rank in A; auto. apply rotation_rank in B; auto. congruence. }
  assert (ML : forall s l, nmem s l = true \/ nmem s l = false) by (intros s l; destruct (nmem s l); auto).
  split; [|split].
  - intro s. rewrite filter_In. unfold enters. split.
    + intros [I F]. split; auto. intro J. destruct (RK s I J) as [r [r' [R [R' [E1 E2]]]]]. exists r, r'. split; auto. split; auto.
      apply nmem_in in I. apply nmem_in in J. rewrite I, J, E1, E2 in F. cbn [andb negb] in F. apply negb_true_iff, Nat.ltb_ge in F. auto.
    + intros [I F]. split; auto. destruct (nmem s sc) eqn:J; [|now rewrite andb_false_r]. apply nmem_in in J. destruct (F J) as [r [r' [R [R' L]]]].
      destruct (RK s I J) as [q [q' [Q [Q' [E1 E2]]]]]. rewrite (FUN _ _ _ _ Q R) in E1. change (opposite Long) with Short in R'. rewrite (FUN _ _ _ _ Q' R') in E2.
      rewrite E1, E2. assert (X : Nat.ltb r' r = false) by (apply Nat.ltb_ge; lia). rewrite X. now rewrite andb_false_r.
  - intro s. rewrite filter_In. unfold enters. split.
    + intros [I F]. split; auto. intro J. destruct (RK s J I) as [r [r' [R [R' [E1 E2]]]]]. exists r', r. split; auto. split; auto.
      apply nmem_in in I. apply nmem_in in J. rewrite I, J, E1, E2 in F. cbn [andb] in F. rewrite negb_involutive in F. apply Nat.ltb_lt in F. auto.
    + intros [I F]. split; auto. destruct (nmem s lc) eqn:J; [|reflexivity]. apply nmem_in in J. destruct (F J) as [r' [r [R' [R L]]]].
      destruct (RK s J I) as [q [q' [Q [Q' [E1 E2]]]]]. change (opposite Short) with Long in R. rewrite (FUN _ _ _ _ Q R) in E1. rewrite (FUN _ _ _ _ Q' R') in E2.
      rewrite E1, E2. assert (X : Nat.ltb r' r = true) by (apply Nat.ltb_lt; lia). rewrite X. apply nmem_in in I. rewrite I. reflexivity.
  - intros s I J. rewrite filter_In in I, J. destruct I as [I1 I2], J as [J1 J2]. apply nmem_in in I1. apply nmem_in in J1. rewrite I1, J1 in *. cbn [andb negb] in *.
    rewrite negb_involutive in J2. rewrite J2 in I2. discriminate.
Qed.

(** ** Entries *)
Lemma target_none c p close size sd l : target_all c p close size sd l None = None.
Proof. induction l; cbn; auto. Qed.
Lemma target_spec c p close size sd l : NoDup l -> forall x x', target_all c p close size sd l (Some x) = Some x' ->
  akeys x' = akeys x /\
  (forall s, In s l -> exists g g', aget s x = Some g /\ set_target_shares c p s (close s) size sd g = Some g' /\ aget s x' = Some g') /\
  (forall s, ~ In s l -> aget s x' = aget s x).
Proof.
  induction l as [|t l IH]; intros ND x x' E.
  - cbn in E. injection E as <-. split; auto. split; auto. intros s [].
  - inversion ND as [|? ? N1 N2]; subst. unfold target_all in E. cbn [fold_left] in E. destruct (aget t x) as [g|] eqn:G; [|change (target_all c p close size sd l None = Some x') in E; rewrite target_none in E; discriminate].
    destruct (set_target_shares c p t (close t) size sd g) as [g'|] eqn:S; [|change (target_all c p close size sd l None = Some x') in E; rewrite target_none in E; discriminate].
    destruct (IH N2 _ _ E) as [K [A B]]. split; [rewrite K; apply akeys_aset_in; eapply aget_Some_key; eauto|]. split.
    + intros s [->|I].
      * exists g, g'. split; auto. split; auto. rewrite B by auto. apply aget_aset_eq.
      * assert (s <> t) by congruence. destruct (A s I) as [h [h' [H1 [H2 H3]]]]. rewrite aget_aset_neq in H1 by auto. eauto.
    + intros s N. rewrite B by (intro; apply N; now right). apply aget_aset_neq. intros ->. apply N. now left.
Qed.
Lemma target_entry c p s close size sd g g' : ~ holds p s -> no_order g -> set_target_shares c p s close size sd g = Some g' ->
  match close with
  | Some y => if Qlt_le_dec 0 y then exists t, calc_target_shares c (p_equity p) size (Some y) None = Some t /\ only_order g' (entry_order sd) t
              else no_order g'
  | None => no_order g'
  end.
Proof.
  intros H [N1 N2] E. unfold set_target_shares in E. destruct (Qltb size 0); [discriminate|]. destruct close as [y|]; [|injection E as <-; split; auto].
  destruct (Qle_bool y 0) eqn:Y.
  - injection E as <-. apply Qle_bool_iff in Y. destruct (Qlt_le_dec 0 y); [exfalso; lra|split; auto].
  - destruct (Qlt_le_dec 0 y) as [L|L]; [|apply Qle_bool_iff in L; congruence].
    destruct (calc_target_shares c (p_equity p) size (Some y) None) as [t|]; [|discriminate]. exists t. split; auto.
    unfold holds, position_of in H. cbn [poss] in H.
    assert (X1 : aget s (p_longs p) = None) by (destruct (aget s (p_longs p)); auto; exfalso; apply H; left; discriminate).
    assert (X2 : aget s (p_shorts p) = None) by (destruct (aget s (p_shorts p)); auto; exfalso; apply H; right; discriminate).
    destruct sd; rewrite ?X1, ?X2 in E; injection E as <-; cbn; auto.
Qed.

(** ** Both sides *)
Lemma all_shares_order sd p s g g' : no_order g -> all_shares sd p s g = Some g' ->
  exists pos, position_of p sd s = Some pos /\ only_order g' (exit_order sd) (ps_shares pos) /\ g_exit g' = Some sd.
Proof.
  intros [N1 N2]. unfold all_shares, sell_all_shares, cover_all_shares, position_of. destruct sd; cbn [poss]; destruct (aget s _) as [pos|]; try discriminate;
    intros [= <-]; exists pos; cbn; auto.
Qed.
Lemma rotation_all c pops p ops close z worst x x3 lr sr : let k := krun ops in
  cfg_ok c -> run c pops = Some p -> NoDup (akeys x) -> (forall s g, aget s x = Some g -> no_order g) ->
  apply_worst_rank_held c p k close z worst x = Some (x3, lr, sr) ->
  exists size sel, rotation_target_size z = Some size /\ akeys x3 = akeys x /\
    (forall sd, selected p k x worst (limit_of z sd) sd (sel sd)) /\
    (forall s, ~ (enters x Long (sel Long) (sel Short) s /\ enters x Short (sel Short) (sel Long) s)) /\
    forall s g', aget s x3 = Some g' -> decided c p k (close s) x z worst size sel s g'.
Proof.
  intros k CO R ND NO. unfold apply_worst_rank_held. destruct (rotation_target_size z) as [size|]; [|discriminate].
  destruct (rotation_leg p k worst (z_max_long z) Long x) as [[[x1 lr1] lc]|] eqn:L1; [|discriminate].
  destruct (rotation_leg p k worst (z_max_short z) Short x1) as [[[x2 sr1] sc]|] eqn:L2; [|discriminate].
  destruct (resolve_overlap lc sc lr1 sr1) as [lc' sc'] eqn:OV.
  destruct (target_all c p close size Long lc' (Some x2)) as [x2'|] eqn:T1; [|rewrite target_none; discriminate].
  destruct (target_all c p close size Short sc' (Some x2')) as [x3'|] eqn:T2; [|discriminate]. intros [= <- <- <-].
  assert (NP : forall sd, NoDup (akeys (poss sd p))) by (intros []; apply (one_side c pops p 0%nat CO R)).
  apply leg_ok in L1; auto. destruct L1 as [R1 [SM1 [SE1 [LV1 KP1]]]]. fold k in SE1, LV1, KP1.
  assert (ND1 : NoDup (akeys x1)) by (destruct SM1 as [<- _]; auto).
  apply leg_ok in L2; auto. destruct L2 as [R2 [SM2 [SE2 [LV2 KP2]]]]. fold k in SE2, LV2, KP2.
  pose proof (same_sym _ _ SM1) as SM1'.
  assert (SEL2 : selected p k x worst (z_max_short z) Short sc) by (eapply same_selected; eauto).
  assert (ME1 : forall s, In s lc -> may_enter p k x Long worst s).
  { destruct (z_max_long z); cbn in SE1; [apply SE1|subst lc; intros s []]. }
  assert (ME2 : forall s, In s sc -> may_enter p k x Short worst s).
  { destruct (z_max_short z); cbn in SEL2; [apply SEL2|subst sc; intros s []]. }
  assert (RK1 : forall s, In s lc -> exists r, has_rank x Long s r /\ rank_of lr1 s = r).
  { intros s I. destruct (ME1 s I) as [_ [_ [_ [r [Q _]]]]]. exists r. split; auto. destruct (z_max_long z); [|cbn in SE1; subst lc; destruct I].
    rewrite R1 by discriminate. unfold rank_of. apply rotation_rank in Q; auto. now rewrite Q. }
  assert (RK2 : forall s, In s sc -> exists r, has_rank x Short s r /\ rank_of sr1 s = r).
  { intros s I. destruct (ME2 s I) as [_ [_ [_ [r [Q _]]]]]. exists r. split; auto. destruct (z_max_short z); [|cbn in SEL2; subst sc; destruct I].
    rewrite R2 by discriminate. unfold rank_of. apply (same_rank SM1) in Q. apply rotation_rank in Q; auto. now rewrite Q. }
  destruct (overlap_spec x lc sc lr1 sr1 lc' sc' ND OV RK1 RK2) as [O1 [O2 O3]].
  assert (NL : NoDup lc) by (destruct (z_max_long z); cbn in SE1; [apply SE1|subst lc; constructor]).
  assert (NS : NoDup sc) by (destruct (z_max_short z); cbn in SEL2; [apply SEL2|subst sc; constructor]).
  assert (NL' : NoDup lc' /\ NoDup sc') by (unfold resolve_overlap in OV; injection OV as <- <-; split; now apply filter_nodup).
  destruct NL' as [NL' NS']. apply target_spec in T1; auto. apply target_spec in T2; auto.
  destruct T1 as [KT1 [TI1 TO1]], T2 as [KT2 [TI2 TO2]]. 
  exists size, (fun sd => match sd with Long => lc | Short => sc end). split; auto. split; [destruct SM1, SM2; congruence|].
  split; [intros []; auto|]. split; [intros s [E1 E2]; apply (O3 s); [now apply O1|now apply O2]|].
  assert (LVS : forall s, leaves p k x1 worst (z_max_short z) Short s <-> leaves p k x worst (z_max_short z) Short s) by (intro s; symmetry; now apply same_leaves).
  assert (HL : forall sd m s, leaves p k x worst m sd s -> holds p s) by (intros [] m s [_ [[H _] _]]; [left|right]; auto).
  assert (NH1 : forall s, In s lc' -> ~ holds p s) by (intros s I; apply O1 in I; destruct I as [I _]; apply (ME1 s I)).
  assert (NH2 : forall s, In s sc' -> ~ holds p s) by (intros s I; apply O2 in I; destruct I as [I _]; apply (ME2 s I)).
  assert (XOR : forall m m' s, leaves p k x worst m Long s -> leaves p k x worst m' Short s -> False).
  { intros m m' s [_ [[H1 _] _]] [_ [[H2 _] _]]. destruct (one_side c pops p s CO R) as [[D|D] _]; congruence. }
  intros s g' G. constructor.
  - intros [] LV; cbn [limit_of] in LV.
    + destruct (LV1 s LV) as [g [h [G1 [G2 G3]]]]. apply HL in LV as HH. rewrite TO2, TO1 in G by (intro I; (now apply NH2 in I) || (now apply NH1 in I)).
      rewrite KP2 in G by (rewrite LVS; intro; eapply XOR; eauto). rewrite G3 in G. injection G as <-. eapply all_shares_order; eauto.
    + pose proof LV as LV'. apply LVS in LV'. destruct (LV2 s LV') as [g [h [G1 [G2 G3]]]]. apply HL in LV as HH. rewrite TO2, TO1 in G by (intro I; (now apply NH2 in I) || (now apply NH1 in I)).
      rewrite KP1 in G1 by (intro; eapply XOR; eauto). rewrite G3 in G. injection G as <-. eapply all_shares_order; eauto.
  - assert (NHH : forall m sd, ~ holds p s -> ~ leaves p k x worst m sd s) by (intros m sd N LV; apply N; eapply HL; eauto).
    intros [] EN; cbn [opposite] in EN.
    + apply O1 in EN. pose proof (NH1 s EN) as N. destruct (TI1 s EN) as [g [h [G1 [G2 G3]]]]. rewrite TO2 in G by (now apply O3). rewrite G3 in G. injection G as <-.
      rewrite KP2, KP1 in G1; [|now apply NHH|rewrite LVS; now apply NHH]. eapply target_entry; eauto.
    + apply O2 in EN. pose proof (NH2 s EN) as N. destruct (TI2 s EN) as [g [h [G1 [G2 G3]]]]. rewrite G3 in G. injection G as <-.
      rewrite TO1 in G1 by (intro I; now apply (O3 s I)). rewrite KP2, KP1 in G1; [|now apply NHH|rewrite LVS; now apply NHH]. eapply target_entry; eauto.
  - intros NL0 NE. rewrite TO2 in G by (rewrite O2; apply (NE Short)). rewrite TO1 in G by (rewrite O1; apply (NE Long)).
    rewrite KP2 in G by (rewrite LVS; apply (NL0 Short)). rewrite KP1 in G by (apply (NL0 Long)). eapply NO; eauto.
Qed.

(** ** Inside a bar *)
Lemma aget_map {A B} (f : A -> B) (x : list (nat * A)) s : aget s (map (fun kv => (fst kv, f (snd kv))) x) = option_map f (aget s x).
Proof. induction x as [|[t a] x IH]; cbn [map aget fst snd]; [reflexivity|]. destruct (Nat.eqb s t); auto. Qed.
Lemma akeys_map {A B} (f : A -> B) (x : list (nat * A)) : akeys (map (fun kv => (fst kv, f (snd kv))) x) = akeys x.
Proof. unfold akeys. rewrite map_map. reflexivity. Qed.
Lemma rotate_spec v i b x x' worst : cfg_ok (v_cfg v) -> run (v_cfg v) (b_ops b) = Some (b_port b) -> b_pend b = krun (b_kops b) -> NoDup (akeys x) ->
  z_worst (v_settings v) = Some worst -> v_sizer v = None -> rotate v i b x = Some x' ->
  exists size sel, rotation_target_size (v_settings v) = Some size /\ akeys x' = akeys x /\
    (forall sd, selected (b_port b) (b_pend b) x worst (limit_of (v_settings v) sd) sd (sel sd)) /\
    (forall s, ~ (enters x Long (sel Long) (sel Short) s /\ enters x Short (sel Short) (sel Long) s)) /\
    forall s g', aget s x' = Some g' -> decided (v_cfg v) (b_port b) (b_pend b) (v_close v i s) x (v_settings v) worst size sel s g'.
Proof.
  intros CO R PD ND W SZ. unfold rotate. rewrite W, SZ. destruct (apply_worst_rank_held _ _ _ _ _ _ _) as [[[x3 lr] sr]|] eqn:A; [|discriminate].
  intros [= <-]. rewrite PD in A. assert (SM : same_scores (reset_rotation_orders x) x).
  { apply same_sym. apply same_of; [apply akeys_map|]. intro s. unfold reset_rotation_orders. rewrite aget_map. destruct (aget s x) as [g|]; [|now left].
    right. exists g, (reset_rotation g). split; [reflexivity|]. split; [reflexivity|]. intros []; reflexivity. }
  pose proof (same_sym _ _ SM) as SM'.
  apply rotation_all with (pops := b_ops b) in A; auto.
  2: { unfold reset_rotation_orders. now rewrite akeys_map. }
  2: { intros s g. unfold reset_rotation_orders. rewrite aget_map. destruct (aget s x); [|discriminate]. intros [= <-]. split; reflexivity. }
  destruct A as [size [sel [S1 [S2 [S3 [S4 S5]]]]]]. rewrite <- PD in *. exists size, sel. split; auto.
  split; [unfold clear_unused_rotation_signals; rewrite akeys_map, S2; apply akeys_map|].
  split; [intro sd; eapply same_selected; eauto|]. split; [intros s [E1 E2]; apply (S4 s); split; now apply (same_enters SM)|].
  intros s g' G. unfold clear_unused_rotation_signals in G. rewrite aget_map in G. destruct (aget s x3) as [g|] eqn:G3; [|discriminate]. cbn in G. injection G as <-.
  assert (O : g_bshares (clear_unused g) = g_bshares g /\ g_sshares (clear_unused g) = g_sshares g /\ g_exit (clear_unused g) = g_exit g).
  { unfold clear_unused. destruct (given (g_bshares g) || given (g_sshares g)); cbn; auto. }
  destruct O as [O1 [O2 O3]]. assert (OO : forall o q, only_order g o q -> only_order (clear_unused g) o q) by (intros []; unfold only_order; rewrite O1, O2; auto).
  assert (ON : no_order g -> no_order (clear_unused g)) by (unfold no_order; rewrite O1, O2; auto).
  destruct (S5 s g G3) as [D1 D2 D3]. constructor.
  - intros sd L. apply (same_leaves SM') in L. destruct (D1 sd L) as [pos [P1 [P2 P3]]]. exists pos. rewrite O3. auto.
  - intros sd E. apply (same_enters SM') in E. specialize (D2 sd E). destruct (v_close v i s) as [y|]; auto. destruct (Qlt_le_dec 0 y); auto.
    destruct D2 as [t [T1 T2]]. eauto.
  - intros N1 N2. apply ON. apply D3; intro sd; [rewrite (same_leaves SM)|rewrite (same_enters SM)]; auto.
Qed.
