(** Resolving executions, and the exits at a window's beginning. *)
From Verif Require Export SelectSpec MarketFacts.
From Verif Require Import PendingProofs PortfolioRaise LoopRun.

(** ** Resolving *)
Lemma nmem_in s l : nmem s l = true <-> In s l.
Proof. unfold nmem. rewrite existsb_exists. split; [intros [x [I E]]; apply Nat.eqb_eq in E; now subst|]. intro I. exists s. split; auto. apply Nat.eqb_refl. Qed.
Lemma repeats_ok l : repeats l = false <-> NoDup l.
Proof.
  induction l as [|a l IH]; cbn; [split; auto; constructor|]. rewrite orb_false_iff, IH. split.
  - intros [H1 H2]. constructor; auto. rewrite <- nmem_in, H1. discriminate.
  - intro H. inversion H; subst. split; auto. destruct (nmem a l) eqn:E; auto. apply nmem_in in E. tauto.
Qed.
Lemma loaded_in {R} (f : trows R) s : In s (loaded f) <-> has_rows f s.
Proof.
  unfold loaded, has_rows. rewrite in_flat_map. split.
  - intros [[s' l] [I J]]. cbn in J. destruct l as [|r l]; [destruct J|]. destruct J as [<-|[]]. exists (r :: l). split; auto. discriminate.
  - intros [l [I N]]. exists (s, l). split; auto. cbn. destruct l; [congruence|now left].
Qed.
Lemma resolve1_ok {R} (f : trows R) x l : resolve1 f x = Some l <-> resolves_to f x l.
Proof.
  destruct x as [s|g]; cbn; [split; congruence|]. destruct (g f) as [l'|]; [|split; [discriminate|intros [H _]; discriminate]].
  destruct l' as [|a l']; [split; [discriminate|intros [[= <-] [H _]]; congruence]|].
  destruct (repeats (a :: l')) eqn:RP; cbn [orb].
  - split; [discriminate|]. intros [[= <-] [_ [H _]]]. apply repeats_ok in H. congruence.
  - apply repeats_ok in RP. destruct (forallb (fun s => nmem s (loaded f)) (a :: l')) eqn:F; cbn [negb].
    + rewrite forallb_forall in F. split; [intros [= <-]; split; auto; split; [discriminate|split; auto; intros s I; apply loaded_in, nmem_in, F, I]|]. now intros [[= <-] _].
    + split; [discriminate|]. intros [[= <-] [_ [_ H]]]. assert (X : forallb (fun s => nmem s (loaded f)) (a :: l') = true); [|congruence].
      apply forallb_forall. intros s I. apply nmem_in, loaded_in, H, I.
Qed.
Lemma resolve_loop_ok {R} (f : trows R) l : forall seen ls,
  resolve_loop f l seen = Some ls <-> Forall2 (resolves_to f) l ls /\ disjoint_lists ls /\ forall s x, In x ls -> In s x -> ~ In s seen.
Proof.
  induction l as [|a l IH]; intros seen ls; cbn [resolve_loop].
  - split; [intros [= <-]; split; [constructor|]; split; [exact I|intros s x []]|]. intros [H _]. inversion H; auto.
  - destruct (resolve1 f a) as [syms|] eqn:E.
    + apply resolve1_ok in E. destruct (existsb (fun s => nmem s seen) syms) eqn:X.
      * split; [discriminate|]. intros [H1 [_ H3]]. inversion H1 as [|? y ? ? A1 A2]; subst. assert (y = syms); [|subst].
        { apply resolve1_ok in A1, E. congruence. }
        apply existsb_exists in X. destruct X as [s [I J]]. apply nmem_in in J. destruct (H3 s syms (or_introl eq_refl) I J).
      * assert (NX : forall s, In s syms -> ~ In s seen).
        { intros s I J. assert (existsb (fun s => nmem s seen) syms = true); [|congruence]. apply existsb_exists. exists s. split; auto. now apply nmem_in. }
        split.
        -- destruct (resolve_loop f l (seen ++ syms)) as [r|] eqn:G; [|discriminate]. intros [= <-]. apply IH in G. destruct G as [G1 [G2 G3]].
           split; [now constructor|]. split; [split; auto; intros s y I J K; apply (G3 s y J K), in_app_iff; now right|].
           intros s x [<-|I] J; [now apply NX|]. intro K. apply (G3 s x I J), in_app_iff. now left.
        -- intros [H1 [H2 H3]]. inversion H1 as [|? y ? r A1 A2]; subst. assert (y = syms) by (apply resolve1_ok in A1, E; congruence). subst. destruct H2 as [D1 D2].
           assert (G : resolve_loop f l (seen ++ syms) = Some r); [|now rewrite G].
           apply IH. split; auto. split; auto. intros s x I J K. apply in_app_iff in K. destruct K as [K|K]; [apply (H3 s x (or_intror I) J K)|apply (D1 s x K I J)].
    + split; [discriminate|]. intros [H1 _]. inversion H1 as [|? y ? ? A1 A2]; subst. apply resolve1_ok in A1. congruence.
Qed.
Lemma resolve_ok {R} (f : trows R) l ls : (exists g, In (Selector g) l) ->
  (resolve f l = Some ls <-> (exists s, has_rows f s) /\ Forall2 (resolves_to f) l ls /\ disjoint_lists ls).
Proof.
  intros [g I]. unfold resolve. assert (E : existsb is_selector l = true) by (apply existsb_exists; exists (Selector g); auto). rewrite E.
  destruct (loaded f) as [|s r] eqn:L.
  - split; [discriminate|]. intros [[s H] _]. apply loaded_in in H. rewrite L in H. destruct H.
  - rewrite resolve_loop_ok. split; [intros [H1 [H2 _]]; split; auto; exists s; apply loaded_in; rewrite L; now left|]. intros [_ [H1 H2]]. split; auto.
Qed.

(** ** Sorted sets *)
Lemma ninsert_in x y l : In x (ninsert y l) <-> x = y \/ In x l.
Proof.
  induction l as [|z l IH]; cbn [ninsert In]; [split; intros [H|H]; auto|]. destruct (Nat.ltb_spec y z); cbn [In]; [split; intros [H1|H1]; auto|].
  destruct (Nat.eqb_spec y z); cbn [In]; [subst; split; [tauto|]; intros [->|H1]; auto|]. rewrite IH. tauto.
Qed.
Lemma sorted_set_in x l : In x (sorted_set l) <-> In x l.
Proof. unfold sorted_set. induction l as [|a l IH]; cbn [fold_right In]; [tauto|]. rewrite ninsert_in, IH. split; intros [H|H]; auto. Qed.
Lemma ninsert_sorted x l : Sorted.StronglySorted lt l -> Sorted.StronglySorted lt (ninsert x l).
Proof.
  induction l as [|z l IH]; cbn [ninsert]; intro S; [repeat constructor|]. inversion S as [|? ? S1 S2]; subst. rewrite Forall_forall in S2. destruct (Nat.ltb_spec x z).
  - constructor; auto. apply Forall_forall. intros q [<-|I]; auto. specialize (S2 q I). lia.
  - destruct (Nat.eqb_spec x z); auto. constructor; [now apply IH|]. apply Forall_forall. intros q I. apply ninsert_in in I. destruct I as [->|I]; [lia|auto].
Qed.
Lemma sorted_set_nodup l : NoDup (sorted_set l).
Proof.
  assert (S : Sorted.StronglySorted lt (sorted_set l)) by (unfold sorted_set; induction l as [|a l IH]; cbn [fold_right]; [constructor|now apply ninsert_sorted]).
  induction S as [|a r S IH F]; constructor; auto. intro I. rewrite Forall_forall in F. specialize (F a I). lia.
Qed.

(** ** Bars *)
Section Bars.
Context {U R : Type}.
Variable y : strategy U R.
Variable m : market R.
Hypothesis WF : well_formed m.
Lemma row_on_cal s d : row_on m s d <-> In d (cal m s).
Proof. unfold row_on, cal. rewrite in_map_iff. split; [intros [r I]; exists (d, r); auto|]. intros [[d' r] [E I]]. cbn in E. subst. eauto. Qed.
Lemma inside_within w d : inside w d = true <-> within w d.
Proof. unfold inside, within. lia. Qed.
Lemma head_least (l : list Z) d : ascending l -> (match l with [] => None | x :: _ => Some x end = Some d <-> In d l /\ forall x, In x l -> (d <= x)%Z).
Proof.
  destruct l as [|a l]; [split; [discriminate|intros [[] _]]|]. intros [F _]. rewrite Forall_forall in F. split.
  - intros [= <-]. split; [now left|]. intros x [<-|I]; [lia|]. specialize (F x I). lia.
  - intros [[->|I] H]; auto. specialize (H a (or_introl eq_refl)). specialize (F d I). lia.
Qed.
Lemma head_greatest (l : list Z) d : ascending l -> (match rev l with [] => None | x :: _ => Some x end = Some d <-> In d l /\ forall x, In x l -> (x <= d)%Z).
Proof.
  intro A. destruct (rev l) as [|a r] eqn:E.
  - assert (l = []) by (rewrite <- (rev_involutive l), E; reflexivity). subst. split; [discriminate|intros [[] _]].
  - assert (L : l = rev r ++ [a]) by (rewrite <- (rev_involutive l), E; reflexivity). subst l.
    assert (X : forall x, In x (rev r ++ [a]) -> (x <= a)%Z).
    { clear E. revert A. generalize (rev r) as q. induction q as [|z q IH]; cbn; [intros _ x [<-|[]]; lia|]. intros [F A] x [<-|I]; [|auto].
      rewrite Forall_forall in F. specialize (F a). rewrite in_app_iff in F. specialize (F (or_intror (or_introl eq_refl))). lia. }
    split; [intros [= <-]; split; auto; apply in_app_iff; right; now left|]. intros [I H]. f_equal.
    assert (J : In a (rev r ++ [a])) by (apply in_app_iff; right; now left). specialize (X d I). specialize (H a J). lia.
Qed.
Lemma boundary_ok w d0 : boundary y m w = Some d0 <-> first_date m (y_all y) w d0.
Proof.
  unfold boundary. rewrite (head_least (all_dates y m w) d0 (proj1 (unique_sorted_ok _))). rewrite (all_dates_in y m). unfold first_date. rewrite inside_within. split.
  - intros [[A [s [B C]]] D]. split; auto. split; [exists s; split; auto; now apply row_on_cal|]. intros s' d I J K. apply D. apply all_dates_in. rewrite inside_within. split; auto. exists s'. split; auto. now apply row_on_cal.
  - intros [A [[s [B C]] D]]. split; [split; auto; exists s; split; auto; now apply row_on_cal|]. intros x I. apply all_dates_in in I. rewrite inside_within in I. destruct I as [I [s' [J K]]]. apply (D s'); auto. now apply row_on_cal.
Qed.
Lemma window_dates_in w s d : In d (window_dates m w s) <-> row_on m s d /\ within w d.
Proof. unfold window_dates. rewrite filter_In, inside_within, row_on_cal. tauto. Qed.
Lemma first_bar_ok w s d : first_bar m w s = Some d <-> row_on m s d /\ within w d /\ forall d', row_on m s d' -> within w d' -> (d <= d')%Z.
Proof.
  unfold first_bar. rewrite (head_least _ _ (window_dates_asc m WF w s)), window_dates_in. split.
  - intros [[A B] C]. split; auto. split; auto. intros d' I J. apply C. now apply window_dates_in.
  - intros [A [B C]]. split; auto. intros x I. apply window_dates_in in I. destruct I. auto.
Qed.
Lemma first_bar_none w s : first_bar m w s = None <-> forall d, row_on m s d -> ~ within w d.
Proof.
  unfold first_bar. destruct (window_dates m w s) as [|d l] eqn:E.
  - split; auto. intros _ d I J. assert (K : In d (window_dates m w s)) by now apply window_dates_in. rewrite E in K. destruct K.
  - split; [discriminate|]. intro H. assert (K : In d (window_dates m w s)) by (rewrite E; now left). apply window_dates_in in K. destruct (H d (proj1 K) (proj2 K)).
Qed.
Lemma last_bar_ok w s d d0 : boundary y m w = Some d0 ->
  (last_bar y m w s = Some d <-> row_on m s d /\ (d <= d0)%Z /\ forall d', row_on m s d' -> (d' <= d0)%Z -> (d' <= d)%Z).
Proof.
  intro B. unfold last_bar. rewrite B. rewrite head_greatest by (apply ascending_filter_z, WF). rewrite filter_In, <- row_on_cal, Z.leb_le. split.
  - intros [[A C] D]. split; auto. split; auto. intros d' I J. apply D. rewrite filter_In, <- row_on_cal, Z.leb_le. auto.
  - intros [A [C D]]. split; auto. intros x I. rewrite filter_In, <- row_on_cal, Z.leb_le in I. destruct I. auto.
Qed.
(** The bar of the exit, in one function. *)
Definition leave (w : window) (s : sym) : option Z := match first_bar m w s with Some d => Some d | None => last_bar y m w s end.
Lemma leave_ok w s d : (exists d0, first_date m (y_all y) w d0) -> (leave w s = Some d <-> leaves_on m (y_all y) w s d).
Proof.
  intros [d0 F]. pose proof F as F'. apply boundary_ok in F'. unfold leave, leaves_on. destruct (first_bar m w s) as [x|] eqn:E.
  - pose proof E as E'. apply first_bar_ok in E'. split.
    + intros [= <-]. destruct E' as [A [B C]]. split; auto.
    + intros [A [[B C]|[B _]]]; [rewrite <- E; now apply first_bar_ok|]. destruct E' as [I [J _]]. destruct (B x I J).
  - rewrite first_bar_none in E. rewrite (last_bar_ok w s d d0 F'). split.
    + intros [A [B C]]. split; auto. right. split; auto. exists d0. auto.
    + intros [A [[B _]|[_ [d1 [F1 [B C]]]]]]; [destruct (E d A B)|]. apply boundary_ok in F1. rewrite F1 in F'. injection F' as ->. auto.
Qed.
End Bars.
