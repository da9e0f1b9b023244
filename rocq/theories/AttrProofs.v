From Coq Require Import List QArith.
From Verif Require Import AttrSpec.
Import ListNotations.

Lemma latest_snoc {V} (says : attr -> option (option V)) l a x y :
  latest says l x -> y = match says a with Some z => z | None => x end -> latest says (l ++ [a]) y.
Proof.
  intros H E. destruct (says a) as [z|] eqn:S.
  - left. exists l, a, []. subst y. repeat split; auto. intros b [].
  - subst y. destruct H as [(l1 & b & l2 & -> & H1 & H2)|[H1 ->]].
    + left. exists l1, b, (l2 ++ [a]). split; [now rewrite <- app_assoc|]. split; [exact H1|].
      intros c I. apply in_app_iff in I. destruct I as [I|[<-|[]]]; auto.
    + right. split; [|reflexivity]. intros c I. apply in_app_iff in I. destruct I as [I|[<-|[]]]; auto.
Qed.
Lemma latest_nil {V} (says : attr -> option (option V)) : latest says [] None.
Proof. right. split; [intros b [] | reflexivity]. Qed.

Record good (p : port) (s : sym) (l : list attr) (g : sig) : Prop := mkGood {
  gd_cover : g_cover g = true <-> exists a, In a l /\ covering a;
  gd_buy : latest (buys p s) l (g_bshares g); gd_sell : latest (sells p s) l (g_sshares g);
  gd_bfill : latest buys_at l (g_bfill g); gd_sfill : latest sells_at l (g_sfill g);
  gd_blimit : latest buy_limited l (g_blimit g); gd_slimit : latest sell_limited l (g_slimit g);
  gd_btime : latest buy_timed l (g_btimeout g); gd_stime : latest sell_timed l (g_stimeout g);
  gd_hold : latest held_for l (g_hold g); gd_exit : latest exits l (g_exit g) }.

Lemma set_attr_good p s l g a g' : good p s l g -> set_attr p s a g = Some g' -> good p s (l ++ [a]) g'.
Proof.
  intros [C H1 H2 H3 H4 H5 H6 H7 H8 H9 H10] E.
  assert (CV : forall c, (c = true <-> g_cover g = true \/ covering a) -> (c = true <-> exists x, In x (l ++ [a]) /\ covering x)).
  { intros c ->. rewrite C. split.
    - intros [(x & I & K)|K]; [exists x; split; [apply in_app_iff; now left | exact K] | exists a; split; [apply in_app_iff; right; now left | exact K]].
    - intros (x & I & K). apply in_app_iff in I. destruct I as [I|[<-|[]]]; [left; eauto | now right]. }
  destruct a; cbn [set_attr] in E;
    try (injection E as <-; constructor; [apply CV; cbn; tauto | eapply latest_snoc; [eassumption | reflexivity] ..]).
  - unfold sell_all_shares in E. destruct (aget s (p_longs p)) as [pos|] eqn:A; [|discriminate]. injection E as <-.
    constructor; [apply CV; cbn; tauto | ..]; (eapply latest_snoc; [eassumption|]); cbn [buys sells buys_at sells_at buy_limited sell_limited buy_timed sell_timed held_for exits]; try reflexivity.
    unfold position_of. cbn [poss]. rewrite A. reflexivity.
  - unfold cover_all_shares in E. destruct (aget s (p_shorts p)) as [pos|] eqn:A; [|discriminate]. injection E as <-.
    constructor; [apply CV; cbn; tauto | ..]; (eapply latest_snoc; [eassumption|]); cbn [buys sells buys_at sells_at buy_limited sell_limited buy_timed sell_timed held_for exits]; try reflexivity.
    unfold position_of. cbn [poss]. rewrite A. reflexivity.
Qed.
Lemma set_attr_raises p s a g : set_attr p s a g = None <-> absent p s a.
Proof.
  unfold absent, position_of. cbn [poss]. destruct a; cbn [set_attr]; try (split; [discriminate | intros [[D _]|[D _]]; discriminate]).
  - unfold sell_all_shares. destruct (aget s (p_longs p)); split; try discriminate; auto. intros [[_ D]|[D _]]; discriminate.
  - unfold cover_all_shares. destruct (aget s (p_shorts p)); split; try discriminate; auto. intros [[D _]|[_ D]]; discriminate.
Qed.
Lemma set_attrs_snoc p s l a g : set_attrs p s (l ++ [a]) g = match set_attrs p s l g with Some g => set_attr p s a g | None => None end.
Proof. unfold set_attrs. now rewrite fold_left_app. Qed.
Lemma set_attrs_good p s l g : set_attrs p s l no_signals = Some g -> good p s l g.
Proof.
  revert g. induction l as [|a l IH] using rev_ind; intros g E.
  - injection E as <-. constructor; try apply latest_nil. cbn. split; [discriminate | intros (a & [] & _)].
  - rewrite set_attrs_snoc in E. destruct (set_attrs p s l no_signals) as [g0|]; [|discriminate]. eapply set_attr_good; eauto.
Qed.
Lemma set_attrs_raises p s l g : set_attrs p s l g = None <-> exists a, In a l /\ absent p s a.
Proof.
  induction l as [|a l IH] using rev_ind.
  - split; [discriminate | intros (a & [] & _)].
  - rewrite set_attrs_snoc. destruct (set_attrs p s l g) as [g0|].
    + rewrite set_attr_raises. split.
      * intros A. exists a. split; [apply in_app_iff; right; now left | exact A].
      * intros (b & I & A). apply in_app_iff in I. destruct I as [I|[<-|[]]]; [|exact A]. discriminate (proj2 IH (ex_intro _ b (conj I A))).
    + split; [intros _ | reflexivity]. destruct (proj1 IH eq_refl) as (b & I & A). exists b. split; [apply in_app_iff; now left | exact A].
Qed.
