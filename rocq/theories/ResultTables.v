(** Proofs about the result tables. *)
From Verif Require Import PriceProofs.
From Verif Require Import Prelude Lemmas PortfolioFacts PortfolioRun RecordTotals ResultSpec.
From Coq Require Import Lqa Qabs Lia.
Open Scope list_scope.
Open Scope Q_scope.

(** ** Columns *)
Section Column.
  Context {L : Type} (leb : forall a b : L, {a = b} + {a <> b}).
  Definition fmt (round : bool) (x : Q) : Q := if round then to_cents x else x.

  Lemma label_eqb_eq a b : label_eqb leb a b = true <-> a = b.
  Proof.
    revert b. induction a as [|x a IH]; intros [|y b]; cbn; try easy.
    destruct (leb x y) as [->|N]; [rewrite IH; split; [intros ->|intros [= ->]]; easy|]. split; [easy|intros [= -> _]; easy].
  Qed.
  Lemma unique_nodup l : unique leb l = true <-> NoDup l.
  Proof.
    induction l as [|x l IH]; cbn; [split; [constructor|easy]|]. rewrite NoDup_cons_iff.
    destruct (in_dec leb x l); [split; [easy|tauto]|]. rewrite IH. tauto.
  Qed.
  Lemma quantize_map rnd (col : list (L * option Q)) : quantize rnd col = map (fun lv => (fst lv, fmt rnd (snd lv))) (dropna col).
  Proof.
    unfold quantize, fmt. destruct rnd; cbn [negb]; [easy|]. induction (dropna col) as [|[a b] l IH]; cbn; [easy|]. now rewrite <- IH.
  Qed.
  Lemma quantize_labels rnd (col : list (L * option Q)) : map fst (quantize rnd col) = map fst (dropna col).
  Proof. rewrite quantize_map, map_map. apply map_ext. easy. Qed.
  Lemma dropna_in (col : list (L * option Q)) l : In l (map fst (dropna col)) -> In l (map fst col).
  Proof.
    induction col as [|[k [v|]] r IH]; cbn; tauto.
  Qed.
  Lemma dropna_nodup (col : list (L * option Q)) : NoDup (map fst col) -> NoDup (map fst (dropna col)).
  Proof.
    induction col as [|[k [v|]] r IH]; cbn; [constructor| |]; rewrite ?NoDup_cons_iff; intros [N H]; [|now apply IH].
    split; [|now apply IH]. intros I. now apply N, dropna_in.
  Qed.
  Lemma find_skip l k v r : k <> l -> find_label leb l ((k, v) :: r) = find_label leb l r.
  Proof. cbn. destruct (leb k l); easy. Qed.
  Lemma find_none l r : ~ In l (map fst r) -> find_label leb l r = None.
  Proof.
    induction r as [|[k v] r IH]; cbn; [easy|]. intros N. destruct (leb k l) as [->|]; [exfalso; apply N; now left|]. apply IH. tauto.
  Qed.
  Lemma find_all rnd (col : list (L * option Q)) : NoDup (map fst col) ->
    map (fun l => find_label leb l (quantize rnd col)) (map fst col) = map (fun lv => option_map (fmt rnd) (snd lv)) col.
  Proof.
    rewrite quantize_map. induction col as [|[k o] r IH]; cbn [map fst snd]; [easy|]. rewrite NoDup_cons_iff. intros [N H].
    assert (X : ~ In k (map fst (map (fun lv => (fst lv, fmt rnd (snd lv))) (dropna r)))).
    { rewrite map_map. cbn. intros I. now apply N, dropna_in. }
    destruct o as [v|]; cbn [dropna flat_map fst snd app map option_map].
    - f_equal; [cbn; destruct (leb k k); easy|]. rewrite <- IH by exact H. apply map_ext_in. intros l I. apply find_skip. intros ->. easy.
    - f_equal; [now apply find_none|]. now apply IH.
  Qed.
  Lemma dropna_short (col : list (L * option Q)) : (length (dropna col) <= length col)%nat.
  Proof. induction col as [|[k [v|]] r IH]; cbn; [lia|cbn in IH; unfold dropna in IH; lia|unfold dropna in IH; lia]. Qed.
  Lemma dropna_full (col : list (L * option Q)) : length (dropna col) = length col -> Forall (fun lv => snd lv <> None) col.
  Proof.
    induction col as [|[k [v|]] r IH]; cbn; intros E; [constructor| |].
    - apply Forall_cons; [easy|]. apply IH. now injection E.
    - pose proof (dropna_short r) as B. unfold dropna in B. lia.
  Qed.
  Lemma full_map rnd (col : list (L * option Q)) : Forall (fun lv => snd lv <> None) col ->
    map fst (dropna col) = map fst col /\ map (fun lv => Some (snd lv)) (quantize rnd col) = map (fun lv => option_map (fmt rnd) (snd lv)) col.
  Proof.
    rewrite quantize_map, map_map. induction col as [|[k o] r IH]; [easy|]. rewrite Forall_cons_iff. intros [N H]. specialize (IH H) as [I1 I2].
    destruct o as [v|]; [|easy]. change (dropna ((k, Some v) :: r)) with ((k, v) :: dropna r). cbn [map fst snd option_map]. rewrite I1. split; [easy|]. f_equal. exact I2.
  Qed.
  Lemma assign_ok rnd (col : list (L * option Q)) : NoDup (map fst col) \/ Forall (fun lv => snd lv <> None) col ->
    assign leb (map fst col) (quantize rnd col) = Some (map (fun lv => option_map (fmt rnd) (snd lv)) col).
  Proof.
    intros H. unfold assign. destruct (label_eqb leb (map fst col) (map fst (quantize rnd col))) eqn:E.
    - apply label_eqb_eq in E. f_equal. apply full_map. apply dropna_full. rewrite quantize_labels in E.
      rewrite <- (map_length fst), <- (map_length fst col). now rewrite <- E.
    - destruct H as [N|F].
      + assert (U : unique leb (map fst (quantize rnd col)) = true) by (apply unique_nodup; rewrite quantize_labels; now apply dropna_nodup).
        rewrite U. f_equal. now apply find_all.
      + exfalso. assert (X : label_eqb leb (map fst col) (map fst (quantize rnd col)) = true).
        { apply label_eqb_eq. rewrite quantize_labels. symmetry. now apply (full_map rnd). }
        congruence.
  Qed.

  Context {R : Type} (key : R -> L) (rnd : bool).
  Definition edit (r : R) (col : column R) : R := put col (option_map (fmt rnd) (get col r)) r.
  Lemma zip_map (f : option Q -> R -> R) (g : R -> option Q) rows : zip_put f (map g rows) rows = map (fun r => f (g r) r) rows.
  Proof. unfold zip_put. induction rows as [|r rows IH]; cbn; [easy|]. now rewrite IH. Qed.
  Lemma set_column_ok rows col : NoDup (map key rows) \/ Forall (fun r => get col r <> None) rows ->
    set_column leb rnd key (Some rows) col = Some (map (fun r => edit r col) rows).
  Proof.
    intros H. unfold set_column.
    replace (map key rows) with (map fst (map (fun r => (key r, get col r)) rows)) by (rewrite map_map; now apply map_ext).
    rewrite assign_ok.
    - f_equal. rewrite map_map. cbn [snd]. now rewrite zip_map.
    - destruct H as [H|H]; [left|right].
      + rewrite map_map. exact H.
      + apply Forall_forall. intros lv I. apply in_map_iff in I. destruct I as [r [<- I]]. rewrite Forall_forall in H. now apply H.
  Qed.
  (** All columns, while the rows keep a property under which the keys do. *)
  Lemma set_columns_ok (Inv : R -> Prop) cols rows :
    (forall r col, In col cols -> Inv r -> key (edit r col) = key r /\ Inv (edit r col)) ->
    Forall Inv rows -> NoDup (map key rows) \/ (forall r col, In col cols -> Inv r -> get col r <> None) ->
    set_columns leb rnd key cols rows = Some (map (fun r => fold_left edit cols r) rows).
  Proof.
    unfold set_columns. revert rows. induction cols as [|col cols IH]; intros rows K I H; cbn [fold_left].
    - now rewrite map_id.
    - rewrite set_column_ok.
      + rewrite IH.
        * now rewrite map_map.
        * intros r k J. apply K. now right.
        * apply Forall_forall. intros x J. apply in_map_iff in J. destruct J as [r [<- J]]. apply K; [now left|]. rewrite Forall_forall in I. now apply I.
        * destruct H as [H|H]; [left|right].
          -- rewrite map_map. erewrite map_ext_in; [exact H|]. intros r J. cbn. apply K; [now left|]. rewrite Forall_forall in I. now apply I.
          -- intros r k J. apply H. now right.
      + destruct H as [H|H]; [now left|right]. apply Forall_forall. intros r J. apply H; [now left|]. rewrite Forall_forall in I. now apply I.
  Qed.
End Column.

(** ** Cells *)
Lemma to_cents_eq x : to_cents x == inject_Z (cents x) / 100.
Proof. unfold to_cents, cents. destruct (Qle_bool 0 x); reflexivity. Qed.
Lemma to_cents_nearest x : nearest_cent x (to_cents x).
Proof.
  constructor.
  - exists (cents x). apply to_cents_eq.
  - pose proof (round_near x) as H. rewrite to_cents_eq. apply Qabs_case; intros; lra.
  - intros T. unfold to_cents in *. destruct (Qle_bool 0 x) eqn:E.
    + apply Qle_bool_iff in E. pose proof (qfloor_bounds (x * 100 + (1#2))) as [B1 B2]. rewrite div100 in *.
      revert T. apply Qabs_case; intros; rewrite (Qabs_pos x) by exact E.
      * apply Qle_trans with (inject_Z (Qfloor (x * 100 + (1 # 2))) * (1 # 100)); [lra|apply Qle_Qabs].
      * exfalso. lra.
    + assert (N : x < 0) by (apply Qnot_le_lt; intros H; apply Qle_bool_iff in H; congruence).
      pose proof (qfloor_bounds (- x * 100 + (1#2))) as [B1 B2]. rewrite inject_Z_opp, div100 in *.
      revert T. apply Qabs_case; intros; rewrite (Qabs_neg x) by lra.
      * exfalso. lra.
      * rewrite <- Qabs_opp. eapply Qle_trans; [|apply Qle_Qabs]. lra.
Qed.
Lemma fmt_shows rnd x : shows' rnd x (option_map (fmt rnd) (Some x)).
Proof. unfold shows', shows, fmt. destruct rnd; cbn; [apply to_cents_nearest|reflexivity]. Qed.
Lemma fmt_shows_opt rnd x : shows rnd x (option_map (fmt rnd) x).
Proof. destruct x; [apply fmt_shows|exact I]. Qed.
Lemma cast_shows fr x : shows_shares fr x (cast_shares fr x).
Proof.
  unfold shows_shares, cast_shares. destruct fr; [reflexivity|]. split; [now eexists|]. unfold py_trunc. destruct (Qle_bool 0 x) eqn:E.
  - apply Qle_bool_iff in E. pose proof (qfloor_bounds x) as [B1 B2].
    assert (Z0 : 0 <= inject_Z (Qfloor x)). { change 0 with (inject_Z 0). rewrite <- Zle_Qle. change 0%Z with (Qfloor 0). now apply Qfloor_resp_le. }
    rewrite !Qabs_pos by assumption. split; [exact B1|]. split; [exact B2|]. nra.
  - assert (N : x < 0) by (apply Qnot_le_lt; intros H; apply Qle_bool_iff in H; congruence).
    unfold Qceiling. pose proof (qfloor_bounds (- x)) as [B1 B2].
    assert (Z0 : 0 <= inject_Z (Qfloor (- x))). { change 0 with (inject_Z 0). rewrite <- Zle_Qle. change 0%Z with (Qfloor 0). apply Qfloor_resp_le. lra. }
    rewrite inject_Z_opp. rewrite Qabs_opp, (Qabs_pos (inject_Z _)) by assumption. rewrite Qabs_neg by lra. split; [exact B1|]. split; [lra|]. nra.
Qed.
Lemma whole_close m n : Qabs (inject_Z m) <= Qabs (inject_Z n) -> Qabs (inject_Z n) < Qabs (inject_Z m) + 1 -> 0 <= inject_Z m * inject_Z n -> m = n.
Proof.
  change (Qabs (inject_Z m)) with (inject_Z (Z.abs m)). change (Qabs (inject_Z n)) with (inject_Z (Z.abs n)). change 1 with (inject_Z 1). change 0 with (inject_Z 0).
  rewrite <- inject_Z_plus, <- inject_Z_mult, <- !Zle_Qle, <- Zlt_Qlt. intros A B C.
  assert (Z.abs m = Z.abs n) by lia. nia.
Qed.
Lemma cast_whole fr x y : shows_shares fr x y -> whole x -> y == x.
Proof.
  unfold shows_shares. destruct fr; [easy|]. intros [[n N] [A [B C]]] [m M]. rewrite N, M in *. now rewrite (whole_close n m).
Qed.

(** ** Tables *)
Lemma forall2_map {A B} (P : A -> B -> Prop) (f : A -> B) l : (forall x, In x l -> P x (f x)) -> Forall2 P l (map f l).
Proof. induction l as [|x l IH]; cbn; intros H; constructor; [apply H; now left|apply IH; intros; apply H; now right]. Qed.
Ltac columns := intros r col I _; cbn in I; repeat (destruct I as [<-|I]; [split; [reflexivity|exact Logic.I]|]); destruct I.

Lemma orders_shown rnd fr l : NoDup (map o_id l) -> exists t, orders_table rnd fr l = Some t /\ Forall2 (order_shown rnd fr) l t.
Proof.
  intros N. unfold orders_table. rewrite (set_columns_ok _ _ _ (fun _ => True)).
  - rewrite !map_map. eexists. split; [reflexivity|]. apply forall2_map. intros o _.
    constructor; cbn; try reflexivity; try apply cast_shows; try apply fmt_shows; apply fmt_shows_opt.
  - columns.
  - apply Forall_forall. easy.
  - left. rewrite map_map. exact N.
Qed.
Lemma trades_shown rnd fr l : NoDup (map t_id l) -> exists t, trades_table rnd fr l = Some t /\ Forall2 (trade_shown rnd fr) l t.
Proof.
  intros N. unfold trades_table. rewrite (set_columns_ok _ _ _ (fun _ => True)).
  - rewrite !map_map. eexists. split; [reflexivity|]. apply forall2_map. intros o _.
    constructor; cbn; try reflexivity; try apply cast_shows; try apply fmt_shows.
  - columns.
  - apply Forall_forall. easy.
  - left. rewrite map_map. exact N.
Qed.
Definition full_bar (r : bar_row) : Prop := Forall (fun col => get col r <> None) bar_columns.
Lemma bars_shown rnd l : exists t, portfolio_table rnd l = Some t /\ Forall2 (bar_shown rnd) l t.
Proof.
  unfold portfolio_table. rewrite (set_columns_ok _ _ _ full_bar).
  - rewrite !map_map. eexists. split; [reflexivity|]. apply forall2_map. intros o _.
    constructor; cbn; try reflexivity; apply fmt_shows.
  - intros r col I F. unfold full_bar in *. rewrite Forall_forall in F. pose proof (F _ I) as X.
    assert (C : forall col', In col' bar_columns -> get col' r <> None) by exact F. clear F.
    split; [cbn in I; repeat (destruct I as [<-|I]; [reflexivity|]); destruct I|].
    apply Forall_forall. intros col' I'. specialize (C _ I'). revert X C. cbn in I, I'.
    repeat (destruct I as [<-|I]; [repeat (destruct I' as [<-|I']; [cbn; intros X C; try (destruct (br_date r)); try assumption; match type of X with ?a <> None => destruct a; cbn; easy end|]); destruct I'|]); destruct I.
  - apply Forall_forall. intros r I. apply in_map_iff in I. destruct I as [b [<- _]]. apply Forall_forall. intros col I. cbn in I. repeat (destruct I as [<-|I]; [easy|]). destruct I.
  - right. intros r col I F. unfold full_bar in F. rewrite Forall_forall in F. now apply F.
Qed.
Lemma numbered_keys {A} (l : list A) : map fst (numbered l) = map Z.of_nat (seq 0 (length l)).
Proof.
  unfold numbered. generalize (seq 0 (length l)), (seq_length (length l) 0). induction l as [|x l IH]; intros s E; destruct s as [|n s]; try easy. cbn. now rewrite IH by now injection E.
Qed.
Lemma numbered_forall2 {A B C} (P : A -> C -> Prop) (h : A -> B) (g : Z * B -> C) l : (forall x z, P x (g (z, h x))) -> Forall2 P l (map g (numbered (map h l))).
Proof.
  intros H. unfold numbered. rewrite map_length. generalize (seq 0 (length l)), (seq_length (length l) 0).
  induction l as [|x l IH]; intros s E; destruct s as [|n s]; try easy; cbn; constructor; [apply H|]. apply IH. now injection E.
Qed.
Lemma nodup_of_nat l : NoDup l -> NoDup (map Z.of_nat l).
Proof.
  induction l as [|x l IH]; cbn; [constructor|]. rewrite !NoDup_cons_iff. intros [N H]. split; [|now apply IH].
  intros I. apply in_map_iff in I. destruct I as [y [E I]]. apply Nat2Z.inj in E. now subst.
Qed.
Lemma positions_shown rnd fr l : exists t, positions_table rnd fr l = Some t /\ Forall2 (position_shown rnd fr) l t.
Proof.
  unfold positions_table. rewrite (set_columns_ok _ _ _ (fun _ => True)).
  - rewrite map_map. eexists. split; [reflexivity|].
    apply numbered_forall2. intros w z.
    constructor; cbn; try reflexivity; try apply cast_shows; apply fmt_shows.
  - columns.
  - apply Forall_forall. easy.
  - left. rewrite numbered_keys. apply nodup_of_nat, seq_NoDup.
Qed.
