(** Proofs about the frames of signals, for C86. *)
From Verif Require Import Tac TextProofs DeclareProofs DeclareRun SignalSpec.
From Coq Require Import Lia Permutation.
Open Scope list_scope.
Open Scope nat_scope.

(** ** Names *)
Lemma after_prefix_iff p s d : after_prefix p s = Some d <-> s = p ++ d.
Proof.
  revert s. induction p as [|c p IH]; intros s; cbn [after_prefix app]; [split; congruence|].
  destruct s as [|e s]; [easy|]. destruct (Ascii.eqb c e) eqn:E.
  - apply Ascii.eqb_eq in E as <-. rewrite IH. split; [now intros ->|now intros [= ->]].
  - split; [easy|]. intros [= -> _]. now rewrite Ascii.eqb_refl in E.
Qed.
Lemma is_digit_iff c : is_digit c = true <-> digit c.
Proof.
  unfold is_digit, digit. split.
  - intro H. destruct c as [[] [] [] [] [] [] [] []]; try discriminate H; match goal with |- exists n, _ /\ nat_of_ascii ?a = _ => exists (nat_of_ascii a - 48); split; vm_compute; [lia|reflexivity] end.
  - intros (n & L & E). rewrite <- (ascii_nat_embedding c), E. do 10 (destruct n as [|n]; [reflexivity|]). lia.
Qed.
Lemma all_digits_iff d : all_digits d = true <-> d <> [] /\ Forall digit d.
Proof.
  unfold all_digits. destruct d as [|c d]; [split; [easy|now intros []]|]. rewrite forallb_forall, Forall_forall.
  split; [intro H; split; [easy|]; intros x I; now apply is_digit_iff, H|intros [_ H] x I; now apply is_digit_iff, H].
Qed.
Lemma pred_collides_iff m c : pred_collides m c = true <-> reserved m c.
Proof.
  unfold pred_collides, reserved, pred_name. rewrite orb_true_iff, str_eqb_iff. apply or_iff_compat_l.
  destruct (after_prefix _ c) as [d|] eqn:E.
  - apply after_prefix_iff in E. rewrite all_digits_iff. split.
    + intros [A B]. exists d. split; [easy|]. split; [easy|]. rewrite E, <- !app_assoc. reflexivity.
    + intros (d' & A & B & C). rewrite E, <- !app_assoc in C. apply app_inv_head in C. cbn in C. injection C as ->. auto.
  - split; [easy|]. intros (d & _ & _ & C). assert (after_prefix ((m ++ lit "_pred") ++ lit "_") c = Some d) by (apply after_prefix_iff; rewrite C, <- !app_assoc; reflexivity). congruence.
Qed.
Lemma validate_iff cols inds models : validate_names cols inds models = true <-> apart cols inds models.
Proof.
  unfold validate_names, apart. rewrite andb_true_iff, !negb_true_iff. split.
  - intros [A B]. split.
    + intros i I J. rewrite <- not_true_iff_false in A. apply A, existsb_exists. exists i. split; [easy|]. now apply str_in_iff.
    + intros m c I R. rewrite <- not_true_iff_false in B. assert (N : ~ In c (cols ++ inds)).
      { intro J. apply B, existsb_exists. exists m. split; [easy|]. apply existsb_exists. exists c. split; [easy|]. now apply pred_collides_iff. }
      split; intro J; apply N, in_or_app; auto.
  - intros [A B]. split; apply not_true_iff_false; intro E; apply existsb_exists in E as (x & I & E).
    + apply str_in_iff in E. eapply A; eauto.
    + apply existsb_exists in E as (c & J & E). apply pred_collides_iff in E. destruct (B x c I E). apply in_app_or in J as []; auto.
Qed.

Lemma pred_name_i_iff m i c : prediction_column m (Some i) c <-> c = pred_name_i m i.
Proof.
  unfold pred_name_i, pred_name. rewrite <- app_assoc. split.
  - intro H. inversion H as [|? t D]. subst. apply decimal_iff in D as [_ ->]. reflexivity.
  - intros ->. change (lit "_pred" ++ lit "_" ++ py_str (Z.of_nat i)) with (lit "_pred_" ++ py_str (Z.of_nat i)). constructor. apply decimal_iff. split; [lia|easy].
Qed.
Lemma prediction_reserved m k c : prediction_column m k c -> reserved m c.
Proof.
  intro H. inversion H as [|i t D]; subst; [now left|]. right. exists t. apply decimal_iff in D as [P ->]. destruct (py_str_ok _ P) as (A & B & _).
  assert (T : all_digits (py_str (Z.of_nat i)) = true) by (unfold all_digits; now destruct (py_str (Z.of_nat i))). apply all_digits_iff in T as [T1 T2]. auto.
Qed.
Lemma digits_split (a b r s : str) x y : Forall digit a -> Forall digit b -> ~ digit x -> ~ digit y ->
  a ++ x :: r = b ++ y :: s -> a = b /\ r = s.
Proof.
  revert b. induction a as [|c a IH]; intros b A B X Y E; destruct b as [|e b]; cbn in E; injection E as E1 E2; subst.
  - auto.
  - now inversion B.
  - now inversion A.
  - inversion A; inversion B; subst. destruct (IH b) as [-> ->]; auto.
Qed.
Lemma Forall_rev' {A} (P : A -> Prop) l : Forall P l -> Forall P (rev l).
Proof. rewrite !Forall_forall. intros H x I. apply H. now apply in_rev. Qed.
Lemma not_digit x : is_digit x = false -> ~ digit x.
Proof. intros H D. apply is_digit_iff in D. congruence. Qed.
Lemma prediction_inj m k m' k' c : prediction_column m k c -> prediction_column m' k' c -> m = m' /\ k = k'.
Proof.
  assert (D : forall i t, decimal t (Z.of_nat i) -> t <> [] /\ Forall digit t).
  { intros i t T. apply decimal_iff in T as [P ->]. destruct (py_str_ok _ P) as (A & B & _). apply all_digits_iff. unfold all_digits. now destruct (py_str (Z.of_nat i)). }
  assert (L : forall (n t : str) (n' : str), t <> [] -> Forall digit t -> n ++ lit "_pred_" ++ t <> n' ++ lit "_pred").
  { intros n t n' N F E. apply (f_equal (@rev ascii)) in E. rewrite !rev_app_distr in E. assert (F' := Forall_rev' _ _ F).
    destruct (rev t) as [|x r] eqn:R; [apply N; rewrite <- (rev_involutive t), R; reflexivity|]. cbn in E. injection E as -> _. inversion F' as [|? ? Q]. revert Q. now apply not_digit. }
  assert (Inv : forall n j x, prediction_column n j x -> (j = None /\ x = n ++ lit "_pred") \/ exists i t, decimal t (Z.of_nat i) /\ j = Some i /\ x = n ++ lit "_pred_" ++ t).
  { intros n j x P. destruct P; eauto 6. }
  intros H H'. apply Inv in H as [[-> ->]|(i & t & T & -> & ->)]; apply Inv in H' as [[-> E]|(i' & t' & T' & -> & E)].
  - apply app_inv_tail in E. auto.
  - exfalso. destruct (D _ _ T'). symmetry in E. eapply (L m'); eauto.
  - exfalso. destruct (D _ _ T). eapply (L m); eauto.
  - destruct (D _ _ T) as [_ F]. destruct (D _ _ T') as [_ F'].
    apply (f_equal (@rev ascii)) in E. rewrite !rev_app_distr in E. cbn [lit rev app] in E. rewrite <- !app_assoc in E. cbn [app] in E.
    destruct (digits_split _ _ _ _ _ _ (Forall_rev' _ _ F) (Forall_rev' _ _ F') (not_digit "_"%char eq_refl) (not_digit "_"%char eq_refl) E) as [R Q].
    apply (f_equal (@rev ascii)) in R. rewrite !rev_involutive in R. subst t'.
    injection Q as Q. apply (f_equal (@rev ascii)) in Q. rewrite !rev_involutive in Q.
    split; [easy|]. f_equal. apply decimal_iff in T as [P1 E1]. apply decimal_iff in T' as [P2 E2].
    destruct (py_str_ok _ P1) as (_ & _ & I1 & _). destruct (py_str_ok _ P2) as (_ & _ & I2 & _). rewrite <- E1 in I1. rewrite <- E2 in I2. lia.
Qed.

(** ** Frames *)
Lemma fset_keys k v d x : In x (map fst (fset k v d)) <-> x = k \/ In x (map fst d).
Proof.
  induction d as [|[k' v'] d IH]; cbn [fset map fst In]; [firstorder|]. destruct (str_eqb k k') eqn:E.
  - apply str_eqb_iff in E as <-. cbn. firstorder.
  - cbn [map fst In]. rewrite IH. firstorder.
Qed.
Lemma fset_nodup k v d : NoDup (map fst d) -> NoDup (map fst (fset k v d)).
Proof.
  induction d as [|[k' v'] d IH]; cbn [fset map fst]; intro H; [constructor; [easy|constructor]|]. destruct (str_eqb k k') eqn:E; [exact H|].
  inversion H as [|? ? A B]; subst. cbn [map fst]. constructor; [|auto]. rewrite fset_keys. intros [->|I]; [|auto].
  assert (str_eqb k k = true) by now apply str_eqb_iff. congruence.
Qed.
Lemma fset_in k v d c w : NoDup (map fst d) -> (In (c, w) (fset k v d) <-> (c = k /\ w = v) \/ (c <> k /\ In (c, w) d)).
Proof.
  induction d as [|[k' v'] d IH]; cbn [fset map fst In]; intro H; [firstorder congruence|]. inversion H as [|? ? A B]; subst. destruct (str_eqb k k') eqn:E.
  - apply str_eqb_iff in E as <-. cbn [In]. split.
    + intros [[= <- <-]|I]; [now left|]. right. split; [|now right]. intros ->. apply A. now apply (in_map fst) in I.
    + intros [[-> ->]|[N [[= <- _]|I]]]; [now left|easy|now right].
  - assert (k <> k') by (intros ->; assert (str_eqb k' k' = true) by (now apply str_eqb_iff); congruence). cbn [In]. rewrite IH by easy. split.
    + intros [[= <- <-]|[[-> ->]|[N I]]]; [right; split; [congruence|now left]|now left|right; split; [easy|now right]].
    + intros [[-> ->]|[N [[= <- <-]|I]]]; [right; now left|now left|right; right; auto].
Qed.
Definition fsets (items : list (str * column)) (d : frame) : frame := fold_left (fun d kv => fset (fst kv) (snd kv) d) items d.
Lemma fsets_app a b d : fsets (a ++ b) d = fsets b (fsets a d).
Proof. apply fold_left_app. Qed.
Lemma fsets_nodup items : forall d, NoDup (map fst d) -> NoDup (map fst (fsets items d)).
Proof. induction items as [|[k v] r IH]; intros d H; [exact H|]. cbn. apply IH. now apply fset_nodup. Qed.
Lemma fsets_keys items : forall d x, In x (map fst (fsets items d)) <-> In x (map fst items) \/ In x (map fst d).
Proof. induction items as [|[k v] r IH]; intros d x; [cbn; tauto|]. cbn [fsets fold_left map fst snd In]. change (fold_left _ r ?y) with (fsets r y). rewrite IH, fset_keys. firstorder. Qed.
Lemma fsets_sub items : forall d c w, NoDup (map fst d) -> In (c, w) (fsets items d) -> In (c, w) items \/ In (c, w) d.
Proof.
  induction items as [|[k v] r IH]; intros d c w N H; [now right|]. cbn in H. apply IH in H as [H|H]; [left; now right| |now apply fset_nodup].
  apply fset_in in H as [[-> ->]|[_ H]]; [left; now left|now right|easy].
Qed.
Lemma fsets_in items c w : (forall k v v', In (k, v) items -> In (k, v') items -> v = v') -> (In (c, w) (fsets items []) <-> In (c, w) items).
Proof.
  intro F. split; intro H.
  - apply fsets_sub in H as [H|[]]; [easy|constructor].
  - assert (K : In c (map fst (fsets items []))) by (apply fsets_keys; left; now apply (in_map fst) in H).
    apply in_map_iff in K as ([c' w'] & E & K). cbn in E. subst c'. assert (J := K). apply fsets_sub in J as [J|[]]; [|constructor]. now rewrite (F c w w' H J).
Qed.

(** ** The columns that are set, in order *)
Definition pred_items (m : str) (p : prediction) : list (str * column) :=
  match p with Single l => [(pred_name m, l)] | Multi ls => map (fun ic => (pred_name_i m (fst ic), snd ic)) (combine (seq 0 (length ls)) ls) end.
Definition items bars cols inds models (fetch computed : str -> option column) preds : list (str * column) :=
  map (fun c => (c, match fetch c with Some l => l | None => repeat None bars end)) cols ++
  flat_map (fun i => match computed i with Some l => [(i, l)] | None => [] end) inds ++
  flat_map (fun m => match preds m with Some p => pred_items m p | None => [] end) models.
Lemma fold_map {A B C} (f : A -> B) (g : C -> B -> C) l : forall d, fold_left (fun d x => g d (f x)) l d = fold_left g (map f l) d.
Proof. induction l; intros d; cbn; auto. Qed.
Lemma add_preds_items m p d : add_preds m p d = fsets (pred_items m p) d.
Proof. destruct p as [l|ls]; [reflexivity|]. unfold add_preds, pred_items, fsets. rewrite <- fold_map. reflexivity. Qed.
Lemma fold_flat {A} (f : A -> list (str * column)) (g : frame -> A -> frame) l :
  (forall d x, g d x = fsets (f x) d) -> forall d, fold_left g l d = fsets (flat_map f l) d.
Proof. intro H. induction l as [|x l IH]; intros d; [reflexivity|]. cbn [fold_left flat_map]. now rewrite IH, H, fsets_app. Qed.
Lemma signal_data_items bars cols inds models fetch computed preds :
  signal_data bars cols inds models fetch computed preds = fsets (items bars cols inds models fetch computed preds) [].
Proof.
  unfold signal_data, items. rewrite !fsets_app.
  rewrite (fold_flat (fun m => match preds m with Some p => pred_items m p | None => [] end)) by (intros d x; destruct (preds x); [apply add_preds_items|reflexivity]).
  rewrite (fold_flat (fun i => match computed i with Some l => [(i, l)] | None => [] end)) by (intros d x; destruct (computed x); reflexivity).
  do 2 f_equal. unfold fsets. rewrite <- fold_map. reflexivity.
Qed.
Lemma combine_seq {A} (ls : list A) : forall s i x, In (i, x) (combine (seq s (length ls)) ls) <-> s <= i /\ nth_error ls (i - s) = Some x.
Proof.
  induction ls as [|y ls IH]; intros s i x; cbn [length seq combine In].
  - split; [easy|]. intros [_ H]. now destruct (i - s).
  - rewrite IH. split.
    + intros [[= -> ->]|[L H]]; [split; [lia|]; now rewrite Nat.sub_diag|]. split; [lia|]. replace (i - s) with (S (i - S s)) by lia. exact H.
    + intros [L H]. destruct (Nat.eq_dec i s) as [->|N]; [left; rewrite Nat.sub_diag in H; cbn in H; congruence|]. right. split; [lia|]. replace (i - s) with (S (i - S s)) in H by lia. exact H.
Qed.
Lemma pred_items_iff m p c v : In (c, v) (pred_items m p) <->
  exists k, prediction_column m k c /\ match k, p with None, Single l => v = l | Some i, Multi ls => nth_error ls i = Some v | _, _ => False end.
Proof.
  destruct p as [l|ls]; cbn [pred_items In].
  - split.
    + intros [[= <- <-]|[]]. exists None. split; [constructor|easy].
    + intros ([i|] & P & E); [easy|]. inversion P. subst. now left.
  - rewrite in_map_iff. split.
    + intros ([i x] & [= <- <-] & I). apply combine_seq in I as [_ I]. rewrite Nat.sub_0_r in I. exists (Some i). split; [now apply pred_name_i_iff|easy].
    + intros ([i|] & P & E); [|easy]. apply pred_name_i_iff in P as ->. exists (i, v). split; [easy|]. apply combine_seq. rewrite Nat.sub_0_r. split; [lia|easy].
Qed.
Lemma items_holds bars cols inds models fetch computed preds c v :
  In (c, v) (items bars cols inds models fetch computed preds) <-> holds bars cols inds models fetch computed preds c v.
Proof.
  unfold items, holds. rewrite !in_app_iff, in_map_iff, !in_flat_map. split.
  - intros [(c' & [= <- <-] & I)|[(i & I & H)|(m & I & H)]].
    + left. split; [easy|]. destruct (fetch c'); auto.
    + right. left. destruct (computed i) eqn:E; [|easy]. destruct H as [[= <- <-]|[]]. auto.
    + right. right. destruct (preds m) as [p|] eqn:E; [|easy]. apply pred_items_iff in H as (k & P & Q). exists m, p, k. auto.
  - intros [[I H]|[[I H]|(m & p & k & I & E & P & Q)]].
    + left. exists c. split; [|easy]. destruct H as [->|[-> ->]]; reflexivity.
    + right. left. exists c. split; [easy|]. rewrite H. now left.
    + right. right. exists m. split; [easy|]. rewrite E. apply pred_items_iff. eauto.
Qed.
(** What each source of columns says is one thing, when their names are apart. *)
Lemma holds_fun bars cols inds models fetch computed preds :
  apart cols (filter (fun i => match computed i with Some _ => true | None => false end) inds)
    (filter (fun m => match preds m with Some _ => true | None => false end) models) ->
  forall c v v', holds bars cols inds models fetch computed preds c v -> holds bars cols inds models fetch computed preds c v' -> v = v'.
Proof.
  intros [A B] c v v' H H'.
  assert (A' : forall i l, In i inds -> computed i = Some l -> ~ In i cols) by (intros i l I E; apply A, filter_In; split; [easy|]; now rewrite E).
  assert (B' : forall m p k x, In m models -> preds m = Some p -> prediction_column m k x -> ~ In x cols /\ (In x inds -> computed x = None)).
  { intros m p k x I E P. destruct (B m x) as [B1 B2]; [apply filter_In; split; [easy|]; now rewrite E|eapply prediction_reserved; eauto|]. split; [easy|].
    intro J. destruct (computed x) eqn:C; [|easy]. exfalso. apply B2, filter_In. split; [easy|]. now rewrite C. }
  destruct H as [[I H]|[[I H]|(m & p & k & I & E & P & Q)]]; destruct H' as [[I' H']|[[I' H']|(m' & p' & k' & I' & E' & P' & Q')]].
  - destruct H as [H|[H ->]]; destruct H' as [H'|[H' ->]]; congruence.
  - exfalso. eapply A'; eauto.
  - exfalso. eapply B'; eauto.
  - exfalso. eapply A'; eauto.
  - congruence.
  - destruct (B' _ _ _ _ I' E' P') as [_ N]. rewrite N in H; [easy|easy].
  - exfalso. eapply B'; eauto.
  - destruct (B' _ _ _ _ I E P) as [_ N]. rewrite N in H'; [easy|easy].
  - destruct (prediction_inj _ _ _ _ _ P P') as [<- <-]. assert (p = p') as <- by congruence. destruct k, p; try easy; congruence.
Qed.
Lemma signal_data_ok bars cols inds models fetch computed preds :
  apart cols (filter (fun i => match computed i with Some _ => true | None => false end) inds)
    (filter (fun m => match preds m with Some _ => true | None => false end) models) ->
  let d := signal_data bars cols inds models fetch computed preds in
  NoDup (map fst d) /\ forall c v, In (c, v) d <-> holds bars cols inds models fetch computed preds c v.
Proof.
  intros A d. unfold d. rewrite signal_data_items. split; [apply fsets_nodup; constructor|]. intros c v. rewrite fsets_in; [apply items_holds|].
  intros k w w' I I'. eapply holds_fun; [exact A| |]; apply items_holds; eauto.
Qed.

(** ** Windows *)
Lemma fget_iff c d v : NoDup (map fst d) -> (fget c d = Some v <-> In (c, v) d).
Proof.
  induction d as [|[k w] d IH]; cbn [fget map fst In]; intro N; [easy|]. inversion N as [|? ? A B]; subst. destruct (str_eqb c k) eqn:E.
  - apply str_eqb_iff in E as <-. split; [intros [= ->]; now left|]. intros [[= ->]|I]; [easy|]. exfalso. apply A. now apply (in_map fst) in I.
  - rewrite IH by easy. split; [now right|]. intros [[= -> ->]|I]; [|easy]. assert (str_eqb c c = true) by now apply str_eqb_iff. congruence.
Qed.
Lemma fget_none c d : fget c d = None <-> ~ In c (map fst d).
Proof.
  induction d as [|[k w] d IH]; cbn [fget map fst In]; [firstorder|]. destruct (str_eqb c k) eqn:E.
  - apply str_eqb_iff in E as <-. firstorder congruence.
  - rewrite IH. split; [|tauto]. intros H [->|I]; [|auto]. assert (str_eqb c c = true) by now apply str_eqb_iff. congruence.
Qed.
Lemma nodup_app {A} (a b : list A) : NoDup a -> NoDup b -> (forall x, In x b -> ~ In x a) -> NoDup (a ++ b).
Proof.
  intros Na Nb D. induction a as [|y a IHa]; [exact Nb|]. inversion Na; subst. cbn. constructor.
  - intro I. apply in_app_or in I as [I|I]; [easy|]. eapply D; eauto. now left.
  - apply IHa; [easy|]. intros x I J. eapply D; eauto. now right.
Qed.
Lemma union_gen (fs : list (nat * frame)) : Forall (fun f => NoDup (map fst (snd f))) fs -> forall acc, NoDup acc ->
  let u := fold_left (fun l f => l ++ filter (fun c => negb (str_in c l)) (map fst (snd f))) fs acc in
  NoDup u /\ forall c, In c u <-> In c acc \/ exists f, In f fs /\ In c (map fst (snd f)).
Proof.
  induction fs as [|f fs IH]; intros F acc N; cbn [fold_left].
  - split; [easy|]. intro c. split; [now left|]. intros [H|(f & [] & _)]; easy.
  - inversion F as [|? ? F1 F2]; subst. destruct (IH F2 (acc ++ filter (fun c => negb (str_in c acc)) (map fst (snd f)))) as [A B].
    + assert (G : NoDup (filter (fun c => negb (str_in c acc)) (map fst (snd f)))) by now apply NoDup_filter.
      assert (D : forall x, In x (filter (fun c => negb (str_in c acc)) (map fst (snd f))) -> ~ In x acc).
      { intros x I J. apply filter_In in I as [_ I]. apply negb_true_iff in I. apply str_in_iff in J. congruence. }
      now apply nodup_app.
    + split; [exact A|]. intro c. rewrite B, in_app_iff, filter_In, negb_true_iff. split.
      * intros [[H|[H _]]|(g & G & H)]; [now left|right; exists f; split; [now left|easy]|right; exists g; split; [now right|easy]].
      * intros [H|(g & [<-|G] & H)]; [now left; left| |right; eauto]. destruct (str_in c acc) eqn:E; [left; left; now apply str_in_iff|left; right; auto].
Qed.
Definition part (c : str) (f : nat * frame) : column := match fget c (snd f) with Some l => l | None => repeat None (fst f) end.
Definition total (fs : list (nat * frame)) : nat := list_sum (map fst fs).
Lemma part_length c f : rectangular (fst f) (snd f) -> length (part c f) = fst f.
Proof. intros [N H]. unfold part. destruct (fget c (snd f)) eqn:E; [|apply repeat_length]. apply (H c). now apply fget_iff. Qed.
Lemma concat_column_length fs c : Forall (fun f => rectangular (fst f) (snd f)) fs -> length (concat_column fs c) = total fs.
Proof.
  unfold concat_column, total. induction 1 as [|f fs H F IH]; [reflexivity|]. cbn [map concat list_sum fold_right]. rewrite app_length, IH. change (match fget c (snd f) with Some l => l | None => _ end) with (part c f). now rewrite part_length.
Qed.
Lemma concat_column_at fs c : Forall (fun f => rectangular (fst f) (snd f)) fs -> forall k f i, nth_error fs k = Some f -> i < fst f ->
  nth_error (concat_column fs c) (total (firstn k fs) + i) = nth_error (part c f) i.
Proof.
  unfold concat_column. induction 1 as [|g fs H F IH]; intros k f i K L; [now destruct k|]. cbn [map concat].
  change (match fget c (snd g) with Some l => l | None => _ end) with (part c g). assert (P := part_length c g H). destruct k as [|k].
  - cbn in K. injection K as ->. cbn [firstn]. change (total []) with 0. cbn [Nat.add]. rewrite nth_error_app1; [easy|lia].
  - cbn in K. cbn [firstn]. unfold total. cbn [map list_sum fold_right]. change (fold_right Nat.add 0 (map fst (firstn k fs))) with (total (firstn k fs)).
    rewrite nth_error_app2 by lia. rewrite P. replace (fst g + total (firstn k fs) + i - fst g) with (total (firstn k fs) + i) by lia. now apply IH.
Qed.
Lemma part_value c f i : rectangular (fst f) (snd f) -> i < fst f -> exists x, nth_error (part c f) i = Some x /\
  ((exists u, In (c, u) (snd f) /\ nth_error u i = Some x) \/ (~ In c (map fst (snd f)) /\ x = None)).
Proof.
  intros R L. assert (P := part_length c f R). destruct (nth_error (part c f) i) as [x|] eqn:E; [|apply nth_error_None in E; lia]. exists x. split; [easy|].
  unfold part in E. destruct R as [N _]. destruct (fget c (snd f)) as [u|] eqn:G.
  - left. exists u. split; [now apply fget_iff|easy].
  - right. split; [now apply fget_none|]. apply nth_error_In, repeat_spec in E. easy.
Qed.
Lemma concat_frames_ok fs : fs <> [] -> Forall (fun f => rectangular (fst f) (snd f)) fs ->
  NoDup (map fst (concat_frames fs)) /\
  (forall c, In c (map fst (concat_frames fs)) <-> exists f, In f fs /\ In c (map fst (snd f))) /\
  forall c v, In (c, v) (concat_frames fs) -> v = concat_column fs c.
Proof.
  intros NE F. unfold concat_frames.
  assert (U : NoDup (union_columns fs) /\ forall c, In c (union_columns fs) <-> exists f, In f fs /\ In c (map fst (snd f))).
  { destruct (union_gen fs) with (acc := @nil str) as [A B]; [|constructor|].
    - eapply Forall_impl; [|exact F]. now intros f [].
    - split; [exact A|]. intro c. rewrite B. cbn. split; [now intros [[]|H]|now right]. }
  destruct U as [U1 U2].
  assert (G : let r := map (fun c => (c, concat_column fs c)) (union_columns fs) in
    NoDup (map fst r) /\ (forall c, In c (map fst r) <-> exists f, In f fs /\ In c (map fst (snd f))) /\ forall c v, In (c, v) r -> v = concat_column fs c).
  { intro r. unfold r. rewrite map_map. cbn [fst]. rewrite map_id. split; [easy|]. split; [easy|]. intros c v I. apply in_map_iff in I as (c' & [= <- <-] & _). reflexivity. }
  destruct fs as [|f [|g fs]]; [easy| |exact G]. inversion F as [|? ? [R1 R2] _]; subst. split; [easy|]. split.
  - intro c. split; [intro I; exists f; split; [now left|easy]|]. now intros (? & [<-|[]] & I).
  - intros c v I. unfold concat_column. cbn [map concat]. rewrite app_nil_r. now rewrite (proj2 (fget_iff c (snd f) v R1) I).
Qed.
