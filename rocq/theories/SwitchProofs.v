(** Proofs for C93. *)
From Verif Require Import SwitchSpec CacheProofs.
From Coq Require Import List Bool Arith Ascii Lia.
From Coq Require String.
Import ListNotations.
Open Scope list_scope.

(** ** Paths *)
Lemma rev_app_last (a b : text) c r : rev b = c :: r -> exists r', rev (a ++ b) = c :: r'.
Proof. intros E. rewrite rev_app_distr, E. eexists. reflexivity. Qed.
Lemma join_sub a k : exists c r, rev (join a (sub_dir k)) = c :: r /\ c = match k with KData => "e"%char | KIndicator => "r"%char | KModel => "l"%char end.
Proof.
  unfold join. destruct k; unfold sub_dir, lit; cbn [String.list_ascii_of_string].
  all: match goal with |- context [if ascii_dec ?c slash then _ else _] => destruct (ascii_dec c slash) as [D | _]; [discriminate D |] end.
  all: match goal with |- context [if ?b then _ else _] => destruct b end; rewrite rev_app_distr; cbn; eauto.
Qed.
Lemma dir_kind cwd1 d1 n1 k1 cwd2 d2 n2 k2 p : get_cache_dir cwd1 d1 n1 k1 = Some p -> get_cache_dir cwd2 d2 n2 k2 = Some p -> k1 = k2.
Proof.
  unfold get_cache_dir. destruct n1 as [| a1 n1]; [easy |]. destruct n2 as [| a2 n2]; [easy |]. intros [= E1] [= E2].
  match type of E1 with join ?a _ = _ => destruct (join_sub a k1) as (c1 & r1 & R1 & C1) end. rewrite E1 in R1.
  match type of E2 with join ?a _ = _ => destruct (join_sub a k2) as (c2 & r2 & R2 & C2) end. rewrite E2 in R2.
  rewrite R1 in R2. injection R2 as E _. subst c1 c2. destruct k1, k2; easy.
Qed.
Lemma join_plain a b : b <> [] -> ~ In slash b -> exists p, join a b = p ++ b /\ p = match a with [] => [] | _ => if ends_with_slash a then a else a ++ [slash] end.
Proof.
  intros N I. unfold join. destruct b as [| c b]; [easy |]. destruct (ascii_dec c slash) as [-> | D]; [destruct I; now left |].
  destruct a as [| a0 a]; [exists []; easy |]. destruct (ends_with_slash (a0 :: a)); [eexists; split; reflexivity |].
  exists ((a0 :: a) ++ [slash]). rewrite <- app_assoc. easy.
Qed.
Lemma slash_or_not p : p = [] \/ ends_with_slash p = true \/ ends_with_slash p = false.
Proof. destruct p; [now left |]. destruct (ends_with_slash _); auto. Qed.
Lemma sub_plain k : sub_dir k <> [] /\ ~ In slash (sub_dir k).
Proof. destruct k; cbn; (split; [easy |]); intros H; repeat (destruct H as [H | H]; [discriminate H |]); easy. Qed.
Lemma no_slash_end p b : b <> [] -> ~ In slash b -> ends_with_slash (p ++ b) = false.
Proof.
  intros N I. unfold ends_with_slash. rewrite rev_app_distr. destruct (rev b) as [| c r] eqn:E; [apply (f_equal (@rev ascii)) in E; rewrite rev_involutive in E; easy |].
  cbn. destruct (ascii_dec c slash) as [-> | _]; [| easy]. destruct I. apply in_rev. rewrite E. now left.
Qed.
Lemma dir_namespace cwd dir n1 n2 k p : ~ In slash n1 -> ~ In slash n2 ->
  get_cache_dir cwd dir n1 k = Some p -> get_cache_dir cwd dir n2 k = Some p -> n1 = n2.
Proof.
  intros I1 I2. unfold get_cache_dir. destruct n1 as [| a1 n1]; [easy |]. destruct n2 as [| a2 n2]; [easy |]. intros E1 E2.
  set (base := match dir with None => _ | Some d => d end) in *.
  assert (F1 : join (join base (a1 :: n1)) (sub_dir k) = p) by congruence. assert (F2 : join (join base (a2 :: n2)) (sub_dir k) = p) by congruence. clear E1 E2. rename F1 into E1. rename F2 into E2.
  destruct (join_plain base (a1 :: n1)) as (p1 & J1 & Q1); [easy | easy |]. destruct (join_plain base (a2 :: n2)) as (p2 & J2 & Q2); [easy | easy |].
  assert (p1 = p2) by congruence. clear Q1 Q2. subst p2. rewrite J1 in E1. rewrite J2 in E2. destruct (sub_plain k) as (S1 & S2).
  destruct (join_plain (p1 ++ a1 :: n1) (sub_dir k) S1 S2) as (q1 & K1 & R1). destruct (join_plain (p1 ++ a2 :: n2) (sub_dir k) S1 S2) as (q2 & K2 & R2).
  rewrite K1 in E1. rewrite K2 in E2. rewrite <- E2 in E1. apply app_inv_tail in E1.
  rewrite no_slash_end in R1, R2 by easy.
  assert (q1 = (p1 ++ a1 :: n1) ++ [slash]) by (rewrite R1; now destruct (p1 ++ a1 :: n1) eqn:Z; [destruct p1 |]).
  assert (q2 = (p1 ++ a2 :: n2) ++ [slash]) by (rewrite R2; now destruct (p1 ++ a2 :: n2) eqn:Z; [destruct p1 |]).
  rewrite H, H0 in E1. apply app_inv_tail in E1. now apply app_inv_head in E1.
Qed.

(** ** The world and the plain machine *)
Section Refine.
Context (repr : nat -> nat) (repr_inj : forall a b, repr a = repr b -> a = b).
Definition good (w : world) : Prop :=
  (forall d k, w_disk w d k <> Some VNone) /\
  forall k c, w_cache w k = Some c -> (exists cwd dir ns, get_cache_dir cwd dir ns k = Some (c_dir c)) /\ inv repr (mk_shared (c_l1 c) (w_disk w (c_dir c))).
Definition same (w : world) (p : plain) : Prop :=
  (forall k, in_use p k = option_map c_dir (w_cache w k)) /\ (forall d, holds p d = w_disk w d).
Lemma kind_eqb_iff a b : kind_eqb a b = true <-> a = b.
Proof. destruct a, b; easy. Qed.
Lemma replace_upd {T} (f : kind -> T) k x k' : replace_at f k x k' = upd f k x k'.
Proof. destruct k, k'; easy. Qed.
Lemma upd_same {T} (f : kind -> T) k x : upd f k x k = x.
Proof. destruct k; easy. Qed.
Lemma upd_other {T} (f : kind -> T) k x k' : k <> k' -> upd f k x k' = f k'.
Proof. destruct k, k'; easy. Qed.
Lemma upd_disk_same f p d : upd_disk f p d p = d.
Proof. unfold upd_disk, text_eqb. destruct (list_eq_dec ascii_dec p p); easy. Qed.
Lemma upd_disk_other f p d p' : p <> p' -> upd_disk f p d p' = f p'.
Proof. intros N. unfold upd_disk, text_eqb. destruct (list_eq_dec ascii_dec p p'); easy. Qed.
Lemma disk_at_upd f p d p' : disk_at f p d p' = upd_disk f p d p'.
Proof. unfold disk_at, upd_disk, text_eqb. destruct (list_eq_dec ascii_dec p p'); easy. Qed.
Lemma same_upd w p k c : same w p -> same (mk_world (upd (w_cache w) k c) (w_ns w) (w_disk w)) (mk_plain (replace_at (in_use p) k (option_map c_dir c)) (holds p)).
Proof.
  intros (U & H). split; [| exact H]. intros k'. cbn. rewrite replace_upd. destruct (kind_eqb k k') eqn:E; [apply kind_eqb_iff in E; subst; now rewrite !upd_same |].
  assert (k <> k') by (intros ->; destruct k'; easy). rewrite !upd_other by easy. apply U.
Qed.
Lemma enable_sim cwd dir ns m opens k w p : good w -> same w p ->
  let '(w', r) := enable cwd dir ns m opens k w in let '(p', r') := plain_enable cwd dir ns opens k p in
  good w' /\ same w' p' /\ r = r' /\ (forall d, w_disk w' d = w_disk w d).
Proof.
  intros G M. unfold enable, plain_enable. destruct (get_cache_dir cwd dir ns k) as [d |] eqn:D; [| easy]. destruct opens; [| easy].
  split; [| split; [apply (same_upd w p k (Some (mk_cache d m []))); exact M | easy]].
  destruct G as (N & G). split; [exact N |]. cbn. intros k' c E. destruct (kind_eqb k k') eqn:K.
  - apply kind_eqb_iff in K. subst k'. rewrite upd_same in E. injection E as <-. cbn. split; [eauto |]. split; [constructor |]. split; [apply N | easy].
  - assert (k <> k') by (intros ->; destruct k'; easy). rewrite upd_other in E by easy. now apply G.
Qed.
Lemma disable_sim k w p : good w -> same w p ->
  good (fst (disable k w)) /\ same (fst (disable k w)) (mk_plain (replace_at (in_use p) k None) (holds p)).
Proof.
  intros (N & G) M. split; [| apply (same_upd w p k None); exact M]. split; [exact N |]. cbn. intros k' c E. destruct (kind_eqb k k') eqn:K.
  - apply kind_eqb_iff in K. subst k'. rewrite upd_same in E. easy.
  - assert (k <> k') by (intros ->; destruct k'; easy). rewrite upd_other in E by easy. now apply G.
Qed.
Lemma use_sim k o fates w p : good w -> same w p -> ordinary repr o ->
  let '(w', r) := use repr k o fates w in let '(p', r') := plain_use repr k o fates p in
  good w' /\ same w' p' /\ r = match r' with None => Off | Some r => Result r end /\
  (forall d, ~ uses_dir w k d -> w_disk w' d = w_disk w d).
Proof.
  intros G M O. unfold use, plain_use. destruct M as (U & H). rewrite U. destruct (w_cache w k) as [c |] eqn:C; cbn [option_map]; [| easy].
  destruct G as (N & G). destruct (G k c C) as ((cwd & dir & ns & D) & I).
  pose proof (op_step repr repr_inj (c_max c) o fates _ I O) as ST. cbn [s_disk] in ST. rewrite <- H in ST.
  rewrite <- H. destruct (run_prog repr (c_max c) (prog_of repr o) fates _) as [s r]. destruct ST as (I' & ED & ER).
  destruct (disk_op repr o fates (holds p (c_dir c))) as [d' r']. cbn [fst snd] in ED, ER. subst r'.
  split; [| split; [| split; [easy |]]].
  - split.
    + cbn. intros d key. destruct (list_eq_dec ascii_dec (c_dir c) d) as [<- | X].
      * rewrite upd_disk_same. apply I'.
      * rewrite upd_disk_other by easy. apply N.
    + cbn. intros k' c' E. destruct (kind_eqb k k') eqn:K.
      * apply kind_eqb_iff in K. subst k'. rewrite upd_same in E. injection E as <-. cbn. split; [eauto |]. rewrite upd_disk_same. destruct s. exact I'.
      * assert (X : k <> k') by (intros ->; destruct k'; easy). rewrite upd_other in E by easy. destruct (G k' c' E) as ((cwd' & dir' & ns' & D') & I2). split; [eauto |].
        rewrite upd_disk_other; [exact I2 |]. intros EQ. rewrite EQ in D. apply X. exact (dir_kind _ _ _ _ _ _ _ _ _ D D').
  - split; cbn.
    + intros k'. destruct (kind_eqb k k') eqn:K.
      * apply kind_eqb_iff in K. subst k'. rewrite upd_same, U, C. easy.
      * assert (X : k <> k') by (intros ->; destruct k'; easy). rewrite upd_other by easy. apply U.
    + intros d. rewrite disk_at_upd. destruct (list_eq_dec ascii_dec (c_dir c) d) as [<- | X].
      * rewrite !upd_disk_same. now rewrite ED.
      * rewrite !upd_disk_other by easy. apply H.
  - cbn. intros d NU. rewrite upd_disk_other; [easy |]. intros EQ. apply NU. exists c. easy.
Qed.
Lemma clear_ordinary : ordinary repr OClear.
Proof. split; [intros k E; discriminate E | easy]. Qed.
Lemma clear_sim k fates w p : good w -> same w p ->
  let '(w', r) := clear repr k fates w in let '(p', r') := plain_clear repr k fates p in
  good w' /\ same w' p' /\ r = r' /\ (forall d, ~ uses_dir w k d -> w_disk w' d = w_disk w d).
Proof.
  intros G M. unfold clear, plain_clear. pose proof (use_sim k OClear fates w p G M clear_ordinary) as S. pose proof M as (U & _).
  destruct (w_cache w k) as [c |] eqn:C.
  - unfold use in *. rewrite C in *. destruct (run_prog repr (c_max c) (prog_of repr OClear) fates _) as [s r].
    destruct (plain_use repr k OClear fates p) as [p' r'] eqn:E. destruct S as (S1 & S2 & S3 & S4). split; [exact S1 |]. split; [exact S2 |]. split; [| exact S4].
    destruct r' as [r' |]; [| easy]. injection S3 as ->. now destruct r'.
  - unfold plain_use. rewrite U, C. cbn. easy.
Qed.
Lemma using_frame w w' : (forall k, option_map c_dir (w_cache w' k) = option_map c_dir (w_cache w k)) -> forall k d, uses_dir w' k d <-> uses_dir w k d.
Proof.
  intros E k d. unfold uses_dir. specialize (E k). destruct (w_cache w k) as [c |], (w_cache w' k) as [c' |]; try discriminate E.
  - injection E as E. split; intros (x & [= <-] & <-); eexists; split; eauto.
  - split; intros (x & [=] & _).
Qed.
Lemma clear_dirs k fates w : forall k', option_map c_dir (w_cache (fst (clear repr k fates w)) k') = option_map c_dir (w_cache w k').
Proof.
  intros k'. unfold clear, use. destruct (w_cache w k) as [c |] eqn:C; [| easy]. destruct (run_prog _ _ _ _ _) as [s r]. cbn.
  destruct (kind_eqb k k') eqn:K.
  - apply kind_eqb_iff in K. subst k'. now rewrite upd_same, C.
  - rewrite upd_other; [easy |]. intros ->. destruct k'; easy.
Qed.
(** A call: the same answer and the same directories; and directories it does not
    concern stay as they are. *)
Definition concerns (c : call) (k : kind) : Prop := match c with Use k' _ _ | Clear k' _ => k' = k | ClearAll _ => True | _ => False end.
Lemma call_sim c w p : good w -> same w p -> ordinary_call repr c ->
  let '(w', r) := do_call repr c w in let '(p', r') := plain_call repr c p in
  good w' /\ same w' p' /\ r = r' /\ (forall d, (forall k, concerns c k -> ~ uses_dir w k d) -> w_disk w' d = w_disk w d).
Proof.
  intros G M O. destruct c as [cwd dir ns m opens k | k | k fates | cwd dir ns m opens | | fates | k o fates]; cbn [do_call plain_call].
  - pose proof (enable_sim cwd dir ns m opens k w p G M) as S. destruct (enable _ _ _ _ _ _ _) as [w' r]. destruct (plain_enable _ _ _ _ _ _) as [p' r']. intuition.
  - destruct (disable_sim k w p G M) as (G' & M'). easy.
  - pose proof (clear_sim k fates w p G M) as S. destruct (clear _ _ _ _) as [w' r]. destruct (plain_clear _ _ _ _) as [p' r']. destruct S as (S1 & S2 & S3 & S4).
    repeat (split; [easy |]). intros d X. apply S4. apply X. reflexivity.
  - unfold enable_caches, kinds, in_turn, after.
    pose proof (enable_sim cwd dir ns m (opens KData) KData w p G M) as S. destruct (enable cwd dir ns m (opens KData) KData w) as [w1 r1]. destruct (plain_enable cwd dir ns (opens KData) KData p) as [p1 r1'].
    destruct S as (G1 & M1 & <- & F1). destruct r1; try (repeat (split; [easy |]); intros; apply F1).
    pose proof (enable_sim cwd dir ns m (opens KIndicator) KIndicator w1 p1 G1 M1) as S. destruct (enable cwd dir ns m (opens KIndicator) KIndicator w1) as [w2 r2]. destruct (plain_enable cwd dir ns (opens KIndicator) KIndicator p1) as [p2 r2'].
    destruct S as (G2 & M2 & <- & F2). destruct r2; try (repeat (split; [easy |]); intros; rewrite F2; apply F1).
    pose proof (enable_sim cwd dir ns m (opens KModel) KModel w2 p2 G2 M2) as S. destruct (enable cwd dir ns m (opens KModel) KModel w2) as [w3 r3]. destruct (plain_enable cwd dir ns (opens KModel) KModel p2) as [p3 r3'].
    destruct S as (G3 & M3 & <- & F3). destruct r3; repeat (split; [easy |]); intros; rewrite F3, F2; apply F1.
  - unfold disable_caches, after, disable at 1 2. fold (disable KModel).
    destruct (disable_sim KData w p G M) as (G1 & M1). destruct (disable_sim KIndicator _ _ G1 M1) as (G2 & M2). destruct (disable_sim KModel _ _ G2 M2) as (G3 & M3).
    unfold disable in *. cbn in *. split; [exact G3 |]. split; [| easy]. destruct M3 as (A & B). split; [intros [| |]; easy | exact B].
  - unfold clear_caches, kinds, in_turn, after.
    pose proof (clear_sim KData (fates KData) w p G M) as S. pose proof (using_frame _ _ (clear_dirs KData (fates KData) w)) as D1.
    destruct (clear repr KData (fates KData) w) as [w1 r1]. destruct (plain_clear repr KData (fates KData) p) as [p1 r1']. cbn [fst] in D1.
    destruct S as (G1 & M1 & <- & F1). destruct r1; try (repeat (split; [easy |]); intros d X; apply F1; now apply X).
    pose proof (clear_sim KIndicator (fates KIndicator) w1 p1 G1 M1) as S. pose proof (using_frame _ _ (clear_dirs KIndicator (fates KIndicator) w1)) as D2.
    destruct (clear repr KIndicator (fates KIndicator) w1) as [w2 r2]. destruct (plain_clear repr KIndicator (fates KIndicator) p1) as [p2 r2']. cbn [fst] in D2.
    destruct S as (G2 & M2 & <- & F2).
    assert (F12 : forall d, (forall k, concerns (ClearAll fates) k -> ~ uses_dir w k d) -> w_disk w2 d = w_disk w d).
    { intros d X. rewrite F2, F1; [easy | now apply X |]. rewrite D1. now apply X. }
    destruct r2; try (repeat (split; [easy |]); exact F12).
    pose proof (clear_sim KModel (fates KModel) w2 p2 G2 M2) as S.
    destruct (clear repr KModel (fates KModel) w2) as [w3 r3]. destruct (plain_clear repr KModel (fates KModel) p2) as [p3 r3'].
    destruct S as (G3 & M3 & <- & F3). 
    assert (F13 : forall d, (forall k, concerns (ClearAll fates) k -> ~ uses_dir w k d) -> w_disk w3 d = w_disk w d).
    { intros d X. rewrite F3, F12; [easy | easy |]. rewrite D2, D1. now apply X. }
    destruct r3; repeat (split; [easy |]); exact F13.
  - pose proof (use_sim k o fates w p G M O) as S. destruct (use _ _ _ _ _) as [w' r]. destruct (plain_use _ _ _ _ _) as [p' r']. destruct S as (S1 & S2 & S3 & S4).
    repeat (split; [easy |]). intros d X. apply S4. apply X. reflexivity.
Qed.
Lemma calls_sim cs : forall w p, good w -> same w p -> Forall (ordinary_call repr) cs ->
  let '(w', rs) := do_calls repr cs w in let '(p', rs') := plain_calls repr cs p in good w' /\ same w' p' /\ rs = rs'.
Proof.
  induction cs as [| c cs IH]; intros w p G M F; [easy |]. cbn [do_calls plain_calls]. inversion F as [| ? ? O F']; subst.
  pose proof (call_sim c w p G M O) as S. destruct (do_call repr c w) as [w1 r1]. destruct (plain_call repr c p) as [p1 r1']. destruct S as (G1 & M1 & -> & _).
  specialize (IH w1 p1 G1 M1 F'). destruct (do_calls repr cs w1) as [w2 rs]. destruct (plain_calls repr cs p1) as [p2 rs']. destruct IH as (G2 & M2 & ->). easy.
Qed.
Lemma start_good disk : (forall d k, disk d k <> Some VNone) -> good (start disk) /\ same (start disk) (mk_plain (fun _ => None) disk).
Proof. intros N. split; [split; [exact N | easy] | easy]. Qed.
Lemma plain_of w : exists p, same w p.
Proof. exists (mk_plain (fun k => option_map c_dir (w_cache w k)) (w_disk w)). easy. Qed.
Lemma reachable_good disk cs : (forall d k, disk d k <> Some VNone) -> Forall (ordinary_call repr) cs -> good (fst (do_calls repr cs (start disk))).
Proof.
  intros N F. destruct (start_good disk N) as (G & M). pose proof (calls_sim cs _ _ G M F) as S. destruct (do_calls repr cs (start disk)). destruct (plain_calls repr cs _). apply S.
Qed.
(** What is not written stays. *)
Lemma wrote_key f k d v key : k <> key -> wrote f k d v key = d key.
Proof. intros N. destruct f; cbn; [now rewrite set_key_other | destruct v; [easy | now rewrite set_key_other] | destruct (happened k); [now rewrite set_key_other | easy]]. Qed.
Lemma removed_key f1 f2 k d key : k <> key -> legacy repr k <> Some key -> fst (removed repr f1 f2 k d) key = d key.
Proof.
  intros N L. unfold removed. destruct (raises f1); [now apply wrote_key |]. destruct (legacy repr k) as [q |]; cbn; [| now apply wrote_key].
  rewrite wrote_key by congruence. now apply wrote_key.
Qed.
Lemma disk_op_key o fates d key : ~ may_write repr o key -> fst (disk_op repr o fates d) key = d key.
Proof.
  destruct o as [k def | k v | k | k def | k |]; cbn; intros H.
  - easy.
  - apply wrote_key. tauto.
  - pose proof (removed_key (hd FOk fates) (hd FOk (tl fates)) k d key) as R. destruct (removed _ _ _ _ _). apply R; tauto.
  - pose proof (removed_key (hd FOk fates) (hd FOk (tl fates)) k d key) as R. destruct (removed _ _ _ _ _). apply R; tauto.
  - pose proof (removed_key (hd FOk fates) (hd FOk (tl fates)) k d key) as R. destruct (removed _ _ _ _ _). destruct (raises _), (d k); cbn; try (apply R; tauto). apply wrote_key. tauto.
  - tauto.
Qed.
Lemma spared k d key cs : forall w, good w -> Forall (ordinary_call repr) cs -> spares repr k d key cs w ->
  (exists cwd dir ns, get_cache_dir cwd dir ns k = Some d) -> w_disk (fst (do_calls repr cs w)) d key = w_disk w d key.
Proof.
  induction cs as [| c cs IH]; intros w G F S D; [easy |]. cbn [do_calls]. inversion F as [| ? ? O F']; subst. destruct S as (S1 & S2).
  destruct (plain_of w) as (p & M). pose proof (call_sim c w p G M O) as C. destruct (do_call repr c w) as [w1 r1] eqn:E. destruct (plain_call repr c p) as [p1 r1'] eqn:EP.
  destruct C as (G1 & M1 & _ & FR). cbn [fst] in S2. specialize (IH w1 G1 F' S2 D). destruct (do_calls repr cs w1) as [w2 rs]. cbn [fst] in *. rewrite IH.
  assert (OTHER : forall k', k' <> k -> ~ uses_dir w k' d).
  { intros k' X (c' & C' & ED). destruct G as (_ & G). destruct (G k' c' C') as ((cwd' & dir' & ns' & D') & _). destruct D as (cwd & dir & ns & D). rewrite ED in D'.
    apply X. exact (dir_kind _ _ _ _ _ _ _ _ _ D' D). }
  assert (DEC : forall k', k' = k \/ k' <> k) by (intros k'; destruct k', k; (now left) || (now right)).
  destruct c as [? ? ? ? ? ? | ? | k' fates | ? ? ? ? ? | | fates | k' o fates]; try (rewrite FR; [easy | cbn; tauto]).
  - rewrite FR; [easy |]. cbn. intros k'' <-. destruct (DEC k') as [-> | X]; [now apply S1 | now apply OTHER].
  - rewrite FR; [easy |]. cbn. intros k'' _. destruct (DEC k'') as [-> | X]; [easy | now apply OTHER].
  - destruct (DEC k') as [-> | X]; [| rewrite FR; [easy |]; cbn; intros k'' <-; now apply OTHER].
    destruct M as (U & H). destruct M1 as (U1 & H1). rewrite <- H1, <- H. cbn [plain_call] in EP. unfold plain_use in EP. rewrite U in EP.
    destruct (w_cache w k) as [c |] eqn:C; cbn [option_map] in EP; [| now injection EP as <- _].
    destruct (disk_op repr o fates (holds p (c_dir c))) as [disk r] eqn:EO. injection EP as <- _. cbn. unfold disk_at.
    destruct (list_eq_dec ascii_dec (c_dir c) d) as [<- | X]; [| easy].
    replace disk with (fst (disk_op repr o fates (holds p (c_dir c)))) by now rewrite EO. apply disk_op_key. apply S1; [easy |]. exists c. easy.
Qed.
End Refine.

(** ** The recorded namespaces *)
Definition told (w : world) : Prop :=
  forall k, match w_cache w k with None => w_ns w k = [] | Some c => exists cwd dir, get_cache_dir cwd dir (w_ns w k) k = Some (c_dir c) end.
Lemma kind_dec : forall a b : kind, {a = b} + {a <> b}.
Proof. decide equality. Qed.
Lemma told_enable : forall cwd dir ns m k w, told w -> told (fst (enable cwd dir ns m true k w)).
Proof.
  intros cwd dir ns m k w T. unfold enable. destruct (get_cache_dir cwd dir ns k) as [d |] eqn:D; [| exact T]. intros k'. cbn.
  destruct (kind_dec k k') as [<- | N]; [rewrite !upd_same; cbn; eauto |]. rewrite !upd_other by easy. apply T.
Qed.
Lemma told_disable : forall k w, told w -> told (fst (disable k w)).
Proof.
  intros k w T k'. cbn. destruct (kind_dec k k') as [<- | N]; [now rewrite !upd_same |]. rewrite !upd_other by easy. apply T.
Qed.
Lemma told_use : forall repr k o fates w, told w -> told (fst (use repr k o fates w)).
Proof.
  intros repr k o fates w T. unfold use. destruct (w_cache w k) as [c |] eqn:C; [| exact T]. destruct (run_prog _ _ _ _ _) as [s r]. intros k'. cbn.
  destruct (kind_dec k k') as [<- | N]; [rewrite !upd_same; cbn; specialize (T k); now rewrite C in T |]. rewrite !upd_other by easy. apply T.
Qed.
Lemma told_clear : forall repr k fates w, told w -> told (fst (clear repr k fates w)).
Proof.
  intros repr k fates w T. unfold clear. destruct (w_cache w k); [| exact T]. pose proof (told_use repr k OClear fates w T) as U. destruct (use repr k OClear fates w). exact U.
Qed.
Lemma told_after : forall x f, told (fst x) -> (forall w, told w -> told (fst (f w))) -> told (fst (after x f)).
Proof. intros [w r] f T F. unfold after. destruct r; try exact T. now apply F. Qed.
Lemma told_call : forall repr c w, opening c -> told w -> told (fst (do_call repr c w)).
Proof.
  intros repr c w O T. destruct c; cbn [do_call opening] in *.
  - subst. now apply told_enable.
  - now apply told_disable.
  - now apply told_clear.
  - unfold enable_caches. rewrite !O. apply told_after; [apply told_after |]; intros; now apply told_enable.
  - unfold disable_caches. apply told_after; [apply told_after |]; intros; now apply told_disable.
  - unfold clear_caches. apply told_after; [apply told_after |]; intros; now apply told_clear.
  - now apply told_use.
Qed.
Lemma told_calls : forall repr cs w, Forall opening cs -> told w -> told (fst (do_calls repr cs w)).
Proof.
  intros repr. induction cs as [| c cs IH]; intros w F T; [exact T |]. inversion F as [| ? ? O F']; subst. cbn.
  pose proof (told_call repr c w O T) as T'. destruct (do_call repr c w) as [w' r]. specialize (IH w' F' T'). destruct (do_calls repr cs w'). exact IH.
Qed.
