(** Proofs about the grid, the trial loop and the winner (C64, C66, C67). *)
From Coq Require Import List Bool Arith ZArith QArith Permutation Lia Lqa.
From Verif Require Import HyperSpec HyperProofs.
Import ListNotations.
Open Scope nat_scope.

(** ** The pool *)
Section Pool.
Context (evaluate : params -> res score).
Lemma write_slot_nth {A} (l : list A) : forall i x j, nth_error (write_slot l i x) j =
  if Nat.eqb i j then (match nth_error l j with Some _ => Some x | None => None end) else nth_error l j.
Proof.
  induction l as [|y l IH]; intros [|i] x [|j]; cbn; try easy; now destruct (Nat.eqb i j).
Qed.
Lemma pool_run_slots points : forall order slots out, pool_run evaluate points order slots = Ok out -> length slots = length points ->
  length out = length points /\
  forall i p, nth_error points i = Some p ->
    (In i order -> exists s, evaluate p = Ok s /\ nth_error out i = Some (Some s)) /\
    (~ In i order -> nth_error out i = nth_error slots i).
Proof.
  induction order as [|i r IH]; intros slots out E L; cbn [pool_run] in E.
  - injection E as <-. split; [exact L|]. intros i p P. split; [easy|reflexivity].
  - destruct (nth_error points i) as [p|] eqn:P.
    + destruct (evaluate p) as [s|e] eqn:V; cbn [bind] in E; [|discriminate].
      destruct (IH _ _ E) as (Lo & F).
      { clear - L. revert points L i. assert (W : forall (l : list (option score)) i x, length (write_slot l i x) = length l).
        { induction l as [|y l IH]; intros [|i] x; cbn; auto. } intros. now rewrite W. }
      split; [exact Lo|]. intros j q Q. destruct (F j q Q) as [F1 F2]. split.
      * intros I. destruct (in_dec Nat.eq_dec j r) as [J|J]; [auto|]. destruct I as [<-|I]; [|tauto].
        rewrite F2 by exact J. rewrite write_slot_nth, Nat.eqb_refl. rewrite Q in P. injection P as ->. exists s. split; [exact V|].
        destruct (nth_error slots i) eqn:N; [easy|]. apply nth_error_None in N. assert (i < length points) by (apply nth_error_Some; congruence). lia.
      * intros N. rewrite F2 by (intros H; apply N; now right). rewrite write_slot_nth.
        destruct (Nat.eqb_spec i j) as [->|D]; [exfalso; apply N; now left|easy].
    + destruct (IH _ _ E L) as (Lo & F). split; [exact Lo|]. intros j q Q. destruct (F j q Q) as [F1 F2]. split.
      * intros [<-|I]; [congruence|auto].
      * intros N. apply F2. intros H. apply N. now right.
Qed.
Lemma all_slots_some {A} : forall (l : list (option A)), (forall i, i < length l -> exists x, nth_error l i = Some (Some x)) ->
  exists m, all_slots l = Some m /\ length m = length l /\ forall i x, nth_error l i = Some (Some x) -> nth_error m i = Some x.
Proof.
  induction l as [|o l IH]; intros H; [exists []; repeat split; [intros [|i]]; easy|].
  destruct (H 0 (Nat.lt_0_succ _)) as [x X]. cbn in X. injection X as ->.
  destruct IH as (m & E & L & F). { intros i I. apply (H (S i)). cbn. lia. }
  exists (x :: m). cbn. rewrite E. split; [easy|]. split; [now rewrite L|]. intros [|i] y Y; cbn in *; [congruence|auto].
Qed.
(** A completed pool call gives each point its own score. *)
Lemma pool_ok order points scores : complete (length points) order -> pool evaluate order points = Ok scores ->
  Forall2 (fun p s => evaluate p = Ok s) points scores.
Proof.
  intros C E. unfold pool in E. destruct (pool_run evaluate points order (map (fun _ => None) points)) as [slots|e] eqn:R; cbn [bind] in E; [|discriminate].
  destruct (pool_run_slots points order _ _ R) as (L & F); [apply map_length|].
  destruct (all_slots_some slots) as (m & A & Lm & G).
  { intros i I. destruct (nth_error points i) as [p|] eqn:P; [|apply nth_error_None in P; lia].
    destruct (proj1 (F i p P)) as (s & _ & S); [apply C; lia|eauto]. }
  rewrite A in E. injection E as <-. assert (LL : length m = length points) by congruence.
  clear - F G LL C. revert m LL G. assert (H : forall i p, nth_error points i = Some p -> exists s, evaluate p = Ok s /\ nth_error slots i = Some (Some s)).
  { intros i p P. apply (F i p P). apply C. apply nth_error_Some. congruence. }
  clear F C. intros m LL G. assert (K : forall i p s, nth_error points i = Some p -> nth_error m i = Some s -> evaluate p = Ok s).
  { intros i p s P M. destruct (H i p P) as (s' & V & N). rewrite (G _ _ N) in M. congruence. }
  clear - K LL. revert m LL K. induction points as [|p points IH]; intros [|s m] LL K; try discriminate; constructor.
  - apply (K 0); reflexivity.
  - apply IH; [now injection LL|]. intros i. apply (K (S i)).
Qed.
Lemma pool_total order points : complete (length points) order -> (forall p, In p points -> exists s, evaluate p = Ok s) ->
  exists scores, pool evaluate order points = Ok scores.
Proof.
  intros C N. unfold pool.
  assert (R : forall o slots, exists out, pool_run evaluate points o slots = Ok out).
  { induction o as [|i o IH]; intros slots; cbn [pool_run]; [eauto|]. destruct (nth_error points i) as [p|] eqn:P; [|apply IH].
    destruct (N p) as [s ->]; [now apply nth_error_In in P|]. cbn [bind]. apply IH. }
  destruct (R order (map (fun _ => None) points)) as [slots S]. rewrite S. cbn [bind].
  destruct (pool_run_slots points order _ _ S) as (L & F); [apply map_length|].
  destruct (all_slots_some slots) as (m & A & _); [|rewrite A; eauto].
  intros i I. destruct (nth_error points i) as [p|] eqn:P; [|apply nth_error_None in P; lia].
  destruct (proj1 (F i p P)) as (s & _ & Q); [apply C; lia|eauto].
Qed.
Lemma pool_raises order points e : complete (length points) order -> pool evaluate order points = Raise e ->
  exists p e', In p points /\ evaluate p = Raise e'.
Proof.
  intros C E. assert (D : (forall p, In p points -> exists s, evaluate p = Ok s) \/ exists p e', In p points /\ evaluate p = Raise e').
  { clear. induction points as [|p points IH]; [now left|]. destruct (evaluate p) as [s|e'] eqn:V; [|right; exists p, e'; split; [now left|easy]].
    destruct IH as [H|(q & e' & I & H)]; [left|right; exists q, e'; split; [now right|easy]]. intros q [<-|I]; eauto. }
  destruct D as [D|D]; [|exact D]. destruct (pool_total order points C D) as [s S]. congruence.
Qed.

(** ** One trial after the other *)
(** The outcome of trying the points in turn. *)
Inductive tries : list params -> list trial -> Prop :=
| tries_nil : tries [] []
| tries_cons p s ps ts : evaluate p = Ok s -> tries ps ts -> tries (p :: ps) (finish p s :: ts).
Lemma tries_record points scores : Forall2 (fun p s => evaluate p = Ok s) points scores -> tries points (record_all points scores).
Proof. induction 1; cbn; now constructor. Qed.
Lemma tries_fun ps ts ts' : tries ps ts -> tries ps ts' -> ts = ts'.
Proof. intros H. revert ts'. induction H; intros ts' H'; inversion H'; subst; [easy|]. rewrite H in H3. injection H3 as ->. f_equal; auto. Qed.
Lemma tries_app a b x y : tries a x -> tries b y -> tries (a ++ b) (x ++ y).
Proof. induction 1; cbn; [easy|]. intros. constructor; auto. Qed.

Lemma grid_sequential_ok grids : forall n study out, grid_sequential evaluate n grids study = Ok out ->
  exists ts, out = study ++ ts /\ tries (firstn n (skipn (length study) grids)) ts.
Proof.
  induction n as [|n IH]; intros study out E; cbn [grid_sequential] in E.
  - injection E as <-. exists []. rewrite app_nil_r. split; [easy|constructor].
  - destruct (nth_error grids (length study)) as [p|] eqn:P.
    + destruct (evaluate p) as [s|] eqn:V; cbn [bind] in E; [|discriminate]. destruct (IH _ _ E) as (ts & -> & T).
      exists (finish p s :: ts). rewrite <- app_assoc. split; [easy|]. rewrite app_length in T. cbn [length] in T.
      apply nth_error_split in P. destruct P as (a & b & -> & La). rewrite skipn_app, <- La, skipn_all, Nat.sub_diag.
      cbn [app skipn firstn]. constructor; [exact V|]. rewrite skipn_app, <- La, skipn_all2, Nat.add_comm in T by lia.
      replace (1 + length a - length a) with 1 in T by lia. exact T.
    + injection E as <-. exists []. rewrite app_nil_r. split; [easy|]. apply nth_error_None in P. rewrite skipn_all2 by lia. constructor.
Qed.
Lemma grid_sequential_raises grids : forall n study e, grid_sequential evaluate n grids study = Raise e ->
  exists p, In p (firstn n (skipn (length study) grids)) /\ evaluate p = Raise e.
Proof.
  induction n as [|n IH]; intros study e E; cbn [grid_sequential] in E; [discriminate|].
  destruct (nth_error grids (length study)) as [p|] eqn:P; [|discriminate].
  pose proof P as P'. apply nth_error_split in P'. destruct P' as (a & b & -> & La). rewrite skipn_app, <- La, skipn_all, Nat.sub_diag.
  cbn [app skipn firstn]. destruct (evaluate p) as [s|] eqn:V; cbn [bind] in E; [|injection E as ->; exists p; split; [now left|easy]].
  destruct (IH _ _ E) as (q & I & Q). exists q. split; [right|exact Q].
  rewrite app_length in I. cbn [length] in I. rewrite skipn_app, <- La, skipn_all2, Nat.add_comm in I by lia.
  replace (1 + length a - length a) with 1 in I by lia. exact I.
Qed.
Lemma tries_total ps ts : tries ps ts -> forall p, In p ps -> exists s, evaluate p = Ok s.
Proof. induction 1; intros q I; [easy|]. destruct I as [<-|I]; eauto. Qed.

Lemma grid_parallel_ok order grids n study out : complete (length (firstn n (skipn (length study) grids))) order ->
  (grid_parallel evaluate order grids n study = Ok out <-> exists ts, out = study ++ ts /\ tries (firstn n (skipn (length study) grids)) ts).
Proof.
  intros C. unfold grid_parallel. set (points := firstn n (skipn (length study) grids)) in *. split.
  - destruct (pool evaluate order points) as [scores|] eqn:P; cbn [bind]; [|discriminate]. intros [= <-].
    eexists. split; [reflexivity|]. apply tries_record. now apply (pool_ok order).
  - intros (ts & -> & T). destruct (pool_total order points C (tries_total _ _ T)) as [scores P]. rewrite P. cbn [bind].
    do 2 f_equal. apply (tries_fun points); [|exact T]. apply tries_record. now apply (pool_ok order).
Qed.
Lemma grid_sequential_iff grids n study out :
  (grid_sequential evaluate n grids study = Ok out <-> exists ts, out = study ++ ts /\ tries (firstn n (skipn (length study) grids)) ts).
Proof.
  split; [apply grid_sequential_ok|]. intros (ts & -> & T).
  destruct (grid_sequential evaluate n grids study) as [out|e] eqn:E.
  - apply grid_sequential_ok in E. destruct E as (ts' & -> & T'). do 2 f_equal. now apply (tries_fun _ _ _ T').
  - apply grid_sequential_raises in E. destruct E as (p & I & V). destruct (tries_total _ _ T p I). congruence.
Qed.

Context {rng : Type} (draw : rng -> params * rng).
Lemma random_sequential_iff : forall n g study g' out,
  random_sequential evaluate draw n g study = Ok (g', out) <->
  exists ts, out = study ++ ts /\ tries (fst (draws draw n g)) ts /\ g' = snd (draws draw n g).
Proof.
  induction n as [|n IH]; intros g study g' out; cbn [random_sequential draws].
  - cbn [fst snd]. split.
    + intros [= <- <-]. exists []. rewrite app_nil_r. repeat split; constructor.
    + intros (ts & -> & T & ->). inversion T. now rewrite app_nil_r.
  - destruct (draw g) as [p g1]. specialize (IH g1). destruct (draws draw n g1) as [l g2]. cbn [fst snd] in *. split.
    + destruct (evaluate p) as [s|] eqn:V; cbn [bind]; [|discriminate]. intros E. apply IH in E. destruct E as (ts & -> & T & ->).
      exists (finish p s :: ts). rewrite <- app_assoc. repeat split. now constructor.
    + intros (ts & -> & T & ->). inversion T as [|? s ? ts' V T']; subst. rewrite V. cbn [bind]. apply IH. exists ts'. rewrite <- app_assoc. auto.
Qed.
Lemma draws_app a b g : draws draw (a + b) g =
  (fst (draws draw a g) ++ fst (draws draw b (snd (draws draw a g))), snd (draws draw b (snd (draws draw a g)))).
Proof.
  revert g. induction a as [|a IH]; intros g; cbn [Nat.add draws].
  - cbn [fst snd app]. now destruct (draws draw b g).
  - destruct (draw g) as [p g1]. rewrite IH. destruct (draws draw a g1) as [l g2]. reflexivity.
Qed.
Lemma draws_length n : forall g, length (fst (draws draw n g)) = n.
Proof. induction n as [|n IH]; intros g; [easy|]. cbn [draws]. destruct (draw g) as [p g1]. specialize (IH g1). destruct (draws draw n g1). cbn in *. lia. Qed.
Lemma tries_split a b ts : tries (a ++ b) ts -> exists x y, ts = x ++ y /\ tries a x /\ tries b y.
Proof.
  revert ts. induction a as [|p a IH]; intros ts T; cbn in T.
  - exists [], ts. repeat split; [constructor|exact T].
  - inversion T as [|? s ? ts' V T']; subst. destruct (IH _ T') as (x & y & -> & X & Y). exists (finish p s :: x), y. repeat split; [now constructor|exact Y].
Qed.
Lemma random_parallel_iff workers orders : 1 <= workers -> (forall r, complete (Nat.min workers r) (orders r)) ->
  forall fuel n g study g' out, n <= fuel ->
  (random_parallel evaluate draw fuel workers n orders g study = Ok (g', out) <->
   exists ts, out = study ++ ts /\ tries (fst (draws draw n g)) ts /\ g' = snd (draws draw n g)).
Proof.
  intros W C. assert (base : forall g study g' out, Ok (g, study) = Ok (g', out) <-> exists ts, out = study ++ ts /\ tries (fst (draws draw 0 g)) ts /\ g' = snd (draws draw 0 g)).
  { intros. cbn [draws fst snd]. split.
    + intros [= <- <-]. exists []. rewrite app_nil_r. repeat split; constructor.
    + intros (ts & -> & T & ->). inversion T. now rewrite app_nil_r. }
  induction fuel as [|fuel IH]; intros n g study g' out L; cbn [random_parallel].
  - replace n with 0 by lia. apply base.
  - destruct (Nat.eqb_spec n 0) as [->|N]; [apply base|].
    pose proof (draws_app (Nat.min workers n) (n - Nat.min workers n) g) as D.
    replace (Nat.min workers n + (n - Nat.min workers n)) with n in D by lia. rewrite D. cbn [fst snd].
    pose proof (draws_length (Nat.min workers n) g) as DL.
    destruct (draws draw (Nat.min workers n) g) as [points g1]. cbn [fst snd] in *.
    assert (C' : complete (length points) (orders n)) by (rewrite DL; apply C).
    split.
    + destruct (pool evaluate (orders n) points) as [scores|] eqn:P; cbn [bind]; [|discriminate]. intros E.
      apply IH in E; [|lia]. destruct E as (ts & -> & T & ->). rewrite <- app_assoc. eexists. split; [reflexivity|]. split; [|easy].
      apply tries_app; [|exact T]. apply tries_record. now apply (pool_ok (orders n)).
    + intros (ts & -> & T & ->). apply tries_split in T. destruct T as (x & y & -> & X & Y).
      destruct (pool_total (orders n) points C' (tries_total _ _ X)) as [scores P]. rewrite P. cbn [bind]. apply IH; [lia|].
      exists y. rewrite <- app_assoc. repeat split; [|exact Y]. f_equal. f_equal.
      apply (tries_fun points); [exact X|]. apply tries_record. now apply (pool_ok (orders n)).
Qed.
End Pool.

(** ** The best trial *)
Lemma score_ltb_spec a b : failed_score a = false -> failed_score b = false -> (score_ltb a b = false <-> score_le b a).
Proof.
  intros A B. destruct a, b; cbn in *; try discriminate; try tauto; try (intuition discriminate).
  rewrite negb_false_iff. apply Qle_bool_iff.
Qed.
Lemma score_le_trans a b c : score_le a b -> score_le b c -> score_le a c.
Proof. destruct a, b, c; cbn; try tauto. intros. now apply Qle_trans with q0. Qed.
Lemma score_le_total a b : failed_score a = false -> failed_score b = false -> score_le a b \/ score_le b a.
Proof. destruct a, b; cbn; try discriminate; try tauto. intros _ _. destruct (Qlt_le_dec q q0); [left; now apply Qlt_le_weak|now right]. Qed.
Lemma as_good_trans m a b c : as_good m a b -> as_good m b c -> as_good m a c.
Proof. destruct m; cbn; intros; eapply score_le_trans; eassumption. Qed.
Lemma score_le_refl a : failed_score a = false -> score_le a a.
Proof. destruct a; cbn; try easy. intros _. apply Qle_refl. Qed.
Lemma better_spec m a b : failed_score a = false -> failed_score b = false -> (better m a b = false <-> as_good m b a).
Proof. destruct m; intros; cbn; now apply score_ltb_spec. Qed.
Lemma better_good m a b : failed_score a = false -> failed_score b = false -> better m a b = true -> as_good m a b.
Proof.
  intros A B H. assert (N : ~ as_good m b a) by (intros G; apply (better_spec m) in G; congruence).
  destruct (score_le_total a b A B), m; cbn in *; tauto.
Qed.

(** Scores in a study are numbers. *)
Definition scored (t : trial) : Prop := forall s, t_score t = Some s -> failed_score s = false.
Lemma finish_scored p s : scored (finish p s).
Proof. unfold scored, finish. cbn. destruct (failed_score s) eqn:F; [discriminate|]. now intros s' [= <-]. Qed.
Lemma tries_scored evaluate ps ts : tries evaluate ps ts -> Forall scored ts.
Proof. induction 1; constructor; [apply finish_scored|easy]. Qed.

Definition beaten (m : bool) (b : option (params * score)) (s : score) : Prop :=
  match b with None => False | Some (_, x) => as_good m x s end.
Lemma best_trial_spec m : forall study b, Forall scored study -> (forall p s, b = Some (p, s) -> failed_score s = false) ->
  match best_trial m study b with
  | None => b = None /\ forall t, In t study -> t_score t = None
  | Some (p, s) =>
      failed_score s = false /\
      (b = Some (p, s) \/ exists t, In t study /\ t_params t = p /\ t_score t = Some s) /\
      (forall p' s', b = Some (p', s') -> as_good m s s') /\
      (forall t s', In t study -> t_score t = Some s' -> as_good m s s')
  end.
Proof.
  induction study as [|t r IH]; intros b F Hb; cbn [best_trial].
  - destruct b as [[p s]|]; [|split; [easy|intros t []]]. split; [now apply (Hb p)|]. split; [now left|]. split; [|intros t s' []].
    intros p' s' [= <- <-]. pose proof (score_le_refl s (Hb p s eq_refl)). now destruct m.
  - inversion F as [|? ? Ft Fr]; subst.
    set (b' := match t_score t, b with None, _ => b | Some s, None => Some (t_params t, s)
               | Some s, Some (p, x) => if better m s x then Some (t_params t, s) else b end).
    assert (Hb' : forall p s, b' = Some (p, s) -> failed_score s = false).
    { intros p s. unfold b'. destruct (t_score t) as [x|] eqn:X; [|apply Hb]. destruct b as [[p0 x0]|].
      - destruct (better m x x0); [intros [= <- <-]; now apply Ft|apply Hb].
      - intros [= <- <-]. now apply Ft. }
    specialize (IH b' Fr Hb'). destruct (best_trial m r b') as [[p s]|].
    + destruct IH as (Fs & W & G & H). split; [exact Fs|].
      assert (Gt : forall x, t_score t = Some x -> as_good m s x).
      { intros x X. unfold b' in G. rewrite X in G. destruct b as [[p0 x0]|].
        - destruct (better m x x0) eqn:B; [now apply (G _ _ eq_refl)|]. apply as_good_trans with x0; [now apply (G _ _ eq_refl)|].
          apply better_spec in B; [exact B|now apply Ft|now apply (Hb p0)].
        - now apply (G _ _ eq_refl). }
      split; [|split].
      * destruct W as [W|(t' & I & W)]; [|right; exists t'; split; [now right|exact W]]. unfold b' in W.
        destruct (t_score t) as [x|] eqn:X; [|now left]. destruct b as [[p0 x0]|].
        -- destruct (better m x x0); [|now left]. injection W as <- <-. right. exists t. split; [now left|easy].
        -- injection W as <- <-. right. exists t. split; [now left|easy].
      * intros p' s' ->. unfold b' in G. destruct (t_score t) as [x|] eqn:X; [|now apply (G p')].
        destruct (better m x s') eqn:B; [|now apply (G p')]. apply as_good_trans with x; [now apply (G (t_params t))|].
        apply better_good in B; [exact B|now apply Ft|now apply (Hb p')].
      * intros t' s' [<-|I] E; [now apply Gt|now apply (H t')].
    + destruct IH as (N & H). unfold b' in N. destruct (t_score t) as [x|] eqn:X.
      * destruct b as [[p0 x0]|]; [destruct (better m x x0)|]; discriminate.
      * split; [exact N|]. intros t' [<-|I]; [exact X|now apply H].
Qed.

(** ** The grid *)
Lemma insert_name_perm {V} (x : nat * V) l : Permutation (insert_name x l) (x :: l).
Proof. induction l as [|y l IH]; cbn; [easy|]. destruct (fst x <=? fst y); [easy|]. rewrite IH. apply perm_swap. Qed.
Lemma sort_names_perm {V} (l : list (nat * V)) : Permutation (sort_names l) l.
Proof. induction l as [|x l IH]; cbn; [easy|]. rewrite insert_name_perm. now constructor. Qed.

Section Grid.
Context (scale : nat).
Definition sound (h : hyper) : Prop := post_init scale h = Ok tt /\ short scale h /\ searchable scale h.
Lemma iterates_fun h l l' : iterates scale h l -> iterates scale h l' -> l = l'.
Proof.
  intros [f F] [g G]. specialize (F g). specialize (G f). rewrite Nat.add_comm in G. rewrite F in G. now injection G.
Qed.
Lemma sound_iterates h : sound h -> exists n, 1 <= n /\ lattice_count scale h = Ok (Z.of_nat (n + 1)) /\
  (forall more, lattice_values scale (n + 2 + more) h = Ok (Some (line scale h n))).
Proof.
  intros (P & S & L). apply post_init_ok in P; [|exact S]. apply value_lt in L.
  destruct (lattice_spec scale h P S L) as (n & E & C & V). exists n. split; [|split; [exact C|exact V]].
  destruct n; [lia|lia].
Qed.
(** The candidates of all declarations, for enough fuel. *)
Lemma candidates_ok : forall space, Forall (fun x => sound (snd x)) space -> exists fuel grid, forall more,
  candidates scale (fuel + more) space = Ok (Some grid) /\
  Forall2 (fun x y => fst x = fst y /\ iterates scale (snd x) (snd y) /\ lattice_count scale (snd x) = Ok (Z.of_nat (length (snd y)))) space grid.
Proof.
  induction 1 as [|[name h] space Hh Hs IH]; [exists 0, []; intros; split; [easy|constructor]|].
  destruct IH as (f & grid & G). destruct (sound_iterates h Hh) as (n & N & C & V).
  exists (f + (n + 2)), ((name, line scale h n) :: grid). intros more. cbn [candidates]. destruct (G (n + 2 + more)) as [G1 G2].
  replace (f + (n + 2) + more) with (n + 2 + (f + more)) at 1 by lia. rewrite V. cbn [bind].
  replace (f + (n + 2) + more) with (f + (n + 2 + more)) by lia. rewrite G1. cbn [bind]. split; [easy|].
  constructor; [|exact G2]. cbn [fst snd]. split; [easy|]. split; [now exists (n + 2)|]. now rewrite line_length.
Qed.
Lemma grid_size_perm a b : Permutation a b -> Forall (fun x => sound (snd x)) a -> grid_size scale a = grid_size scale b.
Proof.
  induction 1; intros F; try easy.
  - inversion F; subst. destruct x as [n h]. cbn [grid_size]. now rewrite IHPermutation.
  - destruct x as [n h], y as [n' h']. inversion F as [|? ? A F']; subst. inversion F' as [|? ? B _]; subst. cbn [grid_size snd] in *.
    destruct (sound_iterates h') as (? & _ & C & _); [exact A|]. destruct (sound_iterates h) as (? & _ & C' & _); [exact B|]. rewrite C, C'. cbn [bind].
    destruct (grid_size scale l); cbn [bind]; [|easy]. f_equal. ring.
  - rewrite IHPermutation1 by easy. apply IHPermutation2. now rewrite <- H.
Qed.
Lemma product_length : forall space grid,
  Forall2 (fun (x : nat * hyper) (y : nat * list pynum) => fst x = fst y /\ iterates scale (snd x) (snd y) /\ lattice_count scale (snd x) = Ok (Z.of_nat (length (snd y)))) space grid ->
  grid_size scale space = Ok (Z.of_nat (length (product grid))).
Proof.
  induction 1 as [|[n h] [n' l] space grid (E & I & C) F IH]; [easy|]. cbn [grid_size product fst snd] in *. rewrite C, IH. cbn [bind]. f_equal.
  rewrite <- Nat2Z.inj_mul. f_equal. generalize (product grid) as q. intros q. clear. induction l as [|v l IH]; [easy|]. cbn [flat_map length].
  unfold params in *. rewrite app_length, map_length. lia.
Qed.
Lemma product_in : forall grid p, In p (product grid) <-> Forall2 (fun (x : nat * list pynum) (y : nat * pynum) => fst y = fst x /\ In (snd y) (snd x)) grid p.
Proof.
  induction grid as [|[n l] grid IH]; intros p; cbn [product].
  - split; [intros [<-|[]]; constructor|intros H; inversion H; now left].
  - rewrite in_flat_map. split.
    + intros (v & V & P). apply in_map_iff in P. destruct P as (q & <- & Q). constructor; [easy|now apply IH].
    + intros H. inversion H as [|? [n' v] ? q (A & B) F]; subst. cbn in *. subst. exists v. split; [exact B|]. apply in_map_iff. exists q. split; [easy|now apply IH].
Qed.
Lemma product_nodup : forall grid, Forall (fun x => NoDup (snd x)) grid -> NoDup (product grid).
Proof.
  induction 1 as [|[n l] grid N F IH]; cbn [product]; [repeat constructor; easy|]. cbn [snd] in N.
  induction N as [|v l NI N IHl]; cbn [flat_map]; [constructor|].
  assert (D : forall a b : list params, NoDup a -> NoDup b -> (forall x, In x a -> ~ In x b) -> NoDup (a ++ b)).
  { clear. induction a as [|x a IH]; cbn; intros b A B H; [easy|]. inversion A; subst. constructor.
    - rewrite in_app_iff. intros [I|I]; [easy|]. apply (H x); [now left|easy].
    - apply IH; [easy|easy|]. intros y Y. apply H. now right. }
  apply D; [|exact IHl|].
  - apply FinFun.Injective_map_NoDup; [intros a b [=]; easy|exact IH].
  - intros x X Y. apply in_map_iff in X. destruct X as (q & <- & _). apply in_flat_map in Y. destruct Y as (w & W & Y).
    apply in_map_iff in Y. destruct Y as (q' & [= -> _] & _). easy.
Qed.
Lemma line_nodup h n : sound h -> NoDup (line scale h n).
Proof.
  intros (P & S & _). apply post_init_ok in P; [|exact S]. destruct P as (U & Sp & _). apply value_pos in Sp.
  apply NoDup_nth_error. rewrite line_length. intros i j I E.
  destruct (units_line scale h n i U I) as (v & V & _ & Uv). rewrite V in E. symmetry in E.
  assert (J : j < n + 1) by (rewrite <- (line_length scale h n); apply nth_error_Some; congruence).
  destruct (units_line scale h n j U J) as (w & W & _ & Uw). assert (v = w) by congruence. subst w. nia.
Qed.
End Grid.
