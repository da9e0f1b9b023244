(** Property C69: computing a set of indicators on a frame. *)
From Coq Require Import List Bool Arith ZArith QArith Permutation Sorted Lia.
From Verif Require Import IndSetSpec IndSetProofs IndicatorCaches IndicatorProofs StoreProofs.
Import ListNotations.
Open Scope nat_scope.

(** C69: the set holds what was added by accepted calls and not removed since. *)
Theorem C69_members : forall ops, NoDup (set_run ops) /\ forall n, In n (set_run ops) <-> holds n ops.
Proof. intros ops. split; [apply set_run_nodup|]. intros n. apply set_run_holds. Qed.
Print Assumptions C69_members.

(** C69: the frame returned. A row for each row of the input, by symbol and date;
    a column for each indicator, by name; and in each column the rows of a symbol
    hold what the indicator gives alone on that symbol's bars in date order. It
    raises only without indicators or when one of them raises alone. *)
Theorem C69_frame : forall scale parse registry default custom names cols frame schedule,
  NoDup names -> (forall n, In n names -> parse n = (n, None)) ->
  declared_once (mk_world [] [] registry [] []) -> (forall order, schedule = Some order -> forall n, complete n (order n)) ->
  match indicator_set scale parse registry default custom names cols frame schedule with
  | Ok out => exists rows, in_order frame rows /\
      o_syms out = map (fun r => Some (fr_sym r)) rows /\ o_dates out = map (fun r => Some (fr_date r)) rows /\
      Permutation (map fst (o_cols out)) names /\ (frame <> [] -> StronglySorted lt (map fst (o_cols out))) /\
      forall name col, In (name, col) (o_cols out) -> length col = length rows /\
        forall s, In s (map fr_sym frame) -> exists ind, dict_get registry name = Some ind /\
          gives ind (bars_of default custom cols (of_symbol s rows)) (entries_of s rows col)
  | Raise _ => names = [] \/ exists name s rows, In name names /\ In s (map fr_sym frame) /\ in_order frame rows /\
      forall ind values, dict_get registry name = Some ind -> ~ gives ind (bars_of default custom cols (of_symbol s rows)) values
  end.
Proof.
  intros scale parse registry default custom names cols frame schedule Nn P D Sc. unfold indicator_set.
  destruct names as [|n0 names0]; [now left|]. set (names := n0 :: names0) in *.
  destruct frame as [|r0 frame0].
  { exists []. split; [split; [easy|split; [constructor|easy]]|]. split; [easy|]. split; [easy|]. cbn [o_cols]. rewrite map_map. cbn [fst]. rewrite map_id. split; [reflexivity|]. split; [easy|].
    intros name col I. apply in_map_iff in I. destruct I as (x & [= <- <-] & _). split; [easy|]. intros s []. }
  set (frame := r0 :: frame0) in *. set (syms := unique_syms (map fr_sym frame)). set (rows := lexsort frame).
  set (store := map (fun x => (fst x, arrays_of cols (snd x))) (store_from_flat frame None)).
  set (w := mk_world store [] registry default custom). set (c := mk_call (list_prod names syms) None schedule true None true).
  assert (Or : in_order frame rows) by (split; [apply lexsort_perm|split; [exact (lexsort_sorted frame)|intros s d; apply (lexsort_rows_at s d frame)]]).
  assert (Is : forall s, In s syms <-> In s (map fr_sym frame)) by (intros s; unfold syms, unique_syms; rewrite set_update_in; cbn; tauto).
  assert (Rs : forall s, In s (map fr_sym frame) <-> of_sym s rows <> []).
  { intros s. split.
    - intros I Z. apply in_map_iff in I. destruct I as (r & E & I). assert (In r (of_sym s rows)) by (apply filter_In; split; [now apply lexsort_In|now apply Nat.eqb_eq]). now rewrite Z in H.
    - intros Z. destruct (of_sym s rows) as [|r l] eqn:E; [easy|]. assert (I : In r (of_sym s rows)) by (rewrite E; now left). apply filter_In in I. destruct I as [I X]. apply Nat.eqb_eq in X. apply (proj1 (lexsort_In frame _)) in I. subst s. now apply (in_map fr_sym). }
  assert (Lk : forall s, In s (map fr_sym frame) -> dict_get store s = Some (arrays_of cols (of_sym s rows))).
  { intros s I. apply Rs in I. assert (E : dict_get store s = option_map (arrays_of cols) (lookup s (store_from_flat frame None))).
    { unfold store. generalize (store_from_flat frame None). clear. induction l as [|[k v] l IH]; [easy|]. cbn [map dict_get lookup fst snd]. destruct (Nat.eqb_spec s k) as [->|N]; [easy|exact IH]. }
    rewrite E, store_from_flat_lookup. fold rows. now destruct (of_sym s rows). }
  (* what is alone in the model's world *)
  assert (Al : forall name s ser, In name names -> In s (map fr_sym frame) -> (alone parse w None (name, s) ser <->
    exists ind, dict_get registry name = Some ind /\ gives ind (bars_of default custom cols (of_symbol s rows)) (map snd ser) /\ ser = combine (map fr_date (of_symbol s rows)) (map snd ser))).
  { intros name s ser N I. change (of_symbol s rows) with (of_sym s rows).
    assert (B : mk_bars (fst (arrays_of cols (of_sym s rows))) (map (fun c0 => (c0, dict_get (snd (arrays_of cols (of_sym s rows))) c0)) default)
        (map (fun c0 => (c0, dict_get (snd (arrays_of cols (of_sym s rows))) c0)) custom) = bars_of default custom cols (of_sym s rows)).
    { unfold bars_of. assert (G : forall c0, dict_get (snd (arrays_of cols (of_sym s rows))) c0 = if existsb (Nat.eqb c0) cols then Some (map (fun r => fr_vals r c0) (of_sym s rows)) else None).
      { intros c0. cbn [arrays_of snd]. clear. induction cols as [|k l IH]; [easy|]. cbn [map dict_get existsb]. destruct (Nat.eqb_spec c0 k) as [->|E]; [easy|exact IH]. }
      f_equal; apply map_ext; intros c0; now rewrite G. }
    unfold alone, source. cbn [fst snd w_registry w_store w_intervals w_default w_custom w]. rewrite (P name N). cbn [fst snd]. rewrite (Lk s I). split.
    - intros (ind & bars & args & values & R & (_ & dates & cs & [= E1 E2] & Eb) & Ar & F & L & Es). subst dates cs. change (map fr_date (of_sym s rows)) with (fst (arrays_of cols (of_sym s rows))) in Eb.
      change (map (fun c0 => (c0, map (fun r => fr_vals r c0) (of_sym s rows))) cols) with (snd (arrays_of cols (of_sym s rows))) in Eb. rewrite B in Eb. subst bars.
      assert (V : map snd ser = values) by (rewrite Es; apply map_snd_combine; now rewrite L). exists ind. split; [exact R|]. rewrite V. split; [|exact Es]. now exists args.
    - intros (ind & R & (args & Ar & F & L) & Es). exists ind, (bars_of default custom cols (of_sym s rows)), args, (map snd ser). split; [exact R|]. split; [|now split].
      split; [pose proof (Lk s I) as X; apply dict_get_in in X; now apply (in_map fst) in X|]. exists (fst (arrays_of cols (of_sym s rows))), (snd (arrays_of cols (of_sym s rows))). now split. }
  assert (Ws : store <> []).
  { intros Z. assert (I : In (fr_sym r0) (map fr_sym frame)) by now left. apply Lk in I. now rewrite Z in I. }
  assert (Cs : list_prod names syms <> []).
  { assert (I : In (n0, fr_sym r0) (list_prod names syms)) by (apply in_prod; [now left|apply Is; now left]). intros Z. now rewrite Z in I. }
  pose proof (compute_ok scale parse [(w, c)] (start []) w c) as C. fold w c.
  destruct (compute_indicators scale parse (start []) w c) as [st' out0] eqn:Ec. destruct C as (Rt & _).
  { intros w1 c1 w2 c2 f k [[= <- <-]|[]] [[= <- <-]|[]] _ _ _ _ _ _. split; [easy|]. intros; reflexivity. }
  { now left. }
  { exact D. }
  { intros p base ind key h v [=]. }
  { exact Sc. }
  { exact Cs. }
  { exact Ws. }
  { split; [now left|]. intros k s []. }
  cbn [snd]. destruct out0 as [d|e].
  2: { right. destruct Rt as ([name s] & I & N). apply in_prod_iff in I. destruct I as [In1 In2]. apply Is in In2. exists name, s, rows. split; [exact In1|]. split; [exact In2|]. split; [exact Or|].
       intros ind values R G. assert (L : length values = length (of_symbol s rows)) by (destruct G as (args & _ & _ & L); rewrite L; cbn; apply map_length).
       apply (N (combine (map fr_date (of_symbol s rows)) values)). apply Al; [exact In1|exact In2|]. exists ind.
       assert (V : map snd (combine (map fr_date (of_symbol s rows)) values) = values) by (apply map_snd_combine; now rewrite map_length). rewrite V. now split. }
  destruct Rt as (Nd & Kd & Ad). cbn [c_syms c c_hyperparams] in Kd, Ad.
  set (ss := sort_nats (unique_syms (map (fun e => snd (fst e)) d))).
  assert (Ss : forall s, In s ss <-> In s (map fr_sym frame)).
  { intros s. unfold ss. split.
    - intros I. apply (Permutation_in _ (sort_nats_perm _)) in I. unfold unique_syms in I. apply set_update_in in I. destruct I as [[]|I]. apply in_map_iff in I. destruct I as ([[k s'] ser] & <- & I). cbn [fst snd].
      apply (in_map fst) in I. apply Kd, in_prod_iff in I. now apply Is.
    - intros I. apply (Permutation_in _ (Permutation_sym (sort_nats_perm _))). unfold unique_syms. apply set_update_in. right. apply Is in I.
      assert (J : In (n0, s) (list_prod names syms)) by (apply in_prod; [now left|exact I]). apply Kd in J. apply in_map_iff in J. destruct J as ([k ser] & E & J). cbn in E. subst k.
      apply (in_map (fun e : ind_sym * series => snd (fst e))) in J. exact J. }
  assert (Sl : StronglySorted lt ss) by (apply sort_nats_sorted, set_update_nodup; constructor).
  assert (Sn : NoDup ss) by (apply Permutation_NoDup with (unique_syms (map (fun e => snd (fst e)) d)); [symmetry; apply sort_nats_perm|apply set_update_nodup; constructor]).
  assert (Fl : flat_map (fun s => of_sym s rows) ss = rows).
  { apply by_symbol; [apply lexsort_sorted|exact Sl|]. intros r I. apply (proj1 (lexsort_In frame _)) in I. apply Ss. now apply (in_map fr_sym). }
  assert (Lc : forall k s ser, In ((k, s), ser) d -> In k names /\ In s (map fr_sym frame) /\ length ser = length (of_sym s rows)).
  { intros k s ser I. pose proof (Ad _ _ I) as A. apply (in_map fst) in I. apply Kd, in_prod_iff in I. destruct I as [I1 I2]. apply Is in I2. split; [exact I1|]. split; [exact I2|].
    apply Al in A; [|exact I1|exact I2]. destruct A as (ind & _ & (args & _ & _ & L) & _). rewrite map_length in L. rewrite L. cbn. apply map_length. }
  assert (Ex : forall k s, In k names -> In s ss -> exists ser, In ((k, s), ser) d).
  { intros k s K I. apply Ss, Is in I. assert (J : In (k, s) (list_prod names syms)) by (now apply in_prod). apply Kd in J. apply in_map_iff in J. destruct J as ([k' ser] & E & J). cbn in E. subst k'. now exists ser. }
  assert (Sum : list_sum (map (fun s => length (map fr_date (of_sym s rows))) ss) = length frame).
  { rewrite <- (Permutation_length (lexsort_perm frame)). fold rows. transitivity (length (flat_map (fun s => of_sym s rows) ss)); [|now rewrite Fl]. clear. induction ss as [|s l IH]; [easy|].
    change (list_sum (map (fun s0 => length (map fr_date (of_sym s0 rows))) (s :: l))) with (length (map fr_date (of_sym s rows)) + list_sum (map (fun s0 => length (map fr_date (of_sym s0 rows))) l)).
    cbn [flat_map]. now rewrite app_length, IH, map_length. }
  destruct (fill_ok store d names (fun s => map fr_date (of_sym s rows)) Nn Nd ss [] [] (fun _ => []) Sn) as (out & F & O1 & O2 & O3).
  { intros s I. apply Ss in I. rewrite (Lk s I). eexists. reflexivity. }
  { intros k s ser I. destruct (Lc k s ser I) as (A & _ & B). split; [exact A|]. now rewrite map_length. }
  { exact Ex. }
  { easy. }
  { easy. }
  cbv zeta in F. rewrite Sum in F. cbn [app length] in F. fold ss. rewrite F. cbn [bind]. rewrite O3. cbn [app].
  rewrite pick_cols_ok by (intros k K; now apply (Permutation_in _ (sort_nats_perm names))). cbn [bind].
  exists rows. split; [exact Or|]. cbn [o_syms o_dates o_cols]. split; [|split; [|split; [|split]]].
  - rewrite O1. cbn [app]. transitivity (map (fun r => Some (fr_sym r)) (flat_map (fun s => of_sym s rows) ss)); [|now rewrite Fl]. rewrite flat_map_concat_map, (flat_map_concat_map _ ss), concat_map, map_map. f_equal. apply map_ext. intros s. rewrite map_length.
    assert (G : forall r, In r (of_sym s rows) -> fr_sym r = s) by (intros r I; apply filter_In in I; now apply Nat.eqb_eq). revert G. generalize (of_sym s rows). clear.
    induction l as [|r l IH]; intros G; [easy|]. cbn. rewrite (G r) by now left. f_equal. apply IH. intros x I. apply G. now right.
  - rewrite O2. cbn [app]. transitivity (map (fun r => Some (fr_date r)) (flat_map (fun s => of_sym s rows) ss)); [|now rewrite Fl]. rewrite flat_map_concat_map, (flat_map_concat_map _ ss), concat_map, map_map. f_equal. apply map_ext. intros s. now rewrite map_map.
  - rewrite map_map. cbn [fst]. rewrite map_id. apply sort_nats_perm.
  - intros _. rewrite map_map. cbn [fst]. rewrite map_id. now apply sort_nats_sorted.
  - intros name col I. apply in_map_iff in I. destruct I as (k & [= -> <-] & K). apply (Permutation_in _ (sort_nats_perm names)) in K.
    assert (Lv : forall s, In s ss -> length (of_sym s rows) = length (vals d name s)).
    { intros s I. destruct (Ex name s K I) as (ser & J). rewrite (vals_in d name s ser Nd J), map_length. destruct (Lc _ _ _ J) as (_ & _ & L). now rewrite L. }
    split.
    + transitivity (length (flat_map (fun s => of_sym s rows) ss)); [|now rewrite Fl]. clear - Lv. induction ss as [|s l IH]; [easy|]. cbn [flat_map]. rewrite !app_length, (Lv s) by now left. f_equal. apply IH. intros s' I. apply Lv. now right.
    + intros s I. apply Ss in I. destruct (Ex name s K I) as (ser & J). pose proof (Ad _ _ J) as A. apply Al in A; [|exact K|now apply Ss]. destruct A as (ind & R & G & _). exists ind. split; [exact R|].
      assert (E : entries_of s rows (flat_map (vals d name) ss) = map snd ser).
      { unfold entries_of. replace (combine rows (flat_map (vals d name) ss)) with (combine (flat_map (fun s => of_sym s rows) ss) (flat_map (vals d name) ss)) by now rewrite Fl. rewrite combine_flat by exact Lv. rewrite (pick_symbol (fun s => combine (of_sym s rows) (vals d name s)) (fun x => fr_sym (fst x)) s ss Sn I).
        - rewrite map_snd_combine by now rewrite Lv. now apply vals_in.
        - intros s' [r v] X. apply in_combine_l in X. apply filter_In in X. cbn. now apply Nat.eqb_eq. }
      now rewrite E.
Qed.
Print Assumptions C69_frame.

(** A concrete set and frame: two indicators (one removed), two symbols, rows out of
    order, workers that finish in reverse. *)
Definition ex69_close := mk_indicator []
  (fun bars _ => match bd_default bars with [(_, Some close)] => Ok (1, map Some close) | _ => Raise UserErr end).
Definition ex69_lagged := mk_indicator [(7, KVal (PInt 1))]
  (fun bars _ => match bd_default bars with [(_, Some (x :: r))] => Ok (1, None :: removelast (map Some (x :: r))) | _ => Raise UserErr end).
Definition ex69_ops := [SAdd [Some 3; Some 1]; SAdd [Some 2; None]; SAdd [Some 2; Some 1]; SRemove [Some 3]].
Definition ex69_frame : list (frame_row (nat -> Q)) :=
  [mk_frame_row 2 11%Z (fun _ => 5%Q); mk_frame_row 1 12%Z (fun _ => 4%Q); mk_frame_row 2 10%Z (fun _ => 6%Q); mk_frame_row 1 10%Z (fun _ => 7%Q); mk_frame_row 1 11%Z (fun _ => 8%Q)].
Example ex_C69 : set_run ex69_ops = [1; 2] /\
  declared_once (mk_world [] [] [(1, ex69_close); (2, ex69_lagged)] [] []) /\
  indicator_set 2 (fun n => (n, None)) [(1, ex69_close); (2, ex69_lagged)] [4] [] [1; 2] [4] ex69_frame (Some (fun n => rev (seq 0 n))) =
  Ok (mk_out [Some 1; Some 1; Some 1; Some 2; Some 2] [Some 10; Some 11; Some 12; Some 10; Some 11]%Z
             [(1, [Some 7; Some 8; Some 4; Some 6; Some 5]%Q); (2, [None; Some 7; Some 8; None; Some 6]%Q)]).
Proof.
  split; [reflexivity|]. split; [|vm_compute; reflexivity].
  intros base ind [[= <- <-]|[[= <- <-]|[]]]; cbn; (split; [intros key h key' h'|intros key h]); intuition discriminate.
Qed.
