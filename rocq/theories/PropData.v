(** Property C52. *)
From Verif Require Import DataProofs.

(** C52: with caching, whatever queries came before, a query answers with
    exactly the rows the vendor has for the requested symbols. Guarded: the
    vendor's rows for a symbol do not depend on what else is asked for and do not
    change (see the refutations below). *)
Theorem C52_rows_partial : forall seconds (v : vendor seconds) fetch order arg q w a w',
  serves v fetch -> enumerates order -> reaches seconds fetch fresh w -> queries seconds order fetch arg q w a w' ->
  (q_start q <= q_end q)%Z -> elements arg <> [] ->
  exists f, a = Frame f /\ exactly_rows v (elements arg) q (f_rows f)
    /\ (f_rows f <> [] -> forall c, In c (f_cols f) <-> In c (v_cols v q)).
Proof.
  intros seconds v fetch order arg q w a w' SV EN R (N & n & E) D NE. destruct n as [|n]; [cbn in E; inversion E; congruence|].
  destruct (reaches_trusted seconds v fetch _ _ SV (fresh_trusted seconds v) R) as [T _].
  destruct (honest_query seconds v fetch SV order EN n arg q w T) as (a' & w1 & E' & _ & _ & _ & A).
  rewrite E in E'. inversion E'; subst a' w1. destruct (Z.ltb_spec (q_end q) (q_start q)); [lia|].
  destruct (elements arg); [congruence|]. destruct A as (f & -> & G). exists f. split; [reflexivity|exact G].
Qed.
Print Assumptions C52_rows_partial.

(** C52: the answer is the answer without the cache, in whatever orders Python
    enumerates the sets of symbols. *)
Theorem C52_same_as_uncached_partial : forall seconds (v : vendor seconds) fetch order order' arg q w a w' b wb,
  serves v fetch -> enumerates order -> enumerates order' -> reaches seconds fetch fresh w ->
  queries seconds order fetch arg q w a w' -> queries seconds order' fetch arg q disabled b wb ->
  same_answer a b.
Proof.
  intros seconds v fetch order order' arg q w a w' b wb SV EN EN' R (N & n & E) (N' & n' & E').
  destruct n as [|n]; [cbn in E; inversion E; congruence|]. destruct n' as [|n']; [cbn in E'; inversion E'; congruence|].
  destruct (reaches_trusted seconds v fetch _ _ SV (fresh_trusted seconds v) R) as [T _].
  destruct (honest_query seconds v fetch SV order EN n arg q w T) as (a' & w1 & E1 & _ & _ & _ & A).
  destruct (honest_query seconds v fetch SV order' EN' n' arg q disabled (disabled_trusted seconds v)) as (b' & w2 & E2 & _ & _ & _ & B).
  rewrite E in E1. inversion E1; subst a' w1. rewrite E' in E2. inversion E2; subst b' w2.
  destruct (q_end q <? q_start q)%Z; [subst; reflexivity|].
  destruct (elements arg) as [|x l]; [subst; reflexivity|].
  destruct A as (f & -> & A1 & A2), B as (g & -> & B1 & B2). cbn [same_answer].
  pose proof (exactly_unique seconds v _ _ _ _ A1 B1) as Q. split; [exact Q|].
  intros NE c. rewrite (A2 NE c), <- (B2 ltac:(congruence) c). reflexivity.
Qed.
Print Assumptions C52_same_as_uncached_partial.

(** C52: for every vendor, cache and argument a query comes to an end, and all it
    asks of the vendor are the symbols without an entry; unless their columns
    differ from the cached ones, when it clears the cache once and asks for all
    symbols. *)
Theorem C52_calls : forall seconds order fetch arg q w, exists a w' l,
  queries seconds order fetch arg q w a w'
  /\ (forall b w'', queries seconds order fetch arg q w b w'' -> b = a /\ w'' = w')
  /\ w_log w' = w_log w ++ l
  /\ let todo := missing seconds order w arg q in
     (l = [] /\ ((q_end q < q_start q)%Z \/ todo = [])
      \/ l = [Fetched todo q]
      \/ w_cache w <> None
         /\ (l = [Fetched todo q; Cleared; Fetched (order (elements arg)) q]
             \/ elements (used arg) <> elements arg /\ exists r, l = [Fetched todo q; Cleared] ++ r /\ (r = [] \/ r = [Fetched (order []) q]))).
Proof.
  intros. destruct (query_log seconds order fetch arg q w 0) as (a & w' & l & E & N & L & C). exists a, w', l.
  assert (queries seconds order fetch arg q w a w') as Q by (split; [exact N|eexists; exact E]).
  split; [exact Q|]. split; [intros b w'' Q'; exact (queries_unique seconds order fetch arg q w b w'' a w' Q' Q)|].
  split; [exact L|]. cbv zeta in *.
  destruct C as [(C1 & _ & C2)|[(C1 & _)|(C1 & C2 & _ & C3 & _)]]; [left; auto|right; left; exact C1|]. right. right. split; [exact C1|].
  destruct arg as [l0|[|x l0]]; cbn [used elements] in *.
  - left. rewrite C3. destruct (order l0) as [|y t] eqn:O; [|reflexivity].
    exfalso. apply C2. unfold missing. cbn [elements]. rewrite O. destruct (w_cache w); reflexivity.
  - left. rewrite C3. destruct (order []) as [|y t] eqn:O; [|reflexivity].
    exfalso. apply C2. unfold missing. cbn [elements]. rewrite O. destruct (w_cache w); reflexivity.
  - right. split; [discriminate|]. eexists. split; [exact C3|]. destruct (order []); auto.
Qed.
Print Assumptions C52_calls.

(** C52: symbols that were answered with rows are not asked for again, however
    many queries come in between. *)
Theorem C52_no_second_fetch_partial : forall seconds (v : vendor seconds) fetch order order' arg arg' q q' w w1 w2 w3 f b,
  serves v fetch -> enumerates order -> enumerates order' -> reaches seconds fetch fresh w ->
  queries seconds order fetch arg q w (Frame f) w1 -> reaches seconds fetch w1 w2 ->
  queries seconds order' fetch arg' q' w2 b w3 ->
  (forall s, In s (elements arg') -> In s (elements arg) /\ v_rows v s q <> [] /\ same_request seconds q' q) ->
  w_log w3 = w_log w2.
Proof.
  intros seconds v fetch order order' arg arg' q q' w w1 w2 w3 f b SV EN EN' R (N & n & E) R' (N' & n' & E') S'.
  destruct n as [|n]; [cbn in E; inversion E|].
  destruct (reaches_trusted seconds v fetch _ _ SV (fresh_trusted seconds v) R) as [T K].
  destruct (K [] eq_refl) as (c & C & _).
  destruct (honest_query seconds v fetch SV order EN n arg q w T) as (a' & w1' & E1 & T1 & _ & K1 & _).
  rewrite E in E1. inversion E1; subst a' w1'. destruct (K1 c C) as (c1 & C1 & _ & G1).
  destruct (reaches_trusted seconds v fetch _ _ SV T1 R') as [T2 K2]. destruct (K2 c1 C1) as (c2 & C2 & G2).
  destruct (query_log seconds order' fetch arg' q' w2 0) as (b' & w3' & l & E3 & NB & L & CS).
  destruct (queries_unique seconds order' fetch arg' q' w2 b w3 b' w3') as [-> ->];
    [split; [exact N'|exists n'; exact E']|split; [exact NB|eexists; exact E3]|].
  assert (missing seconds order' w2 arg' q' = []) as M.
  { unfold missing. rewrite C2. assert (forall s, In s (order' (elements arg')) -> In s (elements arg')) as O by (intros; apply EN'; assumption).
    induction (order' (elements arg')) as [|s r IH]; [reflexivity|]. cbn [filter].
    destruct (S' s (O s (or_introl eq_refl))) as (I & NE & KE). apply (ckey_same seconds) with (s := s) in KE. rewrite KE.
    pose proof (G2 _ (G1 f eq_refl s I NE)) as NN. destruct (cache_get (cache_key seconds q s) c2); [|congruence].
    apply IH. intros t It. apply O. right. exact It. }
  cbv zeta in CS. rewrite M in CS.
  destruct CS as [(-> & _)|[(_ & Bad & _)|(_ & Bad & _)]]; [|congruence|congruence]. rewrite L. apply app_nil_r.
Qed.
Print Assumptions C52_no_second_fetch_partial.

(** C52: for every vendor, when the cache is cleared the answer is that of a query
    without the cache. *)
Theorem C52_after_reset : forall seconds order fetch l q w a w' b wb,
  queries seconds order fetch (Many l) q w a w' -> In Cleared (skipn (length (w_log w)) (w_log w')) ->
  queries seconds order fetch (Many l) q disabled b wb -> a = b.
Proof.
  intros seconds order fetch l q w a w' b wb Q C (N & n & E).
  destruct (query_log seconds order fetch (Many l) q w 0) as (a' & w1 & lg & E1 & N1 & L & CS).
  destruct (queries_unique seconds order fetch _ _ _ _ _ a' w1 Q) as [-> ->]; [split; [exact N1|eexists; exact E1]|].
  rewrite L, skipn_app, skipn_all, Nat.sub_diag in C. cbn [skipn app] in C. cbv zeta in CS.
  destruct CS as [(-> & _)|[(-> & _)|(_ & _ & _ & _ & _ & U)]]; [destruct C|destruct C as [C|[]]; discriminate|].
  destruct n as [|n]; [cbn in E; inversion E; congruence|]. specialize (U n []). cbn [used] in U.
  fold disabled in U. rewrite E in U. exact (eq_sym U).
Qed.
Print Assumptions C52_after_reset.

(** C52: for every vendor, a query that fails stores nothing. *)
Theorem C52_failure_stores_nothing : forall seconds order fetch arg q w e w',
  queries seconds order fetch arg q w (Raises e) w' ->
  w_cache w' = w_cache w \/ w_cache w' = Some [] /\ In Cleared (skipn (length (w_log w)) (w_log w')).
Proof.
  intros seconds order fetch arg q w e w' Q.
  destruct (query_log seconds order fetch arg q w 0) as (a' & w1 & lg & E1 & N1 & L & CS).
  destruct (queries_unique seconds order fetch _ _ _ _ _ a' w1 Q) as [<- ->]; [split; [exact N1|eexists; exact E1]|].
  cbv zeta in CS. destruct CS as [(_ & H & _)|[(_ & _ & _ & H)|(_ & _ & _ & LG & H & _)]]; [auto|left; apply (H e); reflexivity|].
  right. split; [apply (H e); reflexivity|]. rewrite L, skipn_app, skipn_all, Nat.sub_diag, LG. cbn. auto.
Qed.
Print Assumptions C52_failure_stores_nothing.

(** C52: the order of a vendor's own rows for one symbol at one date is kept, and
    a symbol that was not asked for never appears. *)
Theorem C52_only_requested_partial : forall seconds (v : vendor seconds) fetch order arg q w f w' x,
  serves v fetch -> enumerates order -> reaches seconds fetch fresh w ->
  queries seconds order fetch arg q w (Frame f) w' ->
  In x (f_rows f) <-> In (r_symbol x) (elements arg) /\ In x (v_rows v (r_symbol x) q).
Proof.
  intros seconds v fetch order arg q w f w' x SV EN R (N & n & E).
  destruct n as [|n]; [cbn in E; inversion E|].
  destruct (reaches_trusted seconds v fetch _ _ SV (fresh_trusted seconds v) R) as [T _].
  destruct (honest_query seconds v fetch SV order EN n arg q w T) as (a' & w1 & E' & _ & _ & _ & A).
  rewrite E in E'. inversion E'; subst a' w1. destruct (q_end q <? q_start q)%Z; [discriminate|].
  destruct (elements arg) as [|y l] eqn:EA; [discriminate|]. rewrite <- EA in *. destruct A as (f' & F & (_ & G) & _).
  inversion F; subst f'. specialize (G (r_symbol x) (r_date x)).
  assert (In x (f_rows f) <-> In x (filter (fun y => (r_symbol y =? r_symbol x) && (r_date y =? r_date x)%Z) (f_rows f))) as ->
    by (rewrite filter_In, Nat.eqb_refl, Z.eqb_refl; tauto).
  rewrite G. destruct (mem (r_symbol x) (elements arg)) eqn:M.
  - apply mem_spec in M. rewrite filter_In, Z.eqb_refl. tauto.
  - apply mem_false in M. cbn. tauto.
Qed.
Print Assumptions C52_only_requested_partial.

(** C52: whatever the vendor answers, a frame that a query returns has the six
    columns symbol, date, open, high, low and close, with the cache or without. *)
Theorem C52_columns : forall seconds order fetch arg q w w0 f w' c, w0 = fresh \/ w0 = disabled -> reaches seconds fetch w0 w ->
  queries seconds order fetch arg q w (Frame f) w' -> In c [SYMBOL; DATE; OPEN; HIGH; LOW; CLOSE] -> In c (f_cols f).
Proof.
  intros seconds order fetch arg q w w0 f w' c W0 R (_ & n & E) I.
  assert (S : sound_world w).
  { clear E. induction R as [w|w w1 w2 order' arg' q' a R IH _ (_ & m & Q)]; [destruct W0 as [->| ->]; [intros k g []|exact Logic.I]|].
    exact (proj1 (query_required _ _ _ _ _ _ _ _ _ Q (IH W0))). }
  exact (proj2 (query_required _ _ _ _ _ _ _ _ _ E S) f eq_refl c I).
Qed.
Print Assumptions C52_columns.

(** The hypotheses can be met: a vendor with two bars of symbol 1 and one of symbol 2. *)
Definition ex_rows (s : nat) (q : request) : list row :=
  match s with
  | 1 => [mk_row 1 10%Z [(CLOSE, 5%Q)]; mk_row 1 11%Z [(CLOSE, 6%Q)]]
  | 2 => [mk_row 2 10%Z [(CLOSE, 7%Q)]]
  | _ => []
  end.
Definition ex_vendor : vendor S.
Proof.
  refine (mk_vendor S ex_rows (fun _ => required) _ _ _ _); [|auto|auto|auto].
  intros [|[|[|s]]] q x; cbn; intuition (subst; reflexivity).
Defined.
Definition ex_order := nodup Nat.eq_dec.
Definition ex_fetch (syms : list nat) (q : request) : option frame :=
  Some (mk_frame required (flat_map (fun s => ex_rows s q) (ex_order syms))).
Definition ex_q := mk_request 1 0%Z 20%Z 0 0.
Example ex_enumerates : enumerates ex_order.
Proof. intros l. split; [apply NoDup_nodup|apply nodup_In]. Qed.
Example ex_serves : serves ex_vendor ex_fetch.
Proof.
  intros syms q. eexists. split; [reflexivity|]. split; [|right; reflexivity]. intros s. cbn [f_rows].
  rewrite of_symbol_flat; [|apply NoDup_nodup|intros; eapply (v_rows_sym _ ex_vendor); eassumption].
  replace (mem s (ex_order syms)) with (mem s syms); [reflexivity|].
  apply eq_true_iff_eq. rewrite !mem_spec. symmetry. apply nodup_In.
Qed.
Lemma runs order fetch arg q w : fst (query S order fetch 2 arg q w) <> Deeper ->
  queries S order fetch arg q w (fst (query S order fetch 2 arg q w)) (snd (query S order fetch 2 arg q w)).
Proof. intros N. split; [exact N|]. exists 2. destruct (query _ _ _ _ _ _ _); reflexivity. Qed.
Lemma after fetch arg q : fst (query S ex_order fetch 2 arg q fresh) <> Deeper ->
  reaches S fetch fresh (snd (query S ex_order fetch 2 arg q fresh)).
Proof. intros N. eapply one_more; [apply no_query|exact ex_enumerates|apply runs; exact N]. Qed.
(** Symbol 1 is cached first; then both are asked for and only 2 is fetched. *)
Example ex_C52 : exists w f w',
  reaches S ex_fetch fresh w
  /\ queries S ex_order ex_fetch (Many [2; 1; 2]) ex_q w (Frame f) w'
  /\ w_log w' = [Fetched [1] ex_q; Fetched [2] ex_q]
  /\ map (fun x => (r_date x, r_symbol x)) (f_rows f) = [(10%Z, 1); (10%Z, 2); (11%Z, 1)].
Proof.
  eexists _, _, _. split; [apply (after ex_fetch (Many [1]) ex_q); vm_compute; discriminate|].
  split; [split; [discriminate|exists 2; vm_compute; reflexivity]|]. split; reflexivity.
Qed.

(** C52 fails when [symbols] is an iterator and the cache is cleared: the second
    attempt finds no symbols and raises, though without the cache the query is
    answered. *)
Definition ex_q2 := mk_request 2 0%Z 20%Z 0 0.
Definition new_columns (syms : list nat) (q : request) : option frame :=
  Some (mk_frame (VOLUME :: required) (flat_map (fun s => ex_rows s q) (ex_order syms))).
Theorem C52_iterator_refuted : exists w w' f wb,
  reaches S ex_fetch fresh w
  /\ queries S ex_order new_columns (Once [1; 2]) ex_q w (Raises No_symbols) w'
  /\ queries S ex_order new_columns (Once [1; 2]) ex_q disabled (Frame f) wb
  /\ f_rows f <> [].
Proof.
  eexists _, _, _, _. split; [apply (after ex_fetch (Many [1]) ex_q); vm_compute; discriminate|].
  split; [split; [discriminate|exists 2; vm_compute; reflexivity]|].
  split; [split; [discriminate|exists 2; vm_compute; reflexivity]|]. discriminate.
Qed.
Print Assumptions C52_iterator_refuted.

(** C52 fails for YFinance: together with other symbols a symbol gets a row of NaN
    on each date on which only the others trade, alone it does not, so which rows a
    query returns depends on what was cached before. *)
Definition yf_bars (s : nat) : list (Z * list (nat * Q)) :=
  match s with
  | 1 => [(10%Z, [(CLOSE, 5%Q)])]
  | 2 => [(10%Z, [(CLOSE, 7%Q)]); (11%Z, [(CLOSE, 8%Q)])]
  | _ => []
  end.
Definition yf (auto_adjust : bool) (syms : list nat) (q : request) : option frame := Some (yf_fetch auto_adjust yf_bars syms).
Theorem C52_yfinance_refuted : exists w w' f g wb,
  reaches S (yf false) fresh w
  /\ queries S ex_order (yf false) (Many [1; 2]) ex_q w (Frame f) w'
  /\ queries S ex_order (yf false) (Many [1; 2]) ex_q disabled (Frame g) wb
  /\ length (f_rows f) = 3 /\ length (f_rows g) = 4.
Proof.
  eexists _, _, _, _, _. split; [apply (after (yf false) (Many [1]) ex_q); vm_compute; discriminate|].
  split; [split; [discriminate|exists 2; vm_compute; reflexivity]|].
  split; [split; [discriminate|exists 2; vm_compute; reflexivity]|]. split; reflexivity.
Qed.
Print Assumptions C52_yfinance_refuted.

(** C52 fails for two YFinance sources that differ in [auto_adjust]: it is not in
    the cache key, so the second source is answered with the first one's data. *)
Theorem C52_auto_adjust_refuted : exists w f w' g wb,
  reaches S (yf true) fresh w
  /\ queries S ex_order (yf false) (Many [1]) ex_q w (Frame f) w' /\ w_log w' = w_log w
  /\ queries S ex_order (yf false) (Many [1]) ex_q disabled (Frame g) wb
  /\ ~ In ADJ_CLOSE (f_cols f) /\ In ADJ_CLOSE (f_cols g).
Proof.
  eexists _, _, _, _, _. split; [apply (after (yf true) (Many [1]) ex_q); vm_compute; discriminate|].
  split; [split; [discriminate|exists 2; vm_compute; reflexivity]|]. split; [reflexivity|].
  split; [split; [discriminate|exists 2; vm_compute; reflexivity]|]. cbn. intuition discriminate.
Qed.
Print Assumptions C52_auto_adjust_refuted.
