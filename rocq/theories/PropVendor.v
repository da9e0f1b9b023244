(** C104 and C105: what the vendors of bars are asked, and what becomes of
    AKShare's answers. *)
From Verif Require Import VendorSpec VendorProofs VendorRows.
Import ListNotations.
Open Scope list_scope.
Open Scope Z_scope.

(** C104. Alpaca is asked for a well-formed timeframe (TextSpec.timeframe) exactly
    if it has one part in minutes, hours, days or weeks, and then for the amount and
    the unit of that part; without a timeframe the query raises. *)
Theorem C104_alpaca : forall s parts n u, timeframe s parts ->
  (alpaca_asks (Some s) = Some (n, u) <-> exists name secs, alpaca_unit u name secs /\ parts = [(n, name)]).
Proof.
  intros s parts n u T. pose proof (timeframe_parses _ _ T) as P. rewrite alpaca_asks_parse, parse_alpaca_iff. split.
  - intros (s' & name & secs & E & U & P'). injection E as <-. exists name, secs. split; [easy|]. congruence.
  - intros (name & secs & U & ->). now exists s, name, secs.
Qed.
Print Assumptions C104_alpaca.
(** For every timeframe: what Alpaca is asked for lasts as long as the timeframe. *)
Theorem C104_alpaca_seconds : forall tf n u, alpaca_asks tf = Some (n, u) ->
  exists name secs, alpaca_unit u name secs /\ to_seconds tf = Some (n * secs).
Proof.
  intros tf n u H. rewrite alpaca_asks_parse, parse_alpaca_iff in H. destruct H as (s & name & secs & -> & U & P).
  exists name, secs. split; [easy|]. apply (seconds_one _ _ name _ P). destruct U; comp.
Qed.
Print Assumptions C104_alpaca_seconds.
Theorem C104_alpaca_none : alpaca_asks None = None /\ alpaca_asks (Some []) = None.
Proof. split; reflexivity. Qed.
Print Assumptions C104_alpaca_none.
Example C104_alpaca_ex : alpaca_asks (Some (lit " 15M ")) = Some (15, Minute) /\ alpaca_asks (Some (lit "1h 30m")) = None
  /\ alpaca_asks (Some (lit "30s")) = None.
Proof. repeat split; comp. Qed.

(** AKShare and YQuery answer exactly the timeframes they support, and ask for bars
    of that length; no timeframe is one day. Others raise. *)
Theorem C104_periods : forall s parts period, timeframe s parts ->
  (ak_period (Some s) = Some period <-> exists n u secs, ak_supports n u period secs /\ parts = [(n, u)])
  /\ (yq_period (Some s) = Some period <-> exists n u secs, yq_supports n u period secs /\ parts = [(n, u)]).
Proof.
  intros s parts period T. pose proof (timeframe_parses _ _ T) as P. assert (N : s <> []) by (intros ->; discriminate P).
  rewrite (ak_period_iff _ _ N), (yq_period_iff _ _ N).
  split; (split; [intros (n & u & secs & U & Q)|intros (n & u & secs & U & ->)]; exists n, u, secs; (split; [easy|congruence])).
Qed.
Print Assumptions C104_periods.
Theorem C104_period_seconds : forall s period, s <> [] ->
  (ak_period (Some s) = Some period -> exists n u secs, ak_supports n u period secs /\ to_seconds (Some s) = Some secs)
  /\ (yq_period (Some s) = Some period -> exists n u secs, yq_supports n u period secs /\ to_seconds (Some s) = Some secs).
Proof.
  intros s period N. rewrite (ak_period_iff _ _ N), (yq_period_iff _ _ N).
  split; intros (n & u & secs & U & P); exists n, u, secs; (split; [easy|]); destruct U;
    (erewrite (seconds_one _ _ _ _ P) by (vm_compute; reflexivity)); reflexivity.
Qed.
Print Assumptions C104_period_seconds.
Theorem C104_period_none : ak_period None = Some (lit "daily") /\ ak_period (Some []) = Some (lit "daily")
  /\ yq_period None = Some (lit "1d") /\ yq_period (Some []) = Some (lit "1d").
Proof. repeat split; comp. Qed.
Print Assumptions C104_period_none.
(** An unsupported timeframe raises before the vendor is asked anything. *)
Theorem C104_unsupported : forall vendor to_datetime syms start end_ tf adjust, ak_period tf = None ->
  ak_fetch vendor to_datetime syms start end_ tf adjust = ([], Raises Unsupported).
Proof. intros. unfold ak_fetch. now rewrite H. Qed.
Print Assumptions C104_unsupported.
Example C104_periods_ex : timeframe (lit "1W") [(1, lit "week")] /\ ak_period (Some (lit "1W")) = Some (lit "weekly")
  /\ yq_period (Some (lit "05 Day")) = None /\ yq_period (Some (lit "05Day")) = Some (lit "5d") /\ ak_period (Some (lit "1h")) = None.
Proof.
  split; [|repeat split; comp]. apply (parse_guarded [lit "1W"]); [discriminate| | |comp].
  - apply (sp_one [] (lit "1W") []); [constructor|constructor].
  - intros w [<-|[]]. exists (lit "1"), (lit "W"). repeat (split; [first [reflexivity|discriminate]|]).
    split; repeat constructor; first [apply digit_iff; reflexivity|apply letter_iff; reflexivity].
Qed.
(** That timeframes of the same length are answered alike, as the cache's keys
    suppose (its keys have the seconds), does not hold: one week is supported and
    seven days are not. So "7d" is answered or raises depending on the cache. *)
Theorem C104_same_length_refuted : exists s s', to_seconds (Some s) = to_seconds (Some s')
  /\ (ak_period (Some s) <> None /\ ak_period (Some s') = None) /\ (yq_period (Some s) <> None /\ yq_period (Some s') = None).
Proof. exists (lit "1w"), (lit "7d"). repeat split; try comp; discriminate. Qed.
Print Assumptions C104_same_length_refuted.

(** C105. The frame that AKShare's adapter returns has the canonical columns, and
    for each symbol, in the order of the symbols, the rows of the frame that
    answered for it, in their order: each is labelled with the symbol and has every
    field from the column that holds it under its Chinese or its English name, or
    NaN if the answer has no such column. The vendor is asked for the days from the
    one of [start] to the one of [end_], the period of the timeframe and the
    adjustment, once per symbol, and a second time only where the first service is
    unavailable and bars are daily. *)
Theorem C105_rows : forall vendor to_datetime syms start end_ tf adjust calls t,
  ak_fetch vendor to_datetime syms start end_ tf adjust = (calls, Ok t) ->
  t_cols t = map Latin [lit "date"; lit "symbol"; lit "open"; lit "high"; lit "low"; lit "close"; lit "volume"]
  /\ exists period (l : list (list call * table)) blocks,
       ak_period tf = Some period
       /\ Forall2 (fun s x => answers vendor (start / 86400) (end_ / 86400) period
                               (match adjust with Some a => a | None => [] end) s (fst x) (snd x)) syms l
       /\ calls = flat_map fst l
       /\ Forall2 (fun sx rows => bars_of to_datetime (fst sx) (snd (snd sx)) rows) (combine syms l) blocks
       /\ t_rows t = concat blocks.
Proof.
  intros vendor td syms start end_ tf adjust calls t. unfold ak_fetch. destruct (ak_period tf) as [period|]; [|discriminate].
  destruct (fetch_all _ _ _ _ _ _) as [cs [frames|e]] eqn:F; [|discriminate]. intro E. injection E as <- A.
  apply fetch_all_ok in F as (l & Fl & -> & ->). apply assemble_ok in A as (C & blocks & B & R). split; [easy|].
  exists period, l, blocks. repeat split; try easy. clear R. revert blocks B. induction Fl as [|s x syms l _ _ IH]; intros blocks B.
  - inversion B. constructor.
  - cbn in B. inversion B. subst. constructor; auto.
Qed.
Print Assumptions C105_rows.

(** When it raises, the timeframe is unsupported and nothing was asked; or a symbol
    was not answered, and nothing was asked after it; or the answers cannot be put
    together: one has two columns for one field, none has some field, or a date
    cannot be read. *)
Theorem C105_failure : forall vendor to_datetime syms start end_ tf adjust calls e,
  ak_fetch vendor to_datetime syms start end_ tf adjust = (calls, Raises e) ->
  let a := match adjust with Some a => a | None => [] end in
  let answered period := fun s (x : list call * table) => answers vendor (start / 86400) (end_ / 86400) period a s (fst x) (snd x) in
  (e = Unsupported /\ calls = [] /\ ak_period tf = None)
  \/ exists period, ak_period tf = Some period /\
     ((exists pre s post l cs, syms = pre ++ s :: post /\ Forall2 (answered period) pre l
         /\ fails vendor (start / 86400) (end_ / 86400) period a s cs e /\ calls = flat_map fst l ++ cs)
      \/ exists l, Forall2 (answered period) syms l /\ calls = flat_map fst l
         /\ (e = Duplicate_columns /\ (exists cs f, In (cs, f) l /\ t_cols f <> [] /\ ~ clear f)
             \/ e = Missing_column /\ (exists field, In field [DATE; OPEN; HIGH; LOW; CLOSE; VOLUME]
                                        /\ forall cs f c, In (cs, f) l -> ~ holds f field c)
             \/ e = Bad_date /\ (exists cs f c v x, In (cs, f) l /\ holds f DATE c /\ In v (t_rows f) /\ v c = Some x
                                  /\ to_datetime x = None))).
Proof.
  intros vendor td syms start end_ tf adjust calls e. unfold ak_fetch. destruct (ak_period tf) as [period|] eqn:P.
  2:{ intro E. injection E as <- <-. now left. }
  destruct (fetch_all _ _ _ _ _ _) as [cs [frames|e']] eqn:F; intro E.
  2:{ injection E as <- <-. right. exists period. split; [easy|]. left. apply fetch_all_raises in F. exact F. }
  injection E as <- A. right. exists period. split; [easy|]. right. apply fetch_all_ok in F as (l & Fl & -> & ->). exists l.
  split; [easy|]. split; [easy|].
  assert (In1 : forall s f, In (s, f) (combine syms (map snd l)) -> exists cs, In (cs, f) l).
  { intros s f I. apply in_combine_r in I. apply in_map_iff in I as ([cs g] & <- & I). now exists cs. }
  assert (In2 : forall cs f, In (cs, f) l -> exists s, In (s, f) (combine syms (map snd l))).
  { intros cs f. clear -Fl. induction Fl as [|s x syms l _ _ IH]; [easy|]. cbn. intros [->|I]; [exists s; now left|].
    destruct (IH I) as [s' I']. exists s'. now right. }
  apply assemble_raises in A as [(-> & s & f & I & C & K)|[(-> & field & Fi & K)|(-> & s & f & c & v & x & I & H & Iv & V & T)]].
  - left. split; [easy|]. destruct (In1 _ _ I) as [cs I']. now exists cs, f.
  - right. left. split; [easy|]. exists field. split; [easy|]. intros cs f c I. destruct (In2 _ _ I) as [s I']. now apply K with s.
  - right. right. split; [easy|]. destruct (In1 _ _ I) as [cs I']. now exists cs, f, c, v, x.
Qed.
Print Assumptions C105_failure.

(** When every symbol is answered by a frame that has each field once and readable
    dates, there is an answer. *)
Theorem C105_answered : forall vendor to_datetime syms start end_ tf adjust period l, ak_period tf = Some period ->
  Forall2 (fun s x => answers vendor (start / 86400) (end_ / 86400) period (match adjust with Some a => a | None => [] end) s (fst x) (snd x)) syms l ->
  Forall (fun x => clear (snd x) /\ full to_datetime (snd x)) l ->
  exists t, ak_fetch vendor to_datetime syms start end_ tf adjust = (flat_map fst l, Ok t).
Proof.
  intros vendor td syms start end_ tf adjust period l P A F. unfold ak_fetch. rewrite P, (fetch_all_answered _ _ _ _ _ _ _ A).
  destruct (assemble _ _) as [t|e] eqn:E; [now exists t|]. exfalso. rewrite Forall_forall in F.
  assert (In1 : forall s f, In (s, f) (combine syms (map snd l)) -> clear f /\ full td f).
  { intros s f I. apply in_combine_r in I. apply in_map_iff in I as ([cs g] & <- & I). now apply F in I. }
  pose proof E as E0.
  apply assemble_raises in E as [(_ & s & f & I & _ & K)|[(_ & field & Fi & K)|(_ & s & f & c & v & x & I & H & Iv & V & T)]].
  - apply K, (In1 _ _ I).
  - destruct A as [|s x syms l A As]; [discriminate E0|]. destruct (In1 s (snd x)) as [_ (_ & H & _)]; [now left|].
    destruct (H field Fi) as [c Hc]. apply (K s (snd x) c); [now left|easy].
  - destruct (In1 _ _ I) as [_ (_ & _ & D)]. now apply (D c v x).
Qed.
Print Assumptions C105_answered.

(** The second service is asked for the exchange that the symbol names (SH or SZ, or
    no suffix). Missing from the full property: symbols of Shenzhen whose code starts
    with 6, and symbols of other exchanges. *)
Theorem C105_exchange_partial : forall s tx, on_exchange s tx -> (forall code, listed s code (lit "SZ") -> ~ six code) ->
  to_tx_symbol s = tx.
Proof.
  intros s tx O N. destruct O as [s code L|s code L|s U X|s U X].
  - symmetry. apply (second_iff s code); [right; now exists (lit "SH")|]. left. split; [now left|easy].
  - symmetry. apply (second_iff s code); [right; now exists (lit "SZ")|]. right. split; [|easy]. intros [M|M]; [|now apply (N code)].
    apply bare_listed in L as [_ L]. apply bare_listed in M as [_ M]. rewrite L in M. discriminate M.
  - symmetry. apply (second_iff s s); [now left|]. left. split; [now right|easy].
  - symmetry. apply (second_iff s s); [now left|]. right. split; [|easy]. intros [[M1 M2]|M]; [|easy].
    apply U. rewrite M2. apply in_or_app. right. now left.
Qed.
Print Assumptions C105_exchange_partial.
Example C105_exchange_ex : on_exchange (lit "000001.SH") (lit "sh000001") /\ to_tx_symbol (lit "000001.SH") = lit "sh000001"
  /\ to_tx_symbol (lit "600000") = lit "sh600000" /\ to_tx_symbol (lit "000001.SZ") = lit "sz000001".
Proof.
  split; [|repeat split; comp]. apply (on_sh _ (lit "000001")). split; [|reflexivity]. cbn. intuition discriminate.
Qed.
(** The full property fails: a symbol of the Beijing exchange is asked for in
    Shenzhen. *)
Theorem C105_exchange_refuted : exists s code, listed s code (lit "BJ") /\ to_tx_symbol s = lit "sz" ++ code.
Proof.
  exists (lit "430047.BJ"), (lit "430047"). split; [|comp]. split; [cbn; intuition discriminate|reflexivity].
Qed.
Print Assumptions C105_exchange_refuted.
(** Nor do symbols that differ only in the exchange get bars of their own: whatever
    the first service answers, the two get the same rows (in every column but the
    symbol). 000001.SH is an index and 000001.SZ a bank. *)
Theorem C105_own_bars_refuted : exists s s', s <> s' /\ forall vendor first last period adjust cs t,
  vendor (Hist (lit "000001") first last period adjust) = Table t ->
  answers vendor first last period adjust s cs t -> answers vendor first last period adjust s' cs t.
Proof.
  exists (lit "000001.SH"), (lit "000001.SZ"). split; [discriminate|]. intros vendor first last period adjust cs t V A.
  assert (X : cs = [Hist (lit "000001") first last period adjust]).
  { destruct A as [code u X W|code tx u X W]; apply has_code_iff in X; vm_compute in X; subst code; [reflexivity|].
    change (vendor (Hist (lit "000001") first last period adjust) = Unavailable) in W. congruence. }
  subst cs. apply by_first; [|easy]. apply has_code_iff. comp.
Qed.
Print Assumptions C105_own_bars_refuted.

(** Two symbols, the second answered by the other service in the other schema. *)
Definition ex_row (l : list (column * cell)) : row := fun c => match find (fun x => column_eqb (fst x) c) l with Some x => Some (snd x) | None => None end.
Definition ex_first : table := mk_table [Riqi; Kaipan; Shoupan; Zuigao; Zuidi; Chengjiaoliang; Hanzi 0]
  [ex_row [(Riqi, Word (lit "2024-01-02")); (Kaipan, Number 10); (Shoupan, Number 11); (Zuigao, Number 12); (Zuidi, Number 9); (Chengjiaoliang, Number 500)]].
Definition ex_second : table := mk_table [DATE; OPEN; CLOSE; HIGH; LOW; AMOUNT]
  [ex_row [(DATE, Word (lit "2024-01-02")); (OPEN, Number 20); (CLOSE, Number 21); (HIGH, Number 22); (LOW, Number 19); (AMOUNT, Number 700)]].
Definition ex_vendor (c : call) : answer :=
  match c with
  | Hist s _ _ _ _ => if str_eqb s (lit "600000") then Table ex_first else Unavailable
  | Hist_tx s _ _ _ => if str_eqb s (lit "sz000001") then Table ex_second else Broken
  end.
Definition ex_date (c : cell) : option cell := match c with Word _ => Some (Moment 1704153600) | _ => None end.
Example C105_ex : exists t, ak_fetch ex_vendor ex_date [lit "600000.SH"; lit "000001"] 1704153600 1704200000 (Some (lit "1d")) None
    = ([Hist (lit "600000") 19724 19724 (lit "daily") []; Hist (lit "000001") 19724 19724 (lit "daily") [];
        Hist_tx (lit "sz000001") 19724 19724 []], Ok t)
  /\ map (fun r : row => map r [DATE; SYMBOL; CLOSE; VOLUME]) (t_rows t)
     = [[Some (Moment 1704153600); Some (Word (lit "600000.SH")); Some (Number 11); Some (Number 500)];
        [Some (Moment 1704153600); Some (Word (lit "000001")); Some (Number 21); Some (Number 700)]].
Proof. eexists. split; [reflexivity|]. comp. Qed.
(** These answers meet the hypotheses of C105_answered. *)
Example C105_answered_ex : clear ex_second /\ full ex_date ex_second.
Proof.
  split.
  - split; [|split].
    + apply no_duplicates_iff. comp.
    + intros field c c' I I' N N'. cbn in I, I'. inversion N; subst; inversion N'; subst; try reflexivity; exfalso; intuition discriminate.
    + cbn. intuition discriminate.
  - split; [discriminate|]. split.
    + intros field F. cbn in F.
      assert (S : forall x, In x [DATE; OPEN; CLOSE; HIGH; LOW] -> In x [DATE; OPEN; HIGH; LOW; CLOSE; VOLUME] -> exists c, holds ex_second x c).
      { intros x A B. exists x. split; [cbn in A; cbn; intuition|]. left. now constructor. }
      destruct F as [<-|[<-|[<-|[<-|[<-|[<-|[]]]]]]]; try (apply S; cbn; tauto).
      exists AMOUNT. split; [cbn; tauto|]. right. split; [easy|]. split; [easy|]. intros k K N. cbn in K.
      inversion N; subst; intuition discriminate.
    + intros c v x [I H] Iv. cbn in Iv. destruct Iv as [<-|[]].
      assert (E : c = DATE) by (destruct H as [H|(H & _)]; [inversion H; subst; [easy|cbn in I; intuition discriminate]|discriminate]).
      subst c. intro V. vm_compute in V. injection V as <-. discriminate.
Qed.
