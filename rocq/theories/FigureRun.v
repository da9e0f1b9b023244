(** C14 for whole backtests. *)
From Verif Require Import PortfolioMark StepRun FigureSpec FigureProofs FigureLoop.

Lemma one_window c l v w d : windows_ok c l -> In v l -> In w l -> In d (v_dates v) -> In d (v_dates w) -> v = w.
Proof.
  induction l as [|u l IH]; intros W Iv Iw Dv Dw; [contradiction|]. destruct W as [_ [_ [F W]]]. rewrite Forall_forall in F.
  destruct Iv as [->|Iv], Iw as [->|Iw]; auto.
  - specialize (F w Iw d d Dv Dw). lia.
  - specialize (F v Iv d d Dw Dv). lia.
Qed.
Lemma windows_env c l v : windows_ok c l -> In v l -> env_ok v.
Proof. induction l as [|u l IH]; [contradiction|]. intros [E [_ [_ W]]] [->|I]; auto. Qed.
Lemma own_bar c l v i d s : windows_ok c l -> In v l -> nth_error (v_dates v) i = Some d -> In d (own_bars l s) -> has_bar v s d.
Proof.
  intros W Iv N I. unfold own_bars in I. apply in_flat_map in I. destruct I as [w [Iw I]]. unfold window_bars in I.
  destruct (nmem s (v_syms w)) eqn:M; [|contradiction]. apply (nmem_syms w s) in M. pose proof (windows_env _ _ _ W Iw) as EO.
  destruct (eo_sdates w EO s M) as [_ J]. assert (v = w) as ->; [|split; assumption].
  apply (one_window c l v w d W Iv Iw); [eapply nth_error_In; eauto|now apply J].
Qed.
Lemma run_bars c l k b : windows_ok c l -> bars_close l -> backtests l (LoopModel.fresh c k) = Some b ->
  exists bars, b_ops b = concat bars /\ Forall loop_bar bars.
Proof.
  intros W BC E. pose proof (calls_dated c l k b W E) as CD. destruct (run_steps c l W _ _ E) as [calls [O F]].
  cbn [LoopModel.fresh b_ops app] in O. exists calls. split; auto. apply Forall_forall. intros x Ix.
  assert (CX : forall o, In o x -> call_dated (fun s d => In d (own_bars l s)) o).
  { intros o I. rewrite Forall_forall in CD. apply CD. rewrite O. apply in_concat. eauto. }
  destruct (steps_of l calls x F Ix) as [v [i [d [Iv [N [sc [tried [f [gone [exits [hb [-> [_ [_ [_ [FT [FB [_ [FG _]]]]]]]]]]]]]]]]]]].
  rewrite Forall_forall in FT, FG.
  eexists [_], tried, d, f, _. split; [reflexivity|]. split; [|split].
  - intros o [<-|[]]. split; [reflexivity|intro X; exact X].
  - intros o I. destruct (FT o I) as [ty [a [-> D]]]. split; [destruct ty; intro X; exact X|]. split; [destruct ty; intro X; exact X|].
    intros s P. assert (HB : has_bar v s d).
    { apply (own_bar c l v i d s W Iv N). specialize (CX (order_call ty a)). cbn [In] in CX. rewrite in_app_iff in CX.
      assert (s = a_sym a) as -> by (destruct ty; injection P as <-; reflexivity). rewrite <- D.
      destruct ty; apply CX; auto. }
    pose proof (BC v i d s Iv N HB) as C. unfold close_of in *. now rewrite (FB s HB).
  - intros o I. apply in_app_iff in I. destruct I as [I|I].
    { specialize (FG o I). destruct o; try contradiction; split; [reflexivity| |reflexivity|]; split; intro X; exact X. }
    apply in_app_iff in I. destruct I as [I|[<-|[]]].
    + apply in_map_iff in I. destruct I as [y [<- _]]. split; [reflexivity|]. split; intro X; exact X.
    + split; [reflexivity|]. split; intro X; exact X.
Qed.
