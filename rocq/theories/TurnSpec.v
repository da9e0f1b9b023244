(** In which order a bar tries its orders. *)
From Verif Require Export RankSpec ContextSpec LoopSpec.

(** Which orders of a date are ranked, and by what. *)
Definition limited (v : env) (w : which) : bool := match w with WSell => v_sort_short v | _ => v_sort_long v end.
Definition worth_in (w : which) : result -> score := match w with WSell => sell_worth | _ => buy_worth end.
(** The scheduled results of a date in the order they are taken. *)
Definition taken (v : env) (w : which) (l l' : list result) : Prop :=
  if limited v w then ranked (worth_in w) l l' else l' = l.
(** The ids of attempts. *)
Definition ids_of (l : list (nat * Z * bool)) : list nat := map (fun x => fst (fst x)) l.
(** Covers before sells before buys, oldest first. *)
Definition turn (n : pending) : nat :=
  match n_type n, n_exit n with OBuy, Some Short => 0 | OSell, _ => 1 | OBuy, _ => 2 end.
Definition earlier (a b : pending) : Prop := (turn a < turn b)%nat \/ (turn a = turn b /\ (n_id a <= n_id b)%nat).


(** ** What the contexts of a bar turn into *)
(** The symbol has a bar on date [d], and more than the warmup's bars so far. *)
Definition awake (v : env) (d : Z) (s : sym) : Prop :=
  In s (v_syms v) /\ In d (v_sdates v s) /\ (v_warmup v < length (filter (fun x => Z.leb x d) (v_sdates v s)))%nat.
(** The order a context asks for. *)
Definition ask (g : sig) : option (oside * Q) :=
  match g_bshares g, g_sshares g with
  | Some q, None => Some (OBuy, q)
  | None, Some q => Some (OSell, q)
  | _, _ => None
  end.
Definition of_side {A} (o : oside) (buy sell : A) : A := match o with OBuy => buy | OSell => sell end.
(** Order [n] is the one that context [g] of symbol [s] asked for on date [d]. *)
Record order_asked (v : env) (d : Z) (s : sym) (g : sig) (n : pending) : Prop := mkAsked {
  oa_sym : n_sym n = s; oa_created : n_created n = d;
  oa_shares : ask g = Some (n_type n, n_shares n);
  oa_exec : bars_later (calendar v s) d (delay v (n_type n)) (n_exec n);
  oa_limit : option_map Some (n_limit n) = of_side (n_type n) (g_blimit g) (g_slimit g);
  oa_timeout : n_timeout n = of_side (n_type n) (g_btimeout g) (g_stimeout g);
  oa_fill : n_fill n = match of_side (n_type n) (g_bfill g) (g_sfill g) with Some f => f | None => FType PTMiddle end;
  oa_exit : n_exit n = g_exit g;
  oa_stops : map shape_of (match n_stops n with Some l => l | None => [] end) = described g
}.
(** The moment of a bar at which its orders are decided. [b] and [b'] are the
    states before and after the bar, [m] is the state when the user's functions
    have run; [act] are the symbols they ran for, [us] is what they set and [x]
    what rotation (if it is on) made of it. *)
Record decision (c : cfg) (v : env) (i : nat) (d : Z) (b b' m : bstate) (act : list sym) (us : sym -> sig) (x : ctxs) : Prop := mkDecision {
  dn_run : run c (b_ops m) = Some (b_port m) /\ b_pend m = krun (b_kops m);
  dn_act : NoDup act /\ forall s, In s act <-> awake v d s;
  (** the functions saw contexts without any signal, and the account after the
      bar was captured, with at most stops cancelled since *)
  dn_user : exists pops kops p0, us = u_sigs (v_user v i d p0 (krun kops) (map (fun s => (s, no_signals)) act)) /\
    (exists f ops, pops = b_ops b ++ ops ++ [OpCapture d f]) /\ run c pops = Some p0 /\
    (exists more, b_ops m = pops ++ more /\ Forall (fun o => match o with OpRemoveStop _ | OpRemoveStops _ _ => True | _ => False end) more) /\
    (exists old more, kops = b_kops b ++ old /\ b_kops m = kops ++ more /\ Forall (fun k => match k with KRemove _ | KRemoveAll _ => True | _ => False end) (more));
  dn_keys : akeys x = act;
  dn_plain : z_worst (v_settings v) = None -> x = map (fun s => (s, us s)) act;
  (** after it, the account only leaves positions whose exit date it is *)
  dn_ops : exists ops, b_ops b' = b_ops m ++ ops /\ Forall (fun o => match o with OpExit _ _ _ _ _ | OpIncr _ => True | _ => False end) ops;
  (** and exactly the orders asked for are placed, as far as the bar they are for exists *)
  dn_orders : exists new, entered (b_kops b') = entered (b_kops m) ++ new /\ NoDup (map n_sym new) /\
    (forall n, In n new -> exists g, aget (n_sym n) x = Some g /\ order_asked v d (n_sym n) g n) /\
    (forall s g, aget s x = Some g -> ~ contradictory (match z_worst (v_settings v) with Some _ => true | None => false end) g /\
       (wants g -> ~ unusable g) /\
       (wants g -> forall o q y, ask g = Some (o, q) -> bars_later (calendar v s) d (delay v o) y -> exists n, In n new /\ n_sym n = s))
}.

(** Two states that differ at most in what the contexts carry. *)
Record same_but_contexts (a b : bstate) : Prop := mkSameBut {
  sb_port : b_port a = b_port b; sb_pend : b_pend a = b_pend b;
  sb_scheds : b_cover a = b_cover b /\ b_buy a = b_buy b /\ b_sell a = b_sell b;
  sb_ends : b_ends a = b_ends b; sb_stop : b_stop a = b_stop b;
  sb_logs : b_ops a = b_ops b /\ b_kops a = b_kops b /\ b_att a = b_att b
}.
(** The position a context leaves a symbol with if its order fills in full. *)
Definition share_count (q : option Q) : Q := match q with Some q => q | None => 0 end.
Definition net_held (p : port) (s : sym) : Q := shares_held p Long s - shares_held p Short s.
Definition net_target (sd : side) (t : Q) : Q := match sd with Long => t | Short => - t end.
Definition net_ordered (g : sig) : Q := share_count (g_bshares g) - share_count (g_sshares g).
