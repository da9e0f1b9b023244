(** Model of rotational trading, strategy.py 236-605. *)
From Verif Require Export RankModel PendingModel.

(** The contexts of the symbols that trade on this bar, in order. *)
Notation ctxs := (list (sym * sig)).
(** strategy.py 236-242 [BacktestSettings]. *)
Record settings : Type := mkSettings {
  z_max_long : option nat; z_max_short : option nat; z_worst : option nat
}.
(** strategy.py 275-297 [_validate_worst_rank_held]; [true] means it raises. *)
Definition validate_worst_raises (w : nat) (ml ms : option nat) : bool :=
  match ml, ms with
  | None, None => true
  | _, _ => match ml with Some m => Nat.ltb w m | None => false end ||
            match ms with Some m => Nat.ltb w m | None => false end
  end.
(** strategy.py 300-306 [_rotation_target_size]; [None] is the
    ZeroDivisionError of no slots. *)
Definition rotation_target_size (z : settings) : option Q :=
  let n := (match z_max_long z with Some m => m | None => 0 end + match z_max_short z with Some m => m | None => 0 end)%nat in
  if Nat.eqb n 0 then None else Some (1 / inject_Z (Z.of_nat n)).

(** strategy.py 309-328 [_reset_rotation_orders]. *)
Definition reset_rotation (g : sig) : sig :=
  mkSig false false None (g_bfill g) None None None (g_sfill g) None None None (g_hold g) (g_score g) (g_lscore g) (g_sscore g)
    (g_loss g) (g_loss_pct g) (g_loss_limit g) (g_loss_exit g) (g_profit g) (g_profit_pct g) (g_profit_limit g) (g_profit_exit g)
    (g_trail g) (g_trail_pct g) (g_trail_limit g) (g_trail_exit g).
Definition reset_rotation_orders (x : ctxs) : ctxs := map (fun kv => (fst kv, reset_rotation (snd kv))) x.

(** strategy.py 331-371 [_clear_unused_rotation_signals]. *)
Definition clear_unused (g : sig) : sig :=
  let bf := if given (g_bshares g) then g_bfill g else None in
  let sf := if given (g_sshares g) then g_sfill g else None in
  if given (g_bshares g) || given (g_sshares g)
  then mkSig (g_cover g) (g_exiting g) (g_exit g) bf (g_bshares g) (g_blimit g) (g_btimeout g)
         sf (g_sshares g) (g_slimit g) (g_stimeout g) (if g_exiting g then None else g_hold g) (g_score g) (g_lscore g) (g_sscore g)
         (g_loss g) (g_loss_pct g) (g_loss_limit g) (g_loss_exit g) (g_profit g) (g_profit_pct g) (g_profit_limit g) (g_profit_exit g)
         (g_trail g) (g_trail_pct g) (g_trail_limit g) (g_trail_exit g)
  else mkSig (g_cover g) (g_exiting g) (g_exit g) bf (g_bshares g) (g_blimit g) (g_btimeout g)
         sf (g_sshares g) (g_slimit g) (g_stimeout g) None (g_score g) (g_lscore g) (g_sscore g)
         None None None None None None None None None None None None.
Definition clear_unused_rotation_signals (x : ctxs) : ctxs := map (fun kv => (fst kv, clear_unused (snd kv))) x.

(** strategy.py 374-388 [_rotation_ranks]. *)
Definition rotation_scores (x : ctxs) (sd : side) : list (sym * key) :=
  flat_map (fun kv => match rankable (match sd with Long => g_lscore (snd kv) | Short => g_sscore (snd kv) end) with
                      | Some k => [(fst kv, k)]
                      | None => []
                      end) x.
Definition rotation_ranks (x : ctxs) (sd : side) : list (sym * nat) := rank_by_score (rotation_scores x sd).

Definition oside_eqb (a b : oside) : bool := match a, b with OBuy, OBuy | OSell, OSell => true | _, _ => false end.
(** strategy.py 408-413 [_has_pending_order]. *)
Definition has_pending_order (s : sym) (o : oside) (k : pscope) : bool :=
  existsb (fun n => oside_eqb (n_type n) o) (orders (Some s) None k).
(** The order side that leaves and that enters a position. *)
Definition exit_order (sd : side) : oside := match sd with Long => OSell | Short => OBuy end.
Definition entry_order (sd : side) : oside := match sd with Long => OBuy | Short => OSell end.

(** strategy.py 416-453 [_rotation_exits]: one held symbol, then all of them.
    [None] is the ValueError of [sell_all_shares] / [cover_all_shares]. *)
Definition rotation_exit1 (p : port) (k : pscope) (ranks : list (sym * nat)) (worst : nat) (sd : side) (s : sym)
    (st : option (ctxs * nat)) : option (ctxs * nat) :=
  match st with
  | None => None
  | Some (x, exiting) =>
      match aget s x with
      | None => Some (x, exiting)
      | Some g =>
          if match aget s ranks with Some r => Nat.leb r worst | None => false end then Some (x, exiting)
          else if has_pending_order s (exit_order sd) k then Some (x, S exiting)
          else match (match sd with Long => sell_all_shares | Short => cover_all_shares end) p s g with
               | None => None
               | Some g' => Some (aset s g' x, S exiting)
               end
      end
  end.
Definition rotation_exits (p : port) (k : pscope) (ranks : list (sym * nat)) (worst : nat) (sd : side) (x : ctxs)
    : option (ctxs * nat) :=
  fold_left (fun st s => rotation_exit1 p k ranks worst sd s st) (akeys (poss sd p)) (Some (x, 0%nat)).

(** A symbol held on either side. *)
Definition held (p : port) (s : sym) : bool := ahas s (p_longs p) || ahas s (p_shorts p).
(** strategy.py 456-478 [_pending_entry_symbols]: a set, as a list without
    repetitions. *)
Definition pending_entry_symbols (k : pscope) (p : port) (o : oside) : list sym :=
  nodup Nat.eq_dec
    (map n_sym (filter (fun n => oside_eqb (n_type n) o && negb (given (n_exit n)) && negb (held p (n_sym n)))
                       (orders None None k))).
(** strategy.py 508-523: one context; the state is (pending symbols, eligible). *)
Definition candidate1 (p : port) (k : pscope) (ranks : list (sym * nat)) (worst : nat) (o : oside)
    (st : list sym * list sym) (s : sym) : list sym * list sym :=
  let '(pend, elig) := st in
  if held p s then (pend, elig)
  else if nmem s pend || has_pending_order s o k then ((if nmem s pend then pend else pend ++ [s]), elig)
  else match aget s ranks with
       | Some r => if Nat.ltb worst r then (pend, elig) else (pend, elig ++ [s])
       | None => (pend, elig)
       end.
(** strategy.py 481-527 [_rotation_candidates]. *)
Definition rank_of (ranks : list (sym * nat)) (s : sym) : nat := match aget s ranks with Some r => r | None => 0 end.
Definition rotation_candidates (p : port) (k : pscope) (ranks : list (sym * nat)) (worst maxp exiting : nat) (sd : side)
    (x : ctxs) : list sym :=
  let '(pend, elig) := fold_left (candidate1 p k ranks worst (entry_order sd)) (akeys x)
                                 (pending_entry_symbols k p (entry_order sd), []) in
  let free := (Z.of_nat maxp - (Z.of_nat (length (poss sd p)) - Z.of_nat exiting) - Z.of_nat (length pend))%Z in
  if Z.leb free 0 then []
  else firstn (Z.to_nat free) (isort (fun a b => Nat.leb (rank_of ranks a) (rank_of ranks b)) elig).

(** strategy.py 530-551 [_resolve_rotation_overlap]. *)
Definition resolve_overlap (lc sc : list sym) (lr sr : list (sym * nat)) : list sym * list sym :=
  let overlap s := nmem s lc && nmem s sc in
  let drop_long s := overlap s && Nat.ltb (rank_of sr s) (rank_of lr s) in
  let drop_short s := overlap s && negb (drop_long s) in
  (filter (fun s => negb (drop_long s)) lc, filter (fun s => negb (drop_short s)) sc).

(** strategy.py 600-603: [set_target_shares] for each chosen symbol; a symbol that
    is not in the contexts would raise a KeyError ([None]). [close] is the
    symbol's close on this bar. *)
Definition target_all (c : cfg) (p : port) (close : sym -> fnum) (size : Q) (sd : side) (l : list sym) (x : option ctxs) : option ctxs :=
  fold_left (fun x s =>
    match x with
    | None => None
    | Some x =>
        match aget s x with
        | None => None
        | Some g => match set_target_shares c p s (close s) size sd g with
                    | None => None
                    | Some g' => Some (aset s g' x)
                    end
        end
    end) l x.

(** One leg of strategy.py 568-596: the ranks, the contexts after the exits and
    the symbols to enter. *)
Definition rotation_leg (p : port) (k : pscope) (worst : nat) (maxp : option nat) (sd : side) (x : ctxs)
    : option (ctxs * list (sym * nat) * list sym) :=
  match maxp with
  | None => Some (x, [], [])
  | Some m =>
      let ranks := rotation_ranks x sd in
      match rotation_exits p k ranks worst sd x with
      | None => None
      | Some (x', exiting) => Some (x', ranks, rotation_candidates p k ranks worst m exiting sd x')
      end
  end.
(** strategy.py 554-605 [_apply_worst_rank_held] with rotation enabled. *)
Definition apply_worst_rank_held (c : cfg) (p : port) (k : pscope) (close : sym -> fnum) (z : settings) (worst : nat) (x : ctxs)
    : option (ctxs * list (sym * nat) * list (sym * nat)) :=
  match rotation_target_size z with
  | None => None
  | Some size =>
      match rotation_leg p k worst (z_max_long z) Long x with
      | None => None
      | Some (x1, lr, lc) =>
          match rotation_leg p k worst (z_max_short z) Short x1 with
          | None => None
          | Some (x2, sr, sc) =>
              let '(lc, sc) := resolve_overlap lc sc lr sr in
              match target_all c p close size Short sc (target_all c p close size Long lc (Some x2)) with
              | None => None
              | Some x3 => Some (x3, lr, sr)
              end
          end
      end
  end.
