(** Model of src/pybroker/slippage.py: the built-in slippage models.

    Columns hold numbers that may be NaN or infinite ([xq]); share counts, order
    prices and model parameters are exact rationals. The price impact, computed in
    floats and converted to [Decimal], is computed exactly. *)
From Verif Require Export VectModel VectExact ScopeModel.
Open Scope list_scope.
Open Scope Q_scope.

(** 26-72: the fields of [SlippageContext] that the built-in models read; [true]
    is a buy. *)
Record slip_ctx := mk_slip_ctx {
  sx_buy : bool; sx_symbol : nat; sx_shares : Q; sx_price : Q;
  sx_cols : option (store xq); sx_end_index : option (list (nat * Z)); sx_fractional : bool }.
(** The columns that are read. *)
Definition col_volume : nat := 4.

(** The models: the base class, [FixedSlippageModel(bps)],
    [VolatilitySlippageModel(atr_period, scale)] and
    [VolumeSlippageModel(price_impact, volume_limit)]. *)
Inductive slip_model :=
  | SBase
  | SFixed (bps : Q)
  | SVolatility (atr_period : Z) (scale : Q)
  | SVolume (price_impact : Q) (volume_limit : option Q).

(** The constructors' checks (181-188, 236-239, 332-335): [true] is accepted. *)
Definition accepted (m : slip_model) : bool :=
  match m with
  | SBase => true
  | SFixed bps => Qle_bool 0 bps && negb (Qle_bool 10000 bps)
  | SVolatility n scale => negb (n <? 1)%Z && Qle_bool 0 scale
  | SVolume impact limit => Qle_bool 0 impact && match limit with Some l => Qle_bool 0 l | None => true end
  end.
(** 338-339: [_cap_enabled], with the limit, and [_impact_enabled]. *)
Definition cap (limit : option Q) : option Q :=
  match limit with Some l => if Qle_bool l 0 then None else Some l | None => None end.
Definition impact_enabled (impact : Q) : bool := negb (Qle_bool impact 0).
(** 112-115, 199-201, 246-248, 348-350: [is_fill_noop]. *)
Definition is_fill_noop (m : slip_model) : bool :=
  match m with
  | SBase => true
  | SFixed bps => Qeq_bool bps 0
  | SVolatility _ scale => Qeq_bool scale 0
  | SVolume impact limit => match cap limit with Some _ => false | None => negb (impact_enabled impact) end
  end.

(** 203-211: [FixedSlippageModel.adjust_fill_price], with the multipliers of
    190-197. *)
Definition adjust_fixed (bps : Q) (buy : bool) (price : Q) : Q :=
  if Qeq_bool bps 0 then price
  else if buy then price * (1 + bps / 10000) else price * (1 - bps / 10000).
(** 83-98: [_fetch_scalar]: [Ok None] when the column is missing or the value is
    NaN. *)
Definition fetch_scalar (s : store xq) (symbol name : nat) (end_index : Z) : result (option xq) :=
  bind (fetch_value s symbol name end_index) (fun v =>
  Ok (match v with Some NaN | None => None | Some x => Some x end)).
(** [array[-n:]] for a positive [n]. *)
Definition last_n {B} (n : Z) (l : list B) : list B := skipn (length l - Z.to_nat n) l.
(** 74-80: [_adverse_price]. *)
Definition adverse_price (buy : bool) (base amount : xq) : xq := if buy then xadd base amount else xsub base amount.

Section Models.
(** The parts of the arithmetic of indicators that [atr] does not use. *)
Context (lg ex sq : xq -> xq) (pi : Q) (junk : list xq -> Z -> xq).

(** 250-309: [VolatilitySlippageModel.apply_slippage]. *)
Definition apply_volatility (period : Z) (scale : Q) (ctx : slip_ctx) : result (Q * xq) :=
  let unadjusted := Ok (sx_shares ctx, Fin (sx_price ctx)) in
  if Qeq_bool scale 0 then unadjusted
  else match sx_cols ctx, sx_end_index ctx with
       | Some cols, Some ends =>
           match lookup (sx_symbol ctx) ends with
           | None => Raise KeyError
           | Some end_index =>
               let window := (period + 1)%Z in
               if (end_index <? window)%Z then unadjusted
               else match fetch cols (sx_symbol ctx) col_high (Some end_index),
                          fetch cols (sx_symbol ctx) col_low (Some end_index),
                          fetch cols (sx_symbol ctx) col_close (Some end_index) with
                    | Ok (Some high), Ok (Some low), Ok (Some close) =>
                        if (len high <? window)%Z || (len low <? window)%Z || (len close <? window)%Z then unadjusted
                        else match atr (exact lg ex sq pi junk) (last_n window high) (last_n window low) (last_n window close) period with
                             | None => Raise ValueNotFound (* AssertionError *)
                             | Some values =>
                                 bind (item values (-1)) (fun v =>
                                 if xnan v then unadjusted
                                 else
                                   let adjustment := xmul (Fin scale) v in
                                   let price := adverse_price (sx_buy ctx) (Fin (sx_price ctx)) adjustment in
                                   let floor := Fin (sx_price ctx * (1#100)) in
                                   Ok (sx_shares ctx, if xlt price floor then floor else price))
                             end
                    | _, _, _ => unadjusted
                    end
           end
       | _, _ => unadjusted
       end.

(** 379-424: [VolumeSlippageModel.apply_slippage]. *)
Definition apply_volume (impact : Q) (limit : option Q) (ctx : slip_ctx) : result (Q * xq) :=
  let unadjusted := Ok (sx_shares ctx, Fin (sx_price ctx)) in
  if is_fill_noop (SVolume impact limit) then unadjusted
  else match sx_cols ctx, sx_end_index ctx with
       | Some cols, Some ends =>
           match lookup (sx_symbol ctx) ends with
           | None => Raise KeyError
           | Some end_index =>
               bind (fetch_scalar cols (sx_symbol ctx) col_volume end_index) (fun volume =>
               match volume with
               | None => unadjusted
               | Some volume =>
                   if xle volume (Fin 0)
                   then match cap limit with Some _ => Ok (0, Fin (sx_price ctx)) | None => unadjusted end
                   else
                     let shares := match cap limit with
                                   | None => sx_shares ctx
                                   | Some l =>
                                       match xmul (Fin l) volume with
                                       | Fin max_shares =>
                                           if Qle_bool (sx_shares ctx) max_shares then sx_shares ctx
                                           else if sx_fractional ctx then max_shares else inject_Z (py_trunc max_shares)
                                       | _ => sx_shares ctx
                                       end
                                   end in
                     let price :=
                       if impact_enabled impact && negb (Qle_bool shares 0)
                       then let ratio := xdiv (Fin shares) volume in
                            let impact := xmul (xmul (Fin impact) ratio) ratio in
                            if sx_buy ctx then xmul (Fin (sx_price ctx)) (xadd (Fin 1) impact)
                            else
                              let price := xmul (Fin (sx_price ctx)) (xsub (Fin 1) impact) in
                              let floor := Fin (sx_price ctx * (1#100)) in
                              if xlt price floor then floor else price
                       else Fin (sx_price ctx) in
                     Ok (shares, price)
               end)
           end
       | _, _ => unadjusted
       end.

(** 117-128, 213-217: [apply_slippage] of each model. *)
Definition apply_slippage (m : slip_model) (ctx : slip_ctx) : result (Q * xq) :=
  match m with
  | SBase => Ok (sx_shares ctx, Fin (sx_price ctx))
  | SFixed bps => Ok (sx_shares ctx, Fin (adjust_fixed bps (sx_buy ctx) (sx_price ctx)))
  | SVolatility period scale => apply_volatility period scale ctx
  | SVolume impact limit => apply_volume impact limit ctx
  end.
(** 130-166: [adjust_fill]. *)
Definition adjust_fill (m : slip_model) (ctx : slip_ctx) : result (Q * xq) :=
  if is_fill_noop m then Ok (sx_shares ctx, Fin (sx_price ctx)) else apply_slippage m ctx.

(** src/pybroker/strategy.py 1449-1477: slippage of a scheduled order; [Raise
    BadPredictions] stands for the [ValueError] about the share count. *)
Definition order_slippage (m : option slip_model) (ctx : slip_ctx) : result (Q * xq) :=
  match m with
  | None => Ok (sx_shares ctx, Fin (sx_price ctx))
  | Some (SFixed bps) => Ok (sx_shares ctx, Fin (adjust_fixed bps (sx_buy ctx) (sx_price ctx)))
  | Some m =>
      if is_fill_noop m then Ok (sx_shares ctx, Fin (sx_price ctx))
      else bind (apply_slippage m ctx) (fun r =>
           let '(shares, price) := r in
           if negb (Qle_bool 0 shares) || negb (Qle_bool shares (sx_shares ctx)) then Raise BadPredictions
           else Ok (if sx_fractional ctx then shares else inject_Z (py_trunc shares), price))
  end.
End Models.
