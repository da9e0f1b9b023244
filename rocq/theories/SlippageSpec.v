(** What the slippage properties talk about. *)
From Coq Require Import QArith Qround Qminmax.
From Verif Require Export SlippageModel.
From Verif Require Export ScopeSpec.
Open Scope list_scope.
Open Scope Q_scope.

(** A fill price no better for the trader than the market's: [true] is a buy. *)
Definition no_better (buy : bool) (market : Q) (fill : xq) : Prop :=
  if buy then xle (Fin market) fill = true else xle fill (Fin market) = true.
(** A number above zero, or plus infinity. *)
Definition positive (x : xq) : Prop := xlt (Fin 0) x = true.

(** The high and low columns of every symbol have one value per bar, and no high
    is below the low of its bar. *)
Definition highs_above_lows (cols : store xq) : Prop :=
  forall symbol c highs lows,
    lookup symbol cols = Some c -> lookup col_high c = Some highs -> lookup col_low c = Some lows ->
    length highs = length lows /\
    forall i h l, nth_error highs i = Some h -> nth_error lows i = Some l -> xlt h l = false.

(** A bar of numbers, and the sum of the true ranges of bars that follow a given
    close: the largest of high - low, high - previous close and previous close - low. *)
Record ohlc := mk_ohlc { b_high : Q; b_low : Q; b_close : Q }.
Fixpoint sum_true_range (prev_close : Q) (bars : list ohlc) : Q :=
  match bars with
  | [] => 0
  | b :: r => Qmax (b_high b - b_low b) (Qmax (b_high b - prev_close) (prev_close - b_low b))
              + sum_true_range (b_close b) r
  end.
(** A price never below one percent of the market price. *)
Definition floored (market price : Q) : Q := Qmax price (market / 100).

(** The parameters a model may be given: at least 0 and less than 10000 basis points; an
    ATR period of at least one bar and a scale of at least 0; a price impact and a volume
    limit of at least 0. *)
Definition permitted (m : slip_model) : Prop :=
  match m with
  | SBase => True
  | SFixed bps => 0 <= bps < 10000
  | SVolatility atr_period scale => (1 <= atr_period)%Z /\ 0 <= scale
  | SVolume price_impact volume_limit => 0 <= price_impact /\ forall l, volume_limit = Some l -> 0 <= l
  end.
