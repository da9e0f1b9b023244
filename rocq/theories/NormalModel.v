(** Model of [normal_cdf] and [inverse_normal_cdf], src/pybroker/vect.py 258-283.
    Floats are real numbers; rounding, NaN and infinities are not modelled. *)
From Coq Require Export Reals.
Open Scope R_scope.

(** 262-268: the density at [zz] and the polynomial in [t]. *)
Definition pdf_at (zz : R) : R := exp (- (5 / 10) * zz * zz) / sqrt (2 * PI).
Definition poly_at (t : R) : R :=
  (((((1330274429 / 1000000000) * t - (1821255978 / 1000000000)) * t + (1781477937 / 1000000000)) * t - (356563782 / 1000000000)) * t + (319381530 / 1000000000)) * t.

(** 258-269: [normal_cdf]. *)
Definition normal_cdf (z : R) : R :=
  let zz := Rabs z in
  let pdf := pdf_at zz in
  let t := 1 / (1 + zz * (2316419 / 10000000)) in
  let poly := poly_at t in
  if Rlt_dec 0 z then 1 - pdf * poly else pdf * poly.

(** 278-281: the rational function of [t]. *)
Definition numer_at (t : R) : R := ((10328 / 1000000) * t + (802853 / 1000000)) * t + (2515517 / 1000000).
Definition denom_at (t : R) : R := (((1308 / 1000000) * t + (189269 / 1000000)) * t + (1432788 / 1000000)) * t + 1.

(** 272-282: [inverse_normal_cdf]. *)
Definition inverse_normal_cdf (p : R) : R :=
  let pp := if Rle_dec p (5 / 10) then p else 1 - p in
  let pp := if Req_EM_T pp 0 then / 10 ^ 10 else pp in
  let t := sqrt (ln (1 / (pp * pp))) in
  let x := t - numer_at t / denom_at t in
  if Rle_dec p (5 / 10) then - x else x.
