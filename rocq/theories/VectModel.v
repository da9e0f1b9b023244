(** Model of src/pybroker/vect.py, over any arithmetic: [arith] names the float
    operations the code uses and nothing is assumed about them, so what is proved
    for every [arith] holds for IEEE doubles with NaN and infinities.

    Arrays are lists. An index is an integer as in the code: a negative one wraps
    around, and one out of range reads [junk], an arbitrary value depending on the
    whole array (numba does not check bounds). A failed assertion is [None].
    ZeroDivisionError (numba raises it for a scalar division by zero) is not
    modelled: the theorems are about calls that return. *)
From Coq Require Import List Bool Arith Lia ZArith QArith.
Import ListNotations.
Open Scope list_scope.
Open Scope Z_scope.

Record arith := mkArith {
  F : Type;
  num : Q -> F;                       (* literals and integers *)
  nan : F; pinf : F; ninf : F;
  add : F -> F -> F; sub : F -> F -> F; mul : F -> F -> F; div : F -> F -> F; neg : F -> F;
  lt : F -> F -> bool; le : F -> F -> bool; eqf : F -> F -> bool;
  isnan : F -> bool; isinf : F -> bool;
  fabs : F -> F; flog : F -> F; fexp : F -> F; fsqrt : F -> F;
  fint : F -> Z;                      (* int(x) *)
  fpi : F;
  junk : list F -> Z -> F
}.

Fixpoint zrange_n (a : Z) (n : nat) : list Z := match n with O => [] | S n => a :: zrange_n (a + 1) n end.
(** [range(a, b)]. *)
Definition zrange (a b : Z) : list Z := zrange_n a (Z.to_nat (b - a)).
(** A loop over [range(a, b)] that updates variables [S]. *)
Definition floop {S} (a b : Z) (f : Z -> S -> S) (s : S) : S := fold_left (fun s i => f i s) (zrange a b) s.
(** One that also appends a value to the output at each bar. *)
Fixpoint scan {S T} (f : Z -> S -> S * T) (s : S) (l : list Z) : S * list T :=
  match l with
  | [] => (s, [])
  | i :: r => let '(s, x) := f i s in let '(s, o) := scan f s r in (s, x :: o)
  end.
Definition len {T} (l : list T) : Z := Z.of_nat (length l).

Section Vect.
Context (A : arith).
Notation F := (F A).
Notation "x +. y" := (add A x y) (at level 50, left associativity).
Notation "x -. y" := (sub A x y) (at level 50, left associativity).
Notation "x *. y" := (mul A x y) (at level 40, left associativity).
Notation "x /. y" := (div A x y) (at level 40, left associativity).
Notation "x <. y" := (lt A x y) (at level 70).
Notation "x >. y" := (lt A y x) (at level 70).
Notation "x <=. y" := (le A x y) (at level 70).
Notation "x >=. y" := (le A y x) (at level 70).
Notation "x ==. y" := (eqf A x y) (at level 70).
Definition q_ (q : Q) : F := num A q.
Definition z_ (z : Z) : F := num A (inject_Z z).
Definition e60 : F := q_ (1 # (10 ^ 60)%positive).

(** [array[k]]. *)
Definition rd (l : list F) (k : Z) : F :=
  if (0 <=? k) && (k <? len l) then nth (Z.to_nat k) l (nan A)
  else if (- len l <=? k) && (k <? 0) then nth (Z.to_nat (k + len l)) l (nan A)
  else junk A l k.
(** [array[k] = x]. *)
Fixpoint wr_n (l : list F) (k : nat) (x : F) : list F :=
  match l, k with
  | [], _ => []
  | _ :: r, O => x :: r
  | y :: r, S k => y :: wr_n r k x
  end.
Definition wr (l : list F) (k : Z) (x : F) : list F :=
  if (0 <=? k) && (k <? len l) then wr_n l (Z.to_nat k) x
  else if (- len l <=? k) && (k <? 0) then wr_n l (Z.to_nat (k + len l)) x else l.
(** [np.full(n, x)], and an array whose entries are computed one by one. *)
Definition full (n : Z) (x : F) : list F := repeat x (Z.to_nat n).
Definition zeros (n : Z) : list F := full n (z_ 0).
Definition tab (n : Z) (f : Z -> F) : list F := map f (zrange 0 n).
(** An array that is 0 before [a] and [f i] from there on. *)
Definition tab_from (a n : Z) (f : Z -> F) : list F := tab n (fun i => if i <? a then z_ 0 else f i).

(** 15-18 [_verify_input]. *)
Definition verify_input (l : list F) (n : Z) : bool := (0 <? n) && (n <=? len l).

(** ** Rolling windows *)
(** 21-82 [_rolling_sum_njit]. *)
Record rsum := mkRsum { rs_total : F; rs_comp : F; rs_nan : Z; rs_pos : Z; rs_neg : Z }.
Definition rsum_in (value : F) (s : rsum) : rsum :=
  if isnan A value then mkRsum (rs_total s) (rs_comp s) (rs_nan s + 1) (rs_pos s) (rs_neg s)
  else if isinf A value
  then if value >. z_ 0 then mkRsum (rs_total s) (rs_comp s) (rs_nan s) (rs_pos s + 1) (rs_neg s)
       else mkRsum (rs_total s) (rs_comp s) (rs_nan s) (rs_pos s) (rs_neg s + 1)
  else let total := rs_total s in let t := total +. value in
       let comp := if fabs A total >=. fabs A value then rs_comp s +. ((total -. t) +. value) else rs_comp s +. ((value -. t) +. total) in
       mkRsum t comp (rs_nan s) (rs_pos s) (rs_neg s).
Definition rsum_out (dropped : F) (s : rsum) : rsum :=
  if isnan A dropped then mkRsum (rs_total s) (rs_comp s) (rs_nan s - 1) (rs_pos s) (rs_neg s)
  else if isinf A dropped
  then if dropped >. z_ 0 then mkRsum (rs_total s) (rs_comp s) (rs_nan s) (rs_pos s - 1) (rs_neg s)
       else mkRsum (rs_total s) (rs_comp s) (rs_nan s) (rs_pos s) (rs_neg s - 1)
  else let total := rs_total s in let t := total -. dropped in
       let comp := if fabs A total >=. fabs A dropped then rs_comp s +. ((total -. t) -. dropped)
                   else rs_comp s +. ((neg A dropped -. t) +. total) in
       mkRsum t comp (rs_nan s) (rs_pos s) (rs_neg s).
Definition rsum_value (s : rsum) : F :=
  if (0 <? rs_nan s) || ((0 <? rs_pos s) && (0 <? rs_neg s)) then nan A
  else if 0 <? rs_pos s then pinf A
  else if 0 <? rs_neg s then ninf A
  else rs_total s +. rs_comp s.
Definition rsum_step (array : list F) (window i : Z) (s : rsum) : rsum * F :=
  let s := rsum_in (rd array i) s in
  let s := if window <=? i then rsum_out (rd array (i - window)) s else s in
  (s, if window - 1 <=? i then rsum_value s else nan A).
Definition rolling_sum (array : list F) (window : Z) : list F :=
  snd (scan (rsum_step array window) (mkRsum (z_ 0) (z_ 0) 0 0 0) (zrange 0 (len array))).

(** 85-158 [_rolling_min_njit] and [_rolling_max_njit]. The deque is the list of its
    indices from [head] to [tail]; [worse x y] tells whether an old value [x] is
    evicted by a new one [y] ([>=] for the minimum, [<=] for the maximum). *)
Fixpoint drop_old (limit : Z) (deq : list Z) : list Z :=
  match deq with k :: r => if k <=? limit then drop_old limit r else deq | [] => [] end.
Fixpoint drop_worse (array : list F) (worse : F -> F -> bool) (x : F) (rev_deq : list Z) : list Z :=
  match rev_deq with k :: r => if worse (rd array k) x then drop_worse array worse x r else rev_deq | [] => [] end.
Definition ext_step (array : list F) (worse : F -> F -> bool) (window i : Z) (s : list Z * Z) : (list Z * Z) * F :=
  let '(deq, nan_count) := s in
  let '(deq, nan_count) :=
    if isnan A (rd array i) then (deq, nan_count + 1)
    else let deq := drop_old (i - window) deq in
         let deq := rev (drop_worse array worse (rd array i) (rev deq)) in
         (deq ++ [i], nan_count) in
  let nan_count := if (window <=? i) && isnan A (rd array (i - window)) then nan_count - 1 else nan_count in
  if window - 1 <=? i then
    let deq := drop_old (i - window) deq in
    ((deq, nan_count),
     match deq with
     | [] => nan A
     | k :: _ => if 0 <? nan_count then nan A else rd array k
     end)
  else ((deq, nan_count), nan A).
Definition rolling_min (array : list F) (window : Z) : list F :=
  snd (scan (ext_step array (fun x y => x >=. y) window) ([], 0) (zrange 0 (len array))).
Definition rolling_max (array : list F) (window : Z) : list F :=
  snd (scan (ext_step array (fun x y => x <=. y) window) ([], 0) (zrange 0 (len array))).
(** 161-211 [lowv], [highv], [sumv]. *)
Definition rolling (f : list F -> Z -> list F) (array : list F) (n : Z) : option (list F) :=
  match array with [] => Some [] | _ => if verify_input array n then Some (f array n) else None end.
Definition lowv := rolling rolling_min.
Definition highv := rolling rolling_max.
Definition sumv := rolling rolling_sum.
(** 214-235 [returnv]. *)
Definition returnv (array : list F) (n : Z) : option (list F) :=
  match array with
  | [] => Some []
  | _ => if verify_input array n then
           Some (tab (len array) (fun i => if i <? n then nan A else
             let base := rd array (i - n) in
             if negb (base ==. z_ 0) then (rd array i -. base) /. base else nan A))
         else None
  end.
(** 238-255 [cross]: [(crossed > 0).astype(float)] and the product with [crossed]
    are written out; a boolean times 0 or 1. *)
Definition cross (a b : list F) : option (list bool) :=
  if (0 <? len a) && (0 <? len b) && (len a =? len b) && (2 <=? len a) then
    let crossed := map (fun i => rd a i >. rd b i) (zrange 0 (len a)) in
    match sumv (map (fun c : bool => if c then z_ 1 else z_ 0) crossed) 2 with
    | Some s => Some (map (fun i => (rd s i ==. z_ 1) && nth (Z.to_nat i) crossed false) (zrange 0 (len a)))
    | None => None
    end
  else None.

(** 258-269 [normal_cdf]. *)
Definition ncdf (z : F) : F :=
  let zz := fabs A z in
  let pdf := fexp A (neg A (q_ (1#2)) *. zz *. zz) /. fsqrt A (z_ 2 *. fpi A) in
  let t := z_ 1 /. (z_ 1 +. zz *. q_ (2316419 # 10000000)) in
  let poly := ((((q_ (1330274429 # 1000000000) *. t -. q_ (1821255978 # 1000000000)) *. t +. q_ (1781477937 # 1000000000)) *. t
                -. q_ (356563782 # 1000000000)) *. t +. q_ (319381530 # 1000000000)) *. t in
  if z >. z_ 0 then z_ 1 -. pdf *. poly else pdf *. poly.
(** [100.0 * normal_cdf(x) - 50.0]. *)
Definition squash (x : F) : F := z_ 100 *. ncdf x -. z_ 50.

(** ** Average true range *)
(** 285-329 [_atr]. [assert last_bar >= lookback] failing is [junk]. *)
Definition atr_at (last_bar lookback : Z) (high low close : list F) (use_log : bool) : F :=
  if last_bar <? lookback then junk A close last_bar
  else if lookback =? 0 then
    if use_log then flog A (rd high last_bar /. rd low last_bar) else rd high last_bar -. rd low last_bar
  else
    floop (last_bar - lookback + 1) (last_bar + 1) (fun i total =>
      if use_log then
        let term := rd high i /. rd low i in
        let term := if rd high i /. rd close (i - 1) >. term then rd high i /. rd close (i - 1) else term in
        let term := if rd close (i - 1) /. rd low i >. term then rd close (i - 1) /. rd low i else term in
        total +. flog A term
      else
        let term := rd high i -. rd low i in
        let term := if rd high i -. rd close (i - 1) >. term then rd high i -. rd close (i - 1) else term in
        let term := if rd close (i - 1) -. rd low i >. term then rd close (i - 1) -. rd low i else term in
        total +. term) (z_ 0) /. z_ lookback.
Definition same_len (l : list F) (ls : list (list F)) : bool := forallb (fun m => len l =? len m) ls.
(** 332-362 [atr]. *)
Definition atr (high low close : list F) (lookback : Z) : option (list F) :=
  if same_len high [low; close] then
    match close with
    | [] => Some []
    | _ => if verify_input close lookback
           then Some (tab (len close) (fun i => if i <? lookback then nan A else atr_at i lookback high low close false))
           else None
    end
  else None.
(** 365-388 [_variance]; same treatment of its assertions. *)
Definition variance (use_change : bool) (last_bar length_ : Z) (prices : list F) : F :=
  if last_bar <? (if use_change then length_ else length_ - 1) then junk A prices last_bar else
  let term i := if use_change then flog A (rd prices i /. rd prices (i - 1)) else flog A (rd prices i) in
  let mean := floop (last_bar - length_ + 1) (last_bar + 1) (fun i total => total +. term i) (z_ 0) /. z_ length_ in
  floop (last_bar - length_ + 1) (last_bar + 1) (fun i total => let t := term i -. mean in total +. t *. t) (z_ 0) /. z_ length_.

(** ** Relative strength *)
(** 416-439, 444-466 and 630-649: Wilder averages of up and down moves over
    [length_] bars, then the index from bar [length_] on; [fill] before. *)
Definition rsi_step (values : list F) (length_ i : Z) (s : F * F) : F * F :=
  let '(up_sum, dn_sum) := s in
  let diff := rd values i -. rd values (i - 1) in
  if diff >. z_ 0
  then (((z_ length_ -. z_ 1) *. up_sum +. diff) /. z_ length_, dn_sum *. ((z_ length_ -. z_ 1) /. z_ length_))
  else (up_sum *. ((z_ length_ -. z_ 1) /. z_ length_), ((z_ length_ -. z_ 1) *. dn_sum -. diff) /. z_ length_).
Definition rsi_seed (values : list F) (length_ : Z) : F * F :=
  let '(up_sum, dn_sum) := floop 1 length_ (fun i s => let '(u, d) := s in
      let diff := rd values i -. rd values (i - 1) in
      if diff >. z_ 0 then (u +. diff, d) else (u, d -. diff)) (e60, e60) in
  (up_sum /. z_ (length_ - 1), dn_sum /. z_ (length_ - 1)).
Definition rsi (values : list F) (length_ : Z) (fill : F) (post : F -> F) : list F :=
  full length_ fill ++
  snd (scan (fun i s => let '(u, d) := rsi_step values length_ i s in ((u, d), post (z_ 100 *. u /. (u +. d))))
         (rsi_seed values length_) (zrange length_ (len values))).
(** 391-484 [detrended_rsi]. *)
Definition detrended_rsi (values : list F) (short_length long_length reg_length : Z) : option (list F) :=
  if (0 <? short_length) && (short_length <=? long_length) && (1 <? short_length) && (1 <? long_length) && (1 <=? reg_length) then
    let n := len values in
    let front_bad := long_length + reg_length - 1 in
    if n <=? front_bad then Some (zeros n) else
    let work1 := rsi values short_length (q_ (inject_Z (10 ^ 90))) (fun w =>
        if short_length =? 2
        then neg A (z_ 10) *. flog A (z_ 2 /. (z_ 1 +. q_ (999 # 100000) *. (z_ 2 *. w -. z_ 100)) -. z_ 1) else w) in
    let work2 := rsi values long_length (q_ (inject_Z (- 10 ^ 90))) (fun w => w) in
    Some (tab_from front_bad n (fun i =>
      let '(x_mean, y_mean) := floop 0 reg_length (fun j s => let '(x, y) := s in (x +. rd work2 (i - j), y +. rd work1 (i - j))) (z_ 0, z_ 0) in
      let x_mean := x_mean /. z_ reg_length in let y_mean := y_mean /. z_ reg_length in
      let '(xss, xy) := floop 0 reg_length (fun j s => let '(xss, xy) := s in
          let x_diff := rd work2 (i - j) -. x_mean in let y_diff := rd work1 (i - j) -. y_mean in
          (xss +. x_diff *. x_diff, xy +. x_diff *. y_diff)) (z_ 0, z_ 0) in
      let coef := xy /. (xss +. e60) in
      let x_diff := rd work2 i -. x_mean in let y_diff := rd work1 i -. y_mean in
      y_diff -. coef *. x_diff))
  else None.
(** Exponential smoothing in place from bar [a + 1] on, seeded with bar [a]; [out x
    smoothed] is what is stored (536-540, 660-666, 1349-1354). *)
Definition smooth (a : Z) (alpha : F) (out : F -> F -> F) (output : list F) : list F :=
  firstn (Z.to_nat (a + 1)) output ++
  snd (scan (fun i smoothed => let s := alpha *. rd output i +. (z_ 1 -. alpha) *. smoothed in (s, out (rd output i) s))
         (rd output a) (zrange (a + 1) (len output))).
(** 648-657, the bar [i] of [stochastic_rsi]. *)
Definition sto_rsi_bar (work1 : list F) (sto_lookback i : Z) : F :=
  let '(min_val, max_val) := floop 0 sto_lookback (fun j s => let '(mn, mx) := s in
      let mx := if rd work1 (i - j) >. mx then rd work1 (i - j) else mx in
      let mn := if rd work1 (i - j) <. mn then rd work1 (i - j) else mn in (mn, mx))
      (q_ (inject_Z (10 ^ 60)), q_ (inject_Z (- 10 ^ 60))) in
  z_ 100 *. (rd work1 i -. min_val) /. (max_val -. min_val +. e60) -. z_ 50.
(** 598-667 [stochastic_rsi]. *)
Definition stochastic_rsi (values : list F) (rsi_lookback sto_lookback : Z) (smoothing : F) : option (list F) :=
  if (0 <? rsi_lookback) && (0 <? sto_lookback) && (smoothing >=. z_ 0) then
    let n := len values in
    let front_bad := Z.min (rsi_lookback + sto_lookback - 1) n in
    if n <=? rsi_lookback then Some (zeros n) else
    let work1 := rsi values rsi_lookback (z_ 0) (fun w => w) in
    let output := tab_from front_bad n (sto_rsi_bar work1 sto_lookback) in
    if (smoothing >. z_ 1) && (front_bad <? n)
    then Some (smooth front_bad (z_ 2 /. (smoothing +. z_ 1)) (fun _ s => s) output)
    else Some output
  else None.

(** 487-540 [macd]; [n = 0] is not modelled ([close[0]]). *)
Definition macd (high low close : list F) (short_length long_length : Z) (smoothing scale : F) : option (list F) :=
  if same_len high [low; close] && (0 <? short_length) && (short_length <=? long_length) && (smoothing >=. z_ 0) && (scale >. z_ 0)
     && (0 <? len close) then
    let n := len close in
    let long_alpha := z_ 2 /. (z_ long_length +. z_ 1) in
    let short_alpha := z_ 2 /. (z_ short_length +. z_ 1) in
    let output := z_ 0 :: snd (scan (fun i s => let '(long_sum, short_sum) := s in
      let long_sum := long_alpha *. rd close i +. (z_ 1 -. long_alpha) *. long_sum in
      let short_sum := short_alpha *. rd close i +. (z_ 1 -. short_alpha) *. short_sum in
      let diff := q_ (1#2) *. (z_ long_length -. z_ 1) -. q_ (1#2) *. (z_ short_length -. z_ 1) in
      let k := fint A (z_ long_length +. smoothing) in
      let k := if i <? k then i else k in
      let denom := fsqrt A (fabs A diff) *. atr_at i k high low close false in
      let x := (short_sum -. long_sum) /. (denom +. q_ (1 # (10 ^ 15)%positive)) in
      ((long_sum, short_sum), squash (scale *. x))) (rd close 0, rd close 0) (zrange 1 n)) in
    if smoothing >. z_ 1 then Some (smooth 0 (z_ 2 /. (smoothing +. z_ 1)) (fun x s => x -. s) output) else Some output
  else None.

(** 543-595 [stochastic]. *)
Definition stochastic (high low close : list F) (lookback smoothing : Z) : option (list F) :=
  if same_len high [low; close] && (0 <? lookback) && ((smoothing =? 0) || (smoothing =? 1) || (smoothing =? 2)) then
    let n := len close in
    if n <? lookback then Some (zeros n) else
    let front_bad := lookback - 1 in
    match lowv low lookback, highv high lookback with
    | Some min_vals, Some max_vals =>
      let third := q_ (33333333 # 100000000) in let two_thirds := q_ (66666667 # 100000000) in
      Some (zeros front_bad ++ snd (scan (fun i s => let '(sto_1, sto_2) := s in
        let sto_0 := (rd close i -. rd min_vals i) /. (rd max_vals i -. rd min_vals i +. e60) in
        if smoothing =? 0 then (s, z_ 100 *. sto_0 -. z_ 50)
        else if i =? front_bad then ((sto_0, sto_2), z_ 100 *. sto_0 -. z_ 50)
        else
          let sto_1 := third *. sto_0 +. two_thirds *. sto_1 in
          if smoothing =? 1 then ((sto_1, sto_2), z_ 100 *. sto_1 -. z_ 50)
          else if i =? front_bad + 1 then ((sto_1, sto_1), z_ 100 *. sto_1 -. z_ 50)
          else let sto_2 := third *. sto_1 +. two_thirds *. sto_2 in ((sto_1, sto_2), z_ 100 *. sto_2 -. z_ 50))
        (nan A, nan A) (zrange front_bad n)))
    | _, _ => None
    end
  else None.

(** ** Trends and deviations *)
(** Sum of [f] over an array of length [n]; normalisation to length 1. *)
Definition fsum (n : Z) (f : Z -> F) : F := floop 0 n (fun i t => t +. f i) (z_ 0).
Definition unit (n : Z) (c : list F) : list F :=
  let total := fsqrt A (fsum n (fun i => rd c i *. rd c i)) in tab n (fun i => rd c i /. total).
(** 669-738 [_legendre_1], [_legendre_2], [_legendre_3]. *)
Definition legendre_1 (n : Z) : list F := unit n (tab n (fun i => z_ 2 *. z_ i /. (z_ n -. z_ 1) -. z_ 1)).
Definition legendre_2 (n : Z) : list F :=
  let c1 := legendre_1 n in
  let c2 := tab n (fun i => rd c1 i *. rd c1 i) in
  let mean := fsum n (rd c2) /. z_ n in
  unit n (tab n (fun i => rd c2 i -. mean)).
Definition legendre_3 (n : Z) : list F :=
  let c1 := legendre_1 n in
  let c3 := tab n (fun i => rd c1 i *. rd c1 i *. rd c1 i) in
  let mean := fsum n (rd c3) /. z_ n in
  let c3 := unit n (tab n (fun i => rd c3 i -. mean)) in
  let proj := fsum n (fun i => rd c1 i *. rd c3 i) in
  unit n (tab n (fun i => rd c3 i -. proj *. rd c1 i)).
Inductive degree := Linear | Quadratic | Cubic.
(** 741-812 [_trend]. *)
Definition trend (values high low close : list F) (lookback atr_length : Z) (scale : F) (ty : degree) : option (list F) :=
  if same_len values [high; low; close] && (0 <? lookback) && (0 <? atr_length) && (scale >. z_ 0) then
    let lookback := match ty with Quadratic => Z.max lookback 4 | Cubic => Z.max lookback 5 | Linear => Z.max lookback 2 end in
    let n := len values in
    let front_bad := Z.min (if atr_length <? lookback - 1 then lookback - 1 else atr_length) n in
    let dptr := match ty with Linear => legendre_1 lookback | Quadratic => legendre_2 lookback | Cubic => legendre_3 lookback end in
    Some (tab_from front_bad n (fun i =>
      let a := i - lookback + 1 in
      let '(mean, dot_prod) := floop a (i + 1) (fun j s => let '(mean, dot_prod) := s in
          let price := flog A (rd values j) in (mean +. price, dot_prod +. price *. rd dptr (j - a))) (z_ 0, z_ 0) in
      let mean := mean /. z_ lookback in
      let k := if lookback =? 2 then 2 else lookback - 1 in
      let denom := atr_at i atr_length high low close true *. z_ k in
      let out := dot_prod *. z_ 2 /. (denom +. e60) in
      let '(yss, rsq) := floop a (i + 1) (fun j s => let '(yss, rsq) := s in
          let diff := flog A (rd values j) -. mean in
          let pred := dot_prod *. rd dptr (j - a) in
          let diff' := diff -. pred in (yss +. diff *. diff, rsq +. diff' *. diff')) (z_ 0, z_ 0) in
      let rsq := z_ 1 -. rsq /. (yss +. e60) in
      let rsq := if rsq <. z_ 0 then z_ 0 else rsq in
      squash (scale *. (out *. rsq))))
  else None.
(** 1163-1237 [_deviation]. *)
Definition deviation (values : list F) (lookback : Z) (scale : F) (ty : degree) : option (list F) :=
  if (0 <? lookback) && (scale >. z_ 0) then
    let n := len values in
    let lookback := match ty with Linear => Z.max lookback 3 | Quadratic => Z.max lookback 4 | Cubic => Z.max lookback 5 end in
    let front_bad := Z.min (lookback - 1) n in
    let work1 := legendre_1 lookback in let work2 := legendre_2 lookback in let work3 := legendre_3 lookback in
    Some (tab_from front_bad n (fun i =>
      let a := i - lookback + 1 in
      let dot w := floop a (i + 1) (fun j c => c +. flog A (rd values j) *. rd w (j - a)) (z_ 0) in
      let c0 := floop a (i + 1) (fun j c => c +. flog A (rd values j)) (z_ 0) /. z_ lookback in
      let c1 := dot work1 in
      let c2 := match ty with Linear => z_ 0 | _ => dot work2 end in
      let c3 := match ty with Cubic => dot work3 | _ => z_ 0 end in
      let pred_at j :=
        let pred := c0 +. c1 *. rd work1 j in
        let pred := match ty with Linear => pred | _ => pred +. c2 *. rd work2 j end in
        match ty with Cubic => pred +. c3 *. rd work3 j | _ => pred end in
      let total := floop a (i + 1) (fun k total =>
        let diff := flog A (rd values k) -. pred_at (k - a) in total +. diff *. diff) (z_ 0) in
      let denom := fsqrt A (total /. z_ lookback) in
      if denom >. q_ (1 # (10 ^ 12)%positive) *. (z_ 1 +. fabs A c0)
      then squash (scale *. ((flog A (rd values i) -. pred_at (lookback - 1)) /. denom))
      else z_ 0))
  else None.

(** ** Directional movement *)
(** The part of 929-949 common to the three loops: moves and true range of bar [i]. *)
Definition dm (high low close : list F) (i : Z) : F * F * F :=
  let up_move := rd high i -. rd high (i - 1) in
  let down_move := rd low (i - 1) -. rd low i in
  let dm_plus := if (up_move >. down_move) && (up_move >. z_ 0) then up_move else z_ 0 in
  let dm_minus := if (down_move >. up_move) && (down_move >. z_ 0) then down_move else z_ 0 in
  let term := rd high i -. rd low i in
  let term := if rd high i -. rd close (i - 1) >. term then rd high i -. rd close (i - 1) else term in
  let term := if rd close (i - 1) -. rd low i >. term then rd close (i - 1) -. rd low i else term in
  (dm_plus, dm_minus, term).
Definition dx (dms_plus dms_minus atr_ : F) : F :=
  let eps := q_ (1 # (10 ^ 10)%positive) in
  let di_plus := dms_plus /. (atr_ +. eps) in
  let di_minus := dms_minus /. (atr_ +. eps) in
  fabs A (di_plus -. di_minus) /. (di_plus +. di_minus +. eps).
(** 905-1006 [adx]; the state is dms_plus, dms_minus, atr_, adx_. *)
Definition adx_1 (high low close : list F) (i : Z) (s : F * F * F * F) : (F * F * F * F) * F :=
  let '(p, m, a, _) := s in let '(dp, d_m, t) := dm high low close i in
  let p := p +. dp in let m := m +. d_m in let a := a +. t in
  let x := dx p m a in ((p, m, a, x), z_ 100 *. x).
Definition adx_2 (high low close : list F) (lookback i : Z) (s : F * F * F * F) : (F * F * F * F) * F :=
  let '(p, m, a, x) := s in let '(dp, d_m, t) := dm high low close i in
  let k := (z_ lookback -. z_ 1) /. z_ lookback in
  let p := k *. p +. dp in let m := k *. m +. d_m in let a := k *. a +. t in
  let x := x +. dx p m a in ((p, m, a, x), z_ 100 *. x /. z_ (i - lookback + 1)).
Definition adx_3 (high low close : list F) (lookback i : Z) (s : F * F * F * F) : (F * F * F * F) * F :=
  let '(p, m, a, x) := s in let '(dp, d_m, t) := dm high low close i in
  let k := (z_ lookback -. z_ 1) /. z_ lookback in
  let p := k *. p +. dp in let m := k *. m +. d_m in let a := k *. a +. t in
  let x := k *. x +. dx p m a /. z_ lookback in ((p, m, a, x), z_ 100 *. x).
Definition adx (high low close : list F) (lookback : Z) : option (list F) :=
  if same_len high [low; close] && (0 <? lookback) then
    let n := len close in
    if n <? 2 * lookback then Some (zeros n) else
    let '(s, o1) := scan (adx_1 high low close) (z_ 0, z_ 0, z_ 0, nan A) (zrange 1 (lookback + 1)) in
    let '(s, o2) := scan (adx_2 high low close lookback) s (zrange (lookback + 1) (2 * lookback)) in
    let '(p, m, a, x) := s in
    let '(_, o3) := scan (adx_3 high low close lookback) (p, m, a, x /. z_ lookback) (zrange (2 * lookback) n) in
    (* at lookback 1 the first loop already covers bar [2 * lookback - 1]; the
       writes of the three loops never overlap *)
    Some (z_ 0 :: o1 ++ o2 ++ o3)
  else None.

(** 1009-1055 [_aroon]; [n = 0] is not modelled ([output[0]]). *)
Inductive aroon_type := AroonUp | AroonDown | AroonDiff.
(** The scans of 1033-1048: [range(i - 1, i - lookback - 1, -1)], broken off below 0;
    the result is the bar of the extreme. *)
Fixpoint extreme_scan (l : list F) (better : F -> F -> bool) (j : Z) (steps : nat) (x : F) (best : Z) : Z :=
  match steps with
  | O => best
  | S steps =>
      if j <? 0 then best
      else if better (rd l j) x then extreme_scan l better (j - 1) steps (rd l j) j
      else extreme_scan l better (j - 1) steps x best
  end.
Definition aroon (high low : list F) (lookback : Z) (ty : aroon_type) : option (list F) :=
  if same_len high [low] && (0 <? lookback) && (0 <? len high) then
    let n := len high in
    Some (tab n (fun i =>
      if i =? 0 then match ty with AroonDiff => z_ 0 | _ => z_ 50 end else
      let i_max := extreme_scan high (fun x y => x >. y) (i - 1) (Z.to_nat lookback) (rd high i) i in
      let i_min := extreme_scan low (fun x y => x <. y) (i - 1) (Z.to_nat lookback) (rd low i) i in
      let level k := z_ (100 * (lookback - (i - k))) /. z_ lookback in
      match ty with
      | AroonUp => level i_max
      | AroonDown => level i_min
      | AroonDiff => level i_max -. level i_min
      end))
  else None.

(** ** Prices *)
(** 1115-1160 [close_minus_ma]. *)
Definition close_minus_ma (high low close : list F) (lookback atr_length : Z) (scale : F) : option (list F) :=
  if same_len high [low; close] && (0 <? lookback) && (0 <? atr_length) && (scale >. z_ 0) then
    let n := len close in
    let front_bad := Z.min (Z.max lookback atr_length) n in
    Some (tab_from front_bad n (fun i =>
      let total := floop (i - lookback) i (fun j t => t +. flog A (rd close j)) (z_ 0) /. z_ lookback in
      let denom := atr_at i atr_length high low close true in
      if denom >. z_ 0 then
        let denom := denom *. fsqrt A (z_ lookback +. z_ 1) in
        squash (scale *. ((flog A (rd close i) -. total) /. denom))
      else z_ 0))
  else None.
(** 1300-1357 [price_intensity]; [n = 0] is not modelled. *)
Definition price_intensity (opens high low close : list F) (smoothing scale : F) : option (list F) :=
  if same_len opens [high; low; close] && (smoothing >=. z_ 0) && (scale >. z_ 0) && (0 <? len close) then
    let n := len close in
    let smoothing := if smoothing <. z_ 1 then z_ 1 else smoothing in
    let output := tab n (fun i =>
      let denom := rd high i -. rd low i in
      let denom := if i =? 0 then denom else
        let denom := if rd high i -. rd close (i - 1) >. denom then rd high i -. rd close (i - 1) else denom in
        if rd close (i - 1) -. rd low i >. denom then rd close (i - 1) -. rd low i else denom in
      let denom := if denom <. e60 then e60 else denom in
      (rd close i -. rd opens i) /. denom) in
    let output := if smoothing >. z_ 1 then smooth 0 (z_ 2 /. (smoothing +. z_ 1)) (fun _ s => s) output else output in
    Some (map (fun x => squash (scale *. fsqrt A smoothing *. x)) output)
  else None.
(** 1360-1420 [price_change_oscillator]. *)
Definition price_change_oscillator (high low close : list F) (short_length multiplier : Z) (scale : F) : option (list F) :=
  if same_len high [low; close] && (0 <? short_length) && (0 <? multiplier) && (scale >. z_ 0) then
    let n := len close in
    let multiplier := if multiplier <? 2 then 2 else multiplier in
    let long_length := short_length * multiplier in
    let front_bad := Z.min long_length n in
    Some (tab_from front_bad n (fun i =>
      let change j := fabs A (flog A (rd close j /. rd close (j - 1))) in
      let short_sum := floop (i - short_length + 1) (i + 1) (fun j t => t +. change j) (z_ 0) in
      let long_sum := floop (i - long_length + 1) (i - short_length + 1) (fun j t => t +. change j) short_sum in
      let short_sum := short_sum /. z_ short_length in let long_sum := long_sum /. z_ long_length in
      let denom := q_ (36#100) +. z_ 1 /. z_ short_length in
      let v := flog A (q_ (1#2) *. z_ multiplier) /. q_ (1609#1000) in
      let denom := (denom +. q_ (7#10) *. v) *. atr_at i long_length high low close true in
      if denom >. q_ (1 # (10 ^ 20)%positive) then squash (scale *. ((short_sum -. long_sum) /. denom)) else z_ 0))
  else None.

(** ** Volume *)
(** [for first_volume in range(n): if volume[first_volume] > 0: break]: the first bar
    with volume, or the last bar. No value exists for [n = 0], which is not
    modelled. *)
Fixpoint first_positive (l : list F) (k : Z) : Z :=
  match l with
  | [] => k - 1
  | v :: r => if v >. z_ 0 then k else first_positive r (k + 1)
  end.
Definition first_volume (volume : list F) : Z := first_positive volume 0.
(** 1423-1486 [_flow]. *)
Inductive flow_type := Intraday | MoneyFlow.
Definition flow (high low close volume : list F) (lookback : Z) (smoothing : F) (ty : flow_type) : option (list F) :=
  if same_len high [low; close; volume] && (0 <? lookback) && (smoothing >=. z_ 0) && (0 <? len close) then
    let n := len close in
    let fv := first_volume volume in
    let front_bad := Z.min (lookback - 1 + fv) n in
    let output := tab_from fv n (fun i =>
      if rd high i >. rd low i
      then z_ 100 *. (z_ 2 *. rd close i -. rd high i -. rd low i) /. (rd high i -. rd low i) *. rd volume i
      else z_ 0) in
    (* 1453-1458: from the last bar down, in place *)
    let output := if 1 <? lookback then
      fold_left (fun out i => wr out i (floop 0 lookback (fun j t => t +. rd out (i - j)) (z_ 0) /. z_ lookback))
        (rev (zrange front_bad n)) output else output in
    let output := match ty with
      | MoneyFlow => tab n (fun i => if i <? front_bad then rd output i else
          let total := floop 0 lookback (fun j t => t +. rd volume (i - j)) (z_ 0) /. z_ lookback in
          if total >. z_ 0 then rd output i /. total else z_ 0)
      | Intraday =>
          if smoothing >. z_ 1 then
            let alpha := z_ 2 /. (smoothing +. z_ 1) in
            firstn (Z.to_nat fv) output ++
            snd (scan (fun i smoothed =>
              let smoothed := alpha *. rd volume i +. (z_ 1 -. alpha) *. smoothed in
              (smoothed, if smoothed >. z_ 0 then rd output i /. smoothed else z_ 0)) (rd volume fv) (zrange fv n))
          else output
      end in
    Some (tab_from front_bad n (rd output))
  else None.
(** 1539-1626 [reactivity]. *)
Definition reactivity (high low close volume : list F) (lookback : Z) (smoothing scale : F) : option (list F) :=
  if same_len high [low; close; volume] && (0 <? lookback) && (smoothing >=. z_ 0) && (scale >. z_ 0) && (0 <? len close) then
    let n := len close in
    let fv := first_volume volume in
    let front_bad := Z.min (lookback + fv) n in
    let alpha := z_ 2 /. (z_ lookback *. smoothing +. z_ 1) in
    let alpha := if alpha >. z_ 1 then z_ 1 else alpha in
    let lowest := rd low fv in let highest := rd high fv in
    let range0 := highest -. lowest in
    if range0 ==. z_ 0 then Some (zeros n)
    else if (n <=? fv + 1) || (n <=? fv + lookback) then Some (zeros n)
    else
      let '(_, _, smoothed_range, smoothed_volume) := floop (fv + 1) (fv + lookback) (fun i s =>
        let '(lowest, highest, r, v) := s in
        let highest := if rd high i >. highest then rd high i else highest in
        let lowest := if rd low i <. lowest then rd low i else lowest in
        (lowest, highest, alpha *. (highest -. lowest) +. (z_ 1 -. alpha) *. r, alpha *. rd volume i +. (z_ 1 -. alpha) *. v))
        (lowest, highest, range0, rd volume fv) in
      Some (zeros front_bad ++ snd (scan (fun i s => let '(r, v) := s in
        let '(lowest, highest) := floop 1 (lookback + 1) (fun j s => let '(lowest, highest) := s in
            let highest := if rd high (i - j) >. highest then rd high (i - j) else highest in
            let lowest := if rd low (i - j) <. lowest then rd low (i - j) else lowest in (lowest, highest)) (rd low i, rd high i) in
        let r := alpha *. (highest -. lowest) +. (z_ 1 -. alpha) *. r in
        let v := alpha *. rd volume i +. (z_ 1 -. alpha) *. v in
        let aspect_ratio := (highest -. lowest) /. r in
        let aspect_ratio := if (rd volume i >. z_ 0) && (v >. z_ 0) then aspect_ratio /. (rd volume i /. v) else z_ 1 in
        let x := aspect_ratio *. (rd close i -. rd close (i - lookback)) /. r in
        ((r, v), squash (scale *. x))) (smoothed_range, smoothed_volume) (zrange front_bad n)))
  else None.
(** 1629-1677 [price_volume_fit]. *)
Definition price_volume_fit (close volume : list F) (lookback : Z) (scale : F) : option (list F) :=
  if same_len close [volume] && (0 <? lookback) && (scale >. z_ 0) && (0 <? len close) then
    let n := len close in
    let front_bad := Z.min (lookback - 1 + first_volume volume) n in
    Some (tab_from front_bad n (fun i =>
      let lv k := flog A (rd volume k +. z_ 1) in let lc k := flog A (rd close k) in
      let '(x_mean, y_mean) := floop 0 lookback (fun j s => let '(x, y) := s in (x +. lv (i - j), y +. lc (i - j))) (z_ 0, z_ 0) in
      let x_mean := x_mean /. z_ lookback in let y_mean := y_mean /. z_ lookback in
      let '(xss, xy) := floop 0 lookback (fun j s => let '(xss, xy) := s in
          let x_diff := lv (i - j) -. x_mean in let y_diff := lc (i - j) -. y_mean in
          (xss +. x_diff *. x_diff, xy +. x_diff *. y_diff)) (z_ 0, z_ 0) in
      let coef := xy /. (xss +. q_ (1 # (10 ^ 30)%positive)) in
      squash (scale *. coef)))
  else None.
(** 1680-1726 [volume_weighted_ma_ratio]. *)
Definition volume_weighted_ma_ratio (close volume : list F) (lookback : Z) (scale : F) : option (list F) :=
  if same_len close [volume] && (0 <? lookback) && (scale >. z_ 0) && (0 <? len close) then
    let n := len close in
    let front_bad := Z.min (lookback - 1 + first_volume volume) n in
    Some (tab_from front_bad n (fun i =>
      let '(total, numer, denom) := floop (i - lookback + 1) (i + 1) (fun j s => let '(total, numer, denom) := s in
          (total +. rd volume j, numer +. rd volume j *. rd close j, denom +. rd close j)) (z_ 0, z_ 0, z_ 0) in
      if total >. z_ 0
      then squash (scale *. (z_ 1000 *. flog A (z_ lookback *. numer /. (total *. denom)) /. fsqrt A (z_ lookback)))
      else z_ 0))
  else None.
(** 1729-1778 [_on_balance_volume]. *)
Inductive obv_type := Normalized | Delta.
Definition on_balance_volume (close volume : list F) (lookback delta_length : Z) (scale : F) (ty : obv_type) : option (list F) :=
  if same_len close [volume] && (0 <? lookback) && (0 <=? delta_length) && (scale >. z_ 0) && (0 <? len close) then
    let n := len close in
    let front_bad := Z.min (lookback + first_volume volume) n in
    let output := tab_from front_bad n (fun i =>
      let '(signed_volume, total_volume) := floop 0 lookback (fun j s => let '(sv, tv) := s in
          let sv := if rd close (i - j) >. rd close (i - j - 1) then sv +. rd volume (i - j)
                    else if rd close (i - j) <. rd close (i - j - 1) then sv -. rd volume (i - j) else sv in
          (sv, tv +. rd volume (i - j))) (z_ 0, z_ 0) in
      if total_volume <=. z_ 0 then z_ 0
      else let value := signed_volume /. total_volume *. fsqrt A (z_ lookback) in squash (scale *. value)) in
    match ty with
    | Normalized => Some output
    | Delta =>
        let delta_length := if delta_length <? 1 then 1 else delta_length in
        let front_bad := Z.min (front_bad + delta_length) n in
        let output := fold_left (fun out i => wr out i (rd out i -. rd out (i - delta_length))) (rev (zrange front_bad n)) output in
        Some (tab_from front_bad n (rd output))
    end
  else None.
(** 1829-1874 [_normalized_volume_index]. *)
Inductive index_type := Positive | Negative.
Definition normalized_volume_index (close volume : list F) (lookback : Z) (scale : F) (ty : index_type) : option (list F) :=
  if same_len close [volume] && (0 <? lookback) && (scale >. z_ 0) && (0 <? len close) then
    let n := len close in
    let volatility_length := if 2 * lookback <? 250 then 250 else 2 * lookback in
    let front_bad := Z.min (volatility_length + first_volume volume) n in
    Some (tab_from front_bad n (fun i =>
      let total := floop 0 lookback (fun j total =>
        let counts := match ty with
                      | Positive => rd volume (i - j) >. rd volume (i - j - 1)
                      | Negative => rd volume (i - j) <. rd volume (i - j - 1)
                      end in
        if counts then total +. flog A (rd close (i - j) /. rd close (i - j - 1)) else total) (z_ 0) in
      let total := total /. fsqrt A (z_ lookback) in
      let denom := fsqrt A (variance true i volatility_length close) in
      if isnan A total || isnan A denom then nan A
      else if denom >. z_ 0 then squash (scale *. (total /. denom)) else z_ 0))
  else None.
(** 1921-1970 [volume_momentum]. *)
Definition volume_momentum (volume : list F) (short_length multiplier : Z) (scale : F) : option (list F) :=
  if (0 <? short_length) && (1 <=? multiplier) && (scale >. z_ 0) && (0 <? len volume) then
    let n := len volume in
    let multiplier := if multiplier <? 2 then 2 else multiplier in
    let long_length := short_length * multiplier in
    let front_bad := Z.min (long_length - 1 + first_volume volume) n in
    let denom := fexp A (flog A (z_ multiplier) /. z_ 3) in
    Some (tab_from front_bad n (fun i =>
      let short_sum := floop (i - short_length + 1) (i + 1) (fun j t => t +. rd volume j) (z_ 0) in
      let long_sum := floop (i - long_length + 1) (i - short_length + 1) (fun j t => t +. rd volume j) short_sum in
      let short_sum := short_sum /. z_ short_length in let long_sum := long_sum /. z_ long_length in
      if (long_sum >. z_ 0) && (short_sum >. z_ 0) then squash (scale *. (flog A (short_sum /. long_sum) /. denom)) else z_ 0))
  else None.

(** ** Laguerre *)
(** Builtin [max] and [min] of two numbers and of a slice [l[a : b]]. *)
Definition fmax (x y : F) : F := if y >. x then y else x.
Definition fmin (x y : F) : F := if y <. x then y else x.
Definition slice_max (l : list F) (a b : Z) : F := floop (a + 1) b (fun k m => fmax m (rd l k)) (rd l a).
Definition slice_min (l : list F) (a b : Z) : F := floop (a + 1) b (fun k m => fmin m (rd l k)) (rd l a).
(** 1973-2046 [laguerre_rsi]. *)
Definition laguerre_rsi (opens high low close : list F) (fe_length : Z) : option (list F) :=
  if same_len opens [high; low; close] && (0 <? fe_length) then
    let n := len close in
    if (n <=? fe_length) || (fe_length =? 1) then Some (zeros n) else
    Some (zeros fe_length ++ snd (scan (fun i s => let '(l0_1, l1_1, l2_1, l3_1) := s in
      let oc := (rd opens i +. rd close (i - 1)) /. z_ 2 in
      let hc := fmax (rd high i) (rd close (i - 1)) in
      let lc := fmin (rd low i) (rd close (i - 1)) in
      let fe_src := (oc +. hc +. lc +. rd close i) /. z_ 4 in
      let highest := slice_max high (i + 1 - fe_length) (i + 1) in
      let lowest := slice_min low (i + 1 - fe_length) (i + 1) in
      let denom := highest -. lowest in
      if denom ==. z_ 0 then (s, z_ 0) else
      let t := floop 0 fe_length (fun j t =>
        let diff := fmax (rd high (i - j)) (rd close (i - j - 1)) -. fmin (rd low (i - j)) (rd close (i - j - 1)) in
        t +. diff /. denom) (z_ 0) in
      let fe_alpha := if t >. z_ 0 then flog A t /. flog A (z_ fe_length) else z_ 0 in
      let l0 := fe_alpha *. fe_src +. (z_ 1 -. fe_alpha) *. l0_1 in
      let l1 := neg A (z_ 1 -. fe_alpha) *. l0 +. l0_1 +. (z_ 1 -. fe_alpha) *. l1_1 in
      let l2 := neg A (z_ 1 -. fe_alpha) *. l1 +. l1_1 +. (z_ 1 -. fe_alpha) *. l2_1 in
      let l3 := neg A (z_ 1 -. fe_alpha) *. l2 +. l2_1 +. (z_ 1 -. fe_alpha) *. l3_1 in
      let cu := (if l0 >=. l1 then l0 -. l1 else z_ 0) +. (if l1 >=. l2 then l1 -. l2 else z_ 0) +. (if l2 >=. l3 then l2 -. l3 else z_ 0) in
      let cd := (if l0 >=. l1 then z_ 0 else l1 -. l0) +. (if l1 >=. l2 then z_ 0 else l2 -. l1) +. (if l2 >=. l3 then z_ 0 else l3 -. l2) in
      let lrsi := if negb (cu +. cd ==. z_ 0) then cu /. (cu +. cd) else z_ 0 in
      ((l0, l1, l2, l3), lrsi *. z_ 100)) (z_ 0, z_ 0, z_ 0, z_ 0) (zrange fe_length n)))
  else None.
End Vect.
