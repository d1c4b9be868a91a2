(** Models of the functions of vmmlib/matrix.hpp that mix the element type with
    other numeric types: quantize, dequantize, set_dct, p_norm.  Floating-point
    numbers are real numbers here; integers are exact with the ranges of the
    C++ types. *)
From Verif Require Export MMatrix InstR.

(** An integral C++ type: its width in bits and whether it is signed. *)
Record ityp := { ibits : Z; isigned : bool }.
(** std::numeric_limits< TT >::min(), max(). *)
Definition imin (t : ityp) : Z := if isigned t then (- 2 ^ (ibits t - 1))%Z else 0%Z.
Definition imax (t : ityp) : Z := if isigned t then (2 ^ (ibits t - 1) - 1)%Z else (2 ^ ibits t - 1)%Z.
(** Conversion of an integer to an integral type: modulo 2^bits (implementation
    defined before C++20 for signed targets; this is what gcc, clang and msvc
    do). *)
Definition iconv (t : ityp) (z : Z) : Z := ((z - imin t) mod 2 ^ ibits t + imin t)%Z.
(** long on LP64. *)
Definition tlong : ityp := {| ibits := 64; isigned := true |}.
(** A signed operation whose exact result is [z]. *)
Definition long_op (z : Z) : res Z :=
  if ((imin tlong <=? z) && (z <=? imax tlong))%Z then Ok z else UB.
(** long( x ) for a floating-point x: truncation towards zero; undefined when the
    truncated value does not fit. *)
Definition rtrunc (x : R) : Z := if Rltb x 0 then (- Int_part (- x))%Z else Int_part x.
Definition long_of (x : R) : res Z := long_op (rtrunc x).

Section Num.
Context {cfg : Cfg} {lim : RLim}.
Implicit Types m : list R.
Local Open Scope R_scope.

(** matrix.hpp:2462-2464, 2501-2503 the width of the integral type's range. *)
Definition int_range (t : ityp) : res Z := long_op (iconv tlong (imax t) - iconv tlong (imin t))%Z.
(** matrix.hpp:2475-2480 the conversion of one cell. *)
Definition quantize_cell (t : ityp) (range : Z) (x mn mx : R) : res Z :=
  let trange := mx - mn in
  s <- (if isigned t then sdiv (x * IZR range) trange else sdiv ((x - mn) * IZR range) trange) ;;
  l <- long_of (s + / 2) ;;
  Ok (iconv t (Z.min (Z.max (iconv tlong (imin t)) l) (iconv tlong (imax t)))).
(** matrix.hpp:2458-2482 quantize_to( quantized, min, max ), TT integral. *)
Definition mat_quantize_to (t : ityp) (M N : nat) m (quant : list Z) (mn mx : R) : res (list Z) :=
  range <- int_range t ;;
  for_ 0 (M * N) (fun i quant => x <- rd m i ;; q <- quantize_cell t range x mn mx ;; wr quant i q) quant.
(** matrix.hpp:2485-2492 quantize( quantized, min, max ). *)
Definition mat_quantize (t : ityp) (M N : nat) m (quant : list Z) : res (list Z * R * R) :=
  mn <- mat_get_min M N m ;; mx <- mat_get_max M N m ;;
  quant <- mat_quantize_to t M N m quant mn mx ;; Ok (quant, mn, mx).
(** matrix.hpp:2512-2516 the conversion of one cell back. *)
Definition dequantize_cell (t : ityp) (range : Z) (q : Z) (mn mx : R) : res R :=
  let ttrange := mx - mn in
  d <- sdiv (IZR q) (IZR range) ;;
  let y := if isigned t then d * ttrange else d * ttrange + mn in
  let y := if sltb mn y then y else mn in
  Ok (if sltb mx y then mx else y).
(** matrix.hpp:2497-2518 dequantize( dequantized, min, max ), T integral. *)
Definition mat_dequantize (t : ityp) (M N : nat) (quant : list Z) (out : list R) (mn mx : R) : res (list R) :=
  range <- int_range t ;;
  for_ 0 (M * N) (fun i out => q <- rd quant i ;; y <- dequantize_cell t range q mn mx ;; wr out i y) out.

(** matrix.hpp:2566-2584 set_dct().  M_PI is PI; the size_t products do not wrap
    below 2^31 rows. *)
Definition mat_set_dct (M N : nat) m : res (list R) :=
  let num_rows := INR M in
  for_ 0 M (fun row =>
    for_ 0 N (fun col m =>
      w <- (if (row =? 0)%nat then d <- sdiv 1 num_rows ;; ssqrt d else d <- sdiv 2 num_rows ;; ssqrt d) ;;
      v <- sdiv (INR ((2 * col + 1) * row) * PI) (INR (2 * M)) ;;
      let v := scos v in let v := v * w in
      mat_put M N m row col v)) m.

(** std::pow( x, p ) for finite arguments.  A negative base is defined for
    integral exponents only; 0 to a negative power is infinite. *)
Definition cpow (x p : R) : res R :=
  if Rltb 0 x then Ok (Rpower x p)
  else if Reqb p 0 then Ok 1
  else if Reqb x 0 then (if Rltb 0 p then Ok 0 else NonFin)
  else if Reqb p (IZR (Int_part p)) then
    Ok (if Z.even (Int_part p) then Rpower (- x) p else - Rpower (- x) p)
  else NonFin.
(** matrix.hpp:2262-2274 p_norm( p ). *)
Definition mat_p_norm (M N : nat) m (p : R) : res R :=
  norm <- for_ 0 (M * N) (fun i acc => a <- rd m i ;; y <- cpow a p ;; Ok (acc + y)) 0 ;;
  e <- sdiv 1 p ;; cpow norm e.
End Num.
