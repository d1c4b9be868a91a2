(** Quantisation of matrices of doubles and of floats, in IEEE arithmetic (MNum.v models the
    same functions over the reals). *)
From Coq Require Import ZArith List.
From Flocq Require Import Core.Core IEEE754.BinarySingleNaN IEEE754.Binary IEEE754.Bits.
From Verif Require Import InstF InstF32 MMatrix MNum MLit MFloat.
Import ListNotations.
Local Existing Instance F64Scalar.

(** long( x ) for a double x: truncation towards zero; undefined for NaN, for
    infinities and when the truncated value does not fit (C++ [conv.fpint]). *)
Definition long_of_f64 (x : f64) : res Z :=
  if is_finite 53 1024 x then long_op (Binary.Btrunc 53 1024 x) else UB.
(** matrix.hpp:2475-2480 quantize_to(): one cell.  [tt_range] is a long that is
    converted to double; 0.5 is a double literal. *)
Definition quantizeD_cell (t : ityp) (range : Z) (x mn mx : f64) : res Z :=
  let trange := b64_minus mode_NE mx mn in
  let s := if isigned t
           then b64_div mode_NE (b64_mult mode_NE x (f64_of_Z range)) trange
           else b64_div mode_NE (b64_mult mode_NE (b64_minus mode_NE x mn) (f64_of_Z range)) trange in
  l <- long_of_f64 (b64_plus mode_NE s f64_half) ;;
  Ok (iconv t (Z.min (Z.max (iconv tlong (imin t)) l) (iconv tlong (imax t)))).
(** matrix.hpp:2458-2482 Matrix< M, N, double >::quantize_to( quantized, min, max ). *)
Definition matD_quantize_to (t : ityp) (M N : nat) (m : list f64) (quant : list Z) (mn mx : f64) : res (list Z) :=
  range <- int_range t ;;
  for_ 0 (M * N) (fun i quant => x <- rd m i ;; q <- quantizeD_cell t range x mn mx ;; wr quant i q) quant.
(** matrix.hpp:2485-2492 quantize( quantized, min, max ). *)
Definition matD_quantize {cfg : Cfg} (t : ityp) (M N : nat) (m : list f64) (quant : list Z) : res (list Z * f64 * f64) :=
  mn <- mat_get_min M N m ;; mx <- mat_get_max M N m ;;
  quant <- matD_quantize_to t M N m quant mn mx ;; Ok (quant, mn, mx).
(** matrix.hpp:2512-2516 dequantize(): one cell, TT = double. *)
Definition dequantizeD_cell (t : ityp) (range : Z) (q : Z) (mn mx : f64) : f64 :=
  let ttrange := b64_minus mode_NE mx mn in
  let d := b64_div mode_NE (f64_of_Z q) (f64_of_Z range) in
  let y := if isigned t then b64_mult mode_NE d ttrange else b64_plus mode_NE (b64_mult mode_NE d ttrange) mn in
  let y := if sltb mn y then y else mn in
  if sltb mx y then mx else y.
(** matrix.hpp:2497-2518 dequantize( dequantized, min, max ), T integral, TT = double. *)
Definition matD_dequantize (t : ityp) (M N : nat) (quant : list Z) (out : list f64) (mn mx : f64) : res (list f64) :=
  range <- int_range t ;;
  for_ 0 (M * N) (fun i out => q <- rd quant i ;; wr out i (dequantizeD_cell t range q mn mx)) out.

(** ** float *)
(** The conversion of an integer to float. *)
Definition f32_of_Z (z : Z) : f32 := binary_normalize 24 128 eq_refl eq_refl mode_NE z 0 false.
Section F32.
Local Existing Instance F32Scalar.
(** matrix.hpp:2475-2480 quantize_to(): one cell, T = float.  The scaled value
    is a float; adding the double literal 0.5 converts it to double. *)
Definition quantizeF_cell (t : ityp) (range : Z) (x mn mx : f32) : res Z :=
  let trange := b32_minus mode_NE mx mn in
  let s := if isigned t
           then b32_div mode_NE (b32_mult mode_NE x (f32_of_Z range)) trange
           else b32_div mode_NE (b32_mult mode_NE (b32_minus mode_NE x mn) (f32_of_Z range)) trange in
  l <- long_of_f64 (b64_plus mode_NE (f64_of_f32 s) f64_half) ;;
  Ok (iconv t (Z.min (Z.max (iconv tlong (imin t)) l) (iconv tlong (imax t)))).
(** matrix.hpp:2458-2482 Matrix< M, N, float >::quantize_to( quantized, min, max ). *)
Definition matF_quantize_to (t : ityp) (M N : nat) (m : list f32) (quant : list Z) (mn mx : f32) : res (list Z) :=
  range <- int_range t ;;
  for_ 0 (M * N) (fun i quant => x <- rd m i ;; q <- quantizeF_cell t range x mn mx ;; wr quant i q) quant.
(** matrix.hpp:2485-2492 quantize( quantized, min, max ). *)
Definition matF_quantize {cfg : Cfg} (t : ityp) (M N : nat) (m : list f32) (quant : list Z) : res (list Z * f32 * f32) :=
  mn <- mat_get_min M N m ;; mx <- mat_get_max M N m ;;
  quant <- matF_quantize_to t M N m quant mn mx ;; Ok (quant, mn, mx).
(** matrix.hpp:2512-2516 dequantize(): one cell, TT = float. *)
Definition dequantizeF_cell (t : ityp) (range : Z) (q : Z) (mn mx : f32) : f32 :=
  let ttrange := b32_minus mode_NE mx mn in
  let d := b32_div mode_NE (f32_of_Z q) (f32_of_Z range) in
  let y := if isigned t then b32_mult mode_NE d ttrange else b32_plus mode_NE (b32_mult mode_NE d ttrange) mn in
  let y := if sltb mn y then y else mn in
  if sltb mx y then mx else y.
(** matrix.hpp:2497-2518 dequantize( dequantized, min, max ), T integral, TT = float. *)
Definition matF_dequantize (t : ityp) (M N : nat) (quant : list Z) (out : list f32) (mn mx : f32) : res (list f32) :=
  range <- int_range t ;;
  for_ 0 (M * N) (fun i out => q <- rd quant i ;; wr out i (dequantizeF_cell t range q mn mx)) out.
End F32.
