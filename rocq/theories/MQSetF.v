(** Quaternion< float >::set( M ), quaternion.hpp:274-349: the expressions with
    the double literals 1.0, 0.5, 0.25 and QUATERNION_TRACE_EPSILON (line 55)
    are evaluated in double and stored as float. *)
From Coq Require Import ZArith.
From Flocq Require Import Core.Core IEEE754.BinarySingleNaN IEEE754.Binary IEEE754.Bits.
From Verif Require Import Base Scalar InstF InstF32 MVector MMatrix MQuaternion MLit MFloat MDouble.
Local Existing Instance F32Scalar.

(** quaternion.hpp:282 sqrt( trace ) for a float argument, in a double
    expression: the C library's double function, or the float overload. *)
Definition rt_double (x : f32) : f64 := b64_sqrt mode_NE (f64_of_f32 x).
Definition rt_float (x : f32) : f64 := f64_of_f32 (b32_sqrt mode_NE x).
(** quaternion.hpp:282, 302, 316, 331 T s = 0.5 / r. *)
Definition qf_scale (r : f64) : f32 := f32_of_f64 (b64_div mode_NE f64_half r).
(** quaternion.hpp:292, 303, 320, 338 0.25 / s. *)
Definition qf_quarter (s : f32) : f32 := f32_of_f64 (b64_div mode_NE (@slit f64 _ 1 4) (f64_of_f32 s)).
(** quaternion.hpp:277 trace. *)
Definition qf_trace (a b c : f32) : f32 := f32_of_f64 (b64_plus mode_NE (f64_of_f32 (b32_plus mode_NE (b32_plus mode_NE a b) c)) f64_one).
(** quaternion.hpp:302, 316, 331 sqrt( 1.0 + a - b - c ). *)
Definition qf_root (a b c : f32) : f64 :=
  b64_sqrt mode_NE (b64_minus mode_NE (b64_minus mode_NE (b64_plus mode_NE f64_one (f64_of_f32 a)) (f64_of_f32 b)) (f64_of_f32 c)).

Section Set_.
Context {cfg : Cfg} (rt : f32 -> f64).
Local Notation "a *' b" := (smul a b) (at level 40, left associativity).
Local Notation "a +' b" := (sadd a b) (at level 50, left associativity).
Local Notation "a -' b" := (ssub a b) (at level 50, left associativity).
(** quaternion.hpp:274-349 set( M ) for float; the last else is unreachable and
    modelled as UB, as in MQuaternion.q_set_matrix. *)
Definition qf_set_matrix (D : nat) (q m : list f32) : res (list f32) :=
  m00 <- mat_at D D m 0 0 ;; m11 <- mat_at D D m 1 1 ;; m22 <- mat_at D D m 2 2 ;;
  m01 <- mat_at D D m 0 1 ;; m10 <- mat_at D D m 1 0 ;; m02 <- mat_at D D m 0 2 ;;
  m20 <- mat_at D D m 2 0 ;; m12 <- mat_at D D m 1 2 ;; m21 <- mat_at D D m 2 1 ;;
  let trace := qf_trace m00 m11 m22 in
  if Bltb (@slit f64 _ 1 100000) (f64_of_f32 trace) then
    let s := qf_scale (rt trace) in
    q <- wr q 0 ((m21 -' m12) *' s) ;;
    q <- wr q 1 ((m02 -' m20) *' s) ;;
    q <- wr q 2 ((m10 -' m01) *' s) ;;
    wr q 3 (qf_quarter s)
  else
    largest <- vec_find_max_index [m00; m11; m22] ;;
    if (largest =? 0)%nat then
      let s := qf_scale (qf_root m00 m11 m22) in
      q <- wr q 0 (qf_quarter s) ;;
      q <- wr q 1 ((m01 +' m10) *' s) ;;
      q <- wr q 2 ((m02 +' m20) *' s) ;;
      wr q 3 ((m12 -' m21) *' s)
    else if (largest =? 1)%nat then
      let s := qf_scale (qf_root m11 m00 m22) in
      q <- wr q 0 ((m01 +' m10) *' s) ;;
      q <- wr q 1 (qf_quarter s) ;;
      q <- wr q 2 ((m12 +' m21) *' s) ;;
      wr q 3 ((m02 -' m20) *' s)
    else if (largest =? 2)%nat then
      let s := qf_scale (qf_root m22 m00 m11) in
      q <- wr q 0 ((m02 +' m20) *' s) ;;
      q <- wr q 1 ((m12 +' m21) *' s) ;;
      q <- wr q 2 (qf_quarter s) ;;
      wr q 3 ((m01 -' m10) *' s)
    else UB.
End Set_.
