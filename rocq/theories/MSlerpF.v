(** Quaternion< float >::slerp: the literals 1. and 1.0 are doubles, so some of
    its expressions are evaluated in double and narrowed when stored. *)
From Coq Require Import ZArith List.
From Flocq Require Import Core.Core IEEE754.BinarySingleNaN IEEE754.Binary IEEE754.Bits.
From Verif Require Import InstF InstF32 MVector MQuaternion MFloat.
Import ListNotations.
Local Existing Instance F32Scalar.

(** 1. - x for a float x: a double. *)
Definition one_minus_d (x : f32) : f64 := b64_minus mode_NE f64_one (f64_of_f32 x).
(** quaternion.hpp:943 sqrt( 1. - ( cosine * cosine ) ): the product is float,
    the difference and the square root are double, sine is float. *)
Definition qf_sine (cosine : f32) : f32 := f32_of_f64 (b64_sqrt mode_NE (one_minus_d (b32_mult mode_NE cosine cosine))).
(** quaternion.hpp:945 std::sin( ( 1.0 - a ) * angle ) / sine: double, narrowed. *)
Definition qf_coeff1 {TD : Trig f64} (a angle sine : f32) : f32 :=
  f32_of_f64 (b64_div mode_NE (ssin (b64_mult mode_NE (one_minus_d a) (f64_of_f32 angle))) (f64_of_f32 sine)).
(** quaternion.hpp:946 std::sin( a * angle ) / sine: the float overload of sin. *)
Definition qf_coeff2 {TF : Trig f32} (a angle sine : f32) : f32 :=
  b32_div mode_NE (ssin (b32_mult mode_NE a angle)) sine.
(** quaternion.hpp:922-963 slerp( a, p, q, epsilon ), T = float.  Line 939 narrows
    1. - epsilon, line 956 narrows 1. - a; atan2 of line 944 is a parameter on
    floats (either overload, its result is narrowed). *)
Definition qf_slerp {TF : Trig f32} {TD : Trig f64} {AT : Atan2 f32} (a : f32) (p q : list f32) (epsilon : f32) : res (list f32) :=
  px <- q_get_normalized p ;;
  qx <- q_get_normalized q ;;
  cosine <- q_dot px qx ;;
  '(cosine, qx) <- (if sltb cosine szero then qx <- q_neg qx ;; Ok (sopp cosine, qx) else Ok (cosine, qx)) ;;
  let abs_cos := sabs cosine in
  let one_x := f32_of_f64 (one_minus_d epsilon) in
  if sltb abs_cos one_x then
    let sine := qf_sine cosine in
    let angle := satan2 sine cosine in
    qx <- q_mul_assign_s qx (qf_coeff2 a angle sine) ;;
    px <- q_mul_assign_s px (qf_coeff1 a angle sine) ;;
    q_add_assign px (Val qx)
  else
    px <- q_mul_assign_s px (f32_of_f64 (one_minus_d a)) ;;
    qx <- q_mul_assign_s qx a ;;
    px <- q_add_assign px (Val qx) ;;
    '(_, px) <- q_normalize px ;; Ok px.
