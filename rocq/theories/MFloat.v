(** Where vmmlib mixes double literals into float arithmetic: the operands are
    widened, the operation is done in double, and the result is rounded back to
    float.  NaN payloads are not tracked (a converted NaN is the default one). *)
From Coq Require Import ZArith.
From Flocq Require Import Core.Core IEEE754.BinarySingleNaN IEEE754.Binary IEEE754.Bits.
From Verif Require Import Base Scalar InstF InstF32 MVector.
Import ListNotations.

(** float -> double, an exact conversion (C++ [conv.fpprom]). *)
Definition f64_of_f32 (x : f32) : f64 :=
  match x with
  | B754_nan _ _ _ _ _ => proj1_sig default_nan_pl64
  | B754_infinity _ _ s => B754_infinity 53 1024 s
  | B754_zero _ _ s => B754_zero 53 1024 s
  | B754_finite _ _ s m e _ => binary_normalize 53 1024 eq_refl eq_refl mode_NE (cond_Zopp s (Zpos m)) e false
  end.
(** double -> float, round to nearest even (C++ [conv.double]). *)
Definition f32_of_f64 (x : f64) : f32 :=
  match x with
  | B754_nan _ _ _ _ _ => proj1_sig default_nan_pl32
  | B754_infinity _ _ s => B754_infinity 24 128 s
  | B754_zero _ _ s => B754_zero 24 128 s
  | B754_finite _ _ s m e _ => binary_normalize 24 128 eq_refl eq_refl mode_NE (cond_Zopp s (Zpos m)) e s
  end.

(** [1.0 / x] stored in a float: vector.hpp:1138, frustum_culler.hpp:187,
    quaternion.hpp:678. *)
Definition recip_via_double (x : f32) : f32 :=
  f32_of_f64 (b64_div mode_NE f64_one (f64_of_f32 x)).

Section F.
Context {cfg : Cfg}.
Local Existing Instance F32Scalar.
(** vector.hpp:1130-1141 Vector< M, float >::normalize(). *)
Definition vecf_normalize (M : nat) (v : list f32) : res (f32 * list f32) :=
  len <- vec_length M v ;;
  if Beqb32 len f32_zero then Ok (f32_zero, v)
  else let tmp := recip_via_double len in v' <- vec_mul_assign_s M v tmp ;; Ok (len, v').
(** vector.hpp:1737-1750 Vector< M, float >::norm(): each square is a float
    product, the sum and the root are double. *)
Definition vecf_norm (M : nat) (v : list f32) : res f64 :=
  s <- for_ 0 M (fun i acc => a <- rd v i ;; Ok (b64_plus mode_NE acc (f64_of_f32 (b32_mult mode_NE a a)))) f64_zero ;;
  Ok (b64_sqrt mode_NE s).
End F.
