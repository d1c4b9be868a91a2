(** M_PI in double, and Frustum< float >::set_perspective. *)
From Coq Require Import ZArith List.
From Flocq Require Import Core.Core IEEE754.BinarySingleNaN IEEE754.Binary IEEE754.Bits.
From Verif Require Import InstF InstF32 MFrustum MLit MFloat.

(** math.hpp:38-40 M_PI: the double nearest to 3.14159265358979323846. *)
Definition f64_pi : f64 := b64_of_bits 0x400921FB54442D18.
#[export] Instance F64Pi : HasPi f64 := { spi := f64_pi }.

(** frustum.hpp:246-259 Frustum< float >::set_perspective(): the literals 0.5 and
    180.0 and M_PI are doubles, so the angle, its tangent and the half of it are
    computed in double (std::tan( double )); the result is rounded to float when
    it is stored in top().  The products with aspect_ratio are float. *)
Definition frF_set_perspective {TT : Trig f64} (fr : list f32) (fov_y aspect near far : f32) : res (list f32) :=
  fr <- wr fr 4 near ;; fr <- wr fr 5 far ;;
  let a := b64_div mode_NE (b64_mult mode_NE (b64_mult mode_NE f64_half (f64_of_f32 fov_y)) f64_pi) (@slit f64 F64Lit 180 1) in
  fr <- wr fr 3 (f32_of_f64 (b64_mult mode_NE (stan a) f64_half)) ;;
  t <- rd fr 3 ;; fr <- wr fr 2 (b32_opp t) ;;
  b <- rd fr 2 ;; fr <- wr fr 0 (b32_mult mode_NE b aspect) ;;
  t <- rd fr 3 ;; wr fr 1 (b32_mult mode_NE t aspect).
