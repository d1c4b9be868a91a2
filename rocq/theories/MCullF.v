(** FrustumCuller< float >: the box test and the planes.  The sphere test is the
    generic one of MFrustum.v at [F32Scalar] (all its operands are float). *)
From Coq Require Import ZArith List.
From Flocq Require Import Core.Core IEEE754.BinarySingleNaN IEEE754.Binary IEEE754.Bits.
From Verif Require Import Base Scalar InstF InstF32 MVector MMatrix MFrustum MFloat.
Import ListNotations.

Section F.
Context {cfg : Cfg}.
Local Existing Instance F32Scalar.
Local Notation "a *' b" := (smul a b) (at level 40, left associativity).
Local Notation "a +' b" := (sadd a b) (at level 50, left associativity).
Local Notation "a -' b" := (ssub a b) (at level 50, left associativity).
(** frustum_culler.hpp:182-192 _normalize_plane(): [1.0 / length] is a double
    quotient stored in a float. *)
Definition fcf_normalize_plane (plane : list f32) : res (list f32) :=
  v <- vec_sub_vector 3 plane 0 ;; len <- vec_length 3 v ;; let len_i := recip_via_double len in
  x <- rd plane 0 ;; plane <- wr plane 0 (x *' len_i) ;;
  x <- rd plane 1 ;; plane <- wr plane 1 (x *' len_i) ;;
  x <- rd plane 2 ;; plane <- wr plane 2 (x *' len_i) ;;
  x <- rd plane 3 ;; wr plane 3 (x *' len_i).
(** frustum_culler.hpp:137-160 setup( proj_modelview ). *)
Definition fcf_setup (m : list f32) : res culler :=
  row0 <- mat_get_row 4 4 m 0 ;; row1 <- mat_get_row 4 4 m 1 ;;
  row2 <- mat_get_row 4 4 m 2 ;; row3 <- mat_get_row 4 4 m 3 ;;
  l <- vec_add 4 row3 row0 ;; r <- vec_sub 4 row3 row0 ;;
  b <- vec_add 4 row3 row1 ;; t <- vec_sub 4 row3 row1 ;;
  n <- vec_add 4 row3 row2 ;; f <- vec_sub 4 row3 row2 ;;
  l <- fcf_normalize_plane l ;; r <- fcf_normalize_plane r ;;
  b <- fcf_normalize_plane b ;; t <- fcf_normalize_plane t ;;
  n <- fcf_normalize_plane n ;; f <- fcf_normalize_plane f ;;
  Ok (l, r, b, t, n, f).

(** frustum_culler.hpp:260-262 the value n.  The unqualified [fabs] of a float is
    ::fabs( double ) when only <cmath>'s C function is visible ([wide] = true:
    the products and sums are double, rounded to float at the end) and the float
    overload when <math.h> puts it into the global namespace ([wide] = false). *)
Definition fcf_n (wide : bool) (ex ey ez px py pz : f32) : f32 :=
  if wide then
    let t e p := b64_mult mode_NE (f64_of_f32 e) (b64_abs (f64_of_f32 p)) in
    f32_of_f64 (b64_plus mode_NE (b64_plus mode_NE (t ex px) (t ey py)) (t ez pz))
  else ex *' sabs px +' ey *' sabs py +' ez *' sabs pz.
(** frustum_culler.hpp:253-269 _test_aabb(). *)
Definition fcf_test_plane (wide : bool) (plane middle extent : list f32) : res visibility :=
  h <- vec_to_hom 4 (vec_default 4) middle ;; d <- vec_dot 4 plane h ;;
  ex <- rd extent 0 ;; px <- rd plane 0 ;; ey <- rd extent 1 ;; py <- rd plane 1 ;;
  ez <- rd extent 2 ;; pz <- rd plane 2 ;;
  let n := fcf_n wide ex ey ez px py pz in
  Ok (if sleb szero (d -' n) then V_FULL else if sltb szero (d +' n) then V_PARTIAL else V_NONE).
(** The argument of the vec3 constructor in frustum_culler.hpp:277-278: fabs of a
    float difference, as a float or as a double converted back. *)
Definition fcf_abs (wide : bool) (x : f32) : f32 :=
  if wide then f32_of_f64 (b64_abs (f64_of_f32 x)) else sabs x.
(** frustum_culler.hpp:271-322 test_aabb( x, y, z ): [operator*( const T& )]
    converts the literal .5 to float. *)
Definition fcf_test_aabb (wide : bool) (c : culler) (x y z : list f32) : res visibility :=
  x0 <- vat 2 x 0 ;; x1 <- vat 2 x 1 ;; y0 <- vat 2 y 0 ;; y1 <- vat 2 y 1 ;;
  z0 <- vat 2 z 0 ;; z1 <- vat 2 z 1 ;;
  s <- vec_set3 (vec_default 3) (x0 +' x1) (y0 +' y1) (z0 +' z1) ;;
  middle <- vec_mul_s 3 s shalf ;;
  s <- vec_set3 (vec_default 3) (fcf_abs wide (x1 -' x0)) (fcf_abs wide (y1 -' y0)) (fcf_abs wide (z1 -' z0)) ;;
  extent <- vec_mul_s 3 s shalf ;;
  fc_steps (fun p result =>
      v <- fcf_test_plane wide p middle extent ;;
      Ok (match v with V_FULL => inl result | V_PARTIAL => inl V_PARTIAL | V_NONE => inr V_NONE end))
    (fc_planes c) V_FULL.
End F.
