(** Frustum< float >: the projection matrices.  A double literal makes the rest of
    its expression double; the result is rounded to float when stored. *)
From Coq Require Import ZArith List.
From Flocq Require Import Core.Core IEEE754.BinarySingleNaN IEEE754.Binary IEEE754.Bits.
From Verif Require Import Base Scalar InstF InstF32 MVector MMatrix MFrustum MFloat.
Import ListNotations.

Section F.
Context {cfg : Cfg}.
Local Existing Instance F32Scalar.
(** frustum.hpp:274-298 compute_matrix( M ). *)
Definition frf_compute_matrix_into (fr m : list f32) : res (list f32) :=
  l <- fr_left fr ;; r <- fr_right fr ;; b <- fr_bottom fr ;; t <- fr_top fr ;;
  n <- fr_near fr ;; f <- fr_far fr ;;
  m <- mat_put 4 4 m 0 0 (f32_of_f64 (b64_div mode_NE (b64_mult mode_NE f64_two (f64_of_f32 n)) (f64_of_f32 (b32_minus mode_NE r l)))) ;;
  m <- mat_put 4 4 m 0 1 f32_zero ;;
  m <- mat_put 4 4 m 0 2 (b32_div mode_NE (b32_plus mode_NE r l) (b32_minus mode_NE r l)) ;;
  m <- mat_put 4 4 m 0 3 f32_zero ;;
  m <- mat_put 4 4 m 1 0 f32_zero ;;
  m <- mat_put 4 4 m 1 1 (f32_of_f64 (b64_div mode_NE (b64_mult mode_NE f64_two (f64_of_f32 n)) (f64_of_f32 (b32_minus mode_NE t b)))) ;;
  m <- mat_put 4 4 m 1 2 (b32_div mode_NE (b32_plus mode_NE t b) (b32_minus mode_NE t b)) ;;
  m <- mat_put 4 4 m 1 3 f32_zero ;;
  m <- mat_put 4 4 m 2 0 f32_zero ;;
  m <- mat_put 4 4 m 2 1 f32_zero ;;
  m <- mat_put 4 4 m 2 2 (b32_div mode_NE (b32_opp (b32_plus mode_NE f n)) (b32_minus mode_NE f n)) ;;
  m <- mat_put 4 4 m 2 3 (f32_of_f64 (b64_div mode_NE
         (b64_mult mode_NE (b64_mult mode_NE (b64_opp f64_two) (f64_of_f32 f)) (f64_of_f32 n)) (f64_of_f32 (b32_minus mode_NE f n)))) ;;
  m <- mat_put 4 4 m 3 0 f32_zero ;;
  m <- mat_put 4 4 m 3 1 f32_zero ;;
  m <- mat_put 4 4 m 3 2 (b32_opp f32_one) ;;
  mat_put 4 4 m 3 3 f32_zero.
(** frustum.hpp:263-270 the value form. *)
Definition frf_compute_matrix (fr : list f32) : res (list f32) :=
  m <- mat_default 4 4 ;; frf_compute_matrix_into fr m.
(** frustum.hpp:313-336 compute_ortho_matrix( M ). *)
Definition frf_compute_ortho_matrix_into (fr m : list f32) : res (list f32) :=
  l <- fr_left fr ;; r <- fr_right fr ;; b <- fr_bottom fr ;; t <- fr_top fr ;;
  n <- fr_near fr ;; f <- fr_far fr ;;
  m <- mat_put 4 4 m 0 0 (f32_of_f64 (b64_div mode_NE f64_two (f64_of_f32 (b32_minus mode_NE r l)))) ;;
  m <- mat_put 4 4 m 0 1 f32_zero ;;
  m <- mat_put 4 4 m 0 2 f32_zero ;;
  m <- mat_put 4 4 m 0 3 (b32_div mode_NE (b32_opp (b32_plus mode_NE r l)) (b32_minus mode_NE r l)) ;;
  m <- mat_put 4 4 m 1 0 f32_zero ;;
  m <- mat_put 4 4 m 1 1 (f32_of_f64 (b64_div mode_NE f64_two (f64_of_f32 (b32_minus mode_NE t b)))) ;;
  m <- mat_put 4 4 m 1 2 f32_zero ;;
  m <- mat_put 4 4 m 1 3 (b32_div mode_NE (b32_opp (b32_plus mode_NE t b)) (b32_minus mode_NE t b)) ;;
  m <- mat_put 4 4 m 2 0 f32_zero ;;
  m <- mat_put 4 4 m 2 1 f32_zero ;;
  m <- mat_put 4 4 m 2 2 (f32_of_f64 (b64_div mode_NE (b64_opp f64_two) (f64_of_f32 (b32_minus mode_NE f n)))) ;;
  m <- mat_put 4 4 m 2 3 (b32_div mode_NE (b32_opp (b32_plus mode_NE f n)) (b32_minus mode_NE f n)) ;;
  m <- mat_put 4 4 m 3 0 f32_zero ;;
  m <- mat_put 4 4 m 3 1 f32_zero ;;
  m <- mat_put 4 4 m 3 2 f32_zero ;;
  mat_put 4 4 m 3 3 f32_one.
(** frustum.hpp:302-309 the value form. *)
Definition frf_compute_ortho_matrix (fr : list f32) : res (list f32) :=
  m <- mat_default 4 4 ;; frf_compute_ortho_matrix_into fr m.
End F.
