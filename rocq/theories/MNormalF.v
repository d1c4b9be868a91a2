(** Triangle normals of float vectors, with the reciprocal of the length
    computed as the code computes it: in double, then narrowed. *)
From Coq Require Import ZArith List.
From Verif Require Import InstF InstF32 MVector MFloat.
Import ListNotations.
Local Existing Instance F32Scalar.

(** vector.hpp:1186-1198 Vector< 3, float >::compute_normal( aa, bb, cc ): as
    vec_compute_normal_into, but ends with vecf_normalize (vector.hpp:1130-1141,
    1.0 / len in double). *)
Definition vecf_compute_normal_into {cfg : Cfg} (v : list f32) (aa bb cc : arg f32) : res (list f32) :=
  u <- vec_sub 3 (argl v bb) (argl v aa) ;;
  w <- vec_sub 3 (argl v cc) (argl v aa) ;;
  v <- vec_cross_into v (Val u) (Val w) ;;
  '(_, v) <- vecf_normalize 3 v ;; Ok v.
(** vector.hpp:1202-1209 compute_normal( bb, cc ) const, float. *)
Definition vecf_compute_normal {cfg : Cfg} (a b c : list f32) : res (list f32) :=
  vecf_compute_normal_into (vec_default 3) (Val a) (Val b) (Val c).
