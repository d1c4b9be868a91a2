(** Projection of a point onto a float sphere. *)
From Coq Require Import ZArith List.
From Verif Require Import InstF InstF32 MVector MFloat.
Import ListNotations.
Local Existing Instance F32Scalar.

(** vector.hpp:1236-1251 Vector< 4, float >::project_point_onto_sphere( point ):
    as vec_project_sphere, with vecf_normalize (vector.hpp:1130-1141, 1.0 / len in
    double).  The three other functions of C195 and C196 (vector.hpp:1255-1304)
    compute in float only: they are the generic definitions at F32Scalar. *)
Definition vecf_project_sphere {cfg : Cfg} (sphere point : list f32) : res (list f32) :=
  center <- vec_sub_vector 3 sphere 0 ;;
  p <- vec_sub_assign 3 point (Val center) ;;
  '(_, p) <- vecf_normalize 3 p ;;
  w <- rd sphere 3 ;;
  p <- vec_mul_assign_s 3 p w ;;
  vec_add 3 center p.
