(** Rotation of a float vector about a float axis: the axis is normalised as
    the code does it, with the reciprocal of the length in double. *)
From Coq Require Import ZArith List.
From Verif Require Import InstF InstF32 MVector MFloat.
Import ListNotations.
Local Existing Instance F32Scalar.

(** vector.hpp:1211-1232 Vector< 3, float >::rotate( theta, axis ): as
    vec_rotate, with vecf_normalize (vector.hpp:1130-1141, 1.0 / len in double)
    for the copy of the axis; std::cos and std::sin of a float are the float
    overloads. *)
Definition vecf_rotate {cfg : Cfg} {TT : Trig f32} (v : list f32) (theta : f32) (axis : list f32) : res (list f32) :=
  '(_, axis) <- vecf_normalize 3 axis ;;
  let c := scos theta in
  let s := ssin theta in
  let k := ssub sone c in
  ax <- rd axis 0 ;; ay <- rd axis 1 ;; az <- rd axis 2 ;;
  x <- rd v 0 ;; y <- rd v 1 ;; z <- rd v 2 ;;
  vec_set3 (vec_default 3)
    (sadd (sadd (smul (sadd c (smul (smul k ax) ax)) x)
                (smul (ssub (smul (smul k ax) ay) (smul az s)) y))
          (smul (sadd (smul (smul k ax) az) (smul ay s)) z))
    (sadd (sadd (smul (sadd (smul (smul k ax) ay) (smul az s)) x)
                (smul (sadd c (smul (smul k ay) ay)) y))
          (smul (ssub (smul (smul k ay) az) (smul ax s)) z))
    (sadd (sadd (smul (ssub (smul (smul k ax) az) (smul ay s)) x)
                (smul (sadd (smul (smul k ay) az) (smul ax s)) y))
          (smul (sadd c (smul (smul k az) az)) z)).
