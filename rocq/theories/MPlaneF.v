(** compute_plane() for float vectors, with the reciprocal of the length computed
    as the code computes it: in double, then narrowed. *)
From Coq Require Import ZArith List.
From Verif Require Import InstF InstF32 MVector MFrustum MFloat.
Import ListNotations.
Local Existing Instance F32Scalar.

(** vector.hpp:479-491 compute_plane() for T = float: as vec_compute_plane, with
    vecf_normalize (vector.hpp:1130-1141, 1.0 / len in double) in line 488. *)
Definition vecf_compute_plane {cfg : Cfg} (a b c : list f32) : res (list f32) :=
  cb <- vec_sub 3 b c ;; ba <- vec_sub 3 a b ;;
  cr <- vec_cross cb ba ;;
  plane <- vec_to_hom 4 (vec_default 4) cr ;;
  '(_, plane) <- vecf_normalize 4 plane ;;
  px <- rd plane 0 ;; py <- rd plane 1 ;; pz <- rd plane 2 ;;
  ax <- rd a 0 ;; ay <- rd a 1 ;; az <- rd a 2 ;;
  wr plane 3 (ssub (ssub (smul (sopp px) ax) (smul py ay)) (smul pz az)).
(** frustum_culler.hpp:162-180 setup( a, ..., h ) for T = float. *)
Definition fcf_setup_corners {cfg : Cfg} (a b c d e f g h : list f32) : res (culler (T := f32)) :=
  left <- vecf_compute_plane c a e ;; right <- vecf_compute_plane f b d ;;
  bottom <- vecf_compute_plane h d c ;; top <- vecf_compute_plane a b f ;;
  near <- vecf_compute_plane b a c ;; far <- vecf_compute_plane g e f ;;
  Ok (left, right, bottom, top, near, far).
