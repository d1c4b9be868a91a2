(** Specification for property C216: culling with planes through corners. *)
From Coq Require Import Reals List.
Import ListNotations.
From Verif Require Export Spec Spec4.
Local Open Scope R_scope.

(** A face of the frustum, given by three of its corners; its normal points
    inwards for corners in the order of frustum_culler.hpp. *)
Definition cface : Type := (V3 * V3 * V3)%type.
Definition fnormal (f : cface) : V3 := let '(a, b, c) := f in cross3 (sub3 b c) (sub3 a b).
(** The code normalises (N, 1), not N: values are distances times |N| / sqrt (|N|^2 + 1). *)
Definition fheight (f : cface) : R := sqrt (dot3 (fnormal f) (fnormal f) + 1).
Definition fbase (f : cface) : V3 := let '(a, _, _) := f in a.
Definition face_val (f : cface) (q : V3) : R := dot3 (fnormal f) (sub3 q (fbase f)) / fheight f.
(** The faces left, right, bottom, top, near, far of the corners a, ..., h. *)
Definition corner_faces (a b c d e f g h : V3) : list cface := [(c, a, e); (f, b, d); (h, d, c); (a, b, f); (b, a, c); (g, e, f)].
(** Error of the computed normal, and the margin of a verdict at q, for an
    object that reaches out to r; u is the rounding unit, t half the smallest
    positive number. *)
Definition ferr (u t : R) (f : cface) : R :=
  let '(a, b, c) := f in 32 * u * (len3R (sub3 b c) * len3R (sub3 a b) / fheight f) + 13 * t.
Definition fmargin (u t : R) (f : cface) (r q : V3) : R :=
  ferr u t f * len3R (sub3 q (fbase f)) + (1 + ferr u t f) * (15 * u * (len3R r + len3R (fbase f)) + 80 * t).
