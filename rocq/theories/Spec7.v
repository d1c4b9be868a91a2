(** Specification vocabulary: the unit quaternion of a rotation by [t] about the
    unit axis [k]. *)
From Verif Require Export Spec6 Spec3.
Local Open Scope R_scope.
Definition axis_angleR (k : V3) (t : R) : Quat :=
  let '(x, y, z) := k in (sin (t / 2) * x, sin (t / 2) * y, sin (t / 2) * z, cos (t / 2)).
