(** Specification for properties C222-C223: culling with a view matrix that a
    history of transformation calls has built. *)
From Coq Require Import Reals List.
Import ListNotations.
From Verif Require Export Spec Spec4 Spec11 Spec16 Spec17.
Local Open Scope R_scope.

(** Distance of q from the face h of the exact clip volume. *)
Definition edist (h : hs) (q : V3) : R := hval h q / len3R (fst h).
(** How much larger than the normal of the face its terms can be: p bounds the
    projection matrix and b the view matrix. *)
Definition blowup (p b : R) (h : hs) : R := p * b / len3R (fst h).
(** Margin of the verdict for an object that reaches out to r: u is the rounding
    unit, t what underflow can add, e the relative error of the history. *)
Definition emargin (u t e rho : R) (r : V3) : R :=
  ((170 * u + 3 * e) * rho + (330 * u + 13 * e) * (rho * rho)) * (norm1 r + 1) + t * (norm1 r + 40).
(** How far a ball reaches out from the origin along each axis. *)
Definition ball_reach (c : V3) (r : R) : V3 := let '(x, y, z) := c in (Rabs x + Rabs r, Rabs y + Rabs r, Rabs z + Rabs r).
