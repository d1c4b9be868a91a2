(** Specification for properties C224-C225: where a point ends up on the screen
    after a history of transformation calls. *)
From Coq Require Import Reals List.
From Verif Require Export Spec Spec4 Spec12 Spec14 Spec17.
Local Open Scope R_scope.

(** The w coordinate of the point v under A, and the point after dividing by it. *)
Definition screenW (A : nat -> nat -> R) (v : nat -> R) : R := homR 3 A v 3.
Definition screenR (A : nat -> nat -> R) (v : nat -> R) (i : nat) : R := homR 3 A v i / screenW A v.
(** How much larger than w its terms can be: p bounds the projection matrix, b
    the view matrix. *)
Definition spread (p b : R) (v : nat -> R) (w : R) : R := p * b * (rsum 3 (fun i => Rabs (v i)) + 1) / Rabs w.
