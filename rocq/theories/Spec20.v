(** Specification for properties C232-C235: points under histories of transformation calls. *)
From Coq Require Import Reals List.
From Verif Require Export Spec Spec4 Spec12 Spec14 Spec17.
Local Open Scope R_scope.

(** The upper left 3 x 3 block of A applied to u. *)
Definition linR (A : nat -> nat -> R) (u : nat -> R) (i : nat) : R := rsum 3 (fun c => A i c * u c).
(** A keeps the length of every vector. *)
Definition isoR (A : nat -> nat -> R) : Prop := forall u, lenR 3 (linR A u) = lenR 3 u.
(** The calls that move without deforming: rotations and calls that change the
    translation only. *)
Definition rigid_call (e : editR) : Prop := match e with RMove _ | RSetTr _ | RScaleTr _ => True | _ => False end.
(** The distance of two points, and one more than the sum of the absolute coordinates. *)
Definition gapR (v w : nat -> R) : R := lenR 3 (fun i => v i - w i).
Definition sizeR (v : nat -> R) : R := rsum 3 (fun i => Rabs (v i)) + 1.
