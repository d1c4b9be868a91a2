(** Specification for properties C214-C215: rotations from both sides. *)
From Coq Require Import Reals List.
Import ListNotations.
From Verif Require Export Spec Spec13.
Local Open Scope R_scope.

(** One call: rotate (Post) or pre_rotate (Pre) about an axis. *)
Inductive side : Type := Pre | Post.
(** The exact effect: pre_rotate multiplies from the left by the rotation
    through - t, rotate from the right by the rotation through t. *)
Definition moveR (x : side * axis * R) (A : nat -> nat -> R) : nat -> nat -> R :=
  let '(p, a, t) := x in
  match p with Pre => mmulR 4 (axis_rot a (- t)) A | Post => mmulR 4 A (axis_rot a t) end.
Definition movedR (l : list (side * axis * R)) (A : nat -> nat -> R) : nat -> nat -> R := fold_left (fun A x => moveR x A) l A.
(** The Frobenius norm. *)
Definition frobR (n : nat) (A : nat -> nat -> R) : R := sqrt (rsum n (fun i => rsum n (fun j => A i j * A i j))).
