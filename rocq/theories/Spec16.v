(** Specification for property C218: culling with a product of two matrices. *)
From Coq Require Import Reals List.
Import ListNotations.
From Verif Require Export Spec Spec4 Spec11.
Local Open Scope R_scope.

(** The faces of the clip volume of A, each with the sums of absolute values of
    the terms of its four numbers; S is |P| |V| for A = P V. *)
Definition world_faces (A S : nat -> nat -> R) : list (hs * hs) :=
  [(face A 1 0, face S 1 0); (face A (-1) 0, face S 1 0); (face A 1 1, face S 1 1); (face A (-1) 1, face S 1 1);
   (face A 1 2, face S 1 2); (face A (-1) 2, face S 1 2)].
(** |x| + |y| + |z| *)
Definition norm1 (p : V3) : R := let '(x, y, z) := p in Rabs x + Rabs y + Rabs z.
(** n . r + d for the sums (n, d) and an object that reaches out to r. *)
Definition wterms (s : hs) (r : V3) : R := let '(x, y, z) := r in hval s (Rabs x, Rabs y, Rabs z).
(** How much the terms of the normal cancel. *)
Definition wcond (f : hs * hs) : R := norm1 (fst (snd f)) / len3R (fst (fst f)).
Definition wdist (f : hs * hs) (q : V3) : R := hval (fst f) q / len3R (fst (fst f)).
(** Margin of the verdict; u is the rounding unit, t what underflow can add. *)
Definition wmargin (u t : R) (f : hs * hs) (r : V3) : R :=
  u * (40 + 6 * wcond f) * (wterms (snd f) r / len3R (fst (fst f))) + t * (norm1 r + 40).
