(** Specification for determinants and inverses computed in floating point. *)
From Verif Require Export Spec.
Local Open Scope R_scope.

(** The permanent: the determinant with all signs positive.  Applied to the
    absolute values of the cells it is the sum of the absolute values of all
    terms of the determinant. *)
Fixpoint permR (n : nat) (f : nat -> nat -> R) : R :=
  match n with
  | O => 1
  | S n' => rsum (S n') (fun j => f 0%nat j * permR n' (minor0 f j))
  end.
(** Cell-wise absolute value. *)
Definition absM (f : nat -> nat -> R) (i j : nat) : R := Rabs (f i j).
(** Units of rounding allowed for the determinant of an n x n matrix. *)
Definition det_units (n : nat) : R :=
  match n with 2%nat => 3 | 3%nat => 6 | 4%nat => 27 | _ => 1 end.
