(** Specification vocabulary, continued. *)
From Coq Require Export ZArith.
From Verif Require Export Spec.
Local Open Scope R_scope.

(** The index of [0, n-1] nearest to the integer [k]. *)
Definition clampI (n : nat) (k : Z) : nat := Z.to_nat (Z.max 0 (Z.min k (Z.of_nat n - 1))).
(** Border-extended convolution of an n x n image with a u x u kernel: cell
    (y,x). *)
Definition convR (n u : nat) (img ker : nat -> nat -> R) (y x : nat) : R :=
  rsum u (fun j => rsum u (fun i =>
    ker j i * img (clampI n (Z.of_nat y - Z.of_nat (u / 2) + Z.of_nat j))
                  (clampI n (Z.of_nat x - Z.of_nat (u / 2) + Z.of_nat i)))).

(** Quadratic form and positive definiteness. *)
Definition quadR (n : nat) (A : nat -> nat -> R) (x : nat -> R) : R :=
  rsum n (fun i => rsum n (fun j => x i * A i j * x j)).
Definition symmetricR (n : nat) (A : nat -> nat -> R) : Prop :=
  forall i j, (i < n)%nat -> (j < n)%nat -> A i j = A j i.
Definition pos_defR (n : nat) (A : nat -> nat -> R) : Prop :=
  forall x, (exists i, (i < n)%nat /\ x i <> 0) -> 0 < quadR n A x.
