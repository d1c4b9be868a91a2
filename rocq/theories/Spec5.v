(** Specification vocabulary: linear algebra. *)
From Verif Require Export Spec2.
Local Open Scope R_scope.

(** The first [N] columns of [A] (M rows) are linearly independent. *)
Definition lin_indep (M N : nat) (A : nat -> nat -> R) : Prop :=
  forall x : nat -> R, (forall i, (i < M)%nat -> rsum N (fun c => A i c * x c) = 0) ->
  forall c, (c < N)%nat -> x c = 0.
(** The first [N] columns of [Q] are orthonormal. *)
Definition orthonormal_cols (M N : nat) (Q : nat -> nat -> R) : Prop :=
  forall i k, (i < N)%nat -> (k < N)%nat -> dotR M (fun r => Q r i) (fun r => Q r k) = idR i k.
Definition upper_tri (N : nat) (U : nat -> nat -> R) : Prop :=
  forall r c, (r < N)%nat -> (c < N)%nat -> (c < r)%nat -> U r c = 0.
