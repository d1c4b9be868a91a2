(** Specification for chains of products of arbitrary length. *)
From Coq Require Import List.
From Verif Require Export Spec11.
Local Open Scope R_scope.

(** X A1 A2 ... Ak, and the same with absolute values. *)
Definition chainR (n : nat) (X : nat -> nat -> R) (As : list (nat -> nat -> R)) : nat -> nat -> R :=
  fold_left (fun Y A => mmulR n Y A) As X.
Definition chain_absR (n : nat) (X : nat -> nat -> R) (As : list (nat -> nat -> R)) : nat -> nat -> R :=
  chainR n (absM X) (map absM As).
(** What may be lost to underflow if every cell of every product loses [e]. *)
Definition chain_lossR (n : nat) (e : R) (As : list (nat -> nat -> R)) : nat -> nat -> R :=
  fold_left (fun Y A i j => mmulR n Y (absM A) i j + e) As (fun _ _ => 0).

(** Ak ... A2 A1 v for the list A1, A2, ..., Ak, with absolute values, and the
    loss. *)
Definition applyR (n : nat) (v : nat -> R) (As : list (nat -> nat -> R)) : nat -> R :=
  fold_left (fun w A => mvecR n A w) As v.
Definition apply_absR (n : nat) (v : nat -> R) (As : list (nat -> nat -> R)) : nat -> R :=
  applyR n (fun i => Rabs (v i)) (map absM As).
Definition apply_lossR (n : nat) (e : R) (As : list (nat -> nat -> R)) : nat -> R :=
  fold_left (fun w A i => mvecR n (absM A) w i + e) As (fun _ => 0).

(** (v, 1), m (v, 1), the same with absolute values, and the rounding of a row. *)
Definition hom1 (n : nat) (v : nat -> R) (j : nat) : R := if (j <? n)%nat then v j else 1.
Definition homR (n : nat) (f : nat -> nat -> R) (v : nat -> R) (i : nat) : R := mvecR (n + 1) f (hom1 n v) i.
Definition homErr (n : nat) (f : nat -> nat -> R) (v : nat -> R) (i : nat) : R :=
  ((1 + / 2 ^ 53) ^ (n + 1) - 1) * homR n (absM f) (fun j => Rabs (v j)) i + INR n * (1 + / 2 ^ 53) ^ (n + 1) / 2 ^ 1075.
