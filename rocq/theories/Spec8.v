(** Specification vocabulary: machine integers seen as mathematical integers. *)
From Coq Require Import ZArith List.
From Verif Require Export Base.
Local Open Scope Z_scope.

(** The value a k-bit unsigned integer has after storing the integer [z]. *)
Definition wrapU (k z : Z) : Z := z mod 2 ^ k.
(** The outcome [n], with the value transformed by [f]. *)
Definition outcome_map {A B : Type} (f : A -> B) (n : res A) : res B :=
  match n with Ok a => Ok (f a) | Throw => Throw | UB => UB | NonFin => NonFin end.
(** [m] is the outcome of a computation with k-bit signed integers ([None] stands
    for a value that depends on an overflow), [n] that of the same computation with
    unbounded integers: same kind of outcome, and every value free of overflow is
    the exact one. *)
Definition exact1 (a : option Z) (z : Z) : Prop := a = None \/ a = Some z.
Definition exact_unless_overflow (m : res (list (option Z))) (n : res (list Z)) : Prop :=
  match m, n with
  | Ok r, Ok z => Forall2 exact1 r z
  | Throw, Throw | UB, UB | NonFin, NonFin => True
  | _, _ => False
  end.
Definition exact_unless_overflow1 (m : res (option Z)) (n : res Z) : Prop :=
  match m, n with
  | Ok r, Ok z => exact1 r z
  | Throw, Throw | UB, UB | NonFin, NonFin => True
  | _, _ => False
  end.
