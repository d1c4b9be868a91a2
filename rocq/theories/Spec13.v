(** Specification for properties C173-C174: rotations with a given accuracy of
    sin and cos. *)
From Coq Require Import Reals List.
Import ListNotations.
From Verif Require Export Spec.
Local Open Scope R_scope.

(** The three coordinate axes and the rotations about them by the angle t,
    right-handed, for column vectors. *)
Inductive axis : Type := AX | AY | AZ.
Definition axis_rot (a : axis) (t : R) (i j : nat) : R :=
  let c := cos t in let s := sin t in
  nth j (nth i match a with
    | AX => [[1; 0; 0; 0]; [0; c; - s; 0]; [0; s; c; 0]; [0; 0; 0; 1]]
    | AY => [[c; 0; s; 0]; [0; 1; 0; 0]; [- s; 0; c; 0]; [0; 0; 0; 1]]
    | AZ => [[c; - s; 0; 0]; [s; c; 0; 0]; [0; 0; 1; 0]; [0; 0; 0; 1]]
    end []) 0.
(** A turned about a1 by t1, then about a2 by t2, ...: A R1 R2 ... *)
Definition turned (A : nat -> nat -> R) (l : list (axis * R)) : nat -> nat -> R :=
  fold_left (fun A x => mmulR 4 A (axis_rot (fst x) (snd x))) l A.
