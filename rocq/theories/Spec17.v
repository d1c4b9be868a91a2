(** Specification for properties C220-C221: histories of transformation calls. *)
From Coq Require Import Reals List.
Import ListNotations.
From Verif Require Export Spec Spec4 Spec14.
Local Open Scope R_scope.

(** One call on a 4 x 4 matrix, exactly. *)
Inductive editR : Type :=
  | RMove (x : side * axis * R)      (* rotate_x/y/z, pre_rotate_x/y/z *)
  | RScale (s : V3)                  (* scale *)
  | RScaleTr (s : V3)                (* scale_translation *)
  | RSetTr (t : V3)                  (* set_translation *)
  | RTimes (B : nat -> nat -> R)     (* m = m * B *)
  | RPreTimes (B : nat -> nat -> R). (* m = B * m *)
Definition comp4 (s : V3) (i : nat) : R := let '(x, y, z) := s in nth i [x; y; z; 1] 0.
Definition editedR (e : editR) (A : nat -> nat -> R) : nat -> nat -> R :=
  match e with
  | RMove x => moveR x A
  | RScale s => fun i j => A i j * comp4 s j
  | RScaleTr s => fun i j => if Nat.eqb j 3 then A i j * comp4 s i else A i j
  | RSetTr t => fun i j => if (Nat.eqb j 3 && Nat.ltb i 3)%bool then comp4 t i else A i j
  | RTimes B => mmulR 4 A B
  | RPreTimes B => mmulR 4 B A
  end.
Definition historyR (l : list editR) (A : nat -> nat -> R) : nat -> nat -> R := fold_left (fun A e => editedR e A) l A.
(** By how much a call can magnify a matrix, and what it can add to it. *)
Definition max3 (s : V3) : R := let '(x, y, z) := s in Rmax (Rabs x) (Rmax (Rabs y) (Rabs z)).
Definition factor (e : editR) : R :=
  match e with
  | RMove _ | RSetTr _ => 1
  | RScale s | RScaleTr s => Rmax 1 (max3 s)
  | RTimes B | RPreTimes B => Rmax 1 (frobR 4 B)
  end.
Definition offset (e : editR) : R := match e with RSetTr (x, y, z) => Rabs x + Rabs y + Rabs z | _ => 0 end.
(** The largest norm the matrix can have after the calls. *)
Definition reachR (l : list editR) (b : R) : R := fold_left (fun b e => factor e * b + offset e) l b.
