(** Specification vocabulary: ordinary mathematics, independent of the model. *)
From Coq Require Export Reals Lra Lia Arith.
Local Open Scope R_scope.

(** Finite sums of reals: rsum n f = f 0 + ... + f (n-1). *)
Fixpoint rsum (n : nat) (f : nat -> R) : R :=
  match n with
  | O => 0
  | S n' => rsum n' f + f n'
  end.

(** Scalar product and Euclidean length of n-vectors (component functions). *)
Definition dotR (n : nat) (u v : nat -> R) : R := rsum n (fun i => u i * v i).
Definition lenR (n : nat) (u : nat -> R) : R := sqrt (dotR n u u).
Definition distR (n : nat) (u v : nat -> R) : R := lenR n (fun i => u i - v i).

(** Points and vectors of space. *)
Definition V3 : Type := (R * R * R)%type.
Definition dot3 (u v : V3) : R :=
  let '(a, b, c) := u in let '(x, y, z) := v in a * x + b * y + c * z.
Definition cross3 (u v : V3) : V3 :=
  let '(a, b, c) := u in let '(x, y, z) := v in
  (b * z - c * y, c * x - a * z, a * y - b * x).
Definition add3 (u v : V3) : V3 :=
  let '(a, b, c) := u in let '(x, y, z) := v in (a + x, b + y, c + z).
Definition sub3 (u v : V3) : V3 :=
  let '(a, b, c) := u in let '(x, y, z) := v in (a - x, b - y, c - z).
Definition scale3 (k : R) (u : V3) : V3 :=
  let '(a, b, c) := u in (k * a, k * b, k * c).
Definition len3R (u : V3) : R := sqrt (dot3 u u).
Definition zero3 : V3 := (0, 0, 0).

(** Rodrigues' formula: [v] rotated by the angle [t] about the unit axis [k],
    right-handed. *)
Definition rodrigues (k : V3) (t : R) (v : V3) : V3 :=
  add3 (add3 (scale3 (cos t) v) (scale3 (sin t) (cross3 k v)))
       (scale3 ((1 - cos t) * dot3 k v) k).

(** Finite products. *)
Fixpoint rprod (n : nat) (f : nat -> R) : R :=
  match n with
  | O => 1
  | S n' => rprod n' f * f n'
  end.

(** A point lies on the plane with normal [n] and offset [d]. *)
Definition on_plane (n : V3) (d : R) (p : V3) : Prop := dot3 n p + d = 0.
(** Euclidean distance of two points. *)
Definition dist3 (p q : V3) : R := len3R (sub3 p q).

(** Matrices of reals as cell functions: product (inner dimension [n]),
    identity, matrix times vector. *)
Definition mmulR (n : nat) (A B : nat -> nat -> R) (i j : nat) : R :=
  rsum n (fun p => A i p * B p j).
Definition idR (i j : nat) : R := if Nat.eqb i j then 1 else 0.
Definition mvecR (n : nat) (A : nat -> nat -> R) (v : nat -> R) (i : nat) : R :=
  rsum n (fun j => A i j * v j).

(** The determinant, by expansion along the first row: remove row 0 and
    column [j]. *)
Definition minor0 (f : nat -> nat -> R) (j : nat) : nat -> nat -> R :=
  fun r c => f (S r) (if Nat.ltb c j then c else S c).
Fixpoint detR (n : nat) (f : nat -> nat -> R) : R :=
  match n with
  | O => 1
  | S n' => rsum (S n') (fun j => (-1) ^ j * f 0%nat j * detR n' (minor0 f j))
  end.
(** The matrix with row [r] and column [c] removed. *)
Definition cutR (f : nat -> nat -> R) (r c i j : nat) : R :=
  f (if Nat.ltb i r then i else S i) (if Nat.ltb j c then j else S j).
(** Signed minors. *)
Definition cofR (n : nat) (f : nat -> nat -> R) (i j : nat) : R :=
  (-1) ^ (i + j) * detR (n - 1) (cutR f i j).
(** The number of [i < n] with [P i], and of cells (i,j) of an M x N grid. *)
Fixpoint count (n : nat) (P : nat -> bool) : nat :=
  match n with
  | O => 0
  | S n' => count n' P + (if P n' then 1 else 0)
  end.
Fixpoint countM (M N : nat) (P : nat -> nat -> bool) : nat :=
  match N with
  | O => 0
  | S N' => countM M N' P + count M (fun i => P i N')
  end.
(** The sum of all cells. *)
Definition rsumM (M N : nat) (f : nat -> nat -> R) : R :=
  rsum M (fun i => rsum N (fun j => f i j)).
