(** Specification vocabulary: quaternions. *)
From Verif Require Export Spec2.
Local Open Scope R_scope.

(** x i + y j + z k + w, written (x, y, z, w). *)
Definition Quat : Type := (R * R * R * R)%type.
Definition qmk (x y z w : R) : Quat := (x, y, z, w).
(** Hamilton's product. *)
Definition qmulR (p q : Quat) : Quat :=
  let '(x, y, z, w) := p in let '(x', y', z', w') := q in
  (w * x' + x * w' + y * z' - z * y',
   w * y' - x * z' + y * w' + z * x',
   w * z' + x * y' - y * x' + z * w',
   w * w' - x * x' - y * y' - z * z').
Definition qaddR (p q : Quat) : Quat :=
  let '(x, y, z, w) := p in let '(x', y', z', w') := q in (x + x', y + y', z + z', w + w').
Definition qsubR (p q : Quat) : Quat :=
  let '(x, y, z, w) := p in let '(x', y', z', w') := q in (x - x', y - y', z - z', w - w').
Definition qscaleR (k : R) (p : Quat) : Quat :=
  let '(x, y, z, w) := p in (k * x, k * y, k * z, k * w).
Definition qconjR (p : Quat) : Quat := let '(x, y, z, w) := p in (- x, - y, - z, w).
Definition qdotR (p q : Quat) : R :=
  let '(x, y, z, w) := p in let '(x', y', z', w') := q in x * x' + y * y' + z * z' + w * w'.
Definition qabsR (p : Quat) : R := sqrt (qdotR p p).
Definition qzero : Quat := (0, 0, 0, 0).
(** Real and pure quaternions, scalar and vector part. *)
Definition qrealR (a : R) : Quat := (0, 0, 0, a).
Definition qpureR (v : V3) : Quat := let '(x, y, z) := v in (x, y, z, 0).
Definition qvecR (p : Quat) : V3 := let '(x, y, z, w) := p in (x, y, z).
Definition qscalR (p : Quat) : R := let '(x, y, z, w) := p in w.
(** The top left 3 x 3 block of [A], applied to [v]. *)
Definition mv3R (A : nat -> nat -> R) (v : V3) : V3 :=
  let '(x, y, z) := v in
  (A 0%nat 0%nat * x + A 0%nat 1%nat * y + A 0%nat 2%nat * z,
   A 1%nat 0%nat * x + A 1%nat 1%nat * y + A 1%nat 2%nat * z,
   A 2%nat 0%nat * x + A 2%nat 1%nat * y + A 2%nat 2%nat * z).
