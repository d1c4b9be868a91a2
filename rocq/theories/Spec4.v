(** Specification vocabulary: viewing frusta, clip volumes, balls, boxes. *)
From Coq Require Import List.
From Verif Require Export Spec3.
Import ListNotations.
Local Open Scope R_scope.

(** The closed cube [-1,1]^3. *)
Definition in_cube (q : V3) : Prop :=
  let '(x, y, z) := q in -1 <= x <= 1 /\ -1 <= y <= 1 /\ -1 <= z <= 1.

(** The eye is at the origin and looks along -z.  The pyramid over the window
    [l,r] x [b,t] in the plane z = -n: the ray from the eye through the point
    meets that plane inside the window. *)
Definition in_pyramid (l r b t n : R) (p : V3) : Prop :=
  let '(x, y, z) := p in
  exists k, 0 < k /\ k * z = - n /\ l <= k * x <= r /\ b <= k * y <= t.
(** The part of the pyramid between the planes z = -n and z = -f. *)
Definition in_frustum (l r b t n f : R) (p : V3) : Prop :=
  let '(x, y, z) := p in - f <= z <= - n /\ in_pyramid l r b t n p.
(** The box of an orthographic view. *)
Definition in_ortho (l r b t n f : R) (p : V3) : Prop :=
  let '(x, y, z) := p in l <= x <= r /\ b <= y <= t /\ - f <= z <= - n.

(** Row [i] of a 4 x 4 matrix applied to the point [p] (fourth coordinate 1). *)
Definition row4 (A : nat -> nat -> R) (i : nat) (p : V3) : R :=
  let '(x, y, z) := p in A i 0%nat * x + A i 1%nat * y + A i 2%nat * z + A i 3%nat.
(** The clip volume of a projection matrix: -w <= x, y, z <= w; closed and
    open. *)
Definition in_clip (A : nat -> nat -> R) (p : V3) : Prop :=
  forall k, (k < 3)%nat -> - row4 A 3 p <= row4 A k p <= row4 A 3 p.
Definition in_clip_open (A : nat -> nat -> R) (p : V3) : Prop :=
  forall k, (k < 3)%nat -> - row4 A 3 p < row4 A k p < row4 A 3 p.

(** The closed ball. *)
Definition in_ball (c : V3) (r : R) (p : V3) : Prop := dist3 p c <= r.
(** The box spanned by two opposite corners, given in any order. *)
Definition between_R (a b x : R) : Prop := Rmin a b <= x <= Rmax a b.
Definition in_span (x0 x1 y0 y1 z0 z1 : R) (p : V3) : Prop :=
  let '(x, y, z) := p in between_R x0 x1 x /\ between_R y0 y1 y /\ between_R z0 z1 z.

(** The six faces of the clip volume as half-spaces  n . p + d >= 0. *)
Definition hs : Type := (V3 * R)%type.
Definition hval (h : hs) (p : V3) : R := dot3 (fst h) p + snd h.
Definition face (A : nat -> nat -> R) (s : R) (k : nat) : hs :=
  ((A 3%nat 0%nat + s * A k 0%nat, A 3%nat 1%nat + s * A k 1%nat, A 3%nat 2%nat + s * A k 2%nat),
   A 3%nat 3%nat + s * A k 3%nat).
Definition faces (A : nat -> nat -> R) : list hs :=
  [face A 1 0; face A (-1) 0; face A 1 1; face A (-1) 1; face A 1 2; face A (-1) 2].
(** No face is degenerate (its normal vector is not zero). *)
Definition proper_faces (A : nat -> nat -> R) : Prop := List.Forall (fun h => fst h <> zero3) (faces A).

(** A right-handed frame: origin and three axes; the point with given
    coordinates. *)
Record frame := { fo : V3; fu : V3; fv : V3; fw : V3 }.
Definition right_handed (F : frame) : Prop := 0 < dot3 (cross3 (fu F) (fv F)) (fw F).
Definition pt (F : frame) (x y z : R) : V3 :=
  add3 (fo F) (add3 (scale3 x (fu F)) (add3 (scale3 y (fv F)) (scale3 z (fw F)))).
(** The truncated pyramid with the window [l,r] x [b,t] at depth n, and the
    window scaled by s at depth f: perspective for s = f / n, orthographic for
    s = 1.  At depth d the window is scaled by the interpolated factor. *)
Definition scale_at (n f s d : R) : R := 1 + (d - n) / (f - n) * (s - 1).
Definition in_trunc (l r b t n f s x y z : R) : Prop :=
  n <= - z <= f /\ l * scale_at n f s (- z) <= x <= r * scale_at n f s (- z) /\
  b * scale_at n f s (- z) <= y <= t * scale_at n f s (- z).
Definition in_trunc_open (l r b t n f s x y z : R) : Prop :=
  n < - z < f /\ l * scale_at n f s (- z) < x < r * scale_at n f s (- z) /\
  b * scale_at n f s (- z) < y < t * scale_at n f s (- z).

(** The interior of the viewing frustum. *)
Definition in_frustum_open (l r b t n f : R) (p : V3) : Prop :=
  let '(x, y, z) := p in - f < z < - n /\
  exists k, 0 < k /\ k * z = - n /\ l < k * x < r /\ b < k * y < t.
