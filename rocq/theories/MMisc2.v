(** Iterators, forwarding functions, sizes and version macros. *)
From Verif Require Export MMatrix MQuaternion.
Local Open Scope nat_scope.

(** ** Iterators *)
(** vector.hpp:57-58, matrix.hpp:62-63: an iterator is a pointer into [array];
    here its distance from the first element.  [it + k] and [++it] are addition. *)
Definition iter : Type := nat.
(** vector.hpp:1540-1570 begin(), end(). *)
Definition vec_begin : iter := 0.
Definition vec_end (M : nat) : iter := M.
(** vector.hpp:1460-1465 size(). *)
Definition vec_size (M : nat) : nat := M.
(** matrix.hpp:2130-2136 size(), 2140-2176 begin(), end(). *)
Definition mat_size (M N : nat) : nat := M * N.
Definition mat_begin : iter := 0.
Definition mat_end (M N : nat) : iter := mat_begin + mat_size M N.
(** matrix.hpp:1427-1443 get_number_of_rows(), get_number_of_columns(). *)
Definition mat_number_of_rows (M N : nat) : nat := M.
Definition mat_number_of_columns (M N : nat) : nat := N.
(** matrix.hpp:883-897 operator T*, operator const T*: the pointer to the first
    element. *)
Definition mat_ptr : iter := 0.
(** *it and *it = x. *)
Definition it_get {T : Type} (l : list T) (it : iter) : res T := rd l it.
Definition it_put {T : Type} (l : list T) (it : iter) (x : T) : res (list T) := wr l it x.

(** for( it = b; it != e; ++it ) body: the runs of the loop.  A body that throws
    or is undefined ends the loop with that outcome.  There is no run if the
    loop goes on for ever. *)
Inductive runs {S : Type} (body : iter -> S -> res S) (e : iter) : iter -> S -> res S -> Prop :=
| runs_end s : runs body e e s (Ok s)
| runs_next it s s' r : it <> e -> body it s = Ok s' -> runs body e (1 + it) s' r -> runs body e it s r
| runs_throw it s : it <> e -> body it s = Throw -> runs body e it s Throw
| runs_ub it s : it <> e -> body it s = UB -> runs body e it s UB
| runs_nonfin it s : it <> e -> body it s = NonFin -> runs body e it s NonFin.

(** ** Forwarding functions *)
Section Forward.
Context {cfg : Cfg} {T : Type} {ST : Scalar T}.
(** matrix.hpp:508-513 equals( m0, m1, tolerance ). *)
Definition free_equals (M N : nat) (m0 m1 : list T) (tolerance : T) : res bool := mat_equals M N m0 m1 tolerance.
(** matrix.hpp:516-522 and 566-572 multiply( left, right, result ): the new value
    of result. *)
Definition free_multiply (M P N : nat) (left right : arg T) (result : list T) : res (list T) :=
  mat_multiply M P N result left right.
(** quaternion.hpp:799-804 the static dot( p, q ). *)
Definition q_dot_static (p q : list T) : res T :=
  pw <- rd p 3 ;; qw <- rd q 3 ;; px <- rd p 0 ;; qx <- rd q 0 ;;
  py <- rd p 1 ;; qy <- rd q 1 ;; pz <- rd p 2 ;; qz <- rd q 2 ;;
  Ok (sadd (sadd (sadd (smul pw qw) (smul px qx)) (smul py qy)) (smul pz qz)).
(** vector.hpp:537-545 Vector( OSGVEC3 ), M = 3: [from] is the triple of
    from.x(), from.y(), from.z(). *)
Definition vec_from_osg (from : T * T * T) : res (list T) :=
  let '(x, y, z) := from in
  v <- wr [szero; szero; szero] 0 x ;; v <- wr v 1 y ;; wr v 2 z.
End Forward.

(** ** Version macros *)
Local Open Scope Z_scope.
(** version.in.hpp:39-46 VMMLIB_VERSION_MAJOR, _MINOR, _PATCH as configured.  The
    macro arguments are numbers: the macros do not parenthesise them. *)
Record version := { v_major : Z; v_minor : Z; v_patch : Z }.
(** version.in.hpp:48-53 VMMLIB_VERSION_GT. *)
Definition version_gt (v : version) (major minor patch : Z) : bool :=
  (v_major v >? major) ||
  ((v_major v =? major) && ((v_minor v >? minor) || ((v_minor v =? minor) && (v_patch v >? patch)))).
(** version.in.hpp:55-60 VMMLIB_VERSION_GE. *)
Definition version_ge (v : version) (major minor patch : Z) : bool :=
  (v_major v >? major) ||
  ((v_major v =? major) && ((v_minor v >? minor) || ((v_minor v =? minor) && (v_patch v >=? patch)))).
(** version.in.hpp:62-67 VMMLIB_VERSION_LT. *)
Definition version_lt (v : version) (major minor patch : Z) : bool :=
  (v_major v <? major) ||
  ((v_major v =? major) && ((v_minor v <? minor) || ((v_minor v =? minor) && (v_patch v <? patch)))).
(** version.in.hpp:69-74 VMMLIB_VERSION_LE. *)
Definition version_le (v : version) (major minor patch : Z) : bool :=
  (v_major v <? major) ||
  ((v_major v =? major) && ((v_minor v <? minor) || ((v_minor v =? minor) && (v_patch v <=? patch)))).
