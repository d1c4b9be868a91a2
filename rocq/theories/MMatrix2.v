(** Model of the matrix helpers of vmmlib/util.hpp, of the comparison functors
    of vmmlib/matrix_functors.hpp and of vmmlib/matrix_traits.hpp,
    vector_traits.hpp. *)
From Verif Require Export MMatrix.

Section Util.
Context {cfg : Cfg} {T : Type} {ST : Scalar T} {TT : Trig T}.
Implicit Types m : list T.

(** util.hpp:63-79 create_translation( arg ), for 4 x 4. *)
Definition util_create_translation (t : list T) : res (list T) :=
  ret <- mat_default 4 4 ;; ret <- mat_identity 4 4 ret ;; mat_set_translation ret t.
(** util.hpp:81-86 apply_translation( m, t0, t1, t2 ). *)
Definition util_apply_translation m (t0 t1 t2 : T) : res (list T) :=
  tr <- util_create_translation [t0; t1; t2] ;; mat_mul_assign 4 m (Val tr).
(** util.hpp:88-104 create_rotation( angle, axis ). *)
Definition util_create_rotation (angle : T) (axis : list T) : res (list T) :=
  ret <- mat_default 4 4 ;; ret <- mat_identity 4 4 ret ;; mat_rotate ret angle axis.
(** util.hpp:106-111 apply_rotation( m, angle, t0, t1, t2 ). *)
Definition util_apply_rotation m (angle t0 t1 t2 : T) : res (list T) :=
  r <- util_create_rotation angle [t0; t1; t2] ;; mat_mul_assign 4 m (Val r).
(** util.hpp:113-130 create_scaling( Vector< 3 > ). *)
Definition util_create_scaling (s : list T) : res (list T) :=
  ret <- mat_default 4 4 ;; ret <- mat_identity 4 4 ret ;; mat_scale ret s.
(** util.hpp:132-137 create_scaling( T ): a vector of equal components. *)
Definition util_create_scaling_s (s : T) : res (list T) := util_create_scaling [s; s; s].
End Util.

Section Functors.
Context {cfg : Cfg} {T : Type} {ST : Scalar T}.
Implicit Types m : list T.

(** matrix_functors.hpp:75-89 matrix_equals_allow_inverted_rows, exact: the
    loop stops at the first row that differs from both +row and -row; row
    comparison is Vector::operator!= (memcmp). *)
Definition fun_eq_inv_rows (M N : nat) m0 m1 : res bool :=
  for_ 0 M (fun i (ok : bool) =>
    if ok then
      a <- mat_get_row M N m0 i ;; b <- mat_get_row M N m1 i ;;
      if vec_neq a b then
        nb <- vec_neg N b ;; Ok (negb (vec_neq a nb))
      else Ok true
    else Ok false) true.
(** matrix_functors.hpp:91-108, with a tolerance. *)
Definition fun_eq_inv_rows_tol (M N : nat) m0 m1 (tol : T) : res bool :=
  for_ 0 M (fun i (ok : bool) =>
    if ok then
      a <- mat_get_row M N m0 i ;; b <- mat_get_row M N m1 i ;;
      e <- vec_equals N a b tol ;;
      if negb e then
        nb <- vec_neg N b ;; vec_equals N a nb tol
      else Ok true
    else Ok false) true.
(** matrix_functors.hpp:117-131 matrix_equals_allow_inverted_columns, exact. *)
Definition fun_eq_inv_cols (M N : nat) m0 m1 : res bool :=
  for_ 0 N (fun i (ok : bool) =>
    if ok then
      a <- mat_get_column M N m0 i ;; b <- mat_get_column M N m1 i ;;
      if vec_neq a b then
        nb <- vec_neg M b ;; Ok (negb (vec_neq a nb))
      else Ok true
    else Ok false) true.
(** matrix_functors.hpp:133-150, with a tolerance. *)
Definition fun_eq_inv_cols_tol (M N : nat) m0 m1 (tol : T) : res bool :=
  for_ 0 N (fun i (ok : bool) =>
    if ok then
      a <- mat_get_column M N m0 i ;; b <- mat_get_column M N m1 i ;;
      e <- vec_equals M a b tol ;;
      if negb e then
        nb <- vec_neg M b ;; vec_equals M a nb tol
      else Ok true
    else Ok false) true.

(** matrix_traits.hpp:53-61 r< Row, Col >, 73-80 ir( row, col ): m.at( Col, Row ). *)
Definition traits_r (M N : nat) m (row col : nat) : res T := mat_at M N m col row.
(** matrix_traits.hpp:63-71 w, 82-89 iw. *)
Definition traits_w (M N : nat) m (row col : nat) (x : T) : res (list T) := mat_put M N m col row x.
(** vector_traits.hpp:51-57 r, 67-72 ir; 59-65 w, 74-79 iw: array[ I ]. *)
Definition vtraits_r (v : list T) (i : nat) : res T := rd v i.
Definition vtraits_w (v : list T) (i : nat) (x : T) : res (list T) := wr v i x.
End Functors.
