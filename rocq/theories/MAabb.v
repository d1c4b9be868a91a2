(** Model of vmmlib/aabb.hpp (class AABB< T >, lines 48-101).  A box is the pair
    of the arrays of _min and _max.  The constructor and isIn() for spheres
    (aabb.hpp:137-164) call Vector::getCenter()/getRadius(), which do not exist,
    and cannot be instantiated; they are not modelled.  operator<< is in
    MIo.v. *)
From Verif Require Export MVector.

(** The value the default constructor gives to _max: aabb.hpp:115-118
    std::numeric_limits< T >::min() for every type but float and double (the
    smallest value of an integer type), aabb.hpp:120-128
    -std::numeric_limits< T >::max() for these. *)
Class Lowest (T : Type) := { slow : T }.

Definition box (T : Type) : Type := (list T * list T)%type.

Section Aabb.
Context {cfg : Cfg} {T : Type} {ST : Scalar T} {LO : Lowest T}.
Implicit Types b o : box T.

(** aabb.hpp:115-128 AABB(): an empty box. *)
Definition box_default : res (box T) :=
  mn <- vec_ctor_fill 3 (vec_default 3) smax ;;
  mx <- vec_ctor_fill 3 (vec_default 3) slow ;; Ok (mn, mx).
(** aabb.hpp:130-135 AABB( pMin, pMax ): copies both. *)
Definition box_make (pMin pMax : list T) : res (box T) :=
  mn <- copy_n 3 pMin 0 (vec_default 3) 0 ;;
  mx <- copy_n 3 pMax 0 (vec_default 3) 0 ;; Ok (mn, mx).
(** aabb.hpp:145-151 AABB( cx, cy, cz, size ). *)
Definition box_ctor_center (cx cy cz size : T) : res (box T) :=
  c <- vec_set3 (vec_default 3) cx cy cz ;;
  mn <- vec_assign 3 (vec_default 3) (Val c) ;;
  mx <- vec_assign 3 (vec_default 3) (Val mn) ;;
  mx <- vec_add_assign_s 3 mx size ;;
  mn <- vec_sub_assign_s 3 mn size ;; Ok (mn, mx).

(** The six comparisons of aabb.hpp:166-175 isIn( Vector< 3 > ), left to right;
    all of them are free of side effects. *)
Definition box_isIn b (pos : list T) : res bool :=
  let '(mn, mx) := b in
  x <- rd pos 0 ;; y <- rd pos 1 ;; z <- rd pos 2 ;;
  lx <- rd mn 0 ;; ly <- rd mn 1 ;; lz <- rd mn 2 ;;
  hx <- rd mx 0 ;; hy <- rd mx 1 ;; hz <- rd mx 2 ;;
  Ok (if sltb hx x || sltb hy y || sltb hz z || sltb x lx || sltb y ly || sltb z lz
      then false else true).
(** aabb.hpp:177-186 isIn2d(). *)
Definition box_isIn2d b (pos : list T) : res bool :=
  let '(mn, mx) := b in
  x <- rd pos 0 ;; y <- rd pos 1 ;;
  lx <- rd mn 0 ;; ly <- rd mn 1 ;; hx <- rd mx 0 ;; hy <- rd mx 1 ;;
  Ok (if sltb hx x || sltb hy y || sltb x lx || sltb y ly then false else true).

(** aabb.hpp:188-194 set( pMin, pMax ). *)
Definition box_set b (pMin pMax : list T) : res (box T) :=
  mn <- vec_assign 3 (fst b) (Val pMin) ;; mx <- vec_assign 3 (snd b) (Val pMax) ;; Ok (mn, mx).
(** aabb.hpp:196-202 set( cx, cy, cz, size ). *)
Definition box_set_center b (cx cy cz size : T) : res (box T) :=
  center <- vec_set3 (vec_default 3) cx cy cz ;;
  d <- vec_sub_s 3 center size ;; mn <- vec_assign 3 (fst b) (Val d) ;;
  d <- vec_add_s 3 center size ;; mx <- vec_assign 3 (snd b) (Val d) ;; Ok (mn, mx).
(** aabb.hpp:204-214 setMin(), setMax(). *)
Definition box_setMin b (pMin : list T) : res (box T) :=
  mn <- vec_assign 3 (fst b) (Val pMin) ;; Ok (mn, snd b).
Definition box_setMax b (pMax : list T) : res (box T) :=
  mx <- vec_assign 3 (snd b) (Val pMax) ;; Ok (fst b, mx).
(** aabb.hpp:216-236 getMin(), getMax(). *)
Definition box_getMin b : list T := fst b.
Definition box_getMax b : list T := snd b.

(** aabb.hpp:270-296 the assignment operators with a scalar. *)
Definition box_both (f : list T -> res (list T)) b : res (box T) :=
  mn <- f (fst b) ;; mx <- f (snd b) ;; Ok (mn, mx).
Definition box_mul_assign b (s : T) := box_both (fun v => vec_mul_assign_s 3 v s) b.
Definition box_div_assign b (s : T) := box_both (fun v => vec_div_assign_s 3 v s) b.
Definition box_add_assign b (s : T) := box_both (fun v => vec_add_assign_s 3 v s) b.
Definition box_sub_assign b (s : T) := box_both (fun v => vec_sub_assign_s 3 v s) b.
(** aabb.hpp:238-268 the binary operators work on a copy. *)
Definition box_mul b (s : T) := box_mul_assign b s.
Definition box_div b (s : T) := box_div_assign b s.
Definition box_add b (s : T) := box_add_assign b s.
Definition box_sub b (s : T) := box_sub_assign b s.

(** aabb.hpp:298-310 operator==, operator!=. *)
Definition box_eq b o : bool := vec_eq (fst b) (fst o) && vec_eq (snd b) (snd o).
Definition box_neq b o : bool := vec_neq (fst b) (fst o) || vec_neq (snd b) (snd o).

(** aabb.hpp:312-316 getCenter(): 0.5f is converted to T. *)
Definition box_getCenter b : res (list T) :=
  d <- vec_sub 3 (snd b) (fst b) ;; d <- vec_mul_s 3 d shalf ;; vec_add 3 (fst b) d.
(** aabb.hpp:318-322 getDimension(). *)
Definition box_getDimension b : res (list T) := vec_sub 3 (snd b) (fst b).

(** [if( a[ i ] < m[ i ] ) m[ i ] = a[ i ];] and with > (aabb.hpp:330-342). *)
Definition keep_lt (i : nat) (a m : list T) : res (list T) :=
  x <- rd a i ;; y <- rd m i ;; if sltb x y then x <- rd a i ;; wr m i x else Ok m.
Definition keep_gt (i : nat) (a m : list T) : res (list T) :=
  x <- rd a i ;; y <- rd m i ;; if sltb y x then x <- rd a i ;; wr m i x else Ok m.
(** aabb.hpp:324-343 merge( AABB ); merging a box with itself reads and writes
    the same arrays, but no comparison holds then. *)
Definition box_merge b o : res (box T) :=
  let '(mn, mx) := b in let '(mn', mx') := o in
  mn <- keep_lt 0 mn' mn ;; mn <- keep_lt 1 mn' mn ;; mn <- keep_lt 2 mn' mn ;;
  mx <- keep_gt 0 mx' mx ;; mx <- keep_gt 1 mx' mx ;; mx <- keep_gt 2 mx' mx ;;
  Ok (mn, mx).
(** aabb.hpp:345-361 merge( Vector< 3 > ). *)
Definition box_merge_point b (p : list T) : res (box T) :=
  let '(mn, mx) := b in
  mn <- keep_lt 0 p mn ;; mn <- keep_lt 1 p mn ;; mn <- keep_lt 2 p mn ;;
  mx <- keep_gt 0 p mx ;; mx <- keep_gt 1 p mx ;; mx <- keep_gt 2 p mx ;;
  Ok (mn, mx).

(** aabb.hpp:363-368 setEmpty(). *)
Definition box_setEmpty b : res (box T) :=
  mn <- vec_assign_fill 3 (fst b) smax ;; mx <- vec_assign_fill 3 (snd b) slowest ;; Ok (mn, mx).
(** aabb.hpp:371-375 isEmpty(): the last comparison is with _max.x(). *)
Definition box_isEmpty b : res bool :=
  let '(mn, mx) := b in
  lx <- rd mn 0 ;; ly <- rd mn 1 ;; lz <- rd mn 2 ;; hx <- rd mx 0 ;; hy <- rd mx 1 ;;
  Ok (sleb hx lx || sleb hy ly || sleb hx lz).
(** aabb.hpp:377-381 makeUnitBox(). *)
Definition box_unit : res (box T) :=
  z <- vec_ctor_fill 3 (vec_default 3) szero ;; o <- vec_ctor_fill 3 (vec_default 3) sone ;; box_make z o.
End Aabb.
