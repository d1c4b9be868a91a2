(** Model of vmmlib/quaternion.hpp (class Quaternion< T >, lines 61-189).  A
    Quaternion< T > is the array of its Vector< 4, T > base: x, y, z, w. *)
From Verif Require Export MMatrix InstR.

(** Floating-point literals p/q converted to T, and atan2 of <cmath>. *)
Class Lit (T : Type) := { slit : Z -> positive -> T }.
Class Atan2 (T : Type) := { satan2 : T -> T -> T }.
#[export] Instance RLit : Lit R := { slit p q := (IZR p / IZR (Zpos q))%R }.
#[export] Instance RAtan2 : Atan2 R := {
  satan2 y x :=
    (if Rltb 0 x then atan (y / x)
     else if Rltb x 0 then (if Rleb 0 y then atan (y / x) + PI else atan (y / x) - PI)
     else if Rltb 0 y then PI / 2 else if Rltb y 0 then - (PI / 2) else 0)%R }.

Section Quaternion.
Context {cfg : Cfg} {T : Type} {ST : Scalar T} {LT : Lit T}.
Implicit Types q p : list T.
Local Notation "a *' b" := (smul a b) (at level 40, left associativity).
Local Notation "a +' b" := (sadd a b) (at level 50, left associativity).
Local Notation "a -' b" := (ssub a b) (at level 50, left associativity).

(** quaternion.hpp:236-243 Quaternion( x, y, z, w ), 369-376 set( x, y, z, w ). *)
Definition q_make (x y z w : T) : list T := [x; y; z; w].
(** quaternion.hpp:80 Quaternion(): the Vector base is zeroed, w() = 1. *)
Definition q_default : res (list T) := wr (vec_default 4) 3 sone.
(** quaternion.hpp:224-234 the static constants. *)
Definition q_IDENTITY : list T := q_make szero szero szero sone.
Definition q_QUATERI : list T := q_make sone szero szero szero.
Definition q_QUATERJ : list T := q_make szero sone szero szero.
Definition q_QUATERK : list T := q_make szero szero sone szero.
(** quaternion.hpp:247-260 Quaternion( xyz, w ), Quaternion( xyz ). *)
Definition q_of_vec_w (xyz : list T) (w : T) : res (list T) := vec_set_last 4 (vec_default 4) xyz w.
Definition q_of_vec (xyz : list T) : res (list T) := q_of_vec_w xyz szero.
(** quaternion.hpp:380-387 set( xyz, w ). *)
Definition q_set_vec q (xyz : list T) (w : T) : res (list T) :=
  a <- rd xyz 0 ;; q <- wr q 0 a ;; a <- rd xyz 1 ;; q <- wr q 1 a ;;
  a <- rd xyz 2 ;; q <- wr q 2 a ;; wr q 3 w.
(** quaternion.hpp:966-971, 974-980 operator=: memcpy of 4 elements. *)
Definition q_assign q (o : arg T) : res (list T) := copy_n 4 (argl q o) 0 q 0.
(** quaternion.hpp:353-357 zero(), 361-365 identity(). *)
Definition q_zero q : res (list T) := q_assign q (Val (vec_default 4)).
Definition q_identity q : res (list T) := q_assign q (Val q_IDENTITY).

(** x(), y(), z(), w() (vector.hpp:699-748). *)
Definition q4 {A} q (k : T -> T -> T -> T -> res A) : res A :=
  x <- rd q 0 ;; y <- rd q 1 ;; z <- rd q 2 ;; w <- rd q 3 ;; k x y z w.

(** quaternion.hpp:400-404 operator==( T ), 408-412 operator!=( T ). *)
Definition q_eq_s q (a : T) : res bool :=
  q4 q (fun x y z w => Ok (seqb w a && seqb x szero && seqb y szero && seqb z szero)).
Definition q_neq_s q (a : T) : res bool :=
  q4 q (fun x y z w => Ok (negb (seqb w a) || negb (seqb x szero) || negb (seqb y szero) || negb (seqb z szero))).
(** quaternion.hpp:433-443 operator==( Quaternion ), 415-421 with a Vector< 4 >,
    424-429, 447-452 operator!=. *)
Definition q_eq q p : res bool :=
  q4 q (fun x y z w => q4 p (fun x' y' z' w' => Ok (seqb w w' && seqb x x' && seqb y y' && seqb z z'))).
Definition q_neq q p : res bool := b <- q_eq q p ;; Ok (negb b).
(** quaternion.hpp:456-467 is_akin( a, delta ); fabsf rounds to float, here it
    is exact. *)
Definition q_is_akin q p (delta : T) : res bool :=
  q4 q (fun x y z w => q4 p (fun x' y' z' w' =>
    Ok (negb (sltb delta (sabs (w -' w')) || sltb delta (sabs (x -' x')) ||
              sltb delta (sabs (y -' y')) || sltb delta (sabs (z -' z')))))).

(** quaternion.hpp:471-477 conjugate(), 481-485 get_conjugate(). *)
Definition q_conjugate q : res (list T) :=
  x <- rd q 0 ;; q <- wr q 0 (sopp x) ;;
  y <- rd q 1 ;; q <- wr q 1 (sopp y) ;;
  z <- rd q 2 ;; wr q 2 (sopp z).
Definition q_get_conjugate q : res (list T) :=
  q4 q (fun x y z w => Ok (q_make (sopp x) (sopp y) (sopp z) w)).
(** quaternion.hpp:498-502 squared_abs(), 489-494 abs(). *)
Definition q_squared_abs q : res T :=
  q4 q (fun x y z w => Ok (x *' x +' y *' y +' z *' z +' w *' w)).
Definition q_abs q : res T := s <- q_squared_abs q ;; ssqrt s.
(** quaternion.hpp:661-666 operator*( T ), 684-691 operator*=( T ). *)
Definition q_mul_s q (a : T) : res (list T) :=
  q4 q (fun x y z w => Ok (q_make (x *' a) (y *' a) (z *' a) (w *' a))).
Definition q_mul_assign_s q (a : T) : res (list T) :=
  for_ 0 4 (fun i q => x <- rd q i ;; wr q i (x *' a)) q.
(** quaternion.hpp:670-680 operator/( T ), 695-704 operator/=( T ). *)
Definition q_div_s q (a : T) : res (list T) :=
  if seqb a szero then Throw
  else a <- sdiv sone a ;; q4 q (fun x y z w => Ok (q_make (x *' a) (y *' a) (z *' a) (w *' a))).
Definition q_div_assign_s q (a : T) : res (list T) :=
  if seqb a szero then Throw
  else a <- sdiv sone a ;; q_mul_assign_s q a.
(** quaternion.hpp:506-515 inverse(). *)
Definition q_inverse q : res (list T) :=
  c <- q_conjugate q ;; tmp <- q_squared_abs q ;; tmp <- sdiv sone tmp ;; q_mul_s c tmp.
(** quaternion.hpp:519-528 normalize(): returns the reciprocal length and the
    new contents; 532-539 get_normalized(). *)
Definition q_normalize q : res (T * list T) :=
  len <- q_abs q ;;
  if seqb len szero then Ok (szero, q)
  else len <- sdiv sone len ;; q <- q_mul_assign_s q len ;; Ok (len, q).
Definition q_get_normalized q : res (list T) := '(_, q) <- q_normalize q ;; Ok q.

(** quaternion.hpp:547-552 operator+, 556-561 operator-. *)
Definition q_add q p : res (list T) :=
  q4 q (fun x y z w => q4 p (fun x' y' z' w' => Ok (q_make (x +' x') (y +' y') (z +' z') (w +' w')))).
Definition q_sub q p : res (list T) :=
  q4 q (fun x y z w => q4 p (fun x' y' z' w' => Ok (q_make (x -' x') (y -' y') (z -' z') (w -' w')))).
(** quaternion.hpp:635-642 operator+=, 646-653 operator-=. *)
Definition q_add_assign q (p : arg T) : res (list T) :=
  for_ 0 4 (fun i q => a <- rd q i ;; b <- rd (argl q p) i ;; wr q i (a +' b)) q.
Definition q_sub_assign q (p : arg T) : res (list T) :=
  for_ 0 4 (fun i q => a <- rd q i ;; b <- rd (argl q p) i ;; wr q i (a -' b)) q.
(** quaternion.hpp:626-631 unary operator-. *)
Definition q_neg q : res (list T) :=
  q4 q (fun x y z w => Ok (q_make (sopp x) (sopp y) (sopp z) (sopp w))).

(** quaternion.hpp:578-620 operator*=( Quaternion ): all temporaries are values
    computed before the first write. *)
Definition q_mul_assign q (o : arg T) : res (list T) :=
  a <- rd q 3 ;; b <- rd q 0 ;; c <- rd q 1 ;; d <- rd q 2 ;;
  x <- rd (argl q o) 3 ;; y <- rd (argl q o) 0 ;; z <- rd (argl q o) 1 ;; w <- rd (argl q o) 2 ;;
  let t00 := (d -' c) *' (z -' w) in
  let t01 := (a +' b) *' (x +' y) in
  let t02 := (a -' b) *' (z +' w) in
  let t03 := (c +' d) *' (x -' y) in
  let t04 := (d -' b) *' (y -' z) in
  let t05 := (d +' b) *' (y +' z) in
  let t06 := (a +' c) *' (x -' w) in
  let t07 := (a -' c) *' (x +' w) in
  let t08 := t05 +' t06 +' t07 in
  let t09 := shalf *' (t04 +' t08) in
  q <- wr q 3 (t00 +' t09 -' t05) ;;
  q <- wr q 0 (t01 +' t09 -' t08) ;;
  q <- wr q 1 (t02 +' t09 -' t07) ;;
  wr q 2 (t03 +' t09 -' t06).
(** quaternion.hpp:566-573 operator*( Quaternion ): on a copy. *)
Definition q_mul q p : res (list T) := q_mul_assign q (Val p).

(** quaternion.hpp:709-714 operator+( Vector< 3 > ), 718-723 operator-,
    727-735 operator*. *)
Definition q_add_vec q (a : list T) : res (list T) :=
  q4 q (fun x y z w => ax <- rd a 0 ;; ay <- rd a 1 ;; az <- rd a 2 ;;
    Ok (q_make (x +' ax) (y +' ay) (z +' az) w)).
Definition q_sub_vec q (a : list T) : res (list T) :=
  q4 q (fun x y z w => ax <- rd a 0 ;; ay <- rd a 1 ;; az <- rd a 2 ;;
    Ok (q_make w (x -' ax) (y -' ay) (z -' az))).
Definition q_mul_vec q (a : list T) : res (list T) :=
  q4 q (fun x y z w => ax <- rd a 0 ;; ay <- rd a 1 ;; az <- rd a 2 ;;
    Ok (q_make (sopp x *' ax -' y *' ay -' z *' az)
               (w *' ax +' y *' az -' z *' ay)
               (w *' ay +' z *' ax -' x *' az)
               (w *' az +' x *' ay -' y *' ax))).
(** quaternion.hpp:739-745 operator+=( Vector< 3 > ): the third statement adds
    to y(). *)
Definition q_add_assign_vec q (a : list T) : res (list T) :=
  x <- rd q 0 ;; ax <- rd a 0 ;; q <- wr q 0 (x +' ax) ;;
  y <- rd q 1 ;; ay <- rd a 1 ;; q <- wr q 1 (y +' ay) ;;
  y <- rd q 1 ;; az <- rd a 2 ;; wr q 1 (y +' az).
(** quaternion.hpp:749-756 operator-=, 760-772 operator*=. *)
Definition q_sub_assign_vec q (a : list T) : res (list T) :=
  x <- rd q 0 ;; ax <- rd a 0 ;; q <- wr q 0 (x -' ax) ;;
  y <- rd q 1 ;; ay <- rd a 1 ;; q <- wr q 1 (y -' ay) ;;
  z <- rd q 2 ;; az <- rd a 2 ;; wr q 2 (z -' az).
Definition q_mul_assign_vec q (a : list T) : res (list T) :=
  q4 q (fun x y z w => ax <- rd a 0 ;; ay <- rd a 1 ;; az <- rd a 2 ;;
    q <- wr q 0 (w *' ax +' y *' az -' z *' ay) ;;
    q <- wr q 1 (w *' ay +' z *' ax -' x *' az) ;;
    q <- wr q 2 (w *' az +' x *' ay -' y *' ax) ;;
    wr q 3 (sopp x *' ax -' y *' ay -' z *' az)).

(** quaternion.hpp:777-787 cross(), 791-795 dot(). *)
Definition q_cross q p : res (list T) :=
  q4 q (fun x y z w => q4 p (fun x' y' z' w' =>
    r <- wr (vec_default 3) 0 (y *' z' -' z *' y') ;;
    r <- wr r 1 (z *' x' -' x *' z') ;;
    wr r 2 (x *' y' -' y *' x'))).
Definition q_dot q p : res T :=
  q4 q (fun x y z w => q4 p (fun x' y' z' w' => Ok (w *' w' +' x *' x' +' y *' y' +' z *' z'))).

(** quaternion.hpp:896-920 get_rotation_matrix( M ), 885-892 the 3 x 3 form. *)
Definition q_get_rotation_matrix_into (D : nat) q (m : list T) : res (list T) :=
  q4 q (fun x y z w =>
    let w2 := w *' w in let x2 := x *' x in let y2 := y *' y in let z2 := z *' z in
    let wx := w *' x in let wy := w *' y in let wz := w *' z in
    let xy := x *' y in let xz := x *' z in let yz := y *' z in
    m <- mat_put D D m 0 0 (w2 +' x2 -' y2 -' z2) ;;
    m <- mat_put D D m 0 1 (stwo *' (xy -' wz)) ;;
    m <- mat_put D D m 0 2 (stwo *' (xz +' wy)) ;;
    m <- mat_put D D m 1 0 (stwo *' (xy +' wz)) ;;
    m <- mat_put D D m 1 1 (w2 -' x2 +' y2 -' z2) ;;
    m <- mat_put D D m 1 2 (stwo *' (yz -' wx)) ;;
    m <- mat_put D D m 2 0 (stwo *' (xz -' wy)) ;;
    m <- mat_put D D m 2 1 (stwo *' (yz +' wx)) ;;
    mat_put D D m 2 2 (w2 -' x2 -' y2 +' z2)).
Definition q_get_rotation_matrix q : res (list T) :=
  m <- mat_default 3 3 ;; q_get_rotation_matrix_into 3 q m.

(** quaternion.hpp:274-349 set( M ), 264-269 the constructor from a matrix.
    QUATERNION_TRACE_EPSILON is 1e-5 (line 55); the last else (largest > 2) is
    unreachable and modelled as UB. *)
Definition q_set_matrix (D : nat) q (m : list T) : res (list T) :=
  m00 <- mat_at D D m 0 0 ;; m11 <- mat_at D D m 1 1 ;; m22 <- mat_at D D m 2 2 ;;
  m01 <- mat_at D D m 0 1 ;; m10 <- mat_at D D m 1 0 ;; m02 <- mat_at D D m 0 2 ;;
  m20 <- mat_at D D m 2 0 ;; m12 <- mat_at D D m 1 2 ;; m21 <- mat_at D D m 2 1 ;;
  let trace := m00 +' m11 +' m22 +' sone in
  if sltb (slit 1 100000) trace then
    r <- ssqrt trace ;; s <- sdiv shalf r ;;
    q <- wr q 0 ((m21 -' m12) *' s) ;;
    q <- wr q 1 ((m02 -' m20) *' s) ;;
    q <- wr q 2 ((m10 -' m01) *' s) ;;
    w <- sdiv (slit 1 4) s ;; wr q 3 w
  else
    largest <- vec_find_max_index [m00; m11; m22] ;;
    if largest =? 0 then
      r <- ssqrt (sone +' m00 -' m11 -' m22) ;; s <- sdiv shalf r ;;
      x <- sdiv (slit 1 4) s ;; q <- wr q 0 x ;;
      q <- wr q 1 ((m01 +' m10) *' s) ;;
      q <- wr q 2 ((m02 +' m20) *' s) ;;
      wr q 3 ((m12 -' m21) *' s)
    else if largest =? 1 then
      r <- ssqrt (sone +' m11 -' m00 -' m22) ;; s <- sdiv shalf r ;;
      q <- wr q 0 ((m01 +' m10) *' s) ;;
      y <- sdiv (slit 1 4) s ;; q <- wr q 1 y ;;
      q <- wr q 2 ((m12 +' m21) *' s) ;;
      wr q 3 ((m02 -' m20) *' s)
    else if largest =? 2 then
      r <- ssqrt (sone +' m22 -' m00 -' m11) ;; s <- sdiv shalf r ;;
      q <- wr q 0 ((m02 +' m20) *' s) ;;
      q <- wr q 1 ((m12 +' m21) *' s) ;;
      z <- sdiv (slit 1 4) s ;; q <- wr q 2 z ;;
      wr q 3 ((m01 -' m10) *' s)
    else UB.

(** quaternion.hpp:922-963 slerp( a, p, q, epsilon ). *)
Context {TT : Trig T} {AT : Atan2 T}.
Definition q_slerp (a : T) p q (epsilon : T) : res (list T) :=
  px <- q_get_normalized p ;;
  qx <- q_get_normalized q ;;
  cosine <- q_dot px qx ;;
  '(cosine, qx) <- (if sltb cosine szero then qx <- q_neg qx ;; Ok (sopp cosine, qx) else Ok (cosine, qx)) ;;
  let abs_cos := sabs cosine in
  let one_x := sone -' epsilon in
  if sltb abs_cos one_x then
    sine <- ssqrt (sone -' cosine *' cosine) ;;
    let angle := satan2 sine cosine in
    coeff1 <- sdiv (ssin ((sone -' a) *' angle)) sine ;;
    coeff2 <- sdiv (ssin (a *' angle)) sine ;;
    qx <- q_mul_assign_s qx coeff2 ;;
    px <- q_mul_assign_s px coeff1 ;;
    q_add_assign px (Val qx)
  else
    px <- q_mul_assign_s px (sone -' a) ;;
    qx <- q_mul_assign_s qx a ;;
    px <- q_add_assign px (Val qx) ;;
    '(_, px) <- q_normalize px ;; Ok px.
End Quaternion.
