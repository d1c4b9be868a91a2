(** Float elements on a system where every operation on them is carried out in
    double and the result is rounded to float when it is stored. *)
From Coq Require Import ZArith.
From Flocq Require Import Core.Core IEEE754.BinarySingleNaN IEEE754.Binary IEEE754.Bits.
From Verif Require Import Base Scalar InstF InstF32 MVector MQuaternion MFloat.

(** Both operands are converted to double (C++ [expr.arith.conv]), the result is
    converted back.  This is how the library computes [1.0 / x] for a float x
    (vector.hpp:1138, frustum_culler.hpp:187, quaternion.hpp:678), and, if the
    unqualified names find only the functions of the C library, sqrt and fabs
    (quaternion.hpp:493, 282, 302, 316, 331, 943; intersection.hpp:108;
    vector.hpp:1327; matrix.hpp:670, 703, 770, 938, 2380-2450; frustum.hpp:421,
    426; frustum_culler.hpp:260-278). *)
Definition via2 (op : f64 -> f64 -> f64) (x y : f32) : f32 := f32_of_f64 (op (f64_of_f32 x) (f64_of_f32 y)).
Definition via1 (op : f64 -> f64) (x : f32) : f32 := f32_of_f64 (op (f64_of_f32 x)).

(** The element type float with all operations, and the comparisons, in double;
    the constants are those of InstF32.v. *)
Definition F32WideScalar : Scalar f32 := {|
  szero := f32_zero;
  sone := f32_one;
  shalf := f32_half;
  stwo := f32_two;
  sadd := via2 (b64_plus mode_NE);
  ssub := via2 (b64_minus mode_NE);
  smul := via2 (b64_mult mode_NE);
  sopp := via1 b64_opp;
  sabs := via1 b64_abs;
  sdiv a b := Ok (via2 (b64_div mode_NE) a b);
  ssqrt a := Ok (via1 (b64_sqrt mode_NE) a);
  sltb a b := Bltb (f64_of_f32 a) (f64_of_f32 b);
  sleb a b := Bleb (f64_of_f32 a) (f64_of_f32 b);
  seqb a b := Beqb (f64_of_f32 a) (f64_of_f32 b);
  sbits a b := Z.eqb (bits_of_b32 a) (bits_of_b32 b);
  smax := f32_max;
  slowest := f32_lowest;
  seps := f32_eps
|}.

(** One comparison [fabsf( a - b ) > delta] of quaternion.hpp:460-463 for
    T = double: the difference is rounded to float for fabsf(), which returns a
    float that is converted back for the comparison. *)
Definition qd_apart (a b delta : f64) : bool :=
  Bltb delta (f64_of_f32 (b32_abs (f32_of_f64 (b64_minus mode_NE a b)))).
(** quaternion.hpp:456-467 Quaternion< double >::is_akin( a, delta ). *)
Definition qd_is_akin (q p : list f64) (delta : f64) : res bool :=
  q4 q (fun x y z w => q4 p (fun x' y' z' w' =>
    Ok (negb (qd_apart w w' delta || qd_apart x x' delta || qd_apart y y' delta || qd_apart z z' delta)))).

(** intersection.hpp:59-62 Intersection< float >( origin, direction ): the
    direction is vmml::normalize( direction ) (vector.hpp:471-477, 1130-1141), whose reciprocal
    length goes through double. *)
Definition rayf_make {cfg : Cfg} (origin direction : list f32) : res (list f32 * list f32) :=
  d <- vecf_normalize 3 direction ;; Ok (origin, snd d).

(** A double literal times a float: the product is a double, the assignment
    rounds it to float (quaternion.hpp:612, 911-917). *)
Definition lit_times (c : f64) (x : f32) : f32 := f32_of_f64 (b64_mult mode_NE c (f64_of_f32 x)).

Section Q.
Context {cfg : Cfg}.
Local Existing Instance F32Scalar.
Local Notation "a *' b" := (smul a b) (at level 40, left associativity).
Local Notation "a +' b" := (sadd a b) (at level 50, left associativity).
Local Notation "a -' b" := (ssub a b) (at level 50, left associativity).
(** quaternion.hpp:578-620 Quaternion< float >::operator*=( Quaternion ), with
    [0.5 * ( tmp_04 + tmp_08 )] in double; 566-573 operator*( Quaternion ). *)
Definition qf_mul_assign (q : list f32) (o : arg f32) : res (list f32) :=
  a <- rd q 3 ;; b <- rd q 0 ;; c <- rd q 1 ;; d <- rd q 2 ;;
  x <- rd (argl q o) 3 ;; y <- rd (argl q o) 0 ;; z <- rd (argl q o) 1 ;; w <- rd (argl q o) 2 ;;
  let t00 := (d -' c) *' (z -' w) in
  let t01 := (a +' b) *' (x +' y) in
  let t02 := (a -' b) *' (z +' w) in
  let t03 := (c +' d) *' (x -' y) in
  let t04 := (d -' b) *' (y -' z) in
  let t05 := (d +' b) *' (y +' z) in
  let t06 := (a +' c) *' (x -' w) in
  let t07 := (a -' c) *' (x +' w) in
  let t08 := t05 +' t06 +' t07 in
  let t09 := lit_times f64_half (t04 +' t08) in
  q <- wr q 3 (t00 +' t09 -' t05) ;;
  q <- wr q 0 (t01 +' t09 -' t08) ;;
  q <- wr q 1 (t02 +' t09 -' t07) ;;
  wr q 2 (t03 +' t09 -' t06).
Definition qf_mul (q p : list f32) : res (list f32) := qf_mul_assign q (Val p).
(** quaternion.hpp:896-920 Quaternion< float >::get_rotation_matrix( M ), with
    [2. * ( ... )] in double; 885-892 the 3 x 3 form. *)
Definition qf_get_rotation_matrix_into (D : nat) (q m : list f32) : res (list f32) :=
  q4 q (fun x y z w =>
    let w2 := w *' w in let x2 := x *' x in let y2 := y *' y in let z2 := z *' z in
    let wx := w *' x in let wy := w *' y in let wz := w *' z in
    let xy := x *' y in let xz := x *' z in let yz := y *' z in
    m <- mat_put D D m 0 0 (w2 +' x2 -' y2 -' z2) ;;
    m <- mat_put D D m 0 1 (lit_times f64_two (xy -' wz)) ;;
    m <- mat_put D D m 0 2 (lit_times f64_two (xz +' wy)) ;;
    m <- mat_put D D m 1 0 (lit_times f64_two (xy +' wz)) ;;
    m <- mat_put D D m 1 1 (w2 -' x2 +' y2 -' z2) ;;
    m <- mat_put D D m 1 2 (lit_times f64_two (yz -' wx)) ;;
    m <- mat_put D D m 2 0 (lit_times f64_two (xz -' wy)) ;;
    m <- mat_put D D m 2 1 (lit_times f64_two (yz +' wx)) ;;
    mat_put D D m 2 2 (w2 -' x2 -' y2 +' z2)).
Definition qf_get_rotation_matrix (q : list f32) : res (list f32) :=
  m <- mat_default 3 3 ;; qf_get_rotation_matrix_into 3 q m.
(** quaternion.hpp:670-680 Quaternion< float >::operator/( a ): [1.0 / a_] in
    double. *)
Definition qf_div_s (q : list f32) (a : f32) : res (list f32) :=
  if Beqb32 a f32_zero then Throw
  else let a := recip_via_double a in q4 q (fun x y z w => Ok (q_make (x *' a) (y *' a) (z *' a) (w *' a))).
End Q.
