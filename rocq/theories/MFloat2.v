(** More members of Matrix< M, N, float > and Vector< M, float > that compute in
    double and round the result to float (or return the double). *)
From Coq Require Import ZArith.
From Flocq Require Import Core.Core IEEE754.BinarySingleNaN IEEE754.Binary IEEE754.Bits.
From Verif Require Import Base Scalar InstF InstF32 MVector MMatrix MFloat.
Import ListNotations.

(** int -> double, exact for 32-bit integers (C++ [conv.fpint]). *)
Definition f64_of_Z (z : Z) : f64 := binary_normalize 53 1024 eq_refl eq_refl mode_NE z 0 false.

Section F.
Context {cfg : Cfg}.
(** The double -1.0 + 2.0 * ( double( rand( )) / double( RAND_MAX )):
    vector.hpp:1761-1762, matrix.hpp:2600-2602. *)
Definition random_cell (k RAND_MAX : Z) : f64 :=
  b64_plus mode_NE (b64_opp f64_one) (b64_mult mode_NE f64_two (b64_div mode_NE (f64_of_Z k) (f64_of_Z RAND_MAX))).
(** vector.hpp:1752-1763 Vector< M, float >::set_random( seed ). *)
Definition vecf_set_random (rnd : Z -> nat -> Z) (RAND_MAX : Z) (M : nat) (v : list f32) (seed : Z) (s : rng) : res (list f32 * rng) :=
  let s := if (0 <=? seed)%Z then (seed, 0) else s in
  for_ 0 M (fun i '(v, s) =>
    let '(k, s) := rand_next rnd s in
    v <- vset M v i (f32_of_f64 (random_cell k RAND_MAX)) ;; Ok (v, s)) (v, s).
(** matrix.hpp:2588-2604 Matrix< M, N, float >::set_random( seed ). *)
Definition matf_set_random (rnd : Z -> nat -> Z) (RAND_MAX : Z) (M N : nat) (m : list f32) (seed : Z) (s : rng) : res (list f32 * rng) :=
  let s := if (0 <=? seed)%Z then (seed, 0) else s in
  for_ 0 M (fun r => for_ 0 N (fun c '(m, s) =>
    let '(k, s) := rand_next rnd s in
    m <- mat_put M N m r c (f32_of_f64 (random_cell k RAND_MAX)) ;; Ok (m, s))) (m, s).

(** matrix.hpp:2247-2259 Matrix< M, N, float >::frobenius_norm(): the square is
    a float product, sum and root are double. *)
Definition matf_frobenius (M N : nat) (m : list f32) : res f64 :=
  s <- for_ 0 (M * N) (fun i acc => a <- rd m i ;; Ok (b64_plus mode_NE acc (f64_of_f32 (b32_mult mode_NE a a)))) f64_zero ;;
  Ok (b64_sqrt mode_NE s).
(** matrix.hpp:2537-2549 Matrix< M, N, float >::sum_elements(). *)
Definition matf_sum_elements (M N : nat) (m : list f32) : res f64 :=
  for_ 0 (M * N) (fun i acc => a <- rd m i ;; Ok (b64_plus mode_NE acc (f64_of_f32 a))) f64_zero.
(** matrix.hpp:526-562 Matrix< M, N, float >::convolve( kernel ): the product is a
    float, the sum a double that is rounded to float when stored.  Indices as in
    [mat_convolve]. *)
Definition matf_convolve (M N U V : nat) (m kernel : list f32) : res (list f32) :=
  let ST := F32Scalar in
  temp <- mat_default M N ;;
  temp <- for_ 0 N (fun y => for_ 0 M (fun x temp =>
    sum <- for_ 0 V (fun j sum =>
      let srcy := clampZ (Z.of_nat y - Z.of_nat (V / 2) + Z.of_nat j) N in
      for_ 0 U (fun i sum =>
        let srcx := clampZ (Z.of_nat x - Z.of_nat (U / 2) + Z.of_nat i) M in
        k <- mat_at U V kernel j i ;; a <- mat_at M N m srcy srcx ;;
        Ok (b64_plus mode_NE sum (f64_of_f32 (b32_mult mode_NE k a)))) sum) f64_zero ;;
    mat_put M N temp y x (f32_of_f64 sum))) temp ;;
  mat_assign M N m (Val temp).
End F.
