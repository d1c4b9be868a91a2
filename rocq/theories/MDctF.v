(** Matrix::set_dct for T = double and T = float. *)
From Coq Require Import ZArith List.
From Flocq Require Import Core.Core IEEE754.BinarySingleNaN IEEE754.Binary IEEE754.Bits.
From Verif Require Import InstF InstF32 MMatrix MLit MFloat MPersp.

(** size_t arithmetic wraps at 2^64; the result is converted to double (matrix.hpp:2570, 2579). *)
Definition f64_of_size (k : nat) : f64 := f64_of_Z (Z.of_nat k mod 2 ^ 64).
(** matrix.hpp:2570, 2575-2576: num_rows and the weight of a row, in double. *)
Definition dct_weight (M row : nat) : f64 :=
  let num_rows := f64_of_size M in
  if (row =? 0)%nat then b64_sqrt mode_NE (b64_div mode_NE (f64_of_Z 1) num_rows) else b64_sqrt mode_NE (b64_div mode_NE (f64_of_Z 2) num_rows).
(** matrix.hpp:2579-2581: the value of a cell, in double. *)
Definition dct_value {TT : Trig f64} (M row col : nat) : f64 :=
  let fill_value := b64_div mode_NE (b64_mult mode_NE (f64_of_size ((2 * col + 1) * row)) f64_pi) (f64_of_size (2 * M)) in
  let fill_value := scos fill_value in
  b64_mult mode_NE fill_value (dct_weight M row).
(** matrix.hpp:2566-2585 set_dct(), T = double. *)
Definition matd_set_dct {cfg : Cfg} {TT : Trig f64} (M N : nat) (m : list f64) : res (list f64) :=
  for_ 0 M (fun row => for_ 0 N (fun col m => mat_put M N m row col (dct_value M row col))) m.
(** matrix.hpp:2566-2585 set_dct(), T = float: the double is narrowed at line 2582. *)
Definition matf_set_dct {cfg : Cfg} {TT : Trig f64} (M N : nat) (m : list f32) : res (list f32) :=
  for_ 0 M (fun row => for_ 0 N (fun col m => mat_put M N m row col (f32_of_f64 (dct_value M row col)))) m.
