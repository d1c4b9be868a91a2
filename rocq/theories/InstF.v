(** IEEE-754 binary64, round to nearest even (Flocq). *)
From Coq Require Import ZArith Reals.
From Flocq Require Import Core.Core IEEE754.BinarySingleNaN IEEE754.Binary IEEE754.Bits.
From Verif Require Export Scalar.

Definition f64 := binary64.
Definition f64_of_bits (z : Z) : f64 := b64_of_bits z.
Definition Bleb (x y : f64) : bool :=
  match b64_compare x y with Some Lt | Some Eq => true | _ => false end.
Definition Bltb (x y : f64) : bool :=
  match b64_compare x y with Some Lt => true | _ => false end.
Definition Beqb (x y : f64) : bool :=
  match b64_compare x y with Some Eq => true | _ => false end.

Definition f64_zero : f64 := b64_of_bits 0.
Definition f64_one : f64 := b64_of_bits 0x3FF0000000000000.
Definition f64_half : f64 := b64_of_bits 0x3FE0000000000000.
Definition f64_two : f64 := b64_of_bits 0x4000000000000000.
Definition f64_max : f64 := b64_of_bits 0x7FEFFFFFFFFFFFFF.
Definition f64_lowest : f64 := b64_of_bits 0xFFEFFFFFFFFFFFFF.
Definition f64_eps : f64 := b64_of_bits 0x3CB0000000000000.
Definition f64_nan : f64 := b64_of_bits 0x7FF8000000000000.
Definition f64_inf : f64 := b64_of_bits 0x7FF0000000000000.
Definition f64_neg_zero : f64 := b64_of_bits 0x8000000000000000.

Definition F64Scalar : Scalar f64 := {|
  szero := f64_zero;
  sone := f64_one;
  shalf := f64_half;
  stwo := f64_two;
  sadd := b64_plus mode_NE;
  ssub := b64_minus mode_NE;
  smul := b64_mult mode_NE;
  sopp := b64_opp;
  sabs := b64_abs;
  sdiv a b := Ok (b64_div mode_NE a b);
  ssqrt a := Ok (b64_sqrt mode_NE a);
  sltb := Bltb;
  sleb := Bleb;
  seqb := Beqb;
  sbits a b := Z.eqb (bits_of_b64 a) (bits_of_b64 b);
  smax := f64_max;
  slowest := f64_lowest;
  seps := f64_eps
|}.
