(** IEEE-754 binary32 (C++ float), round to nearest even (Flocq).  Operations
    on two floats are done in float (FLT_EVAL_METHOD 0); where vmmlib mixes
    float and double literals the function in question is modelled separately
    (see MFloat.v). *)
From Coq Require Import ZArith Reals.
From Flocq Require Import Core.Core IEEE754.BinarySingleNaN IEEE754.Binary IEEE754.Bits.
From Verif Require Export Scalar.

Definition f32 := binary32.
Definition Bleb32 (x y : f32) : bool :=
  match b32_compare x y with Some Lt | Some Eq => true | _ => false end.
Definition Bltb32 (x y : f32) : bool :=
  match b32_compare x y with Some Lt => true | _ => false end.
Definition Beqb32 (x y : f32) : bool :=
  match b32_compare x y with Some Eq => true | _ => false end.

Definition f32_zero : f32 := b32_of_bits 0.
Definition f32_one : f32 := b32_of_bits 0x3F800000.
Definition f32_half : f32 := b32_of_bits 0x3F000000.
Definition f32_two : f32 := b32_of_bits 0x40000000.
Definition f32_max : f32 := b32_of_bits 0x7F7FFFFF.
Definition f32_lowest : f32 := b32_of_bits 0xFF7FFFFF.
Definition f32_eps : f32 := b32_of_bits 0x34000000.
Definition f32_inf : f32 := b32_of_bits 0x7F800000.
Definition f32_neg_zero : f32 := b32_of_bits 0x80000000.

Definition F32Scalar : Scalar f32 := {|
  szero := f32_zero;
  sone := f32_one;
  shalf := f32_half;
  stwo := f32_two;
  sadd := b32_plus mode_NE;
  ssub := b32_minus mode_NE;
  smul := b32_mult mode_NE;
  sopp := b32_opp;
  sabs := b32_abs;
  sdiv a b := Ok (b32_div mode_NE a b);
  ssqrt a := Ok (b32_sqrt mode_NE a);
  sltb := Bltb32;
  sleb := Bleb32;
  seqb := Beqb32;
  sbits a b := Z.eqb (bits_of_b32 a) (bits_of_b32 b);
  smax := f32_max;
  slowest := f32_lowest;
  seps := f32_eps
|}.
