(** Decimal literals in double: the literal p/q of the source denotes the double
    nearest to the rational p/q (ISO C++ lex.fcon, round to nearest); for
    integers p, q below 2^53, which are doubles, that is the correctly rounded
    quotient.  Used by the double runs of quaternion.hpp:274-349, whose literals
    are QUATERNION_TRACE_EPSILON = 1e-5 (quaternion.hpp:55) and 0.25. *)
From Coq Require Import ZArith.
From Flocq Require Import Core.Core IEEE754.BinarySingleNaN IEEE754.Binary IEEE754.Bits.
From Verif Require Import InstF MQuaternion.

Definition f64_of_Z (z : Z) : f64 := binary_normalize 53 1024 eq_refl eq_refl mode_NE z 0 false.
#[export] Instance F64Lit : Lit f64 := { slit p q := b64_div mode_NE (f64_of_Z p) (f64_of_Z (Zpos q)) }.
