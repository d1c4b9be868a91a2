(** Specification vocabulary for IEEE floats as the numbers they denote.
    Independent of the model of vmmlib. *)
From Coq Require Import ZArith Reals Bool.
From Flocq Require Import Core.Core IEEE754.Binary IEEE754.Bits.
From Verif Require Import InstF32.

(** Two floats are the same object bit for bit (so 0 and -0 differ), except
    that all NaNs count as one. *)
Definition same (x y : f32) : Prop :=
  x = y \/ (is_nan 24 128 x = true /\ is_nan 24 128 y = true).

(** What a float stands for; 0 and -0 are the same number. *)
Inductive number := NotANumber | Infinity (negative : bool) | Number (r : R).
Definition value (x : f32) : number :=
  match x with
  | B754_nan _ _ _ _ _ => NotANumber
  | B754_infinity _ _ s => Infinity s
  | _ => Number (B2R 24 128 x)
  end.
Definition negated (a : number) : number :=
  match a with NotANumber => NotANumber | Infinity s => Infinity (negb s) | Number r => Number (- r) end.
(** The order of the extended reals; false as soon as a NaN is involved. *)
Definition at_most (a b : number) : Prop :=
  match a, b with
  | NotANumber, _ | _, NotANumber => False
  | Infinity true, _ | _, Infinity false => True
  | Infinity false, _ | _, Infinity true => False
  | Number x, Number y => (x <= y)%R
  end.
