(** Integer instances. *)
From Verif Require Export Scalar.
Local Open Scope Z_scope.

(** Signed two's complement integers of [k+1] bits (int: k = 31).  Signed
    overflow is undefined behaviour in C++; it is represented by the poison
    value [None], which every later operation propagates: a result free of
    poison is one computed without overflow.  Narrower types than int are
    promoted before arithmetic and are not described by this instance.  Square
    roots go through double in the code and are not modelled ([UB]). *)
Definition in_range (k : Z) (z : Z) : bool := (- 2 ^ k <=? z) && (z <? 2 ^ k).
Definition clip (k z : Z) : option Z := if in_range k z then Some z else None.
Definition lift2 (k : Z) (op : Z -> Z -> Z) (a b : option Z) : option Z :=
  match a, b with Some x, Some y => clip k (op x y) | _, _ => None end.
Definition lift1 (k : Z) (op : Z -> Z) (a : option Z) : option Z :=
  match a with Some x => clip k (op x) | None => None end.
Definition cmp2 (op : Z -> Z -> bool) (a b : option Z) : bool :=
  match a, b with Some x, Some y => op x y | _, _ => false end.

Definition SIntScalar (k : Z) : Scalar (option Z) := {|
  szero := Some 0;
  sone := Some 1;
  shalf := Some 0;
  stwo := Some 2;
  sadd := lift2 k Z.add;
  ssub := lift2 k Z.sub;
  smul := lift2 k Z.mul;
  sopp := lift1 k Z.opp;
  sabs := lift1 k Z.abs;
  sdiv a b :=
    match a, b with
    | Some x, Some y =>
        if Z.eqb y 0 then UB
        else if in_range k (Z.quot x y) then Ok (Some (Z.quot x y)) else UB
    | _, _ => UB
    end;
  ssqrt _ := UB;
  sltb := cmp2 Z.ltb;
  sleb := cmp2 Z.leb;
  seqb := cmp2 Z.eqb;
  sbits := cmp2 Z.eqb;
  smax := Some (2 ^ k - 1);
  slowest := Some (- (2 ^ k - 1));
  seps := Some 0
|}.

(** Unsigned integers of [k] bits: arithmetic modulo 2^k. *)
Definition UIntScalar (k : Z) : Scalar Z := {|
  szero := 0;
  sone := 1;
  shalf := 0;
  stwo := 2;
  sadd a b := (a + b) mod 2 ^ k;
  ssub a b := (a - b) mod 2 ^ k;
  smul a b := (a * b) mod 2 ^ k;
  sopp a := (- a) mod 2 ^ k;
  sabs a := a;
  sdiv a b := if Z.eqb b 0 then UB else Ok (a / b);
  ssqrt _ := UB;
  sltb := Z.ltb;
  sleb := Z.leb;
  seqb := Z.eqb;
  sbits := Z.eqb;
  smax := 2 ^ k - 1;
  slowest := (- (2 ^ k - 1)) mod 2 ^ k;
  seps := 0
|}.

(** Unbounded integers, for witnesses in which no overflow occurs. *)
Definition ZScalar : Scalar Z := {|
  szero := 0;
  sone := 1;
  shalf := 0;
  stwo := 2;
  sadd := Z.add;
  ssub := Z.sub;
  smul := Z.mul;
  sopp := Z.opp;
  sabs := Z.abs;
  sdiv a b := if Z.eqb b 0 then UB else Ok (Z.quot a b);
  ssqrt _ := UB;
  sltb := Z.ltb;
  sleb := Z.leb;
  seqb := Z.eqb;
  sbits := Z.eqb;
  smax := 2 ^ 31 - 1;
  slowest := - (2 ^ 31 - 1);
  seps := 0
|}.
