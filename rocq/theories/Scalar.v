(** The operations the vmmlib templates use on their element type [T]. *)
From Verif Require Export Base.

Class Scalar (T : Type) := {
  szero : T;                       (* T( 0 ), 0.0 converted to T *)
  sone : T;                        (* static_cast< T >( 1.0 ) *)
  shalf : T;                       (* static_cast< T >( 0.5 ); 0 for integers *)
  stwo : T;                        (* 2.0 converted to T *)
  sadd : T -> T -> T;
  ssub : T -> T -> T;
  smul : T -> T -> T;
  sopp : T -> T;
  sabs : T -> T;                   (* std::abs / fabs *)
  sdiv : T -> T -> res T;          (* UB for integer x/0, NonFin for real x/0 *)
  ssqrt : T -> res T;              (* std::sqrt *)
  sltb : T -> T -> bool;           (* a < b; also a > b as [sltb b a] *)
  sleb : T -> T -> bool;           (* a <= b; also a >= b as [sleb b a] *)
  seqb : T -> T -> bool;           (* a == b *)
  sbits : T -> T -> bool;          (* equal object representations (memcmp) *)
  smax : T;                        (* std::numeric_limits< T >::max() *)
  slowest : T;                     (* - std::numeric_limits< T >::max() in T *)
  seps : T                         (* std::numeric_limits< T >::epsilon() *)
}.

(** Trigonometric functions of <cmath>, for the functions that need them. *)
Class Trig (T : Type) := {
  ssin : T -> T;
  scos : T -> T;
  stan : T -> T
}.

(** [T acc = 0; for( i = 0; i < n; ++i ) acc += f( i );] as a mathematical
    term: the left-to-right sum starting from zero. *)
Fixpoint ssum {T} `{Scalar T} (n : nat) (f : nat -> T) : T :=
  match n with
  | O => szero
  | S n' => sadd (ssum n' f) (f n')
  end.
