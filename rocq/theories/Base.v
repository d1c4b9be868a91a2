(** Outcomes, loops, raw storage.  Nothing here is specific to one vmmlib
    function; the M*.v files use these to transcribe the C++ code. *)
From Coq Require Export List Arith Lia Bool ZArith.
Export ListNotations.

(** The outcome of running a piece of C++ code.
    [Throw]  a C++ exception leaves the function (VMMLIB_ERROR,
             vmmlib/exception.hpp:88-101).
    [UB]     undefined behaviour: access outside an array, integer division by
             zero.
    [NonFin] used by the real-number instance only: the floating-point operation
             would deliver an infinity or a NaN (x/0, sqrt of a negative). *)
Inductive res (A : Type) : Type :=
| Ok (a : A)
| Throw
| UB
| NonFin.
Arguments Ok {A} a.
Arguments Throw {A}.
Arguments UB {A}.
Arguments NonFin {A}.

Definition bind {A B} (m : res A) (k : A -> res B) : res B :=
  match m with
  | Ok a => k a
  | Throw => Throw
  | UB => UB
  | NonFin => NonFin
  end.

Notation "x <- m ;; k" := (bind m (fun x => k))
  (at level 61, m at next level, right associativity).
Notation "' pat <- m ;; k" := (bind m (fun x => match x with pat => k end))
  (at level 61, pat pattern, m at next level, right associativity).

(** [for( size_t i = lo; i < hi; ++i ) body]: the state is threaded through. *)
Fixpoint for_n {S : Type} (n i : nat) (body : nat -> S -> res S) (s : S)
  : res S :=
  match n with
  | O => Ok s
  | Datatypes.S n' => s' <- body i s ;; for_n n' (Datatypes.S i) body s'
  end.
Definition for_ {S : Type} (lo hi : nat) (body : nat -> S -> res S) (s : S)
  : res S := for_n (hi - lo) lo body s.

(** The same loop with an early [return] in its body: [inl] continues with the
    new state, [inr] leaves the enclosing function. *)
Fixpoint forr_n {S A : Type} (n i : nat) (body : nat -> S -> res (S + A))
  (s : S) : res (S + A) :=
  match n with
  | O => Ok (inl s)
  | Datatypes.S n' =>
      x <- body i s ;;
      match x with
      | inl s' => forr_n n' (Datatypes.S i) body s'
      | inr a => Ok (inr a)
      end
  end.
Definition forr {S A : Type} (lo hi : nat) (body : nat -> S -> res (S + A))
  (s : S) : res (S + A) := forr_n (hi - lo) lo body s.

(** Raw C arrays: reading or writing outside is undefined behaviour. *)
Definition rd {A} (l : list A) (i : nat) : res A :=
  match nth_error l i with Some x => Ok x | None => UB end.

Fixpoint upd {A} (l : list A) (i : nat) (x : A) : list A :=
  match l, i with
  | [], _ => []
  | _ :: t, O => x :: t
  | y :: t, Datatypes.S i' => y :: upd t i' x
  end.

Definition wr {A} (l : list A) (i : nat) (x : A) : res (list A) :=
  if i <? length l then Ok (upd l i x) else UB.

(** [memcpy( dst, src, n )] / [std::copy] of [n] elements, element by element. *)
Definition copy_n {A} (n : nat) (src : list A) (so : nat) (dst : list A)
  (d : nat) : res (list A) :=
  for_ 0 n (fun i dst => x <- rd src (so + i) ;; wr dst (d + i) x) dst.

(** An operand of a member function that writes [*this]: either another object
    or [*this] itself, which is then read through its current contents. *)
Inductive arg (A : Type) : Type :=
| Val (l : list A)
| Self.
Arguments Val {A} l.
Arguments Self {A}.
Definition argl {A} (this : list A) (a : arg A) : list A :=
  match a with Val l => l | Self => this end.

(** Build configuration: VMMLIB_SAFE_ACCESSORS
    (vmmlib/vmmlib_config.hpp:39-60). *)
Class Cfg := { safe : bool }.
