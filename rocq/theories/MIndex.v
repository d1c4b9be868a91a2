(** Index arithmetic in size_t, and what a call that throws leaves behind.
    [W] is 2^64, the number of values of size_t. *)
From Verif Require Export MMatrix.
Local Open Scope nat_scope.

Section Index.
Context {cfg : Cfg} {T : Type} {ST : Scalar T}.
Implicit Types m : list T.
(** The built-in operator+ on size_t (used by all lines cited below). *)
Definition zadd (W a b : nat) : nat := (a + b) mod W.
(** matrix.hpp:1639-1660 get_sub_matrix(), with the sums of offsets computed in
    size_t (MMatrix.v [mat_get_sub] computes them without bound). *)
Definition mat_get_sub_w (W M N O P : nat) m (result : list T) (ro co : nat) : res (list T) :=
  if ((M <? zadd W O ro) || (N <? zadd W P co)) && safe then Throw
  else mat_fill_rc O P (fun r c _ => mat_at M N m (zadd W ro r) (zadd W co c)) result.
(** matrix.hpp:1664-1680 set_sub_matrix(), sums in size_t; the result is the
    contents of the matrix when control leaves the function and whether it left
    by an exception (at() throws before the assignment to the cell). *)
Definition mat_set_sub_w (W M N O P : nat) m (sub : list T) (ro co : nat) : res (list T * bool) :=
  s <- forr 0 O (fun r m =>
         forr 0 P (fun c m =>
           x <- mat_at O P sub r c ;;
           match mat_put M N m (zadd W ro r) (zadd W co c) x with
           | Ok m' => Ok (inl m')
           | Throw => Ok (inr m)
           | UB => UB
           | NonFin => NonFin
           end) m) m ;;
  Ok (match s with inl m' => (m', false) | inr m' => (m', true) end).
End Index.
