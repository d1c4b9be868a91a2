(** lowpass_filter.hpp with its own types: the smooth factor is a float, the
    running weight a double, and the value type T is double, float or a Vector. *)
From Coq Require Import ZArith.
From Flocq Require Import IEEE754.BinarySingleNaN IEEE754.Binary IEEE754.Bits.
From Verif Require Import Base Scalar InstF InstF32 MVector MFloat.
Import ListNotations.

Section Filter.
Context {V : Type} (blend : V -> V -> f64 -> res V).

(** lowpass_filter.hpp:84-86 the members. *)
Record lpfilter := { ft_data : list V; ft_factor : f32; ft_value : V }.
(** lowpass_filter.hpp:55 LowpassFilter( const float F ). *)
Definition ft_make (F : f32) (value0 : V) : lpfilter := {| ft_data := []; ft_factor := F; ft_value := value0 |}.
(** lowpass_filter.hpp:94-95 while( _data.size() > M ) _data.pop_back(): at most
    one iteration per element. *)
Fixpoint ft_trim (fuel M : nat) (data : list V) : list V :=
  match fuel with
  | O => data
  | S fuel => if M <? length data then ft_trim fuel M (removelast data) else data
  end.
(** lowpass_filter.hpp:102-106 the loop, _value = _value * (1 - weight) + x * weight where x is the
    element at the iterator, then weight *= _smooth_factor, where the product of a double and a float
    is a double. *)
Fixpoint ft_loop (factor : f32) (weight : f64) (value : V) (rest : list V) : res V :=
  match rest with
  | [] => Ok value
  | x :: rest => v <- blend value x weight ;; ft_loop factor (b64_mult mode_NE weight (f64_of_f32 factor)) v rest
  end.
(** lowpass_filter.hpp:90-109 add(): the new state and the returned copy.  With
    M = 0 the dereferenced iterator is end(): UB. *)
Definition ft_add (M : nat) (f : lpfilter) (value : V) : res (lpfilter * V) :=
  let data := value :: ft_data f in
  let data := ft_trim (length data) M data in
  match data with
  | [] => UB
  | x :: rest =>
      v <- ft_loop (ft_factor f) (f64_of_f32 (ft_factor f)) x rest ;;
      Ok ({| ft_data := data; ft_factor := ft_factor f; ft_value := v |}, v)
  end.
(** lowpass_filter.hpp:62-68 get(), operator->, operator*. *)
Definition ft_get (f : lpfilter) : V := ft_value f.
(** lowpass_filter.hpp:111-115 set_smooth_factor(). *)
Definition ft_set_smooth_factor (f : lpfilter) (x : f32) : lpfilter :=
  {| ft_data := ft_data f; ft_factor := x; ft_value := ft_value f |}.
End Filter.
Arguments lpfilter V : clear implicits.

(** lowpass_filter.hpp:104 for T = double: everything is double. *)
Definition blend_double (value x weight : f64) : res f64 :=
  Ok (b64_plus mode_NE (b64_mult mode_NE value (b64_minus mode_NE f64_one weight)) (b64_mult mode_NE x weight)).
(** lowpass_filter.hpp:104 for T = float: double arithmetic, the assignment to
    [_value] rounds to float. *)
Definition blend_float (value x : f32) (weight : f64) : res f32 :=
  Ok (f32_of_f64 (b64_plus mode_NE (b64_mult mode_NE (f64_of_f32 value) (b64_minus mode_NE f64_one weight)) (b64_mult mode_NE (f64_of_f32 x) weight))).
Section Vec.
Context {cfg : Cfg}.
(** lowpass_filter.hpp:104 for T = Vector< n, double >: vector.hpp:841-849
    operator*( T ) and 776-784 operator+. *)
Definition blend_vec_double (n : nat) (value x : list f64) (weight : f64) : res (list f64) :=
  a <- vec_mul_s (T := f64) (ST := F64Scalar) n value (b64_minus mode_NE f64_one weight) ;;
  b <- vec_mul_s (T := f64) (ST := F64Scalar) n x weight ;;
  vec_add (T := f64) (ST := F64Scalar) n a b.
(** lowpass_filter.hpp:104 for T = Vector< n, float >: both factors are converted
    to float in the call of operator*( T ). *)
Definition blend_vec_float (n : nat) (value x : list f32) (weight : f64) : res (list f32) :=
  a <- vec_mul_s (T := f32) (ST := F32Scalar) n value (f32_of_f64 (b64_minus mode_NE f64_one weight)) ;;
  b <- vec_mul_s (T := f32) (ST := F32Scalar) n x (f32_of_f64 weight) ;;
  vec_add (T := f32) (ST := F32Scalar) n a b.
End Vec.
