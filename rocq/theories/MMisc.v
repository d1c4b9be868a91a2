(** Models of vmmlib/qr_decomposition.hpp, vmmlib/lowpass_filter.hpp and
    vmmlib/math.hpp. *)
From Verif Require Export MMatrix.

Section Misc.
Context {cfg : Cfg} {T : Type} {ST : Scalar T}.
Local Notation "a *' b" := (smul a b) (at level 40, left associativity).
Local Notation "a +' b" := (sadd a b) (at level 50, left associativity).
Local Notation "a -' b" := (ssub a b) (at level 50, left associativity).

(** ** qr_decomposition.hpp *)
(** qr_decomposition.hpp:52-116 qr_decompose_gram_schmidt(): the branch that is
    compiled (#else, 95-114).  The state of the outer loop is (Q, R, v, q_column,
    a_column); A is the local copy and is not modified by this branch.  The loop
    counters are unsigned int in the code, nat here (no wrap below 2^32
    columns).  Q and R are distinct from A_. *)
Definition qr_state : Type := (list T * list T * list T * list T * list T)%type.
Definition qr_inner (M N : nat) (A : list T) (j i : nat) (s : qr_state) : res qr_state :=
  let '(Q, R, v, q, a) := s in
  q <- mat_get_column_into M M Q i q ;;
  a <- mat_get_column_into M N A j a ;;
  d <- vec_dot M q a ;; R <- mat_put N N R i j d ;;
  r <- mat_at N N R i j ;; qr <- vec_mul_s M q r ;;
  v <- vec_sub_assign M v (Val qr) ;;
  Ok (Q, R, v, q, a).
Definition qr_column (M N : nat) (A : list T) (j : nat) (s : qr_state) : res qr_state :=
  let '(Q, R, v, q, a) := s in
  v <- mat_get_column_into M N A j v ;;
  s <- for_ 0 j (qr_inner M N A j) (Q, R, v, q, a) ;;
  let '(Q, R, v, q, a) := s in
  len <- vec_length M v ;; R <- mat_put N N R j j len ;;
  r <- mat_at N N R j j ;; vr <- vec_div_s M v r ;;
  Q <- mat_set_column M M Q j vr ;;
  Ok (Q, R, v, q, a).
Definition qr_decompose (M N : nat) (A Q R : list T) : res (list T * list T) :=
  Q <- mat_assign_value M M Q szero ;; R <- mat_assign_value N N R szero ;;
  s <- for_ 0 N (qr_column M N A) (Q, R, vec_default M, vec_default M, vec_default M) ;;
  let '(Q, R, _, _, _) := s in Ok (Q, R).

(** ** lowpass_filter.hpp *)
(** lowpass_filter.hpp:84-86 the members: the values, newest first, the smooth
    factor and the filtered value. *)
Record lowpass := { lp_data : list T; lp_factor : T; lp_value : T }.
(** lowpass_filter.hpp:55 LowpassFilter( F ); the value is that of a
    default-constructed T. *)
Definition lp_make (F value0 : T) : lowpass := {| lp_data := []; lp_factor := F; lp_value := value0 |}.
(** lowpass_filter.hpp:94-95 while( _data.size() > M ) _data.pop_back(): at most
    one iteration per element. *)
Fixpoint lp_trim (fuel M : nat) (data : list T) : list T :=
  match fuel with
  | O => data
  | S fuel => if M <? length data then lp_trim fuel M (removelast data) else data
  end.
(** lowpass_filter.hpp:102-106 the blending loop.  [weight] is a double and the
    factor a float in the code; one scalar type here. *)
Fixpoint lp_blend (factor weight value : T) (rest : list T) : T :=
  match rest with
  | [] => value
  | x :: rest => lp_blend factor (weight *' factor) (value *' (sone -' weight) +' x *' weight) rest
  end.
(** lowpass_filter.hpp:90-109 add(): the new state and the returned copy.  With
    M = 0 the dereferenced iterator is end(): UB. *)
Definition lp_add (M : nat) (f : lowpass) (value : T) : res (lowpass * T) :=
  let data := value :: lp_data f in
  let data := lp_trim (length data) M data in
  match data with
  | [] => UB
  | x :: rest =>
      let v := lp_blend (lp_factor f) (lp_factor f) x rest in
      Ok ({| lp_data := data; lp_factor := lp_factor f; lp_value := v |}, v)
  end.
(** lowpass_filter.hpp:62-68 get(), operator->, operator*. *)
Definition lp_get (f : lowpass) : T := lp_value f.
(** lowpass_filter.hpp:111-115 set_smooth_factor(). *)
Definition lp_set_smooth_factor (f : lowpass) (x : T) : lowpass :=
  {| lp_data := lp_data f; lp_factor := x; lp_value := lp_value f |}.

(** ** math.hpp *)
(** math.hpp:49-53 squared(). *)
Definition math_squared (a : T) : T := if seqb a szero then szero else a *' a.
(** math.hpp:60-69 pythag(). *)
Definition math_pythag (a b : T) : res T :=
  let a := sabs a in
  let b := sabs b in
  if sltb b a then
    q <- sdiv b a ;; s <- ssqrt (sone +' math_squared q) ;; Ok (a *' s)
  else if seqb b szero then Ok szero
  else q <- sdiv a b ;; s <- ssqrt (sone +' math_squared q) ;; Ok (b *' s).
(** math.hpp:73-77 sign(). *)
Definition math_sign (a b : T) : T := if sleb szero b then sabs a else sopp (sabs a).
(** math.hpp:81-88, 91-98 abs_less, abs_greater: the bool is converted to T. *)
Definition math_abs_less (a b : T) : T := if sltb (sabs a) (sabs b) then sone else szero.
Definition math_abs_greater (a b : T) : T := if sltb (sabs b) (sabs a) then sone else szero.
End Misc.
Arguments lowpass : clear implicits.
