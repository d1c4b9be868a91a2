(** Member functions that write one object while reading another, for the case
    where both are the same object, and functions with a [const T&] parameter
    that refers to an element of the object they write.  matrix.hpp, vector.hpp. *)
From Verif Require Export MMatrix.

Section Alias.
Context {cfg : Cfg} {T : Type} {ST : Scalar T}.
Implicit Types m v : list T.

(** matrix.hpp:1263-1275 transpose_to( tM ) with tM the same (square) matrix:
    every read sees the writes before it. *)
Definition mat_transpose_to_self (n : nat) m : res (list T) :=
  for_ 0 n (fun r => for_ 0 n (fun c m =>
    x <- mat_at n n m r c ;; mat_put n n m c r x)) m.

(** matrix.hpp:1277-1298 symmetric_covariance( cov ) with cov the same (square)
    matrix. *)
Definition mat_sym_cov_self (n : nat) m : res (list T) :=
  for_ 0 n (fun row => for_ row n (fun col m =>
    tmp <- for_ 0 n (fun k tmp =>
             a <- mat_at n n m row k ;; b <- mat_at n n m col k ;;
             Ok (sadd tmp (smul a b))) szero ;;
    m <- mat_put n n m row col tmp ;; mat_put n n m col row tmp)) m.

(** One statement inv_.array[ k ] = array[ p ] * x - array[ q ] * y +/- array[ r ] * z
    of matrix.hpp:738-766. *)
Definition inv4_line (m : arg T) (inv : list T) (k p q r : nat) (x y z : T) (plus : bool)
  : res (list T) :=
  a <- rd (argl inv m) p ;; b <- rd (argl inv m) q ;; c <- rd (argl inv m) r ;;
  wr inv k (let d := ssub (smul a x) (smul b y) in
            if plus then sadd d (smul c z) else ssub d (smul c z)).
(** One 2 x 2 determinant array[ p ] * array[ q ] - array[ r ] * array[ s ] of
    matrix.hpp:731-736, 750-755. *)
Definition inv4_det (l : list T) (p q r s : nat) : res T :=
  a <- rd l p ;; b <- rd l q ;; c <- rd l r ;; d <- rd l s ;; Ok (ssub (smul a b) (smul c d)).
(** matrix.hpp:722-780 compute_inverse() 4 x 4, in statement order, so that [m]
    may be the same object as [inv]. *)
Definition mat_inverse4_arg (m : arg T) (inv : list T) (tol : T) : res (bool * list T) :=
  let A := argl inv m in
  t10 <- inv4_det A 2 7 6 3 ;; t11 <- inv4_det A 2 11 10 3 ;; t12 <- inv4_det A 2 15 14 3 ;;
  t13 <- inv4_det A 6 11 10 7 ;; t14 <- inv4_det A 6 15 14 7 ;; t15 <- inv4_det A 10 15 14 11 ;;
  inv <- inv4_line m inv 0  5 9 13  t15 t14 t13 true ;;
  inv <- inv4_line m inv 1  9 13 1  t12 t11 t15 false ;;
  inv <- inv4_line m inv 2  13 5 1  t10 t12 t14 true ;;
  inv <- inv4_line m inv 3  5 1 9   t11 t13 t10 false ;;
  inv <- inv4_line m inv 4  8 4 12  t14 t15 t13 false ;;
  inv <- inv4_line m inv 5  0 8 12  t15 t12 t11 true ;;
  inv <- inv4_line m inv 6  4 12 0  t12 t10 t14 false ;;
  inv <- inv4_line m inv 7  0 4 8   t13 t11 t10 true ;;
  let B := argl inv m in
  t20 <- inv4_det B 0 5 4 1 ;; t21 <- inv4_det B 0 9 8 1 ;; t22 <- inv4_det B 0 13 12 1 ;;
  t23 <- inv4_det B 4 9 8 5 ;; t24 <- inv4_det B 4 13 12 5 ;; t25 <- inv4_det B 8 13 12 9 ;;
  inv <- inv4_line m inv 8   7 11 15  t25 t24 t23 true ;;
  inv <- inv4_line m inv 9   11 15 3  t22 t21 t25 false ;;
  inv <- inv4_line m inv 10  15 7 3   t20 t22 t24 true ;;
  inv <- inv4_line m inv 11  7 3 11   t21 t23 t20 false ;;
  inv <- inv4_line m inv 12  10 6 14  t24 t25 t23 false ;;
  inv <- inv4_line m inv 13  2 10 14  t25 t22 t21 true ;;
  inv <- inv4_line m inv 14  6 14 2   t22 t20 t24 false ;;
  inv <- inv4_line m inv 15  2 6 10   t23 t21 t20 true ;;
  let C := argl inv m in
  a0 <- rd C 0 ;; i0 <- rd inv 0 ;; a4 <- rd C 4 ;; i1 <- rd inv 1 ;;
  a8 <- rd C 8 ;; i2 <- rd inv 2 ;; a12 <- rd C 12 ;; i3 <- rd inv 3 ;;
  let determinant := sadd (sadd (sadd (smul a0 i0) (smul a4 i1)) (smul a8 i2)) (smul a12 i3) in
  if sleb (sabs determinant) tol then Ok (false, inv)
  else
    detinv <- sdiv sone determinant ;;
    inv <- for_ 0 16 (fun i inv => x <- rd inv i ;; wr inv i (smul x detinv)) inv ;;
    Ok (true, inv).

(** matrix.hpp:1692-1701 m.inverse( m ). *)
Definition mat_inverse_self (n : nat) m (tol : T) : res (bool * list T) :=
  match n with
  | 2 => mat_inverse2 Self m tol
  | 3 => mat_inverse3 Self m tol
  | 4 => mat_inverse4_arg Self m tol
  | _ => UB
  end.

(** vector.hpp:1426-1436 clamp( const T& min, const T& max ): either reference
    may be an element of the vector itself. *)
Definition vec_clamp_ref (M : nat) v (mn mx : sref T) : res (list T) :=
  for_ 0 M (fun i v =>
    a <- rd v i ;; lo <- sref_get v mn ;;
    v <- (if sltb a lo then wr v i lo else Ok v) ;;
    a <- rd v i ;; hi <- sref_get v mx ;;
    (if sltb hi a then wr v i hi else Ok v)) v.
End Alias.
