(** Model of vmmlib/matrix.hpp (class Matrix< M, N, T >, lines 58-487 declare
    it).  A Matrix< M, N, T > is its [array], a list of length M*N in
    column-by-column order.  Unless a comment says otherwise each definition is
    a statement-by-statement transcription. *)
From Verif Require Export MVector.

Section Matrix.
Context {cfg : Cfg} {T : Type} {ST : Scalar T}.
Implicit Types m : list T.

(** matrix.hpp:840-880 at() and operator(): array[ col * M + row ], indices
    checked only with VMMLIB_SAFE_ACCESSORS. *)
Definition mat_at (M N : nat) m (r c : nat) : res T :=
  if ((M <=? r) || (N <=? c)) && safe then Throw else rd m (c * M + r).
(** matrix.hpp:840-850: assignment through the reference returned by at(). *)
Definition mat_put (M N : nat) m (r c : nat) (x : T) : res (list T) :=
  if ((M <=? r) || (N <=? c)) && safe then Throw else wr m (c * M + r) x.

(** matrix.hpp:401-444 m[ r ][ c ]: the row check is row_index > M (not >=). *)
Definition mat_sq_at (M N : nat) m (r c : nat) : res T :=
  if (M <? r) && safe then Throw
  else if (N <=? c) && safe then Throw else rd m (r + c * M).
Definition mat_sq_put (M N : nat) m (r c : nat) (x : T) : res (list T) :=
  if (M <? r) && safe then Throw
  else if (N <=? c) && safe then Throw else wr m (r + c * M) x.

(** The loop nest [for( row ) for( col ) at( row, col ) = g( row, col );] that
    many members share; [g] may read the current contents. *)
Definition mat_fill_rc (M N : nat) (g : nat -> nat -> list T -> res T) m : res (list T) :=
  for_ 0 M (fun r => for_ 0 N (fun c m => x <- g r c m ;; mat_put M N m r c x)) m.

(** matrix.hpp:1447-1459 fill(). *)
Definition mat_fill (M N : nat) m (x : T) : res (list T) :=
  mat_fill_rc M N (fun _ _ _ => Ok x) m.
(** matrix.hpp:1513-1517 zero(). *)
Definition mat_zero (M N : nat) m : res (list T) := mat_fill M N m szero.
(** matrix.hpp:1519-1523 operator=( T ): std::fill over the array. *)
Definition mat_assign_value (M N : nat) m (x : T) : res (list T) :=
  for_ 0 (M * N) (fun i m => wr m i x) m.

(** matrix.hpp:824-831 Matrix(): zero-initialised, ones on the diagonal of a
    square matrix. *)
Definition mat_default (M N : nat) : res (list T) :=
  let m := repeat szero (M * N) in
  if M =? N then for_ 0 M (fun i m => mat_put M N m i i sone) m else Ok m.

(** matrix.hpp:576-582 identity( m ); matrix_functors.hpp:52-66
    set_to_identity_functor does the same. *)
Definition mat_identity (M N : nat) m : res (list T) :=
  m <- mat_assign_value M N m szero ;;
  for_ 0 M (fun i m => mat_put M N m i i sone) m.
(** matrix.hpp:2231-2243, 2219-2226, matrix_functors.hpp:41-66: the static
    members IDENTITY and ZERO. *)
Definition mat_IDENTITY (M : nat) : res (list T) :=
  m <- mat_default M M ;; mat_identity M M m.
Definition mat_ZERO (M N : nat) : res (list T) :=
  m <- mat_default M N ;; mat_assign_value M N m szero.

(** matrix.hpp:965-971 operator=( const Matrix& ): memcpy (of an object onto
    itself for self-assignment). *)
Definition mat_assign (M N : nat) m (o : arg T) : res (list T) :=
  copy_n (M * N) (argl m o) 0 m 0.
(** matrix.hpp:976-989 operator=( const Matrix< P, Q, U >& ), 833-838 the
    converting constructor (on uninitialised storage). *)
Definition mat_assign_resize {U : Type} (cast : U -> T) (M N P Q : nat) m
  (src : list U) : res (list T) :=
  let minL := if P <? M then P else M in
  let minC := if Q <? N then Q else N in
  m <- (if (minL <? M) || (minC <? N) then mat_zero M N m else Ok m) ;;
  for_ 0 minL (fun i => for_ 0 minC (fun j m =>
    x <- (if ((P <=? i) || (Q <=? j)) && safe then Throw else rd src (j * P + i)) ;;
    mat_put M N m i j (cast x))) m.
(** matrix.hpp:992-1003 operator=( const T[ M ][ N ] ): a row-major C array. *)
Definition mat_assign_2d (M N : nat) m (a : list T) : res (list T) :=
  mat_fill_rc M N (fun r c _ => rd a (r * N + c)) m.
(** matrix.hpp:1487-1509 set( begin, end, row_major ): [src] is the range
    [begin, end).  In row-major mode the loops return when the range is
    exhausted; otherwise M*N elements are copied whatever the range's length. *)
Definition mat_set (M N : nat) m (src : list T) (row_major : bool) : res (list T) :=
  if row_major then
    x <- forr 0 M (fun r m =>
           forr 0 N (fun c m =>
             if length src <=? r * N + c then Ok (inr m)
             else x <- rd src (r * N + c) ;; m <- mat_put M N m r c x ;; Ok (inl m)) m) m ;;
    Ok (match x with inl m => m | inr m => m end)
  else copy_n (M * N) src 0 m 0.
(** matrix.hpp:1009-1014 operator=( const T* ): the range is
    [data, data + M*N); a shorter array is read past its end. *)
Definition mat_assign_ptr (M N : nat) m (data : list T) : res (list T) :=
  mat_fill_rc M N (fun r c _ => rd data (r * N + c)) m.
(** matrix.hpp:1018-1026 operator=( const std::vector< T >& ). *)
Definition mat_assign_vector (M N : nat) m (data : list T) : res (list T) :=
  if length data <? M * N then Throw else mat_set M N m data true.
(** matrix.hpp:2319-2332 cast_from(). *)
Definition mat_cast_from {U : Type} (cast : U -> T) (M N : nat) m (src : list U)
  : res (list T) :=
  for_ 0 (M * N) (fun i m => x <- rd src i ;; wr m i (cast x)) m.

(** matrix.hpp:902-914 operator==, 918-924 operator!=. *)
Definition mat_eq (M N : nat) m (o : list T) : res bool :=
  for_ 0 (M * N) (fun i (ok : bool) =>
    if ok then a <- rd m i ;; b <- rd o i ;; Ok (seqb a b) else Ok false) true.
Definition mat_neq (M N : nat) m (o : list T) : res bool :=
  b <- mat_eq M N m o ;; Ok (negb b).
(** matrix.hpp:945-961 equals( other, cmp ); [cmp] may throw. *)
Definition mat_equals_by (cmp : T -> T -> bool) (M N : nat) m (o : list T) : res bool :=
  for_ 0 M (fun r ok => for_ 0 N (fun c (ok : bool) =>
    if ok then a <- mat_at M N m r c ;; b <- mat_at M N o r c ;; Ok (cmp a b)
    else Ok false) ok) true.
(** matrix.hpp:928-941 equals( other, tolerance ). *)
Definition mat_equals (M N : nat) m (o : list T) (tol : T) : res bool :=
  mat_equals_by (fun a b => sltb (sabs (ssub a b)) tol) M N m o.

(** matrix.hpp:1029-1041 multiply_piecewise( other ). *)
Definition mat_mul_piecewise (M N : nat) m (o : arg T) : res (list T) :=
  mat_fill_rc M N (fun r c m =>
    a <- mat_at M N m r c ;; b <- mat_at M N (argl m o) r c ;; Ok (smul a b)) m.

(** matrix.hpp:1045-1064 multiply( left, right ) into *this: each component is
    accumulated in place, so an operand that is *this is read while it is being
    overwritten. *)
Definition mat_multiply (M P N : nat) m (left right : arg T) : res (list T) :=
  for_ 0 M (fun r => for_ 0 N (fun c m =>
    m <- mat_put M N m r c szero ;;
    for_ 0 P (fun p m =>
      a <- mat_at M P (argl m left) r p ;; b <- mat_at P N (argl m right) p c ;;
      x <- mat_at M N m r c ;; mat_put M N m r c (sadd x (smul a b))) m)) m.
(** matrix.hpp:1068-1076 operator*( Matrix ): M x N times N x P. *)
Definition mat_mul (M N P : nat) m (o : list T) : res (list T) :=
  result <- mat_default M P ;; mat_multiply M N P result (Val m) (Val o).
(** matrix.hpp:1080-1088 operator*=( Matrix ), square. *)
Definition mat_mul_assign (M : nat) m (o : arg T) : res (list T) :=
  mat_multiply M M M m (Val m) o.

(** matrix.hpp:1090-1104 operator/( T ), 1125-1139 operator*( T ). *)
Definition mat_map_s (M N : nat) (op : T -> res T) m : res (list T) :=
  result <- mat_default M N ;;
  mat_fill_rc M N (fun r c _ => a <- mat_at M N m r c ;; op a) result.
Definition mat_div_s (M N : nat) m (s : T) := mat_map_s M N (fun a => sdiv a s) m.
Definition mat_mul_s (M N : nat) m (s : T) := mat_map_s M N (fun a => Ok (smul a s)) m.
(** matrix.hpp:1108-1119 operator/=( T ), 1143-1154 operator*=( T ). *)
Definition mat_map_assign_s (M N : nat) (op : T -> res T) m : res (list T) :=
  mat_fill_rc M N (fun r c m => a <- mat_at M N m r c ;; op a) m.
Definition mat_div_assign_s (M N : nat) m (s : T) := mat_map_assign_s M N (fun a => sdiv a s) m.
Definition mat_mul_assign_s (M N : nat) m (s : T) :=
  mat_map_assign_s M N (fun a => Ok (smul a s)) m.

(** matrix.hpp:1538-1547 operator+=, 1572-1583 operator-= with a Matrix. *)
Definition mat_iter_zip (M N : nat) (op : T -> T -> T) m (o : arg T) : res (list T) :=
  for_ 0 (M * N) (fun i m => a <- rd m i ;; b <- rd (argl m o) i ;; wr m i (op a b)) m.
Definition mat_add_assign (M N : nat) := mat_iter_zip M N sadd.
Definition mat_sub_assign (M N : nat) := mat_iter_zip M N ssub.
(** matrix.hpp:1550-1558 operator+=( T ), 1585-1593 operator-=( T ). *)
Definition mat_iter_map (M N : nat) (op : T -> T) m : res (list T) :=
  for_ 0 (M * N) (fun i m => a <- rd m i ;; wr m i (op a)) m.
Definition mat_add_assign_s (M N : nat) m (s : T) := mat_iter_map M N (fun a => sadd a s) m.
Definition mat_sub_assign_s (M N : nat) m (s : T) := mat_iter_map M N (fun a => ssub a s) m.
(** matrix.hpp:1527-1534 operator+, 1560-1568 operator-: on a copy of *this. *)
Definition mat_add (M N : nat) m (o : list T) := mat_add_assign M N m (Val o).
Definition mat_sub (M N : nat) m (o : list T) := mat_sub_assign M N m (Val o).

(** matrix.hpp:1158-1173 operator*( Vector< N, T > ). *)
Definition mat_mul_vec (M N : nat) m (v : list T) : res (list T) :=
  for_ 0 M (fun i result =>
    tmp <- for_ 0 N (fun j tmp =>
             a <- mat_at M N m i j ;; b <- vat N v j ;; Ok (sadd tmp (smul a b))) szero ;;
    vset M result i tmp) (vec_default M).
(** matrix.hpp:1178-1204 operator*( Vector< O, T > ): homogeneous transform. *)
Definition mat_mul_hom (M N O : nat) m (v : list T) : res (list T) :=
  for_ 0 M (fun r result =>
    tmp <- for_ 0 (N - 1) (fun c tmp =>
             b <- vat O v c ;; a <- mat_at M N m r c ;; Ok (sadd tmp (smul b a))) szero ;;
    if r <? N - 1 then
      a <- mat_at M N m r (N - 1) ;; vset O result r (sadd tmp a)
    else
      a <- mat_at M N m r (N - 1) ;;
      let tmp := sadd tmp a in
      for_ 0 (N - 1) (fun c result =>
        x <- vat O result c ;; q <- sdiv x tmp ;; vset O result c q) result)
    (vec_default O).

(** matrix.hpp:1216-1223 negate(), 1207-1212 unary operator-: the result starts
    from a default-constructed matrix, not from *this. *)
Definition mat_negate (M N : nat) m : res (list T) :=
  result <- mat_default M N ;; mat_mul_assign_s M N result (sopp sone).

(** matrix.hpp:1227-1235 tensor( u, v ). *)
Definition mat_tensor (M N : nat) m (u v : list T) : res (list T) :=
  for_ 0 N (fun c => for_ 0 M (fun r m =>
    a <- rd u c ;; b <- rd v r ;; mat_put M N m r c (smul a b))) m.
(** matrix.hpp:1239-1260 tensor( Vector< 3 >, Vector< 3 > ) for 4 x 4. *)
Definition mat_tensor34 m (u v : list T) : res (list T) :=
  m <- for_ 0 3 (fun c m =>
         m <- for_ 0 3 (fun r m =>
                a <- rd u c ;; b <- rd v r ;; mat_put 4 4 m r c (smul a b)) m ;;
         a <- rd u c ;; mat_put 4 4 m 3 c a) m ;;
  m <- for_ 0 3 (fun r m => b <- rd v r ;; mat_put 4 4 m r 3 b) m ;;
  mat_put 4 4 m 3 3 sone.

(** matrix.hpp:1263-1275 transpose_to( tM ). *)
Definition mat_transpose_to (M N : nat) m (t : list T) : res (list T) :=
  for_ 0 M (fun r => for_ 0 N (fun c t =>
    x <- mat_at M N m r c ;; mat_put N M t c r x)) t.
(** matrix.hpp:785-792 transpose(). *)
Definition mat_transpose (M N : nat) m : res (list T) :=
  t <- mat_default N M ;; mat_transpose_to M N m t.
(** matrix.hpp:1277-1298 symmetric_covariance( cov ). *)
Definition mat_sym_cov (M N : nat) m (cov : list T) : res (list T) :=
  for_ 0 M (fun row => for_ row M (fun col cov =>
    tmp <- for_ 0 N (fun k tmp =>
             a <- mat_at M N m row k ;; b <- mat_at M N m col k ;;
             Ok (sadd tmp (smul a b))) szero ;;
    cov <- mat_put M M cov row col tmp ;; mat_put M M cov col row tmp)) cov.

(** matrix.hpp:1301-1320 get_column( index[, Vector& ] ), 1337-1347
    get_column( index, Matrix< M, 1 >& ). *)
Definition mat_get_column_into (M N : nat) m (index : nat) (column : list T) : res (list T) :=
  if (N <=? index) && safe then Throw else copy_n M m (M * index) column 0.
Definition mat_get_column (M N : nat) m (index : nat) : res (list T) :=
  mat_get_column_into M N m index (vec_default M).
(** matrix.hpp:1324-1335, 1349-1359 set_column( index, Vector / Matrix< M, 1 > ). *)
Definition mat_set_column (M N : nat) m (index : nat) (column : list T) : res (list T) :=
  if (N <=? index) && safe then Throw else copy_n M column 0 m (M * index).
(** matrix.hpp:1361-1381 get_row, 1397-1410 with a Matrix< 1, N > (whose cell
    (0,c) is array element c). *)
Definition mat_get_row_into (M N : nat) m (index : nat) (row : list T) : res (list T) :=
  if (M <=? index) && safe then Throw
  else for_ 0 N (fun c row => x <- mat_at M N m index c ;; vset N row c x) row.
Definition mat_get_row (M N : nat) m (index : nat) : res (list T) :=
  mat_get_row_into M N m index (vec_default N).
(** matrix.hpp:1383-1395, 1412-1425 set_row( index, Vector / Matrix< 1, N > ). *)
Definition mat_set_row (M N : nat) m (index : nat) (row : list T) : res (list T) :=
  if (M <=? index) && safe then Throw
  else for_ 0 N (fun c m => x <- vat N row c ;; mat_put M N m index c x) m.

(** matrix.hpp:1640-1660 get_sub_matrix( result, row_offset, col_offset ). *)
Definition mat_get_sub (M N O P : nat) m (result : list T) (ro co : nat) : res (list T) :=
  if ((M <? O + ro) || (N <? P + co)) && safe then Throw
  else mat_fill_rc O P (fun r c _ => mat_at M N m (ro + r) (co + c)) result.
(** matrix.hpp:1626-1635 get_sub_matrix( row_offset, col_offset ). *)
Definition mat_sub_matrix (M N O P : nat) m (ro co : nat) : res (list T) :=
  result <- mat_default O P ;; mat_get_sub M N O P m result ro co.
(** matrix.hpp:1664-1680 set_sub_matrix(). *)
Definition mat_set_sub (M N O P : nat) m (sub : list T) (ro co : nat) : res (list T) :=
  for_ 0 O (fun r => for_ 0 P (fun c m =>
    x <- mat_at O P sub r c ;; mat_put M N m (ro + r) (co + c) x)) m.
(** matrix.hpp:1597-1622 direct_sum( upper_left, lower_right ), M = O+Q,
    N = P+R. *)
Definition mat_direct_sum (O P Q R : nat) m (ul lr : list T) : res (list T) :=
  let M := O + Q in let N := P + R in
  m <- mat_assign_value M N m szero ;;
  m <- for_ 0 O (fun r => for_ 0 P (fun c m =>
         x <- mat_at O P ul r c ;; mat_put M N m r c x)) m ;;
  for_ 0 Q (fun r => for_ 0 R (fun c m =>
    x <- mat_at Q R lr r c ;; mat_put M N m (O + r) (P + c) x)) m.

(** matrix.hpp:2278-2292 khatri_rao_product( right, prod ): M x N with O x N. *)
Definition mat_khatri_rao (M N O : nat) m (right prod : list T) : res (list T) :=
  for_ 0 N (fun col => for_ 0 M (fun mm => for_ 0 O (fun o prod =>
    a <- mat_at M N m mm col ;; b <- mat_at O N right o col ;;
    mat_put (M * O) N prod (O * mm + o) col (smul a b)))) prod.
(** matrix.hpp:2296-2314 kronecker_product( right, result ). *)
Definition mat_kronecker (M N O P : nat) m (right result : list T) : res (list T) :=
  for_ 0 M (fun mm => for_ 0 N (fun n => for_ 0 O (fun o => for_ 0 P (fun p result =>
    a <- mat_at M N m mm n ;; b <- mat_at O P right o p ;;
    mat_put (M * O) (N * P) result (O * mm + o) (P * n + p) (smul a b))))) result.

(** matrix.hpp:2552-2563 diag( values ). *)
Definition mat_diag (R : nat) m (d : list T) : res (list T) :=
  m <- mat_zero R R m ;;
  for_ 0 R (fun r m => x <- vat R d r ;; mat_put R R m r r x) m.

(** matrix.hpp:2247-2259 frobenius_norm(): accumulates in double; here in T. *)
Definition mat_frobenius (M N : nat) m : res T :=
  s <- for_ 0 (M * N) (fun i acc => a <- rd m i ;; Ok (sadd acc (smul a a))) szero ;;
  ssqrt s.
(** matrix.hpp:2537-2549 sum_elements(): accumulates in double; here in T. *)
Definition mat_sum_elements (M N : nat) m : res T :=
  for_ 0 (M * N) (fun i acc => a <- rd m i ;; Ok (sadd acc a)) szero.
(** matrix.hpp:2521-2534 columnwise_sum( out ). *)
Definition mat_columnwise_sum (M N : nat) m (out : list T) : res (list T) :=
  for_ 0 N (fun n out =>
    v <- for_ 0 M (fun mm acc => a <- mat_at M N m mm n ;; Ok (sadd acc a)) szero ;;
    vset N out n v) out.
(** matrix.hpp:2771-2795 sum_rows( other ): the k-th iteration of the loop has
    row = 2k on entry (the counter is incremented twice per iteration). *)
Definition mat_sum_rows (M N : nat) m (other : list T) : res (list T) :=
  other <- mat_zero (M / 2) N other ;;
  for_ 0 ((M + 1) / 2) (fun k other =>
    row0 <- mat_get_row M N m (2 * k) ;;
    let row := 2 * k + 1 in
    if row <? M then
      row1 <- mat_get_row M N m row ;;
      row0 <- vec_add_assign N row0 (Val row1) ;;
      mat_set_row (M / 2) N other (row / 2) row0
    else Ok other) other.
(** matrix.hpp:2797-2821 sum_columns( other ), likewise. *)
Definition mat_sum_columns (M N : nat) m (other : list T) : res (list T) :=
  other <- mat_zero M (N / 2) other ;;
  for_ 0 ((N + 1) / 2) (fun k other =>
    col0 <- mat_get_column M N m (2 * k) ;;
    let col := 2 * k + 1 in
    if col <? N then
      col1 <- mat_get_column M N m col ;;
      col0 <- vec_add_assign M col0 (Val col1) ;;
      mat_set_column M (N / 2) other (col / 2) col0
    else Ok other) other.

(** matrix.hpp:2335-2350 get_min(), 2352-2367 get_max() (which starts from 0),
    2370-2385 get_abs_min(), 2387-2402 get_abs_max(). *)
Definition mat_get_min (M N : nat) m : res T :=
  for_ 0 (M * N) (fun i mn => a <- rd m i ;; Ok (if sltb a mn then a else mn)) smax.
Definition mat_get_max (M N : nat) m : res T :=
  for_ 0 (M * N) (fun i mx => a <- rd m i ;; Ok (if sltb mx a then a else mx)) szero.
Definition mat_get_abs_min (M N : nat) m : res T :=
  for_ 0 (M * N) (fun i mn =>
    a <- rd m i ;; Ok (if sltb (sabs a) (sabs mn) then sabs a else mn)) smax.
Definition mat_get_abs_max (M N : nat) m : res T :=
  for_ 0 (M * N) (fun i mx =>
    a <- rd m i ;; Ok (if sltb (sabs mx) (sabs a) then sabs a else mx)) szero.
(** matrix.hpp:2406-2421 nnz(), 2424-2439 nnz( threshold ). *)
Definition mat_nnz (M N : nat) m : res nat :=
  for_ 0 (M * N) (fun i n => a <- rd m i ;; Ok (if seqb a szero then n else S n)) 0.
Definition mat_nnz_thr (M N : nat) m (thr : T) : res nat :=
  for_ 0 (M * N) (fun i n => a <- rd m i ;; Ok (if sltb thr (sabs a) then S n else n)) 0.
(** matrix.hpp:2442-2453 threshold( const T& ): the threshold is a reference;
    [SVal] is an independent object, [SCell k] the matrix element array[ k ]. *)
Inductive sref : Type := SVal (x : T) | SCell (k : nat).
Definition sref_get m (a : sref) : res T :=
  match a with SVal x => Ok x | SCell k => rd m k end.
Definition mat_threshold (M N : nat) m (thr : sref) : res (list T) :=
  for_ 0 (M * N) (fun i m =>
    a <- rd m i ;; t <- sref_get m thr ;;
    if sleb (sabs a) t then wr m i szero else Ok m) m.

(** matrix.hpp:2588-2604 set_random( seed ). *)
Definition mat_set_random (rnd : Z -> nat -> Z) (RAND_MAX : Z) (ofZ : Z -> T)
  (M N : nat) m (seed : Z) (s : rng) : res (list T * rng) :=
  let s := if (0 <=? seed)%Z then (seed, 0) else s in
  for_ 0 M (fun r => for_ 0 N (fun c '(m, s) =>
    let '(k, s) := rand_next rnd s in
    fill <- sdiv (ofZ k) (ofZ RAND_MAX) ;;
    m <- mat_put M N m r c (sadd (sopp sone) (smul stwo fill)) ;; Ok (m, s))) (m, s).

(** matrix.hpp:526-562 convolve( kernel ): indices are computed in size_t and
    converted to int; here in Z (sizes below 2^31).  The double accumulator is a
    T here. *)
Definition clampZ (k : Z) (n : nat) : nat :=
  let k := if (k <? 0)%Z then 0%Z else k in
  let k := if (Z.of_nat n <=? k)%Z then (Z.of_nat n - 1)%Z else k in
  Z.to_nat k.
Definition mat_convolve (M N U V : nat) m (kernel : list T) : res (list T) :=
  temp <- mat_default M N ;;
  temp <- for_ 0 N (fun y => for_ 0 M (fun x temp =>
    sum <- for_ 0 V (fun j sum =>
      let srcy := clampZ (Z.of_nat y - Z.of_nat (V / 2) + Z.of_nat j) N in
      for_ 0 U (fun i sum =>
        let srcx := clampZ (Z.of_nat x - Z.of_nat (U / 2) + Z.of_nat i) M in
        k <- mat_at U V kernel j i ;; a <- mat_at M N m srcy srcx ;;
        Ok (sadd sum (smul k a))) sum) szero ;;
    mat_put M N temp y x sum)) temp ;;
  mat_assign M N m (Val temp).
End Matrix.
Arguments sref : clear implicits.
Arguments SVal {T} x.
Arguments SCell {T} k.

Section MatrixDet.
Context {cfg : Cfg} {T : Type} {ST : Scalar T}.
Implicit Types m : list T.
Local Notation "a *' b" := (smul a b) (at level 40, left associativity).
Local Notation "a +' b" := (sadd a b) (at level 50, left associativity).
Local Notation "a -' b" := (ssub a b) (at level 50, left associativity).

(** matrix.hpp:585-590, 594-601, 606-612, 616-661 compute_determinant() for
    1 x 1 to 4 x 4; there is no other overload, so other sizes do not compile
    ([UB] here). *)
Definition mat_det1 m : res T := rd m 0.
Definition mat_det2 m : res T :=
  a <- mat_at 2 2 m 0 0 ;; b <- mat_at 2 2 m 0 1 ;;
  c <- mat_at 2 2 m 1 0 ;; d <- mat_at 2 2 m 1 1 ;;
  Ok (a *' d -' b *' c).
Definition mat_det3 m : res T :=
  m00 <- mat_at 3 3 m 0 0 ;; m11 <- mat_at 3 3 m 1 1 ;; m22 <- mat_at 3 3 m 2 2 ;;
  m12 <- mat_at 3 3 m 1 2 ;; m21 <- mat_at 3 3 m 2 1 ;; m01 <- mat_at 3 3 m 0 1 ;;
  m20 <- mat_at 3 3 m 2 0 ;; m10 <- mat_at 3 3 m 1 0 ;; m02 <- mat_at 3 3 m 0 2 ;;
  Ok (m00 *' (m11 *' m22 -' m12 *' m21)
      +' m01 *' (m12 *' m20 -' m10 *' m22)
      +' m02 *' (m10 *' m21 -' m11 *' m20)).
Definition mat_det4 m : res T :=
  m00 <- mat_at 4 4 m 0 0 ;; m10 <- mat_at 4 4 m 1 0 ;;
  m20 <- mat_at 4 4 m 2 0 ;; m30 <- mat_at 4 4 m 3 0 ;;
  m01 <- mat_at 4 4 m 0 1 ;; m11 <- mat_at 4 4 m 1 1 ;;
  m21 <- mat_at 4 4 m 2 1 ;; m31 <- mat_at 4 4 m 3 1 ;;
  m02 <- mat_at 4 4 m 0 2 ;; m12 <- mat_at 4 4 m 1 2 ;;
  m22 <- mat_at 4 4 m 2 2 ;; m32 <- mat_at 4 4 m 3 2 ;;
  m03 <- mat_at 4 4 m 0 3 ;; m13 <- mat_at 4 4 m 1 3 ;;
  m23 <- mat_at 4 4 m 2 3 ;; m33 <- mat_at 4 4 m 3 3 ;;
  Ok (m03 *' m12 *' m21 *' m30 -' m02 *' m13 *' m21 *' m30
      -' m03 *' m11 *' m22 *' m30 +' m01 *' m13 *' m22 *' m30
      +' m02 *' m11 *' m23 *' m30 -' m01 *' m12 *' m23 *' m30
      -' m03 *' m12 *' m20 *' m31 +' m02 *' m13 *' m20 *' m31
      +' m03 *' m10 *' m22 *' m31 -' m00 *' m13 *' m22 *' m31
      -' m02 *' m10 *' m23 *' m31 +' m00 *' m12 *' m23 *' m31
      +' m03 *' m11 *' m20 *' m32 -' m01 *' m13 *' m20 *' m32
      -' m03 *' m10 *' m21 *' m32 +' m00 *' m13 *' m21 *' m32
      +' m01 *' m10 *' m23 *' m32 -' m00 *' m11 *' m23 *' m32
      -' m02 *' m11 *' m20 *' m33 +' m01 *' m12 *' m20 *' m33
      +' m02 *' m10 *' m21 *' m33 -' m00 *' m12 *' m21 *' m33
      -' m01 *' m10 *' m22 *' m33 +' m00 *' m11 *' m22 *' m33).
(** matrix.hpp:1684-1689 det(). *)
Definition mat_det (n : nat) m : res T :=
  match n with
  | 1 => mat_det1 m | 2 => mat_det2 m | 3 => mat_det3 m | 4 => mat_det4 m
  | _ => UB
  end.

(** matrix.hpp:1742-1769 get_minor( minor, row_to_cut, col_to_cut ) of an
    n x n matrix; row_offset / col_offset are 0 before the cut and -1 (as
    size_t) after it.  Returns the determinant and the minor matrix. *)
Definition mat_get_minor (n : nat) m (minor : list T) (rcut ccut : nat)
  : res (T * list T) :=
  '(minor, _) <- for_ 0 n (fun r '(minor, ro) =>
     if r =? rcut then Ok (minor, 1)
     else
       '(minor, _) <- for_ 0 n (fun c '(minor, co) =>
          if c =? ccut then Ok (minor, 1)
          else x <- mat_at n n m r c ;;
               minor <- mat_put (n - 1) (n - 1) minor (r - ro) (c - co) x ;;
               Ok (minor, co)) (minor, 0) ;;
       Ok (minor, ro)) (minor, 0) ;;
  d <- mat_det (n - 1) minor ;; Ok (d, minor).
(** matrix.hpp:1718-1738 get_cofactors( cofactors ): [m] may be the same object
    as the output. *)
Definition mat_get_cofactors (n : nat) (m : arg T) (cof : list T) : res (list T) :=
  minor <- mat_default (n - 1) (n - 1) ;;
  '(cof, _) <- for_ 0 n (fun r => for_ 0 n (fun c '(cof, minor) =>
     '(d, minor) <- mat_get_minor n (argl cof m) minor r c ;;
     cof <- mat_put n n cof r c (if Nat.odd (r + c) then sopp d else d) ;;
     Ok (cof, minor))) (cof, minor) ;;
  Ok cof.
(** matrix.hpp:1705-1714 get_adjugate( adjugate ). *)
Definition mat_get_adjugate (n : nat) (m : arg T) (adj : list T) : res (list T) :=
  adj <- mat_get_cofactors n m adj ;;
  t <- mat_transpose n n adj ;; mat_assign n n adj (Val t).

(** matrix.hpp:665-679 compute_inverse() 2 x 2; returns the flag and the new
    contents of [inv].  [m] may be the same object as [inv]. *)
Definition mat_inverse2 (m : arg T) (inv : list T) (tol : T) : res (bool * list T) :=
  det <- mat_det2 (argl inv m) ;;
  if sltb (sabs det) tol then Ok (false, inv)
  else
    detinv <- sdiv sone det ;;
    inv <- mat_get_adjugate 2 m inv ;;
    inv <- mat_mul_assign_s 2 2 inv detinv ;; Ok (true, inv).

(** One statement inverse_.at( r, c ) = m.at( a ) * m.at( b ) - m.at( c ) * m.at( d )
    of matrix.hpp:688-696. *)
Definition mat_cof3 (m : arg T) (inv : list T) (r c a0 a1 b0 b1 c0 c1 d0 d1 : nat)
  : res (list T) :=
  a <- mat_at 3 3 (argl inv m) a0 a1 ;; b <- mat_at 3 3 (argl inv m) b0 b1 ;;
  c' <- mat_at 3 3 (argl inv m) c0 c1 ;; d <- mat_at 3 3 (argl inv m) d0 d1 ;;
  mat_put 3 3 inv r c (a *' b -' c' *' d).
(** matrix.hpp:682-719 compute_inverse() 3 x 3. *)
Definition mat_inverse3 (m : arg T) (inv : list T) (tol : T) : res (bool * list T) :=
  inv <- mat_cof3 m inv 0 0  1 1 2 2  1 2 2 1 ;;
  inv <- mat_cof3 m inv 0 1  0 2 2 1  0 1 2 2 ;;
  inv <- mat_cof3 m inv 0 2  0 1 1 2  0 2 1 1 ;;
  inv <- mat_cof3 m inv 1 0  1 2 2 0  1 0 2 2 ;;
  inv <- mat_cof3 m inv 1 1  0 0 2 2  0 2 2 0 ;;
  inv <- mat_cof3 m inv 1 2  0 2 1 0  0 0 1 2 ;;
  inv <- mat_cof3 m inv 2 0  1 0 2 1  1 1 2 0 ;;
  inv <- mat_cof3 m inv 2 1  0 1 2 0  0 0 2 1 ;;
  inv <- mat_cof3 m inv 2 2  0 0 1 1  0 1 1 0 ;;
  m00 <- mat_at 3 3 (argl inv m) 0 0 ;; i00 <- mat_at 3 3 inv 0 0 ;;
  m01 <- mat_at 3 3 (argl inv m) 0 1 ;; i10 <- mat_at 3 3 inv 1 0 ;;
  m02 <- mat_at 3 3 (argl inv m) 0 2 ;; i20 <- mat_at 3 3 inv 2 0 ;;
  let determinant := m00 *' i00 +' m01 *' i10 +' m02 *' i20 in
  if sleb (sabs determinant) tol then Ok (false, inv)
  else
    detinv <- sdiv sone determinant ;;
    inv <- for_ 0 3 (fun r => for_ 0 3 (fun c inv =>
             x <- mat_at 3 3 inv r c ;; mat_put 3 3 inv r c (x *' detinv))) inv ;;
    Ok (true, inv).

(** matrix.hpp:722-780 compute_inverse() 4 x 4.  The array elements are read
    before the first write: [m] and [inv] are different objects here. *)
Definition mat_inverse4 m (inv : list T) (tol : T) : res (bool * list T) :=
  a0 <- rd m 0 ;; a1 <- rd m 1 ;; a2 <- rd m 2 ;; a3 <- rd m 3 ;;
  a4 <- rd m 4 ;; a5 <- rd m 5 ;; a6 <- rd m 6 ;; a7 <- rd m 7 ;;
  a8 <- rd m 8 ;; a9 <- rd m 9 ;; a10 <- rd m 10 ;; a11 <- rd m 11 ;;
  a12 <- rd m 12 ;; a13 <- rd m 13 ;; a14 <- rd m 14 ;; a15 <- rd m 15 ;;
  let t10 := a2 *' a7 -' a6 *' a3 in
  let t11 := a2 *' a11 -' a10 *' a3 in
  let t12 := a2 *' a15 -' a14 *' a3 in
  let t13 := a6 *' a11 -' a10 *' a7 in
  let t14 := a6 *' a15 -' a14 *' a7 in
  let t15 := a10 *' a15 -' a14 *' a11 in
  inv <- wr inv 0 (a5 *' t15 -' a9 *' t14 +' a13 *' t13) ;;
  inv <- wr inv 1 (a9 *' t12 -' a13 *' t11 -' a1 *' t15) ;;
  inv <- wr inv 2 (a13 *' t10 -' a5 *' t12 +' a1 *' t14) ;;
  inv <- wr inv 3 (a5 *' t11 -' a1 *' t13 -' a9 *' t10) ;;
  inv <- wr inv 4 (a8 *' t14 -' a4 *' t15 -' a12 *' t13) ;;
  inv <- wr inv 5 (a0 *' t15 -' a8 *' t12 +' a12 *' t11) ;;
  inv <- wr inv 6 (a4 *' t12 -' a12 *' t10 -' a0 *' t14) ;;
  inv <- wr inv 7 (a0 *' t13 -' a4 *' t11 +' a8 *' t10) ;;
  let t20 := a0 *' a5 -' a4 *' a1 in
  let t21 := a0 *' a9 -' a8 *' a1 in
  let t22 := a0 *' a13 -' a12 *' a1 in
  let t23 := a4 *' a9 -' a8 *' a5 in
  let t24 := a4 *' a13 -' a12 *' a5 in
  let t25 := a8 *' a13 -' a12 *' a9 in
  inv <- wr inv 8 (a7 *' t25 -' a11 *' t24 +' a15 *' t23) ;;
  inv <- wr inv 9 (a11 *' t22 -' a15 *' t21 -' a3 *' t25) ;;
  inv <- wr inv 10 (a15 *' t20 -' a7 *' t22 +' a3 *' t24) ;;
  inv <- wr inv 11 (a7 *' t21 -' a3 *' t23 -' a11 *' t20) ;;
  inv <- wr inv 12 (a10 *' t24 -' a6 *' t25 -' a14 *' t23) ;;
  inv <- wr inv 13 (a2 *' t25 -' a10 *' t22 +' a14 *' t21) ;;
  inv <- wr inv 14 (a6 *' t22 -' a14 *' t20 -' a2 *' t24) ;;
  inv <- wr inv 15 (a2 *' t23 -' a6 *' t21 +' a10 *' t20) ;;
  i0 <- rd inv 0 ;; i1 <- rd inv 1 ;; i2 <- rd inv 2 ;; i3 <- rd inv 3 ;;
  let determinant := a0 *' i0 +' a4 *' i1 +' a8 *' i2 +' a12 *' i3 in
  if sleb (sabs determinant) tol then Ok (false, inv)
  else
    detinv <- sdiv sone determinant ;;
    inv <- for_ 0 16 (fun i inv => x <- rd inv i ;; wr inv i (x *' detinv)) inv ;;
    Ok (true, inv).
(** matrix.hpp:1692-1701 inverse( inverse, tolerance ): other sizes do not
    compile ([UB] here). *)
Definition mat_inverse (n : nat) m (inv : list T) (tol : T) : res (bool * list T) :=
  match n with
  | 2 => mat_inverse2 (Val m) inv tol
  | 3 => mat_inverse3 (Val m) inv tol
  | 4 => mat_inverse4 m inv tol
  | _ => UB
  end.

(** matrix.hpp:795-821 is_positive_definite( m, limit ); for M <= 2 the 3 x 3
    (2 x 2) sub-matrix request does not compile, so only M = 3 exists. *)
Definition mat_is_pd3 m (limit : T) : res bool :=
  a <- mat_at 3 3 m 0 0 ;;
  if sltb a limit then Ok false
  else
    s <- mat_default 2 2 ;; s <- mat_get_sub 3 3 2 2 m s 0 0 ;; d <- mat_det2 s ;;
    if sltb d limit then Ok false
    else
      s <- mat_default 3 3 ;; s <- mat_get_sub 3 3 3 3 m s 0 0 ;; d <- mat_det3 s ;;
      if sltb d limit then Ok false else Ok true.
End MatrixDet.

(** The 4 x 4 transformation helpers. *)
Section Matrix4.
Context {cfg : Cfg} {T : Type} {ST : Scalar T} {TT : Trig T}.
Implicit Types m : list T.
Local Notation "a *' b" := (smul a b) (at level 40, left associativity).
Local Notation "a +' b" := (sadd a b) (at level 50, left associativity).
Local Notation "a -' b" := (ssub a b) (at level 50, left associativity).

(** matrix.hpp:1771-1812 rotate( angle, axis ); std::pow( x, 2 ) is x * x. *)
Definition mat_rotate m (angle : T) (axis : list T) : res (list T) :=
  let sine := ssin angle in
  let cosine := scos angle in
  x <- rd axis 0 ;; y <- rd axis 1 ;; z <- rd axis 2 ;;
  let k := sone -' cosine in
  m <- wr m 0 (cosine +' k *' (x *' x)) ;;
  m <- wr m 1 (k *' x *' y +' sine *' z) ;;
  m <- wr m 2 (k *' x *' z -' sine *' y) ;;
  m <- wr m 3 szero ;;
  m <- wr m 4 (k *' x *' y -' sine *' z) ;;
  m <- wr m 5 (cosine +' k *' (y *' y)) ;;
  m <- wr m 6 (k *' y *' z +' sine *' x) ;;
  m <- wr m 7 szero ;;
  m <- wr m 8 (k *' x *' z +' sine *' y) ;;
  m <- wr m 9 (k *' y *' z -' sine *' x) ;;
  m <- wr m 10 (cosine +' k *' (z *' z)) ;;
  m <- wr m 11 szero ;;
  m <- wr m 12 szero ;;
  m <- wr m 13 szero ;;
  m <- wr m 14 szero ;;
  wr m 15 sone.

(** The three statements of rotate_x / rotate_z for one pair of elements:
    tmp = a[i]*cos + a[j]*sin; a[j] = -a[i]*sin + a[j]*cos; a[i] = tmp. *)
Definition rot_pair (i j : nat) (cosine sine : T) m : res (list T) :=
  a <- rd m i ;; b <- rd m j ;;
  let tmp := a *' cosine +' b *' sine in
  m <- wr m j (sopp a *' sine +' b *' cosine) ;; wr m i tmp.
(** matrix.hpp:1814-1843 rotate_x. *)
Definition mat_rotate_x m (angle : T) : res (list T) :=
  let sine := ssin angle in let cosine := scos angle in
  m <- rot_pair 4 8 cosine sine m ;; m <- rot_pair 5 9 cosine sine m ;;
  m <- rot_pair 6 10 cosine sine m ;; rot_pair 7 11 cosine sine m.
(** matrix.hpp:1845-1874 rotate_y: tmp = a[i]*cos - a[j]*sin;
    a[j] = a[i]*sin + a[j]*cos; a[i] = tmp. *)
Definition rot_pair_y (i j : nat) (cosine sine : T) m : res (list T) :=
  a <- rd m i ;; b <- rd m j ;;
  let tmp := a *' cosine -' b *' sine in
  m <- wr m j (a *' sine +' b *' cosine) ;; wr m i tmp.
Definition mat_rotate_y m (angle : T) : res (list T) :=
  let sine := ssin angle in let cosine := scos angle in
  m <- rot_pair_y 0 8 cosine sine m ;; m <- rot_pair_y 1 9 cosine sine m ;;
  m <- rot_pair_y 2 10 cosine sine m ;; rot_pair_y 3 11 cosine sine m.
(** matrix.hpp:1876-1905 rotate_z. *)
Definition mat_rotate_z m (angle : T) : res (list T) :=
  let sine := ssin angle in let cosine := scos angle in
  m <- rot_pair 0 4 cosine sine m ;; m <- rot_pair 1 5 cosine sine m ;;
  m <- rot_pair 2 6 cosine sine m ;; rot_pair 3 7 cosine sine m.

(** matrix.hpp:1907-1936 pre_rotate_x, 1969-1998 pre_rotate_z: tmp = a[i];
    a[i] = a[i]*cos + a[j]*sin; a[j] = tmp*(-sin) + a[j]*cos. *)
Definition pre_pair (i j : nat) (cosine sine : T) m : res (list T) :=
  tmp <- rd m i ;; b <- rd m j ;;
  m <- wr m i (tmp *' cosine +' b *' sine) ;;
  b <- rd m j ;; wr m j (tmp *' sopp sine +' b *' cosine).
Definition mat_pre_rotate_x m (angle : T) : res (list T) :=
  let sine := ssin angle in let cosine := scos angle in
  m <- pre_pair 1 2 cosine sine m ;; m <- pre_pair 5 6 cosine sine m ;;
  m <- pre_pair 9 10 cosine sine m ;; pre_pair 13 14 cosine sine m.
(** matrix.hpp:1938-1967 pre_rotate_y. *)
Definition pre_pair_y (i j : nat) (cosine sine : T) m : res (list T) :=
  tmp <- rd m i ;; b <- rd m j ;;
  m <- wr m i (tmp *' cosine -' b *' sine) ;;
  b <- rd m j ;; wr m j (tmp *' sine +' b *' cosine).
Definition mat_pre_rotate_y m (angle : T) : res (list T) :=
  let sine := ssin angle in let cosine := scos angle in
  m <- pre_pair_y 0 2 cosine sine m ;; m <- pre_pair_y 4 6 cosine sine m ;;
  m <- pre_pair_y 8 10 cosine sine m ;; pre_pair_y 12 14 cosine sine m.
Definition mat_pre_rotate_z m (angle : T) : res (list T) :=
  let sine := ssin angle in let cosine := scos angle in
  m <- pre_pair 0 1 cosine sine m ;; m <- pre_pair 4 5 cosine sine m ;;
  m <- pre_pair 8 9 cosine sine m ;; pre_pair 12 13 cosine sine m.

(** matrix.hpp:2000-2056 scale( array / x,y,z / Vector ): array[k] *= s_(k/4)
    for k = 0..11. *)
Definition mat_scale m (s : list T) : res (list T) :=
  s0 <- rd s 0 ;; s1 <- rd s 1 ;; s2 <- rd s 2 ;;
  for_ 0 12 (fun k m =>
    x <- rd m k ;; wr m k (x *' (if k <? 4 then s0 else if k <? 8 then s1 else s2))) m.
(** matrix.hpp:2059-2077 scale_translation(). *)
Definition mat_scale_translation m (s : list T) : res (list T) :=
  for_ 0 3 (fun k m => x <- rd m (12 + k) ;; f <- rd s k ;; wr m (12 + k) (x *' f)) m.
(** matrix.hpp:2079-2109 set_translation(). *)
Definition mat_set_translation m (t : list T) : res (list T) :=
  for_ 0 3 (fun k m => f <- rd t k ;; wr m (12 + k) f) m.
(** matrix.hpp:2111-2126 get_translation(). *)
Definition mat_get_translation (M N : nat) m : res (list T) :=
  for_ 0 (N - 1) (fun i t => x <- rd m (i + M * (N - 1)) ;; wr t i x) (vec_default (N - 1)).
(** matrix.hpp:1462-1485 x(), y(), z(): array[ 12 ], [ 13 ], [ 14 ]. *)
Definition mat_x m : res T := rd m 12.
Definition mat_y m : res T := rd m 13.
Definition mat_z m : res T := rd m 14.
End Matrix4.
