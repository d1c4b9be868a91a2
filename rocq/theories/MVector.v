(** Model of vmmlib/vector.hpp (class Vector< M, T >, lines 51-373 declare it).
    A Vector< M, T > is its [array], a list of length [M].  Unless a comment
    says otherwise each definition is a statement-by-statement transcription. *)
From Verif Require Export Scalar.

Section Vector.
Context {cfg : Cfg} {T : Type} {ST : Scalar T}.
Implicit Types v u : list T.

(** vector.hpp:669-694 at(), 651-664 operator(): index check only with
    VMMLIB_SAFE_ACCESSORS; an unchecked out-of-range access is UB. *)
Definition vat (M : nat) v (i : nat) : res T :=
  if (M <=? i) && safe then Throw else rd v i.
(** vector.hpp:669-679: assignment through the reference returned by at(). *)
Definition vset (M : nat) v (i : nat) (x : T) : res (list T) :=
  if (M <=? i) && safe then Throw else wr v i x.

(** vector.hpp:65 Vector() : array() {} value-initialises to zero. *)
Definition vec_default (M : nat) : list T := repeat szero M.

(** vector.hpp:493-500 Vector( const T& a ): [g] is the uninitialised storage. *)
Definition vec_ctor_fill (M : nat) (g : list T) (a : T) : res (list T) :=
  for_ 0 M (fun i g => wr g i a) g.
(** vector.hpp:502-507, 623-628: Vector( x, y ), set( x, y ). *)
Definition vec_set2 v (x y : T) : res (list T) :=
  v <- wr v 0 x ;; wr v 1 y.
(** vector.hpp:510-516, 631-637: Vector( x, y, z ), set( x, y, z ). *)
Definition vec_set3 v (x y z : T) : res (list T) :=
  v <- wr v 0 x ;; v <- wr v 1 y ;; wr v 2 z.
(** vector.hpp:520-527, 641-648: Vector( x, y, z, w ), set( x, y, z, w ). *)
Definition vec_set4 v (x y z w : T) : res (list T) :=
  v <- wr v 0 x ;; v <- wr v 1 y ;; v <- wr v 2 z ;; wr v 3 w.
(** vector.hpp:530-534 Vector( const T* values ): memcpy of M elements. *)
Definition vec_ctor_ptr (M : nat) (g values : list T) : res (list T) :=
  copy_n M values 0 g 0.
(** vector.hpp:548-563 Vector( const Vector< M-1, T >&, T last ). *)
Definition vec_ctor_last (M : nat) (g src : list T) (last : T) : res (list T) :=
  g <- for_ 0 (M - 1) (fun i g => x <- rd src i ;; wr g i x) g ;;
  wr g (M - 1) last.
(** vector.hpp:599-603 set( T a ). *)
Definition vec_set_fill (M : nat) v (a : T) : res (list T) :=
  for_ 0 M (fun i v => wr v i a) v.
(** vector.hpp:606-612 set( const Vector< M-1, T >& v, T a ). *)
Definition vec_set_last (M : nat) v (src : list T) (a : T) : res (list T) :=
  v <- copy_n (M - 1) src 0 v 0 ;; vset M v (M - 1) a.
(** vector.hpp:615-621 set( const Vector< N, T >& v ): copies min(M,N). *)
Definition vec_set_vec (M N : nat) v (src : list T) : res (list T) :=
  copy_n (if N <? M then N else M) src 0 v 0.

(** The loop shape shared by the binary operators of vector.hpp:752-797 and
    841-886: [Vector result; for( i ) result.at( i ) = at( i ) op other.at( i );]
    (resp. [op other] with a scalar). *)
Definition vec_zip (M : nat) (op : T -> T -> res T) u v : res (list T) :=
  for_ 0 M (fun i r =>
    a <- vat M u i ;; b <- vat M v i ;; x <- op a b ;; vset M r i x)
    (vec_default M).
Definition vec_map (M : nat) (op : T -> res T) u : res (list T) :=
  for_ 0 M (fun i r => a <- vat M u i ;; x <- op a ;; vset M r i x)
    (vec_default M).
(** vector.hpp:752-760 operator*, 764-772 operator/, 776-784 operator+,
    788-796 operator-, all with a Vector operand. *)
Definition vec_mul M := vec_zip M (fun a b => Ok (smul a b)).
Definition vec_div M := vec_zip M sdiv.
Definition vec_add M := vec_zip M (fun a b => Ok (sadd a b)).
Definition vec_sub M := vec_zip M (fun a b => Ok (ssub a b)).
(** vector.hpp:841-849, 853-861, 865-873, 877-885: with a scalar operand. *)
Definition vec_mul_s M v (s : T) := vec_map M (fun a => Ok (smul a s)) v.
Definition vec_div_s M v (s : T) := vec_map M (fun a => sdiv a s) v.
Definition vec_add_s M v (s : T) := vec_map M (fun a => Ok (sadd a s)) v.
Definition vec_sub_s M v (s : T) := vec_map M (fun a => Ok (ssub a s)) v.

(** The loop shape of the assignment operators, vector.hpp:801-837 and
    890-926: [for( i ) at( i ) op= other.at( i );], where [other] may be
    [*this].  The scalar forms take the scalar by value. *)
Definition vec_zip_assign (M : nat) (op : T -> T -> res T) v (o : arg T)
  : res (list T) :=
  for_ 0 M (fun i v =>
    b <- vat M (argl v o) i ;; a <- vat M v i ;; x <- op a b ;; vset M v i x) v.
Definition vec_map_assign (M : nat) (op : T -> res T) v : res (list T) :=
  for_ 0 M (fun i v => a <- vat M v i ;; x <- op a ;; vset M v i x) v.
(** vector.hpp:801-807, 811-817, 821-827, 831-837. *)
Definition vec_mul_assign M := vec_zip_assign M (fun a b => Ok (smul a b)).
Definition vec_div_assign M := vec_zip_assign M sdiv.
Definition vec_add_assign M := vec_zip_assign M (fun a b => Ok (sadd a b)).
Definition vec_sub_assign M := vec_zip_assign M (fun a b => Ok (ssub a b)).
(** vector.hpp:890-896, 900-906, 910-916, 920-926. *)
Definition vec_mul_assign_s M v (s : T) := vec_map_assign M (fun a => Ok (smul a s)) v.
Definition vec_div_assign_s M v (s : T) := vec_map_assign M (fun a => sdiv a s) v.
Definition vec_add_assign_s M v (s : T) := vec_map_assign M (fun a => Ok (sadd a s)) v.
Definition vec_sub_assign_s M v (s : T) := vec_map_assign M (fun a => Ok (ssub a s)) v.

(** vector.hpp:940-946 negate(). *)
Definition vec_negate (M : nat) v : res (list T) :=
  for_ 0 M (fun i v => a <- rd v i ;; wr v i (sopp a)) v.
(** vector.hpp:930-935 unary operator-: negates a copy. *)
Definition vec_neg (M : nat) v : res (list T) := vec_negate M v.

(** vector.hpp:1106-1114 void cross( aa, bb ): the three components are written
    one after the other, so an operand that is [*this] is read partly after it
    was overwritten. *)
Definition vec_cross_into (v : list T) (aa bb : arg T) : res (list T) :=
  ay <- rd (argl v aa) 1 ;; bz <- rd (argl v bb) 2 ;;
  az <- rd (argl v aa) 2 ;; by_ <- rd (argl v bb) 1 ;;
  v <- wr v 0 (ssub (smul ay bz) (smul az by_)) ;;
  az <- rd (argl v aa) 2 ;; bx <- rd (argl v bb) 0 ;;
  ax <- rd (argl v aa) 0 ;; bz <- rd (argl v bb) 2 ;;
  v <- wr v 1 (ssub (smul az bx) (smul ax bz)) ;;
  ax <- rd (argl v aa) 0 ;; by_ <- rd (argl v bb) 1 ;;
  ay <- rd (argl v aa) 1 ;; bx <- rd (argl v bb) 0 ;;
  wr v 2 (ssub (smul ax by_) (smul ay bx)).
(** vector.hpp:1093-1101 Vector cross( rhs ) const. *)
Definition vec_cross (a b : list T) : res (list T) :=
  vec_cross_into (vec_default 3) (Val a) (Val b).

(** vector.hpp:1119-1127 dot(). *)
Definition vec_dot (M : nat) u v : res T :=
  for_ 0 M (fun i tmp =>
    a <- vat M u i ;; b <- vat M v i ;; Ok (sadd tmp (smul a b))) szero.
(** vector.hpp:1149-1157 squared_length(). *)
Definition vec_squared_length (M : nat) v : res T :=
  for_ 0 M (fun i tmp => a <- rd v i ;; Ok (sadd tmp (smul a a))) szero.
(** vector.hpp:1143-1147 length(). *)
Definition vec_length (M : nat) v : res T :=
  s <- vec_squared_length M v ;; ssqrt s.
(** vector.hpp:1130-1141 normalize(): returns the old length and the new
    contents.  (1.0 / len is a T division for T = double and in the exact
    model; for T = float the code divides in double and rounds.) *)
Definition vec_normalize (M : nat) v : res (T * list T) :=
  len <- vec_length M v ;;
  if seqb len szero then Ok (szero, v)
  else tmp <- sdiv sone len ;; v' <- vec_mul_assign_s M v tmp ;; Ok (len, v').
(** vector.hpp:471-477 free normalize(): works on a copy. *)
Definition vec_normalized (M : nat) v : res (list T) :=
  '(_, v') <- vec_normalize M v ;; Ok v'.
(** vector.hpp:1170-1176 squared_distance(). *)
Definition vec_squared_distance (M : nat) u v : res T :=
  t <- vec_sub_assign M u (Val v) ;; vec_squared_length M t.
(** vector.hpp:1161-1166 distance(). *)
Definition vec_distance (M : nat) u v : res T :=
  s <- vec_squared_distance M u v ;; ssqrt s.
(** vector.hpp:1737-1750 norm(): accumulates in double; here in T. *)
Definition vec_norm (M : nat) v : res T :=
  s <- for_ 0 M (fun i acc => a <- rd v i ;; Ok (sadd acc (smul a a))) szero ;;
  ssqrt s.
(** vector.hpp:1178-1184 product(). *)
Definition vec_product (M : nat) v : res T :=
  r <- vat M v 0 ;;
  for_ 1 M (fun i r => a <- vat M v i ;; Ok (smul r a)) r.

(** vector.hpp:1186-1198 compute_normal( aa, bb, cc ) into *this: u and v are
    temporaries computed before *this is written. *)
Definition vec_compute_normal_into (v : list T) (aa bb cc : arg T) : res (list T) :=
  u <- vec_sub 3 (argl v bb) (argl v aa) ;;
  w <- vec_sub 3 (argl v cc) (argl v aa) ;;
  v <- vec_cross_into v (Val u) (Val w) ;;
  '(_, v) <- vec_normalize 3 v ;; Ok v.
(** vector.hpp:1202-1209 compute_normal( bb, cc ) const. *)
Definition vec_compute_normal (a b c : list T) : res (list T) :=
  vec_compute_normal_into (vec_default 3) (Val a) (Val b) (Val c).

(** vector.hpp:1267-1281 get_sub_vector< N >( offset ): the window
    [offset, offset+N).  The code only asserts offset <= M - N; a window
    leaving the array is UB. *)
Definition vec_sub_vector (N : nat) v (offset : nat) : res (list T) :=
  if offset + N <=? length v then Ok (firstn N (skipn offset v)) else UB.
(** vector.hpp:1267-1273: writing through the returned reference. *)
Definition vec_sub_vector_set (N : nat) v (offset i : nat) (x : T) : res (list T) :=
  if offset + N <=? length v
  then (if (N <=? i) && safe then Throw else wr v (offset + i) x) else UB.

(** vector.hpp:1347-1355 operator=( Vector< M-1, T > ), 569-574 ctor: append 1. *)
Definition vec_to_hom (M : nat) v (src : list T) : res (list T) :=
  v <- copy_n (M - 1) src 0 v 0 ;; vset M v (M - 1) sone.
(** vector.hpp:1360-1370 operator=( Vector< M+1, T > ), 581-586 ctor. *)
Definition vec_from_hom (M : nat) v (src : list T) : res (list T) :=
  w <- vat (M + 1) src M ;; w_reci <- sdiv sone w ;;
  for_ 0 M (fun i v => a <- vat (M + 1) src i ;; wr v i (smul a w_reci)) v.

(** vector.hpp:479-491 compute_plane(). *)
Definition vec_compute_plane (a b c : list T) : res (list T) :=
  cb <- vec_sub 3 b c ;; ba <- vec_sub 3 a b ;;
  cr <- vec_cross cb ba ;;
  plane <- vec_to_hom 4 (vec_default 4) cr ;;
  '(_, plane) <- vec_normalize 4 plane ;;
  px <- rd plane 0 ;; py <- rd plane 1 ;; pz <- rd plane 2 ;;
  ax <- rd a 0 ;; ay <- rd a 1 ;; az <- rd a 2 ;;
  wr plane 3 (ssub (ssub (smul (sopp px) ax) (smul py ay)) (smul pz az)).

(** vector.hpp:1236-1251 project_point_onto_sphere(). *)
Definition vec_project_sphere (sphere point : list T) : res (list T) :=
  center <- vec_sub_vector 3 sphere 0 ;;
  p <- vec_sub_assign 3 point (Val center) ;;
  '(_, p) <- vec_normalize 3 p ;;
  w <- rd sphere 3 ;;
  p <- vec_mul_assign_s 3 p w ;;
  vec_add 3 center p.
(** vector.hpp:1255-1265 distance_to_sphere(). *)
Definition vec_dist_sphere (sphere point : list T) : res T :=
  center <- vec_sub_vector 3 sphere 0 ;;
  d <- vec_sub 3 point center ;; len <- vec_length 3 d ;;
  w <- rd sphere 3 ;; Ok (ssub len w).
(** vector.hpp:1285-1291 distance_to_plane(). *)
Definition vec_dist_plane (plane point : list T) : res T :=
  normal <- vec_sub_vector 3 plane 0 ;;
  d <- vec_dot 3 normal point ;; w <- rd plane 3 ;; Ok (sadd d w).
(** vector.hpp:1296-1304 project_point_onto_plane(). *)
Definition vec_project_plane (plane point : list T) : res (list T) :=
  normal <- vec_sub_vector 3 plane 0 ;;
  d <- vec_dist_plane plane point ;;
  q <- vec_mul_s 3 normal d ;; vec_sub 3 point q.

(** vector.hpp:1308-1312 operator== (memcmp), 1315-1319 operator!=. *)
Fixpoint list_bits (u v : list T) : bool :=
  match u, v with
  | [], [] => true
  | a :: u', b :: v' => sbits a b && list_bits u' v'
  | _, _ => false
  end.
Definition vec_eq (u v : list T) : bool := list_bits u v.
Definition vec_neq (u v : list T) : bool := negb (vec_eq u v).

(** vector.hpp:1322-1331 equals( other, tolerance ). *)
Definition vec_equals (M : nat) u v (tol : T) : res bool :=
  r <- forr 0 M (fun i _ =>
         a <- vat M u i ;; b <- vat M v i ;;
         Ok (if sleb tol (sabs (ssub a b)) then inr false else inl tt)) tt ;;
  Ok (match r with inl _ => true | inr b => b end).
(** vector.hpp:419-423 free equals( a, b ): default tolerance, vector.hpp:143. *)
Definition vec_equals_default (M : nat) u v : res bool := vec_equals M u v seps.

(** vector.hpp:1334-1344 operator<. *)
Definition vec_less (M : nat) u v : res bool :=
  r <- forr 0 M (fun i _ =>
         a <- vat M u i ;; b <- vat M v i ;;
         if sltb a b then Ok (inr true)
         else if sltb b a then Ok (inr false) else Ok (inl tt)) tt ;;
  Ok (match r with inl _ => false | inr b => b end).

(** vector.hpp:1415-1424 iter_set( begin, end ): [src] is the range. *)
Definition vec_iter_set (M : nat) v (src : list T) : res (list T) :=
  for_ 0 (Nat.min M (length src)) (fun i v => x <- rd src i ;; wr v i x) v.
(** vector.hpp:1373-1378 operator=( const T* c_array ): the range is
    [c_array, c_array + M); a shorter array is read past its end. *)
Definition vec_assign_ptr (M : nat) v (c_array : list T) : res (list T) :=
  for_ 0 M (fun i v => x <- rd c_array i ;; wr v i x) v.
(** vector.hpp:1382-1388 operator=( T filler ). *)
Definition vec_assign_fill (M : nat) v (x : T) : res (list T) :=
  for_ 0 M (fun i v => vset M v i x) v.
(** vector.hpp:1393-1399 operator=( const Vector& ): self-assignment is
    skipped. *)
Definition vec_assign (M : nat) v (o : arg T) : res (list T) :=
  match o with Self => Ok v | Val src => copy_n M src 0 v 0 end.
(** vector.hpp:1403-1411 operator=( Vector< M, U > ), 590-595 ctor and
    1683-1697 cast_from(): element-wise static_cast. *)
Definition vec_cast_from {U : Type} (cast : U -> T) (M : nat) v (src : list U)
  : res (list T) :=
  for_ 0 M (fun i v => x <- rd src i ;; wr v i (cast x)) v.

(** vector.hpp:1426-1436 clamp( min, max ). *)
Definition vec_clamp (M : nat) v (mn mx : T) : res (list T) :=
  for_ 0 M (fun i v =>
    a <- rd v i ;;
    v <- (if sltb a mn then wr v i mn else Ok v) ;;
    a <- rd v i ;;
    (if sltb mx a then wr v i mx else Ok v)) v.

(** vector.hpp:1440-1457 scale_to( result, min, max ); [maxTT] is
    numeric_limits< TT >::max() converted to T and [cast] the conversion
    static_cast< TT >.  Simplified: 0.5 and 1.0 are converted to T before the
    arithmetic, which is exact for a floating-point T only (the intended use);
    for integer T the C++ computes both products in double and truncates. *)
Definition vec_scale_to {U : Type} (cast : T -> U) (maxTT : T) (M : nat) v
  (result : list U) (mn mx : T) : res (list U) :=
  let range := ssub mx mn in
  let half_range := smul range shalf in
  inv <- sdiv sone range ;;
  let scale := smul inv maxTT in
  for_ 0 M (fun i result =>
    a <- vat M v i ;;
    (if (M <=? i) && safe then Throw
     else wr result i (cast (smul (sadd a half_range) scale)))) result.

(** std::min_element / std::max_element over [v] with comparator [comp]: index
    of the result (an empty range yields [end], index 0 of an empty array). *)
Definition min_element_by (comp : T -> T -> bool) v : res nat :=
  for_ 1 (length v) (fun i best =>
    x <- rd v i ;; y <- rd v best ;; Ok (if comp x y then i else best)) 0.
Definition max_element_by (comp : T -> T -> bool) v : res nat :=
  for_ 1 (length v) (fun i best =>
    x <- rd v i ;; y <- rd v best ;; Ok (if comp y x then i else best)) 0.
(** math.hpp:81-99 abs_less, abs_greater. *)
Definition abs_less (a b : T) : bool := sltb (sabs a) (sabs b).
Definition abs_greater (a b : T) : bool := sltb (sabs b) (sabs a).
(** vector.hpp:1469-1474, 1478-1483, 1487-1492, 1496-1501. *)
Definition vec_find_min_index v := min_element_by sltb v.
Definition vec_find_max_index v := max_element_by sltb v.
Definition vec_find_abs_min_index v := min_element_by abs_less v.
Definition vec_find_abs_max_index v := max_element_by abs_greater v.
(** vector.hpp:1505-1538 find_min(), find_max(). *)
Definition vec_find_min v : res T := i <- vec_find_min_index v ;; rd v i.
Definition vec_find_max v : res T := i <- vec_find_max_index v ;; rd v i.

(** vector.hpp:1606-1626 is_unit_vector(). *)
Definition vec_is_unit_vector (M : nat) v : res bool :=
  r <- forr 0 M (fun i (one : bool) =>
         x <- rd v i ;;
         if seqb x sone then (if one then Ok (inr false) else Ok (inl true))
         else if negb (seqb x szero) then Ok (inr false) else Ok (inl one)) false ;;
  Ok (match r with inl one => one | inr b => b end).

(** vector.hpp:1642-1649 sqrt_elementwise(). *)
Definition vec_sqrt (M : nat) v : res (list T) :=
  for_ 0 M (fun i v => a <- rd v i ;; x <- ssqrt a ;; wr v i x) v.
(** vector.hpp:1654-1661 reciprocal(). *)
Definition vec_reciprocal (M : nat) v : res (list T) :=
  for_ 0 M (fun i v => a <- rd v i ;; x <- sdiv sone a ;; wr v i x) v.
(** vector.hpp:1666-1678 reciprocal_safe(). *)
Definition vec_reciprocal_safe (M : nat) v : res (list T) :=
  for_ 0 M (fun i v =>
    a <- rd v i ;;
    if seqb a szero then wr v i smax
    else x <- sdiv sone a ;; wr v i x) v.
(** vector.hpp:1699-1715 nnz(). *)
Definition vec_nnz (M : nat) v : res nat :=
  for_ 0 M (fun i n => a <- rd v i ;; Ok (if seqb a szero then n else S n)) 0.

(** rand(): [rnd seed k] is the [k]-th value after srand( seed ); the state is
    the current seed and the number of values consumed. *)
Definition rng : Type := (Z * nat)%type.
Definition rand_next (rnd : Z -> nat -> Z) (s : rng) : Z * rng :=
  (rnd (fst s) (snd s), (fst s, S (snd s))).
(** vector.hpp:1631-1639 perturb(). *)
Definition vec_perturb (rnd : Z -> nat -> Z) (M : nat) v (p : T) (s : rng)
  : res (list T * rng) :=
  for_ 0 M (fun i '(v, s) =>
    let '(k, s) := rand_next rnd s in
    a <- rd v i ;;
    v <- wr v i (sadd a (if Z.odd k then p else sopp p)) ;; Ok (v, s)) (v, s).
(** vector.hpp:1752-1763 set_random( seed ); [ofZ] converts int to double. *)
Definition vec_set_random (rnd : Z -> nat -> Z) (RAND_MAX : Z) (ofZ : Z -> T)
  (M : nat) v (seed : Z) (s : rng) : res (list T * rng) :=
  let s := if (0 <=? seed)%Z then (seed, 0) else s in
  for_ 0 M (fun i '(v, s) =>
    let '(k, s) := rand_next rnd s in
    fill <- sdiv (ofZ k) (ofZ RAND_MAX) ;;
    v <- vset M v i (sadd (sopp sone) (smul stwo fill)) ;; Ok (v, s)) (v, s).

(** util.hpp:143-147 zero(). *)
Definition vec_zero (M : nat) v : res (list T) := for_ 0 M (fun i v => wr v i szero) v.
(** util.hpp:149-169 min(), max() (std::min( a, b ) is b < a ? b : a,
    std::max( a, b ) is a < b ? b : a). *)
Definition smin2 (a b : T) : T := if sltb b a then b else a.
Definition smax2 (a b : T) : T := if sltb a b then b else a.
Definition vec_min (M : nat) u v : res (list T) :=
  for_ 0 M (fun i r => a <- rd u i ;; b <- rd v i ;; wr r i (smin2 a b)) (vec_default M).
Definition vec_max (M : nat) u v : res (list T) :=
  for_ 0 M (fun i r => a <- rd u i ;; b <- rd v i ;; wr r i (smax2 a b)) (vec_default M).
(** util.hpp:171-182 manhattan(). *)
Definition vec_manhattan (M : nat) v : res T :=
  for_ 0 M (fun i acc => a <- rd v i ;; Ok (sadd acc (sabs a))) szero.
End Vector.

Section VectorTrig.
Context {cfg : Cfg} {T : Type} {ST : Scalar T} {TT : Trig T}.
(** vector.hpp:1211-1232 rotate( theta, axis ): [axis] is a by-value copy. *)
Definition vec_rotate (v : list T) (theta : T) (axis : list T) : res (list T) :=
  '(_, axis) <- vec_normalize 3 axis ;;
  let c := scos theta in
  let s := ssin theta in
  let k := ssub sone c in
  ax <- rd axis 0 ;; ay <- rd axis 1 ;; az <- rd axis 2 ;;
  x <- rd v 0 ;; y <- rd v 1 ;; z <- rd v 2 ;;
  vec_set3 (vec_default 3)
    (sadd (sadd (smul (sadd c (smul (smul k ax) ax)) x)
                (smul (ssub (smul (smul k ax) ay) (smul az s)) y))
          (smul (sadd (smul (smul k ax) az) (smul ay s)) z))
    (sadd (sadd (smul (sadd (smul (smul k ax) ay) (smul az s)) x)
                (smul (sadd c (smul (smul k ay) ay)) y))
          (smul (ssub (smul (smul k ay) az) (smul ax s)) z))
    (sadd (sadd (smul (ssub (smul (smul k ax) az) (smul ay s)) x)
                (smul (sadd (smul (smul k ay) az) (smul ax s)) y))
          (smul (sadd c (smul (smul k az) az)) z)).
End VectorTrig.
