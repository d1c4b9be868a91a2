(** Models of vmmlib/frustum.hpp, vmmlib/frustum_culler.hpp and
    vmmlib/intersection.hpp. *)
From Verif Require Export MQuaternion.

(** M_PI (math.hpp:38-40); exactly pi in the real instance. *)
Class HasPi (T : Type) := { spi : T }.
#[export] Instance RPi : HasPi R := { spi := PI }.

Section Frustum.
Context {cfg : Cfg} {T : Type} {ST : Scalar T} {LT : Lit T} {TT : Trig T} {PT : HasPi T}.
Implicit Types fr m : list T.
Local Notation "a *' b" := (smul a b) (at level 40, left associativity).
Local Notation "a +' b" := (sadd a b) (at level 50, left associativity).
Local Notation "a -' b" := (ssub a b) (at level 50, left associativity).

(** frustum.hpp:51-52 the class: left, right, bottom, top, near, far. *)
Definition fr_left fr := rd fr 0.
Definition fr_right fr := rd fr 1.
Definition fr_bottom fr := rd fr 2.
Definition fr_top fr := rd fr 3.
Definition fr_near fr := rd fr 4.
Definition fr_far fr := rd fr 5.
(** frustum.hpp:53 Frustum() zeroes the array. *)
Definition fr_default : list T := repeat szero 6.
(** frustum.hpp:212-223 set( left, right, bottom, top, near, far ), 155-160 ctor. *)
Definition fr_set fr (l r b t n f : T) : res (list T) :=
  fr <- wr fr 0 l ;; fr <- wr fr 1 r ;; fr <- wr fr 2 b ;; fr <- wr fr 3 t ;;
  fr <- wr fr 4 n ;; wr fr 5 f.
(** frustum.hpp:146-152 DEFAULT. *)
Definition fr_DEFAULT : res (list T) :=
  fr_set fr_default (sopp sone) sone (sopp sone) sone (slit 1 10) (slit 100 1).
(** frustum.hpp:172-184 Frustum( values ); same element type. *)
Definition fr_of_values (values : list T) : res (list T) :=
  for_ 0 6 (fun i fr => x <- rd values i ;; wr fr i x) fr_default.
(** frustum.hpp:194-199, 201-208 operator=, 163-168 copy construction. *)
Definition fr_assign fr (o : arg T) : res (list T) := copy_n 6 (argl fr o) 0 fr 0.
(** frustum.hpp:228-241 adjust_near(). *)
Definition fr_adjust_near fr (new_near : T) : res (list T) :=
  n <- fr_near fr ;;
  if seqb new_near n then Ok fr
  else
    ratio <- sdiv new_near n ;;
    x <- fr_right fr ;; fr <- wr fr 1 (x *' ratio) ;;
    x <- fr_left fr ;; fr <- wr fr 0 (x *' ratio) ;;
    x <- fr_top fr ;; fr <- wr fr 3 (x *' ratio) ;;
    x <- fr_bottom fr ;; fr <- wr fr 2 (x *' ratio) ;;
    wr fr 4 new_near.
(** frustum.hpp:246-259 set_perspective(). *)
Definition fr_set_perspective fr (fov_y aspect near far : T) : res (list T) :=
  fr <- wr fr 4 near ;; fr <- wr fr 5 far ;;
  a <- sdiv (shalf *' fov_y *' spi) (slit 180 1) ;;
  fr <- wr fr 3 (stan a *' shalf) ;;
  t <- fr_top fr ;; fr <- wr fr 2 (sopp t) ;;
  b <- fr_bottom fr ;; fr <- wr fr 0 (b *' aspect) ;;
  t <- fr_top fr ;; wr fr 1 (t *' aspect).
(** frustum.hpp:274-298 compute_matrix( M ), 263-270 the value form.  The order
    of the divisions is the code's. *)
Definition fr_compute_matrix_into fr m : res (list T) :=
  l <- fr_left fr ;; r <- fr_right fr ;; b <- fr_bottom fr ;; t <- fr_top fr ;;
  n <- fr_near fr ;; f <- fr_far fr ;;
  x <- sdiv (stwo *' n) (r -' l) ;; m <- mat_put 4 4 m 0 0 x ;;
  m <- mat_put 4 4 m 0 1 szero ;;
  x <- sdiv (r +' l) (r -' l) ;; m <- mat_put 4 4 m 0 2 x ;;
  m <- mat_put 4 4 m 0 3 szero ;;
  m <- mat_put 4 4 m 1 0 szero ;;
  x <- sdiv (stwo *' n) (t -' b) ;; m <- mat_put 4 4 m 1 1 x ;;
  x <- sdiv (t +' b) (t -' b) ;; m <- mat_put 4 4 m 1 2 x ;;
  m <- mat_put 4 4 m 1 3 szero ;;
  m <- mat_put 4 4 m 2 0 szero ;;
  m <- mat_put 4 4 m 2 1 szero ;;
  x <- sdiv (sopp (f +' n)) (f -' n) ;; m <- mat_put 4 4 m 2 2 x ;;
  x <- sdiv (sopp stwo *' f *' n) (f -' n) ;; m <- mat_put 4 4 m 2 3 x ;;
  m <- mat_put 4 4 m 3 0 szero ;;
  m <- mat_put 4 4 m 3 1 szero ;;
  m <- mat_put 4 4 m 3 2 (sopp sone) ;;
  mat_put 4 4 m 3 3 szero.
Definition fr_compute_matrix fr : res (list T) :=
  m <- mat_default 4 4 ;; fr_compute_matrix_into fr m.
(** frustum.hpp:313-336 compute_ortho_matrix( M ), 302-309 the value form. *)
Definition fr_compute_ortho_matrix_into fr m : res (list T) :=
  l <- fr_left fr ;; r <- fr_right fr ;; b <- fr_bottom fr ;; t <- fr_top fr ;;
  n <- fr_near fr ;; f <- fr_far fr ;;
  x <- sdiv stwo (r -' l) ;; m <- mat_put 4 4 m 0 0 x ;;
  m <- mat_put 4 4 m 0 1 szero ;;
  m <- mat_put 4 4 m 0 2 szero ;;
  x <- sdiv (sopp (r +' l)) (r -' l) ;; m <- mat_put 4 4 m 0 3 x ;;
  m <- mat_put 4 4 m 1 0 szero ;;
  x <- sdiv stwo (t -' b) ;; m <- mat_put 4 4 m 1 1 x ;;
  m <- mat_put 4 4 m 1 2 szero ;;
  x <- sdiv (sopp (t +' b)) (t -' b) ;; m <- mat_put 4 4 m 1 3 x ;;
  m <- mat_put 4 4 m 2 0 szero ;;
  m <- mat_put 4 4 m 2 1 szero ;;
  x <- sdiv (sopp stwo) (f -' n) ;; m <- mat_put 4 4 m 2 2 x ;;
  x <- sdiv (sopp (f +' n)) (f -' n) ;; m <- mat_put 4 4 m 2 3 x ;;
  m <- mat_put 4 4 m 3 0 szero ;;
  m <- mat_put 4 4 m 3 1 szero ;;
  m <- mat_put 4 4 m 3 2 szero ;;
  mat_put 4 4 m 3 3 sone.
Definition fr_compute_ortho_matrix fr : res (list T) :=
  m <- mat_default 4 4 ;; fr_compute_ortho_matrix_into fr m.
(** frustum.hpp:338-345 apply_jitter(). *)
Definition fr_apply_jitter fr (j : list T) : res (list T) :=
  x <- fr_left fr ;; jx <- rd j 0 ;; fr <- wr fr 0 (x +' jx) ;;
  x <- fr_right fr ;; jx <- rd j 0 ;; fr <- wr fr 1 (x +' jx) ;;
  x <- fr_bottom fr ;; jy <- rd j 1 ;; fr <- wr fr 2 (x +' jy) ;;
  x <- fr_top fr ;; jy <- rd j 1 ;; wr fr 3 (x +' jy).
(** frustum.hpp:419-427 get_width(), get_height(). *)
Definition fr_get_width fr : res T := r <- fr_right fr ;; l <- fr_left fr ;; Ok (sabs (r -' l)).
Definition fr_get_height fr : res T := t <- fr_top fr ;; b <- fr_bottom fr ;; Ok (sabs (t -' b)).

(** ** frustum_culler.hpp *)
(** frustum_culler.hpp:44-49 the result of a visibility test. *)
Inductive visibility := V_NONE | V_PARTIAL | V_FULL.
(** frustum_culler.hpp:102-107 the six planes: left, right, bottom, top, near,
    far. *)
Definition culler : Type := (list T * list T * list T * list T * list T * list T)%type.

(** frustum_culler.hpp:182-192 _normalize_plane(): v3 refers to the first three
    components of plane itself, but its length is taken before the writes. *)
Definition fc_normalize_plane (plane : list T) : res (list T) :=
  v <- vec_sub_vector 3 plane 0 ;; len <- vec_length 3 v ;; len_i <- sdiv sone len ;;
  x <- rd plane 0 ;; plane <- wr plane 0 (x *' len_i) ;;
  x <- rd plane 1 ;; plane <- wr plane 1 (x *' len_i) ;;
  x <- rd plane 2 ;; plane <- wr plane 2 (x *' len_i) ;;
  x <- rd plane 3 ;; wr plane 3 (x *' len_i).
(** frustum_culler.hpp:137-160 setup( proj_modelview ). *)
Definition fc_setup m : res culler :=
  row0 <- mat_get_row 4 4 m 0 ;; row1 <- mat_get_row 4 4 m 1 ;;
  row2 <- mat_get_row 4 4 m 2 ;; row3 <- mat_get_row 4 4 m 3 ;;
  l <- vec_add 4 row3 row0 ;; r <- vec_sub 4 row3 row0 ;;
  b <- vec_add 4 row3 row1 ;; t <- vec_sub 4 row3 row1 ;;
  n <- vec_add 4 row3 row2 ;; f <- vec_sub 4 row3 row2 ;;
  l <- fc_normalize_plane l ;; r <- fc_normalize_plane r ;;
  b <- fc_normalize_plane b ;; t <- fc_normalize_plane t ;;
  n <- fc_normalize_plane n ;; f <- fc_normalize_plane f ;;
  Ok (l, r, b, t, n, f).
(** frustum_culler.hpp:162-180 setup( a, ..., h ). *)
Definition fc_setup_corners (a b c d e f g h : list T) : res culler :=
  left <- vec_compute_plane c a e ;; right <- vec_compute_plane f b d ;;
  bottom <- vec_compute_plane h d c ;; top <- vec_compute_plane a b f ;;
  near <- vec_compute_plane b a c ;; far <- vec_compute_plane g e f ;;
  Ok (left, right, bottom, top, near, far).

(** One of the six blocks of frustum_culler.hpp:195-251 test_sphere(): [inr] is
    the early return. *)
Definition fc_sphere_step (plane sphere : list T) (vis : visibility) : res (visibility + visibility) :=
  px <- rd plane 0 ;; py <- rd plane 1 ;; pz <- rd plane 2 ;; pw <- rd plane 3 ;;
  sx <- rd sphere 0 ;; sy <- rd sphere 1 ;; sz <- rd sphere 2 ;; sw <- rd sphere 3 ;;
  let distance := px *' sx +' py *' sy +' pz *' sz +' pw in
  if sleb distance (sopp sw) then Ok (inr V_NONE)
  else if sltb distance sw then Ok (inl V_PARTIAL) else Ok (inl vis).
Fixpoint fc_steps (step : list T -> visibility -> res (visibility + visibility))
  (planes : list (list T)) (vis : visibility) : res visibility :=
  match planes with
  | [] => Ok vis
  | p :: planes =>
      x <- step p vis ;;
      match x with inl vis => fc_steps step planes vis | inr r => Ok r end
  end.
Definition fc_planes (c : culler) : list (list T) :=
  let '(l, r, b, t, n, f) := c in [l; r; b; t; n; f].
Definition fc_test_sphere (c : culler) (sphere : list T) : res visibility :=
  fc_steps (fun p => fc_sphere_step p sphere) (fc_planes c) V_FULL.

(** frustum_culler.hpp:253-269 _test_aabb(): plane.dot( middle ) converts middle
    to homogeneous coordinates (vector.hpp:568-574). *)
Definition fc_test_plane (plane middle extent : list T) : res visibility :=
  h <- vec_to_hom 4 (vec_default 4) middle ;; d <- vec_dot 4 plane h ;;
  ex <- rd extent 0 ;; px <- rd plane 0 ;; ey <- rd extent 1 ;; py <- rd plane 1 ;;
  ez <- rd extent 2 ;; pz <- rd plane 2 ;;
  let n := ex *' sabs px +' ey *' sabs py +' ez *' sabs pz in
  Ok (if sleb szero (d -' n) then V_FULL else if sltb szero (d +' n) then V_PARTIAL else V_NONE).
(** frustum_culler.hpp:271-322 test_aabb( x, y, z ). *)
Definition fc_test_aabb (c : culler) (x y z : list T) : res visibility :=
  x0 <- vat 2 x 0 ;; x1 <- vat 2 x 1 ;; y0 <- vat 2 y 0 ;; y1 <- vat 2 y 1 ;;
  z0 <- vat 2 z 0 ;; z1 <- vat 2 z 1 ;;
  s <- vec_set3 (vec_default 3) (x0 +' x1) (y0 +' y1) (z0 +' z1) ;;
  middle <- vec_mul_s 3 s shalf ;;
  s <- vec_set3 (vec_default 3) (sabs (x1 -' x0)) (sabs (y1 -' y0)) (sabs (z1 -' z0)) ;;
  extent <- vec_mul_s 3 s shalf ;;
  fc_steps (fun p result =>
      v <- fc_test_plane p middle extent ;;
      Ok (match v with V_FULL => inl result | V_PARTIAL => inl V_PARTIAL | V_NONE => inr V_NONE end))
    (fc_planes c) V_FULL.

(** ** intersection.hpp *)
(** intersection.hpp:59-62 Intersection( origin, direction ). *)
Definition ray : Type := (list T * list T)%type.
Definition ray_make (origin direction : list T) : res ray :=
  d <- vec_normalized 3 direction ;; Ok (origin, d).
(** intersection.hpp:84-116 test_sphere( sphere, t ): the result and the new
    value of t. *)
Definition ray_test_sphere (ry : ray) (sphere : list T) (t : T) : res (bool * T) :=
  let '(origin, direction) := ry in
  x <- rd sphere 0 ;; y <- rd sphere 1 ;; z <- rd sphere 2 ;; radius <- rd sphere 3 ;;
  center <- vec_set3 (vec_default 3) x y z ;;
  centerVec <- vec_sub 3 center origin ;;
  proj <- vec_dot 3 centerVec direction ;;
  sqDistance <- vec_squared_length 3 centerVec ;;
  let sqRadius := radius *' radius in
  if sltb proj szero && sltb sqRadius sqDistance then Ok (false, t)
  else
    let sqCenterToProj := sqDistance -' proj *' proj in
    if sltb sqRadius sqCenterToProj then Ok (false, t)
    else
      distSurface <- ssqrt (sqRadius -' sqCenterToProj) ;;
      Ok (true, if sltb sqRadius sqDistance then proj -' distSurface else proj +' distSurface).
End Frustum.
