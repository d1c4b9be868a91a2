(** Named accessors, static constants, free functions, Quaternion::normal, CSV
    files and the remaining output operators. *)
From Verif Require Export MIo MFrustum MAabb.
Local Open Scope nat_scope.
Local Open Scope list_scope.

(** vector.hpp:951-1090 the accessors x() y() z() w() and r() g() b() a(), const
    and not: a reference to one element of the array. *)
Inductive comp := CX | CY | CZ | CW | CR | CG | CB | CA.
Definition comp_index (c : comp) : nat :=
  match c with CX | CR => 0 | CY | CG => 1 | CZ | CB => 2 | CW | CA => 3 end.
Definition vec_comp {T} (v : list T) (c : comp) : res T := rd v (comp_index c).
Definition vec_comp_put {T} (v : list T) (c : comp) (x : T) : res (list T) := wr v (comp_index c) x.

(** frustum.hpp:347-417 left() right() bottom() top() near_plane() far_plane(),
    as references; 422-429 get_width(), get_height(). *)
Inductive side := SLeft | SRight | SBottom | STop | SNear | SFar.
Definition side_index (s : side) : nat :=
  match s with SLeft => 0 | SRight => 1 | SBottom => 2 | STop => 3 | SNear => 4 | SFar => 5 end.
Definition fr_side {T} (fr : list T) (s : side) : res T := rd fr (side_index s).
Definition fr_side_put {T} (fr : list T) (s : side) (x : T) : res (list T) := wr fr (side_index s) x.

Section Statics.
Context {cfg : Cfg} {T : Type} {ST : Scalar T}.
(** vector.hpp:378-403: objects with static storage duration are zeroed before
    the constructor Vector( x, y, z ) (vector.hpp:510-516) runs. *)
Definition vec_static3 (M : nat) (x y z : T) : res (list T) := vec_set3 (repeat szero M) x y z.
Definition vec_FORWARD (M : nat) := vec_static3 M szero szero (sopp sone).
Definition vec_BACKWARD (M : nat) := vec_static3 M szero szero sone.
Definition vec_UP (M : nat) := vec_static3 M szero sone szero.
Definition vec_DOWN (M : nat) := vec_static3 M szero (sopp sone) szero.
Definition vec_LEFT (M : nat) := vec_static3 M (sopp sone) szero szero.
Definition vec_RIGHT (M : nat) := vec_static3 M sone szero szero.
Definition vec_UNIT_X (M : nat) := vec_static3 M sone szero szero.
Definition vec_UNIT_Y (M : nat) := vec_static3 M szero sone szero.
Definition vec_UNIT_Z (M : nat) := vec_static3 M szero szero sone.
(** vector.hpp:393-396 ONE, ZERO: the fill constructor, vector.hpp:493-500. *)
Definition vec_ONE (M : nat) := vec_ctor_fill M (repeat szero M) sone.
Definition vec_ZERO (M : nat) := vec_ctor_fill M (repeat szero M) szero.

(** vector.hpp:442-468 the free functions equals, factor * vector, dot, cross. *)
Definition free_equals (M : nat) (u v : list T) : res bool := vec_equals_default M u v.
Definition free_scale (M : nat) (factor : T) (v : list T) : res (list T) := vec_mul_s M v factor.
Definition free_dot (M : nat) (u v : list T) : res T := vec_dot M u v.
Definition free_cross (u v : list T) : res (list T) := vec_cross u v.

(** util.hpp:52-57 equals( arg0, arg1 ): [eps] is numeric_limits< float >::epsilon(). *)
Definition util_equals (eps : T) (a b : T) : bool := sltb (sabs (ssub a b)) eps.

(** quaternion.hpp:808-822 normal( aa, bb, cc, dd ): the three cross products are
    computed and dropped. *)
Definition q_normal4 (q aa bb cc dd : list T) : res (list T) :=
  t <- q_sub bb aa ;; u <- q_sub cc aa ;; v <- q_sub dd aa ;;
  _ <- q_cross q t ;; _ <- q_cross q u ;; _ <- q_cross q v ;;
  '(_, q) <- q_normalize q ;; Ok q.
(** quaternion.hpp:826-834 normal( aa, bb, cc ). *)
Definition q_normal3 (q aa bb cc : list T) : res (list T) :=
  tmp <- q_default ;; q_normal4 tmp q aa bb cc.
End Statics.

(** matrix.hpp:2685-2712 write_csv_file: [text] is what operator<< produces for
    the matrix on a fresh stream; the file gets the text and a newline. *)
Definition mat_write_csv (can_create : string -> bool) (fs : files) (text : list ascii) (dir file : string) : files :=
  let p := csv_path dir file in
  if can_create p then file_put fs p (text ++ ["010"%char]) else fs.
(** matrix.hpp:2714-2742 read_csv_file: opens and closes the file. *)
Definition mat_read_csv {T} (fs : files) (m : list T) (dir file : string) : list T :=
  match fs (csv_path dir file) with Some _ => m | None => m end.

(** ** The other output operators *)
Section Print2.
Context {T : Type}.
Variable show_fmt : fmt -> T -> list ascii.
(** frustum.hpp:105-121 operator<<( Frustum ): six fields of width 10. *)
Definition fr_print (fr : list T) (st : list ascii * fmt) : res (list ascii * fmt) :=
  let '(out, f) := st in
  l <- rd fr 0 ;; r <- rd fr 1 ;; b <- rd fr 2 ;; t <- rd fr 3 ;; n <- rd fr 4 ;; fa <- rd fr 5 ;;
  let sp := put_str [" "%char] in
  let item x st := put_item show_fmt x (put_width 10 st) in
  let '(out, g) := put_str ["]"%char]
    (item fa (sp (item n (sp (item t (sp (item b (sp (item r (sp (item l
      (put_str ["["%char] (out, set_prec (setf_right f) 5))))))))))))) in
  Ok (out, setf_or (set_prec g (f_prec f)) f).
(** quaternion.hpp:177-187 operator<<( Quaternion ). *)
Definition q_print (q : list T) (st : list ascii * fmt) : res (list ascii * fmt) :=
  x <- rd q 0 ;; y <- rd q 1 ;; z <- rd q 2 ;; w <- rd q 3 ;;
  let comma := put_str [","; " "]%char in
  Ok (put_str [")"; " "]%char (put_item show_fmt w (comma (put_item show_fmt z
       (comma (put_item show_fmt y (comma (put_item show_fmt x (put_str ["("%char] st))))))))).
(** aabb.hpp:108-113 operator<<( AABB ). *)
Definition box_print (mn mx : list T) (st : list ascii * fmt) : list ascii * fmt :=
  vec_print show_fmt mx (put_str [" "; "-"; " "]%char (vec_print show_fmt mn st)).
End Print2.
