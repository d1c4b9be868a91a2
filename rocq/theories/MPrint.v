(** What the output operators print. *)
From Verif Require Export MExtra.
Local Open Scope nat_scope.
Local Open Scope list_scope.

(** std::ostream << int with the given format: the decimal digits padded with
    blanks to the width (the fill character is a blank; the base is 10; no
    showpos). *)
Definition show_int_fmt (f : fmt) (z : Z) : list ascii := pad f (show_int z).
(** frustum_culler.hpp:51-56 operator<<( Visibility ). *)
Definition vis_print (v : visibility) (st : list ascii * fmt) : list ascii * fmt :=
  put_str (list_ascii_of_string (match v with
    | V_NONE => "not visible      "
    | V_PARTIAL => "partially visible"
    | V_FULL => "fully visible    "
    end)) st.
(** The rows of a matrix in the order matrix.hpp:463-471 visits the cells:
    matrix.at( row, col ) for col = 0 .. N-1 (cell (row,col) is array[ col * M +
    row ]). *)
Definition mat_rows {T : Type} (dflt : T) (M N : nat) (m : list T) : list (list T) :=
  map (fun r => map (fun c => nth (c * M + r) m dflt) (seq 0 N)) (seq 0 M).
(** The format of a freshly opened std::ofstream: no adjust bit, precision 6,
    width 0 (std::basic_ios::init). *)
Definition fresh_fmt : fmt := {| f_left := false; f_right := false; f_internal := false; f_prec := 6; f_width := 0 |}.
(** matrix.hpp:2685-2712 write_csv_file with the text operator<< produces. *)
Definition mat_write_csv_file {T : Type} (show_fmt : fmt -> T -> list ascii) (dflt : T) (can_create : string -> bool) (fs : files)
  (M N : nat) (m : list T) (dir file : string) : files :=
  mat_write_csv can_create fs (fst (mat_print show_fmt (mat_rows dflt M N m) ([], fresh_fmt))) dir file.
