(** Model of the file and stream functions of vmmlib/matrix.hpp and
    vmmlib/vector.hpp. *)
From Coq Require Export Ascii String.
From Coq Require Import DecimalString DecimalZ.
From Verif Require Export MMatrix MNum.
Local Open Scope nat_scope.
Local Open Scope list_scope.

(** ** Raw files *)
(** The object representation of the element type: sizeof( T ) bytes. *)
Definition byte := ascii.
Class Repr (T : Type) := {
  tsize : nat;
  tenc : T -> list byte;
  tdec : list byte -> T;
  tsize_pos : 0 < tsize;
  tenc_length : forall x, List.length (tenc x) = tsize;
  tdec_enc : forall x, tdec (tenc x) = x
}.

(** std::string::find_last_of( "/" ) as an int: -1 when there is none. *)
Fixpoint find_last_sep (s : string) (i : Z) (best : Z) : Z :=
  match s with
  | EmptyString => best
  | String c s => find_last_sep s (i + 1) (if Ascii.eqb c "/"%char then i else best)
  end.
(** matrix.hpp:2611-2617, 2641-2647 the common part of the path: the directory,
    a separator unless the directory ends in one (or is empty), the file name.
    The lengths fit an int. *)
Definition raw_join (dir file : string) : string :=
  let dir_length := (Z.of_nat (String.length dir) - 1)%Z in
  let last_separator := find_last_sep dir 0 (-1) in
  let path := dir in
  let path := if (last_separator <? dir_length)%Z then append path "/" else path in
  append path file.
(** s.compare( i, 3, pat ) == 0 *)
Definition sub_is (pat s : string) : bool := prefix pat s.
(** std::string::find( pat, pos ): the first match at or after pos; [None] is
    npos. *)
Fixpoint sfind (pat s : string) (pos : nat) : option nat :=
  match pos, s with
  | O, EmptyString => if sub_is pat s then Some 0 else None
  | O, String _ s' => if sub_is pat s then Some 0 else option_map S (sfind pat s' 0)
  | S pos, EmptyString => None
  | S pos, String _ s' => option_map S (sfind pat s' pos)
  end.
(** matrix.hpp:2619, 2698 filename.find( ext, filename.size() - 3 ): the
    subtraction is in size_t and wraps for names of fewer than 3 characters;
    the wrapped position is beyond the end. *)
Definition find_suffix (ext file : string) : option nat :=
  if String.length file <? 3 then None else sfind ext file (String.length file - 3).
(** matrix.hpp:2607-2624 the path write_to_raw opens. *)
Definition raw_write_path (dir file : string) : string :=
  let path := raw_join dir file in
  match find_suffix "raw" file with
  | None => append (append path ".") "raw"
  | Some _ => path
  end.
(** matrix.hpp:2637-2647 the path read_from_raw opens. *)
Definition raw_read_path (dir file : string) : string := raw_join dir file.
(** matrix.hpp:2688-2701 the path write_csv_file opens, 2715-2730 read_csv_file. *)
Definition csv_path (dir file : string) : string :=
  let path := raw_join dir file in
  match find_suffix "csv" file with
  | None => append (append path ".") "csv"
  | Some _ => path
  end.

(** The files the program can see; writing a file creates or replaces it.
    [can_create] says which paths can be opened for writing. *)
Definition files := string -> option (list byte).
Definition file_put (fs : files) (p : string) (b : list byte) : files :=
  fun q => if String.eqb q p then Some b else fs q.

Section Raw.
Context {T : Type} {RT : Repr T}.
Implicit Types m : list T.

(** matrix.hpp:2629-2632 the bytes of the matrix, in storage order. *)
Definition raw_bytes m : list byte := flat_map tenc m.
(** matrix.hpp:2607-2637 write_to_raw( dir, file ).  The file is opened in text
    mode, which changes nothing on POSIX systems. *)
Definition mat_write_raw (can_create : string -> bool) (fs : files) m (dir file : string) : files :=
  let p := raw_write_path dir file in
  if can_create p then file_put fs p (raw_bytes m) else fs.

(** istream::read( data, n ) of an ifstream at position [pos] over [bytes]; the
    buffer beyond the characters delivered is left alone. *)
Record rstream := { rs_pos : nat; rs_fail : bool }.
Definition blit (src dst : list byte) : list byte := src ++ skipn (List.length src) dst.
Definition rs_read (bytes : list byte) (n : nat) (data : list byte) (s : rstream) : list byte * rstream :=
  if rs_fail s then (data, s)
  else
    let got := firstn n (skipn (rs_pos s) bytes) in
    (blit got data, {| rs_pos := rs_pos s + List.length got; rs_fail := List.length got <? n |}).

(** size_t subtraction with modulus [W]. *)
Definition wsub (W a b : nat) : nat := if b <=? a then a - b else a + W - b.
(** *T_ptr: sizeof( T ) bytes of the buffer. *)
Definition load (data : list byte) (off : nat) : res T :=
  if off + tsize <=? List.length data then Ok (tdec (firstn tsize (skipn off data))) else UB.
(** matrix.hpp:2670-2674 for( ; (it != it_end) && (len_read > 0); ++it, len_read -= sizeof(T) ).
    [n] is it_end - it. *)
Fixpoint raw_store (W : nat) (data : list byte) (n it off len_read : nat) m : res (nat * list T) :=
  match n with
  | O => Ok (it, m)
  | S n =>
      if len_read =? 0 then Ok (it, m)
      else x <- load data off ;; m <- wr m it x ;;
           raw_store W data n (S it) (off + tsize) (wsub W len_read tsize) m
  end.
(** matrix.hpp:2661-2675 while( len_data > 0 ): every iteration shrinks len_data. *)
Fixpoint raw_loop (fuel W maxlen : nat) (bytes : list byte) (total len_data it : nat) (data : list byte)
  (s : rstream) m : res (list T) :=
  match fuel with
  | O => Ok m
  | S fuel =>
      if len_data =? 0 then Ok m
      else
        let len_read := if 0 <? len_data mod maxlen then len_data mod maxlen else len_data in
        let len_data := len_data - len_read in
        let '(data, s) := rs_read bytes len_read data s in
        '(it, m) <- raw_store W data (total - it) it 0 len_read m ;;
        raw_loop fuel W maxlen bytes total len_data it data s m
  end.
(** matrix.hpp:2637-2684 read_from_raw, after the file is open.  [junk] is the
    initial contents of the new char[ len_data ]. *)
Definition raw_read (W maxlen : nat) (junk bytes : list byte) (M N : nat) m : res (list T) :=
  if maxlen =? 0 then UB
  else let len := tsize * (M * N) in
       raw_loop (S len) W maxlen bytes (M * N) len 0 (firstn len (junk ++ repeat "000"%char len))
         {| rs_pos := 0; rs_fail := false |} m.
(** matrix.hpp:2637-2684 with the constants of the code: 2^31 - sizeof( T ),
    64-bit size_t.  A file that cannot be opened leaves the matrix alone. *)
Definition mat_read_raw (fs : files) (junk : list byte) (M N : nat) m (dir file : string) : res (list T) :=
  match fs (raw_read_path dir file) with
  | None => Ok m
  | Some bytes => raw_read (2 ^ 64) (2 ^ 31 - tsize) junk bytes M N m
  end.
End Raw.

(** ** Text streams *)
(** How an element is written by [os << x] and read by [is >> x], with the
    stream's default format.  [tparse] sees the stream after white space has
    been skipped; [None] is a failed extraction. *)
Class Text (T : Type) := {
  tshow : T -> list ascii;
  tparse : list ascii -> option (T * list ascii)
}.
Definition is_space (c : ascii) : bool :=
  let n := nat_of_ascii c in ((9 <=? n) && (n <=? 13)) || (n =? 32).
Fixpoint skip_ws (s : list ascii) : list ascii :=
  match s with c :: t => if is_space c then skip_ws t else s | [] => [] end.

Section Stream.
Context {cfg : Cfg} {T : Type} {ST : Scalar T} {XT : Text T}.
(** An input stream: the characters left and the fail bit. *)
Record istream := { is_chars : list ascii; is_fail : bool }.
(** [is >> x]: the new value of x and the stream.  A failed stream leaves x
    alone; an empty one fails; text that cannot be converted stores 0. *)
Definition extract (s : istream) (old : T) : T * istream :=
  if is_fail s then (old, s)
  else match skip_ws (is_chars s) with
       | [] => (old, {| is_chars := []; is_fail := true |})
       | c => match tparse c with
              | Some (x, rest) => (x, {| is_chars := rest; is_fail := false |})
              | None => (szero, {| is_chars := c; is_fail := true |})
              end
       end.
(** vector.hpp:1727-1734 write_to_stream, 1717-1724 read_from_stream. *)
Definition vec_write (M : nat) (v : list T) (os : list ascii) : res (list ascii) :=
  for_ 0 M (fun i os => x <- vat M v i ;; Ok (os ++ tshow x ++ [" "%char])) os.
Definition vec_read (M : nat) (v : list T) (s : istream) : res (list T * istream) :=
  for_ 0 M (fun i '(v, s) =>
    old <- vat M v i ;; let '(x, s) := extract s old in v <- vset M v i x ;; Ok (v, s)) (v, s).
(** matrix.hpp:2757-2768 write_to_stream, 2744-2755 read_from_stream. *)
Definition mat_write (M N : nat) (m : list T) (os : list ascii) : res (list ascii) :=
  for_ 0 M (fun r => for_ 0 N (fun c os => x <- mat_at M N m r c ;; Ok (os ++ tshow x ++ [" "%char]))) os.
Definition mat_read (M N : nat) (m : list T) (s : istream) : res (list T * istream) :=
  for_ 0 M (fun r => for_ 0 N (fun c '(m, s) =>
    old <- mat_at M N m r c ;; let '(x, s) := extract s old in m <- mat_put M N m r c x ;; Ok (m, s))) (m, s).
End Stream.

(** Integral element types other than the character types: decimal digits with
    an optional sign; a value outside the type's range fails. *)
Definition is_digit (c : ascii) : bool := let n := nat_of_ascii c in (48 <=? n) && (n <=? 57).
Fixpoint span_digits (s : list ascii) : list ascii * list ascii :=
  match s with
  | c :: t => if is_digit c then let '(a, b) := span_digits t in (c :: a, b) else ([], s)
  | [] => ([], [])
  end.
Definition show_int (z : Z) : list ascii := list_ascii_of_string (NilZero.string_of_int (Z.to_int z)).
Definition parse_int (t : ityp) (s : list ascii) : option (Z * list ascii) :=
  let '(sign, body) := match s with
    | c :: r => if Ascii.eqb c "-"%char then ([c], r) else if Ascii.eqb c "+"%char then ([], r) else ([], s)
    | [] => ([], [])
    end in
  let '(ds, rest) := span_digits body in
  match ds with
  | [] => None
  | _ => match NilZero.int_of_string (string_of_list_ascii (sign ++ ds)) with
         | Some d => let z := Z.of_int d in
                     if ((imin t <=? z) && (z <=? imax t))%Z then Some (z, rest) else None
         | None => None
         end
  end.
Definition IntText (t : ityp) : Text Z := {| tshow := show_int; tparse := parse_int t |}.
(** unsigned char (uint8_t): [os << x] writes the character, [is >> x] reads one. *)
Definition ByteText : Text ascii := {| tshow := fun c => [c]; tparse := fun s => match s with c :: r => Some (c, r) | [] => None end |}.

(** ** Formatted output *)
(** The part of ios_base the output operators touch: the adjust bits
    (left/right/internal) as a set, and the precision; the field width, which
    the next formatted output resets to 0. *)
Record fmt := { f_left : bool; f_right : bool; f_internal : bool; f_prec : Z; f_width : Z }.
(** os.setf( std::ios::right, std::ios::adjustfield ). *)
Definition setf_right (f : fmt) : fmt :=
  {| f_left := false; f_right := true; f_internal := false; f_prec := f_prec f; f_width := f_width f |}.
(** os.setf( flags ): ORs the bits. *)
Definition setf_or (f g : fmt) : fmt :=
  {| f_left := f_left f || f_left g; f_right := f_right f || f_right g; f_internal := f_internal f || f_internal g;
     f_prec := f_prec f; f_width := f_width f |}.
Definition set_prec (f : fmt) (p : Z) : fmt :=
  {| f_left := f_left f; f_right := f_right f; f_internal := f_internal f; f_prec := p; f_width := f_width f |}.
Definition set_width (f : fmt) (w : Z) : fmt :=
  {| f_left := f_left f; f_right := f_right f; f_internal := f_internal f; f_prec := f_prec f; f_width := w |}.
Section Print.
Context {T : Type}.
(** Formatted output of one item: the text depends on the format; the width is
    consumed. *)
Variable show_fmt : fmt -> T -> list ascii.
Definition put_item (x : T) (st : list ascii * fmt) : list ascii * fmt :=
  let '(out, f) := st in (out ++ show_fmt f x, set_width f 0).
(** Output of a string literal: padded to the width. *)
Definition pad (f : fmt) (s : list ascii) : list ascii :=
  let n := Z.to_nat (f_width f) - List.length s in
  if f_left f then s ++ repeat " "%char n else repeat " "%char n ++ s.
Definition put_str (s : list ascii) (st : list ascii * fmt) : list ascii * fmt :=
  let '(out, f) := st in (out ++ pad f s, set_width f 0).
Definition put_width (w : Z) (st : list ascii * fmt) : list ascii * fmt := let '(out, f) := st in (out, set_width f w).
(** vector.hpp:339-353 operator<<. *)
Fixpoint put_items (l : list T) (st : list ascii * fmt) : list ascii * fmt :=
  match l with
  | [] => st
  | x :: l => put_items l (put_str [" "%char] (put_item x (put_width 10 st)))
  end.
Definition vec_print (v : list T) (st : list ascii * fmt) : list ascii * fmt :=
  let '(out, f) := st in
  let '(out, g) := put_str ["]"%char] (put_items v (put_str ["["; " "]%char (out, set_prec (setf_right f) 5))) in
  (out, setf_or (set_prec g (f_prec f)) f).
(** matrix.hpp:454-476 operator<<; the rows of the matrix, in order.  std::endl
    puts a newline without formatting. *)
Fixpoint put_rows (rows : list (list T)) (st : list ascii * fmt) : list ascii * fmt :=
  match rows with
  | [] => st
  | r :: rows =>
      let '(out, f) := put_str ["|"%char] (put_items r (put_str ["|"%char] st)) in
      put_rows rows (out ++ ["010"%char], f)
  end.
Definition mat_print (rows : list (list T)) (st : list ascii * fmt) : list ascii * fmt :=
  let '(out, f) := st in
  let '(out, g) := put_rows rows (out, set_prec (setf_right f) 5) in
  (out, setf_or (set_prec g (f_prec f)) f).
End Print.
