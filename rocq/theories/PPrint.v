(** Property C126: the text the output operators and write_csv_file() produce. *)
From Verif Require Import LBase LVector LMatrix MIo PIo PIo2 MExtra MPrint.
Local Open Scope nat_scope.
Local Open Scope list_scope.

(** The format every element of a vector, matrix or frustum is printed with:
    width 10, precision 5, adjusted to the right. *)
Definition field_fmt : fmt := {| f_left := false; f_right := true; f_internal := false; f_prec := 5; f_width := 10 |}.
(** [s] preceded by blanks up to the width in force when printing starts. *)
Definition first_token (f : fmt) (s : list ascii) : list ascii := repeat " "%char (Z.to_nat (f_width f) - length s) ++ s.

Section Text.
Context {T : Type} (show_fmt : fmt -> T -> list ascii).
Let field (x : T) : list ascii := show_fmt field_fmt x ++ [" "%char].

Lemma put_items_text l : forall out f, f_left f = false -> f_right f = true -> f_internal f = false -> f_prec f = 5%Z ->
  put_items show_fmt l (out, set_width f 0) = (out ++ flat_map field l, set_width f 0).
Proof.
  induction l as [|x l IH]; intros out f HL HR HI HP; cbn [put_items flat_map]; [rewrite app_nil_r; reflexivity|].
  cbn [put_width put_item put_str]. unfold pad. cbn [f_left f_width set_width]. rewrite HL. cbn [Z.to_nat length Nat.sub repeat app].
  assert (E : set_width (set_width (set_width (set_width f 0) 10) 0) 0 = set_width f 0) by reflexivity. rewrite E.
  rewrite IH by assumption. f_equal. change (field x) with (show_fmt field_fmt x ++ [" "%char]).
  assert (F : set_width (set_width f 0) 10 = field_fmt) by (unfold set_width, field_fmt; cbn; rewrite HL, HR, HI, HP; reflexivity).
  rewrite F. rewrite <- !app_assoc. reflexivity.
Qed.
Lemma put_rows_text rows : forall out f, f_left f = false -> f_right f = true -> f_internal f = false -> f_prec f = 5%Z ->
  put_rows show_fmt rows (out, set_width f 0) =
  (out ++ flat_map (fun r => ["|"%char] ++ flat_map field r ++ ["|"; "010"]%char) rows, set_width f 0).
Proof.
  induction rows as [|r rows IH]; intros out f HL HR HI HP; cbn [put_rows flat_map]; [rewrite app_nil_r; reflexivity|].
  cbn [put_str]. unfold pad. cbn [f_left f_width set_width]. rewrite HL. cbn [Z.to_nat length Nat.sub repeat app].
  assert (E : set_width (set_width f 0) 0 = set_width f 0) by reflexivity. rewrite E.
  rewrite put_items_text by assumption. cbn [put_str]. unfold pad. cbn [f_left f_width set_width]. rewrite HL. cbn [Z.to_nat length Nat.sub repeat app].
  rewrite E, IH by assumption. f_equal. rewrite <- !app_assoc. cbn [app]. reflexivity.
Qed.

(** C126: a vector prints "[ ", each element in the field format followed by a
    blank, and "]"; only the first token depends on the width the stream had. *)
Theorem C126_vector_text :
  forall (v : list T) (out : list ascii) (f : fmt),
  fst (vec_print show_fmt v (out, f)) = out ++ first_token f ["["; " "]%char ++ flat_map (fun x => show_fmt field_fmt x ++ [" "%char]) v ++ ["]"%char].
Proof.
  intros v out f. unfold vec_print. cbn [put_str]. set (g := set_prec (setf_right f) 5).
  rewrite put_items_text by reflexivity. cbn [put_str fst]. unfold pad. cbn [f_left f_width set_width g set_prec setf_right Z.to_nat length Nat.sub repeat app].
  unfold first_token. rewrite <- !app_assoc. reflexivity.
Qed.
(** C126: a matrix prints one line per row: "|", the elements of the row in the
    field format, each followed by a blank, "|" and a newline. *)
Theorem C126_matrix_text :
  forall (rows : list (list T)) (out : list ascii) (f : fmt), f_width f = 0%Z ->
  fst (mat_print show_fmt rows (out, f)) =
  out ++ flat_map (fun r => ["|"%char] ++ flat_map (fun x => show_fmt field_fmt x ++ [" "%char]) r ++ ["|"; "010"]%char) rows.
Proof.
  intros rows out f Hw. unfold mat_print.
  assert (E : set_prec (setf_right f) 5 = set_width (set_prec (setf_right f) 5) 0) by (unfold set_prec, set_width, setf_right; cbn; rewrite Hw; reflexivity).
  rewrite E, put_rows_text by reflexivity. reflexivity.
Qed.
(** C126: a frustum prints its six numbers between brackets. *)
Theorem C126_frustum_text :
  forall (l r b t n fa : T) (out : list ascii) (f : fmt),
  let c x := show_fmt field_fmt x in let s := [" "%char] in
  exists st, fr_print show_fmt [l; r; b; t; n; fa] (out, f) = Ok st /\
  fst st = out ++ first_token f ["["%char] ++ c l ++ s ++ c r ++ s ++ c b ++ s ++ c t ++ s ++ c n ++ s ++ c fa ++ ["]"%char].
Proof.
  intros l r b t n fa out f c s. eexists. split; [reflexivity|]. cbn [put_str put_item put_width fst].
  unfold pad, c, first_token. cbn [f_left f_width set_width set_prec setf_right Z.to_nat length Nat.sub repeat app]. rewrite <- !app_assoc. reflexivity.
Qed.
(** C126: a quaternion prints "(x, y, z, w) " in the stream's own format. *)
Theorem C126_quaternion_text :
  forall (x y z w : T) (out : list ascii) (f : fmt), f_width f = 0%Z ->
  exists st, q_print show_fmt [x; y; z; w] (out, f) = Ok st /\
  fst st = out ++ ["("%char] ++ show_fmt f x ++ [","; " "]%char ++ show_fmt f y ++ [","; " "]%char ++ show_fmt f z ++ [","; " "]%char ++ show_fmt f w ++ [")"; " "]%char.
Proof.
  intros x y z w out f Hw. eexists. split; [reflexivity|]. cbn [put_str put_item put_width fst].
  assert (E : set_width f 0 = f) by (destruct f; cbn in *; subst; reflexivity).
  rewrite !E. unfold pad. rewrite Hw. cbn [Z.to_nat length Nat.sub repeat app].
  destruct (f_left f); rewrite ?app_nil_r, <- !app_assoc; cbn [app]; rewrite <- ?app_assoc; reflexivity.
Qed.
(** C126: a box prints its corners separated by " - ". *)
Theorem C126_box_text :
  forall (mn mx : list T) (out : list ascii) (f : fmt),
  fst (box_print show_fmt mn mx (out, f)) =
  out ++ first_token f ["["; " "]%char ++ flat_map (fun x => show_fmt field_fmt x ++ [" "%char]) mn ++ ["]"; " "; "-"; " "; "["; " "]%char ++
  flat_map (fun x => show_fmt field_fmt x ++ [" "%char]) mx ++ ["]"%char].
Proof.
  intros mn mx out f. unfold box_print. pose proof (C126_vector_text mn out f) as A.
  assert (W : f_width (snd (vec_print show_fmt mn (out, f))) = 0%Z).
  { unfold vec_print. destruct (put_str ["]"%char] _) as [o g] eqn:E. cbn [snd]. unfold put_str in E. destruct (put_items _ _ _). injection E as <- <-. reflexivity. }
  destruct (vec_print show_fmt mn (out, f)) as [o g]. cbn [fst snd] in A, W. cbn [put_str]. rewrite C126_vector_text. rewrite A.
  unfold first_token, pad. rewrite W. cbn [f_left f_width set_width Z.to_nat length Nat.sub repeat app].
  destruct (f_left g); rewrite ?app_nil_r, <- !app_assoc; reflexivity.
Qed.

(** C126: the columns line up.  If every element fits its field, row i of the
    printed matrix is the 11 N + 3 characters from (11 N + 3) i on, and element
    (i,j) is the ten characters from 11 j + 1 on in it. *)
Lemma fields_length (r : list T) : (forall x, In x r -> length (show_fmt field_fmt x) = 10) -> length (flat_map field r) = 11 * length r.
Proof.
  induction r as [|x r IH]; intros H; [reflexivity|]. cbn [flat_map length]. unfold field at 1. rewrite !app_length, (H x) by (left; reflexivity).
  rewrite IH by (intros y Hy; apply H; right; exact Hy). cbn [length]. lia.
Qed.
Lemma fields_at (r : list T) j d : j < length r -> (forall x, In x r -> length (show_fmt field_fmt x) = 10) ->
  firstn 10 (skipn (11 * j) (flat_map field r)) = show_fmt field_fmt (nth j r d).
Proof.
  revert j. induction r as [|x r IH]; intros j Hj H; [cbn in Hj; lia|]. cbn [flat_map]. unfold field at 1.
  pose proof (H x (or_introl eq_refl)) as Hx. destruct j as [|j].
  - rewrite Nat.mul_0_r. cbn [skipn nth]. rewrite <- app_assoc, firstn_app, Hx. replace (10 - 10) with 0 by reflexivity. rewrite <- Hx at 1. rewrite firstn_all. cbn [firstn]. apply app_nil_r.
  - rewrite skipn_app, skipn_all2 by (rewrite app_length, Hx; cbn [length]; lia). rewrite app_length, Hx. cbn [length app nth].
    replace (11 * S j - (10 + 1)) with (11 * j) by lia. apply IH; [cbn in Hj; lia|]. intros y Hy. apply H. right. exact Hy.
Qed.
Lemma concat_at {A : Type} (f : A -> list ascii) (l : list A) (w i : nat) (d : A) : i < length l -> (forall x, In x l -> length (f x) = w) ->
  firstn w (skipn (w * i) (flat_map f l)) = f (nth i l d).
Proof.
  revert i. induction l as [|x l IH]; intros i Hi H; [cbn in Hi; lia|]. cbn [flat_map]. pose proof (H x (or_introl eq_refl)) as Hx. destruct i as [|i].
  - rewrite Nat.mul_0_r. cbn [skipn nth]. rewrite firstn_app, Hx, Nat.sub_diag. rewrite <- Hx at 1. rewrite firstn_all. cbn [firstn]. apply app_nil_r.
  - rewrite skipn_app, skipn_all2 by (rewrite Hx; nia). rewrite Hx. cbn [app nth]. replace (w * S i - w) with (w * i) by nia. apply IH; [cbn in Hi; lia|]. intros y Hy. apply H. right. exact Hy.
Qed.
End Text.
Definition slice (from len : nat) (s : list ascii) : list ascii := firstn len (skipn from s).
Lemma mat_rows_nth {T : Type} (d : T) M N m (g : nat -> nat -> T) i : repM M N m g -> i < M ->
  nth i (mat_rows d M N m) [] = map (fun c => g i c) (seq 0 N).
Proof.
  intros H Hi. unfold mat_rows. rewrite nth_indep with (d' := map (fun c => nth (c * M + 0) m d) (seq 0 N)) by (rewrite map_length, seq_length; exact Hi).
  change (map (fun c => nth (c * M + 0) m d) (seq 0 N)) with ((fun r => map (fun c => nth (c * M + r) m d) (seq 0 N)) 0).
  rewrite map_nth, seq_nth by exact Hi. cbn [Nat.add]. apply map_ext_in. intros c Hc. apply in_seq in Hc.
  destruct H as (L & H). erewrite nth_error_nth; [reflexivity|]. apply H; lia.
Qed.
Theorem C126_columns_align :
  forall (T : Type) (show_fmt : fmt -> T -> list ascii) (dflt : T) (M N : nat) (m : list T) (g : nat -> nat -> T) (f : fmt),
  repM M N m g -> f_width f = 0%Z -> (forall i j, i < M -> j < N -> length (show_fmt field_fmt (g i j)) = 10) ->
  let text := fst (mat_print show_fmt (mat_rows dflt M N m) ([], f)) in
  length text = M * (11 * N + 3) /\
  forall i j, i < M -> j < N ->
  let line := slice ((11 * N + 3) * i) (11 * N + 3) text in
  slice (11 * j + 1) 10 line = show_fmt field_fmt (g i j) /\ nth 0 line "?"%char = "|"%char /\ nth (11 * N + 1) line "?"%char = "|"%char /\ nth (11 * N + 2) line "?"%char = "010"%char.
Proof.
  intros T show_fmt dflt M N m g f HM Hw H10 text. unfold text. rewrite C126_matrix_text by exact Hw. cbn [app].
  set (rowtext := fun r => ["|"%char] ++ flat_map (fun x => show_fmt field_fmt x ++ [" "%char]) r ++ ["|"; "010"]%char).
  assert (LR : length (mat_rows dflt M N m) = M) by (unfold mat_rows; rewrite map_length, seq_length; reflexivity).
  assert (RW : forall r, In r (mat_rows dflt M N m) -> length r = N /\ (forall x, In x r -> length (show_fmt field_fmt x) = 10)).
  { intros r Hr. apply (In_nth _ _ []) in Hr as (i & Hi & <-). rewrite LR in Hi. rewrite (mat_rows_nth dflt M N m g i HM Hi). split; [rewrite map_length, seq_length; reflexivity|].
    intros x Hx. apply in_map_iff in Hx as (c & <- & Hc). apply in_seq in Hc. apply H10; lia. }
  assert (LW : forall r, In r (mat_rows dflt M N m) -> length (rowtext r) = 11 * N + 3).
  { intros r Hr. destruct (RW r Hr) as (A & B). unfold rowtext. rewrite !app_length. pose proof (fields_length show_fmt r B) as FL. cbv zeta in FL. rewrite FL, A. cbn [length]. lia. }
  change (flat_map _ (mat_rows dflt M N m)) with (flat_map rowtext (mat_rows dflt M N m)). split.
  - rewrite <- LR at 2. clear - LW. induction (mat_rows dflt M N m) as [|r l IH]; [reflexivity|]. cbn [flat_map]. rewrite app_length, (LW r) by (left; reflexivity).
    rewrite IH by (intros x Hx; apply LW; right; exact Hx). cbn [length]. lia.
  - intros i j Hi Hj. cbv zeta. unfold slice. rewrite (concat_at rowtext _ _ i []) by (rewrite ?LR; auto).
    assert (IN : In (nth i (mat_rows dflt M N m) []) (mat_rows dflt M N m)) by (apply nth_In; rewrite LR; exact Hi). destruct (RW _ IN) as (A & B).
    pose proof (fields_length show_fmt _ B) as FL. cbv zeta in FL. rewrite A in FL.
    unfold rowtext. split; [|split; [reflexivity|]].
    + replace (11 * j + 1) with (S (11 * j)) by lia. cbn [app skipn]. rewrite skipn_app, firstn_app.
      pose proof (fields_at show_fmt _ j dflt ltac:(rewrite A; exact Hj) B) as FA. cbv zeta in FA.
      rewrite FA. rewrite skipn_length, FL. replace (10 - (11 * N - 11 * j)) with 0 by lia. cbn [firstn]. rewrite app_nil_r.
      rewrite (mat_rows_nth dflt M N m g i HM Hi). f_equal. rewrite nth_indep with (d' := g i 0) by (rewrite map_length, seq_length; exact Hj).
      change (g i 0) with ((fun c => g i c) 0). rewrite map_nth, seq_nth by exact Hj. reflexivity.
    + replace (11 * N + 1) with (S (11 * N)) by lia. replace (11 * N + 2) with (S (S (11 * N))) by lia. cbn [app nth].
      split; [rewrite app_nth2 by lia; rewrite FL, Nat.sub_diag; reflexivity|].
      rewrite app_nth2 by lia. rewrite FL. replace (S (11 * N) - 11 * N) with 1 by lia. reflexivity.
Qed.
(** C126: a matrix of ints lines up exactly as long as every number has at most
    ten characters; a longer one widens its field. *)
Lemma int_field (z : Z) : length (show_int_fmt field_fmt z) = Nat.max 10 (length (show_int z)).
Proof. unfold show_int_fmt, pad. cbn [field_fmt f_left f_width]. rewrite app_length, repeat_length. change (Z.to_nat 10) with 10. lia. Qed.
Theorem C126_int_field :
  forall z : Z, length (show_int_fmt field_fmt z) = 10 <-> length (show_int z) <= 10.
Proof. intros z. rewrite int_field. lia. Qed.
(** C126: printing is not serialisation: read_from_stream() of a printed vector
    fails at the first number, whatever the vector. *)
Theorem C126_printed_vector_is_not_readable :
  forall (cfg : Cfg) (ST : Scalar Z) (t : ityp) (show_fmt : fmt -> Z -> list ascii) (M : nat) (v old : list Z),
  0 < M -> length old = M ->
  exists r s, vec_read (XT := IntText t) M old {| is_chars := fst (vec_print show_fmt v ([], fresh_fmt)); is_fail := false |} = Ok (r, s) /\
  is_fail s = true /\ tl r = tl old.
Proof.
  intros cfg ST t show_fmt M v old HM HL.
  assert (HO : repV M old (fun i => nth i old 0%Z)) by (apply repV_nth; exact HL).
  destruct (@C115_vector_bad_text cfg Z ST (IntText t) M 0 old (fun i => nth i old 0%Z) (fun _ => 0%Z) (fst (vec_print show_fmt v ([], fresh_fmt))) HO HM) as (r & s & z & E & F & HR).
  - intros i Hi. lia.
  - right. rewrite C126_vector_text. reflexivity.
  - exists r, s. split; [exact E|]. split; [exact F|]. destruct HR as (LR & HR), HO as (_ & HO). 
    apply nth_error_ext. intros i. destruct (Nat.lt_ge_cases (S i) M) as [L|L].
    + specialize (HR (S i) L). specialize (HO (S i) L). cbn in HR. destruct r, old; cbn in *; try lia. congruence.
    + rewrite !(proj2 (nth_error_None _ _)); [reflexivity|destruct old; cbn in *; lia|destruct r; cbn in *; lia].
Qed.
(** C126: the three texts of a Visibility are different and equally long. *)
Theorem C126_visibility_text :
  forall (a b : visibility) (out : list ascii) (f : fmt), f_width f = 0%Z ->
  length (fst (vis_print a (out, f))) = length out + 17 /\ (fst (vis_print a (out, f)) = fst (vis_print b (out, f)) -> a = b).
Proof.
  intros a b out f Hw. assert (P : forall s, pad f s = s) by (intros s; unfold pad; rewrite Hw; cbn; destruct (f_left f); [apply app_nil_r|reflexivity]).
  unfold vis_print, put_str. cbn [fst]. rewrite !P. split; [rewrite app_length; destruct a; reflexivity|].
  intros H. apply app_inv_head in H. destruct a, b; try reflexivity; discriminate H.
Qed.
(** C126: the CSV file of a matrix holds the printed rows and an empty line. *)
Theorem C126_csv_text :
  forall (T : Type) (show_fmt : fmt -> T -> list ascii) (dflt : T) (cc : string -> bool) (fs : files) (M N : nat) (m : list T) (g : nat -> nat -> T) (dir file : string),
  repM M N m g -> cc (csv_path dir file) = true ->
  mat_write_csv_file show_fmt dflt cc fs M N m dir file (csv_path dir file) =
  Some (flat_map (fun i => ["|"%char] ++ flat_map (fun j => show_fmt field_fmt (g i j) ++ [" "%char]) (seq 0 N) ++ ["|"; "010"]%char) (seq 0 M) ++ ["010"%char]).
Proof.
  intros T show_fmt dflt cc fs M N m g dir file HM HC. unfold mat_write_csv_file, mat_write_csv. rewrite HC. unfold file_put. rewrite String.eqb_refl.
  rewrite C126_matrix_text by reflexivity. cbn [app]. f_equal. f_equal. unfold mat_rows. rewrite flat_map_concat_map, map_map, <- flat_map_concat_map.
  rewrite !flat_map_concat_map. f_equal. apply map_ext_in. intros i Hi. apply in_seq in Hi. cbn [app]. do 2 f_equal.
  rewrite !flat_map_concat_map. rewrite map_map. f_equal. apply map_ext_in. intros j Hj. apply in_seq in Hj. destruct HM as (_ & HM).
  rewrite (nth_error_nth m (j * M + i) dflt (HM i j ltac:(lia) ltac:(lia))). reflexivity.
Qed.
(** The path: directory and name joined by one "/", and ".csv" unless the name
    ends in "csv". *)
Theorem C126_csv_path :
  forall dir file : string,
  (ends_with "csv" file -> csv_path dir file = raw_read_path dir file) /\
  (~ ends_with "csv" file -> csv_path dir file = append (raw_read_path dir file) ".csv").
Proof.
  intros dir file. unfold csv_path, raw_read_path. split; intros H; destruct (find_suffix "csv" file) eqn:F; try reflexivity.
  - apply (find_suffix_spec "csv" file eq_refl) in H. congruence.
  - exfalso. apply H, (find_suffix_spec "csv" file eq_refl). congruence.
  - generalize (raw_join dir file). intros s. induction s as [|c s IH]; cbn; [reflexivity|]. f_equal. exact IH.
Qed.
Print Assumptions C126_vector_text.
Print Assumptions C126_matrix_text.
Print Assumptions C126_frustum_text.
Print Assumptions C126_quaternion_text.
Print Assumptions C126_box_text.
Print Assumptions C126_columns_align.
Print Assumptions C126_int_field.
Print Assumptions C126_printed_vector_is_not_readable.
Print Assumptions C126_visibility_text.
Print Assumptions C126_csv_text.
Print Assumptions C126_csv_path.
(** A 2 x 2 matrix of ints and the file it gives; an int that breaks the
    columns. *)
Example C126_hypotheses_met :
  repM 2 2 [1; 3; -2; 4]%Z (fun i j => nth (j * 2 + i) [1; 3; -2; 4]%Z 0%Z) /\
  string_of_list_ascii (fst (mat_print show_int_fmt (mat_rows 0%Z 2 2 [1; 3; -2; 4]%Z) ([], fresh_fmt))) =
    append "|         1         -2 |" (String "010" (append "|         3          4 |" (String "010" ""))) /\
  length (show_int_fmt field_fmt (-1234567890)) = 11 /\
  ends_with "csv" "m.csv" /\ ~ ends_with "csv" "m".
Proof.
  split; [apply repM_nth; reflexivity|]. split; [reflexivity|]. split; [reflexivity|]. split; [exists "m."%string; reflexivity|].
  intros H; apply (find_suffix_spec "csv" _ eq_refl) in H; apply H; reflexivity.
Qed.
