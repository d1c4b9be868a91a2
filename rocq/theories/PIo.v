(** Properties C28, C29 (raw files), C30 (text streams), C82 (stream format). *)
From Coq Require Import DecimalString DecimalZ.
From Verif Require Export MIo LMatrix LVector.
Local Open Scope nat_scope.
Local Open Scope list_scope.

(** ** Raw files *)
Section Raw.
Context {T : Type} {RT : Repr T}.
Definition cell_bytes (i : nat) (l : list byte) : list byte := firstn tsize (skipn (i * tsize) l).

Lemma upd_nth {A} (l : list A) i x k : i < length l -> nth_error (upd l i x) k = if k =? i then Some x else nth_error l k.
Proof.
  revert i k. induction l as [|y l IH]; intros i k H; [cbn in H; lia|].
  destruct i as [|i], k as [|k]; cbn; auto. apply IH. cbn in H. lia.
Qed.
Lemma upd_len {A} (l : list A) i x : length (upd l i x) = length l.
Proof. revert i. induction l as [|y l IH]; intros [|i]; cbn; auto. Qed.
Lemma nth_error_ext {A} (l l' : list A) : (forall i, nth_error l i = nth_error l' i) -> l = l'.
Proof.
  revert l'. induction l as [|x l IH]; intros [|y l'] H; auto; try (specialize (H 0); discriminate).
  f_equal; [specialize (H 0); injection H; auto|]. apply IH. intros i. exact (H (S i)).
Qed.
Lemma skipn_skipn' {A} (a b : nat) (l : list A) : skipn a (skipn b l) = skipn (b + a) l.
Proof.
  revert l. induction b as [|b IH]; intros l; [reflexivity|]. destruct l as [|x l]; cbn [skipn Nat.add]; [apply skipn_nil|apply IH].
Qed.

Lemma raw_store_ok W data : forall k n it off (m : list T),
  k <= n -> it + n <= length m -> off + k * tsize <= length data ->
  exists m', raw_store W data n it off (k * tsize) m = Ok (it + k, m') /\ length m' = length m /\
  forall i, nth_error m' i = if (it <=? i) && (i <? it + k) then Some (tdec (firstn tsize (skipn (off + (i - it) * tsize) data))) else nth_error m i.
Proof.
  pose proof tsize_pos as TP. induction k as [|k IH]; intros n it off m Hk Hm Hd.
  - exists m. split; [|split; [reflexivity|]].
    + rewrite Nat.add_0_r. destruct n; reflexivity.
    + intros i. destruct (Nat.leb_spec it i), (Nat.ltb_spec i (it + 0)); cbn [andb]; auto; lia.
  - destruct n as [|n]; [lia|]. cbn [raw_store]. replace (S k * tsize =? 0) with false by (symmetry; apply Nat.eqb_neq; nia).
    unfold load. replace (off + tsize <=? length data) with true by (symmetry; apply Nat.leb_le; nia). cbn [bind].
    unfold wr. replace (it <? length m) with true by (symmetry; apply Nat.ltb_lt; lia). cbn [bind].
    unfold wsub. replace (tsize <=? S k * tsize) with true by (symmetry; apply Nat.leb_le; nia).
    replace (S k * tsize - tsize) with (k * tsize) by lia.
    destruct (IH n (S it) (off + tsize) (upd m it (tdec (firstn tsize (skipn off data))))) as (m' & E & L & H); [lia|rewrite upd_len; lia|lia|].
    exists m'. replace (it + S k) with (S it + k) by lia. split; [exact E|]. split; [rewrite L, upd_len; reflexivity|].
    intros i. rewrite H, upd_nth by lia. destruct (Nat.eqb_spec i it) as [->|Hne].
    + destruct (Nat.leb_spec (S it) it), (Nat.leb_spec it it), (Nat.ltb_spec it (S it + k)); cbn [andb]; try lia.
      rewrite Nat.sub_diag, Nat.mul_0_l, Nat.add_0_r. reflexivity.
    + destruct (Nat.leb_spec (S it) i), (Nat.leb_spec it i), (Nat.ltb_spec i (S it + k)); cbn [andb]; try lia; auto.
      do 4 f_equal. replace (i - it) with (S (i - S it)) by lia. lia.
Qed.
Lemma blit_length src dst : length src <= length dst -> length (blit src dst) = length dst.
Proof. intros H. unfold blit. rewrite app_length, skipn_length. lia. Qed.
Lemma blit_cell src dst off : off + tsize <= length src -> firstn tsize (skipn off (blit src dst)) = firstn tsize (skipn off src).
Proof.
  intros H. unfold blit. rewrite skipn_app, firstn_app. rewrite skipn_length.
  replace (tsize - (length src - off)) with 0 by lia. cbn [firstn]. apply app_nil_r.
Qed.

Lemma raw_loop_ok W maxlen bytes n : 0 < maxlen -> Nat.divide tsize maxlen -> forall fuel it data s (m : list T),
  it <= n -> length m = n -> length data = tsize * n -> tsize * (n - it) < fuel ->
  rs_pos s = Nat.min (tsize * it) (length bytes) -> rs_fail s = (length bytes <? tsize * it) ->
  exists m', raw_loop fuel W maxlen bytes n (tsize * (n - it)) it data s m = Ok m' /\ length m' = n /\
  forall i, nth_error m' i = if (it <=? i) && (S i * tsize <=? length bytes) && (i <? n) then Some (tdec (cell_bytes i bytes))
                             else if it <=? i then nth_error m' i else nth_error m i.
Proof.
  pose proof tsize_pos as TP. intros HP HD. induction fuel as [|fuel IH]; intros it data s m Hit Lm Ld Hf Hp Hs; [exfalso; exact (Nat.nlt_0_r _ Hf)|].
  cbn [raw_loop]. destruct (Nat.eqb_spec (tsize * (n - it)) 0) as [Z|Z].
  - exists m. split; [reflexivity|]. split; [exact Lm|]. assert (it = n) by (apply Nat.eq_mul_0 in Z; lia). subst it. intros i.
    destruct (Nat.leb_spec n i), (Nat.ltb_spec i n); cbn [andb]; rewrite ?andb_false_r; auto; lia.
  - set (lr := if 0 <? tsize * (n - it) mod maxlen then tsize * (n - it) mod maxlen else tsize * (n - it)).
    assert (K : exists k, lr = k * tsize /\ 0 < k <= n - it).
    { unfold lr. destruct (Nat.ltb_spec 0 ((tsize * (n - it)) mod maxlen)) as [L|L].
      - destruct HD as (q & HD). assert (maxlen <> 0) by lia. pose proof (Nat.div_mod (tsize * (n - it)) maxlen H) as DM.
        exists (n - it - q * ((tsize * (n - it)) / maxlen)).
        assert (E : (tsize * (n - it)) mod maxlen = (n - it - q * ((tsize * (n - it)) / maxlen)) * tsize).
        { set (d := (tsize * (n - it)) / maxlen) in *. set (r := (tsize * (n - it)) mod maxlen) in *. clearbody d r. rewrite HD in DM. nia. }
        split; [exact E|]. nia.
      - exists (n - it). split; [lia|nia]. }
    destruct K as (k & Ek & Hk). clearbody lr. subst lr. replace (tsize * (n - it) - k * tsize) with (tsize * (n - (it + k))) by nia.
    destruct (rs_read bytes (k * tsize) data s) as [data' s'] eqn:ER.
    assert (RD : length data' = length data /\ rs_pos s' = Nat.min (tsize * (it + k)) (length bytes) /\ rs_fail s' = (length bytes <? tsize * (it + k)) /\
      forall i, it <= i < it + k -> S i * tsize <= length bytes -> firstn tsize (skipn ((i - it) * tsize) data') = cell_bytes i bytes).
    { unfold rs_read in ER. rewrite Hs, Hp in ER. destruct (Nat.ltb_spec (length bytes) (tsize * it)) as [L|L].
      - injection ER as <- <-. split; [reflexivity|]. split; [rewrite Hp; nia|]. split; [rewrite Hs; destruct (Nat.ltb_spec (length bytes) (tsize * (it + k))), (Nat.ltb_spec (length bytes) (tsize * it)); auto; nia|].
        intros i Hi Hb. nia.
      - rewrite Nat.min_l in ER by lia. set (got := firstn (k * tsize) (skipn (tsize * it) bytes)) in *.
        assert (Lg : length got = Nat.min (k * tsize) (length bytes - tsize * it)) by (unfold got; rewrite firstn_length, skipn_length; reflexivity).
        injection ER as <- <-. cbn [rs_pos rs_fail]. split; [apply blit_length; nia|]. split; [rewrite Lg; nia|]. split.
        { rewrite Lg. destruct (Nat.ltb_spec (Nat.min (k * tsize) (length bytes - tsize * it)) (k * tsize)), (Nat.ltb_spec (length bytes) (tsize * (it + k))); auto; nia. }
        intros i Hi Hb. rewrite blit_cell by nia. unfold got, cell_bytes. rewrite skipn_firstn_comm, firstn_firstn, skipn_skipn'.
        replace (tsize * it + (i - it) * tsize) with (i * tsize) by nia. f_equal. nia. }
    destruct RD as (Ld' & Hp' & Hs' & HC).
    destruct (raw_store_ok W data' k (n - it) it 0 m) as (m1 & E1 & L1 & H1); [lia|lia|nia|]. rewrite E1. cbn [bind].
    destruct (IH (it + k) data' s' m1) as (m' & E2 & L2 & H2); [lia|lia|lia|nia|exact Hp'|exact Hs'|].
    exists m'. split; [exact E2|]. split; [exact L2|]. intros i.
    rewrite (H2 i). destruct (Nat.leb_spec (it + k) i) as [A|A]; cbn [andb].
    + replace (it <=? i) with true by (symmetry; apply Nat.leb_le; lia). cbn [andb]. destruct ((S i * tsize <=? length bytes) && (i <? n)); [reflexivity|]. reflexivity.
    + rewrite H1. destruct (Nat.leb_spec it i) as [B|B]; cbn [andb]; [|reflexivity].
      replace (i <? it + k) with true by (symmetry; apply Nat.ltb_lt; lia). replace (i <? n) with true by (symmetry; apply Nat.ltb_lt; lia).
      rewrite andb_true_r. destruct (Nat.leb_spec (S i * tsize) (length bytes)) as [C|C]; [|reflexivity].
      rewrite Nat.add_0_l, HC by lia. reflexivity.
Qed.

Lemma raw_read_ok W maxlen junk bytes M N (m : list T) : 0 < maxlen -> Nat.divide tsize maxlen -> length m = M * N ->
  exists m', raw_read W maxlen junk bytes M N m = Ok m' /\ length m' = M * N /\
  forall i, i < M * N -> S i * tsize <= length bytes -> nth_error m' i = Some (tdec (cell_bytes i bytes)).
Proof.
  intros HP HD Lm. unfold raw_read. replace (maxlen =? 0) with false by (symmetry; apply Nat.eqb_neq; lia).
  destruct (raw_loop_ok W maxlen bytes (M * N) HP HD (S (tsize * (M * N))) 0 (firstn (tsize * (M * N)) (junk ++ repeat "000"%char (tsize * (M * N)))) {| rs_pos := 0; rs_fail := false |} m) as (m' & E & L & H).
  - lia.
  - exact Lm.
  - rewrite firstn_length, app_length, repeat_length. lia.
  - lia.
  - cbn [rs_pos]. rewrite Nat.mul_0_r. reflexivity.
  - cbn [rs_fail]. rewrite Nat.mul_0_r. symmetry. apply Nat.ltb_ge. lia.
  - rewrite Nat.sub_0_r in E. exists m'. split; [exact E|]. split; [exact L|]. intros i Hi Hb. rewrite H.
    replace (S i * tsize <=? length bytes) with true by (symmetry; apply Nat.leb_le; exact Hb).
    replace (i <? M * N) with true by (symmetry; apply Nat.ltb_lt; exact Hi). reflexivity.
Qed.

Lemma raw_bytes_length (m : list T) : length (raw_bytes m) = length m * tsize.
Proof. unfold raw_bytes. induction m as [|x m IH]; [reflexivity|]. cbn [flat_map length]. rewrite app_length, tenc_length, IH. reflexivity. Qed.
Lemma raw_bytes_cell (m : list T) i x : nth_error m i = Some x -> cell_bytes i (raw_bytes m) = tenc x.
Proof.
  unfold cell_bytes, raw_bytes. revert i. induction m as [|y m IH]; intros [|i] H; try discriminate.
  - injection H as ->. cbn [flat_map Nat.mul skipn]. rewrite firstn_app, tenc_length, Nat.sub_diag, firstn_O, app_nil_r.
    rewrite <- (tenc_length x). apply firstn_all.
  - cbn [nth_error] in H. cbn [flat_map]. rewrite skipn_app, tenc_length.
    rewrite (skipn_all2 (tenc y)) by (rewrite tenc_length; cbn; lia). cbn [app].
    replace (S i * tsize - tsize) with (i * tsize) by lia. apply IH, H.
Qed.
End Raw.

(** The element size divides 2^31 (all sizes that are powers of two below it). *)
Definition good_size (n : nat) : Prop := Nat.divide n (2 ^ 31) /\ n < 2 ^ 31.
Lemma good_maxlen n : good_size n -> 0 < 2 ^ 31 - n /\ Nat.divide n (2 ^ 31 - n).
Proof.
  unfold good_size. generalize (2 ^ 31). intros w [H1 H2]. split; [lia|]. apply Nat.divide_sub_r; [exact H1|apply Nat.divide_refl].
Qed.

(** C28: what write_to_raw puts into the file, read_from_raw restores, whatever
    the size of the matrix (in particular beyond the 2 GiB chunk), the old
    contents and the contents of the temporary buffer. *)
Theorem C28_raw_roundtrip {T : Type} {RT : Repr T} (M N : nat) (m old : list T) (junk : list byte) (fs : files) (dir file : string) :
  good_size (tsize (T := T)) -> length m = M * N -> length old = M * N ->
  fs (raw_read_path dir file) = Some (raw_bytes m) ->
  mat_read_raw fs junk M N old dir file = Ok m.
Proof.
  intros HG Lm Lo HF. unfold mat_read_raw. rewrite HF. destruct (good_maxlen _ HG) as [G1 G2].
  destruct (raw_read_ok (2 ^ 64) (2 ^ 31 - tsize) junk (raw_bytes m) M N old G1 G2 Lo) as (m' & E & L & H).
  rewrite E. f_equal. apply nth_error_ext. intros i. destruct (Nat.lt_ge_cases i (M * N)) as [Hi|Hi].
  - destruct (nth_error m i) as [x|] eqn:Ex; [|apply nth_error_None in Ex; lia].
    rewrite H; [rewrite (raw_bytes_cell m i x Ex), tdec_enc; reflexivity|exact Hi|]. rewrite raw_bytes_length, Lm. nia.
  - rewrite (proj2 (nth_error_None m' i)), (proj2 (nth_error_None m i)) by lia. reflexivity.
Qed.
(** C28: reading never leaves the matrix or the buffer, whatever the file
    contains; the elements the file contains completely are the ones read. *)
Theorem C28_raw_read_any_file {T : Type} {RT : Repr T} (M N : nat) (old : list T) (junk bytes : list byte) (fs : files) (dir file : string) :
  good_size (tsize (T := T)) -> length old = M * N -> fs (raw_read_path dir file) = Some bytes ->
  exists m', mat_read_raw fs junk M N old dir file = Ok m' /\ length m' = M * N /\
  forall i, i < M * N -> (i + 1) * tsize <= length bytes -> nth_error m' i = Some (tdec (firstn tsize (skipn (i * tsize) bytes))).
Proof.
  intros HG Lo HF. unfold mat_read_raw. rewrite HF. destruct (good_maxlen _ HG) as [G1 G2].
  destruct (raw_read_ok (2 ^ 64) (2 ^ 31 - tsize) junk bytes M N old G1 G2 Lo) as (m' & E & L & H).
  exists m'. split; [exact E|]. split; [exact L|]. intros i Hi Hb. apply H; [exact Hi|lia].
Qed.
(** A file that cannot be opened leaves the matrix alone. *)
Theorem C28_no_file {T : Type} {RT : Repr T} (M N : nat) (old : list T) (junk : list byte) (fs : files) (dir file : string) :
  fs (raw_read_path dir file) = None -> mat_read_raw fs junk M N old dir file = Ok old.
Proof. intros H. unfold mat_read_raw. rewrite H. reflexivity. Qed.

(** A concrete representation: 64-bit unsigned integers, little endian. *)
Fixpoint le_bytes (n : nat) (z : N) : list byte :=
  match n with O => [] | S n => ascii_of_N (z mod 256) :: le_bytes n (z / 256) end.
Fixpoint le_value (l : list byte) : N :=
  match l with [] => 0%N | b :: l => (N_of_ascii b + 256 * le_value l)%N end.
Lemma le_bytes_length n z : length (le_bytes n z) = n.
Proof. revert z. induction n as [|n IH]; intros z; cbn; auto. Qed.
Lemma le_value_bytes n z : (z < 256 ^ N.of_nat n)%N -> le_value (le_bytes n z) = z.
Proof.
  revert z. induction n as [|n IH]; intros z H; [change (256 ^ N.of_nat 0)%N with 1%N in H; cbn; lia|].
  cbn [le_bytes le_value]. rewrite IH.
  - rewrite N_ascii_embedding by (apply N.mod_upper_bound; discriminate). pose proof (N.div_mod z 256). lia.
  - apply N.div_lt_upper_bound; [discriminate|]. replace (256 ^ N.of_nat (S n))%N with (256 * 256 ^ N.of_nat n)%N in H; [exact H|].
    rewrite Nnat.Nat2N.inj_succ, N.pow_succ_r'. reflexivity.
Qed.
Definition u64 : Type := { z : N | (z <? 256 ^ 8)%N = true }.
Definition u64_of (z : N) : u64 := exist _ (z mod 256 ^ 8)%N (proj2 (N.ltb_lt _ _) (N.mod_lt z (256 ^ 8) ltac:(discriminate))).
Lemma u64_dec_enc (x : u64) : u64_of (le_value (le_bytes 8 (proj1_sig x))) = x.
Proof.
  destruct x as [z Hz]. unfold u64_of. apply eq_sig_hprop; [intros; apply Eqdep_dec.UIP_dec, bool_dec|].
  cbn [proj1_sig]. rewrite (le_value_bytes 8) by (apply N.ltb_lt; exact Hz). apply N.mod_small, N.ltb_lt, Hz.
Qed.
#[export] Instance ReprU64 : Repr u64 :=
  {| tsize := 8; tenc := fun x => le_bytes 8 (proj1_sig x); tdec := fun l => u64_of (le_value l);
     tsize_pos := Nat.lt_0_succ 7; tenc_length := fun x => le_bytes_length 8 (proj1_sig x); tdec_enc := u64_dec_enc |}.
Example C28_hypotheses_met : good_size (tsize (T := u64)) /\ length [u64_of 5; u64_of 7] = 2 * 1 /\
  file_put (fun _ => None) "d/m.raw" (raw_bytes [u64_of 5; u64_of 7]) (raw_read_path "d" "m.raw") = Some (raw_bytes [u64_of 5; u64_of 7]).
Proof.
  split; [|split; reflexivity]. unfold good_size. change (tsize (T := u64)) with (2 ^ 3). split.
  - exists (2 ^ 28). rewrite <- Nat.pow_add_r. reflexivity.
  - apply Nat.pow_lt_mono_r; lia.
Qed.
Print Assumptions C28_raw_roundtrip.
Print Assumptions C28_raw_read_any_file.
Print Assumptions C28_no_file.

(** ** File names *)
Definition ends_with (suf s : string) : Prop := exists pre, s = append pre suf.
Lemma append_length a b : String.length (append a b) = String.length a + String.length b.
Proof. induction a as [|c a IH]; cbn; auto. Qed.
Lemma prefix_length pat s : prefix pat s = true -> String.length pat <= String.length s.
Proof.
  revert s. induction pat as [|c pat IH]; intros [|d s] H; cbn in *; try lia; try discriminate.
  destruct (ascii_dec c d); [|discriminate]. apply IH in H. lia.
Qed.
Lemma prefix_same pat s : String.length pat = String.length s -> prefix pat s = true <-> s = pat.
Proof.
  revert s. induction pat as [|c pat IH]; intros [|d s] H; cbn in *; try lia; [tauto|].
  destruct (ascii_dec c d) as [->|Hne]; [|split; [discriminate|congruence]]. rewrite (IH s) by lia. split; congruence.
Qed.
Lemma sfind_short pat s : String.length s < String.length pat -> sfind pat s 0 = None.
Proof.
  induction s as [|c s IH]; intros H; cbn [sfind]; unfold sub_is.
  - destruct pat; [cbn in H; lia|reflexivity].
  - destruct (prefix pat (String c s)) eqn:E; [apply prefix_length in E; lia|]. rewrite IH; [reflexivity|cbn in H; lia].
Qed.
Lemma sfind_suffix pat s : 0 < String.length pat <= String.length s ->
  sfind pat s (String.length s - String.length pat) <> None <-> ends_with pat s.
Proof.
  intros [HP H]. induction s as [|c s IH]; [cbn in H; lia|].
  destruct (Nat.eq_dec (String.length pat) (String.length (String c s))) as [E|E].
  - rewrite E, Nat.sub_diag. cbn [sfind]. unfold sub_is. destruct (prefix pat (String c s)) eqn:P.
    + apply (prefix_same pat _ E) in P. split; [intros _; exists EmptyString; exact P|discriminate].
    + rewrite sfind_short by (cbn in E |- *; lia). split; [cbn; congruence|]. intros (pre & F). exfalso.
      destruct pre as [|d pre]; [|apply (f_equal String.length) in F; rewrite append_length in F; cbn in *; lia].
      assert (prefix pat (String c s) = true) by (apply (prefix_same pat _ E); exact F). congruence.
  - cbn [String.length] in *. replace (S (String.length s) - String.length pat) with (S (String.length s - String.length pat)) by lia.
    cbn [sfind]. assert (A : option_map S (sfind pat s (String.length s - String.length pat)) <> None <-> sfind pat s (String.length s - String.length pat) <> None) by (destruct (sfind pat s _); cbn; split; congruence).
    rewrite A, IH by lia. split; intros (pre & F).
    + exists (String c pre). cbn. rewrite F at 1. reflexivity.
    + destruct pre as [|d pre]; [exfalso; apply (f_equal String.length) in F; cbn in F; lia|]. exists pre. cbn in F. congruence.
Qed.
Lemma find_suffix_spec ext file : String.length ext = 3 -> find_suffix ext file <> None <-> ends_with ext file.
Proof.
  intros HE. unfold find_suffix. destruct (Nat.ltb_spec (String.length file) 3) as [L|L].
  - split; [congruence|]. intros (pre & F). apply (f_equal String.length) in F. rewrite append_length in F. lia.
  - rewrite <- HE at 1. apply sfind_suffix. lia.
Qed.
(** The separator logic: one "/" between a non-empty directory and the name. *)
Fixpoint last_char (s : string) : option ascii :=
  match s with EmptyString => None | String c EmptyString => Some c | String _ s => last_char s end.
Lemma find_last_sep_spec s : forall i best, (best < i)%Z ->
  ((find_last_sep s i best < i + Z.of_nat (String.length s) - 1)%Z <-> s <> EmptyString /\ last_char s <> Some "/"%char) \/ s = EmptyString.
Proof.
  induction s as [|c s IH]; intros i best H; [right; reflexivity|left].
  destruct s as [|d s].
  - cbn. destruct (Ascii.eqb_spec c "/"%char) as [->|Hc]; cbn; split; intros A.
    + lia.
    + destruct A as [_ A]. congruence.
    + split; congruence.
    + lia.
  - change (last_char (String c (String d s))) with (last_char (String d s)). change (find_last_sep (String c (String d s)) i best) with (find_last_sep (String d s) (i + 1) (if Ascii.eqb c "/"%char then i else best)).
    destruct (IH (i + 1)%Z (if Ascii.eqb c "/"%char then i else best)) as [E|E]; [destruct (Ascii.eqb c "/"%char); lia| |discriminate].
    replace (i + Z.of_nat (String.length (String c (String d s))) - 1)%Z with (i + 1 + Z.of_nat (String.length (String d s)) - 1)%Z by (cbn [String.length]; lia).
    rewrite E. split; intros [_ A]; (split; [discriminate|exact A]).
Qed.
Lemma raw_join_spec dir file :
  raw_join dir file = match last_char dir with
                      | None => file
                      | Some c => if Ascii.eqb c "/"%char then append dir file else append (append dir "/") file
                      end.
Proof.
  unfold raw_join. cbv zeta. destruct (find_last_sep_spec dir 0 (-1) ltac:(lia)) as [E|E].
  - rewrite Z.add_0_l in E. destruct (last_char dir) as [c|] eqn:L.
    + destruct (Z.ltb_spec (find_last_sep dir 0 (-1)) (Z.of_nat (String.length dir) - 1)) as [A|A].
      * apply E in A as [_ A]. destruct (Ascii.eqb_spec c "/"%char) as [->|]; [congruence|reflexivity].
      * destruct (Ascii.eqb_spec c "/"%char) as [->|Hc]; [reflexivity|]. exfalso. apply Z.le_ngt in A. apply A, E. split; [|congruence].
        intros ->. discriminate.
    + destruct dir as [|c dir]; [reflexivity|]. exfalso. clear E. revert c L. induction dir as [|d dir IH]; intros c L; [discriminate|]. exact (IH d L).
  - subst dir. reflexivity.
Qed.

(** C29: for names that end in "raw" both functions use the same path, the
    directory and the name joined by one "/", so that the matrix written is the
    one read back. *)
Theorem C29_raw_name_partial {T : Type} {RT : Repr T} (can_create : string -> bool) (fs : files) (M N : nat) (m old : list T) (junk : list byte) (dir file : string) :
  ends_with "raw" file -> can_create (raw_write_path dir file) = true ->
  good_size (tsize (T := T)) -> length m = M * N -> length old = M * N ->
  raw_write_path dir file = raw_read_path dir file /\
  mat_read_raw (mat_write_raw can_create fs m dir file) junk M N old dir file = Ok m.
Proof.
  intros HE HC HG Lm Lo. apply (find_suffix_spec "raw" file eq_refl) in HE.
  assert (E : raw_write_path dir file = raw_read_path dir file).
  { unfold raw_write_path, raw_read_path. destruct (find_suffix "raw" file); [reflexivity|congruence]. }
  split; [exact E|]. apply C28_raw_roundtrip; auto. unfold mat_write_raw. rewrite HC. rewrite E. unfold file_put. rewrite String.eqb_refl. reflexivity.
Qed.
(** C29: for every other name write_to_raw appends ".raw" and read_from_raw does
    not: the file written is not the file read, and nothing is read. *)
Theorem C29_raw_name_refuted {T : Type} {RT : Repr T} (can_create : string -> bool) (fs : files) (M N : nat) (m old : list T) (junk : list byte) (dir file : string) :
  ~ ends_with "raw" file -> fs (raw_read_path dir file) = None ->
  raw_write_path dir file = append (raw_read_path dir file) ".raw" /\
  mat_read_raw (mat_write_raw can_create fs m dir file) junk M N old dir file = Ok old.
Proof.
  intros HE HN.
  assert (E : raw_write_path dir file = append (raw_read_path dir file) ".raw").
  { unfold raw_write_path, raw_read_path. destruct (find_suffix "raw" file) eqn:F.
    - exfalso. apply HE, (find_suffix_spec "raw" file eq_refl). congruence.
    - generalize (raw_join dir file). intros s. induction s as [|c s IH]; cbn; [reflexivity|]. f_equal. exact IH. }
  split; [exact E|]. apply C28_no_file. unfold mat_write_raw. destruct (can_create (raw_write_path dir file)); [|exact HN].
  unfold file_put. rewrite E. destruct (String.eqb_spec (raw_read_path dir file) (append (raw_read_path dir file) ".raw")) as [A|A]; [|exact HN].
  exfalso. apply (f_equal String.length) in A. rewrite append_length in A. cbn in A. lia.
Qed.
(** The path both functions start from. *)
Theorem C29_path (dir file : string) :
  raw_read_path dir file = match last_char dir with
                           | None => file
                           | Some c => if Ascii.eqb c "/"%char then append dir file else append (append dir "/") file
                           end.
Proof. apply raw_join_spec. Qed.
Example C29_hypotheses_met : ends_with "raw" "m.raw" /\ ~ ends_with "raw" "m.dat" /\ ~ ends_with "raw" "m".
Proof.
  split; [exists "m."%string; reflexivity|]. split; intros H; apply (find_suffix_spec "raw" _ eq_refl) in H; apply H; reflexivity.
Qed.
Print Assumptions C29_raw_name_partial.
Print Assumptions C29_raw_name_refuted.
Print Assumptions C29_path.

(** ** Text streams *)
Section Text.
Context {cfg : Cfg} {T : Type} {ST : Scalar T} {XT : Text T}.
(** The text of x, followed by a blank, can be read back, and it starts with a
    non-blank. *)
Definition readable (x : T) : Prop :=
  (forall rest, tparse (tshow x ++ " "%char :: rest) = Some (x, " "%char :: rest)) /\
  exists c t, tshow x = c :: t /\ is_space c = false.
Definition word (x : T) : list ascii := tshow x ++ [" "%char].
Definition lead (b : bool) : list ascii := if b then [" "%char] else [].

Lemma extract_word b x tl old : readable x ->
  extract {| is_chars := lead b ++ word x ++ tl; is_fail := false |} old = (x, {| is_chars := " "%char :: tl; is_fail := false |}).
Proof.
  intros [HP (c & t & HC & HB)]. unfold extract. cbn [is_fail is_chars].
  assert (E : skip_ws (lead b ++ word x ++ tl) = tshow x ++ " "%char :: tl).
  { unfold word. rewrite HC. rewrite <- !app_assoc. cbn [app]. destruct b; cbn [lead app skip_ws]; [change (is_space " "%char) with true|]; cbn [skip_ws]; rewrite HB; reflexivity. }
  rewrite E. specialize (HP tl). rewrite HC in *. cbn [app] in *. rewrite HP. reflexivity.
Qed.
Lemma flat_seq_cons (g : nat -> list ascii) i n : i < n -> flat_map g (seq i (n - i)) = g i ++ flat_map g (seq (S i) (n - S i)).
Proof. intros H. replace (n - i) with (S (n - S i)) by lia. reflexivity. Qed.
Lemma flat_seq_snoc (g : nat -> list ascii) n : flat_map g (seq 0 (S n)) = flat_map g (seq 0 n) ++ g n.
Proof. rewrite seq_S, flat_map_app. cbn [flat_map]. rewrite app_nil_r. reflexivity. Qed.

(** C30: vectors.  [out] is what was on the stream before, [rest] what follows. *)
Theorem C30_vector_stream (M : nat) (v : list T) (f : nat -> T) : repV M v f -> (forall i, i < M -> readable (f i)) ->
  exists txt, (forall out, vec_write M v out = Ok (out ++ txt)) /\
  forall old rest, length old = M ->
  vec_read M old {| is_chars := txt ++ rest; is_fail := false |} =
    Ok (v, {| is_chars := (if M =? 0 then rest else " "%char :: rest); is_fail := false |}).
Proof.
  intros Hv HR. set (g := fun i => word (f i)). exists (flat_map g (seq 0 M)). split.
  - intros out. unfold vec_write.
    destruct (for_inv (fun i os => os = out ++ flat_map g (seq 0 i)) 0 M
      (fun i os => x <- vat M v i ;; Ok (os ++ tshow x ++ [" "%char])) out) as (r & E & ->).
    + lia.
    + cbn. rewrite app_nil_r. reflexivity.
    + intros k os Hk ->. rewrite (vat_ok M v f k Hv) by lia. cbn [bind]. apply returns_ok.
      rewrite flat_seq_snoc, <- !app_assoc. reflexivity.
    + exact E.
  - intros old rest Lo. unfold vec_read.
    destruct (for_inv (fun i '(w, s) => repV M w (fun k => if k <? i then f k else nth k old szero) /\
        s = {| is_chars := lead (0 <? i) ++ flat_map g (seq i (M - i)) ++ rest; is_fail := false |}) 0 M
      (fun i '(v, s) => old <- vat M v i ;; let '(x, s) := extract s old in v <- vset M v i x ;; Ok (v, s))
      (old, {| is_chars := flat_map g (seq 0 M) ++ rest; is_fail := false |})) as ([w s] & E & HW & HS).
    + lia.
    + split; [|rewrite Nat.sub_0_r; reflexivity]. eapply repV_ext; [apply (repV_nth M old szero Lo)|]. reflexivity.
    + intros i [w s] Hi [HW ->]. rewrite (vat_ok M w _ i HW) by lia. cbn [bind].
      rewrite flat_seq_cons by lia. rewrite <- app_assoc. unfold g at 1.
      rewrite extract_word by (apply HR; lia). unfold vset. replace (M <=? i) with false by (symmetry; apply Nat.leb_gt; lia).
      assert (X : returns (wr w i (f i)) (fun w' => repV M w' (fun k => if k <? S i then f k else nth k old szero))).
      { destruct (repV_wr M w _ i (f i) HW ltac:(lia)) as (E1 & H1). rewrite E1. apply returns_ok. eapply repV_ext; [exact H1|]. intros k Hk. cbv beta.
        destruct (Nat.eqb_spec k i) as [->|Hne]; [destruct (Nat.ltb_spec i (S i)); [reflexivity|lia]|].
        destruct (Nat.ltb_spec k i), (Nat.ltb_spec k (S i)); auto; lia. }
      destruct X as (w' & E1 & H1). destruct (andb safe false); rewrite E1; cbn [bind]; apply returns_ok; (split; [exact H1|reflexivity]).
    + rewrite E. f_equal. f_equal.
      * apply nth_error_ext. intros i. destruct (Nat.lt_ge_cases i M) as [L|L].
        -- rewrite (proj2 HW i L), (proj2 Hv i L). destruct (Nat.ltb_spec i M); [reflexivity|lia].
        -- rewrite (proj2 (nth_error_None w i)), (proj2 (nth_error_None v i)) by (rewrite ?(proj1 HW), ?(proj1 Hv); lia). reflexivity.
      * rewrite HS, Nat.sub_diag. cbn [seq flat_map app]. destruct M; reflexivity.
Qed.

(** C30: matrices, row by row. *)
Theorem C30_matrix_stream (M N : nat) (m : list T) (f : nat -> nat -> T) : repM M N m f ->
  (forall i j, i < M -> j < N -> readable (f i j)) ->
  exists txt, (forall out, mat_write M N m out = Ok (out ++ txt)) /\
  forall old rest, length old = M * N ->
  mat_read M N old {| is_chars := txt ++ rest; is_fail := false |} =
    Ok (m, {| is_chars := (if M * N =? 0 then rest else " "%char :: rest); is_fail := false |}).
Proof.
  intros Hm HR. set (g := fun r c => word (f r c)). set (G := fun r => flat_map (g r) (seq 0 N)). exists (flat_map G (seq 0 M)). split.
  - intros out. unfold mat_write.
    destruct (for_inv (fun r os => os = out ++ flat_map G (seq 0 r)) 0 M
      (fun r => for_ 0 N (fun c os => x <- mat_at M N m r c ;; Ok (os ++ tshow x ++ [" "%char]))) out) as (x & E & ->).
    + lia.
    + cbn. rewrite app_nil_r. reflexivity.
    + intros r os Hr ->. eapply returns_impl; [apply (for_inv (fun c os => os = (out ++ flat_map G (seq 0 r)) ++ flat_map (g r) (seq 0 c)) 0 N)|].
      * lia.
      * cbn. rewrite app_nil_r. reflexivity.
      * intros c os Hc ->. rewrite (mat_at_ok M N m f) by (auto; lia). cbn [bind]. apply returns_ok.
        rewrite (flat_seq_snoc (g r) c), (app_assoc _ _ (g r c)). reflexivity.
      * intros os ->. rewrite flat_seq_snoc. rewrite <- app_assoc. reflexivity.
    + exact E.
  - intros old rest Lo. unfold mat_read.
    set (h := fun i j => nth (j * M + i) old szero).
    set (body := fun r c '(m, s) => old <- mat_at M N m r c ;; let '(x, s) := extract s old in m <- mat_put M N m r c x ;; Ok (m, s)).
    destruct (for_inv (fun r '(w, s) => repM M N w (fun i j => if i <? r then f i j else h i j) /\
        s = {| is_chars := lead ((0 <? r) && (0 <? N)) ++ flat_map G (seq r (M - r)) ++ rest; is_fail := false |}) 0 M
      (fun r => for_ 0 N (body r)) (old, {| is_chars := flat_map G (seq 0 M) ++ rest; is_fail := false |})) as ([w s] & E & HW & HS).
    + lia.
    + split; [|rewrite Nat.sub_0_r; reflexivity]. eapply repM_ext; [apply (repM_nth M N old szero Lo)|]. reflexivity.
    + intros r [w s] Hr [HW ->]. eapply returns_impl; [apply (for_inv (fun c '(w, s) =>
          repM M N w (fun i j => if (i <? r) || ((i =? r) && (j <? c)) then f i j else h i j) /\
          s = {| is_chars := lead (((0 <? r) && (0 <? N)) || (0 <? c)) ++ flat_map (g r) (seq c (N - c)) ++ flat_map G (seq (S r) (M - S r)) ++ rest; is_fail := false |}) 0 N)|].
      * lia.
      * split; [eapply repM_ext; [exact HW|]; intros i j _ _; cbv beta; rewrite andb_false_r, orb_false_r; reflexivity|].
        rewrite (flat_seq_cons G r M) by lia. rewrite orb_false_r, Nat.sub_0_r. unfold G at 1. rewrite <- app_assoc. reflexivity.
      * intros c [w' s'] Hc [HW' ->]. unfold body. rewrite (mat_at_ok M N w' _ r c HW') by lia. cbn [bind].
        rewrite (flat_seq_cons (g r) c N) by lia. rewrite <- app_assoc. unfold g at 1. rewrite extract_word by (apply HR; lia).
        eapply returns_bind; [apply (mat_put_rep M N w' _ r c (f r c) HW'); lia|]. intros w2 H2. cbv beta in H2. apply returns_ok. split.
        -- eapply repM_ext; [exact H2|]. intros i j Hi Hj. cbv beta.
           destruct (Nat.eqb_spec i r) as [->|Hne]; cbn [andb orb].
           ++ rewrite Nat.ltb_irrefl. cbn [orb]. destruct (Nat.eqb_spec j c) as [->|Hj']; [destruct (Nat.ltb_spec c (S c)); [reflexivity|lia]|].
              destruct (Nat.ltb_spec j c), (Nat.ltb_spec j (S c)); auto; lia.
           ++ reflexivity.
        -- cbn [Nat.ltb Nat.leb]. rewrite orb_true_r. reflexivity.
      * intros [w' s'] [HW' ->]. split.
        -- eapply repM_ext; [exact HW'|]. intros i j Hi Hj. cbv beta. destruct (Nat.ltb_spec j N); [|lia]. rewrite andb_true_r.
           destruct (Nat.ltb_spec i r), (Nat.eqb_spec i r), (Nat.ltb_spec i (S r)); cbn [orb]; auto; lia.
        -- rewrite Nat.sub_diag. cbn [seq flat_map app]. assert (EB : ((0 <? r) && (0 <? N)) || (0 <? N) = (0 <? S r) && (0 <? N)) by (destruct (0 <? r), (0 <? N); reflexivity).
           rewrite EB. reflexivity.
    + refine (eq_trans E _). f_equal. f_equal.
      * apply nth_error_ext. intros k. destruct (Nat.lt_ge_cases k (M * N)) as [L|L].
        -- destruct (cell_surj M N k L) as (i & j & Hi & Hj & ->). rewrite (proj2 HW i j Hi Hj), (proj2 Hm i j Hi Hj). destruct (Nat.ltb_spec i M); [reflexivity|lia].
        -- rewrite (proj2 (nth_error_None w k)), (proj2 (nth_error_None m k)) by (rewrite ?(proj1 HW), ?(proj1 Hm); lia). reflexivity.
      * rewrite HS, Nat.sub_diag. cbn [seq flat_map app]. destruct M as [|M]; [reflexivity|]. destruct N as [|N]; [rewrite Nat.mul_0_r; reflexivity|reflexivity].
Qed.

(** C101: an element type whose text does not determine the value (a double
    written with the stream's default precision of 6 digits): reading back the
    text of one value cannot give both. *)
Theorem C101_lossy_text_refuted (x y : T) : x <> y -> tshow x = tshow y ->
  forall old s, ~ ((exists txt, vec_write 1 [x] [] = Ok txt /\ vec_read 1 [old] {| is_chars := txt; is_fail := false |} = Ok ([x], s)) /\
                   (exists txt, vec_write 1 [y] [] = Ok txt /\ vec_read 1 [old] {| is_chars := txt; is_fail := false |} = Ok ([y], s))).
Proof.
  intros Hne HS old s [(t1 & W1 & R1) (t2 & W2 & R2)].
  assert (WE : forall z, vec_write 1 [z] [] = Ok (tshow z ++ [" "%char])) by (intros z; unfold vec_write, for_; cbn; destruct safe; reflexivity).
  rewrite WE in W1, W2. injection W1 as <-. injection W2 as <-. rewrite HS in R1. congruence.
Qed.
End Text.

(** Decimal integers are readable. *)
Lemma digits_span (d : Decimal.uint) rest : let l := list_ascii_of_string (NilEmpty.string_of_uint d) in
  span_digits (l ++ " "%char :: rest) = (l, " "%char :: rest).
Proof. induction d; cbn in *; rewrite ?IHd; reflexivity. Qed.
Lemma uint_string d : d <> Decimal.Nil -> NilZero.string_of_uint d = NilEmpty.string_of_uint d.
Proof. destruct d; [congruence|reflexivity..]. Qed.
Lemma uint_head d : d <> Decimal.Nil -> exists c t, list_ascii_of_string (NilEmpty.string_of_uint d) = c :: t /\ is_space c = false /\ Ascii.eqb c "-"%char = false /\ Ascii.eqb c "+"%char = false.
Proof. destruct d; [congruence|cbn; do 2 eexists; split; [reflexivity|]; split; [reflexivity|split; reflexivity]..]. Qed.
Lemma to_int_cases z : exists d, d <> Decimal.Nil /\ (Z.to_int z = Decimal.Pos d \/ Z.to_int z = Decimal.Neg d).
Proof.
  destruct z as [|p|p].
  - exists (Decimal.D0 Decimal.Nil). split; [discriminate|left; reflexivity].
  - exists (Pos.to_uint p). split; [apply DecimalPos.Unsigned.to_uint_nonnil|left; reflexivity].
  - exists (Pos.to_uint p). split; [apply DecimalPos.Unsigned.to_uint_nonnil|right; reflexivity].
Qed.
Lemma int_readable (t : ityp) (z : Z) : (imin t <= z <= imax t)%Z -> @readable Z (IntText t) z.
Proof.
  intros [H1 H2]. destruct (to_int_cases z) as (d & Hd & HZ).
  assert (ISI : NilZero.int_of_string (NilZero.string_of_int (Z.to_int z)) = Some (Z.to_int z)).
  { apply NilZero.isi; destruct HZ as [->| ->]; congruence. }
  destruct (uint_head d Hd) as (c & u & EU & HB & HM & HP). split.
  - intros rest. cbn [tshow tparse IntText]. unfold parse_int, show_int.
    assert (RNG : ((imin t <=? z) && (z <=? imax t))%Z = true) by (rewrite (proj2 (Z.leb_le _ _) H1), (proj2 (Z.leb_le _ _) H2); reflexivity).
    pose proof (digits_span d rest) as SP. cbv zeta in SP.
    destruct HZ as [E|E]; rewrite E in ISI |- *; cbn [NilZero.string_of_int] in *; rewrite (uint_string d Hd) in *.
    + rewrite EU in *. cbn [app] in *. rewrite HM, HP, SP. cbn [app].
      rewrite <- EU, string_of_list_ascii_of_string, ISI. rewrite <- E, of_to, RNG. reflexivity.
    + cbn [list_ascii_of_string app]. change (Ascii.eqb "-"%char "-"%char) with true. cbv iota. rewrite SP. rewrite EU. rewrite <- EU.
      cbn [app string_of_list_ascii]. rewrite string_of_list_ascii_of_string, ISI. rewrite <- E, of_to, RNG. reflexivity.
  - cbn [tshow IntText]. unfold show_int. destruct HZ as [-> | ->]; cbn [NilZero.string_of_int]; rewrite (uint_string d Hd).
    + exists c, u. split; [exact EU|exact HB].
    + cbn [list_ascii_of_string]. do 2 eexists. split; [reflexivity|reflexivity].
Qed.
(** C30: matrices of a (non-character) integer type. *)
Theorem C30_int_matrix {cfg : Cfg} {ST : Scalar Z} (t : ityp) (M N : nat) (m : list Z) (f : nat -> nat -> Z) : repM M N m f ->
  (forall i j, i < M -> j < N -> (imin t <= f i j <= imax t)%Z) ->
  exists txt, (forall out, @mat_write cfg Z (IntText t) M N m out = Ok (out ++ txt)) /\
  forall old rest, length old = M * N ->
  @mat_read cfg Z ST (IntText t) M N old {| is_chars := txt ++ rest; is_fail := false |} =
    Ok (m, {| is_chars := (if M * N =? 0 then rest else " "%char :: rest); is_fail := false |}).
Proof. intros Hm HR. apply (C30_matrix_stream (XT := IntText t) M N m f Hm). intros i j Hi Hj. apply int_readable, HR; assumption. Qed.
(** C30: bytes round-trip when they are not blanks ... *)
Lemma byte_readable c : is_space c = false -> @readable ascii ByteText c.
Proof. intros H. split; [reflexivity|]. exists c, []. split; [reflexivity|exact H]. Qed.
(** ... and do not when they are: the vector (32, 65) of uint8_t. *)
Theorem C101_byte_vector_refuted {cfg : Cfg} {ST : Scalar ascii} :
  @vec_write cfg ascii ByteText 2 [" "; "A"]%char [] = Ok [" "; " "; "A"; " "]%char /\
  forall a b, exists v s, @vec_read cfg ascii ST ByteText 2 [a; b] {| is_chars := [" "; " "; "A"; " "]%char; is_fail := false |} = Ok (v, s) /\
  v <> [" "; "A"]%char /\ is_fail s = true.
Proof.
  split; [unfold vec_write, for_; cbn; destruct safe; reflexivity|].
  intros a b. exists ["A"%char; b], {| is_chars := []; is_fail := true |}. split; [|split; [discriminate|reflexivity]].
  unfold vec_read, for_. cbn. destruct safe; reflexivity.
Qed.
Example C30_hypotheses_met : repM 2 2 [-12; 0; 345; 7]%Z (fun i j => nth (j * 2 + i) [-12; 0; 345; 7]%Z 0%Z) /\
  (forall i j, i < 2 -> j < 2 -> (imin {| ibits := 32; isigned := true |} <= nth (j * 2 + i) [-12; 0; 345; 7]%Z 0%Z <= imax {| ibits := 32; isigned := true |})%Z) /\
  show_int (-12) = ["-"; "1"; "2"]%char.
Proof.
  split; [apply repM_nth; reflexivity|]. split; [|reflexivity]. intros i j Hi Hj. destruct i as [|[|]], j as [|[|]]; try lia; cbn; lia.
Qed.
Print Assumptions C30_vector_stream.
Print Assumptions C30_matrix_stream.
Print Assumptions C101_lossy_text_refuted.
Print Assumptions C30_int_matrix.
Print Assumptions C101_byte_vector_refuted.

(** ** Stream format *)
Section Fmt.
Context {T : Type} (show_fmt : fmt -> T -> list ascii).
Definition same_flags (f g : fmt) : Prop :=
  f_left f = f_left g /\ f_right f = f_right g /\ f_internal f = f_internal g /\ f_prec f = f_prec g.
Lemma put_str_flags s st : same_flags (snd (put_str s st)) (snd st).
Proof. destruct st; cbn. repeat split. Qed.
Lemma same_flags_trans f g h : same_flags f g -> same_flags g h -> same_flags f h.
Proof. unfold same_flags. intuition congruence. Qed.
Lemma put_items_flags l : forall st, same_flags (snd (put_items show_fmt l st)) (snd st).
Proof.
  induction l as [|x l IH]; intros st; cbn [put_items]; [repeat split|].
  eapply same_flags_trans; [apply IH|]. eapply same_flags_trans; [apply put_str_flags|]. destruct st; cbn. repeat split.
Qed.
Lemma put_rows_flags l : forall st, same_flags (snd (put_rows show_fmt l st)) (snd st).
Proof.
  induction l as [|r l IH]; intros st; cbn [put_rows]; [repeat split|].
  pose proof (put_str_flags ["|"%char] (put_items show_fmt r (put_str ["|"%char] st))) as A.
  destruct (put_str _ (put_items show_fmt r _)) as [out g]. eapply same_flags_trans; [apply IH|]. cbn [snd] in *.
  eapply same_flags_trans; [exact A|]. eapply same_flags_trans; [apply put_items_flags|]. apply put_str_flags.
Qed.
(** The format a printed vector or matrix leaves behind: the precision and the
    other bits are as before, the right bit is set. *)
Theorem C82_format_after (v : list T) (rows : list (list T)) (out : list ascii) (f : fmt) :
  let after g := f_left g = f_left f /\ f_right g = true /\ f_internal g = f_internal f /\ f_prec g = f_prec f in
  after (snd (vec_print show_fmt v (out, f))) /\ after (snd (mat_print show_fmt rows (out, f))).
Proof.
  cbv zeta. split.
  - unfold vec_print. pose proof (put_str_flags ["]"%char] (put_items show_fmt v (put_str ["["; " "]%char (out, set_prec (setf_right f) 5)))) as A.
    destruct (put_str ["]"%char] _) as [o g]. cbn [snd] in A |- *.
    pose proof (put_items_flags v (put_str ["["; " "]%char (out, set_prec (setf_right f) 5))) as B.
    pose proof (same_flags_trans _ _ _ A B) as (A1 & A2 & A3 & A4). cbn in A1, A2, A3. cbn. rewrite A1, A2, A3. repeat split.
  - unfold mat_print. pose proof (put_rows_flags rows (out, set_prec (setf_right f) 5)) as A. destruct (put_rows _ rows _) as [o g]. cbn [snd] in A |- *.
    destruct A as (A1 & A2 & A3 & A4). cbn in A1, A2, A3. cbn. rewrite A1, A2, A3. repeat split.
Qed.
(** C82: a stream that is set to right adjustment keeps its format. *)
Theorem C82_format_kept_partial (v : list T) (rows : list (list T)) (out : list ascii) (f : fmt) : f_right f = true ->
  same_flags (snd (vec_print show_fmt v (out, f))) f /\ same_flags (snd (mat_print show_fmt rows (out, f))) f.
Proof. intros H. destruct (C82_format_after v rows out f) as [A B]. cbv zeta in A, B. unfold same_flags. rewrite H. tauto. Qed.
(** C82: any other stream ends up with the right bit set; one that was set to
    left adjustment has both bits set. *)
Theorem C82_format_refuted (v : list T) (rows : list (list T)) (out : list ascii) (f : fmt) : f_right f = false ->
  ~ same_flags (snd (vec_print show_fmt v (out, f))) f /\ ~ same_flags (snd (mat_print show_fmt rows (out, f))) f.
Proof.
  intros H. destruct (C82_format_after v rows out f) as [A B]. cbv zeta in A, B. unfold same_flags.
  split; intros (_ & E & _); [destruct A as (_ & A1 & _)|destruct B as (_ & A1 & _)]; congruence.
Qed.
End Fmt.
Example C82_hypotheses_met : f_right {| f_left := true; f_right := false; f_internal := false; f_prec := 6; f_width := 0 |} = false.
Proof. reflexivity. Qed.
Print Assumptions C82_format_after.
Print Assumptions C82_format_kept_partial.
Print Assumptions C82_format_refuted.
