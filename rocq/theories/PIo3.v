(** Property C131: raw files of elements whose size does not divide 2^31. *)
From Coq Require Import ZArith Lia.
From Verif Require Import PIo.
Local Open Scope nat_scope.
Local Open Scope list_scope.

Section Odd.
Context {T : Type} {RT : Repr T}.

(** len_read after [k] elements: r - k sizeof(T) modulo [W]. *)
Definition wlen (W r k : nat) : nat := if k * tsize <=? r then r - k * tsize else r + W - k * tsize.
Lemma wlen_next W r k : (k + 1) * tsize < W -> wsub W (wlen W r k) tsize = wlen W r (S k).
Proof.
  intros H. pose proof (tsize_pos (T := T)) as TP. unfold wsub, wlen. set (s := tsize) in *. cbn [Nat.mul]. rewrite Nat.mul_add_distr_r in H. set (q := k * s) in *.
  repeat match goal with |- context [?a <=? ?b] => destruct (Nat.leb_spec a b) end; lia.
Qed.
Lemma raw_store_wrap W data r : (forall j, r <> j * tsize) -> forall n k it (m : list T),
  it + n <= length m -> (k + n) * tsize <= length data -> (k + n) * tsize < W ->
  exists m', raw_store W data n it (k * tsize) (wlen W r k) m = Ok (it + n, m') /\ length m' = length m /\
  forall i, nth_error m' i = if (it <=? i) && (i <? it + n) then Some (tdec (firstn tsize (skipn ((k + (i - it)) * tsize) data))) else nth_error m i.
Proof.
  intros HR. pose proof (tsize_pos (T := T)) as TP. induction n as [|n IH]; intros k it m Hm Hd HW.
  - exists m. split; [rewrite Nat.add_0_r; reflexivity|]. split; [reflexivity|]. intros i. destruct (Nat.leb_spec it i), (Nat.ltb_spec i (it + 0)); cbn [andb]; auto; lia.
  - cbn [raw_store].
    assert (NZ : (wlen W r k =? 0) = false).
    { apply Nat.eqb_neq. unfold wlen. specialize (HR k). rewrite Nat.mul_add_distr_r in HW. destruct (Nat.leb_spec (k * tsize) r); lia. }
    rewrite NZ. assert (B1 : k * tsize + tsize <= (k + S n) * tsize) by (rewrite Nat.mul_add_distr_r; cbn [Nat.mul]; lia).
    unfold load. replace (k * tsize + tsize <=? length data) with true by (symmetry; apply Nat.leb_le; lia). cbn [bind].
    unfold wr. replace (it <? length m) with true by (symmetry; apply Nat.ltb_lt; lia). cbn [bind].
    rewrite wlen_next by (rewrite Nat.mul_add_distr_r, Nat.mul_1_l; lia). replace (k * tsize + tsize) with (S k * tsize) by (cbn [Nat.mul]; lia).
    destruct (IH (S k) (S it) (upd m it (tdec (firstn tsize (skipn (k * tsize) data))))) as (m' & E & L & H);
      [rewrite upd_len; lia|replace (S k + n) with (k + S n) by lia; exact Hd|replace (S k + n) with (k + S n) by lia; exact HW|].
    exists m'. replace (it + S n) with (S it + n) by lia. split; [exact E|]. split; [rewrite L, upd_len; reflexivity|].
    intros i. rewrite H, upd_nth by lia. destruct (Nat.eqb_spec i it) as [->|Hne].
    + destruct (Nat.leb_spec (S it) it), (Nat.leb_spec it it), (Nat.ltb_spec it (S it + n)); cbn [andb]; try lia.
      rewrite Nat.sub_diag, Nat.add_0_r. reflexivity.
    + destruct (Nat.leb_spec (S it) i), (Nat.leb_spec it i), (Nat.ltb_spec i (S it + n)); cbn [andb]; try lia; auto.
      do 4 f_equal. replace (k + (i - it)) with (S k + (i - S it)) by lia. reflexivity.
Qed.
Lemma raw_loop_end W maxlen bytes n : forall fuel len data s (m : list T), raw_loop fuel W maxlen bytes n len n data s m = Ok m.
Proof.
  induction fuel as [|fuel IH]; intros len data s m; [reflexivity|]. cbn [raw_loop]. destruct (len =? 0); [reflexivity|].
  destruct (rs_read bytes _ data s) as [data' s']. rewrite Nat.sub_diag. cbn [raw_store bind]. apply IH.
Qed.
End Odd.

(** C131: if the size of the matrix exceeds one chunk of 2^31 - sizeof(T) bytes
    and the first chunk is not a whole number of elements, len_read wraps around
    below zero, and all the elements are taken from the first [r] bytes of the
    file followed by the uninitialised rest of the buffer: nothing that the file
    contains behind them has any influence. *)
Theorem C131_raw_read_partial_element {T : Type} {RT : Repr T} (M N : nat) (old : list T) (junk bytes : list byte) (fs : files) (dir file : string) :
  let L := tsize * (M * N) in let r := L mod (2 ^ 31 - tsize) in
  tsize < 2 ^ 31 -> (forall j, r <> j * tsize) -> L < 2 ^ 64 ->
  length old = M * N -> length junk = L -> fs (raw_read_path dir file) = Some bytes -> r <= length bytes ->
  exists m', mat_read_raw fs junk M N old dir file = Ok m' /\ length m' = M * N /\
  forall i, i < M * N -> nth_error m' i = Some (tdec (firstn tsize (skipn (i * tsize) (firstn r bytes ++ skipn r junk)))).
Proof.
  intros L r HT HR HW Lo Lj HF HB. unfold mat_read_raw. rewrite HF. unfold raw_read. revert r HR HB. generalize dependent (2 ^ 31). generalize dependent (2 ^ 64). intros W HW w HT r HR HB.
  replace (w - tsize =? 0) with false by (symmetry; apply Nat.eqb_neq; lia). cbn [raw_loop]. fold L.
  assert (LZ : (L =? 0) = false). { apply Nat.eqb_neq. intros E. apply (HR 0). unfold r. rewrite E. apply Nat.mod_0_l. lia. }
  rewrite LZ. fold r. assert (RP : 0 < r) by (specialize (HR 0); lia). replace (0 <? r) with true by (symmetry; apply Nat.ltb_lt; exact RP).
  assert (RL : r <= L) by (apply Nat.mod_le; lia).
  unfold rs_read at 1. cbn [rs_fail rs_pos skipn]. rewrite Nat.sub_0_r.
  replace (firstn L (junk ++ repeat "000"%char L)) with junk by (rewrite firstn_app, Lj, Nat.sub_diag, firstn_O, app_nil_r, <- Lj, firstn_all; reflexivity).
  assert (Lg : length (firstn r bytes) = r) by (rewrite firstn_length; lia).
  set (data := blit (firstn r bytes) junk).
  assert (ED : data = firstn r bytes ++ skipn r junk) by (unfold data, blit; rewrite Lg; reflexivity).
  assert (LD : length data = L) by (unfold data; rewrite blit_length; lia).
  assert (W0 : r = wlen (T := T) W r 0) by (unfold wlen; cbn [Nat.mul]; destruct (Nat.leb_spec 0 r); lia). 
  destruct (raw_store_wrap W data r HR (M * N) 0 0 old) as (m' & E & L' & H); [lia|rewrite Nat.add_0_l, LD; unfold L; lia|rewrite Nat.add_0_l; unfold L in HW; lia|].
  rewrite Nat.mul_0_l in E. rewrite <- W0 in E. rewrite E. cbn [bind Nat.add]. rewrite raw_loop_end. exists m'. split; [reflexivity|]. split; [lia|].
  intros i Hi. rewrite H, <- ED. replace (0 <=? i) with true by (symmetry; apply Nat.leb_le; lia). replace (i <? 0 + M * N) with true by (symmetry; apply Nat.ltb_lt; lia).
  cbn [andb]. rewrite Nat.sub_0_r, Nat.add_0_l. reflexivity.
Qed.
Print Assumptions C131_raw_read_partial_element.

(** Elements of twelve bytes (long double on 32-bit x86). *)
Definition u96 : Type := { z : N | (z <? 256 ^ 12)%N = true }.
Definition u96_of (z : N) : u96 := exist _ (z mod 256 ^ 12)%N (proj2 (N.ltb_lt _ _) (N.mod_lt z (256 ^ 12) ltac:(discriminate))).
Lemma u96_dec_enc (x : u96) : u96_of (le_value (le_bytes 12 (proj1_sig x))) = x.
Proof.
  destruct x as [z Hz]. unfold u96_of. apply eq_sig_hprop; [intros; apply Eqdep_dec.UIP_dec, bool_dec|].
  cbn [proj1_sig]. rewrite (le_value_bytes 12) by (apply N.ltb_lt; exact Hz). apply N.mod_small, N.ltb_lt, Hz.
Qed.
#[export] Instance ReprU96 : Repr u96 :=
  {| tsize := 12; tenc := fun x => le_bytes 12 (proj1_sig x); tdec := fun l => u96_of (le_value l);
     tsize_pos := Nat.lt_0_succ 11; tenc_length := fun x => le_bytes_length 12 (proj1_sig x); tdec_enc := u96_dec_enc |}.

Definition big : nat := Z.to_nat 178956970.

Lemma big_Z : Z.of_nat big = 178956970%Z.
Proof. unfold big. apply Z2Nat.id. lia. Qed.
Lemma p31_Z : Z.of_nat (2 ^ 31) = 2147483648%Z.
Proof. rewrite Nat2Z.inj_pow. reflexivity. Qed.
Lemma p64_Z : Z.of_nat (2 ^ 64) = 18446744073709551616%Z.
Proof. rewrite Nat2Z.inj_pow. reflexivity. Qed.
Opaque big Nat.pow.
Lemma big_rest : (12 * (1 * big)) mod (2 ^ 31 - 12) = 4.
Proof.
  pose proof big_Z as B. pose proof p31_Z as P. symmetry. apply (Nat.mod_unique _ _ 1); revert P; generalize (2 ^ 31); generalize big B; clear; intros b B w P; lia.
Qed.
Lemma big_odd : forall j, (12 * (1 * big)) mod (2 ^ 31 - 12) <> j * 12.
Proof. intros j. rewrite big_rest. lia. Qed.
Lemma big_64 : 12 * (1 * big) < 2 ^ 64.
Proof. pose proof big_Z as B. pose proof p64_Z as P. revert P; generalize (2 ^ 64); generalize big B; clear; intros b B w P; lia. Qed.
Lemma big_12 : 12 < 2 ^ 31.
Proof. pose proof p31_Z as P. revert P; generalize (2 ^ 31); clear; intros w P; lia. Qed.
Lemma skipn_repeat {A} (x : A) n : forall k, skipn k (repeat x n) = repeat x (n - k).
Proof. induction n as [|n IH]; intros [|k]; cbn; auto. Qed.
Lemma firstn_repeat {A} (x : A) n : forall k, k <= n -> firstn k (repeat x n) = repeat x k.
Proof. induction n as [|n IH]; intros [|k] H; cbn; auto; [lia|]. f_equal. apply IH. lia. Qed.

(** C131: so a matrix of 178956970 such elements, written and read back, is not
    the matrix that was written. *)
Theorem C131_raw_roundtrip_any_size_refuted :
  exists (M N : nat) (m old : list u96) (junk : list byte) (fs : files) (dir file : string),
  length m = M * N /\ length old = M * N /\ length junk = tsize (T := u96) * (M * N) /\ fs (raw_read_path dir file) = Some (raw_bytes m) /\
  mat_read_raw fs junk M N old dir file <> Ok m.
Proof.
  set (m := repeat (u96_of 1) big). set (junk := repeat "000"%char (12 * (1 * big))).
  exists 1, big, m, m, junk, (fun _ => Some (raw_bytes m)), "d"%string, "f"%string.
  assert (Lm : length m = 1 * big) by (unfold m; rewrite repeat_length; lia). assert (Lj : length junk = 12 * (1 * big)) by (unfold junk; apply repeat_length).
  assert (LB : length (raw_bytes m) = 1 * big * 12) by (rewrite raw_bytes_length, Lm; reflexivity).
  assert (BB : 2 <= big) by (pose proof big_Z; lia).
  split; [exact Lm|]. split; [exact Lm|]. split; [exact Lj|]. split; [reflexivity|].
  destruct (C131_raw_read_partial_element (T := u96) (RT := ReprU96) 1 big m junk (raw_bytes m) (fun _ => Some (raw_bytes m)) "d" "f" big_12 big_odd big_64 Lm Lj eq_refl) as (m' & E & L & H).
  { change (tsize (T := u96)) with 12. rewrite big_rest, LB. lia. }
  rewrite E. intros F. injection F as F. specialize (H 1 ltac:(lia)). rewrite F in H. change (tsize (T := u96)) with 12 in H. rewrite big_rest in H.
  rewrite skipn_app in H. rewrite (skipn_all2 (firstn 4 (raw_bytes m))) in H by (rewrite firstn_length; lia). cbn [app] in H.
  unfold junk in H. rewrite !skipn_repeat, firstn_repeat in H by (rewrite firstn_length; lia).
  unfold m in H. rewrite nth_error_repeat in H by lia. injection H as H. vm_compute in H. discriminate H.
Qed.
Print Assumptions C131_raw_roundtrip_any_size_refuted.
Example C131_hypotheses_met : tsize (T := u96) < 2 ^ 31 /\
  (forall j, (tsize (T := u96) * (1 * big)) mod (2 ^ 31 - tsize (T := u96)) <> j * tsize (T := u96)) /\ tsize (T := u96) * (1 * big) < 2 ^ 64 /\
  (tsize (T := u96) * (1 * big)) mod (2 ^ 31 - tsize (T := u96)) = 4.
Proof. split; [exact big_12|]. split; [exact big_odd|]. split; [exact big_64|exact big_rest]. Qed.
