(** Property C115: reading from a stream that ends too early or holds text that
    is no number. *)
From Verif Require Import LBase LVector LMatrix MIo PIo.
Local Open Scope nat_scope.
Local Open Scope list_scope.

Section Bad.
Context {cfg : Cfg} {T : Type} {ST : Scalar T} {XT : Text T}.
(** No value can be extracted from this text: only blanks are left, or what
    follows the blanks is not a value. *)
Definition unreadable (bad : list ascii) : Prop := skip_ws bad = [] \/ tparse (skip_ws bad) = None.
(** The numbers f 0, ..., f (k-1), each followed by a blank. *)
Definition words (f : nat -> T) (k : nat) : list ascii := flat_map (fun i => tshow (f i) ++ [" "%char]) (seq 0 k).

Section Step.
Variables (f o : nat -> T) (k : nat) (bad : list ascii).
Hypothesis HR : forall i, i < k -> readable (f i).
Hypothesis HB : unreadable bad.
Let z : T := match skip_ws bad with [] => o k | _ => szero end.
Let val (i : nat) : T := if i <? k then f i else if i =? k then z else o i.
Let stream (i : nat) : istream :=
  if i <=? k then {| is_chars := lead (0 <? i) ++ flat_map (fun i => word (f i)) (seq i (k - i)) ++ bad; is_fail := false |}
  else {| is_chars := skip_ws bad; is_fail := true |}.
Lemma ext_step i : extract (stream i) (o i) = (val i, stream (S i)).
Proof.
  unfold stream, val. destruct (Nat.leb_spec i k) as [L|L].
  - destruct (Nat.ltb_spec i k) as [L1|L1].
    + rewrite flat_seq_cons by exact L1. rewrite <- app_assoc. rewrite extract_word by (apply HR; exact L1).
      destruct (Nat.leb_spec (S i) k); [|lia]. reflexivity.
    + assert (i = k) by lia. subst i. rewrite Nat.eqb_refl, Nat.sub_diag. cbn [seq flat_map app].
      destruct (Nat.leb_spec (S k) k); [lia|]. unfold extract. cbn [is_fail is_chars].
      assert (E : skip_ws (lead (0 <? k) ++ bad) = skip_ws bad) by (destruct (0 <? k); reflexivity). rewrite E. unfold z.
      destruct (skip_ws bad) as [|c t] eqn:EB; [reflexivity|]. destruct HB as [H1|H1]; [congruence|]. rewrite EB in H1. rewrite H1. reflexivity.
  - destruct (Nat.ltb_spec i k); [lia|]. destruct (Nat.eqb_spec i k); [lia|]. destruct (Nat.leb_spec (S i) k); [lia|]. reflexivity.
Qed.
End Step.

(** C115: vectors.  The first k numbers are read; the stream is then in the fail
    state and the elements after the k-th keep their old values. *)
Theorem C115_vector_bad_text :
  forall (M k : nat) (old : list T) (o f : nat -> T) (bad : list ascii),
  repV M old o -> k < M -> (forall i, i < k -> readable (f i)) -> unreadable bad ->
  exists v s z, vec_read M old {| is_chars := words f k ++ bad; is_fail := false |} = Ok (v, s) /\
    is_fail s = true /\ repV M v (fun i => if i <? k then f i else if i =? k then z else o i).
Proof.
  intros M k old o f bad Ho Hk HR HB.
  set (z := match skip_ws bad with [] => o k | _ => szero end).
  set (stream := fun i => if i <=? k then {| is_chars := lead (0 <? i) ++ flat_map (fun i => word (f i)) (seq i (k - i)) ++ bad; is_fail := false |}
    else {| is_chars := skip_ws bad; is_fail := true |}).
  unfold vec_read.
  destruct (for_inv (fun i '(w, s) => repV M w (fun j => if j <? i then (if j <? k then f j else if j =? k then z else o j) else o j) /\ s = stream i) 0 M
      (fun i '(v, s) => old <- vat M v i ;; let '(x, s) := extract s old in v <- vset M v i x ;; Ok (v, s))
      (old, {| is_chars := words f k ++ bad; is_fail := false |})) as ([w s] & E & HW & HS).
  - lia.
  - split; [|unfold stream; cbn [Nat.leb lead app Nat.ltb]; rewrite Nat.sub_0_r; reflexivity]. eapply repV_ext; [exact Ho|]. reflexivity.
  - intros i [w s] Hi [HW ->]. rewrite (vat_ok M w _ i HW) by lia. cbn [bind]. rewrite Nat.ltb_irrefl.
    assert (ES : extract (stream i) (o i) = ((if i <? k then f i else if i =? k then z else o i), stream (S i))) by exact (ext_step f o k bad HR HB i). rewrite ES.
    rewrite vset_ok by lia. destruct (repV_wr M w _ i (if i <? k then f i else if i =? k then z else o i) HW ltac:(lia)) as (E1 & H1). rewrite E1. cbn [bind]. apply returns_ok. split; [|reflexivity].
    eapply repV_ext; [exact H1|]. intros j Hj. cbv beta. destruct (Nat.eqb_spec j i) as [->|Hne].
    + destruct (Nat.ltb_spec i (S i)); [reflexivity|lia].
    + destruct (Nat.ltb_spec j i), (Nat.ltb_spec j (S i)); auto; lia.
  - rewrite E. exists w, s, z. split; [reflexivity|]. split.
    + rewrite HS. unfold stream. destruct (Nat.leb_spec M k); [lia|reflexivity].
    + eapply repV_ext; [exact HW|]. intros j Hj. cbv beta. destruct (Nat.ltb_spec j M); [reflexivity|lia].
Qed.

(** C115: matrices; the numbers arrive row by row, so cell (i,j) is number
    i * N + j. *)
Theorem C115_matrix_bad_text :
  forall (M N k : nat) (old : list T) (o : nat -> nat -> T) (f : nat -> T) (bad : list ascii),
  repM M N old o -> k < M * N -> (forall i, i < k -> readable (f i)) -> unreadable bad ->
  exists m s z, mat_read M N old {| is_chars := words f k ++ bad; is_fail := false |} = Ok (m, s) /\
    is_fail s = true /\
    repM M N m (fun i j => if i * N + j <? k then f (i * N + j) else if i * N + j =? k then z else o i j).
Proof.
  intros M N k old o' f bad Ho Hk HR HB.
  set (o := fun p => o' (p / N) (p mod N)).
  assert (Eo : forall i j, j < N -> o' i j = o (i * N + j)).
  { intros i j Hj. unfold o. rewrite Nat.div_add_l by lia. rewrite Nat.div_small by exact Hj. rewrite Nat.add_0_r.
    rewrite Nat.add_comm, Nat.mod_add by lia. rewrite Nat.mod_small by exact Hj. reflexivity. }
  set (z := match skip_ws bad with [] => o k | _ => szero end).
  set (stream := fun i => if i <=? k then {| is_chars := lead (0 <? i) ++ flat_map (fun i => word (f i)) (seq i (k - i)) ++ bad; is_fail := false |}
    else {| is_chars := skip_ws bad; is_fail := true |}).
  set (Inv := fun p '(w, s) => repM M N w (fun i j => let q := i * N + j in if q <? p then (if q <? k then f q else if q =? k then z else o q) else o q) /\ s = stream p).
  unfold mat_read.
  destruct (for_inv (fun r s => Inv (r * N) s) 0 M
      (fun r => for_ 0 N (fun c '(m, s) => old <- mat_at M N m r c ;; let '(x, s) := extract s old in m <- mat_put M N m r c x ;; Ok (m, s)))
      (old, {| is_chars := words f k ++ bad; is_fail := false |})) as ([w s] & E & HW & HS).
  - lia.
  - split; [|unfold stream; cbn [Nat.leb lead app Nat.ltb Nat.mul]; rewrite Nat.sub_0_r; reflexivity].
    eapply repM_ext; [exact Ho|]. intros i j Hi Hj. cbv zeta. cbn [Nat.mul]. apply Eo. exact Hj.
  - intros r ws Hr HI.
    destruct (for_inv (fun c s => Inv (r * N + c) s) 0 N
      (fun c '(m, s) => old <- mat_at M N m r c ;; let '(x, s) := extract s old in m <- mat_put M N m r c x ;; Ok (m, s)) ws) as (ws' & E & HI').
    + lia.
    + rewrite Nat.add_0_r. exact HI.
    + intros c [w s] Hc [HW ->]. rewrite (mat_at_ok M N w _ r c HW) by lia. cbn [bind]. cbv zeta. rewrite Nat.ltb_irrefl.
      assert (ES : extract (stream (r * N + c)) (o (r * N + c)) = ((if r * N + c <? k then f (r * N + c) else if r * N + c =? k then z else o (r * N + c)), stream (S (r * N + c)))) by exact (ext_step f o k bad HR HB (r * N + c)). rewrite ES.
      destruct (mat_put_rep M N w _ r c (if r * N + c <? k then f (r * N + c) else if r * N + c =? k then z else o (r * N + c)) HW ltac:(lia) ltac:(lia)) as (w' & E1 & H1).
      rewrite E1. cbn [bind]. apply returns_ok. rewrite Nat.add_succ_r. split; [|reflexivity].
      eapply repM_ext; [exact H1|]. intros i j Hi Hj. cbv beta zeta.
      assert (Q : (i =? r) && (j =? c) = (i * N + j =? r * N + c)).
      { destruct (Nat.eqb_spec (i * N + j) (r * N + c)) as [E2|E2].
        - destruct (cell_inj N j i c r) as [-> ->]; [lia|lia|lia|]. rewrite !Nat.eqb_refl. reflexivity.
        - destruct (Nat.eqb_spec i r), (Nat.eqb_spec j c); try reflexivity. subst. lia. }
      rewrite Q. destruct (Nat.eqb_spec (i * N + j) (r * N + c)) as [->|Hne].
      * destruct (Nat.ltb_spec (r * N + c) (S (r * N + c))); [reflexivity|lia].
      * destruct (Nat.ltb_spec (i * N + j) (r * N + c)), (Nat.ltb_spec (i * N + j) (S (r * N + c))); auto; lia.
    + exists ws'. split; [exact E|]. rewrite Nat.mul_succ_l. exact HI'.
  - rewrite E. exists w, s, z. split; [reflexivity|]. split.
    + rewrite HS. unfold stream. destruct (Nat.leb_spec (M * N) k); [lia|reflexivity].
    + eapply repM_ext; [exact HW|]. intros i j Hi Hj. cbv beta zeta. pose proof (cell_lt N M j i Hj Hi). destruct (Nat.ltb_spec (i * N + j) (M * N)); [|lia].
      destruct (i * N + j <? k); [reflexivity|]. destruct (i * N + j =? k); [reflexivity|]. symmetry. apply Eo. exact Hj.
Qed.

(** C115: a stream that has failed before is left alone. *)
Theorem C115_failed_stream :
  forall (M N : nat) (v m : list T) (s : istream), length v = M -> length m = M * N -> is_fail s = true ->
  vec_read M v s = Ok (v, s) /\ mat_read M N m s = Ok (m, s).
Proof.
  intros M N v m s Hv Hm HF.
  assert (X : forall (old : T), extract s old = (old, s)) by (intros; unfold extract; rewrite HF; reflexivity).
  split.
  - unfold vec_read. destruct (for_inv (fun _ x => x = (v, s)) 0 M (fun i '(v, s) => old <- vat M v i ;; let '(x, s) := extract s old in v <- vset M v i x ;; Ok (v, s)) (v, s)) as (r & E & ->); [lia|reflexivity| |exact E].
    intros i x Hi ->. destruct (nth_error v i) as [a|] eqn:Ea; [|apply nth_error_None in Ea; lia].
    unfold vat, vset. destruct (Nat.leb_spec M i); [lia|]. cbn [andb]. rewrite (rd_ok _ _ _ Ea). cbn [bind]. rewrite X. rewrite wr_ok by lia. cbn [bind].
    rewrite (upd_same_id _ _ _ Ea). apply returns_ok. reflexivity.
  - unfold mat_read. destruct (for_inv (fun _ x => x = (m, s)) 0 M (fun r => for_ 0 N (fun c '(m, s) => old <- mat_at M N m r c ;; let '(x, s) := extract s old in m <- mat_put M N m r c x ;; Ok (m, s))) (m, s)) as (r & E & ->); [lia|reflexivity| |exact E].
    intros i x Hi ->. apply (for_inv (fun _ x => x = (m, s))); [lia|reflexivity|]. intros j x Hj ->.
    pose proof (cell_lt M N i j ltac:(lia) ltac:(lia)) as HL.
    destruct (nth_error m (j * M + i)) as [a|] eqn:Ea; [|apply nth_error_None in Ea; lia].
    unfold mat_at, mat_put. destruct (Nat.leb_spec M i), (Nat.leb_spec N j); try lia. cbn [andb orb]. rewrite (rd_ok _ _ _ Ea). cbn [bind]. rewrite X. rewrite wr_ok by lia. cbn [bind].
    rewrite (upd_same_id _ _ _ Ea). apply returns_ok. reflexivity.
Qed.
End Bad.

(** A 3-vector of ints read from "7 x": the first component is read. *)
Example C115_hypotheses_met :
  @readable Z (IntText {| ibits := 32; isigned := true |}) 7%Z /\ @unreadable Z (IntText {| ibits := 32; isigned := true |}) ["x"%char] /\ @unreadable Z (IntText {| ibits := 32; isigned := true |}) [] /\
  @words Z (IntText {| ibits := 32; isigned := true |}) (fun _ => 7%Z) 1 = ["7"; " "]%char.
Proof.
  split; [apply int_readable; cbn; lia|]. split; [right; reflexivity|]. split; [left; reflexivity|reflexivity].
Qed.
Print Assumptions C115_vector_bad_text.
Print Assumptions C115_matrix_bad_text.
Print Assumptions C115_failed_stream.
