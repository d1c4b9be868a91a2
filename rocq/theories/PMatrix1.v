(** Properties C01-C10: cells, histories, fills, resizing, loading, rows and
    columns, transposition, products, aliasing, element-wise operators. *)
From Verif Require Export LMatrixR.

(** C01.  [repM M N m f] says: the storage [m] has M*N elements and element
    c*M+r is [f r c]. All three accessors denote that element; a write through
    any of them changes that cell only; at() rejects bad indices in safe mode. *)
Theorem C01_cells :
  forall (cfg : Cfg) (T : Type) (ST : Scalar T) (M N : nat) (m : list T) (f : nat -> nat -> T) (r c : nat) (x : T),
  repM M N m f ->
  (r < M -> c < N ->
     mat_at M N m r c = Ok (f r c) /\ mat_sq_at M N m r c = Ok (f r c) /\
     nth_error m (c * M + r) = Some (f r c) /\
     exists m', mat_put M N m r c x = Ok m' /\ mat_sq_put M N m r c x = Ok m' /\ length m' = M * N /\
       (forall i j, i < M -> j < N ->
          mat_at M N m' i j = if (i =? r) && (j =? c) then Ok x else mat_at M N m i j)) /\
  (M <= r \/ N <= c -> safe = true -> mat_at M N m r c = Throw /\ mat_put M N m r c x = Throw).
Proof.
  intros cfg T ST M N m f r c x Hm. split; [|intros; apply mat_throw; assumption].
  intros Hr Hc. split; [apply mat_at_ok; auto|].
  assert (E : mat_sq_at M N m r c = Ok (f r c)).
  { unfold mat_sq_at. destruct (Nat.ltb_spec M r); [lia|]. destruct (Nat.leb_spec N c); [lia|]. cbn [andb].
    rewrite Nat.add_comm. eapply repM_rd; eassumption. }
  split; [exact E|]. split; [apply Hm; auto|].
  destruct (repM_wr M N m f r c x Hm Hr Hc) as [Ew HR].
  exists (upd m (c * M + r) x). split; [rewrite mat_put_ok by auto; exact Ew|]. split.
  { unfold mat_sq_put. destruct (Nat.ltb_spec M r); [lia|]. destruct (Nat.leb_spec N c); [lia|]. cbn [andb].
    rewrite Nat.add_comm. exact Ew. }
  split; [apply HR|]. intros i j Hi Hj. rewrite (mat_at_ok M N _ _ i j HR) by auto.
  destruct ((i =? r) && (j =? c)); [reflexivity|]. symmetry; apply mat_at_ok; auto.
Qed.
Print Assumptions C01_cells.

(** C98: m[ r ][ c ] checks row > M instead of row >= M, so with
    safe accessors m[ M ][ c ] does not throw: it denotes the cell (0, c+1), or
    the memory behind the matrix for the last column. *)
Theorem C98_bracket_row_check_refuted :
  forall (cfg : Cfg) (T : Type) (ST : Scalar T) (M N : nat) (m : list T) (f : nat -> nat -> T) (c : nat),
  0 < M -> repM M N m f ->
  (c + 1 < N -> mat_sq_at M N m M c = Ok (f 0 (c + 1))) /\ (c + 1 = N -> mat_sq_at M N m M c = UB).
Proof.
  intros cfg T ST M N m f c HM Hm. unfold mat_sq_at. rewrite Nat.ltb_irrefl. cbn [andb].
  split; intros Hc; destruct (Nat.leb_spec N c); try lia; cbn [andb].
  - replace (M + c * M) with ((c + 1) * M + 0) by lia. apply (repM_rd M N); auto.
  - apply rd_ub. rewrite (repM_len _ _ _ _ Hm). nia.
Qed.
Print Assumptions C98_bracket_row_check_refuted.

Example C01_hypotheses_met :
  repM 2 3 [11; 21; 12; 22; 13; 23] (fun i j => 10 * (i + 1) + (j + 1)).
Proof.
  split; [reflexivity|]. intros [|[|i]] [|[|[|j]]] Hi Hj; try reflexivity; lia.
Qed.

(** C02.  Histories.  An operation is an element write through at(), [][] or
    the raw array, or one of the bulk writes. *)
Inductive mop (T : Type) : Type :=
| WAt (r c : nat) (x : T) | WSq (r c : nat) (x : T) | WRaw (k : nat) (x : T)
| WFill (x : T) | WRow (r : nat) (v : nat -> T) | WCol (c : nat) (v : nat -> T).
Arguments WAt {T}. Arguments WSq {T}. Arguments WRaw {T}. Arguments WFill {T}.
Arguments WRow {T}. Arguments WCol {T}.

(** What one operation does in the implementation (row and column operands are
    passed as arrays holding the given components). *)
Definition run_mop {cfg : Cfg} {T} {ST : Scalar T} (M N : nat) (m : list T) (o : mop T) : res (list T) :=
  match o with
  | WAt r c x => mat_put M N m r c x
  | WSq r c x => mat_sq_put M N m r c x
  | WRaw k x => wr m k x
  | WFill x => mat_fill M N m x
  | WRow r v => mat_set_row M N m r (map v (seq 0 N))
  | WCol c v => mat_set_column M N m c (map v (seq 0 M))
  end.
Fixpoint run_mops {cfg : Cfg} {T} {ST : Scalar T} (M N : nat) (m : list T) (os : list (mop T)) : res (list T) :=
  match os with [] => Ok m | o :: os => m <- run_mop M N m o ;; run_mops M N m os end.
(** In range. *)
Definition mop_ok {T} (M N : nat) (o : mop T) : Prop :=
  match o with
  | WAt r c _ | WSq r c _ => r < M /\ c < N
  | WRaw k _ => k < M * N
  | WFill _ => True | WRow r _ => r < M | WCol c _ => c < N
  end.
(** What the operation writes to the cell (i,j), if anything. *)
Definition mop_writes {T} (M : nat) (o : mop T) (i j : nat) : option T :=
  match o with
  | WAt r c x | WSq r c x => if (i =? r) && (j =? c) then Some x else None
  | WRaw k x => if k =? j * M + i then Some x else None
  | WFill x => Some x
  | WRow r v => if i =? r then Some (v j) else None
  | WCol c v => if j =? c then Some (v i) else None
  end.
(** The value of the last write to (i,j) in the history, else [d]. *)
Fixpoint last_write {T} (M : nat) (os : list (mop T)) (i j : nat) (d : T) : T :=
  match os with
  | [] => d
  | o :: os => last_write M os i j (match mop_writes M o i j with Some x => x | None => d end)
  end.

Lemma run_mop_spec {cfg : Cfg} {T} {ST : Scalar T} M N m (f : nat -> nat -> T) o :
  repM M N m f -> mop_ok M N o ->
  returns (run_mop M N m o)
    (fun m' => repM M N m' (fun i j => match mop_writes M o i j with Some x => x | None => f i j end)).
Proof.
  intros Hm Hok. destruct o as [r c x|r c x|k x|x|r v|c v]; cbn [run_mop mop_ok mop_writes] in *.
  - eapply returns_impl; [apply (mat_put_rep M N m f r c x Hm); tauto|].
    intros y Hy; eapply repM_ext; [exact Hy|]. intros i j _ _; cbv beta. destruct ((i =? r) && (j =? c)); reflexivity.
  - assert (E : mat_sq_put M N m r c x = mat_put M N m r c x).
    { rewrite mat_put_ok by tauto. unfold mat_sq_put. destruct (Nat.ltb_spec M r); [lia|].
      destruct (Nat.leb_spec N c); [lia|]. cbn [andb]. rewrite Nat.add_comm. reflexivity. }
    rewrite E. eapply returns_impl; [apply (mat_put_rep M N m f r c x Hm); tauto|].
    intros y Hy; eapply repM_ext; [exact Hy|]. intros i j _ _; cbv beta. destruct ((i =? r) && (j =? c)); reflexivity.
  - destruct (cell_surj M N k Hok) as (a & b & Ha & Hb & ->).
    destruct (repM_wr M N m f a b x Hm Ha Hb) as [E HR]. rewrite E. apply returns_ok.
    eapply repM_ext; [exact HR|]. intros i j Hi Hj; cbv beta.
    destruct (Nat.eqb_spec (b * M + a) (j * M + i)) as [Eq|Ne].
    + apply cell_inj in Eq as [-> ->]; auto. rewrite !Nat.eqb_refl. reflexivity.
    + destruct (Nat.eqb_spec i a), (Nat.eqb_spec j b); subst; cbn; auto. contradiction.
  - eapply returns_impl; [apply (mat_fill_spec M N m f x Hm)|auto].
  - eapply returns_impl; [apply (mat_set_row_spec M N m f r _ v Hm (repV_map_seq N v) Hok)|].
    intros y Hy; eapply repM_ext; [exact Hy|]. intros i j _ _; cbv beta. destruct (i =? r); reflexivity.
  - eapply returns_impl; [apply (mat_set_column_spec M N m f c _ v Hm (repV_map_seq M v) Hok)|].
    intros y Hy; eapply repM_ext; [exact Hy|]. intros i j _ _; cbv beta. destruct (j =? c); reflexivity.
Qed.

Theorem C02_histories :
  forall (cfg : Cfg) (T : Type) (ST : Scalar T) (M N : nat) (os : list (mop T)) (m : list T) (f : nat -> nat -> T),
  repM M N m f -> Forall (mop_ok M N) os ->
  exists m', run_mops M N m os = Ok m' /\ length m' = M * N /\
  forall i j, i < M -> j < N -> mat_at M N m' i j = Ok (last_write M os i j (f i j)).
Proof.
  intros cfg T ST M N os. induction os as [|o os IH]; intros m f Hm Hok.
  - exists m. split; [reflexivity|]. split; [apply Hm|]. intros i j Hi Hj. exact (mat_at_ok M N m f i j Hm Hi Hj).
  - inversion Hok as [|? ? Ho Hos]; subst. destruct (run_mop_spec M N m f o Hm Ho) as (m1 & E1 & H1).
    destruct (IH m1 _ H1 Hos) as (m' & E & HL & H). exists m'. cbn [run_mops]. rewrite E1. cbn [bind].
    split; [exact E|]. split; [exact HL|]. intros i j Hi Hj. rewrite H by auto. reflexivity.
Qed.
Print Assumptions C02_histories.

(** The English claim for element writes: the last write to the cell wins. *)
Theorem C02_last_write_wins :
  forall (cfg : Cfg) (T : Type) (ST : Scalar T) (M N : nat) (before after : list (mop T)) (r c : nat) (x : T)
         (m : list T) (f : nat -> nat -> T),
  repM M N m f -> Forall (mop_ok M N) before -> Forall (mop_ok M N) after -> r < M -> c < N ->
  (forall o, In o after -> mop_writes M o r c = None) ->
  exists m', run_mops M N m (before ++ WAt r c x :: after) = Ok m' /\ mat_at M N m' r c = Ok x.
Proof.
  intros cfg T ST M N before after r c x m f Hm Hb Ha Hr Hc Hn.
  destruct (C02_histories cfg T ST M N (before ++ WAt r c x :: after) m f Hm) as (m' & E & _ & H).
  { apply Forall_app; split; [exact Hb|]. constructor; [split; assumption|exact Ha]. }
  exists m'. split; [exact E|]. rewrite H by auto. f_equal.
  assert (K : forall os d, last_write M (os ++ WAt r c x :: after) r c d = x).
  { induction os as [|o os IH]; intros d; cbn [app last_write mop_writes].
    - rewrite !Nat.eqb_refl. cbn [andb]. clear -Hn. induction after as [|o os IH]; cbn [last_write]; [reflexivity|].
      rewrite (Hn o) by (left; reflexivity). apply IH. intros o' Ho'; apply Hn; right; exact Ho'.
    - apply IH. }
  apply K.
Qed.
Print Assumptions C02_last_write_wins.

Example C02_hypotheses_met :
  Forall (mop_ok 2 3) [WAt 0 2 5; WRow 1 (fun j => j); WRaw 4 7; WFill 0; WSq 1 1 9].
Proof. repeat constructor. Qed.

(** C03.  Every constructor / fill leaves exactly the promised contents,
    whatever [m] (the old contents) was. *)
Theorem C03_fills :
  forall (cfg : Cfg) (T : Type) (ST : Scalar T) (M N : nat) (m : list T) (x : T),
  length m = M * N ->
  returns (mat_default M N)
    (fun r => repM M N r (fun i j => if (M =? N) && (i =? j) then sone else szero)) /\
  mat_fill M N m x = Ok (repeat x (M * N)) /\
  mat_assign_value M N m x = Ok (repeat x (M * N)) /\
  mat_zero M N m = Ok (repeat szero (M * N)) /\
  mat_ZERO M N = Ok (repeat (szero : T) (M * N)).
Proof.
  intros cfg T ST M N m x Hl. destruct (mat_rep M N m Hl) as (f & Hm).
  assert (K : forall (p : res (list T)) y, returns p (fun r => repM M N r (fun _ _ => y)) -> p = Ok (repeat y (M * N))).
  { intros p y (r & -> & Hr). f_equal. exact (repM_inj M N r _ _ Hr (repM_repeat M N y)). }
  split; [|split; [|split; [|split]]].
  - eapply returns_impl; [apply mat_default_spec|]. intros r Hr. eapply repM_ext; [exact Hr|].
    intros i j _ _; cbv beta. unfold idf. destruct (M =? N); reflexivity.
  - apply K, (mat_fill_spec M N m f x Hm).
  - apply K, (mat_assign_value_spec M N m f x Hm).
  - apply K, (mat_zero_spec M N m f Hm).
  - apply K. unfold mat_ZERO. eapply returns_bind; [apply mat_default_spec|]. intros d Hd.
    eapply mat_assign_value_spec; exact Hd.
Qed.
Print Assumptions C03_fills.

Theorem C03_identity_diag :
  forall (cfg : Cfg) (T : Type) (ST : Scalar T) (M : nat) (m d : list T) (g : nat -> T),
  length m = M * M -> repV M d g ->
  returns (mat_identity M M m) (fun r => repM M M r (fun i j => if i =? j then sone else szero)) /\
  mat_IDENTITY M = mat_identity M M m /\
  mat_default M M = mat_identity M M m /\
  returns (mat_diag M m d) (fun r => repM M M r (fun i j => if i =? j then g i else szero)).
Proof.
  intros cfg T ST M m d g Hl Hd. destruct (mat_rep M M m Hl) as (f & Hm).
  destruct (mat_identity_spec M m f Hm) as (r & E & Hr).
  split; [rewrite E; apply returns_ok; exact Hr|]. split; [|split].
  - unfold mat_IDENTITY. destruct (mat_default_spec M M) as (d0 & E0 & H0). rewrite E0. cbn [bind].
    destruct (mat_identity_spec M d0 _ H0) as (r2 & E2 & Hr2). rewrite E, E2. f_equal. exact (repM_inj _ _ _ _ _ Hr2 Hr).
  - destruct (mat_default_spec M M) as (d0 & E0 & H0). rewrite E0, E. f_equal. rewrite Nat.eqb_refl in H0.
    exact (repM_inj _ _ _ _ _ H0 Hr).
  - exact (mat_diag_spec M m f d g Hm Hd).
Qed.
Print Assumptions C03_identity_diag.

(** C04.  Assignment / construction from a P x Q matrix of another type; [m] is
    the previous (for the constructor: uninitialised) contents. *)
Theorem C04_resize :
  forall (cfg : Cfg) (T U : Type) (ST : Scalar T) (cast : U -> T) (M N P Q : nat) (m : list T) (src : list U)
         (fs : nat -> nat -> U),
  length m = M * N -> repM P Q src fs ->
  returns (mat_assign_resize cast M N P Q m src)
    (fun r => repM M N r (fun i j => if (i <? P) && (j <? Q) then cast (fs i j) else szero)) /\
  (M = P -> N = Q ->
     returns (mat_cast_from cast M N m src) (fun r => repM M N r (fun i j => cast (fs i j)))).
Proof.
  intros cfg T U ST cast M N P Q m src fs Hl Hs. destruct (mat_rep M N m Hl) as (f & Hm). split.
  - exact (mat_assign_resize_spec cast M N P Q m src f fs Hm Hs).
  - intros -> ->. exact (mat_cast_from_spec cast P Q m src f fs Hm Hs).
Qed.
Print Assumptions C04_resize.

(** C04: plain assignment copies, also of an object to itself. *)
Theorem C04_assign :
  forall (cfg : Cfg) (T : Type) (ST : Scalar T) (M N : nat) (m o : list T),
  length m = M * N -> length o = M * N ->
  mat_assign M N m (Val o) = Ok o /\ mat_assign M N m Self = Ok m.
Proof.
  intros cfg T ST M N m o Hm Ho. destruct (mat_rep M N m Hm) as (f & Rm). destruct (mat_rep M N o Ho) as (g & Ro).
  exact (mat_assign_spec M N m o f g Rm Ro).
Qed.
Print Assumptions C04_assign.

Example C04_hypotheses_met :
  repM 2 2 [1; 3; 2; 4]%Z (fun i j => nth (j * 2 + i) [1; 3; 2; 4]%Z 0%Z) /\ length [0; 0; 0; 0; 0; 0]%Z = 3 * 2.
Proof. split; [apply (repM_nth 2 2); reflexivity|reflexivity]. Qed.

(** C05.  Loading from a range of [n] elements. *)
Theorem C05_set :
  forall (cfg : Cfg) (T : Type) (ST : Scalar T) (M N : nat) (m src : list T) (f : nat -> nat -> T) (fs : nat -> T) (n : nat),
  repM M N m f -> repV n src fs ->
  returns (mat_set M N m src true)
    (fun r => repM M N r (fun i j => if i * N + j <? n then fs (i * N + j) else f i j)) /\
  (n < M * N -> mat_assign_vector M N m src = Throw /\ mat_set M N m src false = UB) /\
  (M * N <= n ->
     returns (mat_assign_vector M N m src) (fun r => repM M N r (fun i j => fs (i * N + j))) /\
     returns (mat_assign_ptr M N m src) (fun r => repM M N r (fun i j => fs (i * N + j))) /\
     returns (mat_assign_2d M N m src) (fun r => repM M N r (fun i j => fs (i * N + j))) /\
     returns (mat_set M N m src false) (fun r => repM M N r (fun i j => fs (j * M + i)))).
Proof.
  intros cfg T ST M N m src f fs n Hm Hs. pose proof (repV_len _ _ _ Hs) as HL.
  assert (HS := mat_set_spec M N m f src fs n Hm Hs). split; [exact HS|]. split.
  - intros Hn. unfold mat_assign_vector. rewrite HL. destruct (Nat.ltb_spec n (M * N)); [|lia]. split; [reflexivity|].
    unfold mat_set, copy_n.
    assert (K : forall k (l : list T), length l = M * N -> k <= n ->
       for_n (M * N - k) k (fun i dst => x <- rd src (0 + i) ;; wr dst (0 + i) x) l = UB).
    { intros k. remember (n - k) as d eqn:Ed. revert k Ed.
      induction d as [|d IH]; intros k Ed l Hl Hk.
      - replace (M * N - k) with (S (M * N - k - 1)) by lia. cbn [for_n]. rewrite rd_ub by (cbn; lia). reflexivity.
      - replace (M * N - k) with (S (M * N - S k)) by lia. cbn [for_n].
        rewrite (repV_rd n src fs) by (auto; cbn; lia). cbn [bind]. rewrite wr_ok by (cbn; lia). cbn [bind].
        apply IH; [lia|rewrite length_upd; exact Hl|lia]. }
    unfold for_. rewrite Nat.sub_0_r. specialize (K 0 m (repM_len _ _ _ _ Hm) ltac:(lia)).
    rewrite Nat.sub_0_r in K. exact K.
  - intros Hn.
    assert (KC : forall i j, i < M -> j < N -> i * N + j < n).
    { intros i j Hi Hj. pose proof (cell_lt N M j i Hj Hi). nia. }
    assert (K2 : returns (mat_assign_2d M N m src) (fun r => repM M N r (fun i j => fs (i * N + j)))).
    { eapply mat_fill_rc_spec; [exact Hm|]. intros r c m' Hr Hc _. apply (repV_rd n); auto. }
    split; [|split; [exact K2|split; [exact K2|]]].
    + unfold mat_assign_vector. rewrite HL. destruct (Nat.ltb_spec n (M * N)); [lia|].
      eapply returns_impl; [exact HS|]. intros r Hr. eapply repM_ext; [exact Hr|]. intros i j Hi Hj; cbv beta.
      specialize (KC i j Hi Hj). destruct (Nat.ltb_spec (i * N + j) n); [reflexivity|lia].
    + unfold mat_set. eapply returns_impl; [eapply (copy_n_spec (M * N) src 0 m 0 fs _ n (M * N));
        [exact Hs|exact (repM_repV_cell _ _ _ _ Hm)|lia|lia]|].
      intros r [Hr1 Hr2]. split; [exact Hr1|]. intros i j Hi Hj. pose proof (cell_lt M N i j Hi Hj).
      rewrite Hr2 by lia. cbn [Nat.leb Nat.add andb]. destruct (Nat.ltb_spec (j * M + i) (M * N)); [|lia].
      rewrite Nat.sub_0_r. reflexivity.
Qed.
Print Assumptions C05_set.

(** C06.  Rows, columns and sub-matrices. *)
Theorem C06_rows_columns :
  forall (cfg : Cfg) (T : Type) (ST : Scalar T) (M N : nat) (m row col : list T) (f : nat -> nat -> T) (gr gc : nat -> T)
         (r c : nat),
  repM M N m f -> repV N row gr -> repV M col gc ->
  (r < M ->
     (exists v, mat_get_row M N m r = Ok v /\ repV N v (fun j => f r j) /\ mat_set_row M N m r v = Ok m) /\
     (exists m', mat_set_row M N m r row = Ok m' /\
        repM M N m' (fun i j => if i =? r then gr j else f i j) /\ mat_get_row M N m' r = Ok row)) /\
  (c < N ->
     (exists v, mat_get_column M N m c = Ok v /\ repV M v (fun i => f i c) /\ mat_set_column M N m c v = Ok m) /\
     (exists m', mat_set_column M N m c col = Ok m' /\
        repM M N m' (fun i j => if j =? c then gc i else f i j) /\ mat_get_column M N m' c = Ok col)) /\
  (safe = true ->
     (M <= r -> mat_get_row M N m r = Throw /\ mat_set_row M N m r row = Throw) /\
     (N <= c -> mat_get_column M N m c = Throw /\ mat_set_column M N m c col = Throw)).
Proof.
  intros cfg T ST M N m row col f gr gc r c Hm Hrow Hcol. split; [|split].
  - intros Hr. split.
    + destruct (mat_get_row_spec M N m f r Hm Hr) as (v & E & Hv). exists v. split; [exact E|]. split; [exact Hv|].
      destruct (mat_set_row_spec M N m f r v _ Hm Hv Hr) as (m' & E' & Hm'). rewrite E'. f_equal.
      eapply repM_inj; [|exact Hm]. eapply repM_ext; [exact Hm'|]. intros i j _ _; cbv beta.
      destruct (Nat.eqb_spec i r); subst; reflexivity.
    + destruct (mat_set_row_spec M N m f r row gr Hm Hrow Hr) as (m' & E' & Hm'). exists m'.
      split; [exact E'|]. split; [exact Hm'|].
      destruct (mat_get_row_spec M N m' _ r Hm' Hr) as (v & E & Hv). rewrite E. f_equal.
      eapply repV_inj; [|exact Hrow]. eapply repV_ext; [exact Hv|]. intros j _; cbv beta. rewrite Nat.eqb_refl; reflexivity.
  - intros Hc. split.
    + destruct (mat_get_column_spec M N m f c Hm Hc) as (v & E & Hv). exists v. split; [exact E|]. split; [exact Hv|].
      destruct (mat_set_column_spec M N m f c v _ Hm Hv Hc) as (m' & E' & Hm'). rewrite E'. f_equal.
      eapply repM_inj; [|exact Hm]. eapply repM_ext; [exact Hm'|]. intros i j _ _; cbv beta.
      destruct (Nat.eqb_spec j c); subst; reflexivity.
    + destruct (mat_set_column_spec M N m f c col gc Hm Hcol Hc) as (m' & E' & Hm'). exists m'.
      split; [exact E'|]. split; [exact Hm'|].
      destruct (mat_get_column_spec M N m' _ c Hm' Hc) as (v & E & Hv). rewrite E. f_equal.
      eapply repV_inj; [|exact Hcol]. eapply repV_ext; [exact Hv|]. intros j _; cbv beta. rewrite Nat.eqb_refl; reflexivity.
  - intros Hs. unfold mat_get_row, mat_get_row_into, mat_set_row, mat_get_column, mat_get_column_into, mat_set_column.
    rewrite Hs. split; intros H.
    + destruct (Nat.leb_spec M r); [split; reflexivity|lia].
    + destruct (Nat.leb_spec N c); [split; reflexivity|lia].
Qed.
Print Assumptions C06_rows_columns.

Theorem C06_sub_matrix :
  forall (cfg : Cfg) (T : Type) (ST : Scalar T) (M N O P : nat) (m s : list T) (f fs : nat -> nat -> T) (ro co : nat),
  repM M N m f -> repM O P s fs ->
  (ro + O <= M -> co + P <= N ->
     (exists v, mat_sub_matrix M N O P m ro co = Ok v /\ mat_get_sub M N O P m s ro co = Ok v /\
        repM O P v (fun i j => f (ro + i) (co + j)) /\ mat_set_sub M N O P m v ro co = Ok m) /\
     (exists m', mat_set_sub M N O P m s ro co = Ok m' /\
        repM M N m' (fun i j =>
          if (ro <=? i) && (i <? ro + O) && ((co <=? j) && (j <? co + P)) then fs (i - ro) (j - co) else f i j) /\
        mat_sub_matrix M N O P m' ro co = Ok s)) /\
  (safe = true -> M < ro + O \/ N < co + P ->
     mat_sub_matrix M N O P m ro co = Throw /\ mat_get_sub M N O P m s ro co = Throw /\
     (0 < O -> 0 < P -> mat_set_sub M N O P m s ro co = Throw)).
Proof.
  intros cfg T ST M N O P m s f fs ro co Hm Hs. split.
  - intros HO HP. split.
    + destruct (mat_sub_matrix_spec M N O P m f ro co Hm HO HP) as (v & E & Hv).
      destruct (mat_get_sub_spec M N O P m f s fs ro co Hm Hs HO HP) as (v' & E' & Hv').
      pose proof (repM_inj _ _ _ _ _ Hv' Hv) as ->. exists v. split; [exact E|]. split; [exact E'|]. split; [exact Hv|].
      destruct (mat_set_sub_spec M N O P m f v _ ro co Hm Hv HO HP) as (m' & Em & Hm'). rewrite Em. f_equal.
      eapply repM_inj; [|exact Hm]. eapply repM_ext; [exact Hm'|]. intros i j _ _; cbv beta.
      destruct (Nat.leb_spec ro i), (Nat.ltb_spec i (ro + O)), (Nat.leb_spec co j), (Nat.ltb_spec j (co + P)); cbn [andb]; auto.
      f_equal; lia.
    + destruct (mat_set_sub_spec M N O P m f s fs ro co Hm Hs HO HP) as (m' & Em & Hm').
      exists m'. split; [exact Em|]. split; [exact Hm'|].
      destruct (mat_sub_matrix_spec M N O P m' _ ro co Hm' HO HP) as (v & E & Hv). rewrite E. f_equal.
      eapply repM_inj; [|exact Hs]. eapply repM_ext; [exact Hv|]. intros i j Hi Hj; cbv beta.
      destruct (Nat.leb_spec ro (ro + i)), (Nat.ltb_spec (ro + i) (ro + O)), (Nat.leb_spec co (co + j)),
        (Nat.ltb_spec (co + j) (co + P)); cbn [andb]; try lia. f_equal; lia.
  - intros Hsafe Hout.
    assert (K : forall d, mat_get_sub M N O P m d ro co = Throw).
    { intros d. unfold mat_get_sub. rewrite Hsafe.
      destruct (Nat.ltb_spec M (O + ro)), (Nat.ltb_spec N (P + co)); cbn; auto; lia. }
    split; [|split; [apply K|]].
    + unfold mat_sub_matrix. destruct (mat_default_any O P) as (d & -> & _). cbn [bind]. apply K.
    + intros HO HP. unfold mat_set_sub.
      assert (CELL : forall r c (x : list T), r < O -> c < P -> length x = M * N ->
        let b := (y <- mat_at O P s r c ;; mat_put M N x (ro + r) (co + c) y) in
        ((M <= ro + r \/ N <= co + c) -> b = Throw) /\ (b = Throw \/ returns b (fun x' => length x' = M * N))).
      { intros r c x Hr Hc Hx b. unfold b. rewrite (mat_at_ok O P s fs) by auto. cbn [bind]. split.
        - intros H. apply mat_throw; auto.
        - destruct (Nat.lt_ge_cases (ro + r) M), (Nat.lt_ge_cases (co + c) N);
            try (left; apply mat_throw; auto; fail).
          right. rewrite mat_put_ok by auto. pose proof (cell_lt M N (ro + r) (co + c) H H0).
          rewrite wr_ok by lia. apply returns_ok. rewrite length_upd; exact Hx. }
      assert (ROW : forall r (x : list T), r < O -> length x = M * N ->
        let b := for_ 0 P (fun c m => y <- mat_at O P s r c ;; mat_put M N m (ro + r) (co + c) y) x in
        ((M <= ro + r \/ N < co + P) -> b = Throw) /\ (b = Throw \/ returns b (fun x' => length x' = M * N))).
      { intros r x Hr Hx b.
        assert (T1 : (M <= ro + r \/ N < co + P) -> b = Throw).
        { intros H. apply (for_throw (fun _ x => length x = M * N)); auto.
          - intros k y Hk Hy. apply (CELL r k y); auto; lia.
          - exists (if M <=? ro + r then 0 else N - co). destruct (Nat.leb_spec M (ro + r)).
            + split; [lia|]. intros y Hy. apply (CELL r 0 y); auto; lia.
            + destruct (Nat.le_gt_cases co N).
              * split; [lia|]. intros y Hy. apply (CELL r (N - co) y); auto; lia.
              * split; [lia|]. intros y Hy. apply (CELL r (N - co) y); auto; lia. }
        split; [exact T1|]. destruct (Nat.lt_ge_cases (ro + r) M) as [H1|H1]; [|left; apply T1; lia].
        destruct (Nat.lt_ge_cases N (co + P)) as [H2|H2]; [left; apply T1; lia|]. right.
        apply (for_inv (fun _ (x : list T) => length x = M * N)); auto; [lia|].
        intros k y Hk Hy. rewrite (mat_at_ok O P s fs) by (auto; lia). cbn [bind]. rewrite mat_put_ok by lia.
        pose proof (cell_lt M N (ro + r) (co + k) ltac:(lia) ltac:(lia)).
        rewrite wr_ok by lia. apply returns_ok. rewrite length_upd; exact Hy. }
      apply (for_throw (fun _ x => length x = M * N)); [apply Hm| |].
      * intros k x Hk Hx. apply (ROW k x); auto; lia.
      * exists (if N <? co + P then 0 else O - 1). destruct (Nat.ltb_spec N (co + P)).
        -- split; [lia|]. intros x Hx. apply (ROW 0 x); auto; lia.
        -- split; [lia|]. intros x Hx. apply (ROW (O - 1) x); auto; lia.
Qed.
Print Assumptions C06_sub_matrix.

(** C07.  Transposition. *)
Theorem C07_transpose :
  forall (cfg : Cfg) (T : Type) (ST : Scalar T) (M N : nat) (m : list T) (f : nat -> nat -> T),
  repM M N m f ->
  exists t, mat_transpose M N m = Ok t /\ repM N M t (fun i j => f j i) /\ mat_transpose N M t = Ok m.
Proof.
  intros cfg T ST M N m f Hm. destruct (mat_transpose_spec M N m f Hm) as (t & E & Ht).
  exists t. split; [exact E|]. split; [exact Ht|].
  destruct (mat_transpose_spec N M t _ Ht) as (t2 & E2 & Ht2). rewrite E2. f_equal. exact (repM_inj _ _ _ _ _ Ht2 Hm).
Qed.
Print Assumptions C07_transpose.

Theorem C07_transpose_product :
  forall (cfg : Cfg) (lim : RLim) (M N P : nat) (a b : list R),
  length a = M * N -> length b = N * P ->
  exists ab ta tb t, mat_mul M N P a b = Ok ab /\ mat_transpose M N a = Ok ta /\ mat_transpose N P b = Ok tb /\
    mat_transpose M P ab = Ok t /\ mat_mul P N M tb ta = Ok t.
Proof.
  intros cfg lim M N P a b La Lb. destruct (mat_rep M N a La) as (f & Ha). destruct (mat_rep N P b Lb) as (g & Hb).
  destruct (mat_mul_R M N P a b f g Ha Hb) as (ab & Eab & Hab).
  destruct (mat_transpose_spec M N a f Ha) as (ta & Ea & Hta).
  destruct (mat_transpose_spec N P b g Hb) as (tb & Eb & Htb).
  destruct (mat_transpose_spec M P ab _ Hab) as (t & Et & Ht).
  destruct (mat_mul_R P N M tb ta _ _ Htb Hta) as (t2 & Et2 & Ht2).
  exists ab, ta, tb, t. repeat (split; [assumption|]). rewrite Et2. f_equal.
  eapply repM_inj; [exact Ht2|]. eapply repM_ext; [exact Ht|]. intros i j _ _; cbv beta. apply mmulR_transpose.
Qed.
Print Assumptions C07_transpose_product.

(** C08.  Products, for every element type: [ssum n t] is t 0 + t 1 + ... added
    from left to right starting from 0. *)
Theorem C08_product :
  forall (cfg : Cfg) (T : Type) (ST : Scalar T) (M N P : nat) (a b c : list T) (f g : nat -> nat -> T),
  repM M N a f -> repM N P b g -> length c = M * P ->
  returns (mat_mul M N P a b) (fun r => repM M P r (fun i j => ssum N (fun p => smul (f i p) (g p j)))) /\
  mat_multiply M N P c (Val a) (Val b) = mat_mul M N P a b /\
  (M = N -> N = P -> mat_mul_assign M a (Val b) = mat_mul M N P a b).
Proof.
  intros cfg T ST M N P a b c f g Ha Hb Hc. destruct (mat_rep M P c Hc) as (fc & Rc).
  destruct (mat_mul_spec M N P a b f g Ha Hb) as (r & E & Hr). split; [rewrite E; apply returns_ok; exact Hr|]. split.
  - destruct (mat_multiply_spec M N P c a b fc f g Rc Ha Hb) as (r2 & E2 & Hr2). rewrite E, E2. f_equal.
    exact (repM_inj _ _ _ _ _ Hr2 Hr).
  - intros -> ->. destruct (mat_mul_assign_spec P a b f g Ha Hb) as (r2 & E2 & Hr2). rewrite E, E2. f_equal.
    exact (repM_inj _ _ _ _ _ Hr2 Hr).
Qed.
Print Assumptions C08_product.

(** C08 over the reals: the ring laws. *)
Theorem C08_product_laws :
  forall (cfg : Cfg) (lim : RLim) (M N P Q : nat) (a b c d : list R),
  length a = M * N -> length b = N * P -> length c = P * Q -> length d = N * P ->
  (exists ab bc abc, mat_mul M N P a b = Ok ab /\ mat_mul N P Q b c = Ok bc /\
     mat_mul M P Q ab c = Ok abc /\ mat_mul M N Q a bc = Ok abc) /\
  (exists i, mat_IDENTITY M = Ok i /\ mat_mul M M N i a = Ok a) /\
  (exists i, mat_IDENTITY N = Ok i /\ mat_mul M N N a i = Ok a) /\
  (exists bd ab ad abd, mat_add N P b d = Ok bd /\ mat_mul M N P a b = Ok ab /\ mat_mul M N P a d = Ok ad /\
     mat_mul M N P a bd = Ok abd /\ mat_add M P ab ad = Ok abd) /\
  (exists bd bc dc bdc, mat_add N P b d = Ok bd /\ mat_mul N P Q b c = Ok bc /\ mat_mul N P Q d c = Ok dc /\
     mat_mul N P Q bd c = Ok bdc /\ mat_add N Q bc dc = Ok bdc).
Proof.
  intros cfg lim M N P Q a b c d La Lb Lc Ld.
  destruct (mat_rep M N a La) as (f & Ha). destruct (mat_rep N P b Lb) as (g & Hb).
  destruct (mat_rep P Q c Lc) as (h & Hc). destruct (mat_rep N P d Ld) as (k & Hd).
  destruct (mat_mul_R M N P a b f g Ha Hb) as (ab & Eab & Hab).
  destruct (mat_mul_R N P Q b c g h Hb Hc) as (bc & Ebc & Hbc).
  destruct (mat_mul_R N P Q d c k h Hd Hc) as (dc & Edc & Hdc).
  destruct (mat_mul_R M N P a d f k Ha Hd) as (ad & Ead & Had).
  destruct (mat_iter_zip_spec N P sadd b (Val d) g k Hb Hd) as (bd & Ebd & Hbd).
  assert (ID : forall n, exists i, mat_IDENTITY n = Ok i /\ repM n n i idR).
  { intros n. destruct (mat_default_spec n n) as (d0 & E0 & H0).
    destruct (mat_identity_spec n d0 _ H0) as (i & Ei & Hi). exists i. unfold mat_IDENTITY. rewrite E0. split; [exact Ei|].
    exact Hi. }
  split; [|split; [|split; [|split]]].
  - destruct (mat_mul_R M P Q ab c _ h Hab Hc) as (x & Ex & Hx).
    destruct (mat_mul_R M N Q a bc f _ Ha Hbc) as (y & Ey & Hy).
    exists ab, bc, x. repeat (split; [assumption|]). rewrite Ey. f_equal.
    eapply repM_inj; [exact Hy|]. eapply repM_ext; [exact Hx|]. intros i j _ _. apply mmulR_assoc.
  - destruct (ID M) as (i & Ei & Hi). exists i. split; [exact Ei|].
    destruct (mat_mul_R M M N i a _ f Hi Ha) as (x & Ex & Hx). rewrite Ex. f_equal.
    eapply repM_inj; [|exact Ha]. eapply repM_ext; [exact Hx|]. intros r s Hr _. apply mmulR_id_l; exact Hr.
  - destruct (ID N) as (i & Ei & Hi). exists i. split; [exact Ei|].
    destruct (mat_mul_R M N N a i f _ Ha Hi) as (x & Ex & Hx). rewrite Ex. f_equal.
    eapply repM_inj; [|exact Ha]. eapply repM_ext; [exact Hx|]. intros r s _ Hs. apply mmulR_id_r; exact Hs.
  - destruct (mat_mul_R M N P a bd f _ Ha Hbd) as (x & Ex & Hx).
    destruct (mat_iter_zip_spec M P sadd ab (Val ad) _ _ Hab Had) as (y & Ey & Hy).
    exists bd, ab, ad, x. split; [exact Ebd|]. split; [exact Eab|]. split; [exact Ead|]. split; [exact Ex|].
    etransitivity; [exact Ey|]. f_equal. eapply repM_inj; [exact Hy|]. eapply repM_ext; [exact Hx|].
    intros i j _ _. apply mmulR_plus_r.
  - destruct (mat_mul_R N P Q bd c _ h Hbd Hc) as (x & Ex & Hx).
    destruct (mat_iter_zip_spec N Q sadd bc (Val dc) _ _ Hbc Hdc) as (y & Ey & Hy).
    exists bd, bc, dc, x. split; [exact Ebd|]. split; [exact Ebc|]. split; [exact Edc|]. split; [exact Ex|].
    etransitivity; [exact Ey|]. f_equal. eapply repM_inj; [exact Hy|]. eapply repM_ext; [exact Hx|].
    intros i j _ _. apply mmulR_plus_l.
Qed.
Print Assumptions C08_product_laws.

Example C08_hypotheses_met : length [1; 2; 3; 4; 5; 6]%R = 2 * 3 /\ length [1; 0; 2; 0; 1; 3]%R = 3 * 2.
Proof. split; reflexivity. Qed.

(** C10.  Element-wise operators; [Self] is the matrix itself as operand. *)
Theorem C10_elementwise :
  forall (cfg : Cfg) (T : Type) (ST : Scalar T) (M N : nat) (a b : list T) (f g : nat -> nat -> T) (s : T),
  repM M N a f -> repM M N b g ->
  returns (mat_add M N a b) (fun r => repM M N r (fun i j => sadd (f i j) (g i j))) /\
  returns (mat_sub M N a b) (fun r => repM M N r (fun i j => ssub (f i j) (g i j))) /\
  returns (mat_add_assign M N a (Val b)) (fun r => repM M N r (fun i j => sadd (f i j) (g i j))) /\
  returns (mat_sub_assign M N a (Val b)) (fun r => repM M N r (fun i j => ssub (f i j) (g i j))) /\
  returns (mat_add_assign M N a Self) (fun r => repM M N r (fun i j => sadd (f i j) (f i j))) /\
  returns (mat_sub_assign M N a Self) (fun r => repM M N r (fun i j => ssub (f i j) (f i j))) /\
  returns (mat_mul_piecewise M N a (Val b)) (fun r => repM M N r (fun i j => smul (f i j) (g i j))) /\
  returns (mat_mul_piecewise M N a Self) (fun r => repM M N r (fun i j => smul (f i j) (f i j))) /\
  returns (mat_add_assign_s M N a s) (fun r => repM M N r (fun i j => sadd (f i j) s)) /\
  returns (mat_sub_assign_s M N a s) (fun r => repM M N r (fun i j => ssub (f i j) s)) /\
  returns (mat_mul_s M N a s) (fun r => repM M N r (fun i j => smul (f i j) s)) /\
  returns (mat_mul_assign_s M N a s) (fun r => repM M N r (fun i j => smul (f i j) s)) /\
  (forall h, (forall i j, i < M -> j < N -> sdiv (f i j) s = Ok (h i j)) ->
     returns (mat_div_s M N a s) (fun r => repM M N r h) /\
     returns (mat_div_assign_s M N a s) (fun r => repM M N r h)).
Proof.
  intros cfg T ST M N a b f g s Ha Hb.
  pose proof (mat_iter_zip_spec M N sadd a (Val b) f g Ha Hb) as H1.
  pose proof (mat_iter_zip_spec M N ssub a (Val b) f g Ha Hb) as H2.
  pose proof (mat_iter_zip_spec M N sadd a Self f f Ha (fun _ _ _ _ => eq_refl)) as H3.
  pose proof (mat_iter_zip_spec M N ssub a Self f f Ha (fun _ _ _ _ => eq_refl)) as H4.
  pose proof (mat_mul_piecewise_spec M N a (Val b) f g Ha Hb) as H5.
  pose proof (mat_mul_piecewise_spec M N a Self f f Ha (fun _ _ _ _ => eq_refl)) as H6.
  pose proof (mat_iter_map_spec M N (fun x => sadd x s) a f Ha) as H7.
  pose proof (mat_iter_map_spec M N (fun x => ssub x s) a f Ha) as H8.
  repeat (split; [assumption|]).
  split; [apply (mat_map_s_spec M N _ a f _ Ha); reflexivity|].
  split; [apply (mat_map_assign_s_spec M N _ a f _ Ha); reflexivity|].
  intros h Hh. split; [apply (mat_map_s_spec M N _ a f _ Ha); exact Hh|apply (mat_map_assign_s_spec M N _ a f _ Ha); exact Hh].
Qed.
Print Assumptions C10_elementwise.

(** C10 over the reals: vector-space laws, division. *)
Theorem C10_vector_space :
  forall (cfg : Cfg) (lim : RLim) (M N : nat) (a b c : list R) (s t : R),
  length a = M * N -> length b = M * N -> length c = M * N ->
  (exists r, mat_add M N a b = Ok r /\ mat_add M N b a = Ok r /\ mat_sub M N r b = Ok a) /\
  (exists ab bc r, mat_add M N a b = Ok ab /\ mat_add M N b c = Ok bc /\ mat_add M N ab c = Ok r /\ mat_add M N a bc = Ok r) /\
  (exists z, mat_ZERO M N = Ok z /\ mat_add M N a z = Ok a /\ mat_sub M N a a = Ok z) /\
  (exists sa sb sab ab, mat_mul_s M N a s = Ok sa /\ mat_mul_s M N b s = Ok sb /\ mat_add M N a b = Ok ab /\
     mat_mul_s M N ab s = Ok sab /\ mat_add M N sa sb = Ok sab) /\
  (exists sa r, mat_mul_s M N a s = Ok sa /\ mat_mul_s M N sa t = Ok r /\ mat_mul_s M N a (s * t)%R = Ok r) /\
  mat_mul_s M N a 1%R = Ok a /\
  (s <> 0%R -> exists q, mat_div_s M N a s = Ok q /\ mat_mul_s M N q s = Ok a).
Proof.
  intros cfg lim M N a b c s t La Lb Lc.
  destruct (mat_rep M N a La) as (f & Ha). destruct (mat_rep M N b Lb) as (g & Hb). destruct (mat_rep M N c Lc) as (h & Hc).
  assert (ADD : forall x y fx fy, repM M N x fx -> repM M N y fy ->
     returns (mat_add M N x y) (fun r => repM M N r (fun i j => fx i j + fy i j)%R)).
  { intros x y fx fy Hx Hy. exact (mat_iter_zip_spec M N sadd x (Val y) fx fy Hx Hy). }
  assert (SUB : forall x y fx fy, repM M N x fx -> repM M N y fy ->
     returns (mat_sub M N x y) (fun r => repM M N r (fun i j => fx i j - fy i j)%R)).
  { intros x y fx fy Hx Hy. exact (mat_iter_zip_spec M N ssub x (Val y) fx fy Hx Hy). }
  assert (MUL : forall x fx k, repM M N x fx ->
     returns (mat_mul_s M N x k) (fun r => repM M N r (fun i j => fx i j * k)%R)).
  { intros x fx k Hx. apply (mat_map_s_spec M N _ x fx _ Hx). reflexivity. }
  assert (EQ : forall (p : res (list R)) y fy h, returns p (fun r => repM M N r h) -> repM M N y fy ->
     (forall i j, i < M -> j < N -> h i j = fy i j) -> p = Ok y).
  { intros p y fy hh (r & -> & Hr) Hy HE. f_equal. eapply repM_inj; [|exact Hy]. eapply repM_ext; [exact Hr|exact HE]. }
  destruct (ADD a b f g Ha Hb) as (ab & Eab & Hab). destruct (ADD b c g h Hb Hc) as (bc & Ebc & Hbc).
  split; [|split; [|split; [|split; [|split; [|split]]]]].
  - exists ab. split; [exact Eab|]. split.
    + eapply EQ; [exact (ADD b a g f Hb Ha)|exact Hab|]. intros; cbv beta; lra.
    + eapply EQ; [exact (SUB ab b _ g Hab Hb)|exact Ha|]. intros; cbv beta; lra.
  - destruct (ADD ab c _ h Hab Hc) as (r & Er & Hr). exists ab, bc, r. repeat (split; [assumption|]).
    eapply EQ; [exact (ADD a bc f _ Ha Hbc)|exact Hr|]. intros; cbv beta; lra.
  - destruct (C03_fills cfg R RScalar M N a 0%R La) as (_ & _ & _ & _ & EZ). exists (repeat 0%R (M * N)).
    split; [exact EZ|]. pose proof (repM_repeat M N 0%R) as HZ. split.
    + eapply EQ; [exact (ADD a _ f _ Ha HZ)|exact Ha|]. intros; cbv beta; lra.
    + eapply EQ; [exact (SUB a a f f Ha Ha)|exact HZ|]. intros; cbv beta; lra.
  - destruct (MUL a f s Ha) as (sa & Esa & Hsa). destruct (MUL b g s Hb) as (sb & Esb & Hsb).
    destruct (MUL ab _ s Hab) as (sab & Esab & Hsab). exists sa, sb, sab, ab. repeat (split; [assumption|]).
    eapply EQ; [exact (ADD sa sb _ _ Hsa Hsb)|exact Hsab|]. intros; cbv beta; lra.
  - destruct (MUL a f s Ha) as (sa & Esa & Hsa). destruct (MUL sa _ t Hsa) as (r & Er & Hr).
    exists sa, r. repeat (split; [assumption|]). eapply EQ; [exact (MUL a f (s * t)%R Ha)|exact Hr|]. intros; cbv beta; lra.
  - eapply EQ; [exact (MUL a f 1%R Ha)|exact Ha|]. intros; cbv beta; lra.
  - intros Hne. destruct (mat_map_s_spec M N (fun x => sdiv x s) a f (fun i j => f i j / s)%R Ha) as (q & Eq & Hq).
    { intros i j _ _. apply sdiv_R; exact Hne. }
    exists q. split; [exact Eq|]. eapply EQ; [exact (MUL q _ s Hq)|exact Ha|]. intros; cbv beta. field; exact Hne.
Qed.
Print Assumptions C10_vector_space.
