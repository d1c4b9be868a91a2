(** Properties C21-C25: outer products, structured products, sums, extrema,
    thresholds. *)
From Verif Require Export LMat7.
Local Open Scope nat_scope.

(** C21, what the code computes: u indexes the columns and v the rows.  For a
    square matrix the result is the transposed outer product, in every element
    type; for a non-square one (u has M components, v has N) one of the two
    vectors is read past its end. *)
Theorem C21_tensor_square_partial :
  forall (cfg : Cfg) (T : Type) (ST : Scalar T) (M : nat) (m u v : list T) (fu fv : nat -> T),
  length m = M * M -> repV M u fu -> repV M v fv ->
  returns (mat_tensor M M m u v) (fun r => repM M M r (fun i j => smul (fu j) (fv i))).
Proof.
  intros cfg T ST M m u v fu fv Hm Hu Hv. destruct (mat_rep M M m Hm) as (f & Rm). unfold mat_tensor.
  apply (fill2_cr_all M M m f (fun i j => smul (fu j) (fv i)) (fun c r m =>
    a <- rd u c ;; b <- rd v r ;; mat_put M M m r c (smul a b)) Rm).
  intros r c m' Hr Hc _. rewrite (repV_rd M u fu), (repV_rd M v fv) by auto. cbn [bind]. apply mat_put_ok; auto.
Qed.
Print Assumptions C21_tensor_square_partial.

Theorem C21_tensor_nonsquare_refuted :
  forall (cfg : Cfg) (T : Type) (ST : Scalar T) (M N : nat) (m u v : list T),
  0 < M -> 0 < N -> M <> N -> length m = M * N -> length u = M -> length v = N ->
  mat_tensor M N m u v = UB.
Proof.
  intros cfg T ST M N m u v HM HN Hne Hm Hu Hv. unfold mat_tensor.
  assert (RU : forall k, k < M -> exists x, rd u k = Ok x).
  { intros k Hk. unfold rd. destruct (nth_error u k) eqn:E; [eauto|]. apply nth_error_None in E. lia. }
  assert (RV : forall k, k < N -> exists x, rd v k = Ok x).
  { intros k Hk. unfold rd. destruct (nth_error v k) eqn:E; [eauto|]. apply nth_error_None in E. lia. }
  assert (PM : forall r c x (l : list T), r < M -> c < N -> length l = M * N ->
                 returns (mat_put M N l r c x) (fun l' => length l' = M * N)).
  { intros r c x l Hr Hc Hl. rewrite mat_put_ok by auto.
    rewrite wr_ok by (rewrite Hl; apply cell_lt; auto). apply returns_ok. rewrite length_upd. exact Hl. }
  destruct (Nat.lt_total N M) as [L|[E|L]]; [|lia|].
  - (* v is read at rows N .. M-1: already in the first column *)
    rewrite for_step by lia.
    match goal with |- (bind ?a _) = _ => assert (Ea : a = UB) end; [|rewrite Ea; reflexivity].
    apply (for_ub (fun _ l => length l = M * N)); [exact Hm| |].
    + intros r l Hr Hl. destruct (RU 0 ltac:(lia)) as (a & Ea). rewrite Ea. cbn [bind].
      destruct (Nat.lt_ge_cases r N) as [L'|L'].
      * destruct (RV r L') as (b & Eb). rewrite Eb. cbn [bind]. right. apply PM; lia.
      * rewrite (rd_ub v r) by lia. left; reflexivity.
    + exists N. split; [lia|]. intros l _. destruct (RU 0 ltac:(lia)) as (a & Ea). rewrite Ea. cbn [bind].
      rewrite (rd_ub v N) by lia. reflexivity.
  - apply (for_ub (fun _ l => length l = M * N)); [exact Hm| |].
    + intros c l Hc Hl. destruct (Nat.lt_ge_cases c M) as [L'|L'].
      * right. apply (for_inv (fun _ l => length l = M * N)); [lia|exact Hl|].
        intros r l' Hr Hl'. destruct (RU c L') as (a & Ea), (RV r ltac:(lia)) as (b & Eb).
        rewrite Ea, Eb. cbn [bind]. apply PM; lia.
      * left. rewrite for_step by lia. rewrite (rd_ub u c) by lia. reflexivity.
    + exists M. split; [lia|]. intros l _. rewrite for_step by lia. rewrite (rd_ub u M) by lia. reflexivity.
Qed.
Print Assumptions C21_tensor_nonsquare_refuted.

(** The transposed result differs from the outer product whenever u and v are
    not proportional: exactly when u(i)v(j) <> u(j)v(i) for some i, j. *)
Theorem C21_tensor_transposed_refuted :
  forall (cfg : Cfg) (lim : RLim) (M : nat) (m u v : list R) (fu fv : nat -> R),
  length m = M * M -> repV M u fu -> repV M v fv ->
  (returns (mat_tensor M M m u v) (fun r => repM M M r (fun i j => (fu i * fv j)%R)) <->
   forall i j, i < M -> j < M -> (fu i * fv j = fu j * fv i)%R).
Proof.
  intros cfg lim M m u v fu fv Hm Hu Hv.
  destruct (C21_tensor_square_partial cfg R RScalar M m u v fu fv Hm Hu Hv) as (r & E & Hr). rewrite E. split.
  - intros H i j Hi Hj. apply returns_ok_inv in H. exact (repM_fun _ _ _ _ _ H Hr i j Hi Hj).
  - intros H. apply returns_ok. eapply repM_ext; [exact Hr|]. intros i j Hi Hj; cbv beta. symmetry. apply H; auto.
Qed.
Print Assumptions C21_tensor_transposed_refuted.

(** The 4 x 4 overload for 3-vectors: the transposed outer product of (u,1) and
    (v,1). *)
Theorem C21_tensor_3_to_4_partial :
  forall (cfg : Cfg) (lim : RLim) (m : list R) (u0 u1 u2 v0 v1 v2 : R),
  length m = 16 ->
  returns (mat_tensor34 m [u0; u1; u2] [v0; v1; v2])
    (fun r => repM 4 4 r (fun i j => (nth j [u0; u1; u2; 1%R] 0 * nth i [v0; v1; v2; 1%R] 0)%R)).
Proof.
  intros cfg lim m u0 u1 u2 v0 v1 v2 Hm.
  do 16 (destruct m as [|? m]; [discriminate Hm|]). destruct m; [|discriminate Hm].
  unfold mat_tensor34, for_, mat_put. cbn -[Rmult]. apply returns_ok. split; [reflexivity|].
  intros i j Hi Hj. do 4 (destruct i as [|i]; [do 4 (destruct j as [|j]; [cbn -[Rmult]; f_equal; ring|]); lia|]). lia.
Qed.
Print Assumptions C21_tensor_3_to_4_partial.

Example C21_hypotheses_met :
  repV 2 [1; 2]%R (fun i => nth i [1; 2]%R 0%R) /\ repV 2 [3; 4]%R (fun i => nth i [3; 4]%R 0%R) /\
  (nth 0 [1; 2] 0 * nth 1 [3; 4] 0 <> nth 1 [1; 2] 0 * nth 0 [3; 4] 0)%R.
Proof. split; [apply repV_nth; reflexivity|]. split; [apply repV_nth; reflexivity|]. cbn. lra. Qed.

(** C22: direct sum, Kronecker, Khatri-Rao products and symmetric covariance:
    every cell of the result is defined, whatever it contained before. *)
Theorem C22_direct_sum :
  forall (cfg : Cfg) (T : Type) (ST : Scalar T) (O P Q R : nat) (m ul lr : list T) (fu fl : nat -> nat -> T),
  length m = (O + Q) * (P + R) -> repM O P ul fu -> repM Q R lr fl ->
  returns (mat_direct_sum O P Q R m ul lr) (fun r => length r = (O + Q) * (P + R) /\
    (forall i j, i < O -> j < P -> mat_at (O + Q) (P + R) r i j = Ok (fu i j)) /\
    (forall i j, i < Q -> j < R -> mat_at (O + Q) (P + R) r (O + i) (P + j) = Ok (fl i j)) /\
    (forall i j, i < O -> j < R -> mat_at (O + Q) (P + R) r i (P + j) = Ok szero) /\
    (forall i j, i < Q -> j < P -> mat_at (O + Q) (P + R) r (O + i) j = Ok szero)).
Proof.
  intros cfg T ST O P Q R m ul lr fu fl Hm Hu Hl. destruct (mat_rep _ _ m Hm) as (f & Rm).
  eapply returns_impl; [apply (mat_direct_sum_spec O P Q R m f ul lr fu fl Rm Hu Hl)|].
  intros r Hr. split; [apply Hr|].
  repeat apply conj; intros i j Hi Hj; rewrite (mat_at_ok _ _ _ _ _ _ Hr) by lia; f_equal;
    repeat match goal with |- context [?a <? ?b] => destruct (Nat.ltb_spec a b); [try lia|try lia] end;
    repeat match goal with |- context [?a <=? ?b] => destruct (Nat.leb_spec a b); [try lia|try lia] end; cbn [andb]; auto;
    f_equal; lia.
Qed.
Print Assumptions C22_direct_sum.

Theorem C22_kronecker :
  forall (cfg : Cfg) (T : Type) (ST : Scalar T) (M N O P : nat) (m right result : list T) (f g : nat -> nat -> T),
  repM M N m f -> repM O P right g -> length result = (M * O) * (N * P) ->
  returns (mat_kronecker M N O P m right result) (fun r => length r = (M * O) * (N * P) /\
    forall a b o p, a < M -> b < N -> o < O -> p < P ->
      mat_at (M * O) (N * P) r (O * a + o) (P * b + p) = Ok (smul (f a b) (g o p))).
Proof.
  intros cfg T ST M N O P m right result f g Hm Hr Hl.
  eapply returns_impl; [apply (mat_kronecker_spec M N O P m f right g result Hm Hr Hl)|].
  intros r H. split; [apply H|]. intros a b o p Ha Hb Ho Hp.
  rewrite (mat_at_ok _ _ _ _ _ _ H) by nia. cbv beta. rewrite (Nat.mul_comm O a), (Nat.mul_comm P b).
  rewrite !cell_div, !cell_mod by lia. reflexivity.
Qed.
Print Assumptions C22_kronecker.

Theorem C22_khatri_rao :
  forall (cfg : Cfg) (T : Type) (ST : Scalar T) (M N O : nat) (m right prod : list T) (f g : nat -> nat -> T),
  repM M N m f -> repM O N right g -> length prod = (M * O) * N ->
  returns (mat_khatri_rao M N O m right prod) (fun r => length r = (M * O) * N /\
    forall a o j, a < M -> o < O -> j < N ->
      mat_at (M * O) N r (O * a + o) j = Ok (smul (f a j) (g o j))).
Proof.
  intros cfg T ST M N O m right prod f g Hm Hr Hl.
  eapply returns_impl; [apply (mat_khatri_rao_spec M N O m f right g prod Hm Hr Hl)|].
  intros r H. split; [apply H|]. intros a o j Ha Ho Hj.
  rewrite (mat_at_ok _ _ _ _ _ _ H) by nia. cbv beta. rewrite (Nat.mul_comm O a).
  rewrite cell_div, cell_mod by lia. reflexivity.
Qed.
Print Assumptions C22_khatri_rao.

Theorem C22_symmetric_covariance :
  forall (cfg : Cfg) (lim : RLim) (M N : nat) (m cov : list R) (f : nat -> nat -> R),
  repM M N m f -> length cov = M * M ->
  returns (mat_sym_cov M N m cov) (fun r =>
    repM M M r (fun i j => rsum N (fun k => (f i k * f j k)%R)) /\
    exists t, mat_transpose M N m = Ok t /\ mat_mul M N M m t = Ok r).
Proof.
  intros cfg lim M N m cov f Hm Hl.
  eapply returns_impl; [apply (mat_sym_cov_spec M N m f cov Hm Hl)|]. intros r Hr.
  assert (K : repM M M r (fun i j => rsum N (fun k => (f i k * f j k)%R))).
  { eapply repM_ext; [exact Hr|]. intros i j Hi Hj; cbv beta. rewrite ssum_R. apply rsum_ext. intros k Hk. cbn.
    destruct (Nat.le_ge_cases i j); [rewrite Nat.min_l, Nat.max_r by lia|rewrite Nat.min_r, Nat.max_l by lia]; ring. }
  split; [exact K|]. destruct (mat_transpose_spec M N m f Hm) as (t & Et & Ht). exists t. split; [exact Et|].
  destruct (mat_mul_R M N M m t f _ Hm Ht) as (p & Ep & Hp). rewrite Ep. f_equal.
  eapply repM_inj; [exact Hp|exact K].
Qed.
Print Assumptions C22_symmetric_covariance.

Example C22_hypotheses_met :
  repM 1 2 [1; 2]%R (fun i j => nth (j * 1 + i) [1; 2]%R 0%R) /\ repM 3 2 [1; 2; 3; 4; 5; 6]%R (fun i j => nth (j * 3 + i) [1; 2; 3; 4; 5; 6]%R 0%R).
Proof. split; apply repM_nth; reflexivity. Qed.

(** C23: sums. *)
Lemma rsum_cells M N (f : nat -> nat -> R) :
  rsum (M * N) (fun k => f (k mod M) (k / M)) = rsumM M N f.
Proof.
  unfold rsumM. rewrite rsum_swap. induction N as [|N IH]; cbn [rsum].
  - rewrite Nat.mul_0_r. reflexivity.
  - rewrite <- IH. replace (M * S N) with (M * N + M) by lia. rewrite rsum_split. f_equal.
    apply rsum_ext. intros i Hi. rewrite (Nat.mul_comm M N), cell_mod, cell_div by exact Hi. reflexivity.
Qed.

Theorem C23_sum_elements :
  forall (cfg : Cfg) (lim : RLim) (M N : nat) (m : list R) (f : nat -> nat -> R),
  repM M N m f ->
  mat_sum_elements M N m = Ok (rsumM M N f) /\
  mat_frobenius M N m = Ok (sqrt (rsumM M N (fun i j => (f i j * f i j)%R))).
Proof.
  intros cfg lim M N m f Hm. pose proof (repM_repV_cell M N m f Hm) as Hv. split.
  - unfold mat_sum_elements.
    rewrite (for_sum (M * N) (fun k => f (k mod M) (k / M))).
    + rewrite ssum_R, rsum_cells. reflexivity.
    + intros i a Hi. rewrite (repV_rd _ _ _ _ Hv Hi). reflexivity.
  - unfold mat_frobenius.
    rewrite (for_sum (M * N) (fun k => smul (f (k mod M) (k / M)) (f (k mod M) (k / M)))).
    + rewrite ssum_R. cbn [bind]. cbn -[Nat.mul]. 
      rewrite (rsum_cells M N (fun i j => (f i j * f i j)%R)). rewrite Rltb_false; [reflexivity|].
      unfold rsumM. apply rsum_nonneg. intros i _. apply rsum_nonneg. intros j _. nra.
    + intros i a Hi. rewrite (repV_rd _ _ _ _ Hv Hi). reflexivity.
Qed.
Print Assumptions C23_sum_elements.

Theorem C23_columnwise_sum :
  forall (cfg : Cfg) (lim : RLim) (M N : nat) (m out : list R) (f : nat -> nat -> R),
  repM M N m f -> length out = N ->
  returns (mat_columnwise_sum M N m out) (fun r => repV N r (fun j => rsum M (fun i => f i j))).
Proof.
  intros cfg lim M N m out f Hm Ho.
  eapply returns_impl; [apply (mat_columnwise_sum_spec M N m f out _ Hm (repV_nth N out 0%R Ho))|].
  intros r Hr. eapply repV_ext; [exact Hr|]. intros i Hi; cbv beta. apply ssum_R.
Qed.
Print Assumptions C23_columnwise_sum.

Lemma vec_add_assign_val {cfg : Cfg} {T} {ST : Scalar T} n u v (f g : nat -> T) :
  repV n u f -> repV n v g -> returns (vec_add_assign n u (Val v)) (fun r => repV n r (fun i => sadd (f i) (g i))).
Proof.
  intros Hu Hv. unfold vec_add_assign, vec_zip_assign. eapply fill1_all; [exact Hu|].
  intros i l Hi Hl. cbn [argl]. rewrite (vat_ok n v g) by auto. cbn [bind]. rewrite (vat_ok n l _ i Hl) by auto.
  cbn [bind]. cbv beta. rewrite Nat.ltb_irrefl. unfold vset. destruct (Nat.leb_spec n i); [lia|]. reflexivity.
Qed.

Theorem C23_sum_rows_columns :
  forall (cfg : Cfg) (T : Type) (ST : Scalar T) (M N : nat) (m : list T) (f : nat -> nat -> T),
  repM M N m f ->
  (forall other, length other = (M / 2) * N ->
     returns (mat_sum_rows M N m other) (fun r => repM (M / 2) N r (fun k j => sadd (f (2 * k) j) (f (2 * k + 1) j)))) /\
  (forall other, length other = M * (N / 2) ->
     returns (mat_sum_columns M N m other) (fun r => repM M (N / 2) r (fun i k => sadd (f i (2 * k)) (f i (2 * k + 1))))).
Proof.
  intros cfg T ST M N m f Hm. split; intros other Ho; destruct (mat_rep _ _ other Ho) as (f0 & R0).
  - unfold mat_sum_rows. eapply returns_bind; [apply (mat_zero_spec (M / 2) N other f0 R0)|]. intros o1 H1.
    eapply returns_impl.
    + apply (for_inv (fun k x => repM (M / 2) N x (fun i j => if i <? k then sadd (f (2 * i) j) (f (2 * i + 1) j) else szero)));
        [lia|exact H1|].
      intros k x Hk Hx. assert (HkM : 2 * k < M).
      { pose proof (Nat.div_mod (M + 1) 2 ltac:(lia)). pose proof (Nat.mod_upper_bound (M + 1) 2 ltac:(lia)). lia. }
      eapply returns_bind; [apply (mat_get_row_spec M N m f (2 * k) Hm); lia|]. intros r0 Hr0.
      destruct (Nat.ltb_spec (2 * k + 1) M) as [L|L].
      * eapply returns_bind; [apply (mat_get_row_spec M N m f (2 * k + 1) Hm L)|]. intros r1 Hr1.
        eapply returns_bind; [apply (vec_add_assign_val N r0 r1 _ _ Hr0 Hr1)|]. intros r2 Hr2.
        assert (E : (2 * k + 1) / 2 = k) by (symmetry; apply (Nat.div_unique _ 2 k 1); lia). rewrite E.
        assert (k < M / 2) by (apply Nat.div_le_lower_bound; lia).
        eapply returns_impl; [apply (mat_set_row_spec (M / 2) N x _ k r2 _ Hx Hr2); assumption|].
        intros y Hy. eapply repM_ext; [exact Hy|]. intros i j Hi Hj; cbv beta.
        destruct (Nat.eqb_spec i k), (Nat.ltb_spec i k), (Nat.ltb_spec i (S k)); try lia; subst; reflexivity.
      * apply returns_ok. eapply repM_ext; [exact Hx|]. intros i j Hi Hj; cbv beta.
        pose proof (Nat.div_mod M 2 ltac:(lia)). 
        destruct (Nat.ltb_spec i k), (Nat.ltb_spec i (S k)); try lia; reflexivity.
    + intros x Hx. eapply repM_ext; [exact Hx|]. intros i j Hi Hj; cbv beta.
      pose proof (Nat.div_le_mono M (M + 1) 2 ltac:(lia) ltac:(lia)).
      destruct (Nat.ltb_spec i ((M + 1) / 2)); [reflexivity|lia].
  - unfold mat_sum_columns. eapply returns_bind; [apply (mat_zero_spec M (N / 2) other f0 R0)|]. intros o1 H1.
    eapply returns_impl.
    + apply (for_inv (fun k x => repM M (N / 2) x (fun i j => if j <? k then sadd (f i (2 * j)) (f i (2 * j + 1)) else szero)));
        [lia|exact H1|].
      intros k x Hk Hx. assert (HkM : 2 * k < N).
      { pose proof (Nat.div_mod (N + 1) 2 ltac:(lia)). pose proof (Nat.mod_upper_bound (N + 1) 2 ltac:(lia)). lia. }
      eapply returns_bind; [apply (mat_get_column_spec M N m f (2 * k) Hm); lia|]. intros r0 Hr0.
      destruct (Nat.ltb_spec (2 * k + 1) N) as [L|L].
      * eapply returns_bind; [apply (mat_get_column_spec M N m f (2 * k + 1) Hm L)|]. intros r1 Hr1.
        eapply returns_bind; [apply (vec_add_assign_val M r0 r1 _ _ Hr0 Hr1)|]. intros r2 Hr2.
        assert (E : (2 * k + 1) / 2 = k) by (symmetry; apply (Nat.div_unique _ 2 k 1); lia). rewrite E.
        assert (k < N / 2) by (apply Nat.div_le_lower_bound; lia).
        eapply returns_impl; [apply (mat_set_column_spec M (N / 2) x _ k r2 _ Hx Hr2); assumption|].
        intros y Hy. eapply repM_ext; [exact Hy|]. intros i j Hi Hj; cbv beta.
        destruct (Nat.eqb_spec j k), (Nat.ltb_spec j k), (Nat.ltb_spec j (S k)); try lia; subst; reflexivity.
      * apply returns_ok. eapply repM_ext; [exact Hx|]. intros i j Hi Hj; cbv beta.
        pose proof (Nat.div_mod N 2 ltac:(lia)).
        destruct (Nat.ltb_spec j k), (Nat.ltb_spec j (S k)); try lia; reflexivity.
    + intros x Hx. eapply repM_ext; [exact Hx|]. intros i j Hi Hj; cbv beta.
      pose proof (Nat.div_le_mono N (N + 1) 2 ltac:(lia) ltac:(lia)).
      destruct (Nat.ltb_spec j ((N + 1) / 2)); [reflexivity|lia].
Qed.
Print Assumptions C23_sum_rows_columns.

Example C23_hypotheses_met :
  repM 3 2 [1; 2; 3; 4; 5; 6]%R (fun i j => nth (j * 3 + i) [1; 2; 3; 4; 5; 6]%R 0%R) /\
  length [0; 0]%R = (3 / 2) * 2 /\ length [0; 0; 0]%R = 3 * (2 / 2).
Proof. split; [apply repM_nth; reflexivity|]. split; reflexivity. Qed.

(** C24: extremal values.  [b] is the value a fold returns: a bound of all
    cells that is attained. *)
Definition cell_of (M N : nat) (f : nat -> nat -> R) (x : R) : Prop := exists i j, i < M /\ j < N /\ f i j = x.

(** The four folds keep the best of the values [g] seen so far and the start
    value. *)
Lemma fold_best (better : R -> R -> Prop) n (g : nat -> R) (body : nat -> R -> res R) b0 :
  (forall x y z, better x y -> better y z -> better x z) -> (forall x, better x x) ->
  (forall i b, i < n -> exists b', body i b = Ok b' /\ (b' = b \/ b' = g i) /\ better b' b /\ better b' (g i)) ->
  returns (for_ 0 n body b0) (fun b => better b b0 /\ (forall i, i < n -> better b (g i)) /\ (b = b0 \/ exists i, i < n /\ b = g i)).
Proof.
  intros TR RF Hb. eapply returns_impl.
  - apply (for_inv (fun k b => better b b0 /\ (forall i, i < k -> better b (g i)) /\ (b = b0 \/ exists i, i < k /\ b = g i)));
      [lia| |].
    + split; [apply RF|]. split; [intros; lia|left; reflexivity].
    + intros k b Hk (H1 & H2 & H3). destruct (Hb k b ltac:(lia)) as (b' & -> & Hc & B1 & B2). apply returns_ok.
      split; [exact (TR _ _ _ B1 H1)|]. split.
      * intros i Hi. destruct (Nat.eq_dec i k) as [->|]; [exact B2|]. eapply TR; [exact B1|]. apply H2; lia.
      * destruct Hc as [->| ->]; [|right; exists k; split; [lia|reflexivity]].
        destruct H3 as [->|(i & Hi & ->)]; [left; reflexivity|right; exists i; split; [lia|reflexivity]].
  - intros b H; exact H.
Qed.

Local Open Scope R_scope.
Theorem C24_get_min :
  forall (cfg : Cfg) (lim : RLim) (M N : nat) (m : list R) (f : nat -> nat -> R),
  repM M N m f -> (0 < M)%nat -> (0 < N)%nat ->
  (forall i j, (i < M)%nat -> (j < N)%nat -> f i j <= rmax) ->
  returns (mat_get_min M N m) (fun b => cell_of M N f b /\ forall i j, (i < M)%nat -> (j < N)%nat -> b <= f i j).
Proof.
  intros cfg lim M N m f Hm HM HN Hmax. pose proof (repM_repV_cell M N m f Hm) as Hv.
  eapply returns_impl; [apply (fold_best Rle (M * N) (fun k => f (k mod M) (k / M))%nat)|].
  - intros; lra.
  - intros; lra.
  - intros i b Hi. rewrite (repV_rd _ _ _ _ Hv Hi). cbn [bind]. eexists. split; [reflexivity|]. cbn -[Nat.div Nat.modulo].
    destruct (Rltb_spec (f (i mod M) (i / M))%nat b); repeat split; auto; lra.
  - intros b (H1 & H2 & H3).
    assert (B : forall i j, (i < M)%nat -> (j < N)%nat -> b <= f i j).
    { intros i j Hi Hj. specialize (H2 (j * M + i)%nat (cell_lt M N i j Hi Hj)). cbv beta in H2.
      rewrite cell_mod, cell_div in H2 by exact Hi. exact H2. }
    split; [|exact B]. destruct H3 as [->|(k & Hk & ->)].
    + exists 0%nat, 0%nat. repeat split; auto. specialize (B 0%nat 0%nat HM HN). specialize (Hmax 0%nat 0%nat HM HN).
      cbn in B. cbn. lra.
    + destruct (cell_surj M N k Hk) as (i & j & Hi & Hj & ->). exists i, j.
      rewrite cell_mod, cell_div by exact Hi. auto.
Qed.
Print Assumptions C24_get_min.

Theorem C24_get_abs :
  forall (cfg : Cfg) (lim : RLim) (M N : nat) (m : list R) (f : nat -> nat -> R),
  repM M N m f -> (0 < M)%nat -> (0 < N)%nat ->
  (forall i j, (i < M)%nat -> (j < N)%nat -> Rabs (f i j) <= rmax) ->
  returns (mat_get_abs_min M N m) (fun b => cell_of M N (fun i j => Rabs (f i j)) b /\
     forall i j, (i < M)%nat -> (j < N)%nat -> b <= Rabs (f i j)) /\
  returns (mat_get_abs_max M N m) (fun b => cell_of M N (fun i j => Rabs (f i j)) b /\
     forall i j, (i < M)%nat -> (j < N)%nat -> Rabs (f i j) <= b).
Proof.
  intros cfg lim M N m f Hm HM HN Hmax. pose proof (repM_repV_cell M N m f Hm) as Hv. split.
  - eapply returns_impl; [apply (fold_best (fun x y => Rabs x <= Rabs y) (M * N) (fun k => Rabs (f (k mod M) (k / M))%nat))|].
    + intros; lra.
    + intros; lra.
    + intros i b Hi. rewrite (repV_rd _ _ _ _ Hv Hi). cbn [bind]. eexists. split; [reflexivity|]. cbn -[Nat.div Nat.modulo].
      destruct (Rltb_spec (Rabs (f (i mod M) (i / M))%nat) (Rabs b)); rewrite ?Rabs_Rabsolu; repeat split; auto; lra.
    + cbn [smax RScalar]. intros b (H1 & H2 & H3).
      assert (B : forall i j, (i < M)%nat -> (j < N)%nat -> Rabs b <= Rabs (f i j)).
      { intros i j Hi Hj. specialize (H2 (j * M + i)%nat (cell_lt M N i j Hi Hj)). cbv beta in H2.
        rewrite cell_mod, cell_div, Rabs_Rabsolu in H2 by exact Hi. exact H2. }
      assert (NB : 0 <= b).
      { destruct H3 as [->|(k & Hk & ->)]; [pose proof rmax_pos; lra|apply Rabs_pos]. }
      split; [|intros i j Hi Hj; specialize (B i j Hi Hj); rewrite (Rabs_pos_eq b) in B; lra].
      destruct H3 as [->|(k & Hk & ->)].
      * exists 0%nat, 0%nat. repeat split; auto. specialize (B 0%nat 0%nat HM HN). specialize (Hmax 0%nat 0%nat HM HN).
        rewrite (Rabs_pos_eq _ NB) in B. cbv beta. lra.
      * destruct (cell_surj M N k Hk) as (i & j & Hi & Hj & ->). exists i, j.
        rewrite cell_mod, cell_div by exact Hi. auto.
  - eapply returns_impl; [apply (fold_best (fun x y => Rabs y <= Rabs x) (M * N) (fun k => Rabs (f (k mod M) (k / M))%nat))|].
    + intros; lra.
    + intros; lra.
    + intros i b Hi. rewrite (repV_rd _ _ _ _ Hv Hi). cbn [bind]. eexists. split; [reflexivity|]. cbn -[Nat.div Nat.modulo].
      destruct (Rltb_spec (Rabs b) (Rabs (f (i mod M) (i / M))%nat)); rewrite ?Rabs_Rabsolu; repeat split; auto; lra.
    + cbn [szero RScalar]. intros b (H1 & H2 & H3).
      assert (B : forall i j, (i < M)%nat -> (j < N)%nat -> Rabs (f i j) <= Rabs b).
      { intros i j Hi Hj. specialize (H2 (j * M + i)%nat (cell_lt M N i j Hi Hj)). cbv beta in H2.
        rewrite cell_mod, cell_div, Rabs_Rabsolu in H2 by exact Hi. exact H2. }
      assert (NB : 0 <= b).
      { destruct H3 as [->|(k & Hk & ->)]; [lra|apply Rabs_pos]. }
      split; [|intros i j Hi Hj; specialize (B i j Hi Hj); rewrite (Rabs_pos_eq b) in B; lra].
      destruct H3 as [->|(k & Hk & ->)].
      * exists 0%nat, 0%nat. repeat split; auto. specialize (B 0%nat 0%nat HM HN).
        pose proof (Rabs_pos (f 0%nat 0%nat)). rewrite Rabs_R0 in B. cbv beta. lra.
      * destruct (cell_surj M N k Hk) as (i & j & Hi & Hj & ->). exists i, j.
        rewrite cell_mod, cell_div by exact Hi. auto.
Qed.
Print Assumptions C24_get_abs.

(** get_max starts from 0: it is right exactly when some cell is >= 0 ... *)
Theorem C99_get_max_partial :
  forall (cfg : Cfg) (lim : RLim) (M N : nat) (m : list R) (f : nat -> nat -> R),
  repM M N m f -> (exists i j, (i < M)%nat /\ (j < N)%nat /\ 0 <= f i j) ->
  returns (mat_get_max M N m) (fun b => cell_of M N f b /\ forall i j, (i < M)%nat -> (j < N)%nat -> f i j <= b).
Proof.
  intros cfg lim M N m f Hm (i0 & j0 & Hi0 & Hj0 & H0). pose proof (repM_repV_cell M N m f Hm) as Hv.
  eapply returns_impl; [apply (fold_best (fun x y => y <= x) (M * N) (fun k => f (k mod M) (k / M))%nat)|].
  - intros; lra.
  - intros; lra.
  - intros i b Hi. rewrite (repV_rd _ _ _ _ Hv Hi). cbn [bind]. eexists. split; [reflexivity|]. cbn -[Nat.div Nat.modulo].
    destruct (Rltb_spec b (f (i mod M) (i / M))%nat); repeat split; auto; lra.
  - intros b (H1 & H2 & H3).
    assert (B : forall i j, (i < M)%nat -> (j < N)%nat -> f i j <= b).
    { intros i j Hi Hj. specialize (H2 (j * M + i)%nat (cell_lt M N i j Hi Hj)). cbv beta in H2.
      rewrite cell_mod, cell_div in H2 by exact Hi. exact H2. }
    split; [|exact B]. destruct H3 as [->|(k & Hk & ->)].
    + exists i0, j0. repeat split; auto. specialize (B i0 j0 Hi0 Hj0). cbn in B. cbn. lra.
    + destruct (cell_surj M N k Hk) as (i & j & Hi & Hj & ->). exists i, j.
      rewrite cell_mod, cell_div by exact Hi. auto.
Qed.
Print Assumptions C99_get_max_partial.

(** ... and for a matrix of negative cells it returns 0, which is no cell. *)
Theorem C99_get_max_refuted :
  forall (cfg : Cfg) (lim : RLim) (M N : nat) (m : list R) (f : nat -> nat -> R),
  repM M N m f -> (forall i j, (i < M)%nat -> (j < N)%nat -> f i j < 0) ->
  mat_get_max M N m = Ok 0 /\ ~ cell_of M N f 0.
Proof.
  intros cfg lim M N m f Hm H. pose proof (repM_repV_cell M N m f Hm) as Hv. split.
  - destruct (for_inv (fun _ b => b = 0) 0 (M * N)
      (fun i mx => a <- rd m i ;; Ok (if sltb mx a then a else mx)) 0) as (b & E & ->); [lia|reflexivity| |exact E].
    intros k b Hk ->. rewrite (repV_rd _ _ _ _ Hv) by lia. cbn [bind]. apply returns_ok.
    destruct (cell_surj M N k ltac:(lia)) as (i & j & Hi & Hj & ->). rewrite cell_mod, cell_div by exact Hi.
    cbn. rewrite Rltb_false; [reflexivity|]. specialize (H i j Hi Hj). lra.
  - intros (i & j & Hi & Hj & E). specialize (H i j Hi Hj). lra.
Qed.
Print Assumptions C99_get_max_refuted.

Example C24_hypotheses_met :
  repM 1 2 [-1; -2] (fun i j => nth (j * 1 + i) [-1; -2] 0) /\
  (forall i j, (i < 1)%nat -> (j < 2)%nat -> nth (j * 1 + i) [-1; -2] 0 < 0).
Proof.
  split; [apply repM_nth; reflexivity|]. intros i j Hi Hj. destruct i; [|lia].
  destruct j as [|[|]]; [cbn; lra|cbn; lra|lia].
Qed.

(** C25: counting and thresholding. *)
Lemma count_cells M N (P : nat -> nat -> bool) :
  count (M * N) (fun k => P (k mod M) (k / M))%nat = countM M N P.
Proof.
  induction N as [|N IH]; cbn [countM].
  - rewrite Nat.mul_0_r. reflexivity.
  - rewrite <- IH. replace (M * S N)%nat with (M * N + M)%nat by lia.
    assert (K : forall a b Q, count (a + b) Q = (count a Q + count b (fun i => Q (a + i)))%nat).
    { intros a b Q. induction b as [|b IHb]; cbn [count]; [rewrite Nat.add_0_r; lia|].
      rewrite Nat.add_succ_r. cbn [count]. rewrite IHb. lia. }
    assert (X : forall n P Q, (forall i, (i < n)%nat -> P i = Q i) -> count n P = count n Q).
    { intros n A B. induction n as [|n IHn]; intros HH; cbn [count]; [reflexivity|].
      rewrite IHn by (intros; apply HH; lia). rewrite HH by lia. reflexivity. }
    rewrite K. f_equal. apply X. intros i Hi. rewrite (Nat.mul_comm M N), cell_mod, cell_div by exact Hi. reflexivity.
Qed.

Lemma for_count n (P : nat -> bool) (body : nat -> nat -> res nat) :
  (forall i a, (i < n)%nat -> body i a = Ok (if P i then S a else a)) ->
  for_ 0 n body 0%nat = Ok (count n P).
Proof.
  intros Hb. destruct (for_inv (fun k a => a = count k P) 0 n body 0%nat) as (a & E & ->);
    [lia|reflexivity| |exact E].
  intros k a Hk ->. rewrite Hb by lia. apply returns_ok. cbn [count]. destruct (P k); lia.
Qed.

Lemma countM_ext M N P Q : (forall i j, (i < M)%nat -> (j < N)%nat -> P i j = Q i j) -> countM M N P = countM M N Q.
Proof.
  assert (X : forall n P Q, (forall i, (i < n)%nat -> P i = Q i) -> count n P = count n Q).
  { intros n A B. induction n as [|n IHn]; intros HH; cbn [count]; [reflexivity|].
    rewrite IHn by (intros; apply HH; lia). rewrite HH by lia. reflexivity. }
  induction N as [|N IH]; intros H; cbn [countM]; [reflexivity|].
  rewrite IH by (intros; apply H; lia). f_equal. apply X. intros; apply H; lia.
Qed.

Theorem C25_nnz :
  forall (cfg : Cfg) (lim : RLim) (M N : nat) (m : list R) (f : nat -> nat -> R) (t : R),
  repM M N m f ->
  mat_nnz M N m = Ok (countM M N (fun i j => if Req_EM_T (f i j) 0 then false else true)) /\
  mat_nnz_thr M N m t = Ok (countM M N (fun i j => if Rlt_dec t (Rabs (f i j)) then true else false)).
Proof.
  intros cfg lim M N m f t Hm. pose proof (repM_repV_cell M N m f Hm) as Hv. split.
  - unfold mat_nnz. rewrite <- (count_cells M N (fun i j => if Req_EM_T (f i j) 0 then false else true)).
    apply for_count. intros i a Hi. rewrite (repV_rd _ _ _ _ Hv Hi). cbn -[Nat.div Nat.modulo]. unfold Reqb.
    destruct (Req_EM_T (f (i mod M) (i / M))%nat 0); reflexivity.
  - unfold mat_nnz_thr. rewrite <- (count_cells M N (fun i j => if Rlt_dec t (Rabs (f i j)) then true else false)).
    apply for_count. intros i a Hi. rewrite (repV_rd _ _ _ _ Hv Hi). cbn -[Nat.div Nat.modulo]. unfold Rltb.
    destruct (Rlt_dec t (Rabs (f (i mod M) (i / M))%nat)); reflexivity.
Qed.
Print Assumptions C25_nnz.

Theorem C25_threshold :
  forall (cfg : Cfg) (lim : RLim) (M N : nat) (m : list R) (f : nat -> nat -> R) (t : R),
  repM M N m f -> 0 <= t ->
  returns (mat_threshold M N m (SVal t)) (fun r => exists g, repM M N r g /\
    (forall i j, (i < M)%nat -> (j < N)%nat ->
       (g i j = 0 <-> Rabs (f i j) <= t) /\ (t < Rabs (f i j) -> g i j = f i j)) /\
    exists n, mat_nnz M N r = Ok n /\ mat_nnz_thr M N m t = Ok n).
Proof.
  intros cfg lim M N m f t Hm Ht.
  eapply returns_impl; [apply (iter_fill M N m f (fun i j => if Rle_dec (Rabs (f i j)) t then 0 else f i j) _ Hm)|].
  - intros r c m' Hr Hc Hl Hn. cbv beta. rewrite (rd_ok _ _ _ Hn). cbn [bind sref_get]. cbn. unfold Rleb.
    destruct (Rle_dec (Rabs (f r c)) t); [reflexivity|].
    rewrite wr_ok by (rewrite Hl; apply cell_lt; auto). rewrite (upd_same_id _ _ _ Hn). reflexivity.
  - intros r Hr. exists (fun i j => if Rle_dec (Rabs (f i j)) t then 0 else f i j). split; [exact Hr|].
    assert (Z : forall x, t < Rabs x -> x <> 0) by (intros x Hx ->; rewrite Rabs_R0 in Hx; lra).
    split.
    + intros i j Hi Hj. cbv beta. destruct (Rle_dec (Rabs (f i j)) t) as [L|L]; split; try tauto; try lra.
      * split; intros; lra || exfalso; apply (Z (f i j)); lra.
    + destruct (C25_nnz cfg lim M N r _ t Hr) as [E1 _]. destruct (C25_nnz cfg lim M N m f t Hm) as [_ E2].
      eexists. split; [exact E1|]. rewrite E2. f_equal. apply countM_ext. intros i j Hi Hj. cbv beta.
      destruct (Rle_dec (Rabs (f i j)) t) as [L|L]; destruct (Rlt_dec t (Rabs (f i j))) as [L'|L']; try lra.
      * destruct (Req_EM_T 0 0); [reflexivity|lra].
      * destruct (Req_EM_T (f i j) 0) as [E|]; [elim (Z _ L' E)|reflexivity].
Qed.
Print Assumptions C25_threshold.

Example C25_hypotheses_met :
  repM 2 2 [1; -3; 0; 2] (fun i j => nth (j * 2 + i) [1; -3; 0; 2] 0) /\ 0 <= 2 /\
  Rabs 1 <= 2 /\ 2 < Rabs (-3).
Proof.
  split; [apply repM_nth; reflexivity|]. split; [lra|].
  split; unfold Rabs; destruct Rcase_abs; lra.
Qed.
