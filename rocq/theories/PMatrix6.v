(** Properties C92 (laws of the inverse), C93 (Frobenius norm) and C94
    (Kronecker product), all over the reals and stated on the operations. *)
From Verif Require Import PMatrix1 PMatrix2 PMatrix4.
Local Open Scope R_scope.

Section Inv.
Context {cfg : Cfg} {lim : RLim}.

(** inverse() returns any matrix that is known to be a left inverse. *)
Lemma inverse_is n (m inv y i : list R) d tol :
  (2 <= n <= 4)%nat -> length m = (n * n)%nat -> length inv = (n * n)%nat -> length y = (n * n)%nat ->
  mat_det n m = Ok d -> d <> 0 -> tol < Rabs d -> mat_IDENTITY n = Ok i -> mat_mul n n n y m = Ok i ->
  mat_inverse n m inv tol = Ok (true, y).
Proof.
  intros Hn Lm Li Ly Ed Hd Ht Ei Ey. destruct (mat_rep n n m Lm) as (f & Hm).
  assert (D : d = detR n f) by (rewrite (C12_det cfg lim n m f ltac:(lia) Hm) in Ed; injection Ed as <-; reflexivity).
  subst d. destruct (C13_inverse cfg lim n m inv f tol Hn Hm Li) as (A & _).
  destruct A as (x & i' & E & _); [destruct (n =? 2)%nat; lra|exact Hd|].
  rewrite (C13_inverse_unique cfg lim n m inv x y i tol Hn Lm Li Ly E Ei Ey). exact E.
Qed.

(** What success means. *)
Lemma inverse_inv n (m inv x : list R) tol :
  (2 <= n <= 4)%nat -> length m = (n * n)%nat -> length inv = (n * n)%nat ->
  mat_inverse n m inv tol = Ok (true, x) ->
  exists d i, mat_det n m = Ok d /\ d <> 0 /\ (if (n =? 2)%nat then tol <= Rabs d else tol < Rabs d) /\
    mat_IDENTITY n = Ok i /\ length x = (n * n)%nat /\ length i = (n * n)%nat /\
    mat_mul n n n m x = Ok i /\ mat_mul n n n x m = Ok i.
Proof.
  intros Hn Lm Li E. destruct (mat_rep n n m Lm) as (f & Hm).
  destruct (C13_inverse cfg lim n m inv f tol Hn Hm Li) as (A & B & C & _).
  set (acc := if (n =? 2)%nat then tol <= Rabs (detR n f) else tol < Rabs (detR n f)) in *.
  assert (Dec : acc \/ ~ acc).
  { unfold acc. destruct (n =? 2)%nat; [destruct (Rle_dec tol (Rabs (detR n f)))|destruct (Rlt_dec tol (Rabs (detR n f)))]; auto. }
  destruct Dec as [Y|N]; [|destruct (B N) as (z & Ez & _); rewrite Ez in E; discriminate].
  destruct (Req_dec (detR n f) 0) as [Z|NZ]; [rewrite (C Y Z) in E; discriminate|].
  destruct (A Y NZ) as (z & i & Ez & Ei & E1 & E2). rewrite Ez in E. injection E as ->.
  exists (detR n f), i. split; [apply C12_det; [lia|exact Hm]|]. split; [exact NZ|]. split; [exact Y|]. split; [exact Ei|].
  assert (LI : length i = (n * n)%nat).
  { destruct (mat_default_spec n n) as (d0 & E0 & H0). destruct (mat_identity_spec n d0 _ H0) as (i' & Ei' & Hi').
    unfold mat_IDENTITY in Ei. rewrite E0 in Ei. cbn [bind] in Ei. rewrite Ei' in Ei. injection Ei as <-. apply Hi'. }
  destruct (mat_inverse_R n m inv f tol Hn Hm Li) as (_ & H2 & _).
  assert (LX : length x = (n * n)%nat).
  { destruct (accepts n (Rabs (detR n f)) tol) eqn:AC.
    - destruct (H2 eq_refl NZ) as (w & Ew & Hw). rewrite Ez in Ew. injection Ew as <-. apply Hw.
    - destruct (mat_inverse_R n m inv f tol Hn Hm Li) as (_ & _ & H3). destruct (H3 AC) as (w & Ew & _). congruence. }
  repeat (split; [assumption|]). exact E2.
Qed.
End Inv.

(** C92.  Let u be the inverse the library computed for a, v the one for b.
    Then det( u ) = 1 / det( a ), inverting u (a*b, the transpose of a) gives back
    a (v*u, the transpose of u) whenever the tolerance test lets it, and u solves
    linear systems. *)
Theorem C92_inverse_laws :
  forall (cfg : Cfg) (lim : RLim) (n : nat) (a b u v inv w : list R) (tol tol' : R),
  (2 <= n <= 4)%nat -> length a = (n * n)%nat -> length b = (n * n)%nat -> length inv = (n * n)%nat -> length w = n ->
  mat_inverse n a inv tol = Ok (true, u) -> mat_inverse n b inv tol = Ok (true, v) ->
  (exists d, mat_det n a = Ok d /\ d <> 0 /\ mat_det n u = Ok (/ d) /\
     (tol' < / Rabs d -> mat_inverse n u inv tol' = Ok (true, a))) /\
  (exists ta tu, mat_transpose n n a = Ok ta /\ mat_transpose n n u = Ok tu /\
     (forall d, mat_det n a = Ok d -> tol' < Rabs d -> mat_inverse n ta inv tol' = Ok (true, tu))) /\
  (exists ab vu d, mat_mul n n n a b = Ok ab /\ mat_mul n n n v u = Ok vu /\ mat_det n ab = Ok d /\ d <> 0 /\
     (tol' < Rabs d -> mat_inverse n ab inv tol' = Ok (true, vu))) /\
  (exists s, mat_mul_vec n n u w = Ok s /\ mat_mul_vec n n a s = Ok w /\
     forall s', length s' = n -> mat_mul_vec n n a s' = Ok w -> s' = s).
Proof.
  intros cfg lim n a b u v inv w tol tol' Hn La Lb Li Lw Ea Eb.
  destruct (inverse_inv n a inv u tol Hn La Li Ea) as (da & i & Da & NZa & _ & Ei & Lu & Lid & Aau & Aua).
  destruct (inverse_inv n b inv v tol Hn Lb Li Eb) as (db & i' & Db & NZb & _ & Ei' & Lv & _ & Abv & Avb).
  rewrite Ei in Ei'. injection Ei' as <-.
  assert (DU : mat_det n u = Ok (/ da)).
  { destruct (C12_det_laws cfg lim n a u ltac:(lia) La Lu) as (_ & (au & x & y & E1 & E2 & E3 & E4) & (i2 & E5 & E6) & _).
    rewrite Aau in E1. injection E1 as <-. rewrite Ei in E5. injection E5 as <-. rewrite E6 in E4. injection E4 as E4.
    rewrite Da in E2. injection E2 as <-. rewrite E3. f_equal. apply Rmult_eq_reg_l with da; [|exact NZa].
    rewrite Rinv_r by exact NZa. lra. }
  split; [|split; [|split]].
  - exists da. repeat (split; [assumption|]). intros Ht.
    apply (inverse_is n u inv a i (/ da)); auto; [apply Rinv_neq_0_compat; exact NZa|].
    rewrite Rabs_inv. exact Ht.
  - destruct (C07_transpose_product cfg lim n n n a u La Lu) as (ab & ta & tu & t & E1 & E2 & E3 & E4 & E5).
    exists ta, tu. split; [exact E2|]. split; [exact E3|]. intros d Hd Ht. rewrite Aau in E1. injection E1 as <-.
    rewrite Da in Hd. injection Hd as <-.
    destruct (C12_det_laws cfg lim n a a ltac:(lia) La La) as ((t0 & d0 & T1 & T2 & T3) & _).
    rewrite T1 in E2. injection E2 as ->. rewrite Da in T3. injection T3 as <-.
    assert (Lta : length ta = (n * n)%nat /\ length tu = (n * n)%nat /\ t = i).
    { destruct (mat_rep n n a La) as (f & Ha). destruct (mat_rep n n u Lu) as (g & Hu).
      destruct (mat_transpose_spec n n a f Ha) as (p & P1 & P2). rewrite T1 in P1. injection P1 as <-.
      destruct (mat_transpose_spec n n u g Hu) as (q & Q1 & Q2). rewrite E3 in Q1. injection Q1 as <-.
      split; [apply P2|]. split; [apply Q2|].
      assert (Hi : repM n n i idR).
      { destruct (mat_default_spec n n) as (d0 & F0 & H0). destruct (mat_identity_spec n d0 _ H0) as (i2 & Ei2 & Hi2).
        unfold mat_IDENTITY in Ei. rewrite F0 in Ei. cbn [bind] in Ei. rewrite Ei2 in Ei. injection Ei as <-. exact Hi2. }
      destruct (mat_transpose_spec n n i _ Hi) as (r & R1 & R2). rewrite E4 in R1. injection R1 as <-.
      eapply repM_inj; [exact R2|]. eapply repM_ext; [exact Hi|]. intros x y Hx Hy. unfold idR.
      rewrite Nat.eqb_sym. reflexivity. }
    destruct Lta as (Lta & Ltu & ->). exact (inverse_is n ta inv tu i da tol' Hn Lta Li Ltu T2 NZa Ht Ei E5).
  - destruct (C12_det_laws cfg lim n a b ltac:(lia) La Lb) as (_ & (ab & x & y & E1 & E2 & E3 & E4) & _).
    rewrite Da in E2. injection E2 as <-. rewrite Db in E3. injection E3 as <-.
    destruct (mat_rep n n v Lv) as (fv & Hv). destruct (mat_rep n n u Lu) as (fu & Hu).
    destruct (mat_rep n n a La) as (fa & Ha). destruct (mat_rep n n b Lb) as (fb & Hb).
    destruct (mat_mul_R n n n v u _ _ Hv Hu) as (vu & Evu & Hvu).
    assert (NZ : da * db <> 0) by (apply Rmult_integral_contrapositive_currified; assumption).
    exists ab, vu, (da * db). split; [exact E1|]. split; [exact Evu|]. split; [exact E4|]. split; [exact NZ|]. intros Ht.
    assert (Lab : length ab = (n * n)%nat).
    { destruct (mat_mul_R n n n a b _ _ Ha Hb) as (ab' & Eab & Hab). rewrite E1 in Eab. injection Eab as <-. apply Hab. }
    apply (inverse_is n ab inv vu i (da * db)); auto; [apply Hvu|].
    (* (v u)(a b) = v (u a) b = v b = 1 *)
    destruct (C08_product_laws cfg lim n n n n v u ab u Lv Lu Lab Lu) as ((vu' & uab & r & F1 & F2 & F3 & F4) & _).
    rewrite Evu in F1. injection F1 as <-. rewrite F3.
    destruct (C08_product_laws cfg lim n n n n u a b a Lu La Lb La) as ((ua & ab' & r2 & G1 & G2 & G3 & G4) & _).
    rewrite Aua in G1. injection G1 as <-. rewrite E1 in G2. injection G2 as <-. rewrite F2 in G4. injection G4 as <-.
    destruct (C08_product_laws cfg lim n n n n b b b b Lb Lb Lb Lb) as (_ & (i2 & I1 & I2) & _).
    rewrite Ei in I1. injection I1 as <-. rewrite I2 in G3. injection G3 as <-. rewrite Avb in F4. injection F4 as <-. reflexivity.
  - destruct (C15_linear cfg lim n n n a u w w w 0 La Lu Lw Lw Lw) as ((au & s & r & E1 & E2 & E3 & E4) & _ & _ & (i2 & I1 & I2)).
    rewrite Ei in I1. injection I1 as <-. rewrite Aau in E1. injection E1 as <-. rewrite I2 in E3. injection E3 as <-.
    exists s. split; [exact E2|]. split; [exact E4|]. intros s' Ls' Es'.
    destruct (C15_linear cfg lim n n n u a s' s' s' 0 Lu La Ls' Ls' Ls') as ((ua & w' & r' & F1 & F2 & F3 & F4) & _ & _ & (i3 & J1 & J2)).
    rewrite Ei in J1. injection J1 as <-. rewrite Aua in F1. injection F1 as <-. rewrite J2 in F3. injection F3 as <-.
    rewrite Es' in F2. injection F2 as <-. rewrite E2 in F4. injection F4 as <-. reflexivity.
Qed.
Print Assumptions C92_inverse_laws.
Example C92_hypotheses_met :
  forall (cfg : Cfg) (lim : RLim), exists u, mat_inverse 2 [2; 0; 0; 3] [0; 0; 0; 0] 1 = Ok (true, u).
Proof.
  intros cfg lim. destruct (C13_inverse cfg lim 2 [2; 0; 0; 3] [0; 0; 0; 0] _ 1 ltac:(lia)
    (repM_nth 2 2 [2; 0; 0; 3] 0 eq_refl) eq_refl) as (A & _).
  cbv zeta in A. rewrite detR_2 in A. cbn -[IZR mat_inverse mat_IDENTITY mat_mul] in A.
  destruct A as (x & i & E & _); [rewrite Rabs_pos_eq; lra|lra|]. exists x; exact E.
Qed.

(** C93.  frobenius_norm() is a norm, is submultiplicative, does not change under
    transposition or multiplication by an orthogonal matrix. *)
Definition frobR (M N : nat) (f : nat -> nat -> R) : R := sqrt (rsumM M N (fun i j => f i j * f i j)).

Lemma rsumM_swap M N f : rsumM M N f = rsumM N M (fun i j => f j i).
Proof. unfold rsumM. apply rsum_swap. Qed.
Lemma rsumM_ext M N f g : (forall i j, (i < M)%nat -> (j < N)%nat -> f i j = g i j) -> rsumM M N f = rsumM M N g.
Proof. intros H. apply rsum_ext. intros i Hi. apply rsum_ext. intros j Hj. auto. Qed.
Lemma frobR_ext M N f g : (forall i j, (i < M)%nat -> (j < N)%nat -> f i j = g i j) -> frobR M N f = frobR M N g.
Proof. intros H. unfold frobR. f_equal. apply rsumM_ext. intros i j Hi Hj. rewrite H by assumption. reflexivity. Qed.
Lemma frobR_len M N f : frobR M N f = lenR (M * N) (fun k => f (k mod M)%nat (k / M)%nat).
Proof. unfold frobR, lenR, dotR. f_equal. symmetry. apply (rsum_cells M N (fun i j => f i j * f i j)). Qed.
Lemma frobR_sq M N f : frobR M N f * frobR M N f = rsumM M N (fun i j => f i j * f i j).
Proof.
  unfold frobR. apply sqrt_sqrt. apply rsum_nonneg. intros i _. apply rsum_nonneg. intros j _. nra.
Qed.
Lemma frobR_nonneg M N f : 0 <= frobR M N f.
Proof. apply sqrt_pos. Qed.
Lemma sq_le_le x y : 0 <= x -> 0 <= y -> x * x <= y * y -> x <= y.
Proof. intros. nra. Qed.
Lemma sq_eq_eq x y : 0 <= x -> 0 <= y -> x * x = y * y -> x = y.
Proof. intros. nra. Qed.

Lemma frobR_mul M N P f g : frobR M P (mmulR N f g) <= frobR M N f * frobR N P g.
Proof.
  pose proof (frobR_nonneg M N f) as H1. pose proof (frobR_nonneg N P g) as H2.
  apply sq_le_le; [apply frobR_nonneg|apply Rmult_le_pos; assumption|].
  replace (frobR M N f * frobR N P g * (frobR M N f * frobR N P g))
    with ((frobR M N f * frobR M N f) * (frobR N P g * frobR N P g)) by ring.
  rewrite !frobR_sq. rewrite (rsumM_swap N P (fun i j => g i j * g i j)).
  unfold rsumM at 2. rewrite <- rsum_scal_r. unfold rsumM at 1. apply rsum_le. intros i _.
  unfold rsumM. rewrite <- rsum_scal. apply rsum_le. intros j _. unfold mmulR.
  apply (dotR_cs N (fun p => f i p) (fun p => g p j)).
Qed.
Lemma frobR_orth M N q f : (forall i j, (i < M)%nat -> (j < M)%nat -> mmulR M (fun a b => q b a) q i j = idR i j) ->
  frobR M N (mmulR M q f) = frobR M N f.
Proof.
  intros Hq. apply sq_eq_eq; try apply frobR_nonneg. rewrite !frobR_sq.
  rewrite (rsumM_swap M N (fun i j => f i j * f i j)), (rsumM_swap M N). unfold rsumM. apply rsum_ext. intros j _.
  (* sum_i (Qf)_ij^2 = sum_i sum_a sum_b q_ia f_aj q_ib f_bj *)
  unfold mmulR.
  transitivity (rsum M (fun a => rsum M (fun b => f a j * f b j * mmulR M (fun a b => q b a) q a b))).
  - transitivity (rsum M (fun i => rsum M (fun a => rsum M (fun b => f a j * f b j * (q i a * q i b))))).
    + apply rsum_ext. intros i _. rewrite <- rsum_scal_r. apply rsum_ext. intros a _.
      rewrite <- rsum_scal. apply rsum_ext. intros b _. ring.
    + rewrite rsum_swap. apply rsum_ext. intros a _. rewrite rsum_swap. apply rsum_ext. intros b _.
      unfold mmulR. rewrite <- rsum_scal. reflexivity.
  - apply rsum_ext. intros a Ha. rewrite (rsum_single M a); [|exact Ha|].
    2:{ intros b Hb Hne. rewrite Hq by assumption. unfold idR. destruct (Nat.eqb_spec a b); [congruence|ring]. }
    rewrite Hq by assumption. unfold idR. rewrite Nat.eqb_refl. ring.
Qed.

Theorem C93_frobenius_laws :
  forall (cfg : Cfg) (lim : RLim) (M N P : nat) (a b c : list R) (k : R),
  length a = (M * N)%nat -> length b = (M * N)%nat -> length c = (N * P)%nat ->
  exists na nb nc s ns ka nka t nt ac nac,
  mat_frobenius M N a = Ok na /\ mat_frobenius M N b = Ok nb /\ mat_frobenius N P c = Ok nc /\
  mat_add M N a b = Ok s /\ mat_frobenius M N s = Ok ns /\
  mat_mul_s M N a k = Ok ka /\ mat_frobenius M N ka = Ok nka /\
  mat_transpose M N a = Ok t /\ mat_frobenius N M t = Ok nt /\
  mat_mul M N P a c = Ok ac /\ mat_frobenius M P ac = Ok nac /\
  0 <= na /\ (na = 0 <-> forall x, In x a -> x = 0) /\
  ns <= na + nb /\ nka = Rabs k * na /\ nt = na /\ nac <= na * nc.
Proof.
  intros cfg lim M N P a b c k La Lb Lc.
  destruct (mat_rep M N a La) as (f & Ha). destruct (mat_rep M N b Lb) as (g & Hb). destruct (mat_rep N P c Lc) as (h & Hc).
  assert (F : forall M N m f, repM M N m f -> mat_frobenius M N m = Ok (frobR M N f)).
  { intros M0 N0 m f0 H. exact (proj2 (C23_sum_elements cfg lim M0 N0 m f0 H)). }
  destruct (mat_iter_zip_spec M N sadd a (Val b) f g Ha Hb) as (s & Es & Hs).
  destruct (mat_map_s_spec M N (fun x => Ok (smul x k)) a f (fun i j => k * f i j) Ha) as (ka & Ek & Hk).
  { intros i j Hi Hj. cbn. rewrite Rmult_comm. reflexivity. }
  destruct (mat_transpose_spec M N a f Ha) as (t & Et & Ht).
  destruct (mat_mul_R M N P a c f h Ha Hc) as (ac & Eac & Hac).
  exists (frobR M N f), (frobR M N g), (frobR N P h), s, (frobR M N (fun i j => f i j + g i j)), ka,
    (frobR M N (fun i j => k * f i j)), t, (frobR N M (fun i j => f j i)), ac, (frobR M P (mmulR N f h)).
  split; [apply F; exact Ha|]. split; [apply F; exact Hb|]. split; [apply F; exact Hc|].
  split; [exact Es|]. split; [apply F; exact Hs|]. split; [exact Ek|]. split; [apply F; exact Hk|].
  split; [exact Et|]. split; [apply F; exact Ht|]. split; [exact Eac|]. split; [apply F; exact Hac|].
  split; [apply frobR_nonneg|]. split; [|split; [|split; [|split]]].
  - rewrite frobR_len. pose proof (repM_repV_cell M N a f Ha) as Hv. split; intros H.
    + intros x Hx. apply In_nth_error in Hx as (i & Hi).
      assert (Hlt : (i < M * N)%nat) by (rewrite <- La; apply nth_error_Some; congruence).
      pose proof (proj2 Hv i Hlt) as E. rewrite Hi in E. injection E as ->.
      exact (lenR_zero (M * N) _ H i Hlt).
    + rewrite (lenR_ext _ _ (fun _ => 0 * 0)).
      * rewrite lenR_scal. rewrite Rabs_R0. ring.
      * intros i Hi. rewrite (H (f (i mod M)%nat (i / M)%nat)); [ring|].
        apply nth_error_In with i. exact (proj2 Hv i Hi).
  - rewrite !frobR_len. apply (lenR_triangle (M * N) (fun k => f (k mod M)%nat (k / M)%nat) (fun k => g (k mod M)%nat (k / M)%nat)).
  - rewrite !frobR_len. apply (lenR_scal (M * N) k (fun k => f (k mod M)%nat (k / M)%nat)).
  - unfold frobR. f_equal. symmetry. apply (rsumM_swap M N (fun i j => f i j * f i j)).
  - apply frobR_mul.
Qed.
Print Assumptions C93_frobenius_laws.

Theorem C93_frobenius_orthogonal :
  forall (cfg : Cfg) (lim : RLim) (M N : nat) (q qt i a : list R),
  length q = (M * M)%nat -> length a = (M * N)%nat ->
  mat_transpose M M q = Ok qt -> mat_IDENTITY M = Ok i -> mat_mul M M M qt q = Ok i ->
  exists qa na, mat_mul M M N q a = Ok qa /\ mat_frobenius M N a = Ok na /\ mat_frobenius M N qa = Ok na.
Proof.
  intros cfg lim M N q qt i a Lq La Et Ei Eq.
  destruct (mat_rep M M q Lq) as (fq & Hq). destruct (mat_rep M N a La) as (f & Ha).
  destruct (mat_transpose_spec M M q fq Hq) as (t & E & Ht). rewrite Et in E. injection E as <-.
  destruct (mat_mul_R M M M qt q _ _ Ht Hq) as (p & Ep & Hp). rewrite Eq in Ep. injection Ep as <-.
  assert (Hi : repM M M i idR).
  { destruct (mat_default_spec M M) as (d0 & F0 & H0). destruct (mat_identity_spec M d0 _ H0) as (i2 & Ei2 & Hi2).
    unfold mat_IDENTITY in Ei. rewrite F0 in Ei. cbn [bind] in Ei. rewrite Ei2 in Ei. injection Ei as <-. exact Hi2. }
  destruct (mat_mul_R M M N q a _ _ Hq Ha) as (qa & Eqa & Hqa).
  exists qa, (frobR M N f). split; [exact Eqa|].
  split; [exact (proj2 (C23_sum_elements cfg lim M N a f Ha))|].
  rewrite (proj2 (C23_sum_elements cfg lim M N qa _ Hqa)). f_equal. apply frobR_orth.
  intros x y Hx Hy. exact (repM_fun _ _ _ _ _ Hp Hi x y Hx Hy).
Qed.
Print Assumptions C93_frobenius_orthogonal.
Example C93_hypotheses_met : forall (cfg : Cfg) (lim : RLim), exists qt i,
  mat_transpose 2 2 [0; 1; -1; 0] = Ok qt /\ mat_IDENTITY 2 = Ok i /\ mat_mul 2 2 2 qt [0; 1; -1; 0] = Ok i.
Proof.
  intros cfg lim. destruct (C07_transpose cfg R RScalar 2 2 [0; 1; -1; 0] _ (repM_nth 2 2 [0; 1; -1; 0] 0 eq_refl)) as (qt & E & H & _).
  destruct (mat_default_spec 2 2) as (d0 & F0 & H0). destruct (mat_identity_spec 2 d0 _ H0) as (i & Ei & Hi).
  exists qt, i. split; [exact E|]. split; [unfold mat_IDENTITY; rewrite F0; exact Ei|].
  destruct (mat_mul_R 2 2 2 qt [0; 1; -1; 0] _ _ H (repM_nth 2 2 [0; 1; -1; 0] 0 eq_refl)) as (p & -> & Hp). f_equal.
  eapply repM_inj; [exact Hp|]. eapply repM_ext; [exact Hi|]. intros x y Hx Hy.
  destruct x as [|[|]], y as [|[|]]; try lia; cbn; lra.
Qed.

(** C94.  Laws of the Kronecker product: mixed product, transpose, identity,
    Frobenius norm.  The result matrices are passed with arbitrary content. *)
Theorem C94_kronecker_laws :
  forall (cfg : Cfg) (lim : RLim) (M N L O P Q : nat) (a b c d r1 r2 r3 : list R),
  length a = (M * N)%nat -> length b = (O * P)%nat -> length c = (N * L)%nat -> length d = (P * Q)%nat ->
  length r1 = (M * O * (N * P))%nat -> length r2 = (N * P * (L * Q))%nat -> length r3 = (M * O * (L * Q))%nat ->
  exists ab cd ac bd x,
  mat_kronecker M N O P a b r1 = Ok ab /\ mat_kronecker N L P Q c d r2 = Ok cd /\
  mat_mul M N L a c = Ok ac /\ mat_mul O P Q b d = Ok bd /\
  mat_mul (M * O) (N * P) (L * Q) ab cd = Ok x /\ mat_kronecker M L O Q ac bd r3 = Ok x.
Proof.
  intros cfg lim M N L O P Q a b c d r1 r2 r3 La Lb Lc Ld L1 L2 L3.
  destruct (mat_rep M N a La) as (fa & Ha). destruct (mat_rep O P b Lb) as (fb & Hb).
  destruct (mat_rep N L c Lc) as (fc & Hc). destruct (mat_rep P Q d Ld) as (fd & Hd).
  destruct (mat_kronecker_spec M N O P a fa b fb r1 Ha Hb L1) as (ab & Eab & Hab).
  destruct (mat_kronecker_spec N L P Q c fc d fd r2 Hc Hd L2) as (cd & Ecd & Hcd).
  destruct (mat_mul_R M N L a c fa fc Ha Hc) as (ac & Eac & Hac).
  destruct (mat_mul_R O P Q b d fb fd Hb Hd) as (bd & Ebd & Hbd).
  destruct (mat_mul_R _ _ _ ab cd _ _ Hab Hcd) as (x & Ex & Hx).
  destruct (mat_kronecker_spec M L O Q ac _ bd _ r3 Hac Hbd L3) as (y & Ey & Hy).
  exists ab, cd, ac, bd, x. repeat (split; [assumption|]). rewrite Ey. f_equal.
  eapply repM_inj; [exact Hy|]. eapply repM_ext; [exact Hx|]. intros i j Hi Hj.
  cbn [smul RScalar]. unfold mmulR.
  rewrite (Nat.mul_comm N P).
  rewrite (rsum_cells P N (fun p n => fa (i / O)%nat n * fb (i mod O)%nat p * (fc n (j / Q)%nat * fd p (j mod Q)%nat))).
  rewrite rsumM_swap. unfold rsumM. rewrite <- rsum_scal_r. apply rsum_ext. intros n _.
  rewrite <- rsum_scal. apply rsum_ext. intros p _. ring.
Qed.
Print Assumptions C94_kronecker_laws.

Theorem C94_kronecker_transpose :
  forall (cfg : Cfg) (T : Type) (ST : Scalar T) (M N O P : nat) (a b r1 r2 : list T),
  length a = (M * N)%nat -> length b = (O * P)%nat ->
  length r1 = (M * O * (N * P))%nat -> length r2 = (N * P * (M * O))%nat ->
  exists ab ta tb x, mat_kronecker M N O P a b r1 = Ok ab /\ mat_transpose M N a = Ok ta /\ mat_transpose O P b = Ok tb /\
    mat_transpose (M * O) (N * P) ab = Ok x /\ mat_kronecker N M P O ta tb r2 = Ok x.
Proof.
  intros cfg T ST M N O P a b r1 r2 La Lb L1 L2.
  destruct (mat_rep M N a La) as (fa & Ha). destruct (mat_rep O P b Lb) as (fb & Hb).
  destruct (mat_kronecker_spec M N O P a fa b fb r1 Ha Hb L1) as (ab & Eab & Hab).
  destruct (mat_transpose_spec M N a fa Ha) as (ta & Eta & Hta). destruct (mat_transpose_spec O P b fb Hb) as (tb & Etb & Htb).
  destruct (mat_transpose_spec _ _ ab _ Hab) as (x & Ex & Hx).
  destruct (mat_kronecker_spec N M P O ta _ tb _ r2 Hta Htb L2) as (y & Ey & Hy).
  exists ab, ta, tb, x. repeat (split; [assumption|]). rewrite Ey. f_equal. exact (repM_inj _ _ _ _ _ Hy Hx).
Qed.
Print Assumptions C94_kronecker_transpose.

Theorem C94_kronecker_norm_identity :
  forall (cfg : Cfg) (lim : RLim) (M N O P : nat) (a b r1 r2 : list R),
  length a = (M * N)%nat -> length b = (O * P)%nat -> length r1 = (M * O * (N * P))%nat -> length r2 = (M * O * (M * O))%nat ->
  (exists ab na nb, mat_kronecker M N O P a b r1 = Ok ab /\ mat_frobenius M N a = Ok na /\ mat_frobenius O P b = Ok nb /\
     mat_frobenius (M * O) (N * P) ab = Ok (na * nb)) /\
  (exists i1 i2 i, mat_IDENTITY M = Ok i1 /\ mat_IDENTITY O = Ok i2 /\ mat_IDENTITY (M * O) = Ok i /\
     mat_kronecker M M O O i1 i2 r2 = Ok i).
Proof.
  intros cfg lim M N O P a b r1 r2 La Lb L1 L2.
  assert (ID : forall n, exists i, mat_IDENTITY n = Ok i /\ repM n n i idR).
  { intros n. destruct (mat_default_spec n n) as (d0 & E0 & H0).
    destruct (mat_identity_spec n d0 _ H0) as (i & Ei & Hi). exists i. unfold mat_IDENTITY. rewrite E0. split; [exact Ei|exact Hi]. }
  split.
  - destruct (mat_rep M N a La) as (fa & Ha). destruct (mat_rep O P b Lb) as (fb & Hb).
    destruct (mat_kronecker_spec M N O P a fa b fb r1 Ha Hb L1) as (ab & Eab & Hab).
    exists ab, (frobR M N fa), (frobR O P fb). split; [exact Eab|].
    split; [exact (proj2 (C23_sum_elements cfg lim M N a fa Ha))|].
    split; [exact (proj2 (C23_sum_elements cfg lim O P b fb Hb))|].
    rewrite (proj2 (C23_sum_elements cfg lim _ _ ab _ Hab)). f_equal.
    apply sq_eq_eq; [apply sqrt_pos|apply Rmult_le_pos; apply frobR_nonneg|].
    fold (frobR (M * O) (N * P) (fun i j => smul (fa (i / O)%nat (j / P)%nat) (fb (i mod O)%nat (j mod P)%nat))).
    replace (frobR M N fa * frobR O P fb * (frobR M N fa * frobR O P fb)) with
      ((frobR M N fa * frobR M N fa) * (frobR O P fb * frobR O P fb)) by ring.
    rewrite !frobR_sq. unfold rsumM at 1. cbn [smul RScalar].
    transitivity (rsum (M * O) (fun i => rsum P (fun p => rsum N (fun n =>
       fa (i / O)%nat n * fa (i / O)%nat n * (fb (i mod O)%nat p * fb (i mod O)%nat p))))).
    { apply rsum_ext. intros i _. rewrite (Nat.mul_comm N P).
      etransitivity; [|exact (rsum_cells P N (fun p n => fa (i / O)%nat n * fa (i / O)%nat n * (fb (i mod O)%nat p * fb (i mod O)%nat p)))].
      apply rsum_ext. intros j _. ring. }
    rewrite (Nat.mul_comm M O).
    rewrite (rsum_cells O M (fun o m => rsum P (fun p => rsum N (fun n => fa m n * fa m n * (fb o p * fb o p))))).
    rewrite rsumM_swap. unfold rsumM. rewrite <- rsum_scal_r. apply rsum_ext. intros m _.
    rewrite <- rsum_scal. apply rsum_ext. intros o _. rewrite <- rsum_scal. apply rsum_ext. intros p _.
    rewrite <- rsum_scal_r. reflexivity.
  - destruct (ID M) as (i1 & E1 & H1). destruct (ID O) as (i2 & E2 & H2). destruct (ID (M * O)%nat) as (i & E & H).
    exists i1, i2, i. repeat (split; [assumption|]).
    destruct (mat_kronecker_spec M M O O i1 _ i2 _ r2 H1 H2 L2) as (y & -> & Hy). f_equal.
    eapply repM_inj; [exact Hy|]. eapply repM_ext; [exact H|]. intros x y0 Hx Hy0. cbn [smul RScalar]. unfold idR.
    assert (HO : O <> 0%nat) by lia.
    pose proof (Nat.div_mod x O HO) as D1. pose proof (Nat.div_mod y0 O HO) as D2.
    destruct (Nat.eqb_spec x y0) as [->|Hne]; [rewrite !Nat.eqb_refl; ring|].
    destruct (Nat.eqb_spec (x / O) (y0 / O)) as [Ed|Ed]; [|ring].
    destruct (Nat.eqb_spec (x mod O) (y0 mod O)) as [Em|Em]; [|ring]. exfalso. apply Hne. rewrite D1, D2, Ed, Em. reflexivity.
Qed.
Print Assumptions C94_kronecker_norm_identity.
Example C94_hypotheses_met : length [1; 2; 3; 4; 5; 6]%R = (2 * 3)%nat /\ length (repeat 0 24) = (2 * 4 * (3 * 1))%nat.
Proof. split; reflexivity. Qed.
