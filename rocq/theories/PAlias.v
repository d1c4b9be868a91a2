(** Property C84: what happens when an output object is also an input, or a
    reference parameter refers to an element of the object being written. *)
From Verif Require Export MAlias LMat7 PMatrix2 PMatrix4.
Local Open Scope R_scope.

Ltac dlen l H :=
  lazymatch type of H with
  | length l = ?k =>
      repeat (destruct l as [|? l]; [discriminate H|]); destruct l; [|discriminate H]; clear H
  end.

(** transpose_to() into the matrix itself copies the upper triangle onto the
    lower one, for every size, element type and contents... *)
Theorem C84_transpose_in_place_refuted :
  forall (cfg : Cfg) (T : Type) (ST : Scalar T) (n : nat) (m : list T) (f : nat -> nat -> T),
  repM n n m f ->
  returns (mat_transpose_to_self n m) (fun r =>
    repM n n r (fun i j => f (Nat.min i j) (Nat.max i j)) /\
    (* ... so it is the transpose exactly if the matrix was symmetric *)
    (mat_transpose n n m = Ok r <-> forall i j, (i < n)%nat -> (j < n)%nat -> f i j = f j i)).
Proof.
  intros cfg T ST n m f Hm.
  set (g := fun i j => f (Nat.min i j) (Nat.max i j)).
  assert (H : returns (mat_transpose_to_self n m) (fun r => repM n n r g)).
  { unfold mat_transpose_to_self.
    apply (fill2_cr_all n n m f g (fun r c m => x <- mat_at n n m r c ;; mat_put n n m c r x) Hm).
    intros i j l' Hi Hj Hl'. rewrite (mat_at_ok n n l' _ j i Hl' Hj Hi). cbn [bind].
    rewrite mat_put_ok by assumption. f_equal. unfold g.
    destruct (Nat.ltb_spec i j).
    - cbn [orb]. f_equal; lia.
    - destruct (Nat.eqb_spec i j); destruct (Nat.ltb_spec j i); cbn [orb andb]; try lia; f_equal; lia. }
  destruct H as (r & E & Hr). exists r. split; [exact E|]. split; [exact Hr|].
  destruct (mat_transpose_spec n n m f Hm) as (t & Et & Ht). split.
  - intros E2 i j Hi Hj. rewrite Et in E2. injection E2 as ->.
    pose proof (repM_fun _ _ _ _ _ Ht Hr) as Q. unfold g in Q.
    destruct (Nat.le_gt_cases i j).
    + pose proof (Q i j Hi Hj) as Q1. rewrite Nat.min_l, Nat.max_r in Q1 by lia. symmetry; exact Q1.
    + pose proof (Q j i Hj Hi) as Q1. rewrite Nat.min_l, Nat.max_r in Q1 by lia. exact Q1.
  - intros S. rewrite Et. f_equal. eapply repM_inj; [exact Ht|]. eapply repM_ext; [exact Hr|].
    intros i j Hi Hj. cbv beta. unfold g.
    destruct (Nat.le_gt_cases i j); [rewrite Nat.min_l, Nat.max_r by lia|rewrite Nat.min_r, Nat.max_l by lia; reflexivity].
    apply S; assumption.
Qed.
Print Assumptions C84_transpose_in_place_refuted.

(** symmetric_covariance() into the (2 x 2) matrix itself: the off-diagonal
    entry uses the overwritten cell (0,0). *)
Theorem C84_covariance_in_place_refuted :
  forall (cfg : Cfg) (lim : RLim) (m : list R) (f : nat -> nat -> R),
  repM 2 2 m f ->
  let n0 := f 0%nat 0%nat * f 0%nat 0%nat + f 0%nat 1%nat * f 0%nat 1%nat in
  returns (mat_sym_cov_self 2 m) (fun r => exists g, repM 2 2 r g /\
    g 0%nat 0%nat = n0 /\
    g 0%nat 1%nat = n0 * f 1%nat 0%nat + f 0%nat 1%nat * f 1%nat 1%nat /\
    g 1%nat 0%nat = g 0%nat 1%nat /\
    (* right exactly if f00^2 + f01^2 = f00 or f10 = 0 *)
    (g 0%nat 1%nat = f 0%nat 0%nat * f 1%nat 0%nat + f 0%nat 1%nat * f 1%nat 1%nat <->
     n0 = f 0%nat 0%nat \/ f 1%nat 0%nat = 0)).
Proof.
  intros cfg lim m f Hm n0. lit Hm. unfold mat_sym_cov_self.
  eexists. split.
  - unfold mat_at, mat_put. cbn -[IZR Rplus Rminus Rmult Ropp]. reflexivity.
  - eexists. split; [apply (repM_nth 2 2 _ 0); reflexivity|].
    cbn -[IZR Rplus Rminus Rmult Ropp]. unfold n0.
    split; [ring|]. split; [ring|]. split; [reflexivity|]. split.
    + intros E. destruct (Req_dec (f 1%nat 0%nat) 0); [right; assumption|left].
      apply (Rmult_eq_reg_r (f 1%nat 0%nat)); [lra|assumption].
    + intros [E|E]; [rewrite <- E at 3; ring|rewrite E; ring].
Qed.
Print Assumptions C84_covariance_in_place_refuted.

Lemma IDENTITY_rep (cfg : Cfg) (lim : RLim) (n : nat) (i : list R) : mat_IDENTITY n = Ok i -> repM n n i idR.
Proof.
  intros Ei. destruct (mat_default_spec n n) as (d0 & E0 & H0). destruct (mat_identity_spec n d0 _ H0) as (i' & Ei' & Hi').
  unfold mat_IDENTITY in Ei. rewrite E0 in Ei. cbn [bind] in Ei. rewrite Ei' in Ei. injection Ei as <-. exact Hi'.
Qed.

(** m.inverse( m ), 2 x 2, for the matrix with rows (a b) and (c d). *)
Theorem C84_inverse2_in_place_refuted :
  forall (cfg : Cfg) (lim : RLim) (a b c d tol : R),
  let det := a * d - b * c in
  det <> 0 -> tol <= Rabs det ->
  mat_inverse_self 2 [a; c; b; d] tol = Ok (true, [d / det; - c / det; c / det; d / det]) /\
  (forall i, mat_IDENTITY 2 = Ok i ->
     (mat_mul 2 2 2 [a; c; b; d] [d / det; - c / det; c / det; d / det] = Ok i <-> a = d /\ b = - c)).
Proof.
  intros cfg lim a b c d tol det D Htol. split.
  - unfold mat_inverse_self, mat_inverse2.
    assert (E : mat_det2 (argl [a; c; b; d] Self) = Ok det).
    { unfold mat_det2, mat_at. cbn -[IZR Rplus Rminus Rmult Ropp]. reflexivity. }
    rewrite E. cbn [bind].
    replace (sltb (sabs det) tol) with false
      by (symmetry; cbn; unfold Rltb; destruct (Rlt_dec (Rabs det) tol); [lra|reflexivity]).
    change (@sone R _) with 1. rewrite sdiv_R by exact D. cbn [bind].
    unfold mat_get_adjugate, mat_get_cofactors, mat_get_minor, mat_transpose, mat_transpose_to, mat_default, mat_assign,
      mat_mul_assign_s, mat_map_assign_s, mat_fill_rc, mat_at, mat_put.
    cbn -[IZR Rplus Rminus Rmult Ropp Rdiv Rinv].
    apply f_equal. apply f_equal. unfold Rdiv. repeat (apply (f_equal2 (@cons R)); [ring|]); try reflexivity.
  - intros i Ei. pose proof (IDENTITY_rep cfg lim 2 i Ei) as Hi'.
    set (x := [d / det; - c / det; c / det; d / det]).
    destruct (mat_mul_R 2 2 2 [a; c; b; d] x _ _ (repM_nth 2 2 [a; c; b; d] 0 eq_refl) (repM_nth 2 2 x 0 eq_refl))
      as (p & Ep & Hp).
    rewrite Ep. split.
    + intros E. injection E as ->. pose proof (repM_fun _ _ _ _ _ Hp Hi') as Q.
      pose proof (Q 0%nat 0%nat ltac:(lia) ltac:(lia)) as Q00.
      pose proof (Q 0%nat 1%nat ltac:(lia) ltac:(lia)) as Q01.
      pose proof (Q 1%nat 0%nat ltac:(lia) ltac:(lia)) as Q10.
      pose proof (Q 1%nat 1%nat ltac:(lia) ltac:(lia)) as Q11. clear Q Hp.
      unfold mmulR, idR, x in *. cbn -[IZR Rplus Rminus Rmult Ropp Rdiv Rinv] in *.
      assert (E01 : a * c + b * d = 0) by (apply (Rmult_eq_reg_r (/ det)); [unfold Rdiv in *; lra|apply Rinv_neq_0_compat; exact D]).
      assert (E00 : a * d - b * c = a * d - b * c) by reflexivity.
      assert (E11 : c * c + d * d = det).
      { apply (Rmult_eq_reg_r (/ det)); [|apply Rinv_neq_0_compat; exact D]. rewrite Rinv_r by exact D. unfold Rdiv in *; lra. }
      (* (a-d) d + (-b-c) c = 0 and (a-d) c + (b+c) d = 0 *)
      assert (S1 : (a - d) * d - (b + c) * c = 0) by (unfold det in E11; lra).
      assert (S2 : (a - d) * c + (b + c) * d = 0) by lra.
      assert (P : (a - d) * det = 0).
      { rewrite <- E11. replace ((a - d) * (c * c + d * d)) with
          (d * ((a - d) * d - (b + c) * c) + c * ((a - d) * c + (b + c) * d)) by ring. rewrite S1, S2; ring. }
      assert (P2 : (b + c) * det = 0).
      { rewrite <- E11. replace ((b + c) * (c * c + d * d)) with
          (d * ((a - d) * c + (b + c) * d) - c * ((a - d) * d - (b + c) * c)) by ring. rewrite S1, S2; ring. }
      apply Rmult_integral in P. apply Rmult_integral in P2. destruct P as [P|P]; [|contradiction].
      destruct P2 as [P2|P2]; [|contradiction]. split; lra.
    + intros (-> & ->). f_equal. eapply repM_inj; [exact Hp|]. eapply repM_ext; [exact Hi'|].
      intros r k Hr Hk. destruct r as [|[|r]], k as [|[|k]]; try lia;
        unfold mmulR, idR, x; cbn -[IZR Rplus Rminus Rmult Ropp Rdiv Rinv];
        unfold det; field; unfold det in D; intros Z; apply D; lra.
Qed.
Print Assumptions C84_inverse2_in_place_refuted.

(** The 4 x 4 inverse in statement order is the one of C13 when the two
    matrices are different objects. *)
Theorem C84_inverse4_separate_objects :
  forall (cfg : Cfg) (T : Type) (ST : Scalar T) (m inv : list T) (tol : T),
  length m = 16%nat -> length inv = 16%nat -> mat_inverse4_arg (Val m) inv tol = mat_inverse4 m inv tol.
Proof.
  intros cfg T ST m inv tol Hm Hi. dlen m Hm. dlen inv Hi. reflexivity.
Qed.
Print Assumptions C84_inverse4_separate_objects.

Lemma inverse_self_blind (cfg : Cfg) (T : Type) (ST : Scalar T) (n : nat) (l : list T) (x y tol : T) :
  (n = 3 \/ n = 4)%nat -> S (length l) = (n * n)%nat ->
  mat_inverse_self n (x :: l) tol = mat_inverse_self n (y :: l) tol.
Proof.
  intros [-> | ->] H; cbn in H; injection H as H; dlen l H; reflexivity.
Qed.

Lemma right_inverse_same (cfg : Cfg) (lim : RLim) (n : nat) (a b r i : list R) :
  (3 <= n <= 4)%nat -> length a = (n * n)%nat -> length b = (n * n)%nat -> length r = (n * n)%nat ->
  mat_IDENTITY n = Ok i -> mat_mul n n n a r = Ok i -> mat_mul n n n b r = Ok i -> a = b.
Proof.
  intros Hn La Lb Lr Ei Ea Eb.
  pose proof (IDENTITY_rep cfg lim n i Ei) as Hi.
  destruct (mat_rep n n a La) as (fa & Ha). destruct (mat_rep n n b Lb) as (fb & Hb).
  destruct (mat_rep n n r Lr) as (fr & Hr).
  destruct (mat_mul_R n n n a r fa fr Ha Hr) as (p & Ep & Hp). rewrite Ea in Ep. injection Ep as <-.
  destruct (mat_mul_R n n n b r fb fr Hb Hr) as (q & Eq & Hq). rewrite Eb in Eq. injection Eq as <-.
  destruct (C12_det_laws cfg lim n a r ltac:(lia) La Lr) as (_ & (ab & da & db & E1 & E2 & E3 & E4) & (i' & E5 & E6) & _).
  rewrite Ea in E1. injection E1 as <-. rewrite Ei in E5. injection E5 as <-. rewrite E4 in E6. injection E6 as E6.
  assert (D : detR n fr <> 0).
  { rewrite (mat_det_R n r fr ltac:(lia) Hr) in E3. injection E3 as E3. intros Z. rewrite Z in E3. subst db.
    rewrite Rmult_0_r in E6. lra. }
  set (fs := fun i j => cofR n fr j i * (1 / detR n fr)).
  assert (Hw : forall u v, (u < n)%nat -> (v < n)%nat -> mmulR n fr fs u v = idR u v)
    by (intros u v Hu Hv; apply (scaled_adj n fr u v ltac:(lia) Hu Hv D)).
  assert (K : forall g, (forall u v, (u < n)%nat -> (v < n)%nat -> mmulR n g fr u v = idR u v) ->
     forall u v, (u < n)%nat -> (v < n)%nat -> g u v = fs u v).
  { intros g Hg u v Hu Hv. transitivity (mmulR n g (mmulR n fr fs) u v).
    - rewrite <- (mmulR_id_r n g u v Hv). apply mmulR_ext; [reflexivity|]. intros k Hk. symmetry.
      apply Hw; assumption.
    - rewrite <- mmulR_assoc. transitivity (mmulR n idR fs u v); [|apply mmulR_id_l; exact Hu].
      apply mmulR_ext; [|reflexivity]. intros k Hk. apply Hg; assumption. }
  eapply repM_inj; [exact Ha|]. eapply repM_ext; [exact Hb|]. intros u v Hu Hv. cbv beta.
  rewrite (K fb (repM_fun _ _ _ _ _ Hq Hi) u v Hu Hv). symmetry.
  apply (K fa (repM_fun _ _ _ _ _ Hp Hi) u v Hu Hv).
Qed.

(** Nothing here changes the number of elements. *)
Lemma bind_inv {A B : Type} (p : res A) (k : A -> res B) (b : B) : (x <- p ;; k x) = Ok b -> exists a, p = Ok a /\ k a = Ok b.
Proof. destruct p; cbn; intros H; try discriminate. eauto. Qed.
Lemma wr_len {A : Type} (l l' : list A) i x : wr l i x = Ok l' -> length l' = length l.
Proof. unfold wr. destruct (i <? length l)%nat; intros H; [|discriminate]. injection H as <-. apply length_upd. Qed.
Lemma put_len (cfg : Cfg) {A : Type} M N (l l' : list A) r c x : mat_put M N l r c x = Ok l' -> length l' = length l.
Proof. unfold mat_put. destruct (_ && _)%bool; [discriminate|]. apply wr_len. Qed.
Lemma for_len {A : Type} lo hi (body : nat -> list A -> res (list A)) l l' :
  (forall i x y, body i x = Ok y -> length y = length x) -> for_ lo hi body l = Ok l' -> length l' = length l.
Proof.
  intros Hb. unfold for_. generalize (hi - lo)%nat as n. intros n. revert lo l. induction n as [|n IH]; cbn [for_n]; intros lo l H.
  - injection H as <-. reflexivity.
  - apply bind_inv in H. destruct H as (a & E & H). rewrite (IH _ _ H). apply (Hb _ _ _ E).
Qed.
Ltac binv H :=
  repeat match type of H with
  | bind _ _ = Ok _ => apply bind_inv in H; let a := fresh "a" in let E := fresh "E" in destruct H as (a & E & H)
  end.
Lemma cof3_len (cfg : Cfg) (T : Type) (ST : Scalar T) m (inv l : list T) r c a0 a1 b0 b1 c0 c1 d0 d1 :
  mat_cof3 m inv r c a0 a1 b0 b1 c0 c1 d0 d1 = Ok l -> length l = length inv.
Proof. unfold mat_cof3. intros H. binv H. exact (put_len _ _ _ _ _ _ _ _ H). Qed.
Lemma line4_len (T : Type) (ST : Scalar T) m (inv l : list T) k p q r x y z b :
  inv4_line m inv k p q r x y z b = Ok l -> length l = length inv.
Proof. unfold inv4_line. intros H. binv H. exact (wr_len _ _ _ _ H). Qed.
Lemma inverse_self_len (cfg : Cfg) (T : Type) (ST : Scalar T) (n : nat) (m r : list T) (b : bool) (tol : T) :
  (n = 3 \/ n = 4)%nat -> mat_inverse_self n m tol = Ok (b, r) -> length r = length m.
Proof.
  intros [-> | ->] H.
  - change (mat_inverse3 Self m tol = Ok (b, r)) in H. unfold mat_inverse3 in H. cbv zeta in H. binv H.
    repeat match goal with E : mat_cof3 _ _ _ _ _ _ _ _ _ _ _ _ = _ |- _ => apply cof3_len in E end.
    destruct (sleb _ _); [injection H as _ <-; congruence|]. binv H. injection H as _ <-.
    match goal with E : for_ _ _ _ _ = Ok _ |- _ => apply for_len in E; [congruence|] end.
    intros i x y H. apply for_len in H; [exact H|]. intros j u v H2. binv H2. exact (put_len _ _ _ _ _ _ _ _ H2).
  - change (mat_inverse4_arg Self m tol = Ok (b, r)) in H. unfold mat_inverse4_arg in H. cbv zeta in H. binv H.
    repeat match goal with E : inv4_line _ _ _ _ _ _ _ _ _ _ = _ |- _ => apply line4_len in E end.
    destruct (sleb _ _); [injection H as _ <-; congruence|]. binv H. injection H as _ <-.
    match goal with E : for_ _ _ _ _ = Ok _ |- _ => apply for_len in E; [congruence|] end.
    intros i x y H. binv H. exact (wr_len _ _ _ _ H).
Qed.

(** m.inverse( m ), 3 x 3 and 4 x 4: neither the result nor the success flag
    depends on the element (0,0), in any element type... *)
Theorem C84_inverse_in_place_ignores_first_cell :
  forall (cfg : Cfg) (T : Type) (ST : Scalar T) (n : nat) (m : list T) (x tol : T),
  (n = 3 \/ n = 4)%nat -> length m = (n * n)%nat ->
  exists m', mat_put n n m 0 0 x = Ok m' /\ mat_inverse_self n m' tol = mat_inverse_self n m tol.
Proof.
  intros cfg T ST n m x tol Hn Hm. destruct m as [|y l]; [destruct Hn as [-> | ->]; discriminate|].
  exists (x :: l). split.
  - rewrite mat_put_ok by lia. rewrite wr_ok by (cbn [length] in *; lia). reflexivity.
  - apply inverse_self_blind; assumption.
Qed.
Print Assumptions C84_inverse_in_place_ignores_first_cell.

(** ... whereas the inverse does: of all the matrices that differ from a given
    one in element (0,0) only, at most one is inverted correctly. *)
Theorem C84_inverse_in_place_refuted :
  forall (cfg : Cfg) (lim : RLim) (n : nat) (m m' r i : list R) (x tol : R),
  (n = 3 \/ n = 4)%nat -> length m = (n * n)%nat ->
  mat_put n n m 0 0 x = Ok m' -> m' <> m -> mat_IDENTITY n = Ok i ->
  mat_inverse_self n m tol = Ok (true, r) ->
  mat_inverse_self n m' tol = Ok (true, r) /\
  ~ (mat_mul n n n m r = Ok i /\ mat_mul n n n m' r = Ok i).
Proof.
  intros cfg lim n m m' r i x tol Hn Hm Ep Hne Ei Er.
  destruct (C84_inverse_in_place_ignores_first_cell cfg R _ n m x tol Hn Hm) as (m2 & Ep2 & E2).
  rewrite Ep in Ep2. injection Ep2 as <-. split; [rewrite E2; exact Er|].
  intros (H1 & H2).
  assert (Lm' : length m' = (n * n)%nat).
  { rewrite mat_put_ok in Ep by lia. apply wr_len in Ep. congruence. }
  assert (Lr : length r = (n * n)%nat) by (rewrite <- Hm; eapply inverse_self_len; eassumption).
  apply Hne. symmetry. apply (right_inverse_same cfg lim n m m' r i); auto; lia.
Qed.
Print Assumptions C84_inverse_in_place_refuted.

(** v.clamp( v[j], v[k] ): references to the vector's own elements are harmless
    as long as the lower bound is not above the upper one; for every element
    type (for floating point the two elements must not be NaN). *)
Theorem C84_clamp_own_elements :
  forall (cfg : Cfg) (T : Type) (ST : Scalar T) (M : nat) (v : list T) (f : nat -> T) (j k : nat),
  repV M v f -> (j < M)%nat -> (k < M)%nat ->
  sltb (f j) (f j) = false -> sltb (f k) (f k) = false -> sltb (f k) (f j) = false ->
  exists r, vec_clamp_ref M v (SCell j) (SCell k) = Ok r /\
    vec_clamp M v (f j) (f k) = Ok r /\
    vec_clamp_ref M v (SVal (f j)) (SVal (f k)) = Ok r.
Proof.
  intros cfg T ST M v f j k Hv Hj Hk Jj Kk Kj.
  destruct (vec_clamp_spec M v f (f j) (f k) Hv) as (r & Er & Hr). exists r.
  set (g := fun i => let x := if sltb (f i) (f j) then f j else f i in if sltb (f k) x then f k else x).
  change (repV M r g) in Hr.
  assert (Gj : g j = f j) by (unfold g; rewrite Jj; cbv zeta; rewrite Kj; reflexivity).
  assert (Gk : g k = f k) by (unfold g; rewrite Kj; cbv zeta; rewrite Kk; reflexivity).
  assert (GEN : forall a b, (a = SVal (f j) \/ a = SCell j) -> (b = SVal (f k) \/ b = SCell k) ->
     vec_clamp_ref M v a b = Ok r).
  { intros a b Ha Hb. unfold vec_clamp_ref.
    edestruct (fill1_all M v f g) as (r2 & E2 & H2); [exact Hv| |rewrite E2; f_equal; exact (repV_inj _ _ _ _ H2 Hr)].
    intros i l' Hi Hl'. cbv beta.
    set (h := fun q => if (q <? i)%nat then g q else f q) in Hl'.
    assert (Hh : forall q, q = j \/ q = k -> h q = f q).
    { intros q [-> | ->]; unfold h; destruct (_ <? i)%nat; auto. }
    assert (Sa : forall l2 h2, repV M l2 h2 -> h2 j = f j -> sref_get l2 a = Ok (f j)).
    { intros l2 h2 H2 HH. destruct Ha as [-> | ->]; cbn [sref_get]; [reflexivity|]. rewrite (repV_rd _ _ _ _ H2 Hj), HH; reflexivity. }
    assert (Sb : forall l2 h2, repV M l2 h2 -> h2 k = f k -> sref_get l2 b = Ok (f k)).
    { intros l2 h2 H2 HH. destruct Hb as [-> | ->]; cbn [sref_get]; [reflexivity|]. rewrite (repV_rd _ _ _ _ H2 Hk), HH; reflexivity. }
    rewrite (repV_rd _ _ _ _ Hl' Hi). cbn [bind].
    assert (Ehi : h i = f i) by (unfold h; rewrite Nat.ltb_irrefl; reflexivity). rewrite Ehi.
    rewrite (Sa _ _ Hl' (Hh j (or_introl eq_refl))). cbn [bind].
    assert (Li : (i < length l')%nat) by (rewrite (proj1 Hl'); exact Hi).
    unfold g. destruct (sltb (f i) (f j)) eqn:E1.
    - rewrite (wr_ok l' i (f j) Li). cbn [bind].
      assert (Hl2 : repV M (upd l' i (f j)) (fun q => if (q =? i)%nat then f j else h q)).
      { exact (proj2 (repV_wr M l' h i (f j) Hl' Hi)). }
      rewrite (repV_rd _ _ _ _ Hl2 Hi). cbn [bind]. rewrite Nat.eqb_refl.
      rewrite (Sb _ _ Hl2). 2:{ destruct (Nat.eqb_spec k i) as [->|]; [congruence|apply Hh; auto]. }
      cbn [bind]. rewrite Kj. cbv zeta. rewrite (wr_ok _ _ _ Li). reflexivity.
    - cbn [bind]. rewrite (repV_rd _ _ _ _ Hl' Hi). cbn [bind]. rewrite Ehi.
      rewrite (Sb _ _ Hl' (Hh k (or_intror eq_refl))). cbn [bind]. cbv zeta.
      destruct (sltb (f k) (f i)); [reflexivity|]. rewrite (wr_ok _ _ _ Li).
      rewrite upd_same_id; [reflexivity|]. rewrite <- Ehi. apply (proj2 Hl'); exact Hi. }
  split; [apply GEN; auto|]. split; [exact Er|apply GEN; auto].
Qed.
Print Assumptions C84_clamp_own_elements.

(** m.threshold( m.array[k] ): the element k itself is set to zero on the way,
    after which nothing else is; positions are those of the element array. *)
Theorem C84_threshold_own_element_refuted :
  forall (cfg : Cfg) (lim : RLim) (M N : nat) (m : list R) (f : nat -> R) (k : nat),
  repV (M * N) m f -> (k < M * N)%nat -> 0 <= f k ->
  returns (mat_threshold M N m (SCell k)) (fun r => exists g, repV (M * N) r g /\
    (forall i, (i < k)%nat -> Rabs (f i) <= f k -> g i = 0) /\
    (forall i, (i < k)%nat -> f k < Rabs (f i) -> g i = f i) /\
    g k = 0 /\
    (forall i, (k < i < M * N)%nat -> g i = f i) /\
    (* the same as with an independent copy of the element iff no later element
       lies between 0 and the threshold *)
    (mat_threshold M N m (SVal (f k)) = Ok r <->
     forall i, (k < i < M * N)%nat -> f i = 0 \/ f k < Rabs (f i))).
Proof.
  intros cfg lim M N m f k Hm Hk H0.
  set (th := fun i => if Rle_dec (Rabs (f i)) (f k) then 0 else f i).
  set (g := fun i => if (k <? i)%nat then f i else th i).
  assert (Gk : th k = 0).
  { unfold th. destruct (Rle_dec (Rabs (f k)) (f k)) as [|n]; [reflexivity|]. rewrite Rabs_pos_eq in n by exact H0. lra. }
  assert (STEP : forall i l' (h : nat -> R) t, repV (M * N) l' h -> (i < M * N)%nat -> 
     (if sleb (sabs (h i)) t then wr l' i szero else Ok l') = wr l' i (if Rle_dec (Rabs (h i)) t then 0 else h i)).
  { intros i l' h t Hl' Hi. cbn. unfold Rleb. destruct (Rle_dec (Rabs (h i)) t); [reflexivity|].
    rewrite wr_ok by (rewrite (proj1 Hl'); exact Hi). rewrite upd_same_id; [reflexivity|]. apply (proj2 Hl'); exact Hi. }
  assert (R1 : returns (mat_threshold M N m (SCell k)) (fun r => repV (M * N) r g)).
  { unfold mat_threshold. apply (fill1_all (M * N) m f g); [exact Hm|]. intros i l' Hi Hl'. cbv beta.
    rewrite (repV_rd _ _ _ _ Hl' Hi). cbn [bind sref_get]. rewrite (repV_rd _ _ _ _ Hl' Hk). cbn [bind].
    rewrite (STEP i l' _ _ Hl' Hi). cbv beta. rewrite Nat.ltb_irrefl. f_equal. unfold g.
    destruct (Nat.ltb_spec k i).
    - replace (k <? k)%nat with false by (symmetry; apply Nat.ltb_irrefl). rewrite Gk.
      destruct (Rle_dec (Rabs (f i)) 0) as [L|]; [|reflexivity]. 
      pose proof (Rabs_pos (f i)). destruct (Req_dec (f i) 0) as [->|Z]; [reflexivity|]. pose proof (Rabs_pos_lt _ Z). lra.
    - reflexivity. }
  assert (R2 : returns (mat_threshold M N m (SVal (f k))) (fun r => repV (M * N) r th)).
  { unfold mat_threshold. apply (fill1_all (M * N) m f th); [exact Hm|]. intros i l' Hi Hl'. cbv beta.
    rewrite (repV_rd _ _ _ _ Hl' Hi). cbn [bind sref_get].
    rewrite (STEP i l' _ _ Hl' Hi). cbv beta. rewrite Nat.ltb_irrefl. reflexivity. }
  destruct R1 as (r & E & Hr). destruct R2 as (r2 & E2 & Hr2).
  exists r. split; [exact E|]. exists g. split; [exact Hr|].
  split; [|split; [|split; [|split]]].
  - intros i Hi L. unfold g. replace (k <? i)%nat with false by (symmetry; apply Nat.ltb_ge; lia). unfold th.
    destruct (Rle_dec _ _); [reflexivity|contradiction].
  - intros i Hi L. unfold g. replace (k <? i)%nat with false by (symmetry; apply Nat.ltb_ge; lia). unfold th.
    destruct (Rle_dec _ _); [lra|reflexivity].
  - unfold g. rewrite Nat.ltb_irrefl. exact Gk.
  - intros i Hi. unfold g. replace (k <? i)%nat with true by (symmetry; apply Nat.ltb_lt; lia). reflexivity.
  - rewrite E2. split.
    + intros Q i Hi. injection Q as ->. pose proof (repV_fun _ _ _ _ Hr Hr2 i ltac:(lia)) as Q. unfold g in Q.
      replace (k <? i)%nat with true in Q by (symmetry; apply Nat.ltb_lt; lia). unfold th in Q.
      destruct (Rle_dec (Rabs (f i)) (f k)); [left; lra|right; lra].
    + intros Q. f_equal. eapply repV_inj; [exact Hr2|]. eapply repV_ext; [exact Hr|]. intros i Hi. cbv beta.
      unfold g. destruct (Nat.ltb_spec k i); [|reflexivity]. unfold th.
      destruct (Rle_dec _ _) as [L|]; [|reflexivity]. destruct (Q i ltac:(lia)) as [->|]; [reflexivity|lra].
Qed.
Print Assumptions C84_threshold_own_element_refuted.

(** The hypotheses hold and the claims have content. *)
Example C84_hypotheses_met (cfg : Cfg) (lim : RLim) :
  mat_transpose_to_self 2 [1; 2; 3; 4]%Z = Ok [1; 3; 3; 4]%Z /\
  (let det := 1 * 4 - 2 * 3 in det <> 0 /\ 1 <= Rabs det) /\
  mat_inverse_self 3 [7; 0; 0; 0; 1; 0; 0; 0; 1] 0 = Ok (true, [1; 0; 0; 0; 1; 0; 0; 0; 1]) /\
  mat_inverse_self 4 [7; 0; 0; 0; 0; 1; 0; 0; 0; 0; 1; 0; 0; 0; 0; 1] 0 =
    Ok (true, [1; 0; 0; 0; 0; 1; 0; 0; 0; 0; 1; 0; 0; 0; 0; 1]) /\
  repV 2 [3; 1] (fun i => nth i [3; 1] 0) /\ 0 <= nth 0 [3; 1] 0.
Proof.
  split; [reflexivity|].
  split; [cbv zeta; split; [lra|]; rewrite Rabs_left by lra; lra|].
  assert (A1 : Rleb (Rabs 1) 0 = false) by (rewrite Rabs_R1; unfold Rleb; destruct (Rle_dec 1 0); [lra|reflexivity]).
  split; [|split; [|split; [apply repV_nth; reflexivity|cbn; lra]]].
  - change (mat_inverse3 Self [7; 0; 0; 0; 1; 0; 0; 0; 1] 0 = Ok (true, [1; 0; 0; 0; 1; 0; 0; 0; 1])).
    unfold mat_inverse3, mat_cof3, mat_at, mat_put.
    cbn -[IZR Rplus Rminus Rmult Ropp Rdiv Rinv for_ sdiv sleb Rabs].
    match goal with |- (if sleb (Rabs ?d) 0 then Ok (false, ?l) else _) = _ =>
      assert (ED : d = 1) by ring;
      assert (EA : l = [1; 0; 0; 0; 1; 0; 0; 0; 1]) by (repeat (apply (f_equal2 (@cons R)); [ring|]); reflexivity)
    end. rewrite EA, ED. clear EA ED. change (sleb (Rabs 1) 0) with (Rleb (Rabs 1) 0). rewrite A1.
    rewrite sdiv_R by lra. cbn -[IZR Rplus Rminus Rmult Ropp Rdiv Rinv].
    apply f_equal, f_equal. repeat (apply (f_equal2 (@cons R)); [field|]); reflexivity.
  - change (mat_inverse4_arg Self [7; 0; 0; 0; 0; 1; 0; 0; 0; 0; 1; 0; 0; 0; 0; 1] 0 =
      Ok (true, [1; 0; 0; 0; 0; 1; 0; 0; 0; 0; 1; 0; 0; 0; 0; 1])).
    unfold mat_inverse4_arg, inv4_line, inv4_det.
    cbn -[IZR Rplus Rminus Rmult Ropp Rdiv Rinv for_ sdiv sleb Rabs].
    match goal with |- (if sleb (Rabs ?d) 0 then Ok (false, ?l) else _) = _ =>
      assert (ED : d = 1) by ring;
      assert (EA : l = [1; 0; 0; 0; 0; 1; 0; 0; 0; 0; 1; 0; 0; 0; 0; 1])
        by (repeat (apply (f_equal2 (@cons R)); [ring|]); reflexivity)
    end. rewrite EA, ED. clear EA ED. change (sleb (Rabs 1) 0) with (Rleb (Rabs 1) 0). rewrite A1.
    rewrite sdiv_R by lra. cbn -[IZR Rplus Rminus Rmult Ropp Rdiv Rinv].
    apply f_equal, f_equal. repeat (apply (f_equal2 (@cons R)); [field|]); reflexivity.
Qed.
