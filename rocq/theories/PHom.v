(** Properties C96, C97: what the operations compute for integer element types. *)
From Verif Require Import PVector1 PMatrix1 PMatrix2 PMatrix4 InstZ InstR LHom Spec8.
Local Open Scope Z_scope.
Local Open Scope list_scope.

(** The three changes of element type. *)
Definition EU (k : Z) : RelC Z Z := fun z u => u = wrapU k z.
Definition ES : RelC (option Z) Z := exact1.
Definition ER : RelC Z R := fun z x => x = IZR z.

Lemma EU_ring k : 0 < k -> ring_rel ZScalar (UIntScalar k) (EU k).
Proof.
  intros Hk. assert (P : 0 < 2 ^ k) by (apply Z.pow_pos_nonneg; lia).
  assert (P2 : 2 ^ 1 <= 2 ^ k) by (apply Z.pow_le_mono_r; lia).
  unfold ring_rel, EU, wrapU; cbn -[Z.modulo Z.pow]. split; [rewrite Z.mod_0_l; lia|]. split; [rewrite Z.mod_1_l; lia|].
  split; [|split; [|split]].
  - intros a b c d -> ->. symmetry. apply Z.add_mod; lia.
  - intros a b c d -> ->. symmetry. apply Zminus_mod.
  - intros a b c d -> ->. symmetry. apply Z.mul_mod; lia.
  - intros a b ->. rewrite <- !Z.sub_0_l. rewrite (Zminus_mod 0 (a mod 2 ^ k)), (Zminus_mod 0 a).
    rewrite Z.mod_mod by lia. reflexivity.
Qed.
Lemma ES_ring k : ring_rel (SIntScalar k) ZScalar ES.
Proof.
  assert (C : forall z, exact1 (clip k z) z) by (intros z; unfold clip, exact1; destruct (in_range k z); auto).
  unfold ring_rel, ES; cbn. split; [right; reflexivity|]. split; [right; reflexivity|].
  split; [|split; [|split]].
  - intros a b c d [->| ->] [->| ->]; cbn; try (left; reflexivity). apply C.
  - intros a b c d [->| ->] [->| ->]; cbn; try (left; reflexivity). apply C.
  - intros a b c d [->| ->] [->| ->]; cbn; try (left; reflexivity). apply C.
  - intros a b [->| ->]; cbn; try (left; reflexivity). apply C.
Qed.
Lemma ER_ring {lim : RLim} : ring_rel ZScalar RScalar ER.
Proof.
  unfold ring_rel, ER; cbn. split; [reflexivity|]. split; [reflexivity|].
  split; [|split; [|split]].
  - intros a b c d -> ->. symmetry. apply plus_IZR.
  - intros a b c d -> ->. symmetry. apply minus_IZR.
  - intros a b c d -> ->. symmetry. apply mult_IZR.
  - intros a b ->. symmetry. apply opp_IZR.
Qed.

Lemma rel_map {A B} (f : A -> B) (P : RelC A B) l : (forall a, P a (f a)) -> relc l (map f l).
Proof. intros H. induction l; cbn; constructor; auto. Qed.
Lemma rel_map_inv {A B} (f : A -> B) (P : RelC A B) l l' : (forall a b, P a b -> b = f a) -> relc l l' -> l' = map f l.
Proof. intros H HR. induction HR; cbn; [reflexivity|]. f_equal; auto. Qed.
Lemma rel_outcome {A B} (f : A -> B) (P : RelC A B) m n : (forall a b, P a b -> b = f a) ->
  rel_res P m n -> n = outcome_map f m.
Proof. intros H. destruct m, n; cbn; try easy. intros R0. f_equal. apply H. exact R0. Qed.
Lemma rel_outcome_l {A B} (f : A -> B) (P : RelC A B) m n : (forall a b, P a b -> b = f a) ->
  rel_res (relc_list P) m n -> n = outcome_map (map f) m.
Proof. intros H. apply rel_outcome. intros a b R0. exact (rel_map_inv f P a b H R0). Qed.

(** C96, unsigned types: computing with k-bit unsigned integers is computing
    with unbounded integers and reducing the result modulo 2^k at the end; every
    wrap-around on the way is harmless, throws and out-of-range accesses are the
    same.  [a], [b], [c] are arbitrary integers, the operands hold them modulo
    2^k. *)
Section Unsigned.
Context {cfg : Cfg} (k : Z) (Hk : 0 < k).
Let w := wrapU k.
Lemma w_rel l : @relc _ _ (relc_list (EU k)) l (map w l).
Proof. apply rel_map. intros a; reflexivity. Qed.
Lemma w_rel1 a : @relc _ _ (EU k) a (w a).
Proof. reflexivity. Qed.
Lemma w_out m n : rel_res (relc_list (EU k)) m n -> n = outcome_map (map w) m.
Proof. apply rel_outcome_l. intros a b H; exact H. Qed.
Lemma w_out1 m n : rel_res (EU k) m n -> n = outcome_map w m.
Proof. apply rel_outcome. intros a b H; exact H. Qed.
End Unsigned.
Ltac uarg := first [apply EU_ring; assumption | apply w_rel | apply w_rel1 | apply (@r_Val _ _ (EU _)); apply w_rel | exact I].
Ltac ulist h := apply w_out; eapply h; uarg.
Ltac u1 h := apply w_out1; eapply h; uarg.

Theorem C96_unsigned_vectors :
  forall (cfg : Cfg) (k : Z) (M : nat) (a b : list Z) (s : Z), 0 < k ->
  let w := wrapU k in
  let uns := UIntScalar k in
  vec_add (ST := uns) M (map w a) (map w b) = outcome_map (map w) (vec_add (ST := ZScalar) M a b) /\
  vec_sub (ST := uns) M (map w a) (map w b) = outcome_map (map w) (vec_sub (ST := ZScalar) M a b) /\
  vec_mul (ST := uns) M (map w a) (map w b) = outcome_map (map w) (vec_mul (ST := ZScalar) M a b) /\
  vec_mul_s (ST := uns) M (map w a) (w s) = outcome_map (map w) (vec_mul_s (ST := ZScalar) M a s) /\
  vec_add_s (ST := uns) M (map w a) (w s) = outcome_map (map w) (vec_add_s (ST := ZScalar) M a s) /\
  vec_sub_s (ST := uns) M (map w a) (w s) = outcome_map (map w) (vec_sub_s (ST := ZScalar) M a s) /\
  vec_negate (ST := uns) M (map w a) = outcome_map (map w) (vec_negate (ST := ZScalar) M a) /\
  vec_cross (ST := uns) (map w a) (map w b) = outcome_map (map w) (vec_cross (ST := ZScalar) a b) /\
  vec_dot (ST := uns) M (map w a) (map w b) = outcome_map w (vec_dot (ST := ZScalar) M a b) /\
  vec_squared_length (ST := uns) M (map w a) = outcome_map w (vec_squared_length (ST := ZScalar) M a) /\
  vec_squared_distance (ST := uns) M (map w a) (map w b) = outcome_map w (vec_squared_distance (ST := ZScalar) M a b) /\
  vec_product (ST := uns) M (map w a) = outcome_map w (vec_product (ST := ZScalar) M a) /\
  q_dot (ST := uns) (map w a) (map w b) = outcome_map w (q_dot (ST := ZScalar) a b) /\
  q_cross (ST := uns) (map w a) (map w b) = outcome_map (map w) (q_cross (ST := ZScalar) a b).
Proof.
  intros cfg k M a b s Hk w uns. repeat split.
  - ulist @h_vec_add.
  - ulist @h_vec_sub.
  - ulist @h_vec_mul.
  - ulist @h_vec_mul_s.
  - ulist @h_vec_add_s.
  - ulist @h_vec_sub_s.
  - ulist @h_vec_negate.
  - ulist @h_vec_cross.
  - u1 @h_vec_dot.
  - u1 @h_vec_squared_length.
  - u1 @h_vec_squared_distance.
  - u1 @h_vec_product.
  - u1 @h_q_dot.
  - ulist @h_q_cross.
Qed.
Print Assumptions C96_unsigned_vectors.

Theorem C96_unsigned_matrices :
  forall (cfg : Cfg) (k : Z) (M N P Q : nat) (a b c : list Z) (s : Z), 0 < k ->
  let w := wrapU k in
  let uns := UIntScalar k in
  mat_mul (ST := uns) M N P (map w a) (map w b) = outcome_map (map w) (mat_mul (ST := ZScalar) M N P a b) /\
  mat_mul_assign (ST := uns) M (map w a) (Val (map w b)) = outcome_map (map w) (mat_mul_assign (ST := ZScalar) M a (Val b)) /\
  mat_mul_piecewise (ST := uns) M N (map w a) (Val (map w b)) = outcome_map (map w) (mat_mul_piecewise (ST := ZScalar) M N a (Val b)) /\
  mat_add (ST := uns) M N (map w a) (map w b) = outcome_map (map w) (mat_add (ST := ZScalar) M N a b) /\
  mat_sub (ST := uns) M N (map w a) (map w b) = outcome_map (map w) (mat_sub (ST := ZScalar) M N a b) /\
  mat_mul_s (ST := uns) M N (map w a) (w s) = outcome_map (map w) (mat_mul_s (ST := ZScalar) M N a s) /\
  mat_mul_vec (ST := uns) M N (map w a) (map w b) = outcome_map (map w) (mat_mul_vec (ST := ZScalar) M N a b) /\
  mat_tensor (ST := uns) M N (map w a) (map w b) (map w c) = outcome_map (map w) (mat_tensor (ST := ZScalar) M N a b c) /\
  mat_transpose (ST := uns) M N (map w a) = outcome_map (map w) (mat_transpose (ST := ZScalar) M N a) /\
  mat_sym_cov (ST := uns) M N (map w a) (map w b) = outcome_map (map w) (mat_sym_cov (ST := ZScalar) M N a b) /\
  mat_direct_sum (ST := uns) M N P Q (map w a) (map w b) (map w c) = outcome_map (map w) (mat_direct_sum (ST := ZScalar) M N P Q a b c) /\
  mat_khatri_rao (ST := uns) M N P (map w a) (map w b) (map w c) = outcome_map (map w) (mat_khatri_rao (ST := ZScalar) M N P a b c) /\
  mat_kronecker (ST := uns) M N P Q (map w a) (map w b) (map w c) = outcome_map (map w) (mat_kronecker (ST := ZScalar) M N P Q a b c) /\
  mat_convolve (ST := uns) M N P Q (map w a) (map w b) = outcome_map (map w) (mat_convolve (ST := ZScalar) M N P Q a b) /\
  mat_sum_elements (ST := uns) M N (map w a) = outcome_map w (mat_sum_elements (ST := ZScalar) M N a) /\
  mat_columnwise_sum (ST := uns) M N (map w a) (map w b) = outcome_map (map w) (mat_columnwise_sum (ST := ZScalar) M N a b) /\
  mat_sum_rows (ST := uns) M N (map w a) (map w b) = outcome_map (map w) (mat_sum_rows (ST := ZScalar) M N a b) /\
  mat_sum_columns (ST := uns) M N (map w a) (map w b) = outcome_map (map w) (mat_sum_columns (ST := ZScalar) M N a b) /\
  mat_det (ST := uns) M (map w a) = outcome_map w (mat_det (ST := ZScalar) M a) /\
  mat_get_cofactors (ST := uns) M (Val (map w a)) (map w b) = outcome_map (map w) (mat_get_cofactors (ST := ZScalar) M (Val a) b) /\
  mat_get_adjugate (ST := uns) M (Val (map w a)) (map w b) = outcome_map (map w) (mat_get_adjugate (ST := ZScalar) M (Val a) b).
Proof.
  intros cfg k M N P Q a b c s Hk w uns. repeat split.
  - ulist @h_mat_mul.
  - ulist @h_mat_mul_assign.
  - ulist @h_mat_mul_piecewise.
  - ulist @h_mat_add.
  - ulist @h_mat_sub.
  - ulist @h_mat_mul_s.
  - ulist @h_mat_mul_vec.
  - ulist @h_mat_tensor.
  - ulist @h_mat_transpose.
  - ulist @h_mat_sym_cov.
  - ulist @h_mat_direct_sum.
  - ulist @h_mat_khatri_rao.
  - ulist @h_mat_kronecker.
  - ulist @h_mat_convolve.
  - u1 @h_mat_sum_elements.
  - ulist @h_mat_columnwise_sum.
  - ulist @h_mat_sum_rows.
  - ulist @h_mat_sum_columns.
  - u1 @h_mat_det.
  - ulist @h_mat_get_cofactors.
  - ulist @h_mat_get_adjugate.
Qed.
Print Assumptions C96_unsigned_matrices.

(** C96, signed types: a component that does not depend on an overflow is the
    exact one, so a result without overflow is the mathematical result. *)
Ltac sarg := first [exact (ES_ring _) | eassumption | apply (@r_Val _ _ ES); eassumption | exact I].
Theorem C96_signed_vectors :
  forall (cfg : Cfg) (k : Z) (M : nat) (a' b' : list (option Z)) (s' : option Z) (a b : list Z) (s : Z),
  Forall2 exact1 a' a -> Forall2 exact1 b' b -> exact1 s' s ->
  let sgn := SIntScalar k in
  exact_unless_overflow (vec_add (ST := sgn) M a' b') (vec_add (ST := ZScalar) M a b) /\
  exact_unless_overflow (vec_sub (ST := sgn) M a' b') (vec_sub (ST := ZScalar) M a b) /\
  exact_unless_overflow (vec_mul (ST := sgn) M a' b') (vec_mul (ST := ZScalar) M a b) /\
  exact_unless_overflow (vec_mul_s (ST := sgn) M a' s') (vec_mul_s (ST := ZScalar) M a s) /\
  exact_unless_overflow (vec_add_s (ST := sgn) M a' s') (vec_add_s (ST := ZScalar) M a s) /\
  exact_unless_overflow (vec_sub_s (ST := sgn) M a' s') (vec_sub_s (ST := ZScalar) M a s) /\
  exact_unless_overflow (vec_negate (ST := sgn) M a') (vec_negate (ST := ZScalar) M a) /\
  exact_unless_overflow (vec_cross (ST := sgn) a' b') (vec_cross (ST := ZScalar) a b) /\
  exact_unless_overflow1 (vec_dot (ST := sgn) M a' b') (vec_dot (ST := ZScalar) M a b) /\
  exact_unless_overflow1 (vec_squared_length (ST := sgn) M a') (vec_squared_length (ST := ZScalar) M a) /\
  exact_unless_overflow1 (vec_squared_distance (ST := sgn) M a' b') (vec_squared_distance (ST := ZScalar) M a b) /\
  exact_unless_overflow1 (vec_product (ST := sgn) M a') (vec_product (ST := ZScalar) M a) /\
  exact_unless_overflow1 (q_dot (ST := sgn) a' b') (q_dot (ST := ZScalar) a b) /\
  exact_unless_overflow (q_cross (ST := sgn) a' b') (q_cross (ST := ZScalar) a b).
Proof.
  intros cfg k M a' b' s' a b s Ha Hb Hs sgn. repeat apply conj.
  - eapply (@h_vec_add); sarg.
  - eapply (@h_vec_sub); sarg.
  - eapply (@h_vec_mul); sarg.
  - eapply (@h_vec_mul_s); sarg.
  - eapply (@h_vec_add_s); sarg.
  - eapply (@h_vec_sub_s); sarg.
  - eapply (@h_vec_negate); sarg.
  - eapply (@h_vec_cross); sarg.
  - eapply (@h_vec_dot); sarg.
  - eapply (@h_vec_squared_length); sarg.
  - eapply (@h_vec_squared_distance); sarg.
  - eapply (@h_vec_product); sarg.
  - eapply (@h_q_dot); sarg.
  - eapply (@h_q_cross); sarg.
Qed.
Print Assumptions C96_signed_vectors.

Theorem C96_signed_matrices :
  forall (cfg : Cfg) (k : Z) (M N P Q : nat) (a' b' c' : list (option Z)) (s' : option Z) (a b c : list Z) (s : Z),
  Forall2 exact1 a' a -> Forall2 exact1 b' b -> Forall2 exact1 c' c -> exact1 s' s ->
  let sgn := SIntScalar k in
  exact_unless_overflow (mat_mul (ST := sgn) M N P a' b') (mat_mul (ST := ZScalar) M N P a b) /\
  exact_unless_overflow (mat_mul_assign (ST := sgn) M a' (Val b')) (mat_mul_assign (ST := ZScalar) M a (Val b)) /\
  exact_unless_overflow (mat_mul_piecewise (ST := sgn) M N a' (Val b')) (mat_mul_piecewise (ST := ZScalar) M N a (Val b)) /\
  exact_unless_overflow (mat_add (ST := sgn) M N a' b') (mat_add (ST := ZScalar) M N a b) /\
  exact_unless_overflow (mat_sub (ST := sgn) M N a' b') (mat_sub (ST := ZScalar) M N a b) /\
  exact_unless_overflow (mat_mul_s (ST := sgn) M N a' s') (mat_mul_s (ST := ZScalar) M N a s) /\
  exact_unless_overflow (mat_mul_vec (ST := sgn) M N a' b') (mat_mul_vec (ST := ZScalar) M N a b) /\
  exact_unless_overflow (mat_tensor (ST := sgn) M N a' b' c') (mat_tensor (ST := ZScalar) M N a b c) /\
  exact_unless_overflow (mat_transpose (ST := sgn) M N a') (mat_transpose (ST := ZScalar) M N a) /\
  exact_unless_overflow (mat_sym_cov (ST := sgn) M N a' b') (mat_sym_cov (ST := ZScalar) M N a b) /\
  exact_unless_overflow (mat_direct_sum (ST := sgn) M N P Q a' b' c') (mat_direct_sum (ST := ZScalar) M N P Q a b c) /\
  exact_unless_overflow (mat_khatri_rao (ST := sgn) M N P a' b' c') (mat_khatri_rao (ST := ZScalar) M N P a b c) /\
  exact_unless_overflow (mat_kronecker (ST := sgn) M N P Q a' b' c') (mat_kronecker (ST := ZScalar) M N P Q a b c) /\
  exact_unless_overflow (mat_convolve (ST := sgn) M N P Q a' b') (mat_convolve (ST := ZScalar) M N P Q a b) /\
  exact_unless_overflow1 (mat_sum_elements (ST := sgn) M N a') (mat_sum_elements (ST := ZScalar) M N a) /\
  exact_unless_overflow (mat_columnwise_sum (ST := sgn) M N a' b') (mat_columnwise_sum (ST := ZScalar) M N a b) /\
  exact_unless_overflow (mat_sum_rows (ST := sgn) M N a' b') (mat_sum_rows (ST := ZScalar) M N a b) /\
  exact_unless_overflow (mat_sum_columns (ST := sgn) M N a' b') (mat_sum_columns (ST := ZScalar) M N a b) /\
  exact_unless_overflow1 (mat_det (ST := sgn) M a') (mat_det (ST := ZScalar) M a) /\
  exact_unless_overflow (mat_get_cofactors (ST := sgn) M (Val a') b') (mat_get_cofactors (ST := ZScalar) M (Val a) b) /\
  exact_unless_overflow (mat_get_adjugate (ST := sgn) M (Val a') b') (mat_get_adjugate (ST := ZScalar) M (Val a) b).
Proof.
  intros cfg k M N P Q a' b' c' s' a b c s Ha Hb Hc Hs sgn. repeat apply conj.
  - eapply (@h_mat_mul); sarg.
  - eapply (@h_mat_mul_assign); sarg.
  - eapply (@h_mat_mul_piecewise); sarg.
  - eapply (@h_mat_add); sarg.
  - eapply (@h_mat_sub); sarg.
  - eapply (@h_mat_mul_s); sarg.
  - eapply (@h_mat_mul_vec); sarg.
  - eapply (@h_mat_tensor); sarg.
  - eapply (@h_mat_transpose); sarg.
  - eapply (@h_mat_sym_cov); sarg.
  - eapply (@h_mat_direct_sum); sarg.
  - eapply (@h_mat_khatri_rao); sarg.
  - eapply (@h_mat_kronecker); sarg.
  - eapply (@h_mat_convolve); sarg.
  - eapply (@h_mat_sum_elements); sarg.
  - eapply (@h_mat_columnwise_sum); sarg.
  - eapply (@h_mat_sum_rows); sarg.
  - eapply (@h_mat_sum_columns); sarg.
  - eapply (@h_mat_det); sarg.
  - eapply (@h_mat_get_cofactors); sarg.
  - eapply (@h_mat_get_adjugate); sarg.
Qed.
Print Assumptions C96_signed_matrices.

(** The same operations with real elements, on integer-valued operands. *)
Section RealOfInt.
Context {cfg : Cfg} {lim : RLim}.
Lemma z_rel l : @relc _ _ (relc_list ER) l (map IZR l).
Proof. apply rel_map. intros a; reflexivity. Qed.
Lemma z_rel1 a : @relc _ _ ER a (IZR a).
Proof. reflexivity. Qed.
Lemma z_out m n : rel_res (relc_list ER) m n -> n = outcome_map (map IZR) m.
Proof. apply rel_outcome_l. intros a b H; exact H. Qed.
Lemma z_out1 m n : rel_res ER m n -> n = outcome_map IZR m.
Proof. apply rel_outcome. intros a b H; exact H. Qed.
Ltac zarg := first [exact ER_ring | apply z_rel | apply z_rel1 | apply (@r_Val _ _ ER); apply z_rel | exact I].
Ltac zlist h := apply z_out; eapply h; zarg.
Lemma zr_mul M N P a b : mat_mul M N P (map IZR a) (map IZR b) = outcome_map (map IZR) (mat_mul (ST := ZScalar) M N P a b).
Proof. zlist @h_mat_mul. Qed.
Lemma zr_add M N a b : mat_add M N (map IZR a) (map IZR b) = outcome_map (map IZR) (mat_add (ST := ZScalar) M N a b).
Proof. zlist @h_mat_add. Qed.
Lemma zr_transpose M N a : mat_transpose M N (map IZR a) = outcome_map (map IZR) (mat_transpose (ST := ZScalar) M N a).
Proof. zlist @h_mat_transpose. Qed.
Lemma zr_mul_s M N a s : mat_mul_s M N (map IZR a) (IZR s) = outcome_map (map IZR) (mat_mul_s (ST := ZScalar) M N a s).
Proof. zlist @h_mat_mul_s. Qed.
Lemma zr_mul_vec M N a b : mat_mul_vec M N (map IZR a) (map IZR b) = outcome_map (map IZR) (mat_mul_vec (ST := ZScalar) M N a b).
Proof. zlist @h_mat_mul_vec. Qed.
Lemma zr_adj n a b : mat_get_adjugate n (Val (map IZR a)) (map IZR b) = outcome_map (map IZR) (mat_get_adjugate (ST := ZScalar) n (Val a) b).
Proof. zlist @h_mat_get_adjugate. Qed.
Lemma zr_IDENTITY n : mat_IDENTITY n = outcome_map (map IZR) (mat_IDENTITY (ST := ZScalar) n).
Proof. zlist @h_mat_IDENTITY. Qed.
Lemma zr_det n a : mat_det n (map IZR a) = outcome_map IZR (mat_det (ST := ZScalar) n a).
Proof. apply z_out1. eapply @h_mat_det; zarg. Qed.
Lemma zr_cross a b : vec_cross (map IZR a) (map IZR b) = outcome_map (map IZR) (vec_cross (ST := ZScalar) a b).
Proof. zlist @h_vec_cross. Qed.
Lemma zr_dot M a b : vec_dot M (map IZR a) (map IZR b) = outcome_map IZR (vec_dot (ST := ZScalar) M a b).
Proof. apply z_out1. eapply @h_vec_dot; zarg. Qed.
End RealOfInt.
Lemma om_inv {A B} (f : A -> B) m r : outcome_map f m = Ok r -> exists z, m = Ok z /\ r = f z.
Proof. destruct m; cbn; intros H; try discriminate. injection H as <-. eauto. Qed.
Lemma map_IZR_inj l l' : map IZR l = map IZR l' -> l = l'.
Proof.
  revert l'. induction l as [|x l IH]; intros [|y l']; cbn; intros H; try discriminate; [reflexivity|].
  injection H as H1 H2. f_equal; [apply eq_IZR; exact H1|apply IH; exact H2].
Qed.

(** Some real numbers stand in for numeric_limits; they play no role here. *)
Definition anylim : RLim := {| rmax := 1; reps := 1; rmax_pos := Rlt_0_1; reps_pos := Rlt_0_1 |}.
(** The laws for unbounded integers ... *)
Lemma Z_laws (cfg : Cfg) (M N P Q : nat) (a b c d : list Z) :
  length a = (M * N)%nat -> length b = (N * P)%nat -> length c = (P * Q)%nat -> length d = (N * P)%nat ->
  let ST := ZScalar in
  (exists ab bc abc, mat_mul M N P a b = Ok ab /\ mat_mul N P Q b c = Ok bc /\
     mat_mul M P Q ab c = Ok abc /\ mat_mul M N Q a bc = Ok abc) /\
  (exists bd ab ad abd, mat_add N P b d = Ok bd /\ mat_mul M N P a b = Ok ab /\ mat_mul M N P a d = Ok ad /\
     mat_mul M N P a bd = Ok abd /\ mat_add M P ab ad = Ok abd) /\
  (exists ab ta tb t, mat_mul M N P a b = Ok ab /\ mat_transpose M N a = Ok ta /\ mat_transpose N P b = Ok tb /\
     mat_transpose M P ab = Ok t /\ mat_mul P N M tb ta = Ok t).
Proof.
  intros La Lb Lc Ld ST. pose (lim := anylim).
  assert (L : forall l, length (map IZR l) = length l) by (intros; apply map_length).
  destruct (C08_product_laws cfg lim M N P Q (map IZR a) (map IZR b) (map IZR c) (map IZR d))
    as ((ab & bc & abc & E1 & E2 & E3 & E4) & _ & _ & (bd & ab' & ad & abd & F1 & F2 & F3 & F4 & F5) & _); try (rewrite L; assumption).
  destruct (C07_transpose_product cfg lim M N P (map IZR a) (map IZR b)) as (ab2 & ta & tb & t & G1 & G2 & G3 & G4 & G5);
    try (rewrite L; assumption).
  rewrite zr_mul in E1, E2, F2, F3, G1. rewrite zr_add in F1. rewrite zr_transpose in G2, G3.
  apply om_inv in E1 as (ab_ & E1 & ->). apply om_inv in E2 as (bc_ & E2 & ->).
  apply om_inv in F1 as (bd_ & F1 & ->). apply om_inv in F2 as (ab2_ & F2 & ->). apply om_inv in F3 as (ad_ & F3 & ->).
  apply om_inv in G1 as (ab3_ & G1 & ->). apply om_inv in G2 as (ta_ & G2 & ->). apply om_inv in G3 as (tb_ & G3 & ->).
  rewrite zr_mul in E3, E4, F4, G5. rewrite zr_add in F5. rewrite zr_transpose in G4.
  apply om_inv in E3 as (abc3 & E3 & ->). apply om_inv in E4 as (abc4 & E4 & X4). apply map_IZR_inj in X4 as ->.
  apply om_inv in F4 as (abd3 & F4 & ->). apply om_inv in F5 as (abd4 & F5 & X5). apply map_IZR_inj in X5 as ->.
  apply om_inv in G4 as (t3 & G4 & ->). apply om_inv in G5 as (t4 & G5 & X6). apply map_IZR_inj in X6 as ->.
  split; [|split].
  - exists ab_, bc_, abc4. repeat (split; [assumption|]). assumption.
  - exists bd_, ab2_, ad_, abd4. repeat (split; [assumption|]). assumption.
  - exists ab3_, ta_, tb_, t4. repeat (split; [assumption|]). assumption.
Qed.
Lemma Z_det_laws (cfg : Cfg) (n : nat) (a b out : list Z) :
  (1 <= n <= 4)%nat -> length a = (n * n)%nat -> length b = (n * n)%nat -> length out = (n * n)%nat ->
  let ST := ZScalar in
  (exists ab da db, mat_mul n n n a b = Ok ab /\ mat_det n a = Ok da /\ mat_det n b = Ok db /\ mat_det n ab = Ok (da * db)) /\
  (exists t d, mat_transpose n n a = Ok t /\ mat_det n t = Ok d /\ mat_det n a = Ok d) /\
  ((2 <= n)%nat -> exists x d s i, mat_get_adjugate n (Val a) out = Ok x /\ mat_det n a = Ok d /\ mat_IDENTITY n = Ok i /\
     mat_mul_s n n i d = Ok s /\ mat_mul n n n a x = Ok s /\ mat_mul n n n x a = Ok s).
Proof.
  intros Hn La Lb Lo ST. pose (lim := anylim).
  assert (L : forall l, length (map IZR l) = length l) by (intros; apply map_length).
  destruct (C12_det_laws cfg lim n (map IZR a) (map IZR b) Hn) as ((t & d & E1 & E2 & E3) & (ab & da & db & F1 & F2 & F3 & F4) & _);
    try (rewrite L; assumption).
  rewrite zr_mul in F1. rewrite zr_transpose in E1. rewrite zr_det in E3, F2, F3.
  apply om_inv in F1 as (ab' & F1 & ->). apply om_inv in E1 as (t' & E1 & ->).
  apply om_inv in E3 as (d' & E3 & ->). apply om_inv in F2 as (da' & F2 & ->). apply om_inv in F3 as (db' & F3 & ->).
  rewrite zr_det in E2, F4. apply om_inv in E2 as (d2 & E2 & X2). apply eq_IZR in X2 as ->.
  apply om_inv in F4 as (d3 & F4 & X3). rewrite <- mult_IZR in X3. apply eq_IZR in X3 as <-.
  split; [|split].
  - exists ab', da', db'. repeat (split; [assumption|]). exact F4.
  - exists t', d2. repeat (split; [assumption|]). exact E3.
  - intros H2. destruct (mat_rep n n (map IZR a)) as (f & Hf); [rewrite L; assumption|].
    destruct (C14_cofactors_adjugate cfg lim n (map IZR a) (map IZR out) f Hf) as (_ & A); [rewrite L; assumption|].
    destruct A as (x & dd & s & i & A1 & A2 & A3 & A4 & A5 & A6); [lia|].
    rewrite zr_adj in A1. rewrite zr_det in A2. rewrite zr_IDENTITY in A3.
    apply om_inv in A1 as (x' & A1 & ->). apply om_inv in A2 as (dd' & A2 & ->). apply om_inv in A3 as (i' & A3 & ->).
    rewrite zr_mul_s in A4. rewrite zr_mul in A5, A6.
    apply om_inv in A4 as (s' & A4 & ->). apply om_inv in A5 as (s2 & A5 & X5). apply om_inv in A6 as (s3 & A6 & X6).
    apply map_IZR_inj in X5 as <-. apply map_IZR_inj in X6 as <-.
    exists x', dd', s', i'. repeat (split; [assumption|]). exact A6.
Qed.

(** ... and C97: for unsigned elements of every width, wrap-around included:
    the product is associative and distributive, (AB)^T = B^T A^T,
    det(AB) = det A det B, det A^T = det A and A adj(A) = det(A) 1. *)
Lemma wrap_id k l : Forall (fun z => 0 <= z < 2 ^ k) l -> map (wrapU k) l = l.
Proof.
  induction 1 as [|z l Hz _ IH]; [reflexivity|]. cbn [map]. rewrite IH. f_equal. apply Z.mod_small. exact Hz.
Qed.
Section UOps.
Context {cfg : Cfg} (k : Z) (Hk : 0 < k).
Lemma uz_mul M N P a b r : mat_mul (ST := ZScalar) M N P a b = Ok r ->
  mat_mul (ST := UIntScalar k) M N P (map (wrapU k) a) (map (wrapU k) b) = Ok (map (wrapU k) r).
Proof. intros E. rewrite (proj1 (C96_unsigned_matrices cfg k M N P 0%nat a b [] 0 Hk)), E. reflexivity. Qed.
Lemma uz_add M N a b r : mat_add (ST := ZScalar) M N a b = Ok r ->
  mat_add (ST := UIntScalar k) M N (map (wrapU k) a) (map (wrapU k) b) = Ok (map (wrapU k) r).
Proof.
  intros E. destruct (C96_unsigned_matrices cfg k M N 0%nat 0%nat a b [] 0 Hk) as (_ & _ & _ & X & _). rewrite X, E. reflexivity.
Qed.
Lemma uz_mul_s M N a s r : mat_mul_s (ST := ZScalar) M N a s = Ok r ->
  mat_mul_s (ST := UIntScalar k) M N (map (wrapU k) a) (wrapU k s) = Ok (map (wrapU k) r).
Proof.
  intros E. destruct (C96_unsigned_matrices cfg k M N 0%nat 0%nat a [] [] s Hk) as (_ & _ & _ & _ & _ & X & _). rewrite X, E. reflexivity.
Qed.
Lemma uz_transpose M N a r : mat_transpose (ST := ZScalar) M N a = Ok r ->
  mat_transpose (ST := UIntScalar k) M N (map (wrapU k) a) = Ok (map (wrapU k) r).
Proof.
  intros E. assert (X : mat_transpose (ST := UIntScalar k) M N (map (wrapU k) a) = outcome_map (map (wrapU k)) (mat_transpose (ST := ZScalar) M N a))
    by ulist @h_mat_transpose. rewrite X, E. reflexivity.
Qed.
Lemma uz_det n a r : mat_det (ST := ZScalar) n a = Ok r -> mat_det (ST := UIntScalar k) n (map (wrapU k) a) = Ok (wrapU k r).
Proof.
  intros E. assert (X : mat_det (ST := UIntScalar k) n (map (wrapU k) a) = outcome_map (wrapU k) (mat_det (ST := ZScalar) n a))
    by u1 @h_mat_det. rewrite X, E. reflexivity.
Qed.
Lemma uz_adj n a o r : mat_get_adjugate (ST := ZScalar) n (Val a) o = Ok r ->
  mat_get_adjugate (ST := UIntScalar k) n (Val (map (wrapU k) a)) (map (wrapU k) o) = Ok (map (wrapU k) r).
Proof.
  intros E. assert (X : mat_get_adjugate (ST := UIntScalar k) n (Val (map (wrapU k) a)) (map (wrapU k) o) = outcome_map (map (wrapU k)) (mat_get_adjugate (ST := ZScalar) n (Val a) o))
    by ulist @h_mat_get_adjugate. rewrite X, E. reflexivity.
Qed.
Lemma uz_IDENTITY n r : mat_IDENTITY (ST := ZScalar) n = Ok r -> mat_IDENTITY (ST := UIntScalar k) n = Ok (map (wrapU k) r).
Proof.
  intros E. assert (X : mat_IDENTITY (ST := UIntScalar k) n = outcome_map (map (wrapU k)) (mat_IDENTITY (ST := ZScalar) n))
    by ulist @h_mat_IDENTITY. rewrite X, E. reflexivity.
Qed.
End UOps.

Theorem C97_unsigned_laws :
  forall (cfg : Cfg) (k : Z) (M N P Q : nat) (a b c d : list Z), 0 < k ->
  Forall (fun z => 0 <= z < 2 ^ k) (a ++ b ++ c ++ d) ->
  length a = (M * N)%nat -> length b = (N * P)%nat -> length c = (P * Q)%nat -> length d = (N * P)%nat ->
  let ST := UIntScalar k in
  (exists ab bc abc, mat_mul M N P a b = Ok ab /\ mat_mul N P Q b c = Ok bc /\
     mat_mul M P Q ab c = Ok abc /\ mat_mul M N Q a bc = Ok abc) /\
  (exists bd ab ad abd, mat_add N P b d = Ok bd /\ mat_mul M N P a b = Ok ab /\ mat_mul M N P a d = Ok ad /\
     mat_mul M N P a bd = Ok abd /\ mat_add M P ab ad = Ok abd) /\
  (exists ab ta tb t, mat_mul M N P a b = Ok ab /\ mat_transpose M N a = Ok ta /\ mat_transpose N P b = Ok tb /\
     mat_transpose M P ab = Ok t /\ mat_mul P N M tb ta = Ok t).
Proof.
  intros cfg k M N P Q a b c d Hk HF La Lb Lc Ld ST.
  apply Forall_app in HF as (Fa & HF). apply Forall_app in HF as (Fb & HF). apply Forall_app in HF as (Fc & Fd).
  destruct (Z_laws cfg M N P Q a b c d La Lb Lc Ld) as ((ab & bc & abc & E1 & E2 & E3 & E4) &
    (bd & ab' & ad & abd & F1 & F2 & F3 & F4 & F5) & (ab2 & ta & tb & t & G1 & G2 & G3 & G4 & G5)).
  rewrite <- (wrap_id k a Fa), <- (wrap_id k b Fb), <- (wrap_id k c Fc), <- (wrap_id k d Fd).
  split; [|split].
  - exists (map (wrapU k) ab), (map (wrapU k) bc), (map (wrapU k) abc). repeat split; apply uz_mul; assumption.
  - exists (map (wrapU k) bd), (map (wrapU k) ab'), (map (wrapU k) ad), (map (wrapU k) abd).
    repeat split; first [apply uz_mul; assumption|apply uz_add; assumption].
  - exists (map (wrapU k) ab2), (map (wrapU k) ta), (map (wrapU k) tb), (map (wrapU k) t).
    repeat split; first [apply uz_mul; assumption|apply uz_transpose; assumption].
Qed.
Print Assumptions C97_unsigned_laws.

Theorem C97_unsigned_determinant :
  forall (cfg : Cfg) (k : Z) (n : nat) (a b out : list Z), 0 < k ->
  Forall (fun z => 0 <= z < 2 ^ k) (a ++ b ++ out) ->
  (1 <= n <= 4)%nat -> length a = (n * n)%nat -> length b = (n * n)%nat -> length out = (n * n)%nat ->
  let ST := UIntScalar k in
  (exists ab da db, mat_mul n n n a b = Ok ab /\ mat_det n a = Ok da /\ mat_det n b = Ok db /\
     mat_det n ab = Ok ((da * db) mod 2 ^ k)) /\
  (exists t d, mat_transpose n n a = Ok t /\ mat_det n t = Ok d /\ mat_det n a = Ok d) /\
  ((2 <= n)%nat -> exists x d s i, mat_get_adjugate n (Val a) out = Ok x /\ mat_det n a = Ok d /\ mat_IDENTITY n = Ok i /\
     mat_mul_s n n i d = Ok s /\ mat_mul n n n a x = Ok s /\ mat_mul n n n x a = Ok s).
Proof.
  intros cfg k n a b out Hk HF Hn La Lb Lo ST.
  apply Forall_app in HF as (Fa & HF). apply Forall_app in HF as (Fb & Fo).
  assert (P : 0 < 2 ^ k) by (apply Z.pow_pos_nonneg; lia).
  destruct (Z_det_laws cfg n a b out Hn La Lb Lo) as ((ab & da & db & E1 & E2 & E3 & E4) & (t & d & F1 & F2 & F3) & G).
  rewrite <- (wrap_id k a Fa), <- (wrap_id k b Fb), <- (wrap_id k out Fo).
  split; [|split].
  - exists (map (wrapU k) ab), (wrapU k da), (wrapU k db).
    split; [apply uz_mul; assumption|]. split; [apply uz_det; assumption|]. split; [apply uz_det; assumption|].
    replace ((wrapU k da * wrapU k db) mod 2 ^ k) with (wrapU k (da * db)) by (unfold wrapU; apply Z.mul_mod; lia).
    apply uz_det; assumption.
  - exists (map (wrapU k) t), (wrapU k d). split; [apply uz_transpose; assumption|]. split; apply uz_det; assumption.
  - intros H2. destruct (G H2) as (x & dd & s & i & A1 & A2 & A3 & A4 & A5 & A6).
    exists (map (wrapU k) x), (wrapU k dd), (map (wrapU k) s), (map (wrapU k) i).
    split; [apply uz_adj; assumption|]. split; [apply uz_det; assumption|]. split; [apply uz_IDENTITY; assumption|].
    split; [apply uz_mul_s; assumption|]. split; apply uz_mul; assumption.
Qed.
Print Assumptions C97_unsigned_determinant.

(** C97, signed elements: a determinant (adjugate, product) that was computed
    without overflow is the determinant (adjugate, product) of the matrix read as
    real numbers. *)
Theorem C97_signed_determinant :
  forall (cfg : Cfg) (k : Z) (n : nat) (m : list (option Z)) (f : nat -> nat -> Z) (d : Z),
  (1 <= n <= 4)%nat -> repM n n m (fun i j => Some (f i j)) ->
  mat_det (ST := SIntScalar k) n m = Ok (Some d) ->
  IZR d = detR n (fun i j => IZR (f i j)).
Proof.
  intros cfg k n m f d Hn Hm E. pose (lim := anylim).
  set (g := fun i => f (i mod n)%nat (i / n)%nat).
  assert (Lz : length (map g (seq 0 (n * n))) = (n * n)%nat) by (rewrite map_length, seq_length; reflexivity).
  set (z := map g (seq 0 (n * n))) in *.
  assert (Hz : repM n n z f).
  { split; [exact Lz|]. intros i j Hi Hj. unfold z. rewrite nth_error_map, nth_error_nth' with (d := 0%nat) by (rewrite seq_length; apply cell_lt; assumption).
    rewrite seq_nth by (apply cell_lt; assumption). cbn. unfold g. rewrite cell_mod, cell_div by assumption. reflexivity. }
  assert (HR : Forall2 exact1 m z).
  { assert (m = map Some z).
    { eapply repM_inj; [exact Hm|]. split; [rewrite map_length; exact Lz|]. intros i j Hi Hj.
      rewrite nth_error_map, (proj2 Hz i j Hi Hj). reflexivity. }
    subst m. clear. induction z; cbn; constructor; [right; reflexivity|assumption]. }
  pose proof (@h_mat_det cfg _ _ _ _ ES (ES_ring k) n m z HR) as X. rewrite E in X.
  destruct (mat_det (ST := ZScalar) n z) as [d'| | |] eqn:E'; cbn in X; try contradiction.
  destruct X as [X|X]; [discriminate|]. injection X as <-.
  pose proof (zr_det (lim := lim) n z) as Y. rewrite E' in Y. cbn in Y.
  rewrite (C12_det cfg lim n (map IZR z) (fun i j => IZR (f i j)) Hn) in Y; [injection Y as Y; symmetry; exact Y|].
  split; [rewrite map_length; exact Lz|]. intros i j Hi Hj. rewrite nth_error_map, (proj2 Hz i j Hi Hj). reflexivity.
Qed.
Print Assumptions C97_signed_determinant.
Example C97_hypotheses_met : let cfg := {| safe := true |} in
  mat_det (ST := SIntScalar 31) 2 [Some 3; Some 5; Some 2; Some 7] = Ok (Some 11) /\
  mat_det (ST := UIntScalar 8) 2 [200; 5; 2; 7] = Ok 110 /\ Forall (fun z => 0 <= z < 2 ^ 8) [200; 5; 2; 7].
Proof. split; [reflexivity|]. split; [reflexivity|]. repeat constructor; cbn; lia. Qed.
Example C96_hypotheses_met : let cfg := {| safe := true |} in
  vec_dot (ST := UIntScalar 8) 2 [200; 100] [3; 7] = Ok 20 /\ vec_dot (ST := ZScalar) 2 [200; 100] [3; 7] = Ok 1300 /\
  Forall2 exact1 [Some 200; None] [200; 5].
Proof. split; [reflexivity|]. split; [reflexivity|]. constructor; [right; reflexivity|]. constructor; [left; reflexivity|constructor]. Qed.
