(** Property C159: comparisons with a tolerance in float precision.  The code
    calls fabs(); whether the float or the double overload is chosen does not
    matter, both are exact, and so are the conversions to double in the second
    case. *)
From Coq Require Import ZArith Reals Lra Psatz Bool List.
From Flocq Require Import Core.Core IEEE754.BinarySingleNaN IEEE754.Binary IEEE754.Bits.
From Verif Require Import InstF InstF32 LVector LMatrix LVector2 Spec LSum PMatrix5 PF32 LF32 PF32b Spec10f LExt32 PF32c LExprF PCullF.
Import ListNotations.
Local Open Scope R_scope.
Local Existing Instance F32Scalar.
Local Notation rnd := (round radix2 (FLT_exp (-149) 24) (Znearest (fun x => negb (Z.even x)))).
Local Notation bp := (bpow radix2).

(** [fabs( a - b ) >= t] decided in float. *)
Lemma tol_reached (a b t : f32) : fin a -> fin b -> fin t ->
  val t <= Rabs (val a - val b) -> Bleb32 t (b32_abs (b32_minus mode_NE a b)) = true.
Proof.
  intros Fa Fb Ft H. apply Bleb_at_most. rewrite value_abs, value_minus, (value_fin a Fa), (value_fin b Fb), (value_fin t Ft). cbn [negated nadd].
  unfold rnx. destruct (Rlt_bool_spec (Rabs (rnd (val a + - val b))) (bp 128)) as [L|L]; cbn [nabs at_most]; [|exact I].
  change (val a + - val b) with (val a - val b) in *.
  destruct (Rle_lt_dec (val t) 0) as [N|P]; [pose proof (Rabs_pos (rnd (val a - val b))); lra|].
  apply abs_round_ge_generic; [apply FLT_exp_valid; reflexivity|apply valid_rnd_N| |exact H].
  unfold val. apply generic_format_B2R.
Qed.
Lemma tol_real (x y t : R) : 0 <= x -> y <= (1 + uro) * x -> t <= y -> (1 - uro) * t <= x.
Proof. rewrite uro_val. intros. lra. Qed.
Lemma uro_2 : uro = / 2 ^ 24.
Proof. rewrite uro_val. f_equal. ring. Qed.
Lemma tol_nearly (a b t : f32) : fin a -> fin b -> fin t ->
  Bleb32 t (b32_abs (b32_minus mode_NE a b)) = true -> (1 - uro) * val t <= Rabs (val a - val b).
Proof.
  intros Fa Fb Ft H. apply Bleb_at_most in H. rewrite value_abs, value_minus, (value_fin a Fa), (value_fin b Fb), (value_fin t Ft) in H. cbn [negated nadd] in H.
  assert (EO : val (b32_opp b) = - val b) by (unfold val, b32_opp; apply B2R_Bopp).
  destruct (plus_error a (b32_opp b)) as (d & Hd & Ed). rewrite EO in Ed. change (val a + - val b) with (val a - val b) in *.
  pose proof (Rabs_pos (val a - val b)) as Dp.
  assert (R1 : Rabs (rnd (val a - val b)) <= (1 + uro) * Rabs (val a - val b)).
  { rewrite Ed, Rabs_mult, Rmult_comm. apply Rmult_le_compat_r; [exact Dp|]. eapply Rle_trans; [apply Rabs_triang|]. rewrite Rabs_R1. lra. }
  assert (R2 : val t <= Rabs (rnd (val a - val b))).
  { unfold rnx in H. destruct (Rlt_bool_spec (Rabs (rnd (val a - val b))) (bp 128)) as [L|L]; cbn [nabs at_most] in H; [exact H|].
    eapply Rle_trans; [|exact L]. apply Rlt_le. eapply Rle_lt_trans; [apply Rle_abs|]. unfold val. apply abs_B2R_lt_emax. }
  exact (tol_real _ _ _ Dp R1 R2).
Qed.
Lemma minus_not_nan a b : fin a -> fin b -> value (b32_abs (b32_minus mode_NE a b)) <> NotANumber.
Proof.
  intros Fa Fb. rewrite value_abs, value_minus, (value_fin a Fa), (value_fin b Fb). cbn [negated nadd]. unfold rnx.
  destruct (Rlt_bool _ _); cbn; discriminate.
Qed.
Lemma Bltb_negb x y : value x <> NotANumber -> value y <> NotANumber -> Bltb32 x y = negb (Bleb32 y x).
Proof.
  unfold Bltb32, Bleb32, b32_compare. intros Nx Ny.
  assert (X : is_nan 24 128 x = false) by (destruct x; cbn in *; congruence).
  assert (Y : is_nan 24 128 y = false) by (destruct y; cbn in *; congruence).
  destruct (is_finite 24 128 x) eqn:Fx; [destruct (is_finite 24 128 y) eqn:Fy|].
  - rewrite (Bcompare_correct 24 128 x y Fx Fy), (Bcompare_correct 24 128 y x Fy Fx).
    destruct (Rcompare_spec (B2R 24 128 x) (B2R 24 128 y)), (Rcompare_spec (B2R 24 128 y) (B2R 24 128 x)); try reflexivity; lra.
  - destruct x as [s|s|s p0 H0|s m e H0]; try discriminate; destruct y as [t|t|t p1 H1|t m1 e1 H1]; try discriminate; destruct s; try destruct t; reflexivity.
  - destruct x as [s|s|s p0 H0|s m e H0]; try discriminate; destruct y as [t|t|t p1 H1|t m1 e1 H1]; try discriminate; destruct s; try destruct t; reflexivity.
Qed.

(** C159: u.equals( v, tolerance ) of finite float vectors never accepts a pair
    of components whose exact difference reaches the tolerance, and never
    rejects vectors whose exact differences stay below (1 - 2^-24) tolerance. *)
Theorem C159_vector_equals :
  forall (cfg : Cfg) (M : nat) (u v : list f32) (fu fv : nat -> f32) (tol : f32),
  repV M u fu -> repV M v fv -> fin tol ->
  (forall i, (i < M)%nat -> fin (fu i) /\ fin (fv i)) ->
  exists b, vec_equals M u v tol = Ok b /\ vec_equals M v u tol = Ok b /\
  (b = true -> forall i, (i < M)%nat -> Rabs (val (fu i) - val (fv i)) < val tol) /\
  ((forall i, (i < M)%nat -> Rabs (val (fu i) - val (fv i)) < (1 - / 2 ^ 24) * val tol) -> b = true).
Proof.
  intros cfg M u v fu fv tol Hu Hv Ft HF.
  destruct (vec_equals_spec M u v fu fv tol Hu Hv) as (b & Eb & Hb). exists b. split; [exact Eb|].
  cbn [sleb sabs ssub F32Scalar] in Hb. split; [|split].
  - destruct (vec_equals_spec M v u fv fu tol Hv Hu) as (b' & Eb' & Hb'). rewrite Eb'. f_equal. apply eq_true_iff_eq. rewrite Hb, Hb'.
    cbn [sleb sabs ssub F32Scalar].
    assert (K : forall x y, Bleb32 tol (b32_abs (b32_minus mode_NE x y)) = Bleb32 tol (b32_abs (b32_minus mode_NE y x))).
    { intros x y. apply eq_true_iff_eq. rewrite !Bleb_at_most, !value_abs, !value_minus.
      replace (nadd (value y) (negated (value x))) with (negated (nadd (value x) (negated (value y)))).
      - destruct (nadd (value x) (negated (value y))); cbn; try tauto. rewrite Rabs_Ropp. tauto.
      - rewrite <- nadd_opp, negated_invol. apply nadd_comm. }
    split; intros H i Hi; rewrite K; apply H; exact Hi.
  - intros E i Hi. destruct (Rlt_le_dec (Rabs (val (fu i) - val (fv i))) (val tol)) as [L|L]; [exact L|exfalso].
    pose proof (proj1 Hb E i Hi) as X. destruct (HF i Hi) as (F1 & F2). rewrite (tol_reached _ _ _ F1 F2 Ft L) in X. discriminate.
  - intros H. apply Hb. intros i Hi. destruct (Bleb32 tol (b32_abs (b32_minus mode_NE (fu i) (fv i)))) eqn:X; [exfalso|reflexivity].
    destruct (HF i Hi) as (F1 & F2). pose proof (tol_nearly _ _ _ F1 F2 Ft X) as Y. specialize (H i Hi). rewrite uro_2 in Y. lra.
Qed.
Print Assumptions C159_vector_equals.
Theorem C159_matrix_equals :
  forall (cfg : Cfg) (M N : nat) (m o : list f32) (f g : nat -> nat -> f32) (tol : f32),
  repM M N m f -> repM M N o g -> fin tol ->
  (forall i j, (i < M)%nat -> (j < N)%nat -> fin (f i j) /\ fin (g i j)) ->
  exists b, mat_equals M N m o tol = Ok b /\
  (b = true -> forall i j, (i < M)%nat -> (j < N)%nat -> Rabs (val (f i j) - val (g i j)) < val tol) /\
  ((forall i j, (i < M)%nat -> (j < N)%nat -> Rabs (val (f i j) - val (g i j)) < (1 - / 2 ^ 24) * val tol) -> b = true).
Proof.
  intros cfg M N m o f g tol Hm Ho Ft HF.
  destruct (mat_equals_by_spec (fun a b => sltb (sabs (ssub a b)) tol) M N m o f g Hm Ho) as (b & Eb & Hb). exists b. split; [exact Eb|].
  cbn [sltb sabs ssub F32Scalar] in Hb.
  assert (VT : value tol <> NotANumber) by (rewrite (value_fin tol Ft); discriminate).
  split.
  - intros E i j Hi Hj. destruct (Rlt_le_dec (Rabs (val (f i j) - val (g i j))) (val tol)) as [L|L]; [exact L|exfalso].
    pose proof (proj1 Hb E i j Hi Hj) as X. destruct (HF i j Hi Hj) as (F1 & F2).
    rewrite (Bltb_negb _ _ (minus_not_nan _ _ F1 F2) VT), (tol_reached _ _ _ F1 F2 Ft L) in X. discriminate.
  - intros H. apply Hb. intros i j Hi Hj. destruct (HF i j Hi Hj) as (F1 & F2).
    rewrite (Bltb_negb _ _ (minus_not_nan _ _ F1 F2) VT). apply negb_true_iff.
    destruct (Bleb32 tol (b32_abs (b32_minus mode_NE (f i j) (g i j)))) eqn:X; [exfalso|reflexivity].
    pose proof (tol_nearly _ _ _ F1 F2 Ft X) as Y. specialize (H i j Hi Hj). rewrite uro_2 in Y. lra.
Qed.
Print Assumptions C159_matrix_equals.

(** C159: with a positive tolerance a vector equals itself even if it contains
    infinities or NaNs; a matrix equals itself exactly if all its cells are
    finite. *)
Lemma minus_self x : value (b32_minus mode_NE x x) = if is_finite 24 128 x then Number 0 else NotANumber.
Proof.
  rewrite value_minus. destruct x as [s|s|s p0 H0|s m e H0]; cbn [value negated nadd is_finite]; try reflexivity.
  - cbn [B2R]. unfold rnx. replace (0 + - 0) with 0 by ring. rewrite rnd_0, Rabs_R0, Rlt_bool_true by apply bpow_gt_0. reflexivity.
  - destruct s; reflexivity.
  - unfold rnx. rewrite Rplus_opp_r, rnd_0, Rabs_R0, Rlt_bool_true by apply bpow_gt_0. reflexivity.
Qed.
Theorem C159_equals_itself :
  forall (cfg : Cfg) (M N : nat) (v m : list f32) (tol : f32),
  length v = M -> length m = (M * N)%nat -> fin tol -> 0 < val tol ->
  vec_equals M v v tol = Ok true /\
  exists b, mat_equals M N m m tol = Ok b /\ (b = true <-> forall x, In x m -> fin x).
Proof.
  intros cfg M N v m tol Lv Lm Ft Ht. split.
  - pose proof (repV_nth M v f32_zero Lv) as Hv. destruct (vec_equals_spec M v v _ _ tol Hv Hv) as (b & Eb & Hb). rewrite Eb. f_equal.
    apply Hb. intros i Hi. set (x := nth i v f32_zero). cbn [sleb sabs ssub F32Scalar].
    destruct (Bleb32 tol (b32_abs (b32_minus mode_NE x x))) eqn:X; [exfalso|reflexivity].
    apply Bleb_at_most in X. rewrite value_abs, minus_self, (value_fin tol Ft) in X.
    destruct (is_finite 24 128 x); cbn in X; [|exact X]. rewrite Rabs_R0 in X. lra.
  - pose proof (repM_nth M N m f32_zero Lm) as Hm.
    destruct (mat_equals_by_spec (fun a b => sltb (sabs (ssub a b)) tol) M N m m _ _ Hm Hm) as (b & Eb & Hb). exists b. split; [exact Eb|].
    rewrite Hb. cbn [sltb sabs ssub F32Scalar].
    assert (K : forall x, Bltb32 (b32_abs (b32_minus mode_NE x x)) tol = true <-> fin x).
    { intros x. unfold fin. pose proof (minus_self x) as E. destruct (is_finite 24 128 x) eqn:Fx.
      - split; [reflexivity|intros _]. apply Bltb32_fin.
        + assert (G : value (b32_abs (b32_minus mode_NE x x)) = Number 0) by (rewrite value_abs, E; cbn; rewrite Rabs_R0; reflexivity).
          apply value_number in G. apply G.
        + exact Ft.
        + assert (G : value (b32_abs (b32_minus mode_NE x x)) = Number 0) by (rewrite value_abs, E; cbn; rewrite Rabs_R0; reflexivity).
          apply value_number in G. destruct G as (_ & ->). exact Ht.
      - split; [|discriminate]. assert (G : value (b32_abs (b32_minus mode_NE x x)) = NotANumber) by (rewrite value_abs, E; reflexivity).
        destruct (b32_abs (b32_minus mode_NE x x)); try discriminate G. destruct tol; discriminate. }
    split.
    + intros H x Hx. destruct (In_nth_error m x Hx) as (k & Ek).
      assert (Hk : (k < M * N)%nat) by (rewrite <- Lm; apply nth_error_Some; congruence).
      destruct (cell_surj M N k Hk) as (i & j & Hi & Hj & Ekk). specialize (H i j Hi Hj). apply K in H.
      pose proof (proj2 Hm i j Hi Hj) as X. rewrite <- Ekk in X. congruence || (rewrite Ek in X; injection X as ->; exact H).
    + intros H i j Hi Hj. apply K. apply H. pose proof (proj2 Hm i j Hi Hj) as X. eapply nth_error_In. exact X.
Qed.
Print Assumptions C159_equals_itself.

(** Non-trivial instances: 1 and 1 + 2^-23 are equal up to 2^-22 but not up to
    2^-23; a vector of a NaN and an infinity equals itself, the matrix of the
    same cells does not. *)
Definition okb (r : res bool) : option bool := match r with Ok b => Some b | _ => None end.
Definition f32_next1 : f32 := b32_of_bits 0x3F800001.
Example C159_hypotheses_met : forall cfg : Cfg,
  fin f32_eps /\ fin f32_next1 /\
  okb (vec_equals 1 [f32_one] [f32_next1] (b32_of_bits 0x34800000)) = Some true /\
  okb (vec_equals 1 [f32_one] [f32_next1] f32_eps) = Some false /\
  okb (mat_equals 1 1 [f32_one] [f32_next1] f32_eps) = Some false /\
  okb (vec_equals 2 [(b32_of_bits 0x7FC00000); f32_inf] [(b32_of_bits 0x7FC00000); f32_inf] f32_eps) = Some true /\
  okb (mat_equals 1 2 [(b32_of_bits 0x7FC00000); f32_inf] [(b32_of_bits 0x7FC00000); f32_inf] f32_eps) = Some false.
Proof. intros [[|]]; repeat split; vm_compute; reflexivity. Qed.
