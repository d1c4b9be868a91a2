(** Property C141: the numeric limits the library builds on, in double and float,
    and the default tolerance of vector comparisons. *)
From Coq Require Import ZArith Reals Lra Psatz Bool List.
From Flocq Require Import Core.Core IEEE754.BinarySingleNaN IEEE754.Binary IEEE754.Bits.
From Verif Require Import InstF InstF32 LF64 LVector LMatrix LVector2 Spec LSum PFloat LFloat PFloat2 LErr Spec10 LExt PCuller3 PFloat3 PFloat4.
From Verif Require LF32.
Import ListNotations.
Local Open Scope R_scope.
Local Notation bp := (bpow radix2).

(** Numbers of absolute value at least 1 are multiples of the gap above 1. *)
Lemma format_multiple (emin prec : Z) (x : R) : (0 < prec)%Z -> (emin + prec <= 1)%Z -> generic_format radix2 (FLT_exp emin prec) x -> 1 <= Rabs x ->
  exists k : Z, x = IZR k * bp (1 - prec).
Proof.
  intros HP HE G H. red in G. set (e := cexp radix2 (FLT_exp emin prec) x) in *.
  assert (E : (1 - prec <= e)%Z).
  { unfold e, cexp, FLT_exp. assert (M : (1 <= mag radix2 x)%Z). { apply mag_ge_bpow. exact H. } lia. }
  exists (Ztrunc (scaled_mantissa radix2 (FLT_exp emin prec) x) * Z.pow radix2 (e - (1 - prec)))%Z.
  rewrite G at 1. unfold F2R. cbn [Fnum Fexp]. fold e. rewrite mult_IZR, IZR_Zpower by lia. rewrite Rmult_assoc, <- bpow_plus. f_equal. f_equal. lia.
Qed.
Lemma format_gap (emin prec : Z) (x y : R) : (0 < prec)%Z -> (emin + prec <= 1)%Z ->
  generic_format radix2 (FLT_exp emin prec) x -> generic_format radix2 (FLT_exp emin prec) y -> 1 <= Rabs x -> 1 <= Rabs y ->
  Rabs (x - y) < bp (1 - prec) -> x = y.
Proof.
  intros HP HE Gx Gy Hx Hy H. destruct (format_multiple emin prec x HP HE Gx Hx) as (i & ->). destruct (format_multiple emin prec y HP HE Gy Hy) as (j & ->).
  rewrite <- Rmult_minus_distr_r, Rabs_mult, (Rabs_pos_eq (bp _)) in H by apply bpow_ge_0. pose proof (bpow_gt_0 radix2 (1 - prec)) as B.
  assert (K : Rabs (IZR i - IZR j) < 1) by (apply (Rmult_lt_reg_r (bp (1 - prec))); [exact B|lra]).
  rewrite <- minus_IZR, <- abs_IZR in K. apply (lt_IZR _ 1) in K. replace i with j by lia. reflexivity.
Qed.

Local Existing Instance F64Scalar.
Definition f32_val (x : f32) : R := B2R 24 128 x.
Definition f32_finite (x : f32) : Prop := is_finite 24 128 x = true.

(** C141: max() and lowest() bound every finite number; epsilon() is the gap
    above 1: no number lies between 1 and 1 + epsilon(), and 1 + epsilon() is
    one. *)
Theorem C141_double_limits :
  let mx := val (smax (Scalar := F64Scalar)) in let lo := val (slowest (Scalar := F64Scalar)) in let ep := val (seps (Scalar := F64Scalar)) in
  fin (smax (Scalar := F64Scalar)) /\ fin (slowest (Scalar := F64Scalar)) /\
  mx = 2 ^ 1024 - 2 ^ 971 /\ lo = - mx /\ ep = / 2 ^ 52 /\
  (forall x : f64, fin x -> lo <= val x <= mx) /\
  (forall x : f64, fin x -> 1 < val x -> 1 + ep <= val x) /\ (exists x : f64, fin x /\ val x = 1 + ep).
Proof.
  cbv zeta. cbn [smax slowest seps F64Scalar].
  assert (EM : val f64_max = bp 1024 - bp (1024 - 53)).
  { unfold val. change (B2R 53 1024 f64_max) with (IZR (2 ^ 53 - 1) * bp 971). rewrite minus_IZR. change (IZR (2 ^ 53)) with (bp 53).
    rewrite Rmult_minus_distr_r, <- bpow_plus. rewrite Rmult_1_l. reflexivity. }
  assert (EL : val f64_lowest = - val f64_max).
  { unfold val. change (B2R 53 1024 f64_lowest) with (IZR (- (2 ^ 53 - 1)) * bp 971). change (B2R 53 1024 f64_max) with (IZR (2 ^ 53 - 1) * bp 971). rewrite opp_IZR. ring. }
  assert (EE : val f64_eps = bp (1 - 53)).
  { unfold val. change (B2R 53 1024 f64_eps) with (IZR (2 ^ 52) * bp (-104)). change (IZR (2 ^ 52)) with (bp 52). rewrite <- bpow_plus. reflexivity. }
  assert (E52 : bp (1 - 53) = / 2 ^ 52) by (change (1 - 53)%Z with (Z.opp 52); rewrite bpow_opp, (bpow_pow 52); reflexivity).
  split; [reflexivity|]. split; [reflexivity|]. split; [rewrite EM; change (1024 - 53)%Z with 971%Z; rewrite (bpow_pow 1024), (bpow_pow 971); reflexivity|]. split; [exact EL|].
  split; [rewrite EE; exact E52|]. split; [|split].
  - intros x _. rewrite EL, EM. apply Rabs_le_inv. apply (abs_B2R_le_emax_minus_prec 53 1024). reflexivity.
  - intros x Fx Hx. rewrite EE. apply Rnot_lt_le. intros L. 
    assert (X : val x = 1); [|lra]. apply (format_gap (-1074) 53); try lia.
    + apply (generic_format_B2R 53 1024).
    + apply (format_bp 0). lia.
    + rewrite Rabs_pos_eq; lra.
    + rewrite Rabs_R1. lra.
    + rewrite Rabs_pos_eq; lra.
  - exists f64_next1. split; [reflexivity|]. rewrite EE, E52. replace (2 ^ 52) with 4503599627370496 by (cbn; lra).
    unfold val. change (B2R 53 1024 f64_next1) with (4503599627370497 * bp (-52)). change (-52)%Z with (1 - 53)%Z. rewrite E52. replace (2 ^ 52) with 4503599627370496 by (cbn; lra). field.
Qed.
Print Assumptions C141_double_limits.
Theorem C141_float_limits :
  let mx := f32_val (smax (Scalar := F32Scalar)) in let lo := f32_val (slowest (Scalar := F32Scalar)) in let ep := f32_val (seps (Scalar := F32Scalar)) in
  f32_finite (smax (Scalar := F32Scalar)) /\ f32_finite (slowest (Scalar := F32Scalar)) /\
  mx = 2 ^ 128 - 2 ^ 104 /\ lo = - mx /\ ep = / 2 ^ 23 /\
  (forall x : f32, f32_finite x -> lo <= f32_val x <= mx) /\
  (forall x : f32, f32_finite x -> 1 < f32_val x -> 1 + ep <= f32_val x) /\ (exists x : f32, f32_finite x /\ f32_val x = 1 + ep).
Proof.
  cbv zeta. cbn [smax slowest seps F32Scalar].
  assert (EM : f32_val f32_max = bp 128 - bp (128 - 24)).
  { unfold f32_val. change (B2R 24 128 f32_max) with (IZR (2 ^ 24 - 1) * bp 104). rewrite minus_IZR. change (IZR (2 ^ 24)) with (bp 24).
    rewrite Rmult_minus_distr_r, <- bpow_plus. rewrite Rmult_1_l. reflexivity. }
  assert (EL : f32_val f32_lowest = - f32_val f32_max).
  { unfold f32_val. change (B2R 24 128 f32_lowest) with (IZR (- (2 ^ 24 - 1)) * bp 104). change (B2R 24 128 f32_max) with (IZR (2 ^ 24 - 1) * bp 104). rewrite opp_IZR. ring. }
  assert (EE : f32_val f32_eps = bp (1 - 24)).
  { unfold f32_val. change (B2R 24 128 f32_eps) with (IZR (2 ^ 23) * bp (-46)). change (IZR (2 ^ 23)) with (bp 23). rewrite <- bpow_plus. reflexivity. }
  assert (E23 : bp (1 - 24) = / 2 ^ 23) by (change (1 - 24)%Z with (Z.opp 23); rewrite bpow_opp, (bpow_pow 23); reflexivity).
  split; [reflexivity|]. split; [reflexivity|]. split; [rewrite EM; change (128 - 24)%Z with 104%Z; rewrite (bpow_pow 128), (bpow_pow 104); reflexivity|]. split; [exact EL|].
  split; [rewrite EE; exact E23|]. split; [|split].
  - intros x _. rewrite EL, EM. apply Rabs_le_inv. apply (abs_B2R_le_emax_minus_prec 24 128). reflexivity.
  - intros x Fx Hx. rewrite EE. apply Rnot_lt_le. intros L. 
    assert (X : f32_val x = 1); [|lra]. apply (format_gap (-149) 24); try lia.
    + apply (generic_format_B2R 24 128).
    + apply (LF32.format_bp 0). lia.
    + rewrite Rabs_pos_eq; lra.
    + rewrite Rabs_R1. lra.
    + rewrite Rabs_pos_eq; lra.
  - exists (b32_of_bits 0x3F800001). split; [reflexivity|]. rewrite EE, E23. replace (2 ^ 23) with 8388608 by (cbn; lra).
    unfold f32_val. change (B2R 24 128 (b32_of_bits 0x3F800001)) with (8388609 * bp (-23)). change (-23)%Z with (1 - 24)%Z. rewrite E23. replace (2 ^ 23) with 8388608 by (cbn; lra). field.
Qed.
Print Assumptions C141_float_limits.

(** C141: equals() with the default tolerance bounds every difference by the gap
    above 1; on components of absolute value at least 1 it is plain equality. *)
Theorem C141_default_tolerance :
  forall (cfg : Cfg) (M : nat) (u v : list f64) (a b : nat -> f64), repV M u a -> repV M v b ->
  (forall i, (i < M)%nat -> fin (a i) /\ fin (b i)) ->
  exists r, vec_equals_default M u v = Ok r /\
  (r = true -> forall i, (i < M)%nat -> Rabs (val (a i) - val (b i)) < / 2 ^ 52) /\
  ((forall i, (i < M)%nat -> val (a i) = val (b i)) -> r = true) /\
  ((forall i, (i < M)%nat -> 1 <= Rabs (val (a i)) /\ 1 <= Rabs (val (b i))) -> (r = true <-> forall i, (i < M)%nat -> val (a i) = val (b i))).
Proof.
  intros cfg M u v a b Hu Hv HF. destruct C141_double_limits as (_ & _ & _ & _ & EE & _). cbn [seps F64Scalar] in EE.
  assert (Fe : fin f64_eps) by reflexivity. assert (E0 : 0 < / 2 ^ 52) by (apply Rinv_0_lt_compat, pow_lt; lra).
  destruct (C134_vector_equals cfg M u v a b f64_eps Hu Hv Fe HF) as (r & Er & _ & H1 & H2). exists r. split; [exact Er|]. rewrite EE in H1, H2.
  assert (H3 : (forall i, (i < M)%nat -> val (a i) = val (b i)) -> r = true).
  { intros H. apply H2. intros i Hi. rewrite H, Rminus_diag_eq, Rabs_R0 by (try exact Hi; reflexivity). apply Rmult_lt_0_compat; [|exact E0].
    replace (2 ^ 53) with 9007199254740992 by (cbn; lra). lra. }
  split; [exact H1|]. split; [exact H3|]. intros HB. split; [|exact H3]. intros Hr i Hi. destruct (HB i Hi) as (B1 & B2).
  apply (format_gap (-1074) 53); try lia; try assumption.
  - apply (generic_format_B2R 53 1024).
  - apply (generic_format_B2R 53 1024).
  - change (1 - 53)%Z with (Z.opp 52). rewrite bpow_opp, (bpow_pow 52). apply H1; assumption.
Qed.
Print Assumptions C141_default_tolerance.
Example C141_hypotheses_met : forall cfg : Cfg,
  okb (vec_equals_default 2 [f64_one; f64_two] [f64_one; f64_two]) = Some true /\ okb (vec_equals_default 2 [f64_one; f64_two] [f64_next1; f64_two]) = Some false /\
  1 <= Rabs (val f64_one) /\ 1 <= Rabs (val f64_two).
Proof.
  intros [sf]. split; [destruct sf; vm_compute; reflexivity|]. split; [destruct sf; vm_compute; reflexivity|]. rewrite val_one, val_two. split; rewrite Rabs_pos_eq; lra.
Qed.
