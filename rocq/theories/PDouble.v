(** Property C162: one float operation evaluated in double and rounded back to
    float.  This is what happens wherever vmmlib mixes a double literal into a
    float expression and stores the result at once, wherever an unqualified
    sqrt() or fabs() picks the double overload (quaternion.hpp:493,
    intersection.hpp:108, vector.hpp:1327, matrix.hpp:938), and on machines that
    evaluate float expressions in double (FLT_EVAL_METHOD = 1) as far as every
    operation is stored. *)
From Coq Require Import ZArith Reals Lra Psatz Bool List.
From Flocq Require Import Core.Core IEEE754.BinarySingleNaN IEEE754.Binary IEEE754.Bits.
From Flocq Require Double_rounding.
From Verif Require Import InstF InstF32 LVector LVector2 LMatrix PMatrix5 MFrustum MFloat MDouble MQuaternion PF32 LF32 Spec10f LExt32 LF32d.
From Verif Require PFloat LFloat LErr.
Import ListNotations.
Local Open Scope R_scope.

(** ** The rounding *)
Lemma narrow_round (d : f64) (z : R) : is_finite 53 1024 d = true -> val64 d = rnd64 z -> rnd32 (rnd64 z) = rnd32 z ->
  value (f32_of_f64 d) = rnx z.
Proof.
  intros F E RR. destruct (narrow d F) as (N & _). rewrite N, E. unfold rnx. rewrite RR.
  destruct (Rlt_bool_spec (Rabs (rnd32 z)) (bp 128)) as [L|L]; [reflexivity|]. f_equal.
  assert (NZ : rnd32 z <> 0) by (intros Z; rewrite Z, Rabs_R0 in L; pose proof (bpow_gt_0 radix2 128); lra).
  assert (R0 : forall P : Valid_exp (FLT_exp (-1074) 53), True) by trivial.
  destruct (Rlt_bool_spec z 0) as [N0|P0].
  - apply Rlt_bool_true. assert (A : rnd64 z <= 0).
    { rewrite <- (round_0 radix2 (FLT_exp (-1074) 53) (Znearest (fun x => negb (Z.even x)))). apply round_le; [apply (fexp_correct 53 1024 eq_refl)|apply valid_rnd_N|lra]. }
    destruct (Req_dec (rnd64 z) 0) as [Z|Z]; [|lra]. exfalso. apply NZ. rewrite <- RR, Z. apply round_0. apply valid_rnd_N.
  - apply Rlt_bool_false. rewrite <- (round_0 radix2 (FLT_exp (-1074) 53) (Znearest (fun x => negb (Z.even x)))). apply round_le; [apply (fexp_correct 53 1024 eq_refl)|apply valid_rnd_N|lra].
Qed.
Lemma fmt (x : f32) : FLT_format radix2 (-149) 24 (val32 x).
Proof. apply FLT_format_generic; [reflexivity|apply (generic_format_B2R 24 128)]. Qed.
Lemma rr_plus (x y : f32) : rnd32 (rnd64 (val32 x + val32 y)) = rnd32 (val32 x + val32 y).
Proof.
  assert (I53 : Prec_gt_0 53) by reflexivity. assert (I24 : Prec_gt_0 24) by reflexivity.
  exact (Double_rounding.round_round_plus_FLT radix2 (-149) 24 (-1074) 53 (fun x => negb (Z.even x)) (fun x => negb (Z.even x)) ltac:(lia) ltac:(lia) _ _ (fmt x) (fmt y)).
Qed.
Lemma rr_minus (x y : f32) : rnd32 (rnd64 (val32 x - val32 y)) = rnd32 (val32 x - val32 y).
Proof.
  assert (I53 : Prec_gt_0 53) by reflexivity. assert (I24 : Prec_gt_0 24) by reflexivity.
  exact (Double_rounding.round_round_minus_FLT radix2 (-149) 24 (-1074) 53 (fun x => negb (Z.even x)) (fun x => negb (Z.even x)) ltac:(lia) ltac:(lia) _ _ (fmt x) (fmt y)).
Qed.
Lemma rr_mult (x y : f32) : rnd32 (rnd64 (val32 x * val32 y)) = rnd32 (val32 x * val32 y).
Proof. apply Double_rounding.round_round_mult_FLT; [apply valid_rnd_N|lia|lia|apply fmt|apply fmt]. Qed.
Lemma rr_div (x y : f32) : val32 y <> 0 -> rnd32 (rnd64 (val32 x / val32 y)) = rnd32 (val32 x / val32 y).
Proof.
  assert (I53 : Prec_gt_0 53) by reflexivity. assert (I24 : Prec_gt_0 24) by reflexivity. intros H.
  exact (Double_rounding.round_round_div_FLT radix2 (-149) 24 (-1074) 53 (fun x => negb (Z.even x)) (fun x => negb (Z.even x)) ltac:(exists 1%Z; reflexivity) ltac:(lia) ltac:(lia) _ _ H (fmt x) (fmt y)).
Qed.
Lemma rr_sqrt (x : f32) : rnd32 (rnd64 (sqrt (val32 x))) = rnd32 (sqrt (val32 x)).
Proof.
  assert (I53 : Prec_gt_0 53) by reflexivity. assert (I24 : Prec_gt_0 24) by reflexivity.
  exact (Double_rounding.round_round_sqrt_FLT radix2 (-149) 24 (-1074) 53 (fun x => negb (Z.even x)) (fun x => negb (Z.even x)) ltac:(lia) ltac:(left; lia) ltac:(lia) _ (fmt x)).
Qed.

(** ** The shape of a widened float *)
Lemma widen_shape (x : f32) :
  match x with
  | B754_nan _ _ _ _ _ => is_nan 53 1024 (f64_of_f32 x) = true
  | B754_infinity _ _ s => f64_of_f32 x = B754_infinity 53 1024 s
  | B754_zero _ _ s => f64_of_f32 x = B754_zero 53 1024 s
  | B754_finite _ _ s _ _ _ => exists m e H, f64_of_f32 x = B754_finite 53 1024 s m e H
  end.
Proof.
  destruct x as [s|s|s p0 H0|s m e H] eqn:E; try reflexivity.
  rewrite <- E. assert (F : fin x) by (rewrite E; reflexivity). destruct (widen x F) as (W1 & W2 & W3).
  assert (NZ : val32 x <> 0) by (rewrite E; cbn; apply F2R_neq_0; destruct s; discriminate).
  destruct (f64_of_f32 x) as [t|t|t p1 H1|t m1 e1 H1]; try discriminate W1.
  - exfalso. apply NZ. rewrite <- W2. reflexivity.
  - rewrite E in W3. cbn in W3. subst t. eauto.
Qed.
Lemma same_value_sign x y : value x = value y -> (fin x -> fin y -> Bsign 24 128 x = Bsign 24 128 y) -> same x y.
Proof.
  intros E K. apply same_of_value; [exact E|]. intros N. destruct x as [s|s|s p0 H0|s m e H0] eqn:X; try discriminate N.
  - apply K; [reflexivity|]. symmetry in E. apply value_number in E. apply E.
  - destruct y; try discriminate E. injection E as ->. reflexivity.
  - apply K; [reflexivity|]. symmetry in E. apply value_number in E. apply E.
Qed.
Lemma small64 (z : R) : Rabs z <= bp 1000 -> Rlt_bool (Rabs (rnd64 z)) (bp 1024) = true.
Proof.
  intros H. apply Rlt_bool_true. eapply Rle_lt_trans; [|apply (bpow_lt radix2 1000 1024); lia].
  apply abs_round_le_generic; [apply (fexp_correct 53 1024 eq_refl)|apply valid_rnd_N|apply (LFloat.format_bp 1000); lia|exact H].
Qed.
Lemma lt128 (x : f32) : Rabs (val32 x) <= bp 128.
Proof. apply Rlt_le, (abs_B2R_lt_emax 24 128). Qed.

(** ** The operations *)
Lemma plus_via (x y : f32) : same (via2 (b64_plus mode_NE) x y) (b32_plus mode_NE x y).
Proof.
  unfold via2. destruct (is_finite 24 128 x) eqn:Fx; [destruct (is_finite 24 128 y) eqn:Fy|].
  - destruct (widen x Fx) as (W1 & W2 & W3). destruct (widen y Fy) as (V1 & V2 & V3).
    pose proof (Bplus_correct 53 1024 eq_refl eq_refl binop_nan_pl64 mode_NE _ _ W1 V1) as C.
    change (Bplus 53 1024 eq_refl eq_refl binop_nan_pl64) with b64_plus in C. set (d := b64_plus mode_NE _ _) in *.
    rewrite W2, V2, W3, V3 in C. cbn [round_mode] in C. change (SpecFloat.fexp 53 1024) with (FLT_exp (-1074) 53) in C.
    rewrite small64 in C.
    2:{ pose proof (Rabs_triang (val32 x) (val32 y)). pose proof (lt128 x). pose proof (lt128 y).
        assert (2 * bp 128 <= bp 1000) by (change 2 with (bp 1); rewrite <- bpow_plus; apply bpow_le; lia). lra. }
    destruct C as (C1 & C2 & C3). apply same_value_sign.
    + rewrite (narrow_round d _ C2 C1 (rr_plus x y)), value_plus, (value_fin x Fx), (value_fin y Fy). reflexivity.
    + intros _ F. rewrite (proj2 (proj2 (narrow d C2))), C3.
      pose proof (Bplus_correct 24 128 eq_refl eq_refl binop_nan_pl32 mode_NE x y Fx Fy) as K.
      change (Bplus 24 128 eq_refl eq_refl binop_nan_pl32) with b32_plus in K. set (q := b32_plus mode_NE x y) in *.
      destruct (Rlt_bool _ _) in K; [destruct K as (_ & _ & ->); reflexivity|]. exfalso. destruct K as (K & _).
      destruct q; try discriminate F; discriminate K.
  - pose proof (widen_shape x) as Wx. pose proof (widen_shape y) as Wy.
    destruct x as [s|s|s p0 H0|s m e H0]; try discriminate Fx; destruct y as [t|t|t p1 H1|t m1 e1 H1]; try discriminate Fy;
      try (destruct Wx as (m' & e' & H' & Wx)); rewrite Wx; try rewrite Wy; try (left; reflexivity);
      (destruct (f64_of_f32 (B754_nan 24 128 _ _ _)); try discriminate Wy; right; split; reflexivity).
  - pose proof (widen_shape x) as Wx. pose proof (widen_shape y) as Wy.
    destruct x as [s|s|s p0 H0|s m e H0]; try discriminate Fx; destruct y as [t|t|t p1 H1|t m1 e1 H1];
      try (destruct Wy as (m' & e' & H' & Wy)); try rewrite Wx; try rewrite Wy;
      try (destruct s, t); try (left; reflexivity); try (right; split; reflexivity).
Qed.
Lemma minus_via (x y : f32) : same (via2 (b64_minus mode_NE) x y) (b32_minus mode_NE x y).
Proof.
  unfold via2. destruct (is_finite 24 128 x) eqn:Fx; [destruct (is_finite 24 128 y) eqn:Fy|].
  - destruct (widen x Fx) as (W1 & W2 & W3). destruct (widen y Fy) as (V1 & V2 & V3).
    pose proof (Bminus_correct 53 1024 eq_refl eq_refl binop_nan_pl64 mode_NE _ _ W1 V1) as C.
    change (Bminus 53 1024 eq_refl eq_refl binop_nan_pl64) with b64_minus in C. set (d := b64_minus mode_NE _ _) in *.
    rewrite W2, V2, W3, V3 in C. cbn [round_mode] in C. change (SpecFloat.fexp 53 1024) with (FLT_exp (-1074) 53) in C.
    rewrite small64 in C.
    2:{ pose proof (Rabs_triang (val32 x) (- val32 y)) as T. rewrite Rabs_Ropp in T. pose proof (lt128 x). pose proof (lt128 y).
        assert (2 * bp 128 <= bp 1000) by (change 2 with (bp 1); rewrite <- bpow_plus; apply bpow_le; lia). unfold Rminus. lra. }
    destruct C as (C1 & C2 & C3). apply same_value_sign.
    + rewrite (narrow_round d _ C2 C1 (rr_minus x y)), value_minus, (value_fin x Fx), (value_fin y Fy). reflexivity.
    + intros _ F. rewrite (proj2 (proj2 (narrow d C2))), C3.
      pose proof (Bminus_correct 24 128 eq_refl eq_refl binop_nan_pl32 mode_NE x y Fx Fy) as K.
      change (Bminus 24 128 eq_refl eq_refl binop_nan_pl32) with b32_minus in K. set (q := b32_minus mode_NE x y) in *.
      destruct (Rlt_bool _ _) in K; [destruct K as (_ & _ & ->); reflexivity|]. exfalso. destruct K as (K & _).
      destruct q; try discriminate F; discriminate K.
  - pose proof (widen_shape x) as Wx. pose proof (widen_shape y) as Wy.
    destruct x as [s|s|s p0 H0|s m e H0]; try discriminate Fx; destruct y as [t|t|t p1 H1|t m1 e1 H1]; try discriminate Fy;
      try (destruct Wx as (m' & e' & H' & Wx)); rewrite Wx; try rewrite Wy; try (left; reflexivity);
      (destruct (f64_of_f32 (B754_nan 24 128 _ _ _)); try discriminate Wy; right; split; reflexivity).
  - pose proof (widen_shape x) as Wx. pose proof (widen_shape y) as Wy.
    destruct x as [s|s|s p0 H0|s m e H0]; try discriminate Fx; destruct y as [t|t|t p1 H1|t m1 e1 H1];
      try (destruct Wy as (m' & e' & H' & Wy)); try rewrite Wx; try rewrite Wy;
      try (destruct s, t); try (left; reflexivity); try (right; split; reflexivity).
Qed.
Lemma mult_via (x y : f32) : same (via2 (b64_mult mode_NE) x y) (b32_mult mode_NE x y).
Proof.
  unfold via2. destruct (is_finite 24 128 x) eqn:Fx; [destruct (is_finite 24 128 y) eqn:Fy|].
  - destruct (widen x Fx) as (W1 & W2 & W3). destruct (widen y Fy) as (V1 & V2 & V3).
    pose proof (Bmult_correct 53 1024 eq_refl eq_refl binop_nan_pl64 mode_NE (f64_of_f32 x) (f64_of_f32 y)) as C.
    change (Bmult 53 1024 eq_refl eq_refl binop_nan_pl64) with b64_mult in C. set (d := b64_mult mode_NE _ _) in *.
    rewrite W1, V1, W2, V2, W3, V3 in C. cbn [round_mode] in C. change (SpecFloat.fexp 53 1024) with (FLT_exp (-1074) 53) in C.
    rewrite small64 in C.
    2:{ rewrite Rabs_mult. eapply Rle_trans; [apply Rmult_le_compat; [apply Rabs_pos|apply Rabs_pos|apply lt128|apply lt128]|]. rewrite <- bpow_plus. apply bpow_le. lia. }
    destruct C as (C1 & C2 & C3). apply same_value_sign.
    + rewrite (narrow_round d _ C2 C1 (rr_mult x y)), value_mult, (value_fin x Fx), (value_fin y Fy). reflexivity.
    + intros _ F. rewrite (proj2 (proj2 (narrow d C2))), C3 by (destruct d; try discriminate C2; reflexivity).
      pose proof (Bmult_correct 24 128 eq_refl eq_refl binop_nan_pl32 mode_NE x y) as K.
      change (Bmult 24 128 eq_refl eq_refl binop_nan_pl32) with b32_mult in K. set (q := b32_mult mode_NE x y) in *.
      destruct (Rlt_bool _ _) in K; [destruct K as (_ & _ & K); symmetry; apply K; destruct q; try discriminate F; reflexivity|]. exfalso.
      destruct q; try discriminate F; discriminate K.
  - pose proof (widen_shape x) as Wx. pose proof (widen_shape y) as Wy.
    destruct x as [s|s|s p0 H0|s m e H0]; try discriminate Fx; destruct y as [t|t|t p1 H1|t m1 e1 H1]; try discriminate Fy;
      try (destruct Wx as (m' & e' & H' & Wx)); rewrite Wx; try rewrite Wy; try (left; reflexivity); try (right; split; reflexivity);
      (destruct (f64_of_f32 (B754_nan 24 128 _ _ _)); try discriminate Wy; right; split; reflexivity).
  - pose proof (widen_shape x) as Wx. pose proof (widen_shape y) as Wy.
    destruct x as [s|s|s p0 H0|s m e H0]; try discriminate Fx; destruct y as [t|t|t p1 H1|t m1 e1 H1];
      try (destruct Wy as (m' & e' & H' & Wy)); try rewrite Wx; try rewrite Wy;
      try (destruct s, t); try (left; reflexivity); try (right; split; reflexivity).
Qed.
Lemma div_via (x y : f32) : same (via2 (b64_div mode_NE) x y) (b32_div mode_NE x y).
Proof.
  unfold via2. destruct (is_finite 24 128 x) eqn:Fx; [destruct (is_finite_strict 24 128 y) eqn:Fy|].
  - assert (Fy' : fin y) by (destruct y; try discriminate Fy; reflexivity).
    assert (NZ : val32 y <> 0) by (destruct y as [t|t|t p1 H1|t m1 e1 H1]; try discriminate Fy; cbn; apply F2R_neq_0; destruct t; discriminate).
    destruct (widen x Fx) as (W1 & W2 & W3). destruct (widen y Fy') as (V1 & V2 & V3).
    pose proof (Bdiv_correct 53 1024 eq_refl eq_refl binop_nan_pl64 mode_NE (f64_of_f32 x) (f64_of_f32 y)) as C.
    change (Bdiv 53 1024 eq_refl eq_refl binop_nan_pl64) with b64_div in C. set (d := b64_div mode_NE _ _) in *.
    rewrite W1, W2, V2, W3, V3 in C. specialize (C NZ). cbn [round_mode] in C. change (SpecFloat.fexp 53 1024) with (FLT_exp (-1074) 53) in C.
    rewrite small64 in C.
    2:{ unfold Rdiv. rewrite Rabs_mult, Rabs_inv. eapply Rle_trans; [apply (Rmult_le_compat _ (bp 128) _ (bp 149)); [apply Rabs_pos|apply Rlt_le, Rinv_0_lt_compat, Rabs_pos_lt, NZ|apply lt128|]|].
        - change 149%Z with (Z.opp (-149)). rewrite bpow_opp. apply Rinv_le; [apply bpow_gt_0|]. apply (abs_B2R_ge_emin 24 128). exact Fy.
        - rewrite <- bpow_plus. apply bpow_le. lia. }
    destruct C as (C1 & C2 & C3).
    pose proof (Bdiv_correct 24 128 eq_refl eq_refl binop_nan_pl32 mode_NE x y NZ) as K.
    change (Bdiv 24 128 eq_refl eq_refl binop_nan_pl32) with b32_div in K. set (q := b32_div mode_NE x y) in *.
    cbn [round_mode] in K. change (SpecFloat.fexp 24 128) with (FLT_exp (-149) 24) in K.
    apply same_value_sign.
    + rewrite (narrow_round d _ C2 C1 (rr_div x y NZ)). unfold rnx. destruct (Rlt_bool _ _) eqn:B in K; rewrite B.
      * destruct K as (K1 & K2 & _). rewrite Fx in K2. rewrite (value_fin q K2). unfold val. rewrite K1. reflexivity.
      * rewrite (value_inf _ _ K). f_equal. apply big_nz in B.
        assert (XZ : val32 x <> 0) by (intros Z; apply B; rewrite Z; unfold Rdiv; ring).
        assert (SG : forall z : f32, fin z -> val32 z <> 0 -> if Bsign 24 128 z then val32 z < 0 else 0 < val32 z).
        { intros z Fz Nz. destruct (Bsign 24 128 z) eqn:Sz; [pose proof (sign_le0 z Fz Sz)|pose proof (sign_ge0 z Fz Sz)]; unfold val in *; lra. }
        pose proof (SG x Fx XZ) as Sx. pose proof (SG y Fy' NZ) as Sy. unfold Rdiv.
        destruct (Bsign 24 128 x), (Bsign 24 128 y); cbn [xorb].
        -- apply Rlt_bool_false. pose proof (Rinv_lt_0_compat _ Sy). nra.
        -- apply Rlt_bool_true. pose proof (Rinv_0_lt_compat _ Sy). nra.
        -- apply Rlt_bool_true. pose proof (Rinv_lt_0_compat _ Sy). nra.
        -- apply Rlt_bool_false. pose proof (Rinv_0_lt_compat _ Sy). nra.
    + intros _ F. rewrite (proj2 (proj2 (narrow d C2))), C3 by (destruct d; try discriminate C2; reflexivity).
      destruct (Rlt_bool _ _) in K; [destruct K as (_ & _ & K); symmetry; apply K; destruct q; try discriminate F; reflexivity|]. exfalso.
      destruct q; try discriminate F; discriminate K.
  - pose proof (widen_shape x) as Wx. pose proof (widen_shape y) as Wy.
    destruct x as [s|s|s p0 H0|s m e H0]; try discriminate Fx; destruct y as [t|t|t p1 H1|t m1 e1 H1]; try discriminate Fy;
      try (destruct Wx as (m' & e' & H' & Wx)); rewrite Wx; try rewrite Wy; try (left; reflexivity); try (right; split; reflexivity);
      (destruct (f64_of_f32 (B754_nan 24 128 _ _ _)); try discriminate Wy; right; split; reflexivity).
  - pose proof (widen_shape x) as Wx. pose proof (widen_shape y) as Wy.
    destruct x as [s|s|s p0 H0|s m e H0]; try discriminate Fx; destruct y as [t|t|t p1 H1|t m1 e1 H1];
      try (destruct Wy as (m' & e' & H' & Wy)); try rewrite Wx; try rewrite Wy;
      try (destruct s, t); try (left; reflexivity); try (right; split; reflexivity).
Qed.
Lemma sqrt_via (x : f32) : same (via1 (b64_sqrt mode_NE) x) (b32_sqrt mode_NE x).
Proof.
  unfold via1. pose proof (widen_shape x) as Wx. destruct x as [s|s|s p0 H0|s m e H0] eqn:Ex.
  - rewrite Wx. left. reflexivity.
  - rewrite Wx. destruct s; [right; split; reflexivity|left; reflexivity].
  - destruct (f64_of_f32 (B754_nan 24 128 s p0 H0)); try discriminate Wx. right; split; reflexivity.
  - rewrite <- Ex in *. assert (Fx : fin x) by (rewrite Ex; reflexivity). destruct (widen x Fx) as (W1 & W2 & W3).
    destruct s.
    + destruct Wx as (m' & e' & H' & Wx). rewrite Wx, Ex. right; split; reflexivity.
    + assert (P : 0 < val32 x) by (rewrite Ex; apply F2R_gt_0; reflexivity).
      destruct (LFloat.sqrt_fin (f64_of_f32 x)) as (C2 & C1). { exact W1. } { unfold PFloat.val. rewrite W2. exact P. }
      unfold PFloat.val in C1. rewrite W2 in C1. set (d := b64_sqrt mode_NE _) in *.
      destruct (sqrt_fin x Fx P) as (K2 & K1).
      apply same_value_sign.
      * rewrite (narrow_round d _ C2 C1 (rr_sqrt x)), value_sqrt, (value_fin x Fx). cbn [nsqrt]. rewrite Rlt_bool_false by (unfold val; lra).
        unfold rnx. unfold val in K1. unfold val. rewrite <- K1 at 1. rewrite Rlt_bool_true by apply (abs_B2R_lt_emax 24 128). reflexivity.
      * intros F _. rewrite (proj2 (proj2 (narrow d C2))).
        pose proof (Bsqrt_correct 53 1024 eq_refl eq_refl unop_nan_pl64 mode_NE (f64_of_f32 x)) as (_ & _ & S1).
        pose proof (Bsqrt_correct 24 128 eq_refl eq_refl unop_nan_pl32 mode_NE x) as (_ & _ & S2).
        change (Bsqrt 53 1024 eq_refl eq_refl unop_nan_pl64 mode_NE (f64_of_f32 x)) with d in S1.
        change (Bsqrt 24 128 eq_refl eq_refl unop_nan_pl32 mode_NE x) with (b32_sqrt mode_NE x) in S2.
        unfold PFloat.fin in C2. unfold fin in K2.
        rewrite S1 by (destruct d; try discriminate C2; reflexivity). rewrite S2 by (destruct (b32_sqrt mode_NE x); try discriminate K2; reflexivity). exact W3.
Qed.
Lemma narrow_widen (x : f32) : same (f32_of_f64 (f64_of_f32 x)) x.
Proof.
  destruct (is_finite 24 128 x) eqn:Fx.
  - destruct (widen x Fx) as (W1 & W2 & W3). destruct (narrow _ W1) as (N1 & N2 & N3). apply same_value_sign.
    + rewrite N1, W2. unfold rnx. rewrite (round_generic radix2 _ _ (val32 x)) by (apply (generic_format_B2R 24 128)).
      rewrite Rlt_bool_true by apply (abs_B2R_lt_emax 24 128). symmetry. apply value_fin. exact Fx.
    + intros _ _. rewrite N3. exact W3.
  - pose proof (widen_shape x) as W. destruct x as [s|s|s p0 H0|s m e H0]; try discriminate Fx.
    + rewrite W. left. reflexivity.
    + destruct (f64_of_f32 _); try discriminate W. right. split; reflexivity.
Qed.
Lemma finite_wide (d : f64) (x : f32) : is_finite 53 1024 d = true -> fin x -> val64 d = val32 x -> Bsign 53 1024 d = Bsign 24 128 x ->
  f32_of_f64 d = x.
Proof.
  intros W1 Fx W2 W3. destruct (narrow _ W1) as (N1 & N2 & N3).
  assert (E : value (f32_of_f64 d) = value x).
  { rewrite N1, W2. unfold rnx. rewrite (round_generic radix2 _ _ (val32 x)) by (apply (generic_format_B2R 24 128)).
    rewrite Rlt_bool_true by apply (abs_B2R_lt_emax 24 128). symmetry. apply value_fin. exact Fx. }
  rewrite (value_fin x Fx) in E. apply value_number in E as (F & V). apply B2R_Bsign_inj; [exact F|exact Fx|exact V|]. rewrite N3. exact W3.
Qed.
Lemma opp_via (x : f32) : same (via1 b64_opp x) (b32_opp x).
Proof.
  unfold via1. pose proof (widen_shape x) as W. destruct x as [s|s|s p0 H0|s m e H0] eqn:E.
  - rewrite W. left. reflexivity.
  - rewrite W. left. reflexivity.
  - destruct (f64_of_f32 _); try discriminate W. right. split; reflexivity.
  - rewrite <- E in *. assert (Fx : fin x) by (rewrite E; reflexivity). destruct (widen x Fx) as (W1 & W2 & W3). left. apply finite_wide.
    + unfold b64_opp. rewrite is_finite_Bopp. exact W1.
    + unfold fin, b32_opp. rewrite is_finite_Bopp. exact Fx.
    + unfold b64_opp, b32_opp. rewrite !B2R_Bopp, W2. reflexivity.
    + unfold b64_opp, b32_opp. rewrite !Bsign_Bopp; [rewrite W3; reflexivity|destruct x; try discriminate Fx; reflexivity|].
      destruct (f64_of_f32 x); try discriminate W1; reflexivity.
Qed.
Lemma abs_via (x : f32) : same (via1 b64_abs x) (b32_abs x).
Proof.
  unfold via1. pose proof (widen_shape x) as W. destruct x as [s|s|s p0 H0|s m e H0] eqn:E.
  - rewrite W. left. reflexivity.
  - rewrite W. left. reflexivity.
  - destruct (f64_of_f32 _); try discriminate W. right. split; reflexivity.
  - rewrite <- E in *. assert (Fx : fin x) by (rewrite E; reflexivity). destruct (widen x Fx) as (W1 & W2 & W3). left. apply finite_wide.
    + unfold b64_abs. rewrite is_finite_Babs. exact W1.
    + unfold fin, b32_abs. rewrite is_finite_Babs. exact Fx.
    + unfold b64_abs, b32_abs. rewrite !B2R_Babs, W2. reflexivity.
    + unfold b64_abs, b32_abs. rewrite !Bsign_Babs; [reflexivity|destruct x; try discriminate Fx; reflexivity|].
      destruct (f64_of_f32 x); try discriminate W1; reflexivity.
Qed.
Lemma compare_via (x y : f32) : b64_compare (f64_of_f32 x) (f64_of_f32 y) = b32_compare x y.
Proof.
  destruct (is_finite 24 128 x) eqn:Fx; [destruct (is_finite 24 128 y) eqn:Fy|].
  - destruct (widen x Fx) as (W1 & W2 & _). destruct (widen y Fy) as (V1 & V2 & _).
    unfold b64_compare, b32_compare. rewrite (Bcompare_correct 53 1024 _ _ W1 V1), (Bcompare_correct 24 128 _ _ Fx Fy), W2, V2. reflexivity.
  - pose proof (widen_shape x) as Wx. pose proof (widen_shape y) as Wy.
    destruct x as [s|s|s p0 H0|s m e H0]; try discriminate Fx; destruct y as [t|t|t p1 H1|t m1 e1 H1]; try discriminate Fy;
      try (destruct Wx as (m' & e' & H' & Wx)); rewrite Wx; try rewrite Wy; try reflexivity;
      (destruct (f64_of_f32 (B754_nan 24 128 _ _ _)); try discriminate Wy; reflexivity).
  - pose proof (widen_shape x) as Wx. pose proof (widen_shape y) as Wy.
    destruct x as [s|s|s p0 H0|s m e H0]; try discriminate Fx; destruct y as [t|t|t p1 H1|t m1 e1 H1];
      try (destruct Wy as (m' & e' & H' & Wy)); try rewrite Wx; try rewrite Wy; try reflexivity;
      try (destruct (f64_of_f32 (B754_nan 24 128 s _ _)); try discriminate Wx; reflexivity);
      try (destruct (f64_of_f32 (B754_nan 24 128 t _ _)); try discriminate Wy; reflexivity).
Qed.

(** ** The congruences *)
Lemma same_trans x y z : same x y -> same y z -> same x z.
Proof. intros [->|(A & B)] [->|(C & D)]; unfold same; tauto. Qed.
Lemma same_sym x y : same x y -> same y x.
Proof. intros [->|(A & B)]; unfold same; tauto. Qed.
Lemma compare_same x y x' y' : same x x' -> same y y' -> b32_compare x y = b32_compare x' y'.
Proof.
  intros [->|(A & B)] [->|(C & D)]; try reflexivity; unfold b32_compare.
  - destruct y, y'; try discriminate; destruct x'; reflexivity.
  - destruct x, x'; try discriminate; destruct y'; reflexivity.
  - destruct x, x'; try discriminate; destruct y, y'; try discriminate; reflexivity.
Qed.
Section Wide.
Lemma w_plus x y x' y' : same x x' -> same y y' -> same (sadd (Scalar := F32WideScalar) x y) (sadd (Scalar := F32Scalar) x' y').
Proof. intros X Y. eapply same_trans; [apply plus_via|apply same_plus; assumption]. Qed.
Lemma w_minus x y x' y' : same x x' -> same y y' -> same (ssub (Scalar := F32WideScalar) x y) (ssub (Scalar := F32Scalar) x' y').
Proof. intros X Y. eapply same_trans; [apply minus_via|apply same_minus; assumption]. Qed.
Lemma w_mult x y x' y' : same x x' -> same y y' -> same (smul (Scalar := F32WideScalar) x y) (smul (Scalar := F32Scalar) x' y').
Proof. intros X Y. eapply same_trans; [apply mult_via|apply same_mult; assumption]. Qed.
Lemma w_ssum n (f g : nat -> f32) : (forall i, (i < n)%nat -> same (f i) (g i)) -> same (ssum (H := F32WideScalar) n f) (ssum (H := F32Scalar) n g).
Proof.
  induction n as [|n IH]; intros H; [apply same_refl|]. cbn [ssum]. apply w_plus; [apply IH; intros; apply H; lia|apply H; lia].
Qed.
Lemma w_ltb x y x' y' : same x x' -> same y y' -> sltb (Scalar := F32WideScalar) x y = sltb (Scalar := F32Scalar) x' y'.
Proof. intros X Y. cbn [sltb F32WideScalar F32Scalar]. unfold Bltb, Bltb32. rewrite compare_via, (compare_same x y x' y' X Y). reflexivity. Qed.
Lemma w_leb x y x' y' : same x x' -> same y y' -> sleb (Scalar := F32WideScalar) x y = sleb (Scalar := F32Scalar) x' y'.
Proof. intros X Y. cbn [sleb F32WideScalar F32Scalar]. unfold Bleb, Bleb32. rewrite compare_via, (compare_same x y x' y' X Y). reflexivity. Qed.
End Wide.

(** ** The theorems *)
(** Both computations return a float, the same one (all NaNs count as one). *)
Definition same_float (a b : res f32) : Prop := exists x y, a = Ok x /\ b = Ok y /\ same x y.
Definition same_floats (a b : res (list f32)) : Prop :=
  exists x y, a = Ok x /\ b = Ok y /\ length x = length y /\ forall i u v, nth_error x i = Some u -> nth_error y i = Some v -> same u v.

(** C162: every float operation done in double and stored in a float is the
    float operation, for all operands (zeros, subnormals, infinities, NaN). *)
Theorem C162_operations :
  forall x y : f32, let X := f64_of_f32 x in let Y := f64_of_f32 y in
  same (f32_of_f64 (b64_plus mode_NE X Y)) (b32_plus mode_NE x y) /\
  same (f32_of_f64 (b64_minus mode_NE X Y)) (b32_minus mode_NE x y) /\
  same (f32_of_f64 (b64_mult mode_NE X Y)) (b32_mult mode_NE x y) /\
  same (f32_of_f64 (b64_div mode_NE X Y)) (b32_div mode_NE x y) /\
  same (f32_of_f64 (b64_sqrt mode_NE X)) (b32_sqrt mode_NE x) /\
  same (f32_of_f64 (b64_opp X)) (b32_opp x) /\
  same (f32_of_f64 (b64_abs X)) (b32_abs x) /\
  same (f32_of_f64 X) x /\
  Bltb X Y = Bltb32 x y /\ Bleb X Y = Bleb32 x y /\ Beqb X Y = Beqb32 x y.
Proof.
  intros x y X Y. split; [apply plus_via|]. split; [apply minus_via|]. split; [apply mult_via|]. split; [apply div_via|].
  split; [apply sqrt_via|]. split; [apply opp_via|]. split; [apply abs_via|]. split; [apply narrow_widen|].
  unfold X, Y, Bltb, Bleb, Beqb, Bltb32, Bleb32, Beqb32. rewrite compare_via. auto.
Qed.
Print Assumptions C162_operations.

(** C162: therefore scalar products, lengths, distances, matrix products and
    comparisons with a tolerance do not depend on whether the float operations
    are done in float or in double. *)
Theorem C162_vectors :
  forall (cfg : Cfg) (n : nat) (u v : list f32) (tol : f32), length u = n -> length v = n ->
  same_float (vec_dot (ST := F32WideScalar) n u v) (vec_dot (ST := F32Scalar) n u v) /\
  same_float (vec_squared_length (ST := F32WideScalar) n u) (vec_squared_length (ST := F32Scalar) n u) /\
  same_float (vec_length (ST := F32WideScalar) n u) (vec_length (ST := F32Scalar) n u) /\
  same_float (vec_squared_distance (ST := F32WideScalar) n u v) (vec_squared_distance (ST := F32Scalar) n u v) /\
  same_float (vec_distance (ST := F32WideScalar) n u v) (vec_distance (ST := F32Scalar) n u v) /\
  vec_equals (ST := F32WideScalar) n u v tol = vec_equals (ST := F32Scalar) n u v tol.
Proof.
  intros cfg n u v tol Lu Lv. pose proof (repV_nth n u f32_zero Lu) as Hu. pose proof (repV_nth n v f32_zero Lv) as Hv.
  set (a := fun i => nth i u f32_zero) in *. set (b := fun i => nth i v f32_zero) in *.
  assert (SQ : forall f g : nat -> f32, same (ssum (H := F32WideScalar) n (fun i => smul (Scalar := F32WideScalar) (f i) (g i))) (ssum (H := F32Scalar) n (fun i => smul (Scalar := F32Scalar) (f i) (g i)))).
  { intros f g. apply w_ssum. intros i _. apply w_mult; apply same_refl. }
  assert (SD : same (ssum (H := F32WideScalar) n (fun i => smul (Scalar := F32WideScalar) (ssub (Scalar := F32WideScalar) (a i) (b i)) (ssub (Scalar := F32WideScalar) (a i) (b i))))
                    (ssum (H := F32Scalar) n (fun i => smul (Scalar := F32Scalar) (ssub (Scalar := F32Scalar) (a i) (b i)) (ssub (Scalar := F32Scalar) (a i) (b i))))).
  { apply w_ssum. intros i _. apply w_mult; apply w_minus; apply same_refl. }
  assert (SR : forall p q, same p q -> same (via1 (b64_sqrt mode_NE) p) (b32_sqrt mode_NE q)) by (intros p q H; eapply same_trans; [apply sqrt_via|apply same_sqrt, H]).
  split; [|split; [|split; [|split; [|split]]]].
  - do 2 eexists. split; [apply (vec_dot_spec (ST := F32WideScalar) n u v a b Hu Hv)|]. split; [apply (vec_dot_spec (ST := F32Scalar) n u v a b Hu Hv)|]. apply SQ.
  - do 2 eexists. split; [apply (vec_squared_length_spec (ST := F32WideScalar) n u a Hu)|]. split; [apply (vec_squared_length_spec (ST := F32Scalar) n u a Hu)|]. apply SQ.
  - unfold vec_length. rewrite (vec_squared_length_spec (ST := F32WideScalar) n u a Hu), (vec_squared_length_spec (ST := F32Scalar) n u a Hu).
    do 2 eexists. split; [reflexivity|]. split; [reflexivity|]. apply SR, SQ.
  - do 2 eexists. split; [apply (vec_squared_distance_spec (ST := F32WideScalar) n u v a b Hu Hv)|]. split; [apply (vec_squared_distance_spec (ST := F32Scalar) n u v a b Hu Hv)|]. exact SD.
  - unfold vec_distance. rewrite (vec_squared_distance_spec (ST := F32WideScalar) n u v a b Hu Hv), (vec_squared_distance_spec (ST := F32Scalar) n u v a b Hu Hv).
    do 2 eexists. split; [reflexivity|]. split; [reflexivity|]. apply SR, SD.
  - destruct (vec_equals_spec (ST := F32WideScalar) n u v a b tol Hu Hv) as (p & Ep & Hp). destruct (vec_equals_spec (ST := F32Scalar) n u v a b tol Hu Hv) as (q & Eq & Hq).
    rewrite Ep, Eq. f_equal. apply eq_true_iff_eq. rewrite Hp, Hq.
    assert (K : forall i, sleb (Scalar := F32WideScalar) tol (sabs (Scalar := F32WideScalar) (ssub (Scalar := F32WideScalar) (a i) (b i))) = sleb (Scalar := F32Scalar) tol (sabs (Scalar := F32Scalar) (ssub (Scalar := F32Scalar) (a i) (b i)))).
    { intros i. apply w_leb; [apply same_refl|]. eapply same_trans; [apply abs_via|].
      assert (CA : forall p q : f32, same p q -> same (b32_abs p) (b32_abs q)).
      { intros p0 q0 [->|(A & B)]; [left; reflexivity|right]. destruct p0, q0; try discriminate; split; reflexivity. }
      apply CA. apply w_minus; apply same_refl. }
    split; intros H i Hi; [rewrite <- K|rewrite K]; apply H; exact Hi.
Qed.
Print Assumptions C162_vectors.
(** C162: the component-wise operators of vectors and the scalar operators of
    matrices, divisions included. *)
Lemma same_repV n x y (f g : nat -> f32) : repV n x f -> repV n y g -> (forall i, (i < n)%nat -> same (f i) (g i)) ->
  length x = length y /\ forall i u v, nth_error x i = Some u -> nth_error y i = Some v -> same u v.
Proof.
  intros (Lx & Hx) (Ly & Hy) H. split; [congruence|]. intros i u v Eu Ev.
  assert (Hi : (i < n)%nat) by (rewrite <- Lx; apply nth_error_Some; congruence).
  rewrite (Hx i Hi) in Eu. rewrite (Hy i Hi) in Ev. injection Eu as <-. injection Ev as <-. apply H, Hi.
Qed.
Lemma same_repM M N x y (f g : nat -> nat -> f32) : repM M N x f -> repM M N y g -> (forall i j, (i < M)%nat -> (j < N)%nat -> same (f i j) (g i j)) ->
  length x = length y /\ forall i u v, nth_error x i = Some u -> nth_error y i = Some v -> same u v.
Proof.
  intros (Lx & Hx) (Ly & Hy) H. split; [congruence|]. intros k u v Eu Ev.
  assert (Hk : (k < M * N)%nat) by (rewrite <- Lx; apply nth_error_Some; congruence).
  destruct (cell_surj M N k Hk) as (i & j & Hi & Hj & ->). rewrite (Hx i j Hi Hj) in Eu. rewrite (Hy i j Hi Hj) in Ev.
  injection Eu as <-. injection Ev as <-. apply H; assumption.
Qed.
Theorem C162_elementwise :
  forall (cfg : Cfg) (M N : nat) (u v m : list f32) (s : f32), length u = N -> length v = N -> length m = (M * N)%nat ->
  same_floats (vec_add (ST := F32WideScalar) N u v) (vec_add (ST := F32Scalar) N u v) /\
  same_floats (vec_sub (ST := F32WideScalar) N u v) (vec_sub (ST := F32Scalar) N u v) /\
  same_floats (vec_mul (ST := F32WideScalar) N u v) (vec_mul (ST := F32Scalar) N u v) /\
  same_floats (vec_div (ST := F32WideScalar) N u v) (vec_div (ST := F32Scalar) N u v) /\
  same_floats (vec_div_s (ST := F32WideScalar) N u s) (vec_div_s (ST := F32Scalar) N u s) /\
  same_floats (vec_mul_s (ST := F32WideScalar) N u s) (vec_mul_s (ST := F32Scalar) N u s) /\
  same_floats (mat_div_s (ST := F32WideScalar) M N m s) (mat_div_s (ST := F32Scalar) M N m s) /\
  same_floats (mat_mul_s (ST := F32WideScalar) M N m s) (mat_mul_s (ST := F32Scalar) M N m s).
Proof.
  intros cfg M N u v m s Lu Lv Lm. pose proof (repV_nth N u f32_zero Lu) as Hu. pose proof (repV_nth N v f32_zero Lv) as Hv.
  pose proof (repM_nth M N m f32_zero Lm) as Hm.
  assert (ZIP : forall op op' g g', (forall a b, op a b = Ok (g a b)) -> (forall a b, op' a b = Ok (g' a b)) -> (forall a b, same (g a b) (g' a b)) ->
    same_floats (vec_zip (ST := F32WideScalar) N op u v) (vec_zip (ST := F32Scalar) N op' u v)).
  { intros op op' g g' H H' S.
    destruct (vec_zip_spec (ST := F32WideScalar) N op u v _ _ (fun i => g (nth i u f32_zero) (nth i v f32_zero)) Hu Hv (fun i _ => H _ _)) as (x & Ex & Hx).
    destruct (vec_zip_spec (ST := F32Scalar) N op' u v _ _ (fun i => g' (nth i u f32_zero) (nth i v f32_zero)) Hu Hv (fun i _ => H' _ _)) as (y & Ey & Hy).
    exists x, y. split; [exact Ex|]. split; [exact Ey|]. apply (same_repV N x y _ _ Hx Hy). intros i _. apply S. }
  assert (MAP : forall op op' g g', (forall a, op a = Ok (g a)) -> (forall a, op' a = Ok (g' a)) -> (forall a, same (g a) (g' a)) ->
    same_floats (vec_map (ST := F32WideScalar) N op u) (vec_map (ST := F32Scalar) N op' u)).
  { intros op op' g g' H H' S.
    destruct (vec_map_spec (ST := F32WideScalar) N op u _ (fun i => g (nth i u f32_zero)) Hu (fun i _ => H _)) as (x & Ex & Hx).
    destruct (vec_map_spec (ST := F32Scalar) N op' u _ (fun i => g' (nth i u f32_zero)) Hu (fun i _ => H' _)) as (y & Ey & Hy).
    exists x, y. split; [exact Ex|]. split; [exact Ey|]. apply (same_repV N x y _ _ Hx Hy). intros i _. apply S. }
  assert (MAT : forall op op' g g', (forall a, op a = Ok (g a)) -> (forall a, op' a = Ok (g' a)) -> (forall a, same (g a) (g' a)) ->
    same_floats (mat_map_s (ST := F32WideScalar) M N op m) (mat_map_s (ST := F32Scalar) M N op' m)).
  { intros op op' g g' H H' S.
    destruct (mat_map_s_spec (ST := F32WideScalar) M N op m _ (fun i j => g (nth (j * M + i) m f32_zero)) Hm (fun i j _ _ => H _)) as (x & Ex & Hx).
    destruct (mat_map_s_spec (ST := F32Scalar) M N op' m _ (fun i j => g' (nth (j * M + i) m f32_zero)) Hm (fun i j _ _ => H' _)) as (y & Ey & Hy).
    exists x, y. split; [exact Ex|]. split; [exact Ey|]. apply (same_repM M N x y _ _ Hx Hy). intros i j _ _. apply S. }
  repeat split.
  - apply (ZIP _ _ (via2 (b64_plus mode_NE)) (b32_plus mode_NE)); [reflexivity|reflexivity|apply plus_via].
  - apply (ZIP _ _ (via2 (b64_minus mode_NE)) (b32_minus mode_NE)); [reflexivity|reflexivity|apply minus_via].
  - apply (ZIP _ _ (via2 (b64_mult mode_NE)) (b32_mult mode_NE)); [reflexivity|reflexivity|apply mult_via].
  - apply (ZIP _ _ (via2 (b64_div mode_NE)) (b32_div mode_NE)); [reflexivity|reflexivity|apply div_via].
  - apply (MAP _ _ (fun a => via2 (b64_div mode_NE) a s) (fun a => b32_div mode_NE a s)); [reflexivity|reflexivity|intros a; apply div_via].
  - apply (MAP _ _ (fun a => via2 (b64_mult mode_NE) a s) (fun a => b32_mult mode_NE a s)); [reflexivity|reflexivity|intros a; apply mult_via].
  - apply (MAT _ _ (fun a => via2 (b64_div mode_NE) a s) (fun a => b32_div mode_NE a s)); [reflexivity|reflexivity|intros a; apply div_via].
  - apply (MAT _ _ (fun a => via2 (b64_mult mode_NE) a s) (fun a => b32_mult mode_NE a s)); [reflexivity|reflexivity|intros a; apply mult_via].
Qed.
Print Assumptions C162_elementwise.

Theorem C162_matrix_product :
  forall (cfg : Cfg) (M N P : nat) (m o : list f32), length m = (M * N)%nat -> length o = (N * P)%nat ->
  same_floats (mat_mul (ST := F32WideScalar) M N P m o) (mat_mul (ST := F32Scalar) M N P m o).
Proof.
  intros cfg M N P m o Lm Lo. pose proof (repM_nth M N m f32_zero Lm) as Hm. pose proof (repM_nth N P o f32_zero Lo) as Ho.
  destruct (mat_mul_spec (ST := F32WideScalar) M N P m o _ _ Hm Ho) as (x & Ex & (Lx & Hx)).
  destruct (mat_mul_spec (ST := F32Scalar) M N P m o _ _ Hm Ho) as (y & Ey & (Ly & Hy)).
  exists x, y. split; [exact Ex|]. split; [exact Ey|]. split; [congruence|]. intros k u v Eu Ev.
  assert (Hk : (k < M * P)%nat) by (rewrite <- Lx; apply nth_error_Some; congruence).
  destruct (cell_surj M P k Hk) as (i & j & Hi & Hj & ->). rewrite (Hx i j Hi Hj) in Eu. rewrite (Hy i j Hi Hj) in Ev.
  injection Eu as <-. injection Ev as <-. apply w_ssum. intros q _. apply w_mult; apply same_refl.
Qed.
Print Assumptions C162_matrix_product.
(** C162: the length of a quaternion and the ray-sphere test, whose unqualified
    sqrt may be the double one. *)
Theorem C162_quaternion_length :
  forall (cfg : Cfg) (x y z w : f32),
  same_float (q_abs (ST := F32WideScalar) [x; y; z; w]) (q_abs (ST := F32Scalar) [x; y; z; w]).
Proof.
  intros cfg x y z w. unfold q_abs, q_squared_abs, q4. do 2 eexists. split; [reflexivity|]. split; [reflexivity|].
  eapply same_trans; [apply sqrt_via|]. apply same_sqrt.
  repeat apply w_plus; apply w_mult; apply same_refl.
Qed.
Print Assumptions C162_quaternion_length.
Theorem C162_ray_sphere :
  forall (cfg : Cfg) (o0 o1 o2 d0 d1 d2 c0 c1 c2 r t : f32),
  exists hit t1 t2,
    ray_test_sphere (ST := F32WideScalar) ([o0; o1; o2], [d0; d1; d2]) [c0; c1; c2; r] t = Ok (hit, t1) /\
    ray_test_sphere (ST := F32Scalar) ([o0; o1; o2], [d0; d1; d2]) [c0; c1; c2; r] t = Ok (hit, t2) /\ same t1 t2.
Proof.
  intros cfg o0 o1 o2 d0 d1 d2 c0 c1 c2 r t.
  assert (GEN : forall ST : Scalar f32, ray_test_sphere (ST := ST) ([o0; o1; o2], [d0; d1; d2]) [c0; c1; c2; r] t =
    let w0 := ssub c0 o0 in let w1 := ssub c1 o1 in let w2 := ssub c2 o2 in
    let P := sadd (sadd (sadd szero (smul w0 d0)) (smul w1 d1)) (smul w2 d2) in
    let S := sadd (sadd (sadd szero (smul w0 w0)) (smul w1 w1)) (smul w2 w2) in
    let Q := smul r r in
    if sltb P szero && sltb Q S then Ok (false, t)
    else let e := ssub S (smul P P) in if sltb Q e then Ok (false, t)
    else Y <- ssqrt (ssub Q e) ;; Ok (true, if sltb Q S then ssub P Y else sadd P Y)).
  { intros ST. unfold ray_test_sphere, vec_sub, vec_sub_assign, vec_dot, vec_squared_length, vec_set3, vat, vset. destruct safe; reflexivity. }
  rewrite (GEN F32WideScalar), (GEN F32Scalar). clear GEN. cbv zeta.
  set (P1 := sadd (Scalar := F32WideScalar) (sadd (sadd szero (smul (ssub c0 o0) d0)) (smul (ssub c1 o1) d1)) (smul (ssub c2 o2) d2)).
  set (S1 := sadd (Scalar := F32WideScalar) (sadd (sadd szero (smul (ssub c0 o0) (ssub c0 o0))) (smul (ssub c1 o1) (ssub c1 o1))) (smul (ssub c2 o2) (ssub c2 o2))).
  set (P2 := sadd (Scalar := F32Scalar) (sadd (sadd szero (smul (ssub c0 o0) d0)) (smul (ssub c1 o1) d1)) (smul (ssub c2 o2) d2)).
  set (S2 := sadd (Scalar := F32Scalar) (sadd (sadd szero (smul (ssub c0 o0) (ssub c0 o0))) (smul (ssub c1 o1) (ssub c1 o1))) (smul (ssub c2 o2) (ssub c2 o2))).
  assert (EP : same P1 P2) by (unfold P1, P2; repeat apply w_plus; try apply w_mult; try apply w_minus; apply same_refl).
  assert (ES : same S1 S2) by (unfold S1, S2; repeat apply w_plus; try apply w_mult; try apply w_minus; apply same_refl).
  assert (EQ : same (smul (Scalar := F32WideScalar) r r) (smul (Scalar := F32Scalar) r r)) by (apply w_mult; apply same_refl).
  assert (EE : same (ssub (Scalar := F32WideScalar) S1 (smul (Scalar := F32WideScalar) P1 P1)) (ssub (Scalar := F32Scalar) S2 (smul (Scalar := F32Scalar) P2 P2)))
    by (apply w_minus; [exact ES|apply w_mult; exact EP]).
  rewrite (w_ltb P1 (szero (Scalar := F32WideScalar)) P2 (szero (Scalar := F32Scalar)) EP (same_refl f32_zero)), (w_ltb _ S1 _ S2 EQ ES), (w_ltb _ _ _ _ EQ EE).
  destruct (sltb P2 szero && sltb (smul r r) S2); [do 3 eexists; split; [reflexivity|]; split; [reflexivity|apply same_refl]|].
  destruct (sltb (smul r r) (ssub S2 (smul P2 P2))); [do 3 eexists; split; [reflexivity|]; split; [reflexivity|apply same_refl]|].
  assert (ER : same (via1 (b64_sqrt mode_NE) (ssub (Scalar := F32WideScalar) (smul (Scalar := F32WideScalar) r r) (ssub (Scalar := F32WideScalar) S1 (smul (Scalar := F32WideScalar) P1 P1))))
     (b32_sqrt mode_NE (ssub (Scalar := F32Scalar) (smul (Scalar := F32Scalar) r r) (ssub (Scalar := F32Scalar) S2 (smul (Scalar := F32Scalar) P2 P2))))).
  { eapply same_trans; [apply sqrt_via|]. apply same_sqrt. apply w_minus; assumption. }
  do 3 eexists. split; [reflexivity|]. split; [reflexivity|].
  destruct (sltb (smul r r) S2); [apply w_minus|apply w_plus]; assumption.
Qed.
Print Assumptions C162_ray_sphere.

(** A non-trivial case: ties are where
    rounding twice could differ; 0x3F800001 + 0x33800000 (1 + 2^-23 + 2^-24) is
    a tie in float, and both ways give 1 + 2^-22. *)
Example C162_hypotheses_met :
  let x := b32_of_bits 0x3F800001 in let y := b32_of_bits 0x33800000 in
  bits_of_b32 (via2 (b64_plus mode_NE) x y) = 0x3F800002%Z /\ bits_of_b32 (b32_plus mode_NE x y) = 0x3F800002%Z /\
  bits_of_b32 (via1 (b64_sqrt mode_NE) x) = bits_of_b32 (b32_sqrt mode_NE x) /\
  length [x; y] = 2%nat.
Proof. repeat split; vm_compute; reflexivity. Qed.
