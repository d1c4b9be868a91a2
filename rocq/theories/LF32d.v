(** Conversions between float and double and the rounding of 1.0 / x. *)
From Coq Require Import ZArith Reals Lra Psatz Bool.
From Flocq Require Import Core.Core IEEE754.BinarySingleNaN IEEE754.Binary IEEE754.Bits.
From Flocq Require Double_rounding.
From Verif Require Import InstF InstF32 MFloat PF32 LF32 Spec10f LExt32.
From Verif Require PFloat LFloat.
Local Open Scope R_scope.
Notation bp := (bpow radix2).
Notation rnd64 := (round radix2 (FLT_exp (-1074) 53) (Znearest (fun x => negb (Z.even x)))).
Notation rnd32 := (round radix2 (FLT_exp (-149) 24) (Znearest (fun x => negb (Z.even x)))).
Notation val64 := (B2R 53 1024).
Notation val32 := (B2R 24 128).

Lemma cmp0 s m e : Rcompare (F2R (beta := radix2) {| Fnum := SpecFloat.cond_Zopp s (Zpos m); Fexp := e |}) 0 = if s then Lt else Gt.
Proof. destruct s; [apply Rcompare_Lt, F2R_lt_0|apply Rcompare_Gt, F2R_gt_0]; reflexivity. Qed.
Lemma widen (x : f32) : fin x ->
  is_finite 53 1024 (f64_of_f32 x) = true /\ val64 (f64_of_f32 x) = val32 x /\ Bsign 53 1024 (f64_of_f32 x) = Bsign 24 128 x.
Proof.
  intros F. destruct x as [s|s|s p0 H0|s m e H]; try discriminate F; [repeat split|].
  cbn [f64_of_f32].
  pose proof (binary_normalize_correct 53 1024 eq_refl eq_refl mode_NE (cond_Zopp s (Zpos m)) e false) as C.
  set (X := B754_finite 24 128 s m e H) in *.
  assert (EX : F2R {| Fnum := cond_Zopp s (Zpos m); Fexp := e |} = val32 X) by reflexivity.
  cbn [round_mode] in C. change (SpecFloat.fexp 53 1024) with (FLT_exp (-1074) 53) in C. rewrite EX in C.
  assert (G : generic_format radix2 (FLT_exp (-1074) 53) (val32 X)).
  { pose proof (generic_format_B2R 24 128 X) as G0. apply FLT_format_generic in G0; [|reflexivity]. destruct G0 as [f G1 G2 G3].
    apply generic_format_FLT. exists f; [exact G1| |].
    - eapply Z.lt_le_trans; [exact G2|]. discriminate.
    - change (SpecFloat.emin 24 128) with (-149)%Z in G3. lia. }
  rewrite round_generic in C; [|apply valid_rnd_N|exact G].
  rewrite Rlt_bool_true in C.
  2:{ eapply Rlt_trans; [apply (abs_B2R_lt_emax 24 128)|]. apply bpow_lt. lia. }
  destruct C as (C1 & C2 & C3). split; [exact C2|]. split; [exact C1|]. rewrite C3. cbn [Bsign X].
  rewrite <- EX. rewrite cmp0. destruct s; reflexivity.
Qed.

Lemma narrow (d : f64) : is_finite 53 1024 d = true ->
  value (f32_of_f64 d) = rnx (val64 d) /\ (is_nan 24 128 (f32_of_f64 d) = false) /\ Bsign 24 128 (f32_of_f64 d) = Bsign 53 1024 d.
Proof.
  intros F. destruct d as [s|s|s p0 H0|s m e H]; try discriminate F.
  - cbn. split; [|split; reflexivity]. unfold rnx. rewrite rnd_0, Rabs_R0, Rlt_bool_true by apply bpow_gt_0. reflexivity.
  - cbn [f32_of_f64].
    pose proof (binary_normalize_correct 24 128 eq_refl eq_refl mode_NE (cond_Zopp s (Zpos m)) e s) as C.
    set (X := B754_finite 53 1024 s m e H) in *.
    assert (EX : F2R {| Fnum := cond_Zopp s (Zpos m); Fexp := e |} = val64 X) by reflexivity.
    assert (SX : Rlt_bool (val64 X) 0 = s).
    { rewrite <- EX. destruct s; [apply Rlt_bool_true, F2R_lt_0|apply Rlt_bool_false, F2R_ge_0]; reflexivity || discriminate. }
    cbn [round_mode] in C. change (SpecFloat.fexp 24 128) with (FLT_exp (-149) 24) in C. rewrite EX in C.
    set (Y := binary_normalize 24 128 eq_refl eq_refl mode_NE (cond_Zopp s (Zpos m)) e s) in *.
    unfold rnx. destruct (Rlt_bool (Rabs (rnd32 (val64 X))) (bp 128)) eqn:B.
    + destruct C as (C1 & C2 & C3). split; [rewrite (value_fin Y C2); unfold val; rewrite C1; reflexivity|].
      split; [destruct Y; try discriminate C2; reflexivity|]. rewrite C3. cbn [Bsign X]. rewrite <- EX, cmp0. destruct s; reflexivity.
    + rewrite SX in *. cbn in C. split; [apply value_inf; exact C|]. destruct Y; try discriminate C. split; [reflexivity|]. injection C as ->. reflexivity.
Qed.

Lemma one_is : exists m e H, f64_one = B754_finite 53 1024 false m e H.
Proof.
  assert (E : B2FF 53 1024 f64_one = F754_finite false 4503599627370496 (-52)) by reflexivity.
  destruct f64_one as [s|s|s p0 H0|s m e H]; try discriminate E. injection E as -> _ _. eauto.
Qed.
Lemma one32_is : exists m e H, f32_one = B754_finite 24 128 false m e H.
Proof.
  assert (E : B2FF 24 128 f32_one = F754_finite false 8388608 (-23)) by reflexivity.
  destruct f32_one as [s|s|s p0 H0|s m e H]; try discriminate E. injection E as -> _ _. eauto.
Qed.

(** Dividing in double and rounding to float afterwards is the same as dividing
    in float. *)
Lemma recip_same (x : f32) : same (recip_via_double x) (b32_div mode_NE f32_one x).
Proof.
  unfold recip_via_double. destruct one_is as (m1 & e1 & H1 & E1). destruct one32_is as (m2 & e2 & H2 & E2).
  destruct x as [s|s|s p0 H0|s m e H] eqn:Ex.
  - cbn [f64_of_f32]. rewrite E1, E2. left. reflexivity.
  - cbn [f64_of_f32]. rewrite E1, E2. left. reflexivity.
  - cbn [f64_of_f32]. rewrite E1, E2. right. split; reflexivity.
  - rewrite <- Ex. assert (Fx : fin x) by (rewrite Ex; reflexivity).
    assert (NX : val32 x <> 0).
    { rewrite Ex. cbn. apply F2R_neq_0. cbn. destruct s; discriminate. }
    clear Ex H. destruct (widen x Fx) as (W1 & W2 & W3). set (d := f64_of_f32 x) in *.
    pose proof LFloat.val_one as V1. unfold PFloat.val in V1. pose proof val_one as V2. unfold val in V2.
    assert (Gx : FLT_format radix2 (-149) 24 (val32 x)) by (apply FLT_format_generic; [reflexivity|apply (generic_format_B2R 24 128)]).
    assert (G1 : FLT_format radix2 (-149) 24 1).
    { rewrite <- V2. apply FLT_format_generic; [reflexivity|apply (generic_format_B2R 24 128)]. }
    assert (I53 : Prec_gt_0 53) by reflexivity. assert (I24 : Prec_gt_0 24) by reflexivity.
    pose proof (Double_rounding.round_round_div_FLT radix2 (-149) 24 (-1074) 53 (fun x => negb (Z.even x)) (fun x => negb (Z.even x))
      ltac:(exists 1%Z; reflexivity) ltac:(lia) ltac:(lia) 1 (val32 x) NX G1 Gx) as RR. unfold Double_rounding.round_round_eq in RR.
    assert (B64 : Rabs (rnd64 (1 / val32 x)) < bp 1024).
    { eapply Rle_lt_trans; [|apply (bpow_lt radix2 149 1024); lia].
      apply abs_round_le_generic; [apply (fexp_correct 53 1024 eq_refl)|apply valid_rnd_N|apply (LFloat.format_bp 149); lia|].
      unfold Rdiv. rewrite Rmult_1_l, Rabs_inv. change 149%Z with (Z.opp (-149)). rewrite bpow_opp. apply Rinv_le; [apply bpow_gt_0|].
      apply (abs_B2R_ge_emin 24 128). destruct x; try discriminate Fx; [exfalso; apply NX; reflexivity|reflexivity]. }
    destruct (LFloat.div_fin f64_one d) as (D1 & D2). { reflexivity. } { unfold PFloat.val. rewrite W2. exact NX. }
    { unfold PFloat.val. rewrite V1, W2. exact B64. }
    unfold PFloat.fin, PFloat.val in D1, D2. rewrite V1, W2 in D2.
    assert (S1 : Bsign 53 1024 (b64_div mode_NE f64_one d) = Bsign 24 128 x).
    { pose proof (Bdiv_correct 53 1024 eq_refl eq_refl binop_nan_pl64 mode_NE f64_one d) as C. rewrite V1, W2 in C. specialize (C NX).
      cbn [round_mode] in C. change (SpecFloat.fexp 53 1024) with (FLT_exp (-1074) 53) in C. rewrite Rlt_bool_true in C by exact B64.
      destruct C as (_ & _ & C). change (Bdiv 53 1024 eq_refl eq_refl binop_nan_pl64) with b64_div in C. rewrite C.
      - rewrite E1. cbn [Bsign]. rewrite W3. apply xorb_false_l.
      - destruct (b64_div mode_NE f64_one d); try discriminate D1; reflexivity. }
    set (q := b64_div mode_NE f64_one d) in *. destruct (narrow q D1) as (N1 & N2 & N3). rewrite D2 in N1.
    pose proof (Bdiv_correct 24 128 eq_refl eq_refl binop_nan_pl32 mode_NE f32_one x NX) as C. rewrite V2 in C.
    cbn [round_mode] in C. change (SpecFloat.fexp 24 128) with (FLT_exp (-149) 24) in C. change (Bdiv 24 128 eq_refl eq_refl binop_nan_pl32) with b32_div in C.
    set (z := b32_div mode_NE f32_one x) in *. unfold rnx in N1. rewrite RR in N1.
    apply same_of_value.
    + rewrite N1. destruct (Rlt_bool (Rabs (rnd32 (1 / val32 x))) (bp 128)).
      * destruct C as (C1 & C2 & _). rewrite value_fin by (unfold fin; rewrite C2; reflexivity). unfold val. rewrite C1. reflexivity.
      * rewrite E2 in C. cbn [Bsign] in C. rewrite xorb_false_l in C. cbn in C. rewrite (value_inf _ _ C). f_equal.
        assert (SQ : Rlt_bool (rnd64 (1 / val32 x)) 0 = Bsign 53 1024 q).
        { rewrite <- D2. destruct q as [s1|s1|s1 p1 P1|s1 m3 e3 P3] eqn:Eq; try discriminate D1.
          - exfalso.
            assert (R0 : rnd64 (1 / val32 x) <> 0).
            { intros R0. assert (LB : bp (-128) <= Rabs (rnd64 (1 / val32 x))).
              { apply abs_round_ge_generic; [apply (fexp_correct 53 1024 eq_refl)|apply valid_rnd_N|apply (LFloat.format_bp (-128)); lia|].
                unfold Rdiv. rewrite Rmult_1_l, Rabs_inv. change (-128)%Z with (Z.opp 128). rewrite bpow_opp. apply Rinv_le.
                - apply Rabs_pos_lt. exact NX.
                - apply Rlt_le, (abs_B2R_lt_emax 24 128). }
              rewrite R0, Rabs_R0 in LB. pose proof (bpow_gt_0 radix2 (-128)). lra. }
            apply R0. rewrite <- D2. reflexivity.
          - cbn. destruct s1; [apply Rlt_bool_true, F2R_lt_0|apply Rlt_bool_false, F2R_ge_0]; cbn; lia. }
        rewrite SQ, S1. reflexivity.
    + intros _. rewrite N3, S1. destruct (Rlt_bool (Rabs (rnd32 (1 / val32 x))) (bp 128)).
      * destruct C as (_ & C2 & C3). rewrite C3; [rewrite E2; symmetry; apply xorb_false_l|].
        destruct z; try discriminate C2; reflexivity.
      * rewrite E2 in C. cbn [Bsign] in C. rewrite xorb_false_l in C. cbn in C. destruct z; try discriminate C. injection C as ->. reflexivity.
Qed.
