(** Property C204: Frustum< float >::set_perspective. *)
From Coq Require Import ZArith Reals Lra Psatz List.
From Flocq Require Import Core.Core IEEE754.BinarySingleNaN IEEE754.Binary IEEE754.Bits.
From Verif Require Import InstF InstF32 MFrustum MLit MFloat MPersp PF32 LF32 PF32b LExprF PCullF Spec10f LExt32 LRot LDist PDist32 PQuantF32 LPersp.
From Verif Require PFloat LFloat PFloat2 LErr PDist PAdjust PPersp.
Import ListNotations.
Local Open Scope R_scope.
Local Open Scope list_scope.
Local Notation bp := (bpow radix2).
Local Notation rnd := (round radix2 (FLT_exp (-149) 24) (Znearest (fun x => negb (Z.even x)))).
Local Notation "a *' b" := (b32_mult mode_NE a b) (at level 40, left associativity).
Local Notation val64 := PFloat.val.
Local Notation u64 := PFloat.uro.

(** Storing a double of normal float size in a float. *)
Lemma narrow_rel (d : f64) (i : Z) : PFloat.fin d -> bp (-126) <= Rabs (val64 d) <= bp i -> (-126 <= i < 128)%Z ->
  fin (f32_of_f64 d) /\ exists e, Rabs e <= uro /\ val (f32_of_f64 d) = val64 d * (1 + e).
Proof.
  intros Fd HB Hi. destruct (LF32d.narrow d Fd) as (N1 & _). change (B2R 53 1024 d) with (val64 d) in N1. set (r := f32_of_f64 d) in *.
  unfold rnx in N1. rewrite Rlt_bool_true in N1 by (eapply Rle_lt_trans; [apply (rnd_le _ i); [lia|apply HB]|apply bpow_lt; lia]).
  assert (Er : fin r /\ val r = rnd (val64 d)).
  { destruct r; try discriminate N1; cbn [Spec10f.value] in N1; injection N1 as N1; split; try reflexivity; exact N1. }
  destruct Er as (Fr & Er). split; [exact Fr|]. destruct (rnd_rel _ (proj1 HB)) as (e & He & E). exists e. split; [exact He|]. rewrite Er. exact E.
Qed.
Lemma mult_rel32 (a b : f32) (i : Z) : fin a -> fin b -> bp (-126) <= Rabs (val a * val b) <= bp i -> (-126 <= i < 128)%Z ->
  fin (a *' b) /\ val (a *' b) = rnd (val a * val b) /\ exists d, Rabs d <= uro /\ val (a *' b) = val a * val b * (1 + d).
Proof.
  intros Fa Fb HB Hi. destruct (mult_fin a b Fa Fb) as (F & V). { eapply Rle_lt_trans; [apply (rnd_le _ i); [lia|apply HB]|apply bpow_lt; lia]. }
  destruct (rnd_rel _ (proj1 HB)) as (d & Hd & E). split; [exact F|]. split; [exact V|]. exists d. split; [exact Hd|]. rewrite V. exact E.
Qed.
Lemma u64_small : 0 < u64 <= / 1000 * uro. Proof. rewrite PFloat2.uro_val, uro_val. lra. Qed.

(** C204: set_perspective( fovy, aspect, near, far ) for fovy up to 120 degrees; d is
    the relative accuracy of the C library's tan( double ). *)
Theorem C204_set_perspective (TT : Trig f64) (d : R) (fr : list f32) (fov aspect near far : f32) :
  0 <= d <= / 100 -> PPersp.good_tan TT d -> length fr = 6%nat -> fin fov -> / 2 ^ 60 <= val fov <= 120 ->
  fin aspect -> / 2 ^ 40 <= val aspect <= 2 ^ 40 ->
  let h := tan (val fov * PI / 360) / 2 in
  exists l r b t, frF_set_perspective fr fov aspect near far = Ok [l; r; b; t; near; far] /\
  fin l /\ fin r /\ fin b /\ fin t /\ val b = - val t /\ val l = - val r /\ val l < val r /\ val b < val t /\
  Rabs (val t - h) <= (103 / 100 * d + 102 / 100 / 2 ^ 24) * h /\
  Rabs (val r - val aspect * h) <= (105 / 100 * d + 206 / 100 / 2 ^ 24) * (val aspect * h).
Proof.
  intros Hd GT Lf Ff Bf Fas Bas h.
  destruct (LF32d.widen fov Ff) as (Fw & Vw & _). change (PFloat.fin (f64_of_f32 fov)) in Fw. change (val64 (f64_of_f32 fov) = val fov) in Vw.
  rewrite <- (PAdjust.bpm 60) in Bf. change (- Z.of_nat 60)%Z with (-60)%Z in Bf.
  assert (Bf9 : / 2 ^ 900 <= val64 (f64_of_f32 fov) <= 120).
  { rewrite Vw. split; [|apply Bf]. rewrite <- (PAdjust.bpm 900). eapply Rle_trans; [apply (bpow_le radix2 (-900) (-60)); lia|apply Bf]. }
  destruct (PPersp.half_tan TT d (f64_of_f32 fov) Hd GT Fw Bf9) as (Ft6 & Et6 & Bh & Bt6). cbv zeta in *. rewrite Vw in Et6, Bh. fold h in Et6, Bh.
  set (t6 := b64_mult mode_NE (stan _) f64_half) in *.
  pose proof us as U. pose proof u64_small as U6. pose proof pi_bounds as P.
  pose proof (bpow_gt_0 radix2 (-60)) as G6. pose proof (bpow_gt_0 radix2 (-40)) as G4.
  (* h is at least 2^-69 *)
  set (y := val fov * PI / 360) in *.
  assert (Y1 : y <= PI / 3).
  { unfold y. replace (PI / 3) with (120 * PI / 360) by field. unfold Rdiv. apply Rmult_le_compat_r; [lra|]. apply Rmult_le_compat_r; lra. }
  assert (YL : / 128 * bp (-60) <= y).
  { unfold y. replace (val fov * PI / 360) with (PI / 360 * val fov) by field. apply Rmult_le_compat; lra. }
  assert (TY : y <= tan y <= 402 / 100 * y) by (apply tan_ge; lra).
  assert (HL : bp (-68) <= h).
  { change (-68)%Z with (-8 + -60)%Z. rewrite bpow_plus. change (bp (-8)) with (/ 256). unfold h. lra. }
  pose proof (bpow_gt_0 radix2 (-68)) as GH.
  assert (dh : 0 <= d * h <= / 100 * h) by (split; [apply Rmult_le_pos; lra|apply Rmult_le_compat_r; lra]).
  assert (uh : 0 <= uro * h <= / 1000000 * h) by (split; [apply Rmult_le_pos; lra|apply Rmult_le_compat_r; lra]).
  assert (vh : 0 <= u64 * h <= / 1000 * (uro * h)) by (split; [apply Rmult_le_pos; lra|rewrite <- Rmult_assoc; apply Rmult_le_compat_r; lra]).
  replace ((102 / 100 * d + 18 * u64) * h) with (102 / 100 * (d * h) + 18 * (u64 * h)) in Et6 by ring.
  apply abs_le_inv in Et6. set (x6 := val64 t6) in *.
  assert (X6 : 98 / 100 * h <= x6 <= 102 / 100 * h) by lra.
  destruct (narrow_rel t6 3 Ft6) as (Ft & e1 & He1 & Vt).
  { fold x6. rewrite Rabs_pos_eq by lra. change (bp 3) with 8. split; [|lra]. apply Rle_trans with (bp (-69)); [apply bpow_le; lia|].
    change (-69)%Z with (-1 + -68)%Z. rewrite bpow_plus. change (bp (-1)) with (/ 2). lra. }
  { lia. }
  fold x6 in Vt. set (t := f32_of_f64 t6) in *.
  assert (Fb : fin (b32_opp t)) by (unfold fin, b32_opp in *; rewrite is_finite_Bopp; exact Ft).
  assert (Vb : val (b32_opp t) = - val t) by (unfold val, b32_opp; apply B2R_Bopp).
  assert (xe : Rabs (x6 * e1) <= 102 / 100 * h * uro).
  { rewrite Rabs_mult, (Rabs_pos_eq x6) by lra. apply Rmult_le_compat; [lra|apply Rabs_pos|lra|exact He1]. }
  apply abs_le_inv in xe.
  assert (Et : Rabs (val t - h) <= 102 / 100 * (d * h) + 104 / 100 * (uro * h)) by (rewrite Vt; apply Rabs_le; lra).
  assert (Et0 : Rabs (val t - h) <= 103 / 100 * (d * h) + 102 / 100 * (uro * h)).
  { assert (xe2 : Rabs (x6 * e1) <= (h + 102 / 100 * (d * h) + 18 * (u64 * h)) * uro).
    { rewrite Rabs_mult, (Rabs_pos_eq x6) by lra. apply Rmult_le_compat; [lra|apply Rabs_pos|lra|exact He1]. }
    assert (Q : uro * (d * h) <= / 1000000 * (d * h)) by (apply Rmult_le_compat_r; lra).
    assert (Q2 : uro * (u64 * h) <= / 1000000 * (u64 * h)) by (apply Rmult_le_compat_r; lra).
    apply abs_le_inv in xe2. rewrite Vt. apply Rabs_le. lra. }
  apply abs_le_inv in Et.
  assert (TB : 97 / 100 * h <= val t <= 103 / 100 * h) by lra.
  rewrite <- (PAdjust.bpm 40), <- (PAdjust.bpn 40) in Bas. change (- Z.of_nat 40)%Z with (-40)%Z in Bas. change (Z.of_nat 40) with 40%Z in Bas.
  assert (TB2 : bp (-69) <= val t <= bp 3).
  { change (bp 3) with 8. split; [|lra]. change (-69)%Z with (-1 + -68)%Z. rewrite bpow_plus. change (bp (-1)) with (/ 2). lra. }
  pose proof (PPersp.scale_bp _ _ 0 _ _ _ _ TB2 Bas) as BR. change (-69 + -40)%Z with (-109)%Z in BR. change (3 + 40)%Z with 43%Z in BR.
  pose proof (bpow_gt_0 radix2 (-109)) as GR.
  assert (BR2 : bp (-126) <= Rabs (val t * val aspect) <= bp 43).
  { rewrite Rabs_pos_eq by lra. split; [|apply BR]. eapply Rle_trans; [|apply BR]. apply bpow_le. lia. }
  destruct (mult_rel32 t aspect 43 Ft Fas BR2 ltac:(lia)) as (Fr & Vr & d2 & Hd2 & Er).
  destruct (mult_rel32 (b32_opp t) aspect 43 Fb Fas) as (Fl & Vl & _); [rewrite Vb; replace (- val t * val aspect) with (- (val t * val aspect)) by ring; rewrite Rabs_Ropp; exact BR2|lia|].
  exists (b32_opp t *' aspect), (t *' aspect), (b32_opp t), t.
  split.
  { destruct fr as [|x0 [|x1 [|x2 [|x3 [|x4 [|x5 [|x7 fr]]]]]]]; try discriminate Lf. reflexivity. }
  split; [exact Fl|]. split; [exact Fr|]. split; [exact Fb|]. split; [exact Ft|]. split; [exact Vb|].
  assert (VL : val (b32_opp t *' aspect) = - val (t *' aspect)).
  { rewrite Vl, Vr, Vb. replace (- val t * val aspect) with (- (val t * val aspect)) by ring. apply rnd_opp. }
  assert (RP : 0 < val (t *' aspect)).
  { rewrite Er. apply abs_le_inv in Hd2. apply Rmult_lt_0_compat; lra. }
  split; [exact VL|]. split; [lra|]. split; [lra|].
  change (102 / 100 / 2 ^ 24) with (102 / 100 * uro). change (206 / 100 / 2 ^ 24) with (206 / 100 * uro). split; [lra|].
  set (A := val aspect) in *. set (x := val t) in *.
  assert (Ah : 0 < A * h) by (apply Rmult_lt_0_compat; lra).
  assert (X1 : Rabs (x * A - A * h) <= A * (103 / 100 * (d * h) + 102 / 100 * (uro * h))).
  { replace (x * A - A * h) with (A * (x - h)) by ring. rewrite Rabs_mult, (Rabs_pos_eq A) by lra. apply Rmult_le_compat_l; lra. }
  assert (uA : 0 <= uro * (A * h) <= / 1000000 * (A * h)) by (split; [apply Rmult_le_pos; lra|apply Rmult_le_compat_r; lra]).
  assert (dA : 0 <= d * (A * h) <= / 100 * (A * h)) by (split; [apply Rmult_le_pos; lra|apply Rmult_le_compat_r; lra]).
  replace (A * (103 / 100 * (d * h) + 102 / 100 * (uro * h))) with (103 / 100 * (d * (A * h)) + 102 / 100 * (uro * (A * h))) in X1 by ring.
  replace ((105 / 100 * d + 206 / 100 * uro) * (A * h)) with (105 / 100 * (d * (A * h)) + 206 / 100 * (uro * (A * h))) by ring.
  apply abs_le_inv in X1.
  assert (X2 : Rabs (x * A * d2) <= (A * h + 103 / 100 * (d * (A * h)) + 102 / 100 * (uro * (A * h))) * uro).
  { rewrite Rabs_mult. apply Rmult_le_compat; try apply Rabs_pos; [apply Rabs_le; lra|exact Hd2]. }
  assert (Q : uro * (d * (A * h)) <= / 1000000 * (d * (A * h))) by (apply Rmult_le_compat_r; lra).
  assert (Q2 : uro * (uro * (A * h)) <= / 1000000 * (uro * (A * h))) by (apply Rmult_le_compat_r; lra).
  apply abs_le_inv in X2. rewrite Er. replace (x * A * (1 + d2)) with (x * A + x * A * d2) by ring. apply Rabs_le. lra.
Qed.
Print Assumptions C204_set_perspective.
Example C204_hypotheses_met : PPersp.good_tan PPersp.rounded_tan u64 /\ 0 <= u64 <= / 100 /\ (fin f32_one /\ / 2 ^ 60 <= val f32_one <= 120) /\
  (fin f32_half /\ / 2 ^ 40 <= val f32_half <= 2 ^ 40).
Proof.
  pose proof us as U. pose proof u64_small as U6. split; [exact PPersp.rounded_tan_good|]. split; [lra|].
  assert (G1 : 2 <= 2 ^ 60) by (rewrite <- (pow_1 2) at 1; apply Rle_pow; [lra|lia]).
  assert (G2 : 2 <= 2 ^ 40) by (rewrite <- (pow_1 2) at 1; apply Rle_pow; [lra|lia]).
  assert (G3 : / 2 ^ 60 <= / 2) by (apply Rinv_le_contravar; lra). assert (G4 : / 2 ^ 40 <= / 2) by (apply Rinv_le_contravar; lra).
  split; [split; [reflexivity|rewrite val_one; lra]|]. split; [reflexivity|]. rewrite val_half. lra.
Qed.
