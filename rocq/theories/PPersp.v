(** Property C202: Frustum::set_perspective in double. *)
From Coq Require Import ZArith Reals Lra Psatz List.
From Flocq Require Import Core.Core IEEE754.BinarySingleNaN IEEE754.Binary IEEE754.Bits.
From Verif Require Import InstF MFrustum MLit MPersp PFloat LFloat PFloat2 LErr LExt LRot LDist PDist PFrustumF PQuantF PAdjust LPersp.
Import ListNotations.
Local Open Scope R_scope.
Local Open Scope list_scope.
Local Existing Instance F64Scalar.
Local Notation bp := (bpow radix2).
Local Notation rnd := (round radix2 (FLT_exp (-1074) 53) (Znearest (fun x => negb (Z.even x)))).
Local Notation "a *' b" := (b64_mult mode_NE a b) (at level 40, left associativity).
Local Notation "a /' b" := (b64_div mode_NE a b) (at level 40, left associativity).

(** tan of the C library: relative error d on (0, 60 degrees and a bit]. *)
Definition good_tan (TT : Trig f64) (d : R) : Prop :=
  forall a : f64, fin a -> / 2 ^ 1000 <= val a <= 1048 / 1000 -> fin (stan a) /\ Rabs (val (stan a) - tan (val a)) <= d * tan (val a).

(** ** Constants *)
Lemma val_pi : val f64_pi = 884279719003555 / 281474976710656.
Proof.
  unfold val. rewrite <- FF2R_B2FF. replace (B2FF 53 1024 f64_pi) with (F754_finite false 7074237752028440 (-51)) by (vm_compute; reflexivity).
  unfold FF2R, F2R. cbn. lra.
Qed.
Lemma pi_rel : exists d, Rabs d <= uro /\ val f64_pi = PI * (1 + d).
Proof.
  pose proof pi_bounds as P. exists (val f64_pi / PI - 1). split; [|field; lra].
  replace (val f64_pi / PI - 1) with ((val f64_pi - PI) * / PI) by (field; lra). rewrite Rabs_mult, (Rabs_pos_eq (/ PI)) by (left; apply Rinv_0_lt_compat; lra).
  apply (Rmult_le_reg_r PI); [lra|]. rewrite Rmult_assoc, Rinv_l, Rmult_1_r by lra. rewrite val_pi, uro_val. apply Rabs_le. lra.
Qed.
Lemma val_180 : okf 8 (slit (T := f64) 180 1) /\ val (slit (T := f64) 180 1) = 180.
Proof.
  assert (V : val (slit (T := f64) 180 1) = 180).
  { unfold val. rewrite <- FF2R_B2FF. replace (B2FF 53 1024 (slit (T := f64) 180 1)) with (F754_finite false 6333186975989760 (-45)) by (vm_compute; reflexivity).
    unfold FF2R, F2R. cbn. lra. }
  split; [split; [vm_compute; reflexivity|]|exact V]. rewrite V, Rabs_pos_eq by lra. change (bp 8) with 256. lra.
Qed.
Lemma pow4 (F : R) : within 4 F -> Rabs (F - 1) <= 401 / 100 * uro.
Proof.
  intros (H1 & H2). pose proof us as U. pose proof (pow_dn uro 4 ltac:(lra)) as D. replace (INR 4) with 4 in D by (cbn; ring).
  assert (u2 : 0 <= uro * uro <= / 1000000 * uro) by (split; [apply Rmult_le_pos|apply Rmult_le_compat_r]; lra).
  assert (u3 : 0 <= uro * (uro * uro) <= / 1000000 * uro) by (split; [apply Rmult_le_pos; lra|]; apply Rmult_le_compat; lra || (apply Rle_trans with uro; lra)).
  assert (u4 : uro * (uro * (uro * uro)) <= / 1000000 * uro) by (apply Rmult_le_compat; lra).
  assert (E : (1 + uro) ^ 4 = 1 + 4 * uro + 6 * (uro * uro) + 4 * (uro * (uro * uro)) + uro * (uro * (uro * uro))) by ring.
  apply Rabs_le. lra.
Qed.
Lemma within1 : within 0 1. Proof. split; cbn; lra. Qed.
(** A product, or a quotient, of positive numbers in the normal range. *)
Lemma mult_rel (a b : f64) (i : Z) : fin a -> fin b -> bp (-1022) <= Rabs (val a * val b) <= bp i -> (-1022 <= i < 1024)%Z ->
  fin (a *' b) /\ val (a *' b) = rnd (val a * val b) /\ exists d, Rabs d <= uro /\ val (a *' b) = val a * val b * (1 + d).
Proof.
  intros Fa Fb HB Hi. destruct (mult_fin a b Fa Fb) as (F & V). { eapply Rle_lt_trans; [apply (rnd_le _ i); [lia|apply HB]|apply bpow_lt; lia]. }
  destruct (rnd_rel _ (proj1 HB)) as (d & Hd & E). split; [exact F|]. split; [exact V|]. exists d. split; [exact Hd|]. rewrite V. exact E.
Qed.
Lemma div_rel (a b : f64) (i : Z) : fin a -> val b <> 0 -> bp (-1022) <= Rabs (val a / val b) <= bp i -> (-1022 <= i < 1024)%Z ->
  fin (a /' b) /\ exists d, Rabs d <= uro /\ val (a /' b) = val a / val b * (1 + d).
Proof.
  intros Fa Hb HB Hi. destruct (div_fin a b Fa Hb) as (F & V). { eapply Rle_lt_trans; [apply (rnd_le _ i); [lia|apply HB]|apply bpow_lt; lia]. }
  destruct (rnd_rel _ (proj1 HB)) as (d & Hd & E). split; [exact F|]. exists d. split; [exact Hd|]. rewrite V. exact E.
Qed.
Lemma scale_bp (x c C : R) (i j k l : Z) : bp i <= x <= bp j -> bp k <= c <= bp l -> bp (i + k) <= x * c <= bp (j + l).
Proof.
  intros Hx Hc. pose proof (bpow_ge_0 radix2 i). pose proof (bpow_ge_0 radix2 k). rewrite !bpow_plus. split; apply Rmult_le_compat; lra.
Qed.
Lemma one_d (d : R) : Rabs d <= uro -> bp (-1) <= 1 + d <= bp 1.
Proof. intros H. apply abs_le_inv in H. pose proof us. change (bp (-1)) with (/ 2). change (bp 1) with 2. lra. Qed.

(** ** The angle *)
Lemma angle (fov : f64) : fin fov -> / 2 ^ 900 <= val fov <= 120 ->
  let a := ((f64_half *' fov) *' f64_pi) /' slit (T := f64) 180 1 in let y := val fov * PI / 360 in
  fin a /\ Rabs (val a - y) <= 401 / 100 * uro * y /\ bp (-910) <= y <= PI / 3 /\ bp (-920) <= val a <= 1048 / 1000 /\ val a <= PI / 3 + / 1000.
Proof.
  intros Ff Bf a y. pose proof pi_bounds as P. change (/ 2 ^ 900) with (/ 2 ^ 900) in Bf. rewrite <- bpm900 in Bf.
  assert (B0 : bp (-900) <= val fov <= bp 7) by (change (bp 7) with 128; lra).
  assert (HH : bp (-1) <= / 2 <= bp (-1)) by (change (bp (-1)) with (/ 2); lra).
  pose proof (scale_bp _ _ 0 _ _ _ _ B0 HH) as B1. cbn [Z.add Z.pos_sub Pos.add Pos.succ Pos.pred_double] in B1.
  assert (E1 : val f64_half * val fov = val fov * / 2) by (rewrite val_half; ring).
  pose proof (bpow_gt_0 radix2 (-900)) as G.
  destruct (mult_rel f64_half fov 6 eq_refl Ff) as (F1 & _ & d1 & Hd1 & V1); [rewrite E1, Rabs_pos_eq by lra; split; [eapply Rle_trans; [apply (bpow_le radix2 (-1022) (-901)); lia|apply B1]|apply B1]|lia|].
  rewrite E1 in V1. pose proof (scale_bp _ _ 0 _ _ _ _ B1 (one_d d1 Hd1)) as B2. cbn [Z.add Z.pos_sub Pos.add Pos.succ Pos.pred_double] in B2. rewrite <- V1 in B2.
  destruct pi_rel as (dp & Hdp & Vp).
  assert (BP : bp 1 <= val f64_pi <= bp 2) by (rewrite val_pi; change (bp 1) with 2; change (bp 2) with 4; lra).
  pose proof (scale_bp _ _ 0 _ _ _ _ B2 BP) as B3. cbn [Z.add Z.pos_sub Pos.add Pos.succ Pos.pred_double] in B3.
  pose proof (bpow_gt_0 radix2 (-901)) as G1.
  destruct (mult_rel (f64_half *' fov) f64_pi 9 F1 eq_refl) as (F2 & _ & d2 & Hd2 & V2); [rewrite Rabs_pos_eq by lra; split; [eapply Rle_trans; [apply (bpow_le radix2 (-1022) (-901)); lia|apply B3]|apply B3]|lia|].
  pose proof (scale_bp _ _ 0 _ _ _ _ B3 (one_d d2 Hd2)) as B4. cbn [Z.add Z.pos_sub Pos.add Pos.succ Pos.pred_double] in B4. rewrite <- V2 in B4.
  destruct val_180 as (_ & V180).
  assert (B180 : bp (-8) <= / 180 <= bp (-7)) by (change (bp (-8)) with (/ 256); change (bp (-7)) with (/ 128); lra).
  pose proof (scale_bp _ _ 0 _ _ _ _ B4 B180) as B5. cbn [Z.add Z.pos_sub Pos.add Pos.succ Pos.pred_double] in B5.
  assert (E5 : val (f64_half *' fov *' f64_pi) / val (slit (T := f64) 180 1) = val (f64_half *' fov *' f64_pi) * / 180) by (rewrite V180; reflexivity).
  pose proof (bpow_gt_0 radix2 (-910)) as G2.
  destruct (div_rel (f64_half *' fov *' f64_pi) (slit (T := f64) 180 1) 3 F2) as (F3 & d3 & Hd3 & V3); [rewrite V180; lra|rewrite E5, Rabs_pos_eq by lra; split; [eapply Rle_trans; [apply (bpow_le radix2 (-1022) (-910)); lia|apply B5]|apply B5]|lia|].
  fold a in F3, V3.
  set (F := 1 * (1 + d1) * (1 + dp) * (1 + d2) * (1 + d3)).
  assert (W : within 4 F) by (unfold F; apply within_S; [apply within_S; [apply within_S; [apply within_S; [apply within1|exact Hd1]|exact Hdp]|exact Hd2]|exact Hd3]).
  assert (VA : val a = y * F) by (rewrite V3, E5, V2, V1, Vp; unfold y, F; field).
  pose proof (pow4 F W) as WF. assert (Y0 : 0 <= y) by (unfold y; apply Rmult_le_pos; [apply Rmult_le_pos|]; lra).
  assert (D : Rabs (val a - y) <= 401 / 100 * uro * y).
  { rewrite VA. replace (y * F - y) with ((F - 1) * y) by ring. rewrite Rabs_mult, (Rabs_pos_eq y Y0). apply Rmult_le_compat_r; assumption. }
  assert (Y1 : y <= PI / 3).
  { unfold y. replace (PI / 3) with (120 * PI / 360) by field. unfold Rdiv. apply Rmult_le_compat_r; [lra|]. apply Rmult_le_compat_r; lra. }
  assert (YL : bp (-910) <= y).
  { assert (C : bp (-7) <= PI / 360 <= bp 0) by (change (bp (-7)) with (/ 128); change (bp 0) with 1; lra).
    pose proof (scale_bp _ _ 0 _ _ _ _ B0 C) as Q. cbn [Z.add Z.pos_sub Pos.add Pos.succ Pos.pred_double] in Q. replace y with (val fov * (PI / 360)) by (unfold y; field).
    eapply Rle_trans; [|apply Q]. apply bpow_le. lia. }
  assert (UY : uro * y <= / 1000000 * y) by (apply Rmult_le_compat_r; [exact Y0|pose proof us; lra]).
  split; [exact F3|]. split; [exact D|]. split; [lra|]. apply abs_le_inv in D.
  assert (bp (-920) <= / 2 * bp (-910)) by (change (-920)%Z with (-10 + -910)%Z; rewrite (bpow_plus radix2 (-10) (-910)); change (bp (-10)) with (/ 1024); lra).
  split; [split; lra|lra].
Qed.

(** ** The tangent *)
Lemma half_tan (TT : Trig f64) (d : R) (fov : f64) : 0 <= d <= / 100 -> good_tan TT d -> fin fov -> / 2 ^ 900 <= val fov <= 120 ->
  let t := stan ((f64_half *' fov) *' f64_pi /' slit (T := f64) 180 1) *' f64_half in let h := tan (val fov * PI / 360) / 2 in
  fin t /\ Rabs (val t - h) <= (102 / 100 * d + 18 * uro) * h /\ bp (-912) <= h <= 3 /\ bp (-920) <= val t <= bp 3.
Proof.
  intros Hd GT Ff Bf t h. destruct (angle fov Ff Bf) as (Fa & Ea & By & Ba & Ba2). cbv zeta in *.
  set (a := (f64_half *' fov) *' f64_pi /' slit (T := f64) 180 1) in *. set (y := val fov * PI / 360) in *.
  pose proof us as U. pose proof pi_bounds as P. pose proof (bpow_gt_0 radix2 (-920)) as G. pose proof (bpow_gt_0 radix2 (-910)) as G1.
  assert (L1000 : / 2 ^ 1000 <= val a).
  { rewrite <- (bpm 1000). eapply Rle_trans; [apply (bpow_le radix2 _ (-920)); lia|apply Ba]. }
  destruct (GT a Fa (conj L1000 (proj2 Ba))) as (Fs & Es).
  assert (TY : y <= tan y <= 402 / 100 * y) by (apply tan_ge; lra).
  pose proof (tan_near (val a) y (401 / 100 * uro) ltac:(lra) ltac:(lra) Ea) as TN.
  set (T := tan y) in *. set (s := val (stan a)) in *.
  assert (T0 : 0 < T) by lra.
  assert (uT : 0 <= uro * T <= / 1000000 * T) by (split; [apply Rmult_le_pos; lra|apply Rmult_le_compat_r; lra]).
  assert (dT : 0 <= d * T <= / 100 * T) by (split; [apply Rmult_le_pos; lra|apply Rmult_le_compat_r; lra]).
  assert (TN2 : Rabs (tan (val a) - T) <= 1613 / 100 * (uro * T)) by (eapply Rle_trans; [exact TN|]; lra).
  apply abs_le_inv in TN2.
  assert (dA : d * tan (val a) <= d * (T + 1613 / 100 * (uro * T))) by (apply Rmult_le_compat_l; lra).
  assert (duT : d * (uro * T) <= / 100 * (uro * T)) by (apply Rmult_le_compat_r; lra).
  assert (S1 : Rabs (s - T) <= d * T + 1630 / 100 * (uro * T)) by (apply abs_le_inv in Es; match type of Es with _ <= ?x - _ <= _ => change x with s in Es end; apply Rabs_le; lra).
  apply abs_le_inv in S1.
  assert (SB : 98 / 100 * T <= s <= 102 / 100 * T) by lra.
  assert (T4 : T <= 5) by (destruct TY; lra).
  assert (E2 : s * val f64_half = s / 2) by (rewrite val_half; reflexivity).
  assert (LB : bp (-912) <= T / 2).
  { change (-912)%Z with (-2 + -910)%Z. rewrite (bpow_plus radix2 (-2) (-910)). change (bp (-2)) with (/ 4). lra. }
  assert (LB2 : bp (-913) <= s / 2).
  { change (-913)%Z with (-1 + -912)%Z. rewrite (bpow_plus radix2 (-1) (-912)). change (bp (-1)) with (/ 2). pose proof (bpow_gt_0 radix2 (-912)). lra. }
  pose proof (bpow_gt_0 radix2 (-913)) as G3.
  destruct (mult_rel (stan a) f64_half 2 Fs eq_refl) as (Ft & _ & d2 & Hd2 & Vt).
  { fold s. rewrite E2, Rabs_pos_eq by lra. change (bp 2) with 4. split; [eapply Rle_trans; [apply (bpow_le radix2 (-1022) (-913)); lia|exact LB2]|lra]. }
  { lia. }
  fold s in Vt. fold t in Ft, Vt. rewrite E2 in Vt. apply abs_le_inv in Hd2.
  assert (sd : Rabs (s / 2 * d2) <= s / 2 * uro) by (rewrite Rabs_mult, (Rabs_pos_eq (s / 2)) by lra; apply Rmult_le_compat_l; [lra|apply Rabs_le; lra]).
  assert (su : s / 2 * uro <= 102 / 200 * (uro * T)) by (replace (102 / 200 * (uro * T)) with (102 / 200 * T * uro) by ring; apply Rmult_le_compat_r; lra).
  apply abs_le_inv in sd.
  split; [exact Ft|]. split; [|split].
  - unfold h. fold T. apply Rabs_le. rewrite Vt. replace (s / 2 * (1 + d2)) with (s / 2 + s / 2 * d2) by ring. replace ((102 / 100 * d + 18 * uro) * (T / 2)) with (51 / 100 * (d * T) + 9 * (uro * T)) by field. lra.
  - unfold h. fold T. lra.
  - rewrite Vt. replace (s / 2 * (1 + d2)) with (s / 2 + s / 2 * d2) by ring. change (bp 3) with 8. change (-920)%Z with (-7 + -913)%Z. rewrite (bpow_plus radix2 (-7) (-913)). change (bp (-7)) with (/ 128). lra.
Qed.

(** C202: set_perspective( fovy, aspect, near, far ) for fovy up to 120 degrees. *)
Theorem C202_set_perspective (cfg : Cfg) (TT : Trig f64) (d : R) (fr : list f64) (fov aspect near far : f64) :
  0 <= d <= / 100 -> good_tan TT d -> length fr = 6%nat -> fin fov -> / 2 ^ 900 <= val fov <= 120 ->
  fin aspect -> / 2 ^ 80 <= val aspect <= 2 ^ 80 ->
  let h := tan (val fov * PI / 360) / 2 in
  exists l r b t, fr_set_perspective fr fov aspect near far = Ok [l; r; b; t; near; far] /\
  fin l /\ fin r /\ fin b /\ fin t /\ val b = - val t /\ val l = - val r /\ val l < val r /\ val b < val t /\
  Rabs (val t - h) <= (102 / 100 * d + 18 / 2 ^ 53) * h /\
  Rabs (val r - val aspect * h) <= (104 / 100 * d + 20 / 2 ^ 53) * (val aspect * h).
Proof.
  intros Hd GT Lf Ff Bf Fas Bas h. destruct (half_tan TT d fov Hd GT Ff Bf) as (Ft & Et & Bh & Bt). cbv zeta in *. fold h in Et, Bh.
  set (t := stan ((f64_half *' fov) *' f64_pi /' slit (T := f64) 180 1) *' f64_half) in *.
  assert (Fb : fin (b64_opp t)) by (unfold fin, b64_opp in *; rewrite is_finite_Bopp; exact Ft).
  assert (Vb : val (b64_opp t) = - val t) by (unfold val, b64_opp; apply B2R_Bopp).
  pose proof us as U. rewrite <- (bpm 80), <- (bpn 80) in Bas. change (- Z.of_nat 80)%Z with (-80)%Z in Bas. change (Z.of_nat 80) with 80%Z in Bas.
  pose proof (scale_bp _ _ 0 _ _ _ _ Bt Bas) as BR. change (-920 + -80)%Z with (-1000)%Z in BR. change (3 + 80)%Z with 83%Z in BR.
  pose proof (bpow_gt_0 radix2 (-920)) as G. pose proof (bpow_gt_0 radix2 (-80)) as G8. pose proof (bpow_gt_0 radix2 (-1000)) as GK. pose proof (bpow_gt_0 radix2 (-912)) as G9.
  assert (BR2 : bp (-1022) <= Rabs (val t * val aspect) <= bp 83).
  { rewrite Rabs_pos_eq by lra. split; [|apply BR]. eapply Rle_trans; [|apply BR]. apply bpow_le. lia. }
  destruct (mult_rel t aspect 83 Ft Fas BR2 ltac:(lia)) as (Fr & Vr & d2 & Hd2 & Er).
  destruct (mult_rel (b64_opp t) aspect 83 Fb Fas) as (Fl & Vl & _); [rewrite Vb; replace (- val t * val aspect) with (- (val t * val aspect)) by ring; rewrite Rabs_Ropp; exact BR2|lia|].
  exists (b64_opp t *' aspect), (t *' aspect), (b64_opp t), t.
  split.
  { destruct fr as [|x0 [|x1 [|x2 [|x3 [|x4 [|x5 [|x6 fr]]]]]]]; try discriminate Lf. reflexivity. }
  split; [exact Fl|]. split; [exact Fr|]. split; [exact Fb|]. split; [exact Ft|]. split; [exact Vb|].
  assert (VL : val (b64_opp t *' aspect) = - val (t *' aspect)).
  { rewrite Vl, Vr, Vb. replace (- val t * val aspect) with (- (val t * val aspect)) by ring. apply rnd_opp. }
  assert (RP : 0 < val (t *' aspect)).
  { rewrite Er. pose proof (one_d d2 Hd2) as O. change (bp (-1)) with (/ 2) in O. apply Rmult_lt_0_compat; lra. }
  split; [exact VL|]. split; [lra|]. split; [lra|].
  change (18 / 2 ^ 53) with (18 * uro). change (20 / 2 ^ 53) with (20 * uro). split; [exact Et|].
  set (A := val aspect) in *. set (x := val t) in *.
  assert (Ah : 0 < A * h) by (apply Rmult_lt_0_compat; lra).
  assert (X1 : Rabs (x * A - A * h) <= (102 / 100 * d + 18 * uro) * (A * h)).
  { replace (x * A - A * h) with (A * (x - h)) by ring. rewrite Rabs_mult, (Rabs_pos_eq A) by lra. replace ((102 / 100 * d + 18 * uro) * (A * h)) with (A * ((102 / 100 * d + 18 * uro) * h)) by ring. apply Rmult_le_compat_l; lra. }
  assert (uA : 0 <= uro * (A * h) <= / 1000000 * (A * h)) by (split; [apply Rmult_le_pos; lra|apply Rmult_le_compat_r; lra]).
  assert (dA : 0 <= d * (A * h) <= / 100 * (A * h)) by (split; [apply Rmult_le_pos; lra|apply Rmult_le_compat_r; lra]).
  replace ((102 / 100 * d + 18 * uro) * (A * h)) with (102 / 100 * (d * (A * h)) + 18 * (uro * (A * h))) in X1 by ring.
  replace ((104 / 100 * d + 20 * uro) * (A * h)) with (104 / 100 * (d * (A * h)) + 20 * (uro * (A * h))) by ring.
  apply abs_le_inv in X1.
  assert (X2 : Rabs (x * A * d2) <= 102 / 100 * (A * h) * uro).
  { rewrite Rabs_mult. apply Rmult_le_compat; try apply Rabs_pos; [apply Rabs_le; lra|exact Hd2]. }
  apply abs_le_inv in X2. rewrite Er. replace (x * A * (1 + d2)) with (x * A + x * A * d2) by ring. apply Rabs_le. lra.
Qed.
Print Assumptions C202_set_perspective.

(** ** A correctly rounded tangent meets the hypothesis *)
Definition f64_of_R (x : R) : f64 := binary_normalize 53 1024 eq_refl eq_refl mode_NE (Ztrunc (scaled_mantissa radix2 (FLT_exp (-1074) 53) (rnd x))) (cexp radix2 (FLT_exp (-1074) 53) (rnd x)) false.
Lemma f64_of_R_E (x : R) : Rabs (rnd x) < bp 1024 -> fin (f64_of_R x) /\ val (f64_of_R x) = rnd x.
Proof.
  intros HB. unfold f64_of_R.
  assert (VE : Valid_exp (FLT_exp (-1074) 53)) by (apply FLT_exp_valid; reflexivity).
  assert (GF : generic_format radix2 (FLT_exp (-1074) 53) (rnd x)) by (apply generic_format_round; [exact VE|apply valid_rnd_N]).
  match goal with |- context [binary_normalize _ _ _ _ _ ?m ?e _] => pose proof (binary_normalize_correct 53 1024 eq_refl eq_refl mode_NE m e false) as C; assert (EX : F2R (beta := radix2) {| Fnum := m; Fexp := e |} = rnd x) end.
  { symmetry. exact GF. }
  cbn [round_mode] in C. change (SpecFloat.fexp 53 1024) with (FLT_exp (-1074) 53) in C. rewrite EX in C.
  rewrite (round_generic radix2 (FLT_exp (-1074) 53) _ (rnd x) GF) in C.
  rewrite Rlt_bool_true in C by exact HB. destruct C as (C1 & C2 & _). split; [exact C2|exact C1].
Qed.
Definition rounded_tan : Trig f64 := {| ssin := fun t => t; scos := fun t => t; stan := fun t => f64_of_R (tan (val t)) |}.
Lemma rounded_tan_good : good_tan rounded_tan uro.
Proof.
  intros a Fa Ba. pose proof pi_bounds as P. pose proof us as U. cbn [stan rounded_tan].
  rewrite <- (bpm 1000) in Ba. change (- Z.of_nat 1000)%Z with (-1000)%Z in Ba. pose proof (bpow_gt_0 radix2 (-1000)) as G.
  pose proof (tan_ge (val a) ltac:(lra)) as T.
  assert (TA : Rabs (tan (val a)) = tan (val a)) by (apply Rabs_pos_eq; lra).
  destruct (rnd_rel (tan (val a))) as (d & Hd & E). { rewrite TA. apply Rle_trans with (bp (-1000)); [apply bpow_le; lia|lra]. }
  destruct (f64_of_R_E (tan (val a))) as (F & V). { eapply Rle_lt_trans; [apply (rnd_le _ 3); [lia|rewrite TA; change (bp 3) with 8; lra]|apply bpow_lt; lia]. }
  split; [exact F|]. rewrite V, E. replace (tan (val a) * (1 + d) - tan (val a)) with (d * tan (val a)) by ring. rewrite Rabs_mult, TA. apply Rmult_le_compat_r; [lra|exact Hd].
Qed.
Example C202_hypotheses_met : good_tan rounded_tan uro /\ 0 <= uro <= / 100 /\ (fin (slit (T := f64) 60 1) /\ / 2 ^ 900 <= val (slit (T := f64) 60 1) <= 120) /\
  (fin f64_two /\ / 2 ^ 80 <= val f64_two <= 2 ^ 80).
Proof.
  pose proof us as U. split; [exact rounded_tan_good|]. split; [lra|].
  assert (V : val (slit (T := f64) 60 1) = 60).
  { unfold val. rewrite <- FF2R_B2FF. replace (B2FF 53 1024 (slit (T := f64) 60 1)) with (F754_finite false 8444249301319680 (-47)) by (vm_compute; reflexivity). unfold FF2R, F2R. cbn. lra. }
  assert (G1 : 2 <= 2 ^ 900) by (rewrite <- (pow_1 2) at 1; apply Rle_pow; [lra|lia]).
  assert (G2 : 2 <= 2 ^ 80) by (rewrite <- (pow_1 2) at 1; apply Rle_pow; [lra|lia]).
  assert (G3 : / 2 ^ 900 <= / 2) by (apply Rinv_le_contravar; lra). assert (G4 : / 2 ^ 80 <= / 2) by (apply Rinv_le_contravar; lra).
  split; [split; [vm_compute; reflexivity|rewrite V; lra]|]. split; [reflexivity|]. rewrite val_two. lra.
Qed.
