(** Property C213: from set_perspective() to the verdict of the culler, in float. *)
From Coq Require Import ZArith Reals Lra Psatz List.
From Flocq Require Import Core.Core IEEE754.BinarySingleNaN IEEE754.Binary IEEE754.Bits.
From Verif Require Import InstF InstF32 MFrustum MFloat MLit MPersp MCullF MViewF Spec Spec4 PF32 LF32 PF32b LExprF PCullF PCullF2 LRot PViewF32 LPersp PPersp32 LPerspCull.
From Verif Require PFloat PPersp.
Import ListNotations.
Local Open Scope R_scope.
Local Open Scope list_scope.
Local Existing Instance F32Scalar.

(** The margin in terms of the distance of a point from the eye, which the error d
    of the tangent adds to. *)
Definition persp_margin (d mg : R) (q : V3) : R := 2 * mg + 2 * (105 / 100 * d + 206 / 100 / 2 ^ 24) * len3R q.
(** The parameters of a camera: field of view in degrees, aspect ratio, clipping
    distances. *)
Definition camera (fov aspect near far : f32) : Prop :=
  fin fov /\ 1 <= val fov <= 120 /\ fin aspect /\ / 16 <= val aspect <= 16 /\ fin near /\ / 2 ^ 9 <= val near <= 2 ^ 3 /\ fin far /\
  val near < val far <= 2 ^ 15 * val near /\ val near <= 2 ^ 15 * (val far - val near).

Lemma camera_tilt (cfg : Cfg) (TT : Trig f64) (d : R) (fr : list f32) (fov aspect near far : f32) :
  0 <= d <= / 100 -> PPersp.good_tan TT d -> length fr = 6%nat -> camera fov aspect near far ->
  let h := tan (val fov * PI / 360) / 2 in let w := val aspect * h in
  exists l r b t, frF_set_perspective fr fov aspect near far = Ok [l; r; b; t; near; far] /\ cam_range l r b t near far /\
  forall c, Forall2 (tilted (105 / 100 * d + 206 / 100 / 2 ^ 24)) (view_bounds (val l) (val r) (val b) (val t) (val near) (val far) c) (view_bounds (- w) w (- h) h (val near) (val far) c).
Proof.
  intros Hd GT Lf (Ff & Bf & Fa & Ba & Fn & Bn & Ffar & Bfar & Bd) h w. assert (P10 : 2 ^ 10 = 1024) by (cbn; lra). assert (P3 : 2 ^ 3 = 8) by (cbn; lra). assert (P9 : 2 ^ 9 = 512) by (cbn; lra). rewrite P9, P3 in *.
  assert (X1 : / 2 ^ 60 <= / 1024) by (apply Rinv_le_contravar; [lra|]; rewrite <- P10; apply Rle_pow; [lra|lia]).
  assert (X2 : / 2 ^ 40 <= / 1024) by (apply Rinv_le_contravar; [lra|]; rewrite <- P10; apply Rle_pow; [lra|lia]).
  assert (X3 : 1024 <= 2 ^ 40) by (rewrite <- P10; apply Rle_pow; [lra|lia]).
  destruct (C204_set_perspective TT d fr fov aspect near far Hd GT Lf Ff ltac:(lra) Fa ltac:(lra)) as (l & r & b & t & E & Fl & Fr & Fb & Ft & Eb & El & Lr & Bt & Et & Er). fold h in Et, Er. fold w in Er.
  exists l, r, b, t. split; [exact E|].
  pose proof pi_bounds as HPI. set (a := val fov * PI / 360) in *.
  assert (A1 : 1 * (3 / 360) <= a). { unfold a, Rdiv. rewrite Rmult_assoc. apply Rmult_le_compat; lra. }
  assert (A2 : a <= PI / 3). { unfold a. assert (val fov * PI <= 120 * PI) by (apply Rmult_le_compat_r; lra). lra. }
  assert (TG := tan_ge a ltac:(lra)). assert (HB : / 256 <= h <= 3) by (unfold h; lra).
  assert (W0 : 0 < w) by (unfold w; apply Rmult_lt_0_compat; lra).
  assert (WB : / 16 * / 256 <= w <= 16 * 3) by (unfold w; split; apply Rmult_le_compat; lra).
  set (e := 105 / 100 * d + 206 / 100 / 2 ^ 24) in *. assert (U24 : 0 < / 2 ^ 24 <= / 1000000) by (split; [apply Rinv_0_lt_compat; lra|apply Rinv_le_contravar; lra]).
  assert (E1 : 0 <= e <= / 50) by (unfold e, Rdiv; lra).
  assert (Et' : Rabs (val t - h) <= e * h) by (eapply Rle_trans; [exact Et|]; apply Rmult_le_compat_r; [lra|unfold e, Rdiv; lra]).
  assert (T1 : Rabs (val t - h) <= / 50 * h) by (eapply Rle_trans; [exact Et'|]; apply Rmult_le_compat_r; lra).
  assert (R1 : Rabs (val r - w) <= / 50 * w) by (eapply Rle_trans; [exact Er|]; apply Rmult_le_compat_r; lra).
  apply Rabs_le_inv in T1, R1.
  assert (n0 : 0 < val near) by lra. split.
  - split; [intros x [<-|[<-|[<-|[<-|[<-|[<-|[]]]]]]]; assumption|]. rewrite n15 in *. split; [lra|]. split; [lra|]. split; [|lra].
    intros x [<-|[<-|[<-|[<-|[]]]]]; rewrite ?El, ?Eb, ?Rabs_Ropp, Rabs_pos_eq; lra.
  - intros [[x y] z]. unfold view_bounds. rewrite El, Eb.
    assert (SR : forall q, _) by (intros q; exact (side_tilt e (val near) (val r) w q (proj1 E1) n0 ltac:(rewrite (Rabs_pos_eq w) by lra; exact Er))).
    assert (SL : forall q, _) by (intros q; exact (side_tilt e (val near) (- val r) (- w) q (proj1 E1) n0 ltac:(rewrite Rabs_Ropp, (Rabs_pos_eq w) by lra; replace (- val r - - w) with (- (val r - w)) by ring; rewrite Rabs_Ropp; exact Er))).
    assert (ST : forall q, _) by (intros q; exact (side_tilt e (val near) (val t) h q (proj1 E1) n0 ltac:(rewrite (Rabs_pos_eq h) by lra; exact Et'))).
    assert (SB : forall q, _) by (intros q; exact (side_tilt e (val near) (- val t) (- h) q (proj1 E1) n0 ltac:(rewrite Rabs_Ropp, (Rabs_pos_eq h) by lra; replace (- val t - - h) with (- (val t - h)) by ring; rewrite Rabs_Ropp; exact Et'))).
    assert (MM : forall v, 0 <= v -> Rmax (Rabs (- v)) (Rabs v) = v) by (intros v Hv; rewrite Rabs_Ropp, Rabs_pos_eq by exact Hv; apply Rmax_left; lra).
    rewrite !MM by lra.
    set (k := 40 / 2 ^ 24). assert (K0 : 0 <= k) by (unfold k, Rdiv; lra). set (tail := (Rabs x + Rabs y + Rabs z + 1) / 2 ^ 130).
    assert (T0 : 0 <= tail) by (unfold tail; apply Rmult_le_pos; [pose proof (Rabs_pos x); pose proof (Rabs_pos y); pose proof (Rabs_pos z); lra|left; apply Rinv_0_lt_compat, pow_lt; lra]).
    assert (MG : forall u' u s, 0 <= s -> 0 <= u -> u' <= 2 * u -> k * (1 + u' / val near) * s + tail <= 2 * (k * (1 + u / val near) * s + tail)).
    { intros u' u s Hs Hu HU. assert (I : 0 < / val near) by (apply Rinv_0_lt_compat, n0). assert (u' / val near <= 2 * u / val near) by (apply Rmult_le_compat_r; lra).
      assert (k * (1 + u' / val near) * s <= k * (2 * (1 + u / val near)) * s) by (apply Rmult_le_compat_r; [exact Hs|]; apply Rmult_le_compat_l; [exact K0|]; unfold Rdiv in *; lra). lra. }
    assert (SX : 0 <= Rabs x + Rabs z) by (pose proof (Rabs_pos x); pose proof (Rabs_pos z); lra). assert (SY : 0 <= Rabs y + Rabs z) by (pose proof (Rabs_pos y); pose proof (Rabs_pos z); lra).
    assert (SAME : forall (H : hs) m, 0 <= m -> tilted e (H, m) (H, m)).
    { intros H m Hm. split; cbn [fst snd]; [lra|]. intros q. rewrite Rminus_diag_eq, Rabs_R0 by reflexivity. pose proof (LVectorR.len3_nonneg q). apply Rmult_le_pos; lra. }
    constructor; [split; cbn [fst snd]; [apply MG; lra|intros q; apply (SL q)]|].
    constructor; [split; cbn [fst snd]; [apply MG; lra|intros q; apply (SR q)]|].
    constructor; [split; cbn [fst snd]; [apply MG; lra|intros q; apply (SB q)]|].
    constructor; [split; cbn [fst snd]; [apply MG; lra|intros q; apply (ST q)]|].
    pose proof (Rabs_pos z) as Z0.
    constructor; [apply SAME; apply Rplus_le_le_0_compat; [apply Rmult_le_pos; lra|exact T0]|].
    constructor; [apply SAME; apply Rplus_le_le_0_compat; [repeat apply Rmult_le_pos; try lra; left; apply Rinv_0_lt_compat, n0|exact T0]|]. constructor.
Qed.

(** C213: a sphere, after set_perspective( fov, aspect, near, far ), compute_matrix()
    and FrustumCuller::setup().  F: the exact half-spaces of the frustum with
    half-height tan( fov / 2 ) / 2 at distance near. *)
Theorem C213_perspective_sphere_culling (cfg : Cfg) (TT : Trig f64) (d : R) (fr : list f32) (fov aspect near far x y z rad : f32) :
  0 <= d <= / 100 -> PPersp.good_tan TT d -> length fr = 6%nat -> camera fov aspect near far -> sane x -> sane y -> sane z -> sane rad ->
  let c := (val x, val y, val z) in let h := tan (val fov * PI / 360) / 2 in let w := val aspect * h in
  let F := view_bounds (- w) w (- h) h (val near) (val far) c in
  exists fr' m cl v, frF_set_perspective fr fov aspect near far = Ok fr' /\ frf_compute_matrix fr' = Ok m /\ fcf_setup m = Ok cl /\ fc_test_sphere cl [x; y; z; rad] = Ok v /\
  (v = V_NONE -> exists H mg, In (H, mg) F /\ forall q, in_ball c (val rad) q -> sdist H q <= persp_margin d mg q) /\
  (v = V_FULL -> forall H mg q, In (H, mg) F -> in_ball c (val rad) q -> - persp_margin d mg q <= sdist H q) /\
  (forall q, in_ball c (val rad) q -> (forall H mg, In (H, mg) F -> persp_margin d mg q < sdist H q) -> v <> V_NONE) /\
  ((exists H mg, In (H, mg) F /\ sdist H c <= - val rad - persp_margin d mg c) -> v = V_NONE) /\
  (0 < val rad -> (forall H mg, In (H, mg) F -> val rad + persp_margin d mg c <= sdist H c) -> v = V_FULL).
Proof.
  intros Hd GT Lf HC Sx Sy Sz Sr c h w F. destruct (camera_tilt cfg TT d fr fov aspect near far Hd GT Lf HC) as (l & r & b & t & E & CR & FA). specialize (FA c). fold h w in FA. fold F in FA.
  destruct (C156_camera_sphere_culling cfg l r b t near far x y z rad CR Sx Sy Sz Sr) as (m & cl & v & Em & Ec & Ev & C1 & C2 & C3 & C4 & C5). fold c in C1, C2, C3, C4, C5.
  exists [l; r; b; t; near; far], m, cl, v. repeat (split; [assumption|]).
  split; [intros Hv; exact (carry_none _ _ _ FA (in_ball c (val rad)) (C1 Hv))|].
  split; [intros Hv; exact (carry_full _ _ _ FA (in_ball c (val rad)) (C2 Hv))|].
  split; [intros q Bq G; exact (C3 q Bq (carry_above_lt _ _ _ FA q G))|].
  split; [intros G; exact (C4 (carry_below _ _ _ FA c (val rad) G))|intros Hr G; exact (C5 Hr (carry_above _ _ _ FA c (val rad) G))].
Qed.
Print Assumptions C213_perspective_sphere_culling.
(** C213: a box. *)
Theorem C213_perspective_box_culling (cfg : Cfg) (wide : bool) (TT : Trig f64) (d : R) (fr : list f32) (fov aspect near far x0 x1 y0 y1 z0 z1 : f32) :
  0 <= d <= / 100 -> PPersp.good_tan TT d -> length fr = 6%nat -> camera fov aspect near far -> sane x0 -> sane x1 -> sane y0 -> sane y1 -> sane z0 -> sane z1 ->
  let box := in_span (val x0) (val x1) (val y0) (val y1) (val z0) (val z1) in let h := tan (val fov * PI / 360) / 2 in let w := val aspect * h in
  let F := view_bounds (- w) w (- h) h (val near) (val far) (reach (val x0) (val x1), reach (val y0) (val y1), reach (val z0) (val z1)) in
  exists fr' m cl v, frF_set_perspective fr fov aspect near far = Ok fr' /\ frf_compute_matrix fr' = Ok m /\ fcf_setup m = Ok cl /\ fcf_test_aabb wide cl [x0; x1] [y0; y1] [z0; z1] = Ok v /\
  (v = V_NONE -> exists H mg, In (H, mg) F /\ forall q, box q -> sdist H q <= persp_margin d mg q) /\
  (v = V_FULL -> forall H mg q, In (H, mg) F -> box q -> - persp_margin d mg q <= sdist H q) /\
  (forall q, box q -> (forall H mg, In (H, mg) F -> persp_margin d mg q < sdist H q) -> v <> V_NONE) /\
  ((exists H mg, In (H, mg) F /\ forall q, box q -> sdist H q < - persp_margin d mg q) -> v = V_NONE) /\
  ((forall H mg q, In (H, mg) F -> box q -> persp_margin d mg q <= sdist H q) -> v = V_FULL).
Proof.
  intros Hd GT Lf HC X0 X1 Y0 Y1 Z0 Z1 box h w F. destruct (camera_tilt cfg TT d fr fov aspect near far Hd GT Lf HC) as (l & r & b & t & E & CR & FA). specialize (FA (reach (val x0) (val x1), reach (val y0) (val y1), reach (val z0) (val z1))). fold h w in FA. fold F in FA.
  destruct (C156_camera_box_culling cfg wide l r b t near far x0 x1 y0 y1 z0 z1 CR X0 X1 Y0 Y1 Z0 Z1) as (m & cl & v & Em & Ec & Ev & C1 & C2 & C3 & C4 & C5). fold box in C1, C2, C3, C4, C5.
  exists [l; r; b; t; near; far], m, cl, v. repeat (split; [assumption|]).
  split; [intros Hv; exact (carry_none _ _ _ FA box (C1 Hv))|].
  split; [intros Hv; exact (carry_full _ _ _ FA box (C2 Hv))|].
  split; [intros q Bq G; exact (C3 q Bq (carry_above_lt _ _ _ FA q G))|].
  split; [intros G; exact (C4 (carry_below_lt _ _ _ FA box G))|].
  intros G. apply C5. intros H mg q I Bq. assert (K := carry_above _ _ _ FA q 0). pose proof (K ltac:(intros H0 m0 I0; rewrite Rplus_0_l; exact (G H0 m0 q I0 Bq)) H mg I) as KK. change (sdist H q) with (sdR H q). lra.
Qed.
Print Assumptions C213_perspective_box_culling.
(** 2 degrees, aspect ratio 1/2, clipping at 1 and 2. *)
Example C213_hypotheses_met : PPersp.good_tan PPersp.rounded_tan PFloat.uro /\ 0 <= PFloat.uro <= / 100 /\ camera f32_two f32_half f32_one f32_two /\ sane f32_zero /\ sane f32_half.
Proof.
  pose proof C204_hypotheses_met as (GT & U & _). split; [exact GT|]. split; [exact U|].
  split; [|exact (conj sane_zero sane_half)]. unfold camera. rewrite val_one, val_two, val_half, n15. assert (P10 : 2 ^ 10 = 1024) by (cbn; lra). assert (P3 : 2 ^ 3 = 8) by (cbn; lra). assert (P9 : 2 ^ 9 = 512) by (cbn; lra). rewrite P9, P3.
  split; [reflexivity|]. split; [lra|]. split; [reflexivity|]. split; [lra|]. split; [reflexivity|]. split; [lra|]. split; [reflexivity|]. lra.
Qed.
