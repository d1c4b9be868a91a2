(** Property C85: the three rotation interfaces (quaternions, matrices, vectors)
    describe the same rotation. *)
From Coq Require Import Nsatz.
From Verif Require Export Spec7 PMatrix3 PQuaternion PSlerp.
Local Open Scope R_scope.

Lemma half_angle t : cos t = cos (t / 2) * cos (t / 2) - sin (t / 2) * sin (t / 2) /\ sin t = 2 * sin (t / 2) * cos (t / 2).
Proof.
  assert (E : t = 2 * (t / 2)) by field. split.
  - rewrite E at 1. rewrite cos_2a. ring.
  - rewrite E at 1. rewrite sin_2a. ring.
Qed.

Lemma axis_angle_unit k t : dot3 k k = 1 -> qdotR (axis_angleR k t) (axis_angleR k t) = 1.
Proof.
  destruct k as [[x y] z]. unfold dot3, axis_angleR, qdotR. intros H. pose proof (sc1 (t / 2)) as S.
  replace (sin (t / 2) * x * (sin (t / 2) * x) + sin (t / 2) * y * (sin (t / 2) * y) + sin (t / 2) * z * (sin (t / 2) * z) + cos (t / 2) * cos (t / 2))
    with (sin (t / 2) * sin (t / 2) * (x * x + y * y + z * z) + cos (t / 2) * cos (t / 2)) by ring.
  rewrite H. lra.
Qed.

Lemma rotcell_axis k t i j : dot3 k k = 1 -> (i < 3)%nat -> (j < 3)%nat -> rotcell (axis_angleR k t) i j = rotF k t i j.
Proof.
  intros H Hi Hj. destruct k as [[x y] z]. unfold dot3 in H.
  destruct (half_angle t) as [C S]. pose proof (sc1 (t / 2)) as P.
  unfold rotF, axis_angleR. rewrite C, S. set (s := sin (t / 2)) in *. set (c := cos (t / 2)) in *. clearbody s c. clear C S.
  cbv zeta. replace (1 - (c * c - s * s)) with (2 * (s * s)) by lra.
  assert (HS : s * s * (x * x + y * y + z * z) = s * s) by (rewrite H; ring).
  destruct i as [|[|[|i]]]; try lia; destruct j as [|[|[|j]]]; try lia; cbn [rotcell nth]; lra.
Qed.

Lemma quat_axis_angle {cfg : Cfg} {lim : RLim} k t :
  (s <- vec_mul_s 3 (v3 k) (sin (t / 2)) ;; q_of_vec_w s (cos (t / 2))) = Ok (ql (axis_angleR k t)).
Proof.
  destruct k as [[x y] z]. unfold vec_mul_s, q_of_vec_w.
  cbn -[IZR Rplus Rminus Rmult Ropp sin cos Rdiv].
  destruct safe; cbn -[IZR Rplus Rminus Rmult Ropp sin cos Rdiv]; apply f_equal;
    repeat (apply (f_equal2 (@cons R)); [ring|]); reflexivity.
Qed.

(** For every unit axis k and angle t: the quaternion (sin(t/2) k, cos(t/2))
    built with Quaternion( Vector< 3 >, w ) is a unit quaternion; its rotation
    matrix is Matrix::rotate( t, k ); conjugating a vector by it is
    Vector::rotate( t, k ). *)
Theorem C85_one_rotation :
  forall (cfg : Cfg) (lim : RLim) (k : V3) (t : R) (g : list R),
  dot3 k k = 1 -> length g = 16%nat ->
  exists q i r m3,
    (s <- vec_mul_s 3 (v3 k) (sin (t / 2)) ;; q_of_vec_w s (cos (t / 2))) = Ok q /\
    q = ql (axis_angleR k t) /\
    q_abs q = Ok 1 /\
    mat_rotate g t (v3 k) = Ok r /\
    mat_IDENTITY 4 = Ok i /\ q_get_rotation_matrix_into 4 q i = Ok r /\
    q_get_rotation_matrix q = Ok m3 /\ mat_sub_matrix 4 4 3 3 r 0 0 = Ok m3 /\
    (forall v : V3, exists w : V3,
       vec_rotate (v3 v) t (v3 k) = Ok (v3 w) /\
       mat_mul_vec 3 3 m3 (v3 v) = Ok (v3 w) /\
       (c <- q_get_conjugate q ;; p <- q_of_vec (v3 v) ;; a <- q_mul q p ;; q_mul a c) = Ok (ql (qpureR w))).
Proof.
  intros cfg lim k t g Hk Hg. exists (ql (axis_angleR k t)).
  pose proof (axis_angle_unit k t Hk) as U.
  destruct (mat_default_spec 4 4) as (d0 & E0 & H0).
  destruct (mat_identity_spec 4 d0 _ H0) as (i & Ei & Hi). change (repM 4 4 i idR) in Hi.
  destruct (mat_rotate_R g t k Hg) as (r & Er & Hr).
  destruct (q_rot_3 (axis_angleR k t)) as (m3 & E3 & H3).
  exists i, r, m3. split; [apply quat_axis_angle|]. split; [reflexivity|].
  split; [rewrite q_abs_R; unfold qabsR; rewrite U, sqrt_1; reflexivity|]. split; [exact Er|].
  split; [unfold mat_IDENTITY; rewrite E0; exact Ei|]. split; [|split; [exact E3|split]].
  - destruct (q_rot_into 4 (axis_angleR k t) i _ ltac:(lia) Hi) as (x & Ex & Hx). rewrite Ex. apply (eq_of_rep Hx).
    eapply repM_ext; [exact Hr|]. intros a b Ha Hb. cbv beta.
    destruct (Nat.ltb_spec a 3), (Nat.ltb_spec b 3); cbn [andb]; [symmetry; apply rotcell_axis; auto| | |];
      destruct k as [[x0 y0] z0]; destruct a as [|[|[|[|a]]]]; try lia; destruct b as [|[|[|[|b]]]]; try lia; reflexivity.
  - destruct (mat_sub_matrix_spec 4 4 3 3 r _ 0 0 Hr ltac:(lia) ltac:(lia)) as (x & Ex & Hx). rewrite Ex. apply (eq_of_rep Hx).
    eapply repM_ext; [exact H3|]. intros a b Ha Hb. cbv beta. apply rotcell_axis; auto.
  - intros v. exists (rodrigues k t v). split; [apply C41_rotate_unit; exact Hk|].
    assert (ACT : forall j, rotcell (axis_angleR k t) 0 j = rotcell (axis_angleR k t) 0 j) by reflexivity. clear ACT.
    assert (MV : mv3R (rotcell (axis_angleR k t)) v = rodrigues k t v).
    { transitivity (mv3R (rotF k t) v).
      - destruct v as [[a b] c]. unfold mv3R. rewrite !rotcell_axis by (auto; lia). reflexivity.
      - destruct v as [[a b] c], k as [[x y] z]. unfold mv3R, rodrigues, rotF. cbn [nth]. cbn [add3 scale3 cross3 dot3].
        repeat apply pair_eq; ring. }
    split.
    + destruct (mat_mul_vec_R 3 3 m3 (v3 v) _ (fn3 v) H3 (v3_rep v)) as (x & Ex & Hx). rewrite Ex. f_equal.
      rewrite <- MV. apply (repV_inj 3 _ _ _ Hx). eapply repV_ext; [apply v3_rep|]. clear. intros j Hj.
      destruct v as [[a b] c]. destruct j as [|[|[|j]]]; try lia; unfold mvecR; cbn [mv3R fn3 rsum]; ring.
    + rewrite <- MV. pose proof (proj2 (acts_iff (rotcell (axis_angleR k t)) (axis_angleR k t)) (fun _ _ _ _ => eq_refl) v) as A.
      rewrite A. clear A. destruct (axis_angleR k t) as [[[x y] z] w]. destruct v as [[a b] c].
      change (q_get_conjugate (ql (x, y, z, w))) with (Ok (ql (qconjR (x, y, z, w)))). cbn [bind].
      assert (EP : q_of_vec (v3 (a, b, c)) = Ok (ql (qpureR (a, b, c)))) by (destruct safe; reflexivity).
      rewrite EP. cbn [bind]. rewrite q_mul_R. cbn [bind]. apply q_mul_R.
Qed.
Print Assumptions C85_one_rotation.

(** Rotations about one axis compose by adding angles, and slerp from the
    identity turns at constant speed: slerp( a, 1, q(t) ) = q(a t). *)
Theorem C85_axis_angle_laws :
  forall (cfg : Cfg) (lim : RLim) (k : V3) (t s : R),
  dot3 k k = 1 ->
  q_mul (ql (axis_angleR k t)) (ql (axis_angleR k s)) = Ok (ql (axis_angleR k (t + s))) /\
  q_inverse (ql (axis_angleR k t)) = Ok (ql (axis_angleR k (- t))) /\
  axis_angleR k 0 = (0, 0, 0, 1) /\
  axis_angleR k (2 * PI) = (0, 0, 0, -1) /\
  (forall a eps, 0 < t < PI -> 0 < eps -> cos (t / 2) < 1 - eps ->
     q_slerp a (ql (axis_angleR k 0)) (ql (axis_angleR k t)) eps = Ok (ql (axis_angleR k (a * t)))).
Proof.
  intros cfg lim k t s Hk.
  assert (Z0 : axis_angleR k 0 = (0, 0, 0, 1)).
  { destruct k as [[x y] z]. unfold axis_angleR. replace (0 / 2) with 0 by field. rewrite sin_0, cos_0.
    repeat apply pair_eq; ring. }
  split; [|split; [|split; [exact Z0|split]]].
  - rewrite q_mul_R. do 2 f_equal. destruct k as [[x y] z]. unfold dot3 in Hk. unfold axis_angleR, qmulR.
    replace ((t + s) / 2) with (t / 2 + s / 2) by field. rewrite sin_plus, cos_plus.
    repeat apply pair_eq; try ring.
    replace (cos (t / 2) * cos (s / 2) - sin (t / 2) * x * (sin (s / 2) * x) - sin (t / 2) * y * (sin (s / 2) * y) - sin (t / 2) * z * (sin (s / 2) * z))
      with (cos (t / 2) * cos (s / 2) - sin (t / 2) * sin (s / 2) * (x * x + y * y + z * z)) by ring. rewrite Hk. ring.
  - unfold q_inverse. destruct (C58_conjugate lim (axis_angleR k t) (axis_angleR k t)) as (E1 & _ & _ & _ & E2 & _).
    rewrite E1. cbn [bind]. rewrite E2, (axis_angle_unit k t Hk). cbn [bind]. change (@sone R _) with 1. rewrite sdiv_R by lra.
    cbn [bind]. rewrite q_mul_s_R. do 2 f_equal. replace (1 / 1) with 1 by field. rewrite qscale1.
    destruct k as [[x y] z]. unfold axis_angleR, qconjR. replace (- t / 2) with (- (t / 2)) by field.
    rewrite sin_neg, cos_neg. repeat apply pair_eq; ring.
  - destruct k as [[x y] z]. unfold axis_angleR. replace (2 * PI / 2) with PI by field. rewrite sin_PI, cos_PI.
    repeat apply pair_eq; ring.
  - intros a eps Ht He Hc.
    pose proof (axis_angle_unit k 0 Hk) as U0. pose proof (axis_angle_unit k t Hk) as Ut.
    assert (NZ : forall p, qdotR p p = 1 -> p <> qzero) by (intros p Hp ->; cbn in Hp; lra).
    assert (N : forall p, qdotR p p = 1 -> q_get_normalized (ql p) = Ok (ql p)).
    { intros p Hp. unfold q_get_normalized. rewrite (q_normalize_unit p Hp). reflexivity. }
    destruct (C62_slerp lim a eps _ _ _ _ (NZ _ U0) (NZ _ Ut) He (N _ U0) (N _ Ut)) as (sg & Hs & D & H).
    destruct H as (r & Er & (q & u & v & -> & Eq & _ & _ & _ & _ & H)).
    assert (CP : 0 <= cos (t / 2)) by (apply Rlt_le, cos_gt_0; lra).
    assert (SP : 0 < sin (t / 2)) by (apply sin_gt_0; lra).
    assert (DD : qdotR (axis_angleR k 0) (axis_angleR k t) = cos (t / 2)).
    { rewrite Z0. destruct k as [[x y] z]. unfold axis_angleR, qdotR. ring. }
    rewrite qdot_scale, DD in D.
    assert (C1 : 0 < cos (t / 2)) by (apply cos_gt_0; lra).
    destruct Hs as [->| ->]; [|lra].
    rewrite !qscale1 in *. rewrite DD in H. destruct (H Hc (t / 2) ltac:(lra) eq_refl) as [H1 H2].
    rewrite Er. do 2 f_equal. rewrite Eq in *. clear Er Eq H D NZ N U0 Ut DD. rewrite Z0 in *.
    destruct k as [[x y] z]. unfold dot3 in Hk. unfold axis_angleR in *.
    replace (a * t / 2) with (a * (t / 2)) by field.
    unfold qdotR, qaddR, qscaleR in *. set (sn := sin (t / 2)) in *. set (cs := cos (t / 2)) in *.
    assert (F1 : u + v * cs = cos (a * (t / 2))) by lra.
    assert (F2 : u * cs + v = cos ((1 - a) * (t / 2))).
    { rewrite <- H2.
      replace ((u * 0 + v * (sn * x)) * (sn * x) + (u * 0 + v * (sn * y)) * (sn * y) + (u * 0 + v * (sn * z)) * (sn * z) + (u * 1 + v * cs) * cs)
        with (v * (sn * sn * (x * x + y * y + z * z) + cs * cs) + u * cs) by ring. rewrite Hk.
      pose proof (sc1 (t / 2)) as Q. fold sn cs in Q. replace (sn * sn * 1 + cs * cs) with 1 by lra. ring. }
    replace ((1 - a) * (t / 2)) with (t / 2 - a * (t / 2)) in F2 by ring. rewrite cos_minus in F2. fold sn cs in F2.
    assert (V : v * sn = sin (a * (t / 2))).
    { apply (Rmult_eq_reg_l sn); [|lra]. pose proof (sc1 (t / 2)) as Q. fold sn cs in Q.
      rewrite <- F1 in F2. 
      replace (sn * (v * sn)) with (v - v * (cs * cs)) by (replace (cs * cs) with (1 - sn * sn) by lra; ring). lra. }
    repeat apply pair_eq; try lra; rewrite <- V; ring.
Qed.
Print Assumptions C85_axis_angle_laws.

(** Converting the rotation matrix back gives the quaternion up to sign, except
    near half turns (C61). *)
Theorem C85_matrix_to_quaternion :
  forall (cfg : Cfg) (lim : RLim) (k : V3) (t : R) (g r : list R) (q0 : Quat),
  dot3 k k = 1 -> length g = 16%nat -> mat_rotate g t (v3 k) = Ok r ->
  1 / 100000 < 4 * (cos (t / 2) * cos (t / 2)) ->
  q_set_matrix 4 (ql q0) r = Ok (ql (axis_angleR k t)) \/
  q_set_matrix 4 (ql q0) r = Ok (ql (qscaleR (-1) (axis_angleR k t))).
Proof.
  intros cfg lim k t g r q0 Hk Hg Er Ht.
  destruct (mat_rotate_R g t k Hg) as (r' & Er' & Hr). rewrite Er in Er'. injection Er' as <-.
  pose proof (axis_angle_unit k t Hk) as U.
  assert (A : acts (rotF k t) (axis_angleR k t)).
  { apply acts_iff. intros i j Hi Hj. symmetry. apply rotcell_axis; assumption. }
  destruct k as [[x y] z]. unfold axis_angleR in *.
  apply (C61_from_rotation_matrix_partial cfg lim 4 r (rotF (x, y, z) t) q0 _ _ _ _); auto.
  unfold qabsR. rewrite U. apply sqrt_1.
Qed.
Print Assumptions C85_matrix_to_quaternion.

(** A unit axis and angles in every hypothesis' range exist. *)
Example C85_hypotheses_met : dot3 (3 / 5, 0, 4 / 5) (3 / 5, 0, 4 / 5) = 1 /\ length (repeat 5 16) = 16%nat /\
  (0 < PI / 2 < PI) /\ cos (PI / 2 / 2) < 1 - 1 / 100 /\ 1 / 100000 < 4 * (cos (PI / 2 / 2) * cos (PI / 2 / 2)).
Proof.
  split; [unfold dot3; field|]. split; [reflexivity|]. pose proof PI_RGT_0. split; [lra|].
  replace (PI / 2 / 2) with (PI / 4) by field. rewrite cos_PI4.
  assert (S : sqrt 2 * sqrt 2 = 2) by (apply sqrt_sqrt; lra).
  assert (L : 0 < sqrt 2) by (apply sqrt_lt_R0; lra).
  assert (B : 14 / 10 < sqrt 2) by (apply Rsqr_incrst_0; unfold Rsqr; lra).
  replace (1 / sqrt 2) with (sqrt 2 / 2) by (field_simplify_eq; [lra|lra]).
  assert (B2 : sqrt 2 < 15 / 10) by (apply Rsqr_incrst_0; unfold Rsqr; lra).
  split; [lra|]. replace (4 * (sqrt 2 / 2 * (sqrt 2 / 2))) with (sqrt 2 * sqrt 2) by field. lra.
Qed.
