(** Property C62: slerp. *)
From Verif Require Export PQuaternion.
Local Open Scope R_scope.

Lemma atan2_R s c : 0 < s -> 0 <= c -> c * c + s * s = 1 ->
  0 < satan2 s c /\ satan2 s c <= PI / 2 /\ cos (satan2 s c) = c /\ sin (satan2 s c) = s.
Proof.
  intros Hs Hc H1. cbn [satan2 RAtan2]. pose proof PI_RGT_0 as PI0.
  destruct (Rltb_spec 0 c) as [C|C].
  - assert (E : 1 + Rsqr (s / c) = Rsqr (1 / c)).
    { unfold Rsqr. field_simplify_eq; [|lra]. nra. }
    assert (Q : sqrt (1 + Rsqr (s / c)) = 1 / c).
    { rewrite E. apply sqrt_Rsqr. apply Rlt_le. unfold Rdiv. rewrite Rmult_1_l. apply Rinv_0_lt_compat. exact C. }
    assert (P : 0 < s / c) by (apply Rdiv_lt_0_compat; assumption).
    split; [|split; [|split]].
    + rewrite <- atan_0. apply atan_increasing. exact P.
    + apply Rlt_le. apply atan_bound.
    + rewrite cos_atan, Q. field. lra.
    + rewrite sin_atan, Q. field. lra.
  - assert (c = 0) as -> by lra. rewrite (Rltb_false 0 0) by lra. rewrite Rltb_true by lra.
    rewrite cos_PI2, sin_PI2. repeat split; nra.
Qed.

Lemma qdot_comm p q : qdotR p q = qdotR q p.
Proof. dq p; dq q; qc; ring. Qed.
Lemma qdot_lin a b p q r : qdotR (qaddR (qscaleR a p) (qscaleR b q)) r = a * qdotR p r + b * qdotR q r.
Proof. dq p; dq q; dq r; qc; ring. Qed.
Lemma qdot_lin_r a b p q r : qdotR r (qaddR (qscaleR a p) (qscaleR b q)) = a * qdotR r p + b * qdotR r q.
Proof. dq p; dq q; dq r; qc; ring. Qed.
Lemma q_add_assign_R {lim : RLim} p q : q_add_assign (ql p) (Val (ql q)) = Ok (ql (qaddR p q)).
Proof. dq p; dq q; qc; qeq. Qed.
Lemma q_mul_assign_s_R {lim : RLim} p k : q_mul_assign_s (ql p) k = Ok (ql (qscaleR k p)).
Proof. dq p; qc; qeq. Qed.
Lemma q_neg_R {lim : RLim} p : q_neg (ql p) = Ok (ql (qscaleR (-1) p)).
Proof. dq p; qc; qeq. Qed.
Lemma q_dot_R {lim : RLim} p q : q_dot (ql p) (ql q) = Ok (qdotR p q).
Proof. dq p; dq q; qc; qeq. Qed.
Lemma qdot_scale k p q : qdotR p (qscaleR k q) = k * qdotR p q.
Proof. dq p; dq q; qc; ring. Qed.
Lemma qscale1 p : qscaleR 1 p = p.
Proof. dq p; qc; qeq. Qed.
Lemma q_normalize_unit {lim : RLim} p : qdotR p p = 1 -> q_normalize (ql p) = Ok (1, ql p).
Proof.
  intros H. unfold q_normalize. rewrite q_abs_R. unfold qabsR. rewrite H, sqrt_1. cbn [bind seqb szero sone sdiv RScalar].
  rewrite Reqb_false by lra. cbn [bind]. rewrite q_mul_assign_s_R. cbn [bind]. replace (1 / 1) with 1 by field. rewrite qscale1. reflexivity.
Qed.
(** Lagrange/Cauchy-Schwarz for unit quaternions. *)
Lemma qdot_le1 p q : qdotR p p = 1 -> qdotR q q = 1 -> qdotR p q <= 1.
Proof.
  intros Hp Hq. pose proof (qdot_nonneg (qaddR (qscaleR 1 p) (qscaleR (-1) q))) as H.
  rewrite qdot_lin, !qdot_lin_r, Hp, Hq, (qdot_comm q p) in H. lra.
Qed.

(** pn and qn are the unit quaternions in the directions of p and q, s*qn the
    one of qn, -qn on the same side as pn. *)
Theorem C62_slerp :
  forall (lim : RLim) (a eps : R) (p q pn qn : Quat),
  p <> qzero -> q <> qzero -> 0 < eps ->
  q_get_normalized (ql p) = Ok (ql pn) -> q_get_normalized (ql q) = Ok (ql qn) ->
  exists s : R, (s = 1 \/ s = -1) /\ 0 <= qdotR pn (qscaleR s qn) /\
  returns (q_slerp a (ql p) (ql q) eps) (fun r => exists t u v,
    r = ql t /\ t = qaddR (qscaleR u pn) (qscaleR v (qscaleR s qn)) /\
    qabsR t = 1 /\
    (a = 0 -> t = pn) /\ (a = 1 -> t = qscaleR s qn) /\
    (0 <= a <= 1 -> 0 <= u /\ 0 <= v) /\
    (qdotR pn (qscaleR s qn) < 1 - eps ->
       forall th, 0 <= th <= PI -> cos th = qdotR pn (qscaleR s qn) ->
       qdotR t pn = cos (a * th) /\ qdotR t (qscaleR s qn) = cos ((1 - a) * th))).
Proof.
  intros lim a eps p q pn qn Hp Hq He Np Nq.
  assert (IN : forall u v, ql u = ql v -> u = v).
  { intros u v. dq u; dq v. cbn [ql]. intros [= -> -> -> ->]. reflexivity. }
  assert (Up : qdotR pn pn = 1).
  { destruct (proj1 (C59_normalize lim p) Hp) as (n & _ & E & U & _). rewrite Np in E. injection E as E. apply IN in E.
    subst n. apply unit_dot; exact U. }
  assert (Uq : qdotR qn qn = 1).
  { destruct (proj1 (C59_normalize lim q) Hq) as (n & _ & E & U & _). rewrite Nq in E. injection E as E. apply IN in E.
    subst n. apply unit_dot; exact U. }
  unfold q_slerp. rewrite Np, Nq. cbn [bind]. rewrite q_dot_R. cbn [bind sltb szero sone sopp sabs ssub smul ssqrt sdiv RScalar ssin RTrig].
  clear Hp Hq Np Nq p q.
  set (s := if Rltb (qdotR pn qn) 0 then -1 else 1). exists s.
  assert (Hs : s = 1 \/ s = -1) by (unfold s; destruct (Rltb _ _); auto).
  split; [exact Hs|].
  set (qx := qscaleR s qn).
  assert (Ux : qdotR qx qx = 1) by (unfold qx; rewrite qdot_scale, (qdot_comm (qscaleR s qn) qn), qdot_scale, Uq; destruct Hs as [->| ->]; ring).
  set (c := qdotR pn qx).
  assert (Hc0 : 0 <= c).
  { unfold c, qx. rewrite qdot_scale. unfold s. destruct (Rltb_spec (qdotR pn qn) 0); lra. }
  assert (Hc1 : c <= 1) by (apply qdot_le1; assumption).
  split; [exact Hc0|].
  match goal with |- returns (bind ?m _) _ => assert (EM : m = Ok (c, ql qx)) end.
  { unfold c, qx. rewrite qdot_scale. unfold s. destruct (Rltb_spec (qdotR pn qn) 0).
    - rewrite q_neg_R. cbn [bind]. do 2 f_equal. ring.
    - rewrite Rmult_1_l, qscale1. reflexivity. }
  rewrite EM. cbn [bind]. cbv zeta. rewrite (Rabs_pos_eq c Hc0).
  assert (CD : qdotR qx pn = c) by (rewrite qdot_comm; reflexivity).
  assert (CC : qdotR pn qx = c) by reflexivity.
  clearbody c. clear EM. clearbody qx.
  assert (NN : forall u v, qdotR (qaddR (qscaleR u pn) (qscaleR v qx)) (qaddR (qscaleR u pn) (qscaleR v qx)) =
     u * u + v * v + 2 * u * v * c).
  { intros u v. rewrite qdot_lin, !qdot_lin_r, Up, Ux, CC, CD. ring. }
  assert (Z0 : qaddR (qscaleR 1 pn) (qscaleR 0 qx) = pn) by (clear; dq pn; dq qx; qc; qeq).
  assert (Z1 : qaddR (qscaleR 0 pn) (qscaleR 1 qx) = qx) by (clear; dq pn; dq qx; qc; qeq).
  destruct (Rltb_spec c (1 - eps)) as [Hlt|Hge].
  - assert (Pd : 0 < 1 - c * c) by nra. rewrite Rltb_false by lra. cbn [bind].
    set (sn := sqrt (1 - c * c)). assert (Sn : 0 < sn) by (apply sqrt_lt_R0; exact Pd).
    assert (Sq : sn * sn = 1 - c * c) by (apply sqrt_sqrt; lra).
    destruct (atan2_R sn c Sn Hc0 ltac:(lra)) as (T0 & T1 & Tc & Ts).
    set (an := satan2 sn c) in *. clearbody an.
    rewrite Reqb_false by lra. cbn [bind]. repeat (rewrite q_mul_assign_s_R; cbn [bind]).
    rewrite q_add_assign_R. apply returns_ok.
    set (u := sin ((1 - a) * an) / sn). set (v := sin (a * an) / sn).
    exists (qaddR (qscaleR u pn) (qscaleR v qx)), u, v.
    assert (SA : sin ((1 - a) * an) = sn * cos (a * an) - c * sin (a * an)).
    { replace ((1 - a) * an) with (an - a * an) by ring. rewrite sin_minus, Ts, Tc. ring. }
    assert (CA : cos ((1 - a) * an) = c * cos (a * an) + sn * sin (a * an)).
    { replace ((1 - a) * an) with (an - a * an) by ring. rewrite cos_minus, Ts, Tc. ring. }
    pose proof (sin2_cos2 (a * an)) as SC. unfold Rsqr in SC.
    assert (D1 : qdotR (qaddR (qscaleR u pn) (qscaleR v qx)) pn = cos (a * an)).
    { rewrite qdot_lin, Up, CD. unfold u, v. rewrite SA. field. lra. }
    assert (D2 : qdotR (qaddR (qscaleR u pn) (qscaleR v qx)) qx = cos ((1 - a) * an)).
    { rewrite qdot_lin, CC, Ux. unfold u, v. rewrite SA, CA.
      replace (c * cos (a * an) + sn * sin (a * an)) with (c * cos (a * an) + (sn * sn) * sin (a * an) / sn) by (field; lra).
      rewrite Sq. field. lra. }
    split; [reflexivity|]. split; [reflexivity|]. split.
    { unfold qabsR. rewrite <- sqrt_1. f_equal. rewrite qdot_lin_r, D1, D2. unfold u, v. rewrite SA, CA.
      transitivity ((sn * (sin (a * an) * sin (a * an) + cos (a * an) * cos (a * an))) / sn); [field; lra|]. rewrite SC. field. lra. }
    split.
    { intros ->. unfold u, v. rewrite Rmult_0_l, sin_0. replace ((1 - 0) * an) with an by ring. rewrite Ts.
      replace (sn / sn) with 1 by (field; lra). replace (0 / sn) with 0 by (field; lra). exact Z0. }
    split.
    { intros ->. unfold u, v. replace ((1 - 1) * an) with 0 by ring. rewrite sin_0, Rmult_1_l, Ts.
      replace (sn / sn) with 1 by (field; lra). replace (0 / sn) with 0 by (field; lra). exact Z1. }
    split.
    { intros [A0 A1]. pose proof PI_RGT_0.
      assert (G : forall k, 0 <= k <= 1 -> 0 <= sin (k * an) / sn).
      { intros k Hk. apply Rmult_le_pos; [apply sin_ge_0; nra|]. left. apply Rinv_0_lt_compat. exact Sn. }
      split; apply G; lra. }
    intros _ th Hth Ec. assert (th = an) as ->; [|split; assumption].
    rewrite <- (acos_cos th Hth), <- (acos_cos an), Ec, Tc; [reflexivity|]. pose proof PI_RGT_0. lra.
  - repeat (rewrite q_mul_assign_s_R; cbn [bind]). rewrite q_add_assign_R. cbn [bind].
    set (l := qaddR (qscaleR (1 - a) pn) (qscaleR a qx)).
    assert (NL : qdotR l l = 1 - 2 * (a * (1 - a)) * (1 - c)) by (unfold l; rewrite NN; ring).
    assert (PL : 0 < qdotR l l).
    { rewrite NL. pose proof (Rle_0_sqr (a - 1 / 2)) as SQ. unfold Rsqr in SQ. assert (a * (1 - a) <= 1 / 4) by lra. destruct (Rle_lt_dec 0 (a * (1 - a))); nra. }
    assert (Hl : l <> qzero). { intros E. rewrite E in PL. revert PL. qc. lra. }
    destruct (proj1 (C59_normalize lim l) Hl) as (n & En & _ & Un & El & Al).
    rewrite En. cbn [bind]. apply returns_ok. exists n, ((1 - a) / qabsR l), (a / qabsR l).
    split; [reflexivity|]. split.
    { assert (n = qscaleR (/ qabsR l) l) as ->.
      { transitivity (qscaleR (/ qabsR l) (qscaleR (qabsR l) n)); [|f_equal; congruence].
        set (k := qabsR l) in *. clearbody k. clear -Al. dq n. qc. qeq; lra. }
      set (k := qabsR l) in *. unfold l. clearbody k. clear -Al. dq pn; dq qx. qc. qeq; lra. }
    split; [exact Un|]. 
    assert (A01 : a * (1 - a) = 0 -> n = l).
    { intros Z. assert (Q : qabsR l = 1) by (unfold qabsR; rewrite NL, Z; replace (1 - 2 * 0 * (1 - c)) with 1 by ring; apply sqrt_1).
      rewrite Q, qscale1 in El. congruence. }
    split. { intros ->. rewrite A01 by ring. unfold l. replace (1 - 0) with 1 by ring. exact Z0. }
    split. { intros ->. rewrite A01 by ring. unfold l. replace (1 - 1) with 0 by ring. exact Z1. }
    split. { intros [A0 A1]. split; apply Rmult_le_pos; try lra; left; apply Rinv_0_lt_compat; exact Al. }
    intros Hlt. lra.
Qed.
Print Assumptions C62_slerp.
Example C62_hypotheses_met : exists pn qn, (1, 0, 0, 0) <> qzero /\ (0, 0, 0, 2) <> qzero /\
  forall lim : RLim, q_get_normalized (ql (1, 0, 0, 0)) = Ok (ql pn) /\ q_get_normalized (ql (0, 0, 0, 2)) = Ok (ql qn).
Proof.
  exists (1, 0, 0, 0), (0, 0, 0, 1). split; [intros E; injection E; lra|]. split; [intros E; injection E; lra|].
  intros lim. split.
  - unfold q_get_normalized. rewrite q_normalize_unit by (qc; ring). reflexivity.
  - unfold q_get_normalized, q_normalize. rewrite q_abs_R. unfold qabsR. cbn [qdotR].
    replace (_ + _) with (2 * 2) by ring. rewrite sqrt_square by lra. cbn [bind]. qc. rewrite Reqb_false by lra. qc. qeq.
Qed.
