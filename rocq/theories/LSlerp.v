(** The real analysis behind slerp in floating point: conditioning of its
    coefficients, and the effect of small errors on the interpolated quaternion. *)
From Coq Require Import Reals Lra Psatz.
From Verif Require Import Spec3 PSlerp LRot LPersp PQuatF PQuatN.
Local Open Scope R_scope.

(** ** Sines and cosines *)
Lemma sin_lip_le (x y : R) : x <= y -> Rabs (sin y - sin x) <= y - x.
Proof.
  intros H. destruct (Req_dec x y) as [->|N]; [replace (sin y - sin y) with 0 by ring; rewrite Rabs_R0; lra|].
  destruct (MVT_cor2 sin cos x y ltac:(lra) (fun c _ => derivable_pt_lim_sin c)) as (c & E & _).
  rewrite E. pose proof (COS_bound c). assert (cos c * (y - x) <= 1 * (y - x)) by (apply Rmult_le_compat_r; lra).
  assert (-1 * (y - x) <= cos c * (y - x)) by (apply Rmult_le_compat_r; lra). apply Rabs_le. lra.
Qed.
Lemma sin_lip (x y : R) : Rabs (sin x - sin y) <= Rabs (x - y).
Proof.
  destruct (Rle_dec x y) as [H|H].
  - rewrite (Rabs_minus_sym x y), (Rabs_minus_sym (sin x)), (Rabs_pos_eq (y - x)) by lra. apply sin_lip_le, H.
  - rewrite (Rabs_pos_eq (x - y)) by lra. apply sin_lip_le. lra.
Qed.
Lemma sin_lo (y : R) : 0 <= y <= PI / 2 -> 58 / 100 * y <= sin y.
Proof.
  intros H. pose proof pi_bounds as P. destruct (pre_sin_bound y 0 ltac:(lra) ltac:(lra)) as (L & _).
  unfold sin_approx, sin_term in L. cbn in L.
  assert (Q : y * y <= 25 / 10) by (apply Rle_trans with (158 / 100 * (158 / 100)); [apply Rmult_le_compat; lra|lra]).
  assert (Q2 : y * (y * y) <= y * (25 / 10)) by (apply Rmult_le_compat_l; lra).
  eapply Rle_trans; [|exact L]. lra.
Qed.
Lemma sin_rel (x y e : R) : 0 <= y <= PI / 2 -> 0 <= e -> Rabs (x - y) <= e * y -> Rabs (sin x - sin y) <= 173 / 100 * e * sin y.
Proof.
  intros Hy He H. pose proof (sin_lo y Hy) as L. eapply Rle_trans; [apply sin_lip|]. eapply Rle_trans; [exact H|].
  rewrite (Rmult_comm (173 / 100)), Rmult_assoc. apply Rmult_le_compat_l; lra.
Qed.
(** Halving an angle between 0 and a right angle, or taking a part of it. *)
Lemma sin_part (a x : R) : 0 <= a <= 1 -> 0 <= x <= PI / 2 -> 0 <= sin (a * x) <= sin x.
Proof.
  intros Ha Hx. pose proof pi_bounds as P. assert (A : 0 <= a * x <= x).
  { split; [apply Rmult_le_pos; lra|]. rewrite <- (Rmult_1_l x) at 2. apply Rmult_le_compat_r; lra. }
  split; [apply sin_ge_0; lra|]. apply sin_incr_1; lra.
Qed.
Lemma cos_part_lip (a x y : R) : 0 <= a <= 1 -> 0 <= x <= PI / 2 -> 0 <= y <= PI / 2 -> Rabs (cos (a * x) - cos (a * y)) <= Rabs (cos x - cos y).
Proof.
  assert (W : forall a x y, 0 <= a <= 1 -> 0 <= x <= y -> y <= PI / 2 -> Rabs (cos (a * x) - cos (a * y)) <= Rabs (cos x - cos y)).
  { clear. intros a x y Ha Hx Hy. pose proof pi_bounds as P. rewrite (form2 (a * x)), (form2 x).
    replace ((a * x - a * y) / 2) with (- (a * ((y - x) / 2))) by field. replace ((a * x + a * y) / 2) with (a * ((x + y) / 2)) by field.
    replace ((x - y) / 2) with (- ((y - x) / 2)) by field. rewrite !sin_neg.
    destruct (sin_part a ((y - x) / 2) Ha ltac:(lra)) as (A1 & A2). destruct (sin_part a ((x + y) / 2) Ha ltac:(lra)) as (B1 & B2).
    set (s1 := sin (a * ((y - x) / 2))) in *. set (s2 := sin (a * ((x + y) / 2))) in *. set (t1 := sin ((y - x) / 2)) in *. set (t2 := sin ((x + y) / 2)) in *.
    replace (-2 * - s1 * s2) with (2 * (s1 * s2)) by ring. replace (-2 * - t1 * t2) with (2 * (t1 * t2)) by ring.
    assert (M : 0 <= s1 * s2 <= t1 * t2) by (split; [apply Rmult_le_pos; assumption|apply Rmult_le_compat; assumption]).
    rewrite !Rabs_pos_eq by lra. lra. }
  intros Ha Hx Hy. destruct (Rle_dec x y) as [L|L]; [apply W; lra|]. rewrite Rabs_minus_sym, (Rabs_minus_sym (cos x)). apply W; lra.
Qed.

(** ** atan2 in the first quadrant *)
Lemma atan2_pos (y x : R) : 0 < y -> 0 <= x -> let r := sqrt (x * x + y * y) in
  0 < r /\ 0 < satan2 y x <= PI / 2 /\ cos (satan2 y x) = x / r /\ sin (satan2 y x) = y / r.
Proof.
  intros Hy Hx r. assert (S0 : 0 < x * x + y * y) by (pose proof (Rmult_lt_0_compat y y Hy Hy); pose proof (Rmult_le_pos x x Hx Hx); lra).
  assert (R0 : 0 < r) by (apply sqrt_lt_R0, S0). assert (RR : r * r = x * x + y * y) by (apply sqrt_sqrt; lra).
  assert (I0 : 0 < / r) by (apply Rinv_0_lt_compat, R0).
  assert (E : satan2 (y / r) (x / r) = satan2 y x).
  { cbn [satan2 RAtan2]. destruct (Rltb_spec 0 x) as [C|C].
    - rewrite Rltb_true by (apply Rdiv_lt_0_compat; assumption). f_equal. field. split; lra.
    - assert (x = 0) as -> by lra. replace (0 / r) with 0 by (unfold Rdiv; ring). rewrite !(Rltb_false 0 0) by lra. rewrite (Rltb_true 0 y) by assumption. rewrite (Rltb_true 0 (y / r)) by (apply Rdiv_lt_0_compat; assumption). reflexivity. }
  destruct (atan2_R (y / r) (x / r)) as (A1 & A2 & A3 & A4).
  - apply Rdiv_lt_0_compat; assumption.
  - apply Rmult_le_pos; lra.
  - replace (x / r * (x / r) + y / r * (y / r)) with ((x * x + y * y) / (r * r)) by (field; lra). rewrite RR. field. lra.
  - rewrite E in *. split; [exact R0|]. split; [split; assumption|]. split; assumption.
Qed.

(** ** The exact coefficients *)
Section Coef.
Variables (a t : R).
Hypotheses (Ha : 0 <= a <= 1) (Ht : 0 < t <= PI / 2).
Definition cf1 := sin ((1 - a) * t) / sin t.
Definition cf2 := sin (a * t) / sin t.
Lemma sin_t : 0 < sin t. Proof. pose proof pi_bounds. apply sin_gt_0; lra. Qed.
Lemma cf_range : 0 <= cf1 <= 1 /\ 0 <= cf2 <= 1.
Proof.
  pose proof sin_t as S. assert (G : forall b, 0 <= b <= 1 -> 0 <= sin (b * t) / sin t <= 1).
  { intros b Hb. destruct (sin_part b t Hb ltac:(lra)) as (A & B). split; [apply Rmult_le_pos; [exact A|left; apply Rinv_0_lt_compat, S]|].
    apply (Rmult_le_reg_r (sin t)); [exact S|]. unfold Rdiv. rewrite Rmult_assoc, Rinv_l, Rmult_1_r by lra. lra. }
  split; apply G; lra.
Qed.
Lemma cf_1 : cf1 + cf2 * cos t = cos (a * t).
Proof.
  pose proof sin_t as S. unfold cf1, cf2. replace ((1 - a) * t) with (t - a * t) by ring. rewrite sin_minus. field. lra.
Qed.
Lemma cf_2 : cf1 * cos t + cf2 = cos ((1 - a) * t).
Proof.
  pose proof sin_t as S. unfold cf1, cf2. replace (a * t) with (t - (1 - a) * t) by ring. rewrite sin_minus. field. lra.
Qed.
Lemma cf_unit : cf1 * cf1 + cf2 * cf2 + 2 * (cf1 * cf2) * cos t = 1.
Proof.
  pose proof sin_t as S. replace (cf1 * cf1 + cf2 * cf2 + 2 * (cf1 * cf2) * cos t) with (cf1 * (cf1 + cf2 * cos t) + cf2 * (cf1 * cos t + cf2)) by ring.
  rewrite cf_1, cf_2. unfold cf1, cf2. pose proof (sin_plus ((1 - a) * t) (a * t)) as E. replace ((1 - a) * t + a * t) with t in E by ring.
  apply (Rmult_eq_reg_r (sin t)); [|lra]. rewrite Rmult_1_l, Rmult_plus_distr_r.
  replace (sin ((1 - a) * t) / sin t * cos (a * t) * sin t) with (sin ((1 - a) * t) * cos (a * t)) by (field; lra).
  replace (sin (a * t) / sin t * cos ((1 - a) * t) * sin t) with (sin (a * t) * cos ((1 - a) * t)) by (field; lra). lra.
Qed.
End Coef.

(** ** Quaternions *)
Lemma dq_cauchy (p q : Quat) : Rabs (qdotR p q) <= qabsR p * qabsR q.
Proof.
  unfold qabsR. rewrite <- sqrt_mult by apply qdot_nonneg. rewrite <- sqrt_Rsqr_abs. apply sqrt_le_1_alt. unfold Rsqr. dq p; dq q; qc.
  match goal with |- (?a * ?b + ?c * ?d + ?e * ?f + ?g * ?h) * _ <= _ =>
    assert (0 <= (a * d - c * b) * (a * d - c * b) + (a * f - e * b) * (a * f - e * b) + (a * h - g * b) * (a * h - g * b) + (c * f - e * d) * (c * f - e * d) + (c * h - g * d) * (c * h - g * d) + (e * h - g * f) * (e * h - g * f)) by (repeat apply Rplus_le_le_0_compat; apply Rle_0_sqr) end.
  lra.
Qed.
Lemma qabs_le (p : Quat) (b : R) : 0 <= b -> qdotR p p <= b * b -> qabsR p <= b.
Proof. intros Hb H. unfold qabsR. rewrite <- (sqrt_square b Hb). apply sqrt_le_1_alt, H. Qed.
Lemma qabs_unit (p : Quat) : qdotR p p = 1 -> qabsR p = 1.
Proof. intros H. unfold qabsR. rewrite H. apply sqrt_1. Qed.
(** An error that is small compared with the components of two unit quaternions. *)
Definition qsmall (d p q : Quat) (E h : R) : Prop :=
  let '(x, y, z, w) := d in let '(px, py, pz, pw) := p in let '(qx, qy, qz, qw) := q in
  Rabs x <= E * (Rabs px + Rabs qx) + h /\ Rabs y <= E * (Rabs py + Rabs qy) + h /\ Rabs z <= E * (Rabs pz + Rabs qz) + h /\ Rabs w <= E * (Rabs pw + Rabs qw) + h.
Lemma sq_bd (x w E h : R) : 0 <= E -> 0 <= h -> 0 <= w -> Rabs x <= E * w + h -> x * x <= E * E * (w * w) + 2 * (E * h) * w + h * h.
Proof.
  intros HE Hh Hw H. replace (E * E * (w * w) + 2 * (E * h) * w + h * h) with ((E * w + h) * (E * w + h)) by ring.
  replace (x * x) with (Rabs x * Rabs x) by (rewrite <- Rabs_mult; apply Rabs_pos_eq, Rle_0_sqr). apply Rmult_le_compat; try apply Rabs_pos; assumption.
Qed.
Lemma two_sq (a b : R) : (Rabs a + Rabs b) * (Rabs a + Rabs b) <= 2 * (a * a + b * b).
Proof.
  pose proof (Rle_0_sqr (Rabs a - Rabs b)) as H. unfold Rsqr in H.
  assert (A : Rabs a * Rabs a = a * a) by (rewrite <- Rabs_mult; apply Rabs_pos_eq, Rle_0_sqr).
  assert (B : Rabs b * Rabs b = b * b) by (rewrite <- Rabs_mult; apply Rabs_pos_eq, Rle_0_sqr). lra.
Qed.
Lemma qsmall_abs (d p q : Quat) (E h : R) : 0 <= E -> 0 <= h -> qdotR p p = 1 -> qdotR q q = 1 -> qsmall d p q E h -> qabsR d <= 2 * E + 2 * h.
Proof.
  intros HE Hh Hp Hq H. apply qabs_le; [lra|]. dq d; dq p; dq q. revert Hp Hq H. cbn [qsmall qdotR]. intros Hp Hq (H0 & H1 & H2 & H3).
  repeat match goal with H : Rabs _ <= E * (Rabs ?a + Rabs ?b) + h |- _ =>
    pose proof (two_sq a b); let W := fresh "W" in assert (W : 0 <= Rabs a + Rabs b) by (pose proof (Rabs_pos a); pose proof (Rabs_pos b); lra);
    apply (sq_bd _ _ E h HE Hh W) in H; set (Rabs a + Rabs b) in * end.
  match goal with H0 : _ <= E * E * (?a * ?a) + _ + _, H1 : _ <= E * E * (?b * ?b) + _ + _, H2 : _ <= E * E * (?c * ?c) + _ + _, H3 : _ <= E * E * (?d * ?d) + _ + _ |- _ =>
    assert (SQ : a * a + b * b + c * c + d * d <= 4) by lra;
    assert (SS : a + b + c + d <= 4);
    [ destruct (Rle_dec (a + b + c + d) 4) as [L|L]; [exact L|exfalso];
      pose proof (Rle_0_sqr (a - b)); pose proof (Rle_0_sqr (a - c)); pose proof (Rle_0_sqr (a - d)); pose proof (Rle_0_sqr (b - c)); pose proof (Rle_0_sqr (b - d)); pose proof (Rle_0_sqr (c - d)); unfold Rsqr in *;
      assert (4 * 4 < (a + b + c + d) * (a + b + c + d)) by (apply Rmult_gt_0_lt_compat; lra); lra |
      assert (E2 : E * E * (a * a + b * b + c * c + d * d) <= E * E * 4) by (apply Rmult_le_compat_l; [apply Rle_0_sqr|exact SQ]);
      assert (Eh : E * h * (a + b + c + d) <= E * h * 4) by (apply Rmult_le_compat_l; [apply Rmult_le_pos; assumption|exact SS]) ]
  end.
  lra.
Qed.
(** The standard branch: r is close to the exact combination for an angle t
    whose cosine is close to the product of p and q. *)
Lemma slerp_std (a t Th g g2 D : R) (p q r : Quat) : 0 <= a <= 1 -> 0 < t <= PI / 2 -> 0 <= Th <= PI / 2 -> qdotR p p = 1 -> qdotR q q = 1 ->
  Rabs (qdotR p q - cos t) <= g -> Rabs (cos t - cos Th) <= g2 ->
  qabsR (qsubR r (qaddR (qscaleR (cf1 a t) p) (qscaleR (cf2 a t) q))) <= D ->
  Rabs (qdotR r p - cos (a * Th)) <= D + g + g2 /\ Rabs (qdotR r q - cos ((1 - a) * Th)) <= D + g + g2 /\ Rabs (qabsR r - 1) <= D + 2 * g.
Proof.
  intros Ha Ht HT Hp Hq Hg Hg2 HD. pose proof (cf_range a t Ha Ht) as (K1 & K2). pose proof (cf_1 a t Ht) as C1. pose proof (cf_2 a t Ht) as C2. pose proof (cf_unit a t Ht) as CU.
  set (k1 := cf1 a t) in *. set (k2 := cf2 a t) in *. set (s := qaddR (qscaleR k1 p) (qscaleR k2 q)) in *. set (c := qdotR p q) in *.
  assert (LIN : forall x y z, qdotR x z = qdotR y z + qdotR (qsubR x y) z) by (intros x y z; dq x; dq y; dq z; qc; ring).
  assert (Sp : qdotR s p = cos (a * t) + k2 * (c - cos t)) by (unfold s; rewrite qdot_lin, Hp, (qdot_comm q p); fold c; rewrite <- C1; ring).
  assert (Sq : qdotR s q = cos ((1 - a) * t) + k1 * (c - cos t)) by (unfold s; rewrite qdot_lin, Hq; fold c; rewrite <- C2; ring).
  assert (SS : qdotR s s = 1 + 2 * (k1 * k2) * (c - cos t)).
  { unfold s at 2. rewrite qdot_lin_r, Sp, Sq, <- C1, <- C2. rewrite <- CU. ring. }
  assert (Pp := qabs_unit p Hp). assert (Pq := qabs_unit q Hq).
  pose proof (dq_cauchy (qsubR r s) p) as Dp. pose proof (dq_cauchy (qsubR r s) q) as Dq. rewrite Pp in Dp. rewrite Pq in Dq.
  pose proof (cos_part_lip a t Th Ha ltac:(lra) HT) as L1. pose proof (cos_part_lip (1 - a) t Th ltac:(lra) ltac:(lra) HT) as L2.
  assert (G : forall k, 0 <= k <= 1 -> Rabs (k * (c - cos t)) <= g).
  { intros k Hk. rewrite Rabs_mult, (Rabs_pos_eq k) by lra. apply Rle_trans with (1 * Rabs (c - cos t)); [apply Rmult_le_compat_r; [apply Rabs_pos|lra]|lra]. }
  assert (G1 := G k1 K1). assert (G2 := G k2 K2).
  assert (K12 : 0 <= k1 * k2 <= 1) by (split; [apply Rmult_le_pos; lra|replace 1 with (1 * 1) by ring; apply Rmult_le_compat; lra]).
  assert (G12 := G (k1 * k2) K12).
  split; [|split].
  - rewrite (LIN r s p), Sp. apply abs_le_inv in Dp, L1, G2, Hg2. apply Rabs_le. unfold Rabs in L1. destruct (Rcase_abs (cos t - cos Th)); lra.
  - rewrite (LIN r s q), Sq. apply abs_le_inv in Dq, L2, G1, Hg2. apply Rabs_le. unfold Rabs in L2. destruct (Rcase_abs (cos t - cos Th)); lra.
  - pose proof (qabs_diff r s) as TR. pose proof (qabs_pos s) as S0. pose proof (qabs_sq s) as S2. rewrite SS in S2.
    assert (TS : Rabs (qabsR s - 1) <= 2 * g).
    { assert (E : (qabsR s - 1) * (qabsR s + 1) = 2 * (k1 * k2 * (c - cos t))) by lra.
      apply (f_equal Rabs) in E. rewrite !Rabs_mult, (Rabs_pos_eq (qabsR s + 1)), (Rabs_pos_eq 2) in E by lra.
      rewrite Rabs_mult in G12. assert (Rabs (qabsR s - 1) * 1 <= Rabs (qabsR s - 1) * (qabsR s + 1)) by (apply Rmult_le_compat_l; [apply Rabs_pos|lra]). rewrite Rabs_mult in G12. lra. }
    apply abs_le_inv in TR, TS. apply Rabs_le. lra.
Qed.
(** The linear branch: m is close to ( 1 - a ) p + a q, r to m / |m|. *)
Lemma slerp_lin (a Th e D D2 : R) (p q m r : Quat) : 0 <= a <= 1 -> 0 <= Th <= PI / 2 -> qdotR p p = 1 -> qdotR q q = 1 ->
  0 <= e <= / 4 -> 0 <= D <= / 100 -> 1 - e <= qdotR p q -> 1 - e <= cos Th ->
  qabsR (qsubR m (qaddR (qscaleR (1 - a) p) (qscaleR a q))) <= D ->
  / 2 <= qabsR m <= 2 /\
  (qabsR (qsubR r (qscaleR (/ qabsR m) m)) <= D2 ->
   Rabs (qdotR r p - cos (a * Th)) <= e + 2 * D + D2 /\ Rabs (qdotR r q - cos ((1 - a) * Th)) <= e + 2 * D + D2 /\ Rabs (qabsR r - 1) <= D2).
Proof.
  intros Ha HT Hp Hq He HD0 Hc HcT HD. set (s := qaddR (qscaleR (1 - a) p) (qscaleR a q)) in *. set (c := qdotR p q) in *.
  assert (LIN : forall x y z, qdotR x z = qdotR y z + qdotR (qsubR x y) z) by (intros x y z; dq x; dq y; dq z; qc; ring).
  assert (Pp := qabs_unit p Hp). assert (Pq := qabs_unit q Hq).
  assert (c1 : c <= 1) by (apply qdot_le1; assumption).
  assert (Sp : qdotR s p = 1 - a * (1 - c)) by (unfold s; rewrite qdot_lin, Hp, (qdot_comm q p); fold c; ring).
  assert (Sq : qdotR s q = 1 - (1 - a) * (1 - c)) by (unfold s; rewrite qdot_lin, Hq; fold c; ring).
  assert (SS : qdotR s s = 1 - 2 * (a * (1 - a)) * (1 - c)) by (unfold s at 2; rewrite qdot_lin_r, Sp, Sq; ring).
  assert (Q1 : forall k, 0 <= k <= 1 -> 0 <= k * (1 - c) <= e).
  { intros k Hk. split; [apply Rmult_le_pos; lra|]. apply Rle_trans with (1 * (1 - c)); [apply Rmult_le_compat_r; lra|lra]. }
  assert (A1 := Q1 a Ha). assert (A2 := Q1 (1 - a) ltac:(lra)).
  assert (A3 : 0 <= a * (1 - a) <= 1) by (split; [apply Rmult_le_pos; lra|replace 1 with (1 * 1) at 2 by ring; apply Rmult_le_compat; lra]).
  assert (A4 := Q1 (a * (1 - a)) A3).
  pose proof (qabs_pos s) as S0. pose proof (qabs_sq s) as S2. rewrite SS in S2.
  assert (S1 : qabsR s <= 1) by (apply qabs_le; [lra|rewrite SS; lra]).
  assert (SL : 7 / 10 <= qabsR s).
  { destruct (Rle_dec (7 / 10) (qabsR s)) as [L|L]; [exact L|exfalso]. assert (qabsR s * qabsR s <= 7 / 10 * (7 / 10)) by (apply Rmult_le_compat; lra). lra. }
  pose proof (qabs_diff m s) as TM. assert (TM' : Rabs (qabsR m - qabsR s) <= D) by lra. apply abs_le_inv in TM'.
  split; [lra|]. intros HR.
  set (n := qabsR m) in *. assert (N0 : 0 < n) by lra. assert (I0 : 0 < / n) by (apply Rinv_0_lt_compat, N0).
  assert (IN : 1 - D <= / n) by (apply (Rmult_le_reg_r n); [exact N0|]; rewrite Rinv_l by lra; assert (D * n >= D * (7 / 10 - D)) by (apply Rle_ge, Rmult_le_compat_l; lra); assert ((1 - D) * n <= (1 - D) * (1 + D)) by (apply Rmult_le_compat_l; lra); pose proof (Rle_0_sqr D); unfold Rsqr in *; lra).
  assert (U : qabsR (qscaleR (/ n) m) = 1) by (rewrite qabs_scale by lra; fold n; field; lra).
  pose proof (qabs_diff r (qscaleR (/ n) m)) as TR. rewrite U in TR.
  assert (FIN : forall z, qdotR z z = 1 -> 1 - e <= qdotR s z -> 1 - e - 2 * D - D2 <= qdotR r z <= 1 + D2).
  { intros z Hz HS. assert (Pz := qabs_unit z Hz).
    pose proof (dq_cauchy (qsubR m s) z) as C1. pose proof (dq_cauchy (qsubR r (qscaleR (/ n) m)) z) as C2. pose proof (dq_cauchy (qscaleR (/ n) m) z) as C3.
    rewrite Pz, Rmult_1_r in C1, C2, C3. rewrite U in C3. assert (C1' : Rabs (qdotR (qsubR m s) z) <= D) by lra. assert (C2' : Rabs (qdotR (qsubR r (qscaleR (/ n) m)) z) <= D2) by lra.
    apply abs_le_inv in C1', C2', C3. rewrite (LIN r (qscaleR (/ n) m) z).
    assert (EM : qdotR (qscaleR (/ n) m) z = / n * qdotR m z) by (dq m; dq z; qc; ring).
    assert (MZ : 1 - e - D <= qdotR m z) by (rewrite (LIN m s z); lra).
    assert (PR : (1 - D) * (1 - e - D) <= / n * qdotR m z) by (apply Rmult_le_compat; lra).
    assert (0 <= D * (e + D)) by (apply Rmult_le_pos; lra). split; [rewrite EM; lra|lra]. }
  assert (CP : forall b, 0 <= b <= 1 -> 1 - e <= cos (b * Th) <= 1).
  { intros b Hb. pose proof (COS_bound (b * Th)). pose proof pi_bounds. split; [|lra]. apply Rle_trans with (cos Th); [exact HcT|].
    assert (0 <= b * Th <= Th) by (split; [apply Rmult_le_pos; lra|rewrite <- (Rmult_1_l Th) at 2; apply Rmult_le_compat_r; lra]). apply cos_decr_1; lra. }
  pose proof (FIN p Hp ltac:(lra)) as F1. pose proof (FIN q Hq ltac:(lra)) as F2. pose proof (CP a Ha) as B1. pose proof (CP (1 - a) ltac:(lra)) as B2.
  split; [apply Rabs_le; lra|]. split; [apply Rabs_le; lra|]. lra.
Qed.
