(** Real-number core of C193-C196: distances to and projections onto planes and
    spheres, with rounded operations. *)
From Coq Require Import Reals Lra Psatz List.
From Verif Require Import Spec LVectorR LVecProps2 LRot LNormal.
Import ListNotations.
Local Open Scope R_scope.

Lemma mulc (u x y : R) : 0 <= u -> x <= y -> u * x <= u * y.
Proof. intros. apply Rmult_le_compat_l; assumption. Qed.
(** |nx px| + |ny py| + |nz pz| <= |n| |p|. *)
Lemma abs_dot a b c x y z : Rabs (a * x) + Rabs (b * y) + Rabs (c * z) <= len3R (a, b, c) * len3R (x, y, z).
Proof.
  rewrite !Rabs_mult. set (A := Rabs a). set (B := Rabs b). set (C := Rabs c). set (X := Rabs x). set (Y := Rabs y). set (Z := Rabs z).
  assert (E1 : len3R (a, b, c) = len3R (A, B, C)).
  { unfold len3R, dot3. f_equal. rewrite (sq_abs a), (sq_abs b), (sq_abs c). reflexivity. }
  assert (E2 : len3R (x, y, z) = len3R (X, Y, Z)).
  { unfold len3R, dot3. f_equal. rewrite (sq_abs x), (sq_abs y), (sq_abs z). reflexivity. }
  rewrite E1, E2. pose proof (len3_cs (A, B, C) (X, Y, Z)) as H. unfold dot3 in H. apply abs_inv in H. lra.
Qed.

Section Plane.
Context (u e : R) (Hu : 0 < u <= / 1000000) (He : 0 <= e).
(** (((0 + nx px) + ny py) + nz pz) + w *)
Lemma plane_err (p0 p1 p2 t0 t1 t2 s1 s2 s3 w r T : R) : Rabs t0 + Rabs t1 + Rabs t2 <= T ->
  Rabs (p0 - t0) <= u * Rabs t0 + e -> Rabs (p1 - t1) <= u * Rabs t1 + e -> Rabs (p2 - t2) <= u * Rabs t2 + e ->
  Rabs (s1 - (0 + p0)) <= u * Rabs (0 + p0) -> Rabs (s2 - (s1 + p1)) <= u * Rabs (s1 + p1) -> Rabs (s3 - (s2 + p2)) <= u * Rabs (s2 + p2) ->
  Rabs (r - (s3 + w)) <= u * Rabs (s3 + w) ->
  Rabs (r - (t0 + t1 + t2 + w)) <= 6 * u * (T + Rabs w) + 4 * e.
Proof.
  intros HT E0 E1 E2 S1 S2 S3 ER. rewrite Rplus_0_l in S1.
  set (A := Rabs t0) in *. set (B := Rabs t1) in *. set (C := Rabs t2) in *. set (W := Rabs w) in *.
  assert (A0 : 0 <= A) by apply Rabs_pos. assert (B0 : 0 <= B) by apply Rabs_pos. assert (C0 : 0 <= C) by apply Rabs_pos. assert (W0 : 0 <= W) by apply Rabs_pos.
  assert (K : forall x, 0 <= x -> 0 <= u * x <= / 1000000 * x) by (intros x Hx; split; [apply Rmult_le_pos; lra|apply Rmult_le_compat_r; lra]).
  pose proof (K A A0) as KA. pose proof (K B B0) as KB. pose proof (K C C0) as KC. pose proof (K W W0) as KW. pose proof (K e He) as KE.
  assert (Q0 : Rabs p0 <= A + u * A + e) by (replace p0 with ((p0 - t0) + t0) by ring; eapply Rle_trans; [apply Rabs_triang|]; fold A; lra).
  assert (Q1 : Rabs p1 <= B + u * B + e) by (replace p1 with ((p1 - t1) + t1) by ring; eapply Rle_trans; [apply Rabs_triang|]; fold B; lra).
  assert (Q2 : Rabs p2 <= C + u * C + e) by (replace p2 with ((p2 - t2) + t2) by ring; eapply Rle_trans; [apply Rabs_triang|]; fold C; lra).
  pose proof (mulc u _ _ ltac:(lra) Q0) as M0.
  assert (uA : u * (u * A) <= / 1000000 * (u * A)) by (apply Rmult_le_compat_r; lra).
  assert (uB : u * (u * B) <= / 1000000 * (u * B)) by (apply Rmult_le_compat_r; lra).
  assert (uC : u * (u * C) <= / 1000000 * (u * C)) by (apply Rmult_le_compat_r; lra).
  assert (uE : u * (u * e) <= / 1000000 * (u * e)) by (apply Rmult_le_compat_r; lra).
  assert (B1 : Rabs s1 <= A + 21 / 10 * (u * A) + 11 / 10 * e).
  { replace s1 with ((s1 - p0) + p0) by ring. eapply Rle_trans; [apply Rabs_triang|]. lra. }
  assert (X1 : Rabs (s1 + p1) <= A + 21 / 10 * (u * A) + B + u * B + 22 / 10 * e) by (eapply Rle_trans; [apply Rabs_triang|]; lra).
  pose proof (mulc u _ _ ltac:(lra) X1) as M1.
  assert (B2 : Rabs s2 <= A + 32 / 10 * (u * A) + B + 21 / 10 * (u * B) + 23 / 10 * e).
  { replace s2 with ((s2 - (s1 + p1)) + (s1 + p1)) by ring. eapply Rle_trans; [apply Rabs_triang|]. lra. }
  assert (X2 : Rabs (s2 + p2) <= A + 32 / 10 * (u * A) + B + 21 / 10 * (u * B) + C + u * C + 34 / 10 * e) by (eapply Rle_trans; [apply Rabs_triang|]; lra).
  pose proof (mulc u _ _ ltac:(lra) X2) as M2.
  assert (B3 : Rabs s3 <= A + 43 / 10 * (u * A) + B + 32 / 10 * (u * B) + C + 21 / 10 * (u * C) + 35 / 10 * e).
  { replace s3 with ((s3 - (s2 + p2)) + (s2 + p2)) by ring. eapply Rle_trans; [apply Rabs_triang|]. lra. }
  assert (X3 : Rabs (s3 + w) <= A + 43 / 10 * (u * A) + B + 32 / 10 * (u * B) + C + 21 / 10 * (u * C) + W + 35 / 10 * e) by (eapply Rle_trans; [apply Rabs_triang|]; fold W; lra).
  pose proof (mulc u _ _ ltac:(lra) X3) as M3.
  assert (UT : u * (A + B + C) <= u * T) by (apply Rmult_le_compat_l; lra).
  apply abs_le_inv in E0, E1, E2, S1, S2, S3, ER. apply Rabs_le. lra.
Qed.
(** p - fl( n d ), one component: S bounds the exact distance and |p|. *)
Lemma plane_comp (n p D d' q r P S : R) : Rabs n <= 101 / 100 -> Rabs p <= P -> Rabs D <= S -> Rabs (d' - D) <= 6 * u * S + 4 * e ->
  Rabs (q - n * d') <= u * Rabs (n * d') + e -> Rabs (r - (p - q)) <= u * Rabs (p - q) ->
  Rabs (r - (p - n * D)) <= u * P + 83 / 10 * u * S + 6 * e.
Proof.
  intros Hn HP HD Hd Hq Hr. assert (S0 : 0 <= S) by (pose proof (Rabs_pos D); lra). assert (P0 : 0 <= P) by (pose proof (Rabs_pos p); lra).
  assert (KS : 0 <= u * S <= / 1000000 * S) by (split; [apply Rmult_le_pos; lra|apply Rmult_le_compat_r; lra]).
  assert (KP : 0 <= u * P) by (apply Rmult_le_pos; lra).
  assert (KE : 0 <= u * e <= / 1000000 * e) by (split; [apply Rmult_le_pos; lra|apply Rmult_le_compat_r; lra]).
  assert (uS : u * (u * S) <= / 1000000 * (u * S)) by (apply Rmult_le_compat_r; lra).
  assert (N1 : Rabs (n * (d' - D)) <= 101 / 100 * (6 * u * S + 4 * e)) by (apply prod_le; assumption).
  assert (N2 : Rabs (n * D) <= 101 / 100 * S) by (apply prod_le; assumption).
  assert (N3 : Rabs (n * d') <= 101 / 100 * S + 101 / 100 * (6 * u * S + 4 * e)).
  { replace (n * d') with (n * D + n * (d' - D)) by ring. eapply Rle_trans; [apply Rabs_triang|]. lra. }
  pose proof (mulc u _ _ ltac:(lra) N3) as M3.
  assert (N4 : Rabs (q - n * D) <= 101 / 100 * (6 * u * S + 4 * e) + (1011 / 1000 * (u * S) + 11 / 10 * e)).
  { replace (q - n * D) with ((q - n * d') + n * (d' - D)) by ring. eapply Rle_trans; [apply Rabs_triang|]. lra. }
  assert (N5 : Rabs (p - q) <= P + 101 / 100 * S + (101 / 100 * (6 * u * S + 4 * e) + (1011 / 1000 * (u * S) + 11 / 10 * e))).
  { replace (p - q) with (p - n * D - (q - n * D)) by ring. eapply Rle_trans; [apply Rabs_triang|]. rewrite Rabs_Ropp.
    pose proof (Rabs_triang p (- (n * D))) as T1. rewrite Rabs_Ropp in T1. unfold Rminus at 1. lra. }
  pose proof (mulc u _ _ ltac:(lra) N5) as M5.
  apply abs_le_inv in N4, Hr. apply Rabs_le. lra.
Qed.
End Plane.

(** ** Lengths without a lower bound *)
(** s = L^2 (1 + x) + f *)
Lemma sqrt_abs (L s x f : R) : 0 <= L -> 0 <= s -> 0 <= x <= / 1000 -> 0 <= f -> Rabs (s - L * L) <= x * (L * L) + f * f ->
  Rabs (sqrt s - L) <= 51 / 100 * x * L + f.
Proof.
  intros L0 S0 Hx F0 H. apply abs_le_inv in H. set (q := sqrt s). assert (Q0 : 0 <= q) by apply sqrt_pos.
  assert (QQ : q * q = s) by (apply sqrt_sqrt; exact S0).
  assert (xx : 0 <= x * x <= / 1000 * x) by (split; [nra|apply Rmult_le_compat_r; lra]).
  assert (L2 : 0 <= L * L) by nra. assert (XL : 0 <= x * (L * L)) by (apply Rmult_le_pos; lra). assert (XXL : 0 <= x * x * (L * L) <= / 1000 * (x * (L * L))) by (split; [apply Rmult_le_pos; lra|replace (/ 1000 * (x * (L * L))) with (/ 1000 * x * (L * L)) by ring; apply Rmult_le_compat_r; lra]).
  assert (LF : 0 <= L * f) by nra. assert (XLF : 0 <= x * (L * f)) by (apply Rmult_le_pos; lra).
  assert (ff : 0 <= f * f) by nra.
  apply Rabs_le. split.
  - apply Rnot_lt_le. intros C. assert (C1 : q + f < (1 - 51 / 100 * x) * L) by lra.
    assert (C2 : (q + f) * (q + f) < ((1 - 51 / 100 * x) * L) * ((1 - 51 / 100 * x) * L)) by (apply Rmult_le_0_lt_compat; lra).
    assert (QF : 0 <= q * f) by nra.
    replace (((1 - 51 / 100 * x) * L) * ((1 - 51 / 100 * x) * L)) with (L * L - 102 / 100 * (x * (L * L)) + 2601 / 10000 * (x * x * (L * L))) in C2 by field.
    replace ((q + f) * (q + f)) with (q * q + 2 * (q * f) + f * f) in C2 by ring. lra.
  - apply Rnot_lt_le. intros C. assert (C1 : (1 + 51 / 100 * x) * L + f < q) by lra.
    assert (P0 : 0 <= (1 + 51 / 100 * x) * L) by (apply Rmult_le_pos; lra).
    assert (C2 : ((1 + 51 / 100 * x) * L + f) * ((1 + 51 / 100 * x) * L + f) < q * q) by (apply Rmult_le_0_lt_compat; lra).
    replace (((1 + 51 / 100 * x) * L + f) * ((1 + 51 / 100 * x) * L + f)) with
      (L * L + 102 / 100 * (x * (L * L)) + 2601 / 10000 * (x * x * (L * L)) + 2 * (L * f) + 102 / 100 * (x * (L * f)) + f * f) in C2 by field. lra.
Qed.

Section Sphere.
Context (u e : R) (Hu : 0 < u <= / 1000000) (He : 0 <= e).
(** ((0 + x x) + y y) + z z *)
Lemma square_err (p0 p1 p2 A B C s1 s2 s3 : R) : 0 <= A -> 0 <= B -> 0 <= C ->
  Rabs (p0 - A) <= u * Rabs A + e -> Rabs (p1 - B) <= u * Rabs B + e -> Rabs (p2 - C) <= u * Rabs C + e ->
  Rabs (s1 - (0 + p0)) <= u * Rabs (0 + p0) -> Rabs (s2 - (s1 + p1)) <= u * Rabs (s1 + p1) -> Rabs (s3 - (s2 + p2)) <= u * Rabs (s2 + p2) ->
  Rabs (s3 - (A + B + C)) <= 44 / 10 * u * (A + B + C) + 4 * e.
Proof.
  intros A0 B0 C0 E0 E1 E2 S1 S2 S3. rewrite Rplus_0_l in S1. rewrite (Rabs_pos_eq A) in E0 by exact A0. rewrite (Rabs_pos_eq B) in E1 by exact B0. rewrite (Rabs_pos_eq C) in E2 by exact C0.
  assert (K : forall x, 0 <= x -> 0 <= u * x <= / 1000000 * x) by (intros x Hx; split; [apply Rmult_le_pos; lra|apply Rmult_le_compat_r; lra]).
  pose proof (K A A0) as KA. pose proof (K B B0) as KB. pose proof (K C C0) as KC. pose proof (K e He) as KE.
  assert (Q0 : Rabs p0 <= A + u * A + e) by (apply abs_le_inv in E0; apply Rabs_le; lra).
  assert (Q1 : Rabs p1 <= B + u * B + e) by (apply abs_le_inv in E1; apply Rabs_le; lra).
  assert (Q2 : Rabs p2 <= C + u * C + e) by (apply abs_le_inv in E2; apply Rabs_le; lra).
  pose proof (mulc u _ _ ltac:(lra) Q0) as M0.
  assert (uA : u * (u * A) <= / 1000000 * (u * A)) by (apply Rmult_le_compat_r; lra).
  assert (uB : u * (u * B) <= / 1000000 * (u * B)) by (apply Rmult_le_compat_r; lra).
  assert (uC : u * (u * C) <= / 1000000 * (u * C)) by (apply Rmult_le_compat_r; lra).
  assert (B1 : Rabs s1 <= A + 21 / 10 * (u * A) + 11 / 10 * e).
  { replace s1 with ((s1 - p0) + p0) by ring. eapply Rle_trans; [apply Rabs_triang|]. lra. }
  assert (X1 : Rabs (s1 + p1) <= A + 21 / 10 * (u * A) + B + u * B + 22 / 10 * e) by (eapply Rle_trans; [apply Rabs_triang|]; lra).
  pose proof (mulc u _ _ ltac:(lra) X1) as M1.
  assert (B2 : Rabs s2 <= A + 32 / 10 * (u * A) + B + 21 / 10 * (u * B) + 23 / 10 * e).
  { replace s2 with ((s2 - (s1 + p1)) + (s1 + p1)) by ring. eapply Rle_trans; [apply Rabs_triang|]. lra. }
  assert (X2 : Rabs (s2 + p2) <= A + 32 / 10 * (u * A) + B + 21 / 10 * (u * B) + C + u * C + 34 / 10 * e) by (eapply Rle_trans; [apply Rabs_triang|]; lra).
  pose proof (mulc u _ _ ltac:(lra) X2) as M2.
  apply abs_le_inv in E0, E1, E2, S1, S2, S3. apply Rabs_le. lra.
Qed.
(** The length of a vector given with relative errors u per component. *)
Lemma len_rel_comp (a b c a' b' c' : R) : Rabs (a' - a) <= u * Rabs a -> Rabs (b' - b) <= u * Rabs b -> Rabs (c' - c) <= u * Rabs c ->
  len3R (sub3 (a', b', c') (a, b, c)) <= u * len3R (a, b, c) /\ Rabs (len3R (a', b', c') - len3R (a, b, c)) <= u * len3R (a, b, c).
Proof.
  intros A B C.
  assert (H : len3R (sub3 (a', b', c') (a, b, c)) <= u * len3R (a, b, c)).
  { cbn [sub3]. apply Rle_trans with (len3R (u * a, u * b, u * c)).
    - apply len_abs_mono; rewrite Rabs_mult, (Rabs_pos_eq u) by lra; assumption.
    - change (u * a, u * b, u * c) with (scale3 u (a, b, c)). rewrite len3_scale, Rabs_pos_eq by lra. lra. }
  split; [exact H|]. pose proof (len_sub_ge (a', b', c') (a, b, c)) as G1. pose proof (len_sub_ge (a, b, c) (a', b', c')) as G2. rewrite len_sub_sym in G2.
  apply Rabs_le. lra.
Qed.
(** fl( fl(sqrt s) - w ): L the exact distance, L' the length of the rounded difference. *)
Lemma sphere_err (L L' s l w r f : R) : 0 <= L -> 0 <= L' -> 0 <= f -> Rabs (L' - L) <= u * L ->
  0 <= s -> Rabs (s - L' * L') <= 44 / 10 * u * (L' * L') + f * f -> Rabs (l - sqrt s) <= u * Rabs (sqrt s) -> Rabs (r - (l - w)) <= u * Rabs (l - w) ->
  Rabs (r - (L - w)) <= 6 * u * L + u * Rabs w + 2 * f.
Proof.
  intros L0 L0' F0 HL S0 HS Hl Hr. pose proof (sqrt_abs L' s (44 / 10 * u) f L0' S0 ltac:(lra) F0 HS) as Q.
  assert (K : forall x, 0 <= x -> 0 <= u * x <= / 1000000 * x) by (intros x Hx; split; [apply Rmult_le_pos; lra|apply Rmult_le_compat_r; lra]).
  pose proof (K L L0) as KL. pose proof (K f F0) as KF. pose proof (K (Rabs w) (Rabs_pos w)) as KW.
  assert (uL : u * (u * L) <= / 1000000 * (u * L)) by (apply Rmult_le_compat_r; lra).
  rewrite (Rabs_pos_eq (sqrt s)) in Hl by apply sqrt_pos. apply abs_le_inv in HL.
  assert (UL' : u * L' <= u * L + u * (u * L)) by (replace (u * L + u * (u * L)) with (u * (L + u * L)) by ring; apply Rmult_le_compat_l; lra).
  assert (Q2 : Rabs (sqrt s - L) <= 33 / 10 * (u * L) + f) by (apply abs_le_inv in Q; apply Rabs_le; lra).
  apply abs_le_inv in Q2.
  assert (US : u * sqrt s <= u * (L + 33 / 10 * (u * L) + f)) by (apply Rmult_le_compat_l; lra).
  assert (Ql : Rabs (l - L) <= 44 / 10 * (u * L) + 11 / 10 * f) by (apply abs_le_inv in Hl; apply Rabs_le; lra).
  assert (LW : Rabs (l - w) <= L + 44 / 10 * (u * L) + 11 / 10 * f + Rabs w).
  { replace (l - w) with ((l - L) + L - w) by ring. eapply Rle_trans; [apply Rabs_triang|]. rewrite Rabs_Ropp. pose proof (Rabs_triang (l - L) L) as T1. rewrite (Rabs_pos_eq L L0) in T1. lra. }
  pose proof (mulc u _ _ ltac:(lra) LW) as M. apply abs_le_inv in Ql, Hr. apply Rabs_le. lra.
Qed.
(** c + fl( m w ), one component, with q the component of the exact direction. *)
Lemma sphere_comp (c w q m p r : R) : Rabs q <= 1 -> e <= u / 1000 -> Rabs (m - q) <= 141 / 10 * u * Rabs q + e ->
  Rabs (p - m * w) <= u * Rabs (m * w) + e -> Rabs (r - (c + p)) <= u * Rabs (c + p) ->
  Rabs (r - (c + q * w)) <= 163 / 10 * u * Rabs (q * w) + u * Rabs c + 11 / 10 * e * (Rabs w + 1).
Proof.
  intros Hq He1 Hm Hp Hr. set (W := Rabs w). assert (W0 : 0 <= W) by apply Rabs_pos. set (Q := Rabs q) in *. assert (Q0 : 0 <= Q) by apply Rabs_pos.
  assert (QW : Rabs (q * w) = Q * W) by apply Rabs_mult. rewrite QW. set (V := Q * W) in *. assert (V0 : 0 <= V) by (apply Rmult_le_pos; assumption).
  assert (K : forall x, 0 <= x -> 0 <= u * x <= / 1000000 * x) by (intros x Hx; split; [apply Rmult_le_pos; lra|apply Rmult_le_compat_r; lra]).
  pose proof (K V V0) as KV. pose proof (K e He) as KE. assert (EW0 : 0 <= e * W) by (apply Rmult_le_pos; lra). pose proof (K _ EW0) as KEW.
  assert (uV : u * (u * V) <= / 1000000 * (u * V)) by (apply Rmult_le_compat_r; lra).
  assert (M1 : Rabs (m * w - q * w) <= 141 / 10 * (u * V) + e * W).
  { replace (m * w - q * w) with ((m - q) * w) by ring. rewrite Rabs_mult. fold W. apply Rle_trans with ((141 / 10 * u * Q + e) * W); [apply Rmult_le_compat_r; assumption|].
    unfold V. apply Req_le. ring. }
  assert (M2 : Rabs (m * w) <= V + 141 / 10 * (u * V) + e * W).
  { replace (m * w) with ((m * w - q * w) + q * w) by ring. eapply Rle_trans; [apply Rabs_triang|]. rewrite QW. lra. }
  pose proof (mulc u _ _ ltac:(lra) M2) as M3.
  assert (P1 : Rabs (p - q * w) <= 1511 / 100 * (u * V) + 101 / 100 * (e * W) + e).
  { replace (p - q * w) with ((p - m * w) + (m * w - q * w)) by ring. eapply Rle_trans; [apply Rabs_triang|]. lra. }
  assert (C1 : Rabs (c + p) <= Rabs c + V + 1511 / 100 * (u * V) + 101 / 100 * (e * W) + e).
  { replace (c + p) with (c + q * w + (p - q * w)) by ring. eapply Rle_trans; [apply Rabs_triang|]. pose proof (Rabs_triang c (q * w)) as T1. rewrite QW in T1. lra. }
  pose proof (mulc u _ _ ltac:(lra) C1) as M5. pose proof (Rabs_pos c).
  apply abs_le_inv in P1, Hr. apply Rabs_le. lra.
Qed.
(** The direction of a vector given with relative errors u. *)
Lemma dir_comp (k k' L L' m : R) : 0 < L -> 0 < L' -> Rabs (k' - k) <= u * Rabs k -> Rabs (L' - L) <= u * L ->
  Rabs (m - k' / L') <= 12 * u * Rabs (k' / L') + e ->
  Rabs (m - k / L) <= 141 / 10 * u * Rabs (k / L) + e.
Proof.
  intros L0 L0' Hk HL Hm. set (q := k / L) in *. set (Q := Rabs q) in *. assert (Q0 : 0 <= Q) by apply Rabs_pos.
  assert (kE : k = q * L) by (unfold q; field; lra).
  assert (K : forall x, 0 <= x -> 0 <= u * x <= / 1000000 * x) by (intros x Hx; split; [apply Rmult_le_pos; lra|apply Rmult_le_compat_r; lra]).
  pose proof (K Q Q0) as KQ. assert (uQ : u * (u * Q) <= / 1000000 * (u * Q)) by (apply Rmult_le_compat_r; lra).
  assert (D : Rabs (k' / L' - q) <= 201 / 100 * (u * Q)).
  { replace (k' / L' - q) with ((k' - q * L') / L') by (field; lra). unfold Rdiv. rewrite Rabs_mult, (Rabs_pos_eq (/ L')) by (left; apply Rinv_0_lt_compat; exact L0').
    apply (Rmult_le_reg_r L'); [exact L0'|]. rewrite Rmult_assoc, Rinv_l, Rmult_1_r by lra.
    replace (k' - q * L') with ((k' - k) + q * (L - L')) by (rewrite kE; ring). eapply Rle_trans; [apply Rabs_triang|]. rewrite Rabs_mult. fold Q.
    assert (LB : L * (1 - u) <= L') by (apply abs_le_inv in HL; lra).
    rewrite Rabs_minus_sym in HL.
    assert (A1 : Q * Rabs (L - L') <= Q * (u * L)) by (apply Rmult_le_compat_l; assumption).
    assert (A2 : Rabs k = Q * L) by (rewrite kE, Rabs_mult, (Rabs_pos_eq L) by lra; reflexivity).
    rewrite A2 in Hk. assert (A3 : 201 / 100 * (u * Q) * (L * (1 - u)) <= 201 / 100 * (u * Q) * L') by (apply Rmult_le_compat_l; lra).
    assert (A4 : u * (u * Q * L) <= / 1000000 * (u * Q * L)) by (apply Rmult_le_compat_r; [apply Rmult_le_pos; lra|lra]).
    assert (A5 : 0 <= u * Q * L) by (apply Rmult_le_pos; lra). lra. }
  assert (D2 : Rabs (k' / L') <= Q + 201 / 100 * (u * Q)).
  { replace (k' / L') with ((k' / L' - q) + q) by ring. eapply Rle_trans; [apply Rabs_triang|]. fold Q. lra. }
  pose proof (mulc u _ _ ltac:(lra) D2) as M. apply abs_le_inv in D, Hm. apply Rabs_le. lra.
Qed.
End Sphere.
(** Components bounded by a multiple of those of one vector plus those of another. *)
Lemma len_mix (a b c x y z p q r A B e : R) : 0 <= A -> 0 <= B -> 0 <= e ->
  Rabs a <= A * Rabs x + B * Rabs p + e -> Rabs b <= A * Rabs y + B * Rabs q + e -> Rabs c <= A * Rabs z + B * Rabs r + e ->
  len3R (a, b, c) <= A * len3R (x, y, z) + B * len3R (p, q, r) + 7 / 4 * e.
Proof.
  intros HA HB He Ha Hb Hc.
  set (X := (A * Rabs x, A * Rabs y, A * Rabs z)). set (Y := (B * Rabs p, B * Rabs q, B * Rabs r)).
  apply Rle_trans with (len3R (add3 (add3 X Y) (e, e, e))).
  - cbn [X Y add3]. apply len_abs_mono; (rewrite (Rabs_pos_eq (_ + _ + e)); [assumption|]);
    match goal with |- 0 <= A * Rabs ?s + B * Rabs ?t + e => pose proof (Rmult_le_pos A (Rabs s) HA (Rabs_pos s)); pose proof (Rmult_le_pos B (Rabs t) HB (Rabs_pos t)); lra end.
  - eapply Rle_trans; [apply len3_triangle|]. apply Rplus_le_compat.
    + eapply Rle_trans; [apply len3_triangle|].
      assert (S3 : forall k a b c, 0 <= k -> len3R (k * Rabs a, k * Rabs b, k * Rabs c) = k * len3R (a, b, c)).
      { intros k a0 b0 c0 Hk. change (k * Rabs a0, k * Rabs b0, k * Rabs c0) with (scale3 k (Rabs a0, Rabs b0, Rabs c0)). rewrite len3_scale, (Rabs_pos_eq k Hk). f_equal.
        unfold len3R, dot3. f_equal. rewrite <- !sq_abs. reflexivity. }
      unfold X, Y. rewrite !S3 by assumption. lra.
    + apply len_box; [exact He| | |]; rewrite Rabs_pos_eq by exact He; lra.
Qed.
