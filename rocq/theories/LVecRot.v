(** Real-number core of C191, C192: rotating a vector with inexact cells. *)
From Coq Require Import Reals Lra Psatz List.
From Verif Require Import Spec LVectorR LVecProps2 PMatrix3 LRot LNormal.
Import ListNotations.
Local Open Scope R_scope.

Section Diag.
Context (u e d c c' k' : R) (Hu : 0 < u <= / 1000000) (He : 0 <= e <= u / 1000) (Hd : 0 <= d <= / 100).
Context (Hc : Rabs c <= 1) (Hc' : Rabs (c' - c) <= d) (Hk : Rabs (k' - (1 - c')) <= u * Rabs (1 - c')).
(** c + ((1 - c) * x) * x, in the order of Vector::rotate. *)
Lemma cell_diag2 x q p r : Rabs x <= 101 / 100 ->
  Rabs (q - k' * x) <= u * Rabs (k' * x) + e -> Rabs (p - q * x) <= u * Rabs (q * x) + e -> Rabs (r - (c' + p)) <= u * Rabs (c' + p) ->
  Rabs (r - (c + (1 - c) * (x * x))) <= 3 * d + 16 * u.
Proof.
  intros Hx Hq Hp Hr. destruct (k_err u d c c' k' Hu Hd Hc Hc' Hk) as (K1 & K2).
  assert (UU : 0 <= u * u <= / 1000000 * u) by (split; [nra|apply Rmult_le_compat_r; lra]).
  assert (UD : 0 <= u * d <= / 100 * u) by (split; [nra|rewrite Rmult_comm; apply Rmult_le_compat_r; lra]).
  assert (Z0 : forall t : R, Rabs (t - t) <= 0) by (intros t; rewrite Rminus_diag_eq, Rabs_R0 by reflexivity; lra).
  pose proof (prod_err u e (1 - c) x k' x q 2 (101 / 100) (d + 21 / 10 * u) 0 ltac:(lra) K2 Hx K1 (Z0 x) Hq) as Q.
  assert (Q' : Rabs (q - (1 - c) * x) <= 102 / 100 * d + 43 / 10 * u) by nra.
  assert (QB : Rabs ((1 - c) * x) <= 202 / 100) by (pose proof (prod_le _ _ _ _ K2 Hx); lra).
  pose proof (prod_err u e ((1 - c) * x) x q x p (202 / 100) (101 / 100) (102 / 100 * d + 43 / 10 * u) 0 ltac:(lra) QB Hx Q' (Z0 x) Hp) as P.
  assert (P' : Rabs (p - (1 - c) * x * x) <= 11 / 10 * d + 7 * u) by nra.
  assert (PB : Rabs ((1 - c) * x * x) <= 205 / 100) by (pose proof (prod_le _ _ _ _ QB Hx); lra).
  pose proof (sum_err u c ((1 - c) * x * x) c' p r 1 (205 / 100) d (11 / 10 * d + 7 * u) ltac:(lra) Hc PB Hc' P' Hr) as R1.
  replace ((1 - c) * (x * x)) with ((1 - c) * x * x) by ring. nra.
Qed.
End Diag.

(** The cells of the rotation matrix of a perturbed axis. *)
Lemma rot_axis_err (kx ky kz qx qy qz t ep : R) (i j : nat) : 0 <= ep <= / 1000 -> (i < 3)%nat -> (j < 3)%nat ->
  Rabs qx <= 1 -> Rabs qy <= 1 -> Rabs qz <= 1 ->
  Rabs (kx - qx) <= ep -> Rabs (ky - qy) <= ep -> Rabs (kz - qz) <= ep ->
  Rabs (rotF (kx, ky, kz) t i j - rotF (qx, qy, qz) t i j) <= 501 / 100 * ep /\ Rabs (rotF (qx, qy, qz) t i j) <= 3.
Proof.
  intros He Hi Hj Bx By Bz Ex Ey Ez.
  assert (C1 : Rabs (cos t) <= 1) by (pose proof (COS_bound t); apply Rabs_le; lra).
  assert (S1 : Rabs (sin t) <= 1) by (pose proof (SIN_bound t); apply Rabs_le; lra).
  assert (D2 : Rabs (1 - cos t) <= 2) by (pose proof (COS_bound t); apply Rabs_le; lra).
  assert (P : forall a b a' b', Rabs a <= 1 -> Rabs b <= 1 -> Rabs (a' - a) <= ep -> Rabs (b' - b) <= ep ->
     Rabs ((1 - cos t) * a' * b' - (1 - cos t) * a * b) <= 401 / 100 * ep /\ Rabs ((1 - cos t) * a * b) <= 2).
  { intros a b a' b' A B A' B'. split.
    - replace ((1 - cos t) * a' * b' - (1 - cos t) * a * b) with ((1 - cos t) * (a * (b' - b) + (a' - a) * b + (a' - a) * (b' - b))) by ring.
      eapply Rle_trans; [apply (prod_le _ _ 2 (1 * ep + ep * 1 + ep * ep)); [exact D2|]|].
      + apply tri; [apply tri|]; apply prod_le; assumption.
      + assert (ep * ep <= / 1000 * ep) by (apply Rmult_le_compat_r; lra). lra.
    - eapply Rle_trans; [apply (prod_le _ _ (2 * 1) 1); [apply prod_le; assumption|exact B]|lra]. }
  assert (W : forall a a', Rabs a <= 1 -> Rabs (a' - a) <= ep -> Rabs (sin t * a' - sin t * a) <= ep /\ Rabs (sin t * a) <= 1).
  { intros a a' A A'. split.
    - replace (sin t * a' - sin t * a) with (sin t * (a' - a)) by ring. eapply Rle_trans; [apply (prod_le _ _ 1 ep); assumption|lra].
    - eapply Rle_trans; [apply (prod_le _ _ 1 1); assumption|lra]. }
  assert (OFF : forall a b w a' b' w', Rabs a <= 1 -> Rabs b <= 1 -> Rabs w <= 1 -> Rabs (a' - a) <= ep -> Rabs (b' - b) <= ep -> Rabs (w' - w) <= ep ->
     (Rabs (((1 - cos t) * a' * b' - sin t * w') - ((1 - cos t) * a * b - sin t * w)) <= 501 / 100 * ep /\ Rabs ((1 - cos t) * a * b - sin t * w) <= 3) /\
     (Rabs (((1 - cos t) * a' * b' + sin t * w') - ((1 - cos t) * a * b + sin t * w)) <= 501 / 100 * ep /\ Rabs ((1 - cos t) * a * b + sin t * w) <= 3)).
  { intros a b w a' b' w' A B C A' B' C'. destruct (P a b a' b' A B A' B') as (P1 & P2). destruct (W w w' C C') as (W1 & W2).
    apply abs_le_inv in P1, P2, W1, W2. repeat split; apply Rabs_le; lra. }
  assert (DIA : forall a a', Rabs a <= 1 -> Rabs (a' - a) <= ep ->
     Rabs ((cos t + (1 - cos t) * (a' * a')) - (cos t + (1 - cos t) * (a * a))) <= 501 / 100 * ep /\ Rabs (cos t + (1 - cos t) * (a * a)) <= 3).
  { intros a a' A A'. destruct (P a a a' a' A A A' A') as (P1 & P2). rewrite !Rmult_assoc in P1, P2. apply abs_le_inv in P1, P2, C1. split; apply Rabs_le; lra. }
  destruct i as [|[|[|i]]]; [| | |lia]; (destruct j as [|[|[|j]]]; [| | |lia]); cbn [rotF nth];
    first [apply DIA; assumption | apply OFF; assumption].
Qed.

(** One row: ((m0 * x + m1 * y) + m2 * z), rounded, with inexact cells. *)
Lemma row_err (u e g m0 m1 m2 a0 a1 a2 x y z p0 p1 p2 s r : R) : 0 < u <= / 1000000 -> 0 <= e -> 0 <= g <= / 10 ->
  Rabs a0 <= 3 -> Rabs a1 <= 3 -> Rabs a2 <= 3 ->
  Rabs (m0 - a0) <= g -> Rabs (m1 - a1) <= g -> Rabs (m2 - a2) <= g ->
  Rabs (p0 - m0 * x) <= u * Rabs (m0 * x) + e -> Rabs (p1 - m1 * y) <= u * Rabs (m1 * y) + e -> Rabs (p2 - m2 * z) <= u * Rabs (m2 * z) + e ->
  Rabs (s - (p0 + p1)) <= u * Rabs (p0 + p1) -> Rabs (r - (s + p2)) <= u * Rabs (s + p2) ->
  Rabs (r - (a0 * x + a1 * y + a2 * z)) <= (g + 10 * u) * (Rabs x + Rabs y + Rabs z) + 4 * e.
Proof.
  intros Hu He Hg A0 A1 A2 M0 M1 M2 P0 P1 P2 HS HR.
  assert (K : forall m a x p, Rabs a <= 3 -> Rabs (m - a) <= g -> Rabs (p - m * x) <= u * Rabs (m * x) + e ->
     Rabs (p - a * x) <= (g + 31 / 10 * u) * Rabs x + e /\ Rabs p <= (31 / 10 + / 1000) * Rabs x + e).
  { intros m a v p A M P.
    assert (MX : Rabs (m * v) <= 31 / 10 * Rabs v).
    { rewrite Rabs_mult. apply Rmult_le_compat_r; [apply Rabs_pos|]. apply Rle_trans with (Rabs a + Rabs (m - a)); [replace m with (a + (m - a)) at 1 by ring; apply Rabs_triang|lra]. }
    assert (U1 : u * Rabs (m * v) <= u * (31 / 10 * Rabs v)) by (apply Rmult_le_compat_l; lra).
    assert (U2 : u * Rabs v <= / 1000000 * Rabs v) by (apply Rmult_le_compat_r; [apply Rabs_pos|lra]).
    split.
    - replace (p - a * v) with ((p - m * v) + (m - a) * v) by ring. eapply Rle_trans; [apply Rabs_triang|]. rewrite (Rabs_mult (m - a)).
      assert (Rabs (m - a) * Rabs v <= g * Rabs v) by (apply Rmult_le_compat_r; [apply Rabs_pos|exact M]). lra.
    - replace p with ((p - m * v) + m * v) by ring. eapply Rle_trans; [apply Rabs_triang|]. pose proof (Rabs_pos v). lra. }
  destruct (K _ _ _ _ A0 M0 P0) as (E0 & B0). destruct (K _ _ _ _ A1 M1 P1) as (E1 & B1). destruct (K _ _ _ _ A2 M2 P2) as (E2 & B2).
  set (X := Rabs x) in *. set (Y := Rabs y) in *. set (Z := Rabs z) in *.
  assert (X0 : 0 <= X) by apply Rabs_pos. assert (Y0 : 0 <= Y) by apply Rabs_pos. assert (Z0 : 0 <= Z) by apply Rabs_pos.
  assert (S1 : Rabs (p0 + p1) <= (31 / 10 + / 1000) * (X + Y) + 2 * e) by (eapply Rle_trans; [apply Rabs_triang|]; lra).
  assert (US : u * Rabs (p0 + p1) <= u * ((31 / 10 + / 1000) * (X + Y) + 2 * e)) by (apply Rmult_le_compat_l; lra).
  assert (ue : 0 <= u * e <= / 1000000 * e) by (split; [apply Rmult_le_pos; lra|apply Rmult_le_compat_r; lra]).
  assert (uX : 0 <= u * X <= / 1000000 * X) by (split; [apply Rmult_le_pos; lra|apply Rmult_le_compat_r; lra]).
  assert (uY : 0 <= u * Y <= / 1000000 * Y) by (split; [apply Rmult_le_pos; lra|apply Rmult_le_compat_r; lra]).
  assert (uZ : 0 <= u * Z <= / 1000000 * Z) by (split; [apply Rmult_le_pos; lra|apply Rmult_le_compat_r; lra]).
  assert (S2 : Rabs (s + p2) <= (31 / 10 + / 100) * (X + Y + Z) + 4 * e).
  { replace (s + p2) with ((s - (p0 + p1)) + (p0 + p1) + p2) by ring. eapply Rle_trans; [apply Rabs_triang|]. pose proof (Rabs_triang (s - (p0 + p1)) (p0 + p1)). lra. }
  assert (UR : u * Rabs (s + p2) <= u * ((31 / 10 + / 100) * (X + Y + Z) + 4 * e)) by (apply Rmult_le_compat_l; lra).
  apply abs_le_inv in E0, E1, E2, HS, HR. apply Rabs_le. lra.
Qed.
(** The length of an error vector whose components are small against |x|+|y|+|z|. *)
Lemma vec_err (a b c x y z h e : R) : 0 <= h -> 0 <= e ->
  (let S := Rabs x + Rabs y + Rabs z in Rabs a <= h * S + e /\ Rabs b <= h * S + e /\ Rabs c <= h * S + e) ->
  len3R (a, b, c) <= 307 / 100 * h * len3R (x, y, z) + 7 / 4 * e.
Proof.
  intros Hh He (A & B & C). set (S1 := Rabs x + Rabs y + Rabs z) in *.
  assert (S0 : 0 <= S1) by (unfold S1; pose proof (Rabs_pos x); pose proof (Rabs_pos y); pose proof (Rabs_pos z); lra).
  assert (SB : S1 <= 1754 / 1000 * len3R (x, y, z)).
  { pose proof (len3_nonneg (x, y, z)) as L0. apply Rsqr_incr_0_var; [|lra]. unfold Rsqr.
    replace (1754 / 1000 * len3R (x, y, z) * (1754 / 1000 * len3R (x, y, z))) with (1754 / 1000 * (1754 / 1000) * (len3R (x, y, z) * len3R (x, y, z))) by ring.
    rewrite len3_sq. cbn. rewrite (sq_abs x), (sq_abs y), (sq_abs z). unfold S1.
    set (X := Rabs x). set (Y := Rabs y). set (Z := Rabs z). pose proof (Rle_0_sqr (X - Y)) as Q1. pose proof (Rle_0_sqr (Y - Z)) as Q2. pose proof (Rle_0_sqr (X - Z)) as Q3.
    pose proof (Rle_0_sqr X) as Q4. pose proof (Rle_0_sqr Y) as Q5. pose proof (Rle_0_sqr Z) as Q6. unfold Rsqr in *. nra. }
  assert (HS : h * S1 <= h * (1754 / 1000 * len3R (x, y, z))) by (apply Rmult_le_compat_l; lra).
  assert (H0 : 0 <= h * S1) by (apply Rmult_le_pos; lra).
  eapply Rle_trans; [apply (len_box a b c (h * S1 + e)); try assumption; lra|]. lra.
Qed.
