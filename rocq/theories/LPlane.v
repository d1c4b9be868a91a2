(** Real-number core of C207, C208: the plane through three points computed from
    perturbed edges, a perturbed cross product and a perturbed division by the
    length of the homogeneous normal. *)
From Coq Require Import Reals Lra.
From Verif Require Import Spec LVectorR LVecProps2 LNormal.
Local Open Scope R_scope.

Lemma cross_core (u e : R) (U W C : V3) :
  0 < u <= / 100000 -> 0 <= e ->
  let N := cross3 U W in let L := len3R U * len3R W in
  let '(cx, cy, cz) := C in
  let '(ux, uy, uz) := U in let '(wx, wy, wz) := W in
  (exists d1 d2 d3 d4, Rabs d1 <= u /\ Rabs d2 <= u /\ Rabs d3 <= u /\ Rabs d4 <= u /\
     let y := uy * (1 + d1) in let z := uz * (1 + d2) in let y' := wy * (1 + d3) in let z' := wz * (1 + d4) in
     Rabs (cx - (y * z' - z * y')) <= 3 * u * (Rabs (y * z') + Rabs (z * y')) + 3 * e) ->
  (exists d1 d2 d3 d4, Rabs d1 <= u /\ Rabs d2 <= u /\ Rabs d3 <= u /\ Rabs d4 <= u /\
     let y := uz * (1 + d1) in let z := ux * (1 + d2) in let y' := wz * (1 + d3) in let z' := wx * (1 + d4) in
     Rabs (cy - (y * z' - z * y')) <= 3 * u * (Rabs (y * z') + Rabs (z * y')) + 3 * e) ->
  (exists d1 d2 d3 d4, Rabs d1 <= u /\ Rabs d2 <= u /\ Rabs d3 <= u /\ Rabs d4 <= u /\
     let y := ux * (1 + d1) in let z := uy * (1 + d2) in let y' := wx * (1 + d3) in let z' := wy * (1 + d4) in
     Rabs (cz - (y * z' - z * y')) <= 3 * u * (Rabs (y * z') + Rabs (z * y')) + 3 * e) ->
  len3R (sub3 C N) <= 88 / 10 * u * L + 53 / 10 * e.
Proof.
  destruct U as [[ux uy] uz], W as [[wx wy] wz], C as [[cx cy] cz]. intros HU HE N L. cbn [cross3] in N.
  intros HX HY HZ.
  destruct (cross_terms ux uy uz wx wy wz) as (T1 & T2 & T3). fold L in T1, T2, T3.
  assert (L0 : 0 <= L) by (unfold L; apply Rmult_le_pos; apply len3_nonneg).
  assert (K : forall c a b a' b', Rabs (a * b') + Rabs (b * a') <= L ->
     (exists d1 d2 d3 d4, Rabs d1 <= u /\ Rabs d2 <= u /\ Rabs d3 <= u /\ Rabs d4 <= u /\
     let y := a * (1 + d1) in let z := b * (1 + d2) in let y' := a' * (1 + d3) in let z' := b' * (1 + d4) in
     Rabs (c - (y * z' - z * y')) <= 3 * u * (Rabs (y * z') + Rabs (z * y')) + 3 * e) ->
     Rabs (c - (a * b' - b * a')) <= 502 / 100 * u * L + 3 * e).
  { intros c a b a' b' T (d1 & d2 & d3 & d4 & D1 & D2 & D3 & D4 & H). cbv zeta in H.
    replace (a * (1 + d1) * (b' * (1 + d4))) with (a * b' * ((1 + d1) * (1 + d4))) in H by ring.
    replace (b * (1 + d2) * (a' * (1 + d3))) with (b * a' * ((1 + d2) * (1 + d3))) in H by ring.
    pose proof (cross_one u e _ _ _ _ _ HU HE (two_factors u d1 d4 HU D1 D4) (two_factors u d2 d3 HU D2 D3) H) as B.
    assert (502 / 100 * u * (Rabs (a * b') + Rabs (b * a')) <= 502 / 100 * u * L) by (apply Rmult_le_compat_l; lra). lra. }
  pose proof (K _ _ _ _ _ T1 HX) as B1. pose proof (K _ _ _ _ _ T2 HY) as B2. pose proof (K _ _ _ _ _ T3 HZ) as B3.
  assert (uL : 0 <= u * L) by (apply Rmult_le_pos; lra).
  unfold N. cbn [sub3]. eapply Rle_trans; [apply (len_box _ _ _ (502 / 100 * u * L + 3 * e)); try assumption; lra|]. lra.
Qed.

(** The length of the homogeneous vector (N, 1). *)
Definition hlen (N : V3) : R := sqrt (dot3 N N + 1).
Lemma hlen_facts (N : V3) : 1 <= hlen N /\ len3R N <= hlen N /\ hlen N * hlen N = dot3 N N + 1.
Proof.
  pose proof (dot3_nonneg N) as D. unfold hlen. repeat split.
  - rewrite <- sqrt_1 at 1. apply sqrt_le_1_alt. lra.
  - unfold len3R. apply sqrt_le_1_alt. lra.
  - apply sqrt_sqrt. lra.
Qed.
Lemma hlen_lip (C N : V3) : Rabs (hlen C - hlen N) <= len3R (sub3 C N).
Proof.
  destruct (hlen_facts C) as (C1 & C2 & C3). destruct (hlen_facts N) as (N1 & N2 & N3).
  pose proof (len_sub_ge C N) as A. pose proof (len_sub_ge N C) as B. rewrite (len_sub_sym N C) in B.
  rewrite <- len3_sq in C3, N3. pose proof (len3_nonneg C) as C0. pose proof (len3_nonneg N) as N0.
  set (c := len3R C) in *. set (n := len3R N) in *. set (x := hlen C) in *. set (y := hlen N) in *. set (D := len3R (sub3 C N)) in *.
  assert (E : (x - y) * (x + y) = (c - n) * (c + n)) by (ring_simplify; replace (x ^ 2) with (x * x) by ring; replace (y ^ 2) with (y * y) by ring; rewrite C3, N3; ring).
  apply Rle_trans with (Rabs (c - n)); [|apply Rabs_le; lra].
  apply (Rmult_le_reg_r (x + y)); [lra|]. rewrite <- (Rabs_pos_eq (x + y)) at 1 by lra. rewrite <- Rabs_mult, E, Rabs_mult, (Rabs_pos_eq (c + n)) by lra.
  apply Rmult_le_compat_l; [apply Rabs_pos|lra].
Qed.
Lemma hunit_near (C N : V3) : len3R (sub3 (scale3 (/ hlen C) C) (scale3 (/ hlen N) N)) <= 2 * (len3R (sub3 C N) / hlen N).
Proof.
  pose proof (hlen_lip C N) as H. destruct (hlen_facts C) as (C1 & C2 & _). destruct (hlen_facts N) as (N1 & _ & _).
  set (c := hlen C) in *. set (n := hlen N) in *. pose proof (len3_nonneg C) as C0.
  assert (In : 0 < / n) by (apply Rinv_0_lt_compat; lra). assert (Ic : 0 < / c) by (apply Rinv_0_lt_compat; lra).
  assert (E : sub3 (scale3 (/ c) C) (scale3 (/ n) N) = add3 (scale3 (/ n) (sub3 C N)) (scale3 (/ c - / n) C)).
  { destruct N as [[a b] d], C as [[x y] z]. cbn. f_equal; [f_equal|]; ring. }
  rewrite E. eapply Rle_trans; [apply len3_triangle|]. rewrite !len3_scale. rewrite (Rabs_pos_eq (/ n)) by lra.
  assert (D : Rabs (/ c - / n) * len3R C <= / n * len3R (sub3 C N)).
  { replace (/ c - / n) with (/ n * ((n - c) * / c)) by (field; lra). rewrite !Rabs_mult, (Rabs_pos_eq (/ n)), (Rabs_pos_eq (/ c)) by lra.
    replace (/ n * (Rabs (n - c) * / c) * len3R C) with (/ n * (Rabs (n - c) * (/ c * len3R C))) by ring. apply Rmult_le_compat_l; [lra|].
    rewrite Rabs_minus_sym. apply Rle_trans with (len3R (sub3 C N) * 1); [|lra]. apply Rmult_le_compat; [apply Rabs_pos|apply Rmult_le_pos; lra|exact H|].
    apply (Rmult_le_reg_l c); [lra|]. rewrite <- Rmult_assoc, Rinv_r, Rmult_1_l by lra. lra. }
  unfold Rdiv. lra.
Qed.

(** The computed normal M. *)
Lemma plane_normal (u t : R) (U W C M : V3) : 0 < u <= / 100000 -> 0 <= t <= u ->
  let N := cross3 U W in let L := len3R U * len3R W in
  len3R (sub3 C N) <= 88 / 10 * u * L + 53 / 10 * t ->
  (let '(mx, my, mz) := M in let '(cx, cy, cz) := C in
   Rabs (mx - cx / hlen C) <= 14 * u * Rabs (cx / hlen C) + t /\
   Rabs (my - cy / hlen C) <= 14 * u * Rabs (cy / hlen C) + t /\
   Rabs (mz - cz / hlen C) <= 14 * u * Rabs (cz / hlen C) + t) ->
  len3R (sub3 M (scale3 (/ hlen N) N)) <= 32 * u * (L / hlen N) + 13 * t.
Proof.
  intros HU HT N L HC HM. destruct (hlen_facts C) as (C1 & C2 & _). destruct (hlen_facts N) as (N1 & N2 & _).
  assert (NL : len3R N <= L) by apply len_cross_le. pose proof (hunit_near C N) as D1.
  assert (L0 : 0 <= L) by (unfold L; apply Rmult_le_pos; apply len3_nonneg).
  set (n := hlen N) in *. set (D := len3R (sub3 C N)) in *. assert (In : 0 < / n <= 1) by (split; [apply Rinv_0_lt_compat; lra|rewrite <- Rinv_1; apply Rinv_le_contravar; lra]).
  set (X := L / n). assert (X0 : 0 <= X) by (unfold X, Rdiv; apply Rmult_le_pos; lra).
  assert (DX : D / n <= 88 / 10 * (u * X) + 53 / 10 * t).
  { unfold X, Rdiv in *. assert (D * / n <= (88 / 10 * u * L + 53 / 10 * t) * / n) by (apply Rmult_le_compat_r; lra). assert (t * / n <= t * 1) by (apply Rmult_le_compat_l; lra). lra. }
  assert (LC : len3R (scale3 (/ hlen C) C) <= X + 2 * (D / n)).
  { pose proof (len_sub_ge (scale3 (/ hlen C) C) (scale3 (/ n) N)) as G. rewrite (len3_scale (/ n) N), (Rabs_pos_eq (/ n)) in G by lra.
    assert (/ n * len3R N <= X) by (unfold X, Rdiv; rewrite Rmult_comm; apply Rmult_le_compat_r; lra). lra. }
  assert (D2 : len3R (sub3 M (scale3 (/ hlen C) C)) <= 14 * u * len3R (scale3 (/ hlen C) C) + 7 / 4 * t).
  { destruct M as [[mx my] mz], C as [[cx cy] cz]. set (c := hlen (cx, cy, cz)) in *. cbn [sub3 scale3]. destruct HM as (M1 & M2 & M3).
    unfold Rdiv in M1, M2, M3. rewrite (Rmult_comm cx) in M1. rewrite (Rmult_comm cy) in M2. rewrite (Rmult_comm cz) in M3.
    set (p := / c * cx) in *. set (q := / c * cy) in *. set (r := / c * cz) in *.
    eapply Rle_trans; [apply (len_abs_mono _ _ _ (14 * u * Rabs p + t) (14 * u * Rabs q + t) (14 * u * Rabs r + t))|].
    1-3: eapply Rle_trans; [eassumption|apply Rle_abs].
    replace (14 * u * Rabs p + t, 14 * u * Rabs q + t, 14 * u * Rabs r + t) with (add3 (scale3 (14 * u) (Rabs p, Rabs q, Rabs r)) (t, t, t)) by reflexivity.
    eapply Rle_trans; [apply len3_triangle|]. rewrite len3_scale, (Rabs_pos_eq (14 * u)) by lra. apply Rplus_le_compat.
    - apply Rmult_le_compat_l; [lra|]. apply len_abs_mono; rewrite Rabs_Rabsolu; lra.
    - apply len_box; try lra; rewrite Rabs_pos_eq; lra. }
  assert (uX : 0 <= u * X) by (apply Rmult_le_pos; lra).
  assert (Q : 14 * u * len3R (scale3 (/ hlen C) C) <= 14 * (u * X) + / 1000 * (88 / 5 * (u * X) + 53 / 5 * t)).
  { apply Rle_trans with (14 * u * (X + 2 * (D / n))); [apply Rmult_le_compat_l; lra|].
    assert (14 * u * (2 * (D / n)) <= / 1000 * (88 / 5 * (u * X) + 53 / 5 * t)); [|lra]. apply Rmult_le_compat; [lra| |lra|lra]. assert (0 <= D / n) by (unfold Rdiv; apply Rmult_le_pos; [apply len3_nonneg|lra]). lra. }
  eapply Rle_trans; [apply (len_sub_tri _ (scale3 (/ hlen C) C))|]. lra.
Qed.

(** The constant term w and the value of the plane at a point p with the same
    position along the exact normal as a. *)
Lemma plane_value (e1 e2 k w : R) (N M a p : V3) : dot3 N (sub3 p a) = 0 -> len3R (sub3 M (scale3 k N)) <= e1 -> Rabs (dot3 M a + w) <= e2 ->
  Rabs (dot3 M p + w) <= e1 * len3R (sub3 p a) + e2.
Proof.
  intros H0 H1 H2. replace (dot3 M p + w) with (dot3 (sub3 M (scale3 k N)) (sub3 p a) + (dot3 M a + w)).
  - eapply Rle_trans; [apply Rabs_triang|]. apply Rplus_le_compat; [|exact H2]. eapply Rle_trans; [apply len3_cs|]. apply Rmult_le_compat_r; [apply len3_nonneg|exact H1].
  - transitivity (dot3 M (sub3 p a) - k * dot3 N (sub3 p a) + (dot3 M a + w)); [|rewrite H0]; destruct M as [[x y] z], N as [[n0 n1] n2], a as [[a0 a1] a2], p as [[p0 p1] p2]; cbn; ring.
Qed.
Lemma abs_dot (M a : V3) : let '(x, y, z) := M in let '(a0, a1, a2) := a in Rabs (x * a0) + Rabs (y * a1) + Rabs (z * a2) <= len3R M * len3R a.
Proof.
  destruct M as [[x y] z], a as [[a0 a1] a2]. rewrite !Rabs_mult.
  pose proof (len3_cs (Rabs x, Rabs y, Rabs z) (Rabs a0, Rabs a1, Rabs a2)) as H. cbn [dot3] in H.
  assert (E : forall p q r, len3R (Rabs p, Rabs q, Rabs r) = len3R (p, q, r)) by (intros; unfold len3R; cbn; rewrite <- !sq_abs; reflexivity).
  rewrite !E in H. eapply Rle_trans; [apply Rle_abs|exact H].
Qed.
Lemma plane_w (u e : R) (M a : V3) (w p q r s : R) : 0 < u <= / 100000 -> 0 <= e ->
  let '(x, y, z) := M in let '(a0, a1, a2) := a in
  Rabs (p - - x * a0) <= u * Rabs (- x * a0) + e -> Rabs (q - y * a1) <= u * Rabs (y * a1) + e -> Rabs (r - z * a2) <= u * Rabs (z * a2) + e ->
  Rabs (s - (p - q)) <= u * Rabs (p - q) -> Rabs (w - (s - r)) <= u * Rabs (s - r) ->
  Rabs (dot3 M a + w) <= 4 * u * (len3R M * len3R a) + 4 * e.
Proof.
  intros HU He. pose proof (abs_dot M a) as AD. destruct M as [[x y] z], a as [[a0 a1] a2]. intros P Q T S1 W.
  replace (- x * a0) with (- (x * a0)) in P by ring. rewrite Rabs_Ropp in P. cbn [dot3]. set (X := x * a0) in *. set (Y := y * a1) in *. set (Z := z * a2) in *.
  set (B := len3R (x, y, z) * len3R (a0, a1, a2)) in *.
  pose proof (Rabs_pos X) as X0. pose proof (Rabs_pos Y) as Y0. pose proof (Rabs_pos Z) as Z0. pose proof (Rle_abs X) as X1. pose proof (Rle_abs (- X)) as X2. pose proof (Rle_abs Y) as Y1. pose proof (Rle_abs (- Y)) as Y2. pose proof (Rle_abs Z) as Z1. pose proof (Rle_abs (- Z)) as Z2.
  rewrite Rabs_Ropp in X2, Y2, Z2. apply abs_inv in P, Q, T.
  assert (uX : 0 <= u * Rabs X <= / 100000 * Rabs X) by (split; [apply Rmult_le_pos; lra|apply Rmult_le_compat_r; lra]).
  assert (uY : 0 <= u * Rabs Y <= / 100000 * Rabs Y) by (split; [apply Rmult_le_pos; lra|apply Rmult_le_compat_r; lra]).
  assert (uZ : 0 <= u * Rabs Z <= / 100000 * Rabs Z) by (split; [apply Rmult_le_pos; lra|apply Rmult_le_compat_r; lra]).
  assert (ue : 0 <= u * e <= / 100000 * e) by (split; [apply Rmult_le_pos; lra|apply Rmult_le_compat_r; lra]).
  assert (B1 : Rabs (p - q) <= 1001 / 1000 * (Rabs X + Rabs Y) + 2 * e) by (apply Rabs_le; lra).
  assert (E1 : u * Rabs (p - q) <= u * (1001 / 1000 * (Rabs X + Rabs Y) + 2 * e)) by (apply Rmult_le_compat_l; lra).
  apply abs_inv in B1. assert (S2 : Rabs (s - (p - q)) <= u * (1001 / 1000 * (Rabs X + Rabs Y) + 2 * e)) by lra. apply abs_inv in S2.
  assert (B2 : Rabs (s - r) <= 1002 / 1000 * (Rabs X + Rabs Y + Rabs Z) + 4 * e) by (apply Rabs_le; lra).
  assert (E2 : u * Rabs (s - r) <= u * (1002 / 1000 * (Rabs X + Rabs Y + Rabs Z) + 4 * e)) by (apply Rmult_le_compat_l; lra).
  assert (W2 : Rabs (w - (s - r)) <= u * (1002 / 1000 * (Rabs X + Rabs Y + Rabs Z) + 4 * e)) by lra. apply abs_inv in W2.
  assert (uB : u * (Rabs X + Rabs Y + Rabs Z) <= u * B) by (apply Rmult_le_compat_l; lra).
  apply Rabs_le. lra.
Qed.
