(** Real-number core of C187, C188: the unit normal of a triangle computed from
    perturbed edges, a perturbed cross product and a perturbed division. *)
From Coq Require Import Reals Lra.
From Verif Require Import Spec LVectorR LVecProps2.
Local Open Scope R_scope.

Lemma abs_inv (a b : R) : Rabs a <= b -> - b <= a <= b.
Proof. unfold Rabs. destruct (Rcase_abs a); lra. Qed.
Lemma sq_abs x : x * x = Rabs x * Rabs x.
Proof. rewrite <- Rabs_mult. symmetry. apply Rabs_pos_eq, Rle_0_sqr. Qed.
Lemma len_abs_mono a b c a' b' c' : Rabs a <= Rabs a' -> Rabs b <= Rabs b' -> Rabs c <= Rabs c' -> len3R (a, b, c) <= len3R (a', b', c').
Proof.
  intros A B C. unfold len3R. apply sqrt_le_1_alt. cbn. rewrite (sq_abs a), (sq_abs b), (sq_abs c), (sq_abs a'), (sq_abs b'), (sq_abs c').
  pose proof (Rabs_pos a). pose proof (Rabs_pos b). pose proof (Rabs_pos c).
  repeat apply Rplus_le_compat; apply Rmult_le_compat; assumption.
Qed.
Lemma len_box a b c d : 0 <= d -> Rabs a <= d -> Rabs b <= d -> Rabs c <= d -> len3R (a, b, c) <= 7 / 4 * d.
Proof.
  intros D A B C. unfold len3R. rewrite <- (sqrt_square (7 / 4 * d)) by lra. apply sqrt_le_1_alt. cbn.
  rewrite (sq_abs a), (sq_abs b), (sq_abs c). pose proof (Rabs_pos a). pose proof (Rabs_pos b). pose proof (Rabs_pos c).
  assert (Rabs a * Rabs a <= d * d) by (apply Rmult_le_compat; assumption). assert (Rabs b * Rabs b <= d * d) by (apply Rmult_le_compat; assumption).
  assert (Rabs c * Rabs c <= d * d) by (apply Rmult_le_compat; assumption). pose proof (Rle_0_sqr d) as Q. unfold Rsqr in Q. lra.
Qed.
Lemma len_sub_sym a b : len3R (sub3 a b) = len3R (sub3 b a).
Proof. unfold len3R. f_equal. destruct a as [[a0 a1] a2], b as [[b0 b1] b2]. cbn. ring. Qed.
Lemma len_sub_ge a b : len3R a - len3R b <= len3R (sub3 a b).
Proof.
  pose proof (len3_triangle b (sub3 a b)) as T. replace (add3 b (sub3 a b)) with a in T; [lra|].
  destruct a as [[a0 a1] a2], b as [[b0 b1] b2]. cbn. f_equal; [f_equal|]; ring.
Qed.
Lemma len_sub_tri a b c : len3R (sub3 a c) <= len3R (sub3 a b) + len3R (sub3 b c).
Proof.
  pose proof (len3_triangle (sub3 a b) (sub3 b c)) as T. replace (add3 (sub3 a b) (sub3 b c)) with (sub3 a c) in T; [exact T|].
  destruct a as [[a0 a1] a2], b as [[b0 b1] b2], c as [[c0 c1] c2]. cbn. f_equal; [f_equal|]; ring.
Qed.
Lemma cs2 a b c d : (Rabs (a * d) + Rabs (b * c)) <= len3R (0, a, b) * len3R (0, c, d).
Proof.
  pose proof (len3_cs (0, Rabs a, Rabs b) (0, Rabs d, Rabs c)) as H. cbn in H.
  rewrite !Rabs_mult. rewrite Rmult_0_l, Rplus_0_l in H.
  rewrite Rabs_pos_eq in H by (pose proof (Rabs_pos a); pose proof (Rabs_pos b); pose proof (Rabs_pos c); pose proof (Rabs_pos d);
    apply Rplus_le_le_0_compat; apply Rmult_le_pos; assumption).
  eapply Rle_trans; [exact H|]. apply Req_le. unfold len3R. cbn. rewrite <- !sq_abs. f_equal; f_equal; ring.
Qed.
Lemma len_drop a b c : len3R (0, b, c) <= len3R (a, b, c) /\ len3R (0, c, a) <= len3R (a, b, c) /\ len3R (0, a, b) <= len3R (a, b, c).
Proof.
  pose proof (Rle_0_sqr a) as A. pose proof (Rle_0_sqr b) as B. pose proof (Rle_0_sqr c) as C. unfold Rsqr in *.
  repeat split; unfold len3R; apply sqrt_le_1_alt; cbn; lra.
Qed.
(** The two products in each component of a cross product are at most the
    product of the lengths. *)
Lemma cross_terms a b c x y z : let L := len3R (a, b, c) * len3R (x, y, z) in
  Rabs (b * z) + Rabs (c * y) <= L /\ Rabs (c * x) + Rabs (a * z) <= L /\ Rabs (a * y) + Rabs (b * x) <= L.
Proof.
  intros L. destruct (len_drop a b c) as (A & B & C). destruct (len_drop x y z) as (X & Y & Z).
  repeat split; (eapply Rle_trans; [apply cs2|]); unfold L; apply Rmult_le_compat; try apply len3_nonneg; assumption.
Qed.
Lemma cross_one (u e p q f g c : R) : 0 < u <= / 100000 -> 0 <= e -> Rabs (f - 1) <= 201 / 100 * u -> Rabs (g - 1) <= 201 / 100 * u ->
  Rabs (c - (p * f - q * g)) <= 3 * u * (Rabs (p * f) + Rabs (q * g)) + 3 * e ->
  Rabs (c - (p - q)) <= 502 / 100 * u * (Rabs p + Rabs q) + 3 * e.
Proof.
  intros U E F G H. replace (c - (p - q)) with (c - (p * f - q * g) + (p * (f - 1) - q * (g - 1))) by ring.
  eapply Rle_trans; [apply Rabs_triang|].
  assert (K : forall p f, Rabs (f - 1) <= 201 / 100 * u -> Rabs (p * (f - 1)) <= 201 / 100 * u * Rabs p /\ Rabs (p * f) <= (1 + / 1000) * Rabs p).
  { intros p0 f0 F0. split.
    - rewrite Rabs_mult, Rmult_comm. apply Rmult_le_compat_r; [apply Rabs_pos|exact F0].
    - rewrite Rabs_mult, Rmult_comm. apply Rmult_le_compat_r; [apply Rabs_pos|]. apply Rabs_le. apply abs_inv in F0. lra. }
  destruct (K p f F) as (P1 & P2). destruct (K q g G) as (Q1 & Q2).
  assert (T : Rabs (p * (f - 1) - q * (g - 1)) <= 201 / 100 * u * Rabs p + 201 / 100 * u * Rabs q).
  { unfold Rminus at 1. eapply Rle_trans; [apply Rabs_triang|]. rewrite Rabs_Ropp. lra. }
  assert (S1 : 3 * u * (Rabs (p * f) + Rabs (q * g)) <= 3 * u * ((1 + / 1000) * (Rabs p + Rabs q))) by (apply Rmult_le_compat_l; lra).
  assert (S2 : 0 <= u * (Rabs p + Rabs q)) by (apply Rmult_le_pos; [lra|]; pose proof (Rabs_pos p); pose proof (Rabs_pos q); lra).
  lra.
Qed.
Lemma two_factors u d d' : 0 < u <= / 100000 -> Rabs d <= u -> Rabs d' <= u -> Rabs ((1 + d) * (1 + d') - 1) <= 201 / 100 * u.
Proof.
  intros U D D'. replace ((1 + d) * (1 + d') - 1) with (d + d' + d * d') by ring.
  eapply Rle_trans; [apply Rabs_triang|]. assert (Rabs (d * d') <= / 100000 * u).
  { rewrite Rabs_mult. apply Rmult_le_compat; try apply Rabs_pos; lra. }
  pose proof (Rabs_triang d d'). lra.
Qed.

(** The direction of a vector depends on it continuously. *)
Lemma unit_near (N C : V3) : 0 < len3R N -> 0 < len3R C ->
  len3R (sub3 (scale3 (/ len3R C) C) (scale3 (/ len3R N) N)) <= 2 * (len3R (sub3 C N) / len3R N).
Proof.
  intros HN HC. set (n := len3R N) in *. set (c := len3R C) in *.
  assert (E : sub3 (scale3 (/ c) C) (scale3 (/ n) N) = add3 (scale3 (/ n) (sub3 C N)) (scale3 (/ c - / n) C)).
  { destruct N as [[a b] d], C as [[x y] z]. cbn. f_equal; [f_equal|]; ring. }
  rewrite E. eapply Rle_trans; [apply len3_triangle|]. rewrite !len3_scale. fold c.
  rewrite (Rabs_pos_eq (/ n)) by (left; apply Rinv_0_lt_compat; exact HN).
  assert (D : Rabs (/ c - / n) * c <= / n * len3R (sub3 C N)).
  { replace (/ c - / n) with (/ n * ((n - c) * / c)) by (field; lra). rewrite !Rabs_mult, (Rabs_pos_eq (/ n)), (Rabs_pos_eq (/ c)) by (left; apply Rinv_0_lt_compat; assumption).
    replace (/ n * (Rabs (n - c) * / c) * c) with (/ n * Rabs (n - c)) by (field; lra). apply Rmult_le_compat_l; [left; apply Rinv_0_lt_compat; exact HN|].
    pose proof (len_sub_ge C N) as A. pose proof (len_sub_ge N C) as B. rewrite (len_sub_sym N C) in B. fold n c in A, B. apply Rabs_le. lra. }
  unfold Rdiv. lra.
Qed.

Lemma len_cross_le (U W : V3) : len3R (cross3 U W) <= len3R U * len3R W.
Proof.
  apply Rsqr_incr_0_var; [|apply Rmult_le_pos; apply len3_nonneg]. unfold Rsqr. rewrite len3_sq.
  replace (len3R U * len3R W * (len3R U * len3R W)) with (len3R U * len3R U * (len3R W * len3R W)) by ring. rewrite !len3_sq.
  pose proof (Rle_0_sqr (dot3 U W)) as Q. unfold Rsqr in Q.
  replace (dot3 U U * dot3 W W) with (dot3 (cross3 U W) (cross3 U W) + dot3 U W * dot3 U W); [lra|]. destruct U as [[a b] c], W as [[x y] z]. cbn. ring.
Qed.
(** C is the computed cross product, M the computed normal. *)
Lemma normal_core (u e : R) (U W C : V3) :
  0 < u <= / 100000 -> 0 <= e ->
  let N := cross3 U W in let L := len3R U * len3R W in
  let '(cx, cy, cz) := C in let '(nx, ny, nz) := N in
  let '(ux, uy, uz) := U in let '(wx, wy, wz) := W in
  3 * e <= u / 1000 * L ->
  L * u <= len3R N / 400 -> 0 < len3R N ->
  (exists d1 d2 d3 d4, Rabs d1 <= u /\ Rabs d2 <= u /\ Rabs d3 <= u /\ Rabs d4 <= u /\
     let y := uy * (1 + d1) in let z := uz * (1 + d2) in let y' := wy * (1 + d3) in let z' := wz * (1 + d4) in
     Rabs (cx - (y * z' - z * y')) <= 3 * u * (Rabs (y * z') + Rabs (z * y')) + 3 * e) ->
  (exists d1 d2 d3 d4, Rabs d1 <= u /\ Rabs d2 <= u /\ Rabs d3 <= u /\ Rabs d4 <= u /\
     let y := uz * (1 + d1) in let z := ux * (1 + d2) in let y' := wz * (1 + d3) in let z' := wx * (1 + d4) in
     Rabs (cy - (y * z' - z * y')) <= 3 * u * (Rabs (y * z') + Rabs (z * y')) + 3 * e) ->
  (exists d1 d2 d3 d4, Rabs d1 <= u /\ Rabs d2 <= u /\ Rabs d3 <= u /\ Rabs d4 <= u /\
     let y := ux * (1 + d1) in let z := uy * (1 + d2) in let y' := wx * (1 + d3) in let z' := wy * (1 + d4) in
     Rabs (cz - (y * z' - z * y')) <= 3 * u * (Rabs (y * z') + Rabs (z * y')) + 3 * e) ->
  len3R (sub3 C N) <= 88 / 10 * u * L /\ len3R N / 2 <= len3R C.
Proof.
  destruct U as [[ux uy] uz], W as [[wx wy] wz], C as [[cx cy] cz]. intros HU HE N L. cbn [cross3] in N. unfold N at 1. cbv beta iota.
  intros Hs HL HN HX HY HZ.
  destruct (cross_terms ux uy uz wx wy wz) as (T1 & T2 & T3). fold L in T1, T2, T3.
  assert (L0 : 0 <= L) by (unfold L; apply Rmult_le_pos; apply len3_nonneg).
  assert (K : forall c a b a' b', Rabs (a * b') + Rabs (b * a') <= L ->
     (exists d1 d2 d3 d4, Rabs d1 <= u /\ Rabs d2 <= u /\ Rabs d3 <= u /\ Rabs d4 <= u /\
     let y := a * (1 + d1) in let z := b * (1 + d2) in let y' := a' * (1 + d3) in let z' := b' * (1 + d4) in
     Rabs (c - (y * z' - z * y')) <= 3 * u * (Rabs (y * z') + Rabs (z * y')) + 3 * e) ->
     Rabs (c - (a * b' - b * a')) <= 5021 / 1000 * u * L).
  { intros c a b a' b' T (d1 & d2 & d3 & d4 & D1 & D2 & D3 & D4 & H). cbv zeta in H.
    replace (a * (1 + d1) * (b' * (1 + d4))) with (a * b' * ((1 + d1) * (1 + d4))) in H by ring.
    replace (b * (1 + d2) * (a' * (1 + d3))) with (b * a' * ((1 + d2) * (1 + d3))) in H by ring.
    pose proof (cross_one u e _ _ _ _ _ HU HE (two_factors u d1 d4 HU D1 D4) (two_factors u d2 d3 HU D2 D3) H) as B.
    assert (502 / 100 * u * (Rabs (a * b') + Rabs (b * a')) <= 502 / 100 * u * L) by (apply Rmult_le_compat_l; lra). lra. }
  pose proof (K _ _ _ _ _ T1 HX) as B1. pose proof (K _ _ _ _ _ T2 HY) as B2. pose proof (K _ _ _ _ _ T3 HZ) as B3.
  assert (uL : 0 <= u * L) by (apply Rmult_le_pos; lra).
  assert (B : len3R (sub3 (cx, cy, cz) N) <= 88 / 10 * u * L).
  { unfold N. cbn [sub3]. eapply Rle_trans; [apply (len_box _ _ _ (5021 / 1000 * u * L)); try assumption; lra|]. lra. }
  split; [exact B|]. pose proof (len_sub_ge N (cx, cy, cz)) as G. rewrite len_sub_sym in G. fold N in HL, HN |- *. lra.
Qed.

(** The conclusions about the computed normal M. *)
Lemma normal_final (u t : R) (U W C M : V3) : 0 < u <= / 100000 -> 0 <= t <= u / 100 ->
  let N := cross3 U W in let L := len3R U * len3R W in
  0 < len3R N -> L * u <= len3R N / 400 ->
  len3R (sub3 C N) <= 88 / 10 * u * L -> 0 < len3R C ->
  (let '(mx, my, mz) := M in let '(cx, cy, cz) := C in
   Rabs (mx - cx / len3R C) <= 12 * u * Rabs (cx / len3R C) + t /\
   Rabs (my - cy / len3R C) <= 12 * u * Rabs (cy / len3R C) + t /\
   Rabs (mz - cz / len3R C) <= 12 * u * Rabs (cz / len3R C) + t) ->
  len3R (sub3 M (scale3 (/ len3R N) N)) <= 30 * u * (L / len3R N) /\
  Rabs (dot3 M U) <= 30 * u * (L / len3R N) * len3R U /\
  Rabs (dot3 M W) <= 30 * u * (L / len3R N) * len3R W /\
  0 < dot3 M N.
Proof.
  intros HU HT N L HN HL HC C0 HM.
  assert (NL : len3R N <= L) by apply len_cross_le.
  set (X := L / len3R N). assert (X1 : 1 <= X). { unfold X. apply (Rmult_le_reg_r (len3R N)); [exact HN|]. unfold Rdiv. rewrite Rmult_assoc, Rinv_l by lra. lra. }
  assert (D1 : len3R (sub3 (scale3 (/ len3R C) C) (scale3 (/ len3R N) N)) <= 176 / 10 * u * X).
  { eapply Rle_trans; [apply unit_near; assumption|]. unfold X. unfold Rdiv at 1.
    assert (len3R (sub3 C N) * / len3R N <= 88 / 10 * u * L * / len3R N) by (apply Rmult_le_compat_r; [left; apply Rinv_0_lt_compat; exact HN|exact HC]).
    unfold Rdiv in *. lra. }
  assert (D2 : len3R (sub3 M (scale3 (/ len3R C) C)) <= 121 / 10 * u).
  { assert (T : len3R (sub3 M (scale3 (/ len3R C) C)) <= 12 * u * len3R (scale3 (/ len3R C) C) + 7 / 4 * t).
    { destruct M as [[mx my] mz], C as [[cx cy] cz]. set (c := len3R (cx, cy, cz)) in *. cbn [sub3 scale3]. destruct HM as (M1 & M2 & M3).
      unfold Rdiv in M1, M2, M3. rewrite (Rmult_comm cx) in M1. rewrite (Rmult_comm cy) in M2. rewrite (Rmult_comm cz) in M3.
      set (p := / c * cx) in *. set (q := / c * cy) in *. set (r := / c * cz) in *.
      eapply Rle_trans; [apply (len_abs_mono _ _ _ (12 * u * Rabs p + t) (12 * u * Rabs q + t) (12 * u * Rabs r + t))|].
      1-3: eapply Rle_trans; [eassumption|apply Rle_abs].
      replace (12 * u * Rabs p + t, 12 * u * Rabs q + t, 12 * u * Rabs r + t) with (add3 (scale3 (12 * u) (Rabs p, Rabs q, Rabs r)) (t, t, t)) by reflexivity.
      eapply Rle_trans; [apply len3_triangle|]. rewrite len3_scale, (Rabs_pos_eq (12 * u)) by lra. apply Rplus_le_compat.
      - apply Rmult_le_compat_l; [lra|]. apply len_abs_mono; rewrite Rabs_Rabsolu; lra.
      - apply len_box; try lra; rewrite Rabs_pos_eq; lra. }
    rewrite len3_unit in T by lra. lra. }
  assert (D : len3R (sub3 M (scale3 (/ len3R N) N)) <= 30 * u * X).
  { eapply Rle_trans; [apply (len_sub_tri _ (scale3 (/ len3R C) C))|]. assert (u * 1 <= u * X) by (apply Rmult_le_compat_l; lra). lra. }
  split; [exact D|].
  assert (G : forall V : V3, dot3 N V = 0 -> Rabs (dot3 M V) <= 30 * u * X * len3R V).
  { intros V HV. replace (dot3 M V) with (dot3 (sub3 M (scale3 (/ len3R N) N)) V).
    - eapply Rle_trans; [apply len3_cs|]. apply Rmult_le_compat_r; [apply len3_nonneg|exact D].
    - transitivity (dot3 M V - / len3R N * dot3 N V); [|rewrite HV; ring]. set (k := / len3R N). destruct M as [[a b] c], N as [[x y] z], V as [[p q] r]. cbn. ring. }
  split; [apply G; unfold N; destruct U as [[a b] c], W as [[x y] z]; cbn; ring|].
  split; [apply G; unfold N; destruct U as [[a b] c], W as [[x y] z]; cbn; ring|].
  assert (E : dot3 M N = len3R N + dot3 (sub3 M (scale3 (/ len3R N) N)) N).
  { transitivity (/ len3R N * (len3R N * len3R N) + dot3 (sub3 M (scale3 (/ len3R N) N)) N); [|f_equal; field; lra].
    rewrite len3_sq. set (k := / len3R N). destruct M as [[a b] c], N as [[x y] z]. cbn. ring. }
  assert (B : Rabs (dot3 (sub3 M (scale3 (/ len3R N) N)) N) <= / 10 * len3R N).
  { eapply Rle_trans; [apply len3_cs|]. apply Rmult_le_compat_r; [lra|]. eapply Rle_trans; [exact D|].
    assert (u * X <= / 400). { unfold X, Rdiv. apply (Rmult_le_reg_r (len3R N)); [exact HN|]. replace (u * (L * / len3R N) * len3R N) with (L * u) by (field; lra). lra. }
    lra. }
  apply abs_inv in B. lra.
Qed.
