(** Properties C127-C129: quaternions in double precision. *)
From Coq Require Import ZArith Reals Lra Psatz List.
From Flocq Require Import Core.Core IEEE754.BinarySingleNaN IEEE754.Binary IEEE754.Bits.
From Verif Require Import InstF MQuaternion Spec3 PQuaternion PFloat LFloat PFloat2 PFloat3 LErr PCuller3.
Import ListNotations.
Local Open Scope R_scope.
Local Existing Instance F64Scalar.
Local Notation bp := (bpow radix2).
Local Notation mul := (b64_mult mode_NE).
Local Notation add := (b64_plus mode_NE).
Local Notation sub := (b64_minus mode_NE).

(** The quaternion that four doubles x, y, z, w stand for. *)
Definition dquat : Type := (f64 * f64 * f64 * f64)%type.
Definition qv (q : dquat) : Quat := let '(x, y, z, w) := q in (val x, val y, val z, val w).
(** The error bound of one component: 70 half-ulps of |p| |q|. *)
Definition qmargin (p q : Quat) : R := 70 / 2 ^ 53 * (qabsR p * qabsR q) + 40 / 2 ^ 1075.

Lemma real_fprod A1 A2 s1 s2 p B e : 0 < e -> Rabs (A1 * A2) <= B ->
  Rabs (s1 - A1) <= uro * Rabs A1 -> Rabs (s2 - A2) <= uro * Rabs A2 -> Rabs (p - s1 * s2) <= uro * Rabs (s1 * s2) + e ->
  Rabs (p - A1 * A2) <= (3 + / 100) * uro * B + e.
Proof.
  rewrite uro_val. intros EP HB H1 H2 H3. set (u := / 9007199254740992) in *.
  assert (U : 0 < u < / 1000) by (unfold u; lra). clearbody u.
  assert (D : Rabs (s1 * s2 - A1 * A2) <= (2 * u + u * u) * Rabs (A1 * A2)).
  { replace (s1 * s2 - A1 * A2) with ((s1 - A1) * (s2 - A2) + (s1 - A1) * A2 + A1 * (s2 - A2)) by ring.
    eapply Rle_trans; [apply Rabs_triang|]. eapply Rle_trans; [apply Rplus_le_compat_r, Rabs_triang|]. rewrite !Rabs_mult.
    pose proof (Rabs_pos A1). pose proof (Rabs_pos A2). pose proof (Rabs_pos (s1 - A1)). pose proof (Rabs_pos (s2 - A2)).
    assert (Rabs (s1 - A1) * Rabs (s2 - A2) <= (u * Rabs A1) * (u * Rabs A2)) by (apply Rmult_le_compat; assumption).
    assert (Rabs (s1 - A1) * Rabs A2 <= u * Rabs A1 * Rabs A2) by (apply Rmult_le_compat_r; assumption).
    assert (Rabs A1 * Rabs (s2 - A2) <= Rabs A1 * (u * Rabs A2)) by (apply Rmult_le_compat_l; assumption).
    nra. }
  pose proof (abs_tri_err _ _ _ D) as D2. set (X := Rabs (A1 * A2)) in *. assert (X0 : 0 <= X) by apply Rabs_pos.
  replace (p - A1 * A2) with ((p - s1 * s2) + (s1 * s2 - A1 * A2)) by ring. eapply Rle_trans; [apply Rabs_triang|].
  assert (u * Rabs (s1 * s2) <= u * (X + (2 * u + u * u) * X)) by (apply Rmult_le_compat_l; lra).
  assert (U2 : u * u <= u / 1000) by (unfold Rdiv; apply Rmult_le_compat_l; lra).
  assert (U3 : u * u * u <= u / 1000). { apply Rle_trans with (u * u * 1); [apply Rmult_le_compat_l; [apply Rle_0_sqr|lra]|lra]. }
  assert (u * u * X <= u / 1000 * X) by (apply Rmult_le_compat_r; assumption). assert (u * u * u * X <= u / 1000 * X) by (apply Rmult_le_compat_r; assumption).
  assert (u * X <= u * B) by (apply Rmult_le_compat_l; lra). assert (0 <= u * X) by (apply Rmult_le_pos; lra). lra.
Qed.
(** (A1 A2)^2 <= (2 P) (2 Q) = (2 N)^2. *)
Lemma prod_bound A1 A2 P Q N : 0 <= P -> 0 <= Q -> 0 <= N -> N * N = P * Q -> A1 * A1 <= 2 * P -> A2 * A2 <= 2 * Q -> Rabs (A1 * A2) <= 2 * N.
Proof.
  intros HP HQ HN E H1 H2. rewrite <- (Rabs_pos_eq (2 * N)) by lra. apply Rsqr_le_abs_0. unfold Rsqr.
  replace (A1 * A2 * (A1 * A2)) with ((A1 * A1) * (A2 * A2)) by ring. replace (2 * N * (2 * N)) with ((2 * P) * (2 * Q)) by (transitivity (4 * (N * N)); [rewrite E|]; ring).
  apply Rmult_le_compat; try assumption; apply Rle_0_sqr.
Qed.
(** The sums of the product, with N = |p| |q| and error e of an underflow. *)
Lemma real_sums (T0 T4 T5 T6 T7 TA N e t4 t5 t6 t7 ta s8 t8 s9 t9 sa ra t8' : R) :
  0 <= N -> 0 < e ->
  Rabs T4 <= 2 * N -> Rabs T5 <= 2 * N -> Rabs T6 <= 2 * N -> Rabs T7 <= 2 * N -> Rabs TA <= 2 * N ->
  let b := (3 + / 100) * uro * (2 * N) + e in
  Rabs (t4 - T4) <= b -> Rabs (t5 - T5) <= b -> Rabs (t6 - T6) <= b -> Rabs (t7 - T7) <= b -> Rabs (ta - TA) <= b ->
  Rabs (s8 - (t5 + t6)) <= uro * Rabs (t5 + t6) -> Rabs (t8 - (s8 + t7)) <= uro * Rabs (s8 + t7) ->
  Rabs (s9 - (t4 + t8)) <= uro * Rabs (t4 + t8) -> Rabs (t9 - / 2 * s9) <= uro * Rabs (/ 2 * s9) + e ->
  Rabs (sa - (ta + t9)) <= uro * Rabs (ta + t9) ->
  (t8' = t5 /\ T0 = T5) \/ (t8' = t6 /\ T0 = T6) \/ (t8' = t7 /\ T0 = T7) \/ (t8' = t8 /\ T0 = T5 + T6 + T7) ->
  Rabs (TA + / 2 * (T4 + (T5 + T6 + T7)) - T0) <= N ->
  Rabs (ra - (sa - t8')) <= uro * Rabs (sa - t8') ->
  Rabs (ra - (TA + / 2 * (T4 + (T5 + T6 + T7)) - T0)) <= 70 * uro * N + 40 * e.
Proof.
  rewrite uro_val. intros HN He B4 B5 B6 B7 BA b E4 E5 E6 E7 EA S8 S8' S9 S9' SA HC HR RA. unfold b in *.
  assert (F8 : Rabs (s8 - (T5 + T6)) <= (16 + / 4) * / 9007199254740992 * N + 3 * e).
  { assert (Rabs (t5 + t6) <= 4 * N + / 100 * N + 3 * e). { apply Rabs_le_inv in B5, B6, E5, E6. apply Rabs_le. lra. }
    apply Rabs_le_inv in E5, E6, S8. apply Rabs_le. lra. }
  assert (F8' : Rabs (t8 - (T5 + T6 + T7)) <= (28 + / 2) * / 9007199254740992 * N + 5 * e).
  { assert (Rabs (s8 + t7) <= 6 * N + / 100 * N + 5 * e). { apply Rabs_le_inv in B5, B6, B7, F8, E7. apply Rabs_le. lra. }
    apply Rabs_le_inv in F8, E7, S8'. apply Rabs_le. lra. }
  assert (F9 : Rabs (s9 - (T4 + (T5 + T6 + T7))) <= (42 + 3 / 4) * / 9007199254740992 * N + 7 * e).
  { assert (Rabs (t4 + t8) <= 8 * N + / 100 * N + 7 * e). { apply Rabs_le_inv in B4, B5, B6, B7, F8', E4. apply Rabs_le. lra. }
    apply Rabs_le_inv in F8', E4, S9. apply Rabs_le. lra. }
  assert (F9' : Rabs (t9 - / 2 * (T4 + (T5 + T6 + T7))) <= (25 + / 2) * / 9007199254740992 * N + 5 * e).
  { assert (Rabs (/ 2 * s9) <= 4 * N + / 100 * N + 7 * e). { apply Rabs_le_inv in B4, B5, B6, B7, F9. apply Rabs_le. lra. }
    apply Rabs_le_inv in F9, S9'. apply Rabs_le. lra. }
  assert (FA : Rabs (sa - (TA + / 2 * (T4 + (T5 + T6 + T7)))) <= (37 + 3 / 4) * / 9007199254740992 * N + 7 * e).
  { assert (Rabs (ta + t9) <= 6 * N + / 100 * N + 7 * e). { apply Rabs_le_inv in B4, B5, B6, B7, BA, F9', EA. apply Rabs_le. lra. }
    apply Rabs_le_inv in F9', EA, SA. apply Rabs_le. lra. }
  assert (F8c : Rabs (t8' - T0) <= (28 + / 2) * / 9007199254740992 * N + 5 * e).
  { destruct HC as [(-> & ->)|[(-> & ->)|[(-> & ->)|(-> & ->)]]]; [| | |exact F8']; eapply Rle_trans; try eassumption; lra. }
  assert (Rabs (sa - t8') <= N + / 100 * N + 12 * e). { apply Rabs_le_inv in HR, FA, F8c. apply Rabs_le. lra. }
  apply Rabs_le_inv in FA, F8c, RA. apply Rabs_le. lra.
Qed.
Lemma fprod_ok i (f g : f64 -> f64 -> f64) (F G : R -> R -> R) a b c d B :
  (forall x y, okf i x -> okf i y -> okf (i + 1) (f x y) /\ Rabs (val (f x y) - F (val x) (val y)) <= uro * Rabs (F (val x) (val y))) ->
  (forall x y, okf i x -> okf i y -> okf (i + 1) (g x y) /\ Rabs (val (g x y) - G (val x) (val y)) <= uro * Rabs (G (val x) (val y))) ->
  (0 <= i <= 400)%Z -> okf i a -> okf i b -> okf i c -> okf i d ->
  Rabs (F (val a) (val b) * G (val c) (val d)) <= B ->
  okf (2 * i + 2) (mul (f a b) (g c d)) /\
  Rabs (val (mul (f a b) (g c d)) - F (val a) (val b) * G (val c) (val d)) <= (3 + / 100) * uro * B + eta.
Proof.
  intros Hf Hg Hi Ha Hb Hc Hd HB. destruct (Hf a b Ha Hb) as (O1 & E1). destruct (Hg c d Hc Hd) as (O2 & E2).
  destruct (okf_mult (i + 1) (i + 1) (2 * i + 2) (f a b) (g c d) O1 O2 ltac:(lia) ltac:(lia)) as (O3 & E3).
  split; [exact O3|]. exact (real_fprod _ _ _ _ _ _ _ eta_pos HB E1 E2 E3).
Qed.
Lemma plus_ok i x y : (0 <= i <= 1000)%Z -> okf i x -> okf i y -> okf (i + 1) (add x y) /\ Rabs (val (add x y) - (val x + val y)) <= uro * Rabs (val x + val y).
Proof. intros Hi Hx Hy. exact (okf_plus i (i + 1) x y Hx Hy eq_refl ltac:(lia)). Qed.
Lemma minus_ok i x y : (0 <= i <= 1000)%Z -> okf i x -> okf i y -> okf (i + 1) (sub x y) /\ Rabs (val (sub x y) - (val x - val y)) <= uro * Rabs (val x - val y).
Proof. intros Hi Hx Hy. exact (okf_minus i (i + 1) x y Hx Hy eq_refl ltac:(lia)). Qed.

Definition qmul64 (p q : dquat) : dquat :=
  let '(b, c, d, a) := p in let '(y, z, w, x) := q in
  let t00 := mul (sub d c) (sub z w) in
  let t01 := mul (add a b) (add x y) in
  let t02 := mul (sub a b) (add z w) in
  let t03 := mul (add c d) (sub x y) in
  let t04 := mul (sub d b) (sub y z) in
  let t05 := mul (add d b) (add y z) in
  let t06 := mul (add a c) (sub x w) in
  let t07 := mul (sub a c) (add x w) in
  let t08 := add (add t05 t06) t07 in
  let t09 := mul f64_half (add t04 t08) in
  (sub (add t01 t09) t08, sub (add t02 t09) t07, sub (add t03 t09) t06, sub (add t00 t09) t05).
Lemma q_mul_64 p q : q_mul (arr p) (arr q) = Ok (arr (qmul64 p q)).
Proof. destruct p as [[[? ?] ?] ?], q as [[[? ?] ?] ?]. reflexivity. Qed.
Definition qeach (P : f64 -> Prop) (q : dquat) : Prop := let '(x, y, z, w) := q in P x /\ P y /\ P z /\ P w.
Definition qnear (q : dquat) (r : Quat) (e : R) : Prop :=
  let '(x, y, z, w) := q in let '(x', y', z', w') := r in
  Rabs (val x - x') <= e /\ Rabs (val y - y') <= e /\ Rabs (val z - z') <= e /\ Rabs (val w - w') <= e.
Lemma qabs_sq p : qabsR p * qabsR p = qdotR p p.
Proof. unfold qabsR. apply sqrt_sqrt, qdot_nonneg. Qed.
Lemma qabs_pos p : 0 <= qabsR p.
Proof. apply sqrt_pos. Qed.
Lemma comp_le p : let '(x, y, z, w) := p in Rabs x <= qabsR p /\ Rabs y <= qabsR p /\ Rabs z <= qabsR p /\ Rabs w <= qabsR p.
Proof.
  destruct p as [[[x y] z] w]. pose proof (qabs_sq (x, y, z, w)) as E. pose proof (qabs_pos (x, y, z, w)) as P. set (n := qabsR (x, y, z, w)) in *. cbn in E.
  assert (H : forall t, t * t <= n * n -> Rabs t <= n). { intros t Ht. rewrite <- (Rabs_pos_eq n) by exact P. apply Rsqr_le_abs_0. exact Ht. }
  repeat split; apply H; rewrite E; pose proof (Rle_0_sqr x); pose proof (Rle_0_sqr y); pose proof (Rle_0_sqr z); pose proof (Rle_0_sqr w); unfold Rsqr in *; lra.
Qed.
Lemma qmul_err p q i : (0 <= i <= 400)%Z -> qeach (okf i) p -> qeach (okf i) q ->
  qeach (okf (2 * i + 8)) (qmul64 p q) /\ qnear (qmul64 p q) (qmulR (qv p) (qv q)) (70 * uro * (qabsR (qv p) * qabsR (qv q)) + 40 * eta).
Proof.
  intros Hi. destruct p as [[[b c] d] a], q as [[[y z] w] x]. intros (Ob & Oc & Od & Oa) (Oy & Oz & Ow & Ox). unfold qmul64.
  set (N := qabsR (qv (b, c, d, a)) * qabsR (qv (y, z, w, x))).
  set (P := qdotR (qv (b, c, d, a)) (qv (b, c, d, a))). set (Q := qdotR (qv (y, z, w, x)) (qv (y, z, w, x))).
  assert (EN : N * N = P * Q). { unfold N, P, Q. rewrite <- !qabs_sq. ring. }
  assert (N0 : 0 <= N) by (apply Rmult_le_pos; apply qabs_pos).
  assert (P0 : 0 <= P) by apply qdot_nonneg. assert (Q0 : 0 <= Q) by apply qdot_nonneg.
  assert (BD : forall A1 A2, A1 * A1 <= 2 * P -> A2 * A2 <= 2 * Q -> Rabs (A1 * A2) <= 2 * N) by (intros A1 A2; apply prod_bound; assumption).
  assert (PE : P = val b * val b + val c * val c + val d * val d + val a * val a) by reflexivity.
  assert (QE : Q = val y * val y + val z * val z + val w * val w + val x * val x) by reflexivity.
  pose proof (fun x y => plus_ok i x y ltac:(lia)) as PI. pose proof (fun x y => minus_ok i x y ltac:(lia)) as MI.
  assert (SQ : forall u v s t, (u + v) * (u + v) <= 2 * (u * u + v * v + s * s + t * t) /\ (u - v) * (u - v) <= 2 * (u * u + v * v + s * s + t * t)).
  { intros u v s t. pose proof (Rle_0_sqr (u - v)). pose proof (Rle_0_sqr (u + v)). pose proof (Rle_0_sqr s). pose proof (Rle_0_sqr t). unfold Rsqr in *. split; lra. }
  assert (B0 : Rabs ((val d - val c) * (val z - val w)) <= 2 * N) by (apply BD; [eapply Rle_trans; [apply (SQ _ _ (val a) (val b))|]|eapply Rle_trans; [apply (SQ _ _ (val x) (val y))|]]; rewrite ?PE, ?QE; lra).
  assert (B1 : Rabs ((val a + val b) * (val x + val y)) <= 2 * N) by (apply BD; [eapply Rle_trans; [apply (SQ _ _ (val c) (val d))|]|eapply Rle_trans; [apply (SQ _ _ (val z) (val w))|]]; rewrite ?PE, ?QE; lra).
  assert (B2 : Rabs ((val a - val b) * (val z + val w)) <= 2 * N) by (apply BD; [eapply Rle_trans; [apply (SQ _ _ (val c) (val d))|]|eapply Rle_trans; [apply (SQ _ _ (val x) (val y))|]]; rewrite ?PE, ?QE; lra).
  assert (B3 : Rabs ((val c + val d) * (val x - val y)) <= 2 * N) by (apply BD; [eapply Rle_trans; [apply (SQ _ _ (val a) (val b))|]|eapply Rle_trans; [apply (SQ _ _ (val z) (val w))|]]; rewrite ?PE, ?QE; lra).
  assert (B4 : Rabs ((val d - val b) * (val y - val z)) <= 2 * N) by (apply BD; [eapply Rle_trans; [apply (SQ _ _ (val a) (val c))|]|eapply Rle_trans; [apply (SQ _ _ (val x) (val w))|]]; rewrite ?PE, ?QE; lra).
  assert (B5 : Rabs ((val d + val b) * (val y + val z)) <= 2 * N) by (apply BD; [eapply Rle_trans; [apply (SQ _ _ (val a) (val c))|]|eapply Rle_trans; [apply (SQ _ _ (val x) (val w))|]]; rewrite ?PE, ?QE; lra).
  assert (B6 : Rabs ((val a + val c) * (val x - val w)) <= 2 * N) by (apply BD; [eapply Rle_trans; [apply (SQ _ _ (val b) (val d))|]|eapply Rle_trans; [apply (SQ _ _ (val y) (val z))|]]; rewrite ?PE, ?QE; lra).
  assert (B7 : Rabs ((val a - val c) * (val x + val w)) <= 2 * N) by (apply BD; [eapply Rle_trans; [apply (SQ _ _ (val b) (val d))|]|eapply Rle_trans; [apply (SQ _ _ (val y) (val z))|]]; rewrite ?PE, ?QE; lra).
  destruct (fprod_ok i _ _ Rminus Rminus d c z w _ MI MI Hi Od Oc Oz Ow B0) as (K0 & E0). set (t00 := mul (sub d c) (sub z w)) in *.
  destruct (fprod_ok i _ _ Rplus Rplus a b x y _ PI PI Hi Oa Ob Ox Oy B1) as (K1 & E1). set (t01 := mul (add a b) (add x y)) in *.
  destruct (fprod_ok i _ _ Rminus Rplus a b z w _ MI PI Hi Oa Ob Oz Ow B2) as (K2 & E2). set (t02 := mul (sub a b) (add z w)) in *.
  destruct (fprod_ok i _ _ Rplus Rminus c d x y _ PI MI Hi Oc Od Ox Oy B3) as (K3 & E3). set (t03 := mul (add c d) (sub x y)) in *.
  destruct (fprod_ok i _ _ Rminus Rminus d b y z _ MI MI Hi Od Ob Oy Oz B4) as (K4 & E4). set (t04 := mul (sub d b) (sub y z)) in *.
  destruct (fprod_ok i _ _ Rplus Rplus d b y z _ PI PI Hi Od Ob Oy Oz B5) as (K5 & E5). set (t05 := mul (add d b) (add y z)) in *.
  destruct (fprod_ok i _ _ Rplus Rminus a c x w _ PI MI Hi Oa Oc Ox Ow B6) as (K6 & E6). set (t06 := mul (add a c) (sub x w)) in *.
  destruct (fprod_ok i _ _ Rminus Rplus a c x w _ MI PI Hi Oa Oc Ox Ow B7) as (K7 & E7). set (t07 := mul (sub a c) (add x w)) in *.
  set (k := (2 * i + 2)%Z) in *. assert (Hk : (2 <= k <= 802)%Z) by lia.
  destruct (plus_ok k t05 t06 ltac:(lia) K5 K6) as (K8 & E8). set (s8 := add t05 t06) in *.
  destruct (plus_ok (k + 1) s8 t07 ltac:(lia) K8 (okf_le k (k + 1) _ K7 ltac:(lia))) as (K8' & E8'). set (t08 := add s8 t07) in *.
  destruct (plus_ok (k + 1 + 1) t04 t08 ltac:(lia) (okf_le k (k + 1 + 1) _ K4 ltac:(lia)) K8') as (K9 & E9). set (s9 := add t04 t08) in *.
  assert (OH : okf 0 f64_half) by (apply (okf_const _ (/ 2)); [reflexivity|exact val_half|rewrite Rabs_pos_eq by lra; cbn; lra]).
  destruct (okf_mult 0 (k + 1 + 1 + 1) (k + 1 + 1 + 1) f64_half s9 OH K9 ltac:(lia) ltac:(lia)) as (K9' & E9'). rewrite val_half in E9'. set (t09 := mul f64_half s9) in *.
  pose proof (comp_le (qmulR (qv (b, c, d, a)) (qv (y, z, w, x)))) as CL. rewrite qabs_mul in CL. fold N in CL.
  unfold qmulR, qv in CL |- *. destruct CL as (CLx & CLy & CLz & CLw).
  assert (FIN : forall tA TA tB TB R0, okf k tA -> okf (k + 1 + 1) tB -> Rabs TA <= 2 * N -> Rabs (val tA - TA) <= (3 + / 100) * uro * (2 * N) + eta ->
    (val tB = val t05 /\ TB = (val d + val b) * (val y + val z)) \/ (val tB = val t06 /\ TB = (val a + val c) * (val x - val w)) \/
    (val tB = val t07 /\ TB = (val a - val c) * (val x + val w)) \/
    (val tB = val t08 /\ TB = (val d + val b) * (val y + val z) + (val a + val c) * (val x - val w) + (val a - val c) * (val x + val w)) ->
    R0 = TA + / 2 * ((val d - val b) * (val y - val z) + ((val d + val b) * (val y + val z) + (val a + val c) * (val x - val w) + (val a - val c) * (val x + val w))) - TB ->
    Rabs R0 <= N -> okf (2 * i + 8) (sub (add tA t09) tB) /\ Rabs (val (sub (add tA t09) tB) - R0) <= 70 * uro * N + 40 * eta).
  { intros tA TA tB TB R0 OA OB BA EA HC -> HR.
    destruct (plus_ok (k + 1 + 1 + 1) tA t09 ltac:(lia) (okf_le k (k + 1 + 1 + 1) _ OA ltac:(lia)) K9') as (KS & ES).
    destruct (minus_ok (k + 1 + 1 + 1 + 1) (add tA t09) tB ltac:(lia) KS (okf_le (k + 1 + 1) (k + 1 + 1 + 1 + 1) _ OB ltac:(lia))) as (KR & ER).
    split; [apply (okf_le (k + 1 + 1 + 1 + 1 + 1)); [exact KR|lia]|].
    exact (real_sums TB _ _ _ _ TA N eta _ _ _ _ _ _ _ _ _ _ _ _ N0 eta_pos B4 B5 B6 B7 BA E4 E5 E6 E7 EA E8 E8' E9 E9' ES HC HR ER). }
  destruct (FIN t01 _ t08 _ (val a * val y + val b * val x + val c * val w - val d * val z) K1 K8' B1 E1 ltac:(right; right; right; split; reflexivity) ltac:(lra) CLx) as (R1 & R1').
  destruct (FIN t02 _ t07 _ (val a * val z - val b * val w + val c * val x + val d * val y) K2 (okf_le k (k + 1 + 1) _ K7 ltac:(lia)) B2 E2 ltac:(right; right; left; split; reflexivity) ltac:(lra) CLy) as (R2 & R2').
  destruct (FIN t03 _ t06 _ (val a * val w + val b * val z - val c * val y + val d * val x) K3 (okf_le k (k + 1 + 1) _ K6 ltac:(lia)) B3 E3 ltac:(right; left; split; reflexivity) ltac:(lra) CLz) as (R3 & R3').
  destruct (FIN t00 _ t05 _ (val a * val x - val b * val y - val c * val z - val d * val w) K0 (okf_le k (k + 1 + 1) _ K5 ltac:(lia)) B0 E0 ltac:(left; split; reflexivity) ltac:(lra) CLw) as (R4 & R4').
  split; [exact (conj R1 (conj R2 (conj R3 R4)))|exact (conj R1' (conj R2' (conj R3' R4')))].
Qed.

(** C127: operator* of two double quaternions with components of at most 2^400
    returns finite numbers, each within 70 half-ulps of |p| |q| of the component
    of the exact product. *)
Theorem C127_product_error :
  forall p q : dquat, qeach sane p -> qeach sane q ->
  exists r, q_mul (arr p) (arr q) = Ok (arr r) /\ qeach fin r /\
  qnear r (qmulR (qv p) (qv q)) (qmargin (qv p) (qv q)).
Proof.
  intros p q Hp Hq. exists (qmul64 p q). split; [apply q_mul_64|].
  destruct (qmul_err p q 400 ltac:(lia)) as (O & E).
  { destruct p as [[[? ?] ?] ?]. destruct Hp as (A & B & C & D). repeat split; try apply sane_okf; try assumption; apply A. }
  { destruct q as [[[? ?] ?] ?]. destruct Hq as (A & B & C & D). repeat split; try apply sane_okf; try assumption; apply A. }
  split.
  - destruct (qmul64 p q) as [[[? ?] ?] ?]. destruct O as (A & B & C & D). repeat split; [apply A|apply B|apply C|apply D].
  - exact E.
Qed.
Print Assumptions C127_product_error.

(** ** Norms *)
Lemma qcs a b : Rabs (qdotR a b) <= qabsR a * qabsR b.
Proof.
  assert (E : qabsR (qconjR a) = qabsR a) by (unfold qabsR; f_equal; destruct a as [[[? ?] ?] ?]; cbn; ring).
  rewrite <- E, <- qabs_mul. pose proof (comp_le (qmulR (qconjR a) b)) as C. destruct a as [[[x y] z] w], b as [[[x' y'] z'] w']. cbn [qmulR qconjR] in C |- *. destruct C as (_ & _ & _ & C).
  eapply Rle_trans; [|exact C]. right. f_equal. cbn. ring.
Qed.
Lemma qtri a b : qabsR (qaddR a b) <= qabsR a + qabsR b.
Proof.
  pose proof (qabs_pos a). pose proof (qabs_pos b). pose proof (qabs_pos (qaddR a b)).
  apply Rsqr_incr_0; [|assumption|lra]. unfold Rsqr. rewrite qabs_sq.
  replace (qdotR (qaddR a b) (qaddR a b)) with (qdotR a a + 2 * qdotR a b + qdotR b b) by (destruct a as [[[? ?] ?] ?], b as [[[? ?] ?] ?]; cbn; ring).
  rewrite <- !qabs_sq. pose proof (qcs a b) as C. pose proof (Rle_abs (qdotR a b)). lra.
Qed.
Lemma qtri_sub a b c : qabsR (qsubR a c) <= qabsR (qsubR a b) + qabsR (qsubR b c).
Proof.
  replace (qsubR a c) with (qaddR (qsubR a b) (qsubR b c)); [apply qtri|]. destruct a as [[[? ?] ?] ?], b as [[[? ?] ?] ?], c as [[[? ?] ?] ?]. cbn. repeat apply pair_eq; ring.
Qed.
Lemma qabs_diff a b : Rabs (qabsR a - qabsR b) <= qabsR (qsubR a b).
Proof.
  pose proof (qtri (qsubR a b) b) as H1. pose proof (qtri (qsubR b a) a) as H2.
  assert (E1 : qaddR (qsubR a b) b = a) by (destruct a as [[[? ?] ?] ?], b as [[[? ?] ?] ?]; cbn; repeat apply pair_eq; ring).
  assert (E2 : qaddR (qsubR b a) a = b) by (destruct a as [[[? ?] ?] ?], b as [[[? ?] ?] ?]; cbn; repeat apply pair_eq; ring).
  assert (E3 : qabsR (qsubR b a) = qabsR (qsubR a b)) by (unfold qabsR; f_equal; destruct a as [[[? ?] ?] ?], b as [[[? ?] ?] ?]; cbn; ring).
  rewrite E1 in H1. rewrite E2, E3 in H2. apply Rabs_le. lra.
Qed.
Lemma near_abs q r e : 0 <= e -> qnear q r e -> qabsR (qsubR (qv q) r) <= 2 * e.
Proof.
  intros He. destruct q as [[[a b] c] d], r as [[[x y] z] w]. intros (H1 & H2 & H3 & H4). unfold qv, qsubR.
  apply Rsqr_incr_0; [|apply qabs_pos|lra]. unfold Rsqr. rewrite qabs_sq. cbn [qdotR].
  assert (S : forall t, Rabs t <= e -> t * t <= e * e). { intros t Ht. rewrite <- (Rabs_pos_eq e) in Ht by exact He. apply Rsqr_le_abs_1 in Ht. exact Ht. }
  apply S in H1, H2, H3, H4. lra.
Qed.
(** One product, with the underflow absorbed. *)
Lemma qmul_norm_err p q i : (0 <= i <= 400)%Z -> qeach (okf i) p -> qeach (okf i) q -> bp (-900) <= qabsR (qv p) * qabsR (qv q) ->
  qabsR (qsubR (qv (qmul64 p q)) (qmulR (qv p) (qv q))) <= 141 * uro * (qabsR (qv p) * qabsR (qv q)).
Proof.
  intros Hi Hp Hq HN. destruct (qmul_err p q i Hi Hp Hq) as (_ & E). set (N := qabsR (qv p) * qabsR (qv q)) in *.
  assert (N0 : 0 <= N) by (unfold N; apply Rmult_le_pos; apply qabs_pos). pose proof uro_pos. pose proof eta_pos.
  assert (B0 : 0 <= 70 * uro * N + 40 * eta). { apply Rplus_le_le_0_compat; [|lra]. apply Rmult_le_pos; lra. }
  pose proof (near_abs _ _ _ B0 E) as NA. eapply Rle_trans; [exact NA|].
  assert (80 * eta <= uro * N); [|lra]. apply Rle_trans with (uro * bp (-900)); [|apply Rmult_le_compat_l; lra].
  rewrite <- eta_bpow. change uro with (/ 2 ^ 53). replace (/ 2 ^ 53) with (bp (-53)) by (cbn; lra).
  apply Rle_trans with (bp 7 * bp (-1074)); [pose proof (bpow_ge_0 radix2 (-1074)); change (bp 7) with 128; lra|].
  rewrite <- !bpow_plus. apply bpow_le. lia.
Qed.
(** C127: the length of a product. *)
Theorem C127_length_of_product :
  forall p q r : dquat, qeach sane p -> qeach sane q -> / 2 ^ 900 <= qabsR (qv p) * qabsR (qv q) ->
  q_mul (arr p) (arr q) = Ok (arr r) ->
  Rabs (qabsR (qv r) - qabsR (qv p) * qabsR (qv q)) <= 141 / 2 ^ 53 * (qabsR (qv p) * qabsR (qv q)).
Proof.
  intros p q r Hp Hq HN E. rewrite q_mul_64 in E.
  assert (ER : qmul64 p q = r). { destruct (qmul64 p q) as [[[? ?] ?] ?], r as [[[? ?] ?] ?]. cbn in E. congruence. } subst r.
  rewrite <- qabs_mul at 1. eapply Rle_trans; [apply qabs_diff|]. apply (qmul_norm_err p q 400); [lia| | |].
  - destruct p as [[[? ?] ?] ?]. destruct Hp as (A & B & C & D). repeat split; try apply sane_okf; try assumption; apply A.
  - destruct q as [[[? ?] ?] ?]. destruct Hq as (A & B & C & D). repeat split; try apply sane_okf; try assumption; apply A.
  - eapply Rle_trans; [|exact HN]. right. exact (eq_trans (bpow_opp radix2 900) (f_equal Rinv (bpow_pow 900))).
Qed.
Print Assumptions C127_length_of_product.

(** C127: multiplying by the identity is not the identity in double precision:
    the eight-multiplication scheme cancels, and the x component 2^-60 of the
    quaternion (2^-60, 0, 0, 1) is lost on either side. *)
Definition f64_tiny : f64 := b64_of_bits 0x3C30000000000000.
Theorem C127_identity_refuted :
  bitsl (q_mul q_IDENTITY [f64_tiny; f64_zero; f64_zero; f64_one]) = Some [0; 0; 0; 0x3FF0000000000000]%Z /\
  bitsl (q_mul [f64_tiny; f64_zero; f64_zero; f64_one] q_IDENTITY) = Some [0; 0; 0; 0x3FF0000000000000]%Z /\
  q_mul q_IDENTITY [f64_tiny; f64_zero; f64_zero; f64_one] <> Ok [f64_tiny; f64_zero; f64_zero; f64_one] /\
  val f64_tiny = / 2 ^ 60.
Proof.
  assert (A : bitsl (q_mul q_IDENTITY [f64_tiny; f64_zero; f64_zero; f64_one]) = Some [0; 0; 0; 0x3FF0000000000000]%Z) by (vm_compute; reflexivity).
  split; [exact A|]. split; [vm_compute; reflexivity|]. split.
  - intros H. rewrite H in A. apply (f_equal (fun o => match o with Some l => nth 0 l 0%Z | None => 0%Z end)) in A. vm_compute in A. discriminate A.
  - assert (E : B2FF 53 1024 f64_tiny = F754_finite false 4503599627370496 (-112)) by reflexivity.
    unfold val. destruct f64_tiny as [s|s|s p0 H0|s m e H]; try discriminate E. injection E as -> -> ->. cbn. unfold F2R. cbn. lra.
Qed.
Print Assumptions C127_identity_refuted.

(** ** A chain of products *)
(** q *= r for every r of the list, in order. *)
Fixpoint chain (q : list f64) (rs : list dquat) : res (list f64) :=
  match rs with [] => Ok q | r :: rs => q <- q_mul_assign q (Val (arr r)) ;; chain q rs end.
(** The exact product. *)
Definition chainR (q : Quat) (rs : list dquat) : Quat := fold_left (fun q r => qmulR q (qv r)) rs q.
Definition in_mid (x : R) : Prop := / 2 ^ 300 <= x <= 2 ^ 300.
Definition K : R := 141 * uro.
Lemma K_pos : 0 < K. Proof. unfold K. pose proof uro_pos. lra. Qed.
Lemma qeach_okf q i : qeach fin q -> qabsR (qv q) <= bp i -> qeach (okf i) q.
Proof.
  intros F H. pose proof (comp_le (qv q)) as C. destruct q as [[[a b] c] d]. destruct F as (F1 & F2 & F3 & F4), C as (C1 & C2 & C3 & C4).
  split; [|split; [|split]]; (split; [assumption|lra]).
Qed.
Lemma P300 : 2 ^ 300 = bp 300.
Proof. exact (eq_sym (bpow_pow 300)). Qed.
Lemma P300' : / 2 ^ 300 = bp (-300).
Proof. rewrite P300. exact (eq_sym (bpow_opp radix2 300)). Qed.
Lemma chain_err rs : forall (q : dquat) (Q : Quat) (n : nat),
  qeach fin q -> qabsR (qsubR (qv q) Q) <= ((1 + K) ^ n - 1) * qabsR Q -> (1 + K) ^ (n + length rs) <= 3 / 2 ->
  (forall r, In r rs -> qeach fin r /\ in_mid (qabsR (qv r))) ->
  (forall k, (k <= length rs)%nat -> in_mid (qabsR (chainR Q (firstn k rs)))) ->
  exists q', chain (arr q) rs = Ok (arr q') /\ qeach fin q' /\
  qabsR (qsubR (qv q') (chainR Q rs)) <= ((1 + K) ^ (n + length rs) - 1) * qabsR (chainR Q rs).
Proof.
  induction rs as [|r rs IH]; intros q Q n F E HK HR HQ.
  - exists q. split; [reflexivity|]. split; [exact F|]. cbn [length chainR fold_left]. rewrite Nat.add_0_r. exact E.
  - cbn [chain]. change (q_mul_assign (arr q) (Val (arr r))) with (q_mul (arr q) (arr r)). rewrite q_mul_64. cbn [bind].
    destruct (HR r (or_introl eq_refl)) as (Fr & Mr). pose proof (HQ 0%nat ltac:(lia)) as MQ. cbn [firstn chainR fold_left] in MQ.
    unfold in_mid in Mr, MQ. rewrite P300', P300 in Mr, MQ. pose proof K_pos as KP.
    assert (Kn : 1 <= (1 + K) ^ n <= 3 / 2).
    { split; [apply pow_R1_Rle; lra|]. eapply Rle_trans; [|exact HK]. apply Rle_pow; [lra|lia]. }
    set (g := (1 + K) ^ n) in *. set (NQ := qabsR Q) in *. set (Nr := qabsR (qv r)) in *.
    pose proof (qabs_diff (qv q) Q) as D. fold NQ in D. pose proof (bpow_gt_0 radix2 (-300)) as B3.
    assert (NQ0 : 0 < NQ) by lra. assert (Nr0 : 0 < Nr) by lra.
    assert (Nq : / 2 * NQ <= qabsR (qv q) <= g * NQ). { apply Rabs_le_inv in D. assert (g * NQ <= 3 / 2 * NQ) by (apply Rmult_le_compat_r; lra). lra. }
    assert (O1 : qeach (okf 301) q). { apply qeach_okf; [exact F|]. change 301%Z with (300 + 1)%Z. rewrite bpow_plus. change (bp 1) with 2. assert (g * NQ <= 3 / 2 * NQ) by (apply Rmult_le_compat_r; lra). lra. }
    assert (O2 : qeach (okf 301) r). { apply qeach_okf; [exact Fr|]. fold Nr. change 301%Z with (300 + 1)%Z. rewrite bpow_plus. change (bp 1) with 2. lra. }
    assert (NL : bp (-900) <= qabsR (qv q) * qabsR (qv r)).
    { fold Nr. apply Rle_trans with (bp (-301) * bp (-300)); [rewrite <- bpow_plus; apply bpow_le; lia|].
      apply Rmult_le_compat; try apply bpow_ge_0; [|lra]. change (-301)%Z with (-300 + -1)%Z. rewrite bpow_plus. change (bp (-1)) with (/ 2). lra. }
    pose proof (qmul_norm_err q r 301 ltac:(lia) O1 O2 NL) as M. fold Nr in M. fold K in M.
    destruct (qmul_err q r 301 ltac:(lia) O1 O2) as (OO & _).
    assert (F' : qeach fin (qmul64 q r)). { destruct (qmul64 q r) as [[[? ?] ?] ?]. destruct OO as (A & B & C & D'). repeat split; [apply A|apply B|apply C|apply D']. }
    assert (SM : qabsR (qsubR (qmulR (qv q) (qv r)) (qmulR Q (qv r))) = qabsR (qsubR (qv q) Q) * Nr).
    { unfold Nr. rewrite <- qabs_mul. f_equal. destruct (qv q) as [[[? ?] ?] ?], Q as [[[? ?] ?] ?], (qv r) as [[[? ?] ?] ?]. cbn. repeat apply pair_eq; ring. }
    destruct (IH (qmul64 q r) (qmulR Q (qv r)) (S n)) as (q' & E1 & E2 & E3).
    + exact F'.
    + rewrite qabs_mul. fold NQ Nr. cbn [pow]. fold g. eapply Rle_trans; [apply (qtri_sub _ (qmulR (qv q) (qv r)))|]. rewrite SM.
      assert (K * (qabsR (qv q) * Nr) <= K * (g * NQ * Nr)) by (apply Rmult_le_compat_l; [lra|]; apply Rmult_le_compat_r; lra).
      assert (qabsR (qsubR (qv q) Q) * Nr <= (g - 1) * NQ * Nr) by (apply Rmult_le_compat_r; lra). unfold K in *. lra.
    + cbn [length] in HK. replace (S n + length rs)%nat with (n + S (length rs))%nat by lia. exact HK.
    + intros r' Hr'. apply HR. right. exact Hr'.
    + intros k Hk. specialize (HQ (S k)). cbn [firstn chainR fold_left length] in HQ. apply HQ. lia.
    + exists q'. split; [exact E1|]. split; [exact E2|]. cbn [length]. replace (n + S (length rs))%nat with (S n + length rs)%nat by lia. exact E3.
Qed.
(** C128: n products q *= r_1, ..., q *= r_n in double precision differ from the
    exact product by at most 282 n half-ulps of its length, as long as n is at
    most 2^40 and the lengths stay between 2^-300 and 2^300. *)
Theorem C128_chain_error :
  forall (q : dquat) (rs : list dquat),
  qeach fin q -> (forall r, In r rs -> qeach fin r /\ in_mid (qabsR (qv r))) ->
  (forall k, (k <= length rs)%nat -> in_mid (qabsR (chainR (qv q) (firstn k rs)))) ->
  INR (length rs) <= 2 ^ 40 ->
  exists q', chain (arr q) rs = Ok (arr q') /\ qeach fin q' /\
  qabsR (qsubR (qv q') (chainR (qv q) rs)) <= 282 / 2 ^ 53 * INR (length rs) * qabsR (chainR (qv q) rs).
Proof.
  intros q rs F HR HQ HN. pose proof K_pos as KP. pose proof (pos_INR (length rs)) as NP.
  assert (KN : 2 * INR (length rs) * K <= / 10). { unfold K. rewrite uro_val. lra. }
  assert (PB : (1 + K) ^ length rs <= 1 + 2 * INR (length rs) * K) by (apply pow_bern; lra).
  destruct (chain_err rs q (qv q) 0 F) as (q' & E1 & E2 & E3).
  - cbn [pow]. replace (qsubR (qv q) (qv q)) with qzero by (destruct (qv q) as [[[? ?] ?] ?]; cbn; unfold qzero; repeat apply pair_eq; ring).
    unfold qabsR, qzero. cbn [qdotR]. replace (0 * 0 + 0 * 0 + 0 * 0 + 0 * 0) with 0 by ring. rewrite sqrt_0. lra.
  - cbn [Nat.add]. lra.
  - exact HR.
  - exact HQ.
  - exists q'. split; [exact E1|]. split; [exact E2|]. eapply Rle_trans; [exact E3|]. apply Rmult_le_compat_r; [apply qabs_pos|]. cbn [Nat.add].
    unfold Rdiv. change (/ 2 ^ 53) with uro. unfold K in *. lra.
Qed.
Print Assumptions C128_chain_error.
(** C128: so unit quaternions stay unit up to 282 n half-ulps. *)
Theorem C128_unit_drift :
  forall (q : dquat) (rs : list dquat),
  qeach fin q -> qabsR (qv q) = 1 -> (forall r, In r rs -> qeach fin r /\ qabsR (qv r) = 1) -> INR (length rs) <= 2 ^ 40 ->
  exists q', chain (arr q) rs = Ok (arr q') /\ Rabs (qabsR (qv q') - 1) <= 282 / 2 ^ 53 * INR (length rs).
Proof.
  intros q rs F U HR HN.
  assert (UC : forall l Q, qabsR Q = 1 -> (forall r, In r l -> qabsR (qv r) = 1) -> qabsR (chainR Q l) = 1).
  { induction l as [|r l IH]; intros Q HQ Hl; [exact HQ|]. cbn [chainR fold_left]. apply IH; [rewrite qabs_mul, HQ, (Hl r) by (left; reflexivity); ring|]. intros x Hx. apply Hl. right. exact Hx. }
  assert (M1 : in_mid 1). { unfold in_mid. assert (1 <= 2 ^ 300) by (apply pow_R1_Rle; lra). split; [|lra]. rewrite <- Rinv_1. apply Rinv_le_contravar; lra. }
  destruct (C128_chain_error q rs F) as (q' & E1 & E2 & E3).
  - intros r Hr. destruct (HR r Hr) as (A & B). rewrite B. split; assumption.
  - intros k Hk. rewrite UC; [exact M1|exact U|]. intros r Hr. apply HR. rewrite <- (firstn_skipn k rs). apply in_or_app. left. exact Hr.
  - exact HN.
  - exists q'. split; [exact E1|]. rewrite (UC rs (qv q) U) in E3 by (intros r Hr; apply HR; exact Hr). rewrite Rmult_1_r in E3.
    rewrite <- (UC rs (qv q) U) at 1 by (intros r Hr; apply HR; exact Hr). eapply Rle_trans; [apply qabs_diff|exact E3].
Qed.
Print Assumptions C128_unit_drift.

(** ** The rotation matrix *)
Lemma real_diag Y1 Y2 Y3 Y4 m1 m2 m3 m4 s1 s2 s3 e : 0 < e ->
  Rabs (m1 - Y1) <= uro * Rabs Y1 + e -> Rabs (m2 - Y2) <= uro * Rabs Y2 + e -> Rabs (m3 - Y3) <= uro * Rabs Y3 + e -> Rabs (m4 - Y4) <= uro * Rabs Y4 + e ->
  Rabs (s1 - (m1 + m2)) <= uro * Rabs (m1 + m2) -> Rabs (s2 - (s1 + m3)) <= uro * Rabs (s1 + m3) -> Rabs (s3 - (s2 + m4)) <= uro * Rabs (s2 + m4) ->
  Rabs (s3 - (Y1 + Y2 + Y3 + Y4)) <= 5 * uro * (Rabs Y1 + Rabs Y2 + Rabs Y3 + Rabs Y4) + 8 * e.
Proof.
  rewrite uro_val. intros EP R1 R2 R3 R4 R5 R6 R7.
  apply abs_tri_err in R1 as A1. apply abs_tri_err in R2 as A2. apply abs_tri_err in R3 as A3. apply abs_tri_err in R4 as A4.
  pose proof (Rabs_triang m1 m2). apply abs_tri_err in R5 as A5. pose proof (Rabs_triang s1 m3). apply abs_tri_err in R6 as A6. pose proof (Rabs_triang s2 m4).
  pose proof (Rabs_pos Y1). pose proof (Rabs_pos Y2). pose proof (Rabs_pos Y3). pose proof (Rabs_pos Y4).
  apply Rabs_le_inv in R1, R2, R3, R4, R5, R6, R7. apply Rabs_le. split; lra.
Qed.
Lemma real_off Y1 Y2 m1 m2 s1 t e : 0 < e ->
  Rabs (m1 - Y1) <= uro * Rabs Y1 + e -> Rabs (m2 - Y2) <= uro * Rabs Y2 + e ->
  Rabs (s1 - (m1 + m2)) <= uro * Rabs (m1 + m2) -> Rabs (t - 2 * s1) <= uro * Rabs (2 * s1) + e ->
  Rabs (t - 2 * (Y1 + Y2)) <= 4 * uro * (2 * Rabs Y1 + 2 * Rabs Y2) + 8 * e.
Proof.
  rewrite uro_val. intros EP R1 R2 R3 R4. rewrite (Rabs_mult 2 s1), (Rabs_pos_eq 2) in R4 by lra.
  apply abs_tri_err in R1 as A1. apply abs_tri_err in R2 as A2. pose proof (Rabs_triang m1 m2). apply abs_tri_err in R3 as A3.
  pose proof (Rabs_pos Y1). pose proof (Rabs_pos Y2).
  apply Rabs_le_inv in R1, R2, R3, R4. apply Rabs_le. split; lra.
Qed.
Lemma neg_err a b c : Rabs (a - b) <= c -> Rabs (- a - - b) <= c.
Proof. intros H. replace (- a - - b) with (- (a - b)) by ring. rewrite Rabs_Ropp. exact H. Qed.
(** The cells as computed. *)
Definition rot64 (q : dquat) (i j : nat) : f64 :=
  let '(x, y, z, w) := q in
  match i, j with
  | 0%nat, 0%nat => sub (sub (add (mul w w) (mul x x)) (mul y y)) (mul z z)
  | 0%nat, 1%nat => mul f64_two (sub (mul x y) (mul w z))
  | 0%nat, 2%nat => mul f64_two (add (mul x z) (mul w y))
  | 1%nat, 0%nat => mul f64_two (add (mul x y) (mul w z))
  | 1%nat, 1%nat => sub (add (sub (mul w w) (mul x x)) (mul y y)) (mul z z)
  | 1%nat, 2%nat => mul f64_two (sub (mul y z) (mul w x))
  | 2%nat, 0%nat => mul f64_two (sub (mul x z) (mul w y))
  | 2%nat, 1%nat => mul f64_two (add (mul y z) (mul w x))
  | _, _ => add (sub (sub (mul w w) (mul x x)) (mul y y)) (mul z z)
  end.
Lemma q_rot_64 {cfg : Cfg} q : returns (q_get_rotation_matrix (arr q)) (fun r => repM 3 3 r (rot64 q)).
Proof.
  destruct q as [[[x y] z] w]. eexists. split; [reflexivity|]. split; [reflexivity|].
  intros i j Hi Hj. destruct i as [|[|[|i]]]; try lia; destruct j as [|[|[|j]]]; try lia; reflexivity.
Qed.
Lemma okf_two : okf 1 f64_two.
Proof. apply (okf_const _ 2); [reflexivity|exact val_two|rewrite Rabs_pos_eq by lra; cbn; lra]. Qed.
Lemma rot_err q i j k : (0 <= k <= 400)%Z -> qeach (okf k) q -> (i < 3)%nat -> (j < 3)%nat ->
  okf (2 * k + 4) (rot64 q i j) /\ Rabs (val (rot64 q i j) - rotcell (qv q) i j) <= 5 * uro * qdotR (qv q) (qv q) + 8 * eta.
Proof.
  intros Hk Hq Hi Hj. destruct q as [[[x y] z] w]. destruct Hq as (Ox & Oy & Oz & Ow).
  assert (P : forall a b, okf k a -> okf k b -> okf (2 * k) (mul a b) /\ Rabs (val (mul a b) - val a * val b) <= uro * Rabs (val a * val b) + eta).
  { intros a b Ha Hb. apply (okf_mult k k); [exact Ha|exact Hb|lia|lia]. }
  pose proof uro_pos as UP.
  assert (OFFP : forall a b c d, okf k a -> okf k b -> okf k c -> okf k d -> 2 * Rabs (val a * val b) + 2 * Rabs (val c * val d) <= qdotR (qv (x, y, z, w)) (qv (x, y, z, w)) ->
    okf (2 * k + 4) (mul f64_two (add (mul a b) (mul c d))) /\ Rabs (val (mul f64_two (add (mul a b) (mul c d))) - 2 * (val a * val b + val c * val d)) <= 5 * uro * qdotR (qv (x, y, z, w)) (qv (x, y, z, w)) + 8 * eta).
  { intros a b c d Oa Ob Oc Od HB. destruct (P a b Oa Ob) as (O1 & E1). destruct (P c d Oc Od) as (O2 & E2).
    destruct (plus_ok (2 * k) _ _ ltac:(lia) O1 O2) as (O3 & E3). destruct (okf_mult 1 (2 * k + 1) (2 * k + 2) f64_two _ okf_two O3 ltac:(lia) ltac:(lia)) as (O4 & E4). rewrite val_two in E4.
    split; [apply (okf_le (2 * k + 2)); [exact O4|lia]|]. eapply Rle_trans; [exact (real_off _ _ _ _ _ _ _ eta_pos E1 E2 E3 E4)|].
    apply Rplus_le_compat_r. apply Rmult_le_compat; [lra| |lra|exact HB]. pose proof (Rabs_pos (val a * val b)). pose proof (Rabs_pos (val c * val d)). lra. }
  assert (OFFM : forall a b c d, okf k a -> okf k b -> okf k c -> okf k d -> 2 * Rabs (val a * val b) + 2 * Rabs (val c * val d) <= qdotR (qv (x, y, z, w)) (qv (x, y, z, w)) ->
    okf (2 * k + 4) (mul f64_two (sub (mul a b) (mul c d))) /\ Rabs (val (mul f64_two (sub (mul a b) (mul c d))) - 2 * (val a * val b - val c * val d)) <= 5 * uro * qdotR (qv (x, y, z, w)) (qv (x, y, z, w)) + 8 * eta).
  { intros a b c d Oa Ob Oc Od HB. destruct (P a b Oa Ob) as (O1 & E1). destruct (P c d Oc Od) as (O2 & E2). apply neg_err in E2. rewrite <- (Rabs_Ropp (val c * val d)) in E2, HB.
    destruct (minus_ok (2 * k) _ _ ltac:(lia) O1 O2) as (O3 & E3). destruct (okf_mult 1 (2 * k + 1) (2 * k + 2) f64_two _ okf_two O3 ltac:(lia) ltac:(lia)) as (O4 & E4). rewrite val_two in E4.
    split; [apply (okf_le (2 * k + 2)); [exact O4|lia]|]. eapply Rle_trans; [exact (real_off _ _ _ _ _ _ _ eta_pos E1 E2 E3 E4)|].
    apply Rplus_le_compat_r. apply Rmult_le_compat; [lra| |lra|exact HB]. pose proof (Rabs_pos (val a * val b)). pose proof (Rabs_pos (- (val c * val d))). lra. }
  assert (SQ : forall a b c d, 2 * Rabs (a * b) + 2 * Rabs (c * d) <= a * a + b * b + c * c + d * d).
  { assert (S2 : forall a b, 2 * Rabs (a * b) <= a * a + b * b).
    { intros a b. pose proof (Rle_0_sqr (a - b)). pose proof (Rle_0_sqr (a + b)). unfold Rsqr in *. unfold Rabs. destruct (Rcase_abs (a * b)); lra. }
    intros a b c d. pose proof (S2 a b). pose proof (S2 c d). lra. }
  assert (QE : qdotR (qv (x, y, z, w)) (qv (x, y, z, w)) = val x * val x + val y * val y + val z * val z + val w * val w) by reflexivity.
  destruct (P x x Ox Ox) as (Oxx & Exx). destruct (P y y Oy Oy) as (Oyy & Eyy). destruct (P z z Oz Oz) as (Ozz & Ezz). destruct (P w w Ow Ow) as (Oww & Eww).
  assert (AB : forall t, Rabs (t * t) = t * t) by (intros t; apply Rabs_pos_eq, Rle_0_sqr).
  pose proof (neg_err _ _ _ Exx) as Nxx. pose proof (neg_err _ _ _ Eyy) as Nyy. pose proof (neg_err _ _ _ Ezz) as Nzz.
  rewrite <- (Rabs_Ropp (val x * val x)) in Nxx. rewrite <- (Rabs_Ropp (val y * val y)) in Nyy. rewrite <- (Rabs_Ropp (val z * val z)) in Nzz.
  destruct i as [|[|[|i]]]; try lia; destruct j as [|[|[|j]]]; try lia; cbn [rot64 rotcell qv].
  - destruct (plus_ok (2 * k) _ _ ltac:(lia) Oww Oxx) as (O1 & E1).
    destruct (minus_ok (2 * k + 1) _ _ ltac:(lia) O1 (okf_le (2 * k) (2 * k + 1) _ Oyy ltac:(lia))) as (O2 & E2).
    destruct (minus_ok (2 * k + 1 + 1) _ _ ltac:(lia) O2 (okf_le (2 * k) (2 * k + 1 + 1) _ Ozz ltac:(lia))) as (O3 & E3).
    split; [apply (okf_le (2 * k + 1 + 1 + 1)); [exact O3|lia]|]. eapply Rle_trans; [exact (real_diag _ _ _ _ _ _ _ _ _ _ _ _ eta_pos Eww Exx Nyy Nzz E1 E2 E3)|].
    rewrite !Rabs_Ropp, !AB. unfold qv in QE. rewrite QE. right. ring.
  - apply OFFM; try assumption. rewrite QE. eapply Rle_trans; [apply SQ|]. lra.
  - apply OFFP; try assumption. rewrite QE. eapply Rle_trans; [apply SQ|]. lra.
  - apply OFFP; try assumption. rewrite QE. eapply Rle_trans; [apply SQ|]. lra.
  - destruct (minus_ok (2 * k) _ _ ltac:(lia) Oww Oxx) as (O1 & E1).
    destruct (plus_ok (2 * k + 1) _ _ ltac:(lia) O1 (okf_le (2 * k) (2 * k + 1) _ Oyy ltac:(lia))) as (O2 & E2).
    destruct (minus_ok (2 * k + 1 + 1) _ _ ltac:(lia) O2 (okf_le (2 * k) (2 * k + 1 + 1) _ Ozz ltac:(lia))) as (O3 & E3).
    split; [apply (okf_le (2 * k + 1 + 1 + 1)); [exact O3|lia]|]. eapply Rle_trans; [exact (real_diag _ _ _ _ _ _ _ _ _ _ _ _ eta_pos Eww Nxx Eyy Nzz E1 E2 E3)|].
    rewrite !Rabs_Ropp, !AB. unfold qv in QE. rewrite QE. right. ring.
  - apply OFFM; try assumption. rewrite QE. eapply Rle_trans; [apply SQ|]. lra.
  - apply OFFM; try assumption. rewrite QE. eapply Rle_trans; [apply SQ|]. lra.
  - apply OFFP; try assumption. rewrite QE. eapply Rle_trans; [apply SQ|]. lra.
  - destruct (minus_ok (2 * k) _ _ ltac:(lia) Oww Oxx) as (O1 & E1).
    destruct (minus_ok (2 * k + 1) _ _ ltac:(lia) O1 (okf_le (2 * k) (2 * k + 1) _ Oyy ltac:(lia))) as (O2 & E2).
    destruct (plus_ok (2 * k + 1 + 1) _ _ ltac:(lia) O2 (okf_le (2 * k) (2 * k + 1 + 1) _ Ozz ltac:(lia))) as (O3 & E3).
    split; [apply (okf_le (2 * k + 1 + 1 + 1)); [exact O3|lia]|]. eapply Rle_trans; [exact (real_diag _ _ _ _ _ _ _ _ _ _ _ _ eta_pos Eww Nxx Nyy Ezz E1 E2 E3)|].
    rewrite !Rabs_Ropp, !AB. unfold qv in QE. rewrite QE. right. ring.
Qed.
(** C129: every cell of the rotation matrix of a double quaternion is within 5
    half-ulps of |q|^2 of the cell of the exact matrix of v -> q v conj(q). *)
Theorem C129_rotation_matrix_error :
  forall (cfg : Cfg) (q : dquat), qeach sane q ->
  exists m g, q_get_rotation_matrix (arr q) = Ok m /\ repM 3 3 m g /\
  exists A : nat -> nat -> R,
  (forall v : V3, qpureR (mv3R A v) = qmulR (qmulR (qv q) (qpureR v)) (qconjR (qv q))) /\
  forall i j, (i < 3)%nat -> (j < 3)%nat ->
  fin (g i j) /\ Rabs (val (g i j) - A i j) <= 5 / 2 ^ 53 * (qabsR (qv q) * qabsR (qv q)) + 8 / 2 ^ 1075.
Proof.
  intros cfg q Hq. destruct (q_rot_64 q) as (m & E & Hm). exists m, (rot64 q). split; [exact E|]. split; [exact Hm|].
  exists (rotcell (qv q)). split; [apply acts_iff; reflexivity|]. intros i j Hi Hj.
  assert (OQ : qeach (okf 400) q). { destruct q as [[[? ?] ?] ?]. destruct Hq as (A & B & C & D). repeat split; try apply sane_okf; try assumption; apply A. }
  destruct (rot_err q i j 400 ltac:(lia) OQ Hi Hj) as (O & R). split; [apply O|]. rewrite qabs_sq. exact R.
Qed.
Print Assumptions C129_rotation_matrix_error.

(** ** The hypotheses can be met *)
Definition q_halves : dquat := (f64_half, f64_half, f64_half, f64_half).
Lemma halves_unit : qabsR (qv q_halves) = 1.
Proof. unfold qabsR, q_halves. cbn [qv qdotR]. rewrite val_half. replace (_ + _) with 1 by lra. apply sqrt_1. Qed.
Lemma halves_fin : qeach fin q_halves.
Proof. repeat split. Qed.
Example C127_hypotheses_met : qeach sane q_halves /\ / 2 ^ 900 <= qabsR (qv q_halves) * qabsR (qv q_halves).
Proof.
  split; [repeat split; apply sane_half|]. rewrite halves_unit, Rmult_1_l, <- Rinv_1. apply Rinv_le_contravar; [lra|]. apply pow_R1_Rle; lra.
Qed.
Example C128_hypotheses_met : qeach fin q_halves /\ qabsR (qv q_halves) = 1 /\
  (forall r, In r (repeat q_halves 1000) -> qeach fin r /\ qabsR (qv r) = 1) /\ INR (length (repeat q_halves 1000)) <= 2 ^ 40.
Proof.
  split; [exact halves_fin|]. split; [exact halves_unit|]. split.
  - intros r Hr. apply repeat_spec in Hr. subst r. split; [exact halves_fin|exact halves_unit].
  - rewrite repeat_length. rewrite INR_IZR_INZ. apply Rle_trans with 1000; [right; f_equal; reflexivity|lra].
Qed.
Example C129_hypotheses_met : qeach sane q_halves.
Proof. repeat split; apply sane_half. Qed.
