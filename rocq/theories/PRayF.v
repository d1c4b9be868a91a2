(** Property C140: the ray-sphere test in double precision. *)
From Coq Require Import ZArith Reals Lra Psatz Bool List.
From Flocq Require Import Core.Core IEEE754.BinarySingleNaN IEEE754.Binary IEEE754.Bits.
From Verif Require Import InstR InstF LF64 LVector LMatrix LVector2 Spec LSum LVectorR MFrustum PIntersection PFloat LFloat PFloat2 LErr Spec10 LExt PCuller3 PFloat3 PFloat4 PFrustumF MAabb PAabb.
Import ListNotations.
Local Open Scope R_scope.
Local Notation rnd := (round radix2 (FLT_exp (-1074) 53) (Znearest (fun x => negb (Z.even x)))).
Local Notation bp := (bpow radix2).

Lemma eta_small : 0 < eta <= uro / 1000000.
Proof.
  split; [exact eta_pos|]. rewrite <- eta_bpow. pose proof (bpow_gt_0 radix2 (-1074)). apply Rle_trans with (bp (-100)); [apply Rle_trans with (bp (-1074)); [lra|apply bpow_le; lia]|].
  rewrite uro_val. change (-100)%Z with (Z.opp 100). rewrite bpow_opp. 
  change (bp 100) with 1267650600228229401496703205376. lra.
Qed.

(** One product w * g, where w and g approximate v and u. *)
Lemma ray_prod v u w g t : 0 < eta -> eta <= uro / 1000000 -> Rabs u <= 1 ->
  Rabs (w - v) <= uro * Rabs v -> Rabs (g - u) <= 12 * uro * Rabs u + eta ->
  Rabs (t - w * g) <= uro * Rabs (w * g) + eta ->
  Rabs (t - v * u) <= 15 * uro * Rabs (v * u) + uro / 10 * Rabs v + eta.
Proof.
  intros E0 E1 U1 Hw Hg Ht.
  assert (A : Rabs (w * g - v * u) <= 131 / 10 * uro * Rabs (v * u) + uro / 100 * Rabs v).
  { replace (w * g - v * u) with ((w - v) * g + v * (g - u)) by ring. eapply Rle_trans; [apply Rabs_triang|]. rewrite !Rabs_mult.
    apply abs_tri_err in Hg as Ag. pose proof (Rabs_pos v) as V0. pose proof (Rabs_pos u) as U0. pose proof (Rabs_pos g) as G0.
    assert (U : 0 < uro <= / 1000000) by (rewrite uro_val; lra).
    assert (B1 : Rabs (w - v) * Rabs g <= uro * Rabs v * (Rabs u + (12 * uro * Rabs u + eta))) by (apply Rmult_le_compat; try assumption; apply Rabs_pos).
    assert (B2 : Rabs v * Rabs (g - u) <= Rabs v * (12 * uro * Rabs u + eta)) by (apply Rmult_le_compat_l; assumption).
    assert (M1 : 0 <= Rabs v * Rabs u) by (apply Rmult_le_pos; assumption).
    assert (M2 : uro * (Rabs v * Rabs u) * (12 * uro) <= uro * (Rabs v * Rabs u) * / 100).
    { apply Rmult_le_compat_l; [apply Rmult_le_pos; lra|lra]. }
    assert (M3 : Rabs v * eta <= Rabs v * (uro / 1000000)) by (apply Rmult_le_compat_l; assumption).
    assert (M4 : uro * (Rabs v * eta) <= 1 * (Rabs v * eta)) by (apply Rmult_le_compat_r; [apply Rmult_le_pos; lra|lra]).
    assert (V1 : 0 <= uro * Rabs v) by (apply Rmult_le_pos; lra).
    assert (V2 : 0 <= uro * (Rabs v * Rabs u)) by (apply Rmult_le_pos; lra). lra. }
  apply abs_tri_err in A as A'. replace (t - v * u) with ((t - w * g) + (w * g - v * u)) by ring. eapply Rle_trans; [apply Rabs_triang|].
  revert A A' Ht. generalize (Rabs_pos v) (Rabs_pos (v * u)). generalize (Rabs v) (Rabs (v * u)) (Rabs (w * g)) (Rabs (t - w * g)) (Rabs (w * g - v * u)).
  rewrite uro_val. intros; lra.
Qed.
Lemma ray_square v w t : 0 < eta -> Rabs (w - v) <= uro * Rabs v -> Rabs (t - w * w) <= uro * Rabs (w * w) + eta ->
  Rabs (t - v * v) <= 31 / 10 * uro * (v * v) + eta.
Proof.
  intros E0 Hw Ht. assert (U : 0 < uro <= / 1000000) by (rewrite uro_val; lra). pose proof (Rabs_pos v) as V0.
  assert (A : Rabs (w * w - v * v) <= 205 / 100 * uro * (v * v)).
  { replace (w * w - v * v) with ((w - v) * (w + v)) by ring. rewrite Rabs_mult. apply abs_tri_err in Hw as Aw.
    assert (B : Rabs (w - v) * Rabs (w + v) <= uro * Rabs v * (Rabs v + uro * Rabs v + Rabs v)).
    { apply Rmult_le_compat; try apply Rabs_pos; [exact Hw|]. eapply Rle_trans; [apply Rabs_triang|]. lra. }
    assert (V2 : Rabs v * Rabs v = v * v) by (rewrite <- Rabs_mult; apply Rabs_pos_eq, Rle_0_sqr).
    assert (P : 0 <= uro * (v * v)) by (apply Rmult_le_pos; [lra|apply Rle_0_sqr]).
    assert (M : uro * (v * v) * uro <= uro * (v * v) * / 1000) by (apply Rmult_le_compat_l; lra).
    replace (uro * Rabs v * (Rabs v + uro * Rabs v + Rabs v)) with (2 * (uro * (Rabs v * Rabs v)) + uro * (Rabs v * Rabs v) * uro) in B by ring. rewrite V2 in B. lra. }
  apply abs_tri_err in A as A'. rewrite (Rabs_pos_eq (v * v)) in A' by apply Rle_0_sqr.
  replace (t - v * v) with ((t - w * w) + (w * w - v * v)) by ring. eapply Rle_trans; [apply Rabs_triang|].
  assert (V2 : 0 <= v * v) by apply Rle_0_sqr.
  revert V2 A A' Ht. generalize (v * v) (Rabs (w * w)) (Rabs (t - w * w)). intros x y z. generalize (Rabs (w * w - x)).
  rewrite uro_val. intros; lra.
Qed.
(** Three rounded additions. *)
Lemma ray_sum x0 x1 x2 t0 t1 t2 s0 s1 s2 D : 0 < eta -> eta <= uro / 1000000 -> 0 <= D ->
  Rabs x0 + Rabs x1 + Rabs x2 <= D ->
  forall K, Rabs (t0 - x0) + Rabs (t1 - x1) + Rabs (t2 - x2) <= K -> 
  Rabs (s0 - t0) <= uro * Rabs t0 -> Rabs (s1 - (s0 + t1)) <= uro * Rabs (s0 + t1) -> Rabs (s2 - (s1 + t2)) <= uro * Rabs (s1 + t2) ->
  Rabs (s2 - (x0 + x1 + x2)) <= 31 / 10 * uro * D + 11 / 10 * K.
Proof.
  intros E0 E1 D0 HD K HK R0 R1 R2.
  assert (T0 : Rabs t0 <= Rabs x0 + Rabs (t0 - x0)) by (apply abs_tri_err; lra).
  assert (T1 : Rabs t1 <= Rabs x1 + Rabs (t1 - x1)) by (apply abs_tri_err; lra).
  assert (T2 : Rabs t2 <= Rabs x2 + Rabs (t2 - x2)) by (apply abs_tri_err; lra).
  apply abs_tri_err in R0 as A0. apply abs_tri_err in R1 as A1. pose proof (Rabs_triang s0 t1) as B1. pose proof (Rabs_triang s1 t2) as B2.
  replace (s2 - (x0 + x1 + x2)) with ((s2 - (s1 + t2)) + ((s1 - (s0 + t1)) + ((s0 - t0) + ((t0 - x0) + ((t1 - x1) + (t2 - x2)))))) by ring.
  eapply Rle_trans; [apply Rabs_triang|]. eapply Rle_trans; [apply Rplus_le_compat_l, Rabs_triang|].
  eapply Rle_trans; [do 2 apply Rplus_le_compat_l; apply Rabs_triang|]. eapply Rle_trans; [do 3 apply Rplus_le_compat_l; apply Rabs_triang|].
  eapply Rle_trans; [do 4 apply Rplus_le_compat_l; apply Rabs_triang|].
  clear E0 E1. pose proof (Rabs_pos (t0 - x0)). pose proof (Rabs_pos (t1 - x1)). pose proof (Rabs_pos (t2 - x2)).
  pose proof (Rabs_pos x0). pose proof (Rabs_pos x1). pose proof (Rabs_pos x2).
  pose proof (Rabs_pos (s0 - t0)). pose proof (Rabs_pos (s1 - (s0 + t1))). pose proof (Rabs_pos (s2 - (s1 + t2))).
  repeat match goal with H : context [Rabs ?x] |- _ => generalize dependent (Rabs x); intros end.
  rewrite uro_val in *. lra.
Qed.
(** The quantities of the test: p the projection, S the squared distance, Q the
    squared distance of the centre from the line, X = R - Q. *)
Lemma ray_pp D p P PP : 0 < eta -> eta <= uro / 1000000 -> 0 <= D -> Rabs p <= D -> Rabs (P - p) <= 22 * uro * D + 4 * eta ->
  Rabs (PP - P * P) <= uro * Rabs (P * P) + eta -> Rabs (PP - p * p) <= 50 * uro * (D * D) + 32 * eta.
Proof.
  intros E0 E1 D0 Hp HP HPP. assert (U : 0 < uro <= / 1000000) by (rewrite uro_val; lra).
  assert (D2 : 0 <= D * D) by (apply Rmult_le_pos; lra).
  assert (ED : eta * D <= eta + uro / 1000000 * (D * D)).
  { assert (D <= 1 + D * D) by nra. assert (eta * D <= eta * (1 + D * D)) by (apply Rmult_le_compat_l; lra).
    assert (eta * (D * D) <= uro / 1000000 * (D * D)) by (apply Rmult_le_compat_r; lra). lra. }
  assert (ED0 : 0 <= eta * D) by (apply Rmult_le_pos; lra). assert (UD0 : 0 <= uro * (D * D)) by (apply Rmult_le_pos; lra).
  assert (A : Rabs (P * P - p * p) <= 45 * uro * (D * D) + 9 * eta).
  { replace (P * P - p * p) with ((P - p) * ((P - p) + 2 * p)) by ring. rewrite Rabs_mult.
    assert (B : Rabs ((P - p) + 2 * p) <= 22 * uro * D + 4 * eta + 2 * D).
    { eapply Rle_trans; [apply Rabs_triang|]. rewrite Rabs_mult, (Rabs_pos_eq 2) by lra. lra. }
    assert (C : Rabs (P - p) * Rabs ((P - p) + 2 * p) <= (22 * uro * D + 4 * eta) * (22 * uro * D + 4 * eta + 2 * D)) by (apply Rmult_le_compat; try apply Rabs_pos; assumption).
    assert (M1 : uro * (D * D) * uro <= uro * (D * D) * / 1000000) by (apply Rmult_le_compat_l; lra).
    assert (M2 : eta * D * uro <= eta * D * / 1000000) by (apply Rmult_le_compat_l; lra).
    assert (M3 : eta * eta <= eta * / 1000000) by (apply Rmult_le_compat_l; lra).
    replace ((22 * uro * D + 4 * eta) * (22 * uro * D + 4 * eta + 2 * D)) with
      (44 * (uro * (D * D)) + 484 * (uro * (D * D) * uro) + 176 * (eta * D * uro) + 16 * (eta * eta) + 8 * (eta * D)) in C by ring. lra. }
  assert (P2 : p * p <= D * D). { rewrite <- (Rabs_pos_eq (p * p)) by apply Rle_0_sqr. rewrite Rabs_mult. apply Rmult_le_compat; try apply Rabs_pos; assumption. }
  assert (A' := A). apply abs_tri_err in A'. rewrite (Rabs_pos_eq (p * p)) in A' by apply Rle_0_sqr.
  replace (PP - p * p) with ((PP - P * P) + (P * P - p * p)) by ring. eapply Rle_trans; [apply Rabs_triang|].
  clear ED ED0 UD0 HP Hp U. revert A A' HPP E1 D2 P2. generalize (Rabs (PP - P * P)) (Rabs (P * P)) (D * D) (p * p).
  intros a b c d. generalize (Rabs (P * P - d)). rewrite uro_val. intros; lra.
Qed.
Lemma ray_quantities D2 p2 r2 S PP Q Rr X : 0 < eta -> 0 <= p2 <= D2 -> 0 <= r2 ->
  Rabs (S - D2) <= 8 * uro * D2 + 4 * eta -> Rabs (PP - p2) <= 50 * uro * D2 + 32 * eta ->
  Rabs (Rr - r2) <= uro * r2 + eta -> Rabs (Q - (S - PP)) <= uro * Rabs (S - PP) ->
  Rabs (X - (Rr - Q)) <= uro * Rabs (Rr - Q) ->
  Rabs (Q - (D2 - p2)) <= 61 * uro * D2 + 40 * eta /\ Rabs (X - (r2 - (D2 - p2))) <= 64 * uro * (D2 + r2) + 64 * eta.
Proof.
  rewrite uro_val. intros E0 HD Hr HS HP HR HQ HX.
  apply Rabs_le_inv in HS. apply Rabs_le_inv in HP. apply Rabs_le_inv in HR.
  assert (B1 : Rabs (S - PP) <= 11 / 10 * D2 + 36 * eta) by (apply Rabs_le; lra).
  assert (HQ' : Rabs (Q - (D2 - p2)) <= 61 * / 9007199254740992 * D2 + 40 * eta).
  { apply Rabs_le_inv in HQ. apply Rabs_le. lra. }
  split; [exact HQ'|]. apply Rabs_le_inv in HQ'.
  assert (B2 : Rabs (Rr - Q) <= 11 / 10 * (D2 + r2) + 42 * eta) by (apply Rabs_le; lra).
  apply Rabs_le_inv in HX. apply Rabs_le. lra.
Qed.
(** The distance parameter. *)
Lemma ray_T D p r s m P X Y T (sg : R) : 0 < eta -> eta <= uro / 1000000 -> 0 <= D -> Rabs p <= D -> 0 < s -> s <= r -> 0 <= m -> m <= s * s -> sg = 1 \/ sg = -1 ->
  Rabs (P - p) <= 22 * uro * D + 4 * eta -> 0 < X -> Rabs (X - s * s) <= m -> Rabs (Y - sqrt X) <= uro * sqrt X ->
  Rabs (T - (P + sg * Y)) <= uro * Rabs (P + sg * Y) ->
  Rabs (T - (p + sg * s)) <= 24 * uro * (D + r) + 2 * m / s + 8 * eta.
Proof.
  intros E0 E1 D0 Hp Hs Hsr Hm Hms Hsg HP HX0 HX HY HT.
  set (q := m / s). assert (Q0 : 0 <= q) by (apply Rmult_le_pos; [lra|apply Rlt_le, Rinv_0_lt_compat, Hs]).
  assert (Qs : q <= s). { apply (Rmult_le_reg_r s); [exact Hs|]. unfold q. replace (m / s * s) with m by (field; lra). lra. }
  assert (HSX : Rabs (sqrt X - s) <= q).
  { pose proof (sqrt_lt_R0 X HX0) as S0. apply (Rmult_le_reg_r s); [exact Hs|]. unfold q. replace (m / s * s) with m by (field; lra).
    apply Rle_trans with (Rabs (sqrt X - s) * (sqrt X + s)).
    - apply Rmult_le_compat_l; [apply Rabs_pos|lra].
    - rewrite <- (Rabs_pos_eq (sqrt X + s)) by lra. rewrite <- Rabs_mult. replace ((sqrt X - s) * (sqrt X + s)) with (sqrt X * sqrt X - s * s) by ring.
      rewrite sqrt_sqrt by lra. exact HX. }
  replace (2 * m / s) with (2 * q) by (unfold q; field; lra). revert HSX HY. generalize (sqrt X). intros z HSX HY. clearbody q.
  rewrite uro_val in *. apply Rabs_le_inv in HSX. apply Rabs_le_inv in HY. apply Rabs_le_inv in HP. apply Rabs_le_inv in Hp.
  assert (HYs : Rabs (Y - s) <= q + 2 * / 9007199254740992 * r) by (apply Rabs_le; lra). apply Rabs_le_inv in HYs.
  assert (B : Rabs (P + sg * Y) <= 11 / 10 * D + 4 * r + 4 * eta) by (apply Rabs_le; destruct Hsg as [-> | ->]; lra).
  apply Rabs_le_inv in HT. apply Rabs_le. destruct Hsg as [-> | ->]; lra.
Qed.
(** The sign of the projection is right when the centre is clearly nearer to the
    line than the origin is to the centre. *)
Lemma ray_sign D p P r2 m : 0 < eta -> eta <= uro / 1000000 -> 0 <= D -> 0 <= r2 -> m = 64 * uro * (D * D + r2) + 64 * eta -> 2 * m <= p * p ->
  Rabs (P - p) <= 22 * uro * D + 4 * eta -> (P < 0 <-> p < 0).
Proof.
  intros E0 E1 D0 R0 -> Hp HP. assert (U : 0 < uro <= / 1000000) by (rewrite uro_val; lra).
  assert (K : Rabs (P - p) < Rabs p).
  { destruct (Rlt_le_dec (Rabs (P - p)) (Rabs p)) as [L|L]; [exact L|exfalso].
    assert (L2 : Rabs p * Rabs p <= Rabs (P - p) * Rabs (P - p)) by (apply Rmult_le_compat; try apply Rabs_pos; assumption).
    assert (B : Rabs (P - p) * Rabs (P - p) <= (22 * uro * D + 4 * eta) * (22 * uro * D + 4 * eta)) by (apply Rmult_le_compat; try apply Rabs_pos; assumption).
    rewrite <- (Rabs_mult p p), (Rabs_pos_eq (p * p)) in L2 by apply Rle_0_sqr.
    assert (D2 : 0 <= D * D) by (apply Rmult_le_pos; lra). assert (UD : 0 <= uro * (D * D)) by (apply Rmult_le_pos; lra).
    assert (B2 : (22 * uro * D + 4 * eta) * (22 * uro * D + 4 * eta) <= 968 * (uro * (D * D) * uro) + 32 * (eta * eta)).
    { assert (0 <= (22 * uro * D - 4 * eta) * (22 * uro * D - 4 * eta)) by apply Rle_0_sqr. lra. }
    assert (M1 : uro * (D * D) * uro <= uro * (D * D) * / 1000000) by (apply Rmult_le_compat_l; lra).
    assert (M3 : eta * eta <= eta * / 1000000) by (apply Rmult_le_compat_l; lra).
    assert (UR : 0 <= uro * r2) by (apply Rmult_le_pos; lra). lra. }
  clear HP Hp. unfold Rabs in K. destruct (Rcase_abs (P - p)), (Rcase_abs p); lra.
Qed.
Local Existing Instance F64Scalar.
Definition vals (q : f64 * f64 * f64) : V3 := let '(x, y, z) := q in (val x, val y, val z).
Local Notation "x -' y" := (b64_minus mode_NE x y) (at level 50, left associativity).
Local Notation "x +' y" := (b64_plus mode_NE x y) (at level 50, left associativity).
Local Notation "x *' y" := (b64_mult mode_NE x y) (at level 40, left associativity).

Lemma ray_test_eq (cfg : Cfg) (o0 o1 o2 g0 g1 g2 c0 c1 c2 r t : f64) :
  ray_test_sphere ([o0; o1; o2], [g0; g1; g2]) [c0; c1; c2; r] t =
  let w0 := c0 -' o0 in let w1 := c1 -' o1 in let w2 := c2 -' o2 in
  let P := ((f64_zero +' (w0 *' g0)) +' (w1 *' g1)) +' (w2 *' g2) in
  let S := ((f64_zero +' (w0 *' w0)) +' (w1 *' w1)) +' (w2 *' w2) in
  let Q := r *' r in
  if Bltb P f64_zero && Bltb Q S then Ok (false, t)
  else let e := S -' P *' P in if Bltb Q e then Ok (false, t)
  else let Y := b64_sqrt mode_NE (Q -' e) in Ok (true, if Bltb Q S then P -' Y else P +' Y).
Proof. unfold ray_test_sphere, vec_sub, vec_sub_assign, vec_dot, vec_squared_length, vec_set3, vat, vset. destruct safe; reflexivity. Qed.
(** What the margin of C140 is: rounding errors of 64 half-ulps of D^2 + r^2. *)
Definition ray_margin (D r : R) : R := 64 / 2 ^ 53 * (D * D + r * r) + / 2 ^ 1069.
Definition ray_range (o d c : f64 * f64 * f64) (r : f64) : Prop :=
  (forall k, (k < 3)%nat -> (fin (comp k o) /\ Rabs (val (comp k o)) <= 2 ^ 200) /\ (fin (comp k c) /\ Rabs (val (comp k c)) <= 2 ^ 200) /\
     (fin (comp k d) /\ Rabs (val (comp k d)) <= 2 ^ 500)) /\
  fin r /\ 0 <= val r <= 2 ^ 200 /\ / 2 ^ 450 <= len3R (vals d).

Lemma ray_normalized (cfg : Cfg) (o d : f64 * f64 * f64) : 
  (forall k, (k < 3)%nat -> fin (comp k d) /\ Rabs (val (comp k d)) <= 2 ^ 500) -> / 2 ^ 450 <= len3R (vals d) ->
  exists g0 g1 g2, ray_make (l3 o) (l3 d) = Ok (l3 o, [g0; g1; g2]) /\
  forall k g, (k < 3)%nat -> nth_error [g0; g1; g2] k = Some g -> fin g /\ Rabs (val g - val (comp k d) / len3R (vals d)) <= 12 * uro * Rabs (val (comp k d) / len3R (vals d)) + eta.
Proof.
  intros HF HL. assert (Hd : repV 3 (l3 d) (fun k => comp k d)).
  { destruct d as [[x y] z]. split; [reflexivity|]. intros i Hi. destruct i as [|[|[|i]]]; try lia; reflexivity. }
  assert (EL : lenR 3 (fun k => val (comp k d)) = len3R (vals d)).
  { destruct d as [[x y] z]. unfold lenR, dotR, len3R, vals, dot3. cbn [rsum]. f_equal. cbn -[val]. ring. }
  destruct (C116_normalize_error cfg 3 (l3 d) _ Hd ltac:(cbn; lia) HF) as (n & v' & g & E & _ & (L & N) & G & _); [rewrite EL; exact HL|].
  rewrite EL in G. exists (g 0%nat), (g 1%nat), (g 2%nat).
  assert (EV : v' = [g 0%nat; g 1%nat; g 2%nat]).
  { pose proof (N 0%nat ltac:(lia)). pose proof (N 1%nat ltac:(lia)). pose proof (N 2%nat ltac:(lia)).
    destruct v' as [|a [|b [|c [|]]]]; try discriminate L. cbn in *. congruence. }
  split; [unfold ray_make, vec_normalized; rewrite E, EV; reflexivity|].
  intros k x Hk Hx. assert (x = g k) as ->. { destruct k as [|[|[|k]]]; try lia; cbn in Hx; congruence. }
  destruct (G k Hk) as (F & B). split; [exact F|]. eapply Rle_trans; [exact B|]. apply Req_le. change (/ 2 ^ 1075) with eta.
  rewrite uro_val. cbn [INR]. replace (2 ^ 52) with 4503599627370496 by (cbn; lra). lra.
Qed.
(** A positive double is at least the smallest one. *)
Lemma val_min_pos (x : f64) : fin x -> 0 < val x -> bp (-1074) <= val x.
Proof.
  intros F H. pose proof (generic_format_B2R 53 1024 x) as G. 
  change (-1074)%Z with (SpecFloat.emin 53 1024) in *.
  assert (E : generic_format radix2 (FLT_exp (SpecFloat.emin 53 1024) 53) (val x)) by exact G.
  assert (PG : Prec_gt_0 53) by reflexivity. apply (FLT_format_generic radix2 (SpecFloat.emin 53 1024) 53) in E. destruct E as [f Ef Hm He].
  rewrite Ef in H |- *. unfold F2R in *. pose proof (bpow_gt_0 radix2 (Fexp f)) as B.
  assert (M : (1 <= Fnum f)%Z). { apply (Zlt_le_succ 0). apply lt_IZR. apply (Rmult_lt_reg_r (bp (Fexp f))); [exact B|]. lra. }
  apply IZR_le in M. apply Rle_trans with (bp (Fexp f)); [apply bpow_le, He|]. rewrite <- (Rmult_1_l (bp (Fexp f))) at 1. apply Rmult_le_compat_r; lra.
Qed.
Theorem C140_ray_sphere_double :
  forall (cfg : Cfg) (o d c : f64 * f64 * f64) (r t0 : f64), ray_range o d c r ->
  let O := vals o in let V := vals d in let C := vals c in let D := dist3 O C in
  let foot := along O V (dot3 (sub3 C O) (scale3 (/ len3R V) V)) in let h := dist3 foot C in
  let m := ray_margin D (val r) in
  m < Rabs (D * D - val r * val r) -> m < Rabs (h * h - val r * val r) ->
  exists ry hit t, ray_make (l3 o) (l3 d) = Ok ry /\ ray_test_sphere ry (l3 c ++ [r]) t0 = Ok (hit, t) /\
  (hit = true <-> exists k, 0 <= k /\ dist3 (along O V k) C = val r) /\
  (hit = false -> t = t0) /\
  (hit = true -> fin t /\ exists k, 0 <= k /\ dist3 (along O V k) C = val r /\
     (forall k', 0 <= k' -> dist3 (along O V k') C = val r -> k <= k') /\
     Rabs (val t - k) <= 24 / 2 ^ 53 * (D + val r) + 2 * m / sqrt (val r * val r - h * h) + / 2 ^ 1072).
Proof.
  intros cfg o d c r t0 (HR & Fr & (r0 & rB) & HL) O V C D foot h m M1 M2.
  destruct (ray_normalized cfg o d (fun k Hk => proj2 (proj2 (HR k Hk))) HL) as (g0 & g1 & g2 & EM & G).
  destruct o as [[o0 o1] o2], d as [[d0 d1] d2], c as [[c0 c1] c2]. cbn [l3 app] in *.
  assert (LV : 0 < len3R V). { eapply Rlt_le_trans; [|exact HL]. apply Rinv_0_lt_compat, pow_lt; lra. }
  assert (VZ : V <> zero3) by (intros E; rewrite E in LV; unfold len3R, zero3, dot3 in LV; replace (0 * 0 + 0 * 0 + 0 * 0) with 0 in LV by ring; rewrite sqrt_0 in LV; lra).
  destruct eta_small as (E0 & E1). assert (U : 0 < uro <= / 1000000) by (rewrite uro_val; lra).
  assert (E200 : 2 ^ 200 = bp 200) by exact (eq_sym (bpow_pow 200)).
  destruct (HR 0%nat ltac:(lia)) as (Oo0 & Oc0 & _). destruct (HR 1%nat ltac:(lia)) as (Oo1 & Oc1 & _). destruct (HR 2%nat ltac:(lia)) as (Oo2 & Oc2 & _).
  cbn [comp] in Oo0, Oc0, Oo1, Oc1, Oo2, Oc2. rewrite E200 in Oo0, Oc0, Oo1, Oc1, Oo2, Oc2, rB.
  fold (okf 200 o0) in Oo0. fold (okf 200 o1) in Oo1. fold (okf 200 o2) in Oo2. fold (okf 200 c0) in Oc0. fold (okf 200 c1) in Oc1. fold (okf 200 c2) in Oc2.
  destruct (G 0%nat g0 ltac:(lia) eq_refl) as (Fg0 & Bg0). destruct (G 1%nat g1 ltac:(lia) eq_refl) as (Fg1 & Bg1). destruct (G 2%nat g2 ltac:(lia) eq_refl) as (Fg2 & Bg2).
  cbn [comp] in Bg0, Bg1, Bg2. fold V in Bg0, Bg1, Bg2.
  set (u0 := val d0 / len3R V) in *. set (u1 := val d1 / len3R V) in *. set (u2 := val d2 / len3R V) in *.
  set (v0 := val c0 - val o0). set (v1 := val c1 - val o1). set (v2 := val c2 - val o2).
  set (p := v0 * u0 + v1 * u1 + v2 * u2).
  assert (U1 : u0 * u0 + u1 * u1 + u2 * u2 = 1).
  { pose proof (len3_unit V ltac:(lra)) as K. apply len3_one_iff in K. unfold V, vals in K. cbn [scale3 dot3] in K.
    fold V in K. unfold u0, u1, u2, Rdiv. change (vals (d0, d1, d2)) with V in K. cbn in K. rewrite <- K. unfold V, vals. ring. }
  assert (UB : Rabs u0 <= 1 /\ Rabs u1 <= 1 /\ Rabs u2 <= 1).
  { assert (Q0 := Rle_0_sqr u0). assert (Q1 := Rle_0_sqr u1). assert (Q2 := Rle_0_sqr u2). unfold Rsqr in *. repeat split; apply Rabs_le; split; nra. }
  destruct UB as (UB0 & UB1 & UB2).
  assert (Ep : dot3 (sub3 C O) (scale3 (/ len3R V) V) = p).
  { unfold p, v0, v1, v2, u0, u1, u2, O, C. generalize (len3R V). intros L. unfold V, vals. cbn. unfold Rdiv. ring. }
  assert (ED : D * D = v0 * v0 + v1 * v1 + v2 * v2).
  { unfold D, dist3. rewrite len3_sq. unfold O, C, vals. cbn. unfold v0, v1, v2. ring. }
  assert (D0 : 0 <= D) by apply len3_nonneg.
  assert (K : forall k, dot3 (sub3 (along O V k) C) (sub3 (along O V k) C) = k * k - 2 * k * p + D * D).
  { intros k. rewrite (along_dist O V C k VZ). cbv zeta. rewrite Ep. f_equal. rewrite ED. unfold O, C, vals. cbn. unfold v0, v1, v2. ring. }
  assert (Eh : h * h = D * D - p * p).
  { unfold h, dist3. rewrite len3_sq. unfold foot. rewrite Ep, K. ring. }
  assert (KS : forall k, dist3 (along O V k) C = val r <-> k * k - 2 * k * p + D * D = val r * val r).
  { intros k. rewrite on_sphere_iff by exact r0. rewrite K. reflexivity. }
  assert (H0 : 0 <= h * h) by (apply Rle_0_sqr).
  assert (pD : Rabs p <= D).
  { rewrite <- (Rabs_pos_eq D D0). apply Rsqr_le_abs_0. unfold Rsqr. lra. }
  assert (Em : m = 64 * uro * (D * D + val r * val r) + 64 * eta).
  { unfold m, ray_margin. rewrite uro_2. replace (/ 2 ^ 1069) with (64 * eta); [unfold Rdiv; ring|].
    unfold eta. change 1075%nat with (6 + 1069)%nat. rewrite pow_add. assert (0 < 2 ^ 1069) by (apply pow_lt; lra). cbn [pow]. field. }
  assert (UN : forall u g, Rabs u <= 1 -> fin g -> Rabs (val g - u) <= 12 * uro * Rabs u + eta -> okf 1 g).
  { intros u g A F B. split; [exact F|]. apply abs_tri_err in B. change (bp 1) with 2. 
    assert (12 * uro * Rabs u <= 12 * uro * 1) by (apply Rmult_le_compat_l; lra). lra. }
  pose proof (UN u0 g0 UB0 Fg0 Bg0) as Og0. pose proof (UN u1 g1 UB1 Fg1 Bg1) as Og1. pose proof (UN u2 g2 UB2 Fg2 Bg2) as Og2. clear UN G HR.
  pose proof (ray_test_eq cfg o0 o1 o2 g0 g1 g2 c0 c1 c2 r t0) as ET. cbv zeta in ET.
  destruct (okf_minus 200 201 c0 o0 Oc0 Oo0 eq_refl ltac:(lia)) as (Ow0 & Bw0). destruct (okf_minus 200 201 c1 o1 Oc1 Oo1 eq_refl ltac:(lia)) as (Ow1 & Bw1).
  destruct (okf_minus 200 201 c2 o2 Oc2 Oo2 eq_refl ltac:(lia)) as (Ow2 & Bw2).
  fold v0 in Bw0. fold v1 in Bw1. fold v2 in Bw2.
  set (w0 := c0 -' o0) in *. set (w1 := c1 -' o1) in *. set (w2 := c2 -' o2) in *.
  destruct (okf_mult 201 1 202 w0 g0 Ow0 Og0 eq_refl ltac:(lia)) as (Ot0 & Bt0). destruct (okf_mult 201 1 202 w1 g1 Ow1 Og1 eq_refl ltac:(lia)) as (Ot1 & Bt1).
  destruct (okf_mult 201 1 202 w2 g2 Ow2 Og2 eq_refl ltac:(lia)) as (Ot2 & Bt2).
  destruct (okf_mult 201 201 402 w0 w0 Ow0 Ow0 eq_refl ltac:(lia)) as (Oq0 & Bq0). destruct (okf_mult 201 201 402 w1 w1 Ow1 Ow1 eq_refl ltac:(lia)) as (Oq1 & Bq1).
  destruct (okf_mult 201 201 402 w2 w2 Ow2 Ow2 eq_refl ltac:(lia)) as (Oq2 & Bq2).
  apply (ray_prod v0 u0 _ _ _ E0 E1 UB0 Bw0 Bg0) in Bt0. apply (ray_prod v1 u1 _ _ _ E0 E1 UB1 Bw1 Bg1) in Bt1. apply (ray_prod v2 u2 _ _ _ E0 E1 UB2 Bw2 Bg2) in Bt2.
  apply (ray_square v0 _ _ E0 Bw0) in Bq0. apply (ray_square v1 _ _ E0 Bw1) in Bq1. apply (ray_square v2 _ _ E0 Bw2) in Bq2.
  set (t0' := w0 *' g0) in *. set (t1' := w1 *' g1) in *. set (t2' := w2 *' g2) in *. set (q0 := w0 *' w0) in *. set (q1 := w1 *' w1) in *. set (q2 := w2 *' w2) in *.
  destruct okf_zero as (OZ & VZ0).
  destruct (okf_plus 202 203 f64_zero t0' (okf_le 0 202 _ OZ ltac:(lia)) Ot0 eq_refl ltac:(lia)) as (Os0 & Bs0).
  destruct (okf_plus 203 204 _ t1' Os0 (okf_le 202 203 _ Ot1 ltac:(lia)) eq_refl ltac:(lia)) as (Os1 & Bs1).
  destruct (okf_plus 204 205 _ t2' Os1 (okf_le 202 204 _ Ot2 ltac:(lia)) eq_refl ltac:(lia)) as (OP & Bs2).
  destruct (okf_plus 402 403 f64_zero q0 (okf_le 0 402 _ OZ ltac:(lia)) Oq0 eq_refl ltac:(lia)) as (Oz0 & Bz0).
  destruct (okf_plus 403 404 _ q1 Oz0 (okf_le 402 403 _ Oq1 ltac:(lia)) eq_refl ltac:(lia)) as (Oz1 & Bz1).
  destruct (okf_plus 404 405 _ q2 Oz1 (okf_le 402 404 _ Oq2 ltac:(lia)) eq_refl ltac:(lia)) as (OS & Bz2).
  set (P := f64_zero +' t0' +' t1' +' t2') in *. set (S := f64_zero +' q0 +' q1 +' q2) in *.
  rewrite VZ0, Rplus_0_l in Bs0, Bz0.
  assert (VD : forall v, In v [v0; v1; v2] -> Rabs v <= D).
  { assert (Q0 := Rle_0_sqr v0). assert (Q1 := Rle_0_sqr v1). assert (Q2 := Rle_0_sqr v2). unfold Rsqr in *.
    intros v Hv. rewrite <- (Rabs_pos_eq D D0). apply Rsqr_le_abs_0. unfold Rsqr. rewrite ED. cbn [In] in Hv. destruct Hv as [<-|[<-|[<-|[]]]]; lra. }
  assert (CS : Rabs (v0 * u0) + Rabs (v1 * u1) + Rabs (v2 * u2) <= D).
  { pose proof (dot3_cs (Rabs v0, Rabs v1, Rabs v2) (Rabs u0, Rabs u1, Rabs u2)) as CS. cbn in CS.
    assert (SQ : forall x, Rabs x * Rabs x = x * x) by (intros x; rewrite <- Rabs_mult; apply Rabs_pos_eq, Rle_0_sqr).
    rewrite !SQ, U1, Rmult_1_r, <- ED in CS. rewrite !Rabs_mult. apply Rsqr_incr_0_var; [|exact D0]. unfold Rsqr. exact CS. }
  assert (HP : Rabs (val P - p) <= 22 * uro * D + 4 * eta).
  { pose proof (VD v0 ltac:(cbn; tauto)) as A0. pose proof (VD v1 ltac:(cbn; tauto)) as A1. pose proof (VD v2 ltac:(cbn; tauto)) as A2.
    assert (UD : 0 <= uro * D) by (apply Rmult_le_pos; lra).
    assert (BB : Rabs (val t0' - v0 * u0) + Rabs (val t1' - v1 * u1) + Rabs (val t2' - v2 * u2) <= 15 * uro * D + uro / 10 * (3 * D) + 3 * eta).
    { assert (uro * (Rabs (v0 * u0) + Rabs (v1 * u1) + Rabs (v2 * u2)) <= uro * D) by (apply Rmult_le_compat_l; lra).
      assert (uro * Rabs v0 <= uro * D) by (apply Rmult_le_compat_l; lra). assert (uro * Rabs v1 <= uro * D) by (apply Rmult_le_compat_l; lra).
      assert (uro * Rabs v2 <= uro * D) by (apply Rmult_le_compat_l; lra). lra. }
    pose proof (Rabs_pos (val t0' - v0 * u0)). pose proof (Rabs_pos (val t1' - v1 * u1)). pose proof (Rabs_pos (val t2' - v2 * u2)).
    pose proof (ray_sum _ _ _ _ _ _ _ _ _ D E0 E1 D0 CS _ BB Bs0 Bs1 Bs2) as R. fold P in R. fold p in R. lra. }
  assert (HS : Rabs (val S - D * D) <= 8 * uro * (D * D) + 4 * eta).
  { assert (SQ : forall x, Rabs (x * x) = x * x) by (intros x; apply Rabs_pos_eq, Rle_0_sqr).
    assert (Q0 := Rle_0_sqr v0). assert (Q1 := Rle_0_sqr v1). assert (Q2 := Rle_0_sqr v2). unfold Rsqr in *.
    assert (UD : 0 <= uro * (D * D)) by (apply Rmult_le_pos; [lra|apply Rle_0_sqr]).
    assert (BB : Rabs (val q0 - v0 * v0) + Rabs (val q1 - v1 * v1) + Rabs (val q2 - v2 * v2) <= 31 / 10 * uro * (D * D) + 3 * eta) by (rewrite ED; lra).
    pose proof (Rabs_pos (val q0 - v0 * v0)). pose proof (Rabs_pos (val q1 - v1 * v1)). pose proof (Rabs_pos (val q2 - v2 * v2)).
    assert (SS : Rabs (v0 * v0) + Rabs (v1 * v1) + Rabs (v2 * v2) <= D * D) by (rewrite !SQ, ED; lra).
    pose proof (ray_sum _ _ _ _ _ _ _ _ _ (D * D) E0 E1 (Rle_0_sqr D) SS _ BB Bz0 Bz1 Bz2) as R. fold S in R. rewrite <- ED in R. lra. }
  clear Bs0 Bs1 Bs2 Bz0 Bz1 Bz2 Bt0 Bt1 Bt2 Bq0 Bq1 Bq2 Bw0 Bw1 Bw2 Bg0 Bg1 Bg2 CS VD.
  assert (Or : okf 200 r) by (split; [exact Fr|rewrite Rabs_pos_eq; assumption]).
  destruct (okf_mult 200 200 400 r r Or Or eq_refl ltac:(lia)) as (OR & BR). rewrite (Rabs_pos_eq (val r * val r)) in BR by apply Rle_0_sqr.
  destruct (okf_mult 205 205 410 P P OP OP eq_refl ltac:(lia)) as (OPP & BPP).
  apply (ray_pp D p _ _ E0 E1 D0 pD HP) in BPP.
  destruct (okf_minus 410 411 S (P *' P) (okf_le 405 410 _ OS ltac:(lia)) OPP eq_refl ltac:(lia)) as (OQ & BQ).
  destruct (okf_minus 411 412 (r *' r) (S -' P *' P) (okf_le 400 411 _ OR ltac:(lia)) OQ eq_refl ltac:(lia)) as (OX & BX).
  assert (r2 : 0 <= val r * val r) by apply Rle_0_sqr. assert (p2 : 0 <= p * p) by apply Rle_0_sqr.
  destruct (ray_quantities (D * D) (p * p) (val r * val r) _ _ _ _ _ E0 ltac:(lra) r2 HS BPP BR BQ BX) as (HQ & HX).
  rewrite <- Eh in HQ, HX. rewrite <- Em in HX.
  set (RR := r *' r) in *. set (Q := S -' P *' P) in *. set (X := RR -' Q) in *.
  exists ([o0; o1; o2], [g0; g1; g2]). 
  assert (FP : fin P) by apply OP. assert (FS : fin S) by apply OS. assert (FR : fin RR) by apply OR. assert (FQ : fin Q) by apply OQ. assert (FX : fin X) by apply OX.
  assert (FZ : fin f64_zero) by apply OZ.
  assert (m0 : 0 < m). { rewrite Em. assert (0 <= uro * (D * D + val r * val r)) by (apply Rmult_le_pos; [lra|pose proof (Rle_0_sqr D); unfold Rsqr in *; lra]). lra. }
  assert (UD : 0 <= uro * (D * D)) by (apply Rmult_le_pos; [lra|apply Rle_0_sqr]). assert (UR : 0 <= uro * (val r * val r)) by (apply Rmult_le_pos; lra).
  apply Rabs_le_inv in HS as HS'. apply Rabs_le_inv in BR as BR'. apply Rabs_le_inv in HQ as HQ'.
  assert (CSR : Bltb RR S = true <-> val r * val r < D * D).
  { rewrite (Bltb_fin RR S FR FS). unfold Rabs in M1. destruct (Rcase_abs (D * D - val r * val r)); split; intros; lra. }
  assert (CQR : Bltb RR Q = true <-> val r * val r < h * h).
  { rewrite (Bltb_fin RR Q FR FQ). unfold Rabs in M2. destruct (Rcase_abs (h * h - val r * val r)); split; intros; lra. }
  (* the value of the parameter *)
  set (Y := b64_sqrt mode_NE X) in *.
  assert (HT : h * h < val r * val r -> forall (sg : R) (T : f64), (sg = 1 /\ T = P +' Y \/ sg = -1 /\ T = P -' Y) ->
     fin T /\ Rabs (val T - (p + sg * sqrt (val r * val r - h * h))) <= 24 / 2 ^ 53 * (D + val r) + 2 * m / sqrt (val r * val r - h * h) + / 2 ^ 1072).
  { intros Hh sg T Hsg. assert (MX : m < val r * val r - h * h) by (unfold Rabs in M2; destruct (Rcase_abs (h * h - val r * val r)); lra).
    apply Rabs_le_inv in HX as HX'. assert (X0 : 0 < val X) by lra.
    destruct (sqrt_fin X FX X0) as (FY & EY).
    assert (SX : sqrt (val X) <= bp 206). { rewrite <- (sqrt_square (bp 206)) by apply bpow_ge_0. apply sqrt_le_1_alt. rewrite <- bpow_plus. destruct OX as (_ & OX). apply Rabs_le_inv in OX. apply OX. }
    assert (BY : Rabs (val Y - sqrt (val X)) <= uro * sqrt (val X)).
    { unfold Y. rewrite EY. assert (N : bp (-1022) <= Rabs (sqrt (val X))).
      { rewrite Rabs_pos_eq by apply sqrt_pos. rewrite <- (sqrt_square (bp (-1022))) by apply bpow_ge_0. apply sqrt_le_1_alt. rewrite <- bpow_plus.
        destruct OX as (_ & _). pose proof (val_min_pos X FX X0) as VM. eapply Rle_trans; [|exact VM]. apply bpow_le. lia. }
      destruct (rnd_rel _ N) as (e & He & ->). replace (sqrt (val X) * (1 + e) - sqrt (val X)) with (e * sqrt (val X)) by ring.
      rewrite Rabs_mult, (Rabs_pos_eq (sqrt (val X))) by apply sqrt_pos. apply Rmult_le_compat_r; [apply sqrt_pos|exact He]. }
    assert (OY : okf 207 Y).
    { split; [exact FY|]. apply abs_tri_err in BY. rewrite (Rabs_pos_eq (sqrt (val X))) in BY by apply sqrt_pos.
      change 207%Z with (1 + 206)%Z. rewrite bpow_plus. change (bp 1) with 2. pose proof (sqrt_pos (val X)). assert (uro * sqrt (val X) <= 1 * sqrt (val X)) by (apply Rmult_le_compat_r; lra). lra. }
    set (s := sqrt (val r * val r - h * h)). assert (s0 : 0 < s) by (apply sqrt_lt_R0; lra).
    assert (ss : s * s = val r * val r - h * h) by (apply sqrt_sqrt; lra).
    assert (sr : s <= val r). { rewrite <- (sqrt_square (val r)) by exact r0. apply sqrt_le_1_alt. lra. }
    assert (ET2 : fin T /\ Rabs (val T - (val P + sg * val Y)) <= uro * Rabs (val P + sg * val Y)).
    { destruct Hsg as [(-> & ->)|(-> & ->)].
      - destruct (okf_plus 207 208 P Y (okf_le 205 207 _ OP ltac:(lia)) OY eq_refl ltac:(lia)) as ((F & _) & B). split; [exact F|]. rewrite Rmult_1_l. exact B.
      - destruct (okf_minus 207 208 P Y (okf_le 205 207 _ OP ltac:(lia)) OY eq_refl ltac:(lia)) as ((F & _) & B). split; [exact F|].
        replace (val P + -1 * val Y) with (val P - val Y) by ring. exact B. }
    destruct ET2 as (FT & BT). split; [exact FT|].
    rewrite <- ss in HX.
    pose proof (ray_T D p (val r) s m (val P) (val X) (val Y) (val T) sg E0 E1 D0 pD s0 sr ltac:(lra) ltac:(lra) ltac:(destruct Hsg as [(-> & _)|(-> & _)]; auto) HP X0 HX BY BT) as R.
    replace (24 / 2 ^ 53) with (24 * uro) by (rewrite uro_2; reflexivity).
    replace (/ 2 ^ 1072) with (8 * eta); [exact R|].
    unfold eta. change 1075%nat with (3 + 1072)%nat. rewrite pow_add. assert (0 < 2 ^ 1072) by (apply pow_lt; lra). cbn [pow]. field. }
  assert (FF : h * h < val r * val r -> let s := sqrt (val r * val r - h * h) in 0 <= s /\ s * s = val r * val r - h * h /\
     forall k, dist3 (along O V k) C = val r <-> k = p - s \/ k = p + s).
  { intros Hh s. assert (s0 : 0 <= s) by apply sqrt_pos. assert (ss : s * s = val r * val r - h * h) by (apply sqrt_sqrt; lra).
    split; [exact s0|]. split; [exact ss|]. intros k. rewrite KS. replace (k * k - 2 * k * p + D * D = val r * val r) with (k * k - 2 * k * p + D * D = s * s + h * h) by (f_equal; lra).
    rewrite Eh. split.
    - intros E. assert (Z : (k - (p - s)) * (k - (p + s)) = 0) by lra. apply Rmult_integral in Z. destruct Z; [left|right]; lra.
    - intros [-> | ->]; ring. }
  assert (NF : val r * val r < h * h -> forall k, dist3 (along O V k) C = val r -> False).
  { intros Hh k Ek. apply KS in Ek. pose proof (Rle_0_sqr (k - p)) as Z. unfold Rsqr in Z. lra. }
  change ([c0; c1; c2] ++ [r]) with [c0; c1; c2; r].
  destruct (Rlt_le_dec (val r * val r) (h * h)) as [Hh|Hh].
  - (* clear miss *)
    exists false, t0. split; [exact EM|]. split; [|split; [split; [discriminate|intros (k & _ & Ek); destruct (NF Hh k Ek)]|split; [reflexivity|discriminate]]].
    rewrite ET. apply CQR in Hh. rewrite Hh. destruct (Bltb P f64_zero && Bltb RR S); reflexivity.
  - assert (Hh' : h * h < val r * val r) by (destruct Hh as [Hh|Hh]; [exact Hh|exfalso; rewrite Hh, Rminus_diag_eq, Rabs_R0 in M2; lra]).
    assert (CQ : Bltb RR Q = false) by (destruct (Bltb RR Q); [exfalso; pose proof (proj1 CQR eq_refl); lra|reflexivity]). rewrite CQ in ET.
    destruct (FF Hh') as (s0 & ss & KK). specialize (HT Hh'). set (s := sqrt (val r * val r - h * h)) in *.
    destruct (Rlt_le_dec (val r * val r) (D * D)) as [HD|HD].
    + (* origin outside *)
      rewrite (proj2 CSR HD), andb_true_r in ET.
      assert (Sg : val P < 0 <-> p < 0).
      { apply (ray_sign D p (val P) (val r * val r) m E0 E1 D0 r2 Em); [|exact HP].
        unfold Rabs in M1, M2. destruct (Rcase_abs (D * D - val r * val r)), (Rcase_abs (h * h - val r * val r)); lra. }
      assert (ps : s * s < p * p) by lra.
      destruct (Bltb P f64_zero) eqn:EB.
      * assert (pn : p < 0) by (apply Sg; apply (Bltb_fin P f64_zero FP FZ) in EB; rewrite VZ0 in EB; exact EB).
        assert (sn : s < - p) by (apply Rsqr_incrst_0; unfold Rsqr; lra).
        exists false, t0. split; [exact EM|]. split; [exact ET|]. split; [split; [discriminate|]|split; [reflexivity|discriminate]].
        intros (k & k0 & Ek). apply KK in Ek. lra.
      * assert (pn : 0 <= p). { apply Rnot_lt_le. intros L. apply Sg in L. rewrite <- VZ0 in L. apply (Bltb_fin P f64_zero FP FZ) in L. congruence. }
        assert (sn : s < p) by (apply Rsqr_incrst_0; unfold Rsqr; lra).
        exists true, (P -' Y). split; [exact EM|]. split; [exact ET|].
        assert (OKk : 0 <= p - s /\ dist3 (along O V (p - s)) C = val r) by (split; [lra|apply KK; left; reflexivity]).
        split; [split; [intros _; exists (p - s); exact OKk|reflexivity]|]. split; [discriminate|intros _].
        destruct (HT (-1) (P -' Y) (or_intror (conj eq_refl eq_refl))) as (FT & BT). split; [exact FT|]. exists (p - s). split; [apply OKk|]. split; [apply OKk|]. split.
        { intros k' _ Ek. apply KK in Ek. lra. }
        replace (p - s) with (p + -1 * s) by ring. exact BT.
    + (* origin inside *)
      assert (HD' : D * D < val r * val r) by (destruct HD as [HD|HD]; [exact HD|exfalso; rewrite HD, Rminus_diag_eq, Rabs_R0 in M1; lra]).
      assert (CS : Bltb RR S = false) by (destruct (Bltb RR S); [exfalso; pose proof (proj1 CSR eq_refl); lra|reflexivity]).
      rewrite CS, andb_false_r in ET.
      assert (ps : Rabs p < s). { rewrite <- (Rabs_pos_eq s s0). apply Rsqr_lt_abs_0. unfold Rsqr. lra. }
      apply Rabs_lt_inv in ps.
      exists true, (P +' Y). split; [exact EM|]. split; [exact ET|].
      assert (OKk : 0 <= p + s /\ dist3 (along O V (p + s)) C = val r) by (split; [lra|apply KK; right; reflexivity]).
      split; [split; [intros _; exists (p + s); exact OKk|reflexivity]|]. split; [discriminate|intros _].
      destruct (HT 1 (P +' Y) (or_introl (conj eq_refl eq_refl))) as (FT & BT). split; [exact FT|]. exists (p + s). split; [apply OKk|]. split; [apply OKk|]. split.
      { intros k' k0 Ek. apply KK in Ek. lra. }
      replace (p + s) with (p + 1 * s) by ring. exact BT.
Qed.
Print Assumptions C140_ray_sphere_double.

(** Non-trivial instance: a ray from (0, 0, -2) in direction (0, 0, 2) hits the
    unit sphere about the origin. *)
Example C140_hypotheses_met :
  let o := (f64_zero, f64_zero, b64_opp f64_two) in let d := (f64_zero, f64_zero, f64_two) in let c := (f64_zero, f64_zero, f64_zero) in
  ray_range o d c f64_one /\
  let O := vals o in let V := vals d in let C := vals c in let D := dist3 O C in
  let foot := along O V (dot3 (sub3 C O) (scale3 (/ len3R V) V)) in let h := dist3 foot C in
  let m := ray_margin D (val f64_one) in
  m < Rabs (D * D - val f64_one * val f64_one) /\ m < Rabs (h * h - val f64_one * val f64_one) /\ D = 2 /\ h = 0.
Proof.
  cbv zeta. assert (V0 : val f64_zero = 0) by reflexivity. pose proof val_one as V1. pose proof val_two as V2.
  assert (VM : val (b64_opp f64_two) = -2) by (unfold val, b64_opp; rewrite B2R_Bopp; fold (val f64_two); rewrite V2; ring).
  assert (L2 : len3R (0, 0, 2) = 2) by (unfold len3R; cbn; replace (0 * 0 + 0 * 0 + 2 * 2) with (2 * 2) by ring; apply sqrt_square; lra).
  assert (P0 : 1 <= 2 ^ 200) by (apply pow_R1_Rle; lra). assert (P1 : 2 <= 2 ^ 200) by (change 200%nat with (1 + 199)%nat; rewrite pow_add; assert (1 <= 2 ^ 199) by (apply pow_R1_Rle; lra); lra).
  assert (P2 : 2 <= 2 ^ 500) by (change 500%nat with (1 + 499)%nat; rewrite pow_add; assert (1 <= 2 ^ 499) by (apply pow_R1_Rle; lra); lra).
  assert (P3 : / 2 ^ 450 <= 1) by (rewrite <- Rinv_1; apply Rinv_le_contravar; [lra|apply pow_R1_Rle; lra]).
  assert (P4 : 0 < / 2 ^ 1069 <= / 2).
  { assert (Q : 2 <= 2 ^ 1069) by (change 1069%nat with (1 + 1068)%nat; rewrite pow_add; assert (1 <= 2 ^ 1068) by (apply pow_R1_Rle; lra); lra).
    split; [apply Rinv_0_lt_compat; lra|apply Rinv_le_contravar; lra]. }
  assert (ED : dist3 (0, 0, -2) (0, 0, 0) = 2).
  { unfold dist3, len3R. cbn. replace ((0 - 0) * (0 - 0) + (0 - 0) * (0 - 0) + (-2 - 0) * (-2 - 0)) with (2 * 2) by ring. apply sqrt_square. lra. }
  assert (EH : dist3 (along (0, 0, -2) (0, 0, 2) (dot3 (sub3 (0, 0, 0) (0, 0, -2)) (scale3 (/ len3R (0, 0, 2)) (0, 0, 2)))) (0, 0, 0) = 0).
  { rewrite L2. unfold along. rewrite L2. unfold dist3, len3R. cbn -[sqrt Rplus Rmult Rminus Ropp Rinv IZR Rdiv]. apply eq_trans with (sqrt 0); [apply f_equal; field|apply sqrt_0]. }
  split.
  - split; [|split; [reflexivity|rewrite V1; split; [lra|]]].
    + intros k Hk. destruct k as [|[|[|k]]]; try lia; cbn [comp fst snd]; rewrite ?V0, ?V2, ?VM; repeat split; try reflexivity; apply Rabs_le; lra.
    + cbn [vals]. rewrite V0, V2, L2. lra.
  - cbn [vals]. rewrite V0, V1, V2, VM, ED, EH. unfold ray_margin. replace (2 ^ 53) with 9007199254740992 by (cbn; lra).
    split; [rewrite Rabs_pos_eq; lra|]. split; [rewrite Rabs_left; lra|]. split; reflexivity.
Qed.
