(** Property C205: Quaternion< double >::slerp. *)
From Coq Require Import ZArith Reals Lra Psatz List.
From Flocq Require Import Core.Core IEEE754.BinarySingleNaN IEEE754.Binary IEEE754.Bits.
From Verif Require Import InstF MVector MQuaternion MLit Spec Spec3 PFloat LFloat PFloat2 LErr LExt LRot LDist PDist PCuller3 PQuatF PQuatN PQuantF PAdjust LPersp LSlerp.
From Verif Require PPersp.
Import ListNotations.
Local Open Scope R_scope.
Local Open Scope list_scope.
Local Existing Instance F64Scalar.
Local Notation bp := (bpow radix2).
Local Notation rnd := (round radix2 (FLT_exp (-1074) 53) (Znearest (fun x => negb (Z.even x)))).
Local Notation "a +' b" := (b64_plus mode_NE a b) (at level 50, left associativity).
Local Notation "a -' b" := (b64_minus mode_NE a b) (at level 50, left associativity).
Local Notation "a *' b" := (b64_mult mode_NE a b) (at level 40, left associativity).
Local Notation "a /' b" := (b64_div mode_NE a b) (at level 40, left associativity).

(** The C library: sin on [0, 1.6] and atan2 in the first quadrant have relative
    error d. *)
Definition good_sin (TT : Trig f64) (d : R) : Prop :=
  forall x : f64, fin x -> (val x = 0 \/ / 2 ^ 700 <= val x <= 16 / 10) -> fin (ssin x) /\ Rabs (val (ssin x) - sin (val x)) <= d * sin (val x).
Definition good_atan2 (AT : Atan2 f64) (d : R) : Prop :=
  forall y x : f64, fin y -> fin x -> / 2 ^ 30 <= val y <= 1 -> 0 <= val x <= 1 ->
  fin (satan2 y x) /\ Rabs (val (satan2 y x) - satan2 (val y) (val x)) <= d * satan2 (val y) (val x).

Lemma us2 : 0 < uro <= / 1000000000. Proof. rewrite uro_val. lra. Qed.
Lemma es2 : 0 <= eta <= uro / 1000000.
Proof.
  split; [left; apply eta_pos|]. unfold eta. rewrite uro_val. apply Rle_trans with (/ 2 ^ 100); [apply Rinv_le_contravar; [apply pow_lt; lra|apply Rle_pow; [lra|lia]]|].
  replace (9007199254740992) with (2 ^ 53) by (cbn; lra). cbn. lra.
Qed.

(** ** Components *)
(** x is c up to 14 u |c| + eta, and |c| <= 1. *)
Definition ncomp (x : f64) (c : R) : Prop := fin x /\ Rabs c <= 1 /\ Rabs (val x - c) <= 14 * uro * Rabs c + eta.
Lemma ncomp_abs (x : f64) (c : R) : ncomp x c -> Rabs (val x) <= (1 + 14 * uro) * Rabs c + eta /\ okf 1 x.
Proof.
  intros (F & B & E). pose proof us2 as U. pose proof es2 as ES. pose proof (Rabs_pos c) as C0.
  assert (T : Rabs (val x) <= Rabs (val x - c) + Rabs c) by (replace (val x) with (val x - c + c) at 1 by ring; apply Rabs_triang).
  split; [lra|]. split; [exact F|]. change (bp 1) with 2. assert (uro * Rabs c <= uro * 1) by (apply Rmult_le_compat_l; lra). lra.
Qed.
(** One product of the dot product. *)
Lemma prod_E (x y : f64) (p q : R) : ncomp x p -> ncomp y q ->
  okf 2 (x *' y) /\ Rabs (val (x *' y) - p * q) <= 292 / 10 * uro * (Rabs p * Rabs q) + 5 * eta.
Proof.
  intros Hx Hy. destruct (ncomp_abs x p Hx) as (Ax & Kx). destruct (ncomp_abs y q Hy) as (Ay & Ky).
  destruct Hx as (_ & Bp & Ex), Hy as (_ & Bq & Ey). destruct (mult_E 1 1 x y Kx Ky ltac:(lia)) as (K & _ & E). split; [exact K|].
  pose proof us2 as U. pose proof es2 as ES. pose proof (Rabs_pos p) as P0. pose proof (Rabs_pos q) as Q0.
  set (P := Rabs p) in *. set (Q := Rabs q) in *. set (A := P * Q) in *. assert (A0 : 0 <= A) by (apply Rmult_le_pos; assumption).
  assert (uA : 0 <= uro * A <= / 1000000000 * A) by (split; [apply Rmult_le_pos; lra|apply Rmult_le_compat_r; lra]).
  assert (uuA : 0 <= uro * (uro * A) <= / 1000000000 * (uro * A)) by (split; [apply Rmult_le_pos; lra|apply Rmult_le_compat_r; lra]).
  assert (eP : 0 <= eta * P <= eta) by (split; [apply Rmult_le_pos; lra|rewrite <- (Rmult_1_r eta) at 2; apply Rmult_le_compat_l; lra]).
  assert (eQ : 0 <= eta * Q <= eta) by (split; [apply Rmult_le_pos; lra|rewrite <- (Rmult_1_r eta) at 2; apply Rmult_le_compat_l; lra]).
  assert (ueP : 0 <= uro * (eta * P) <= / 1000000000 * eta) by (split; [apply Rmult_le_pos; lra|apply Rmult_le_compat; lra]).
  assert (ueQ : 0 <= uro * (eta * Q) <= / 1000000000 * eta) by (split; [apply Rmult_le_pos; lra|apply Rmult_le_compat; lra]).
  assert (ee : 0 <= eta * eta <= / 1000000000 * eta) by (split; [apply Rmult_le_pos; lra|apply Rmult_le_compat_r; lra]).
  (* the exact product *)
  assert (D1 : Rabs (val x * val y - p * q) <= 281 / 10 * uro * A + 3 * eta).
  { replace (val x * val y - p * q) with (val x * (val y - q) + (val x - p) * q) by ring. eapply Rle_trans; [apply Rabs_triang|]. rewrite !Rabs_mult. fold Q.
    assert (T1 : Rabs (val x) * Rabs (val y - q) <= ((1 + 14 * uro) * P + eta) * (14 * uro * Q + eta)) by (apply Rmult_le_compat; try apply Rabs_pos; assumption).
    assert (T2 : Rabs (val x - p) * Q <= (14 * uro * P + eta) * Q) by (apply Rmult_le_compat_r; assumption).
    replace (((1 + 14 * uro) * P + eta) * (14 * uro * Q + eta)) with (14 * (uro * A) + eta * P + 196 * (uro * (uro * A)) + 14 * (uro * (eta * P)) + 14 * (uro * (eta * Q)) + eta * eta) in T1 by (unfold A; ring).
    replace ((14 * uro * P + eta) * Q) with (14 * (uro * A) + eta * Q) in T2 by (unfold A; ring). lra. }
  assert (D2 : Rabs (val x * val y) <= A + 281 / 10 * uro * A + 3 * eta).
  { replace (val x * val y) with (val x * val y - p * q + p * q) by ring. eapply Rle_trans; [apply Rabs_triang|]. rewrite (Rabs_mult p q). fold P Q A. lra. }
  assert (D3 : uro * Rabs (val x * val y) <= uro * (A + 281 / 10 * uro * A + 3 * eta)) by (apply Rmult_le_compat_l; lra).
  assert (ue : uro * eta <= / 1000000000 * eta) by (apply Rmult_le_compat_r; lra).
  replace (val (x *' y) - p * q) with (val (x *' y) - val x * val y + (val x * val y - p * q)) by ring. eapply Rle_trans; [apply Rabs_triang|]. lra.
Qed.
(** ** The dot product *)
Definition nquat (n : dquat) (r : Quat) : Prop :=
  let '(x, y, z, w) := n in let '(x', y', z', w') := r in ncomp x x' /\ ncomp y y' /\ ncomp z z' /\ ncomp w w'.
Definition dot64 (p q : dquat) : f64 := let '(x, y, z, w) := p in let '(x', y', z', w') := q in w *' w' +' x *' x' +' y *' y' +' z *' z'.
Lemma q_dot_64 p q : q_dot (arr p) (arr q) = Ok (dot64 p q).
Proof. destruct p as [[[? ?] ?] ?], q as [[[? ?] ?] ?]. reflexivity. Qed.
Lemma half_sum (a b : R) : Rabs a * Rabs b <= (a * a + b * b) / 2.
Proof.
  pose proof (Rle_0_sqr (Rabs a - Rabs b)) as H. unfold Rsqr in H.
  assert (A : Rabs a * Rabs a = a * a) by (rewrite <- Rabs_mult; apply Rabs_pos_eq, Rle_0_sqr).
  assert (B : Rabs b * Rabs b = b * b) by (rewrite <- Rabs_mult; apply Rabs_pos_eq, Rle_0_sqr). lra.
Qed.
Lemma dot_E (n m : dquat) (p q : Quat) : nquat n p -> nquat m q -> qdotR p p = 1 -> qdotR q q = 1 ->
  fin (dot64 n m) /\ Rabs (val (dot64 n m) - qdotR p q) <= 33 * uro.
Proof.
  destruct n as [[[x y] z] w], m as [[[x' y'] z'] w'], p as [[[px py] pz] pw], q as [[[qx qy] qz] qw]. cbn [nquat dot64 qdotR].
  intros (Nx & Ny & Nz & Nw) (Mx & My & Mz & Mw) Hp Hq.
  destruct (prod_E _ _ _ _ Nx Mx) as (Kx & Ex). destruct (prod_E _ _ _ _ Ny My) as (Ky & Ey). destruct (prod_E _ _ _ _ Nz Mz) as (Kz & Ez). destruct (prod_E _ _ _ _ Nw Mw) as (Kw & Ew).
  pose proof (half_sum px qx) as Hx. pose proof (half_sum py qy) as Hy. pose proof (half_sum pz qz) as Hz. pose proof (half_sum pw qw) as Hw.
  assert (AB : forall a b, 0 <= Rabs a * Rabs b) by (intros; apply Rmult_le_pos; apply Rabs_pos).
  pose proof (AB px qx) as A0. pose proof (AB py qy) as A1. pose proof (AB pz qz) as A2. pose proof (AB pw qw) as A3. clear AB.
  assert (L : forall a b, - (Rabs a * Rabs b) <= a * b <= Rabs a * Rabs b) by (intros a b; rewrite <- Rabs_mult; apply abs_le_inv; lra).
  pose proof (L px qx) as L0. pose proof (L py qy) as L1. pose proof (L pz qz) as L2. pose proof (L pw qw) as L3. clear L.
  set (X := Rabs px * Rabs qx) in *. set (Y := Rabs py * Rabs qy) in *. set (Z := Rabs pz * Rabs qz) in *. set (W := Rabs pw * Rabs qw) in *.
  pose proof us2 as U. pose proof es2 as ES.
  assert (uX : 0 <= uro * X <= / 1000000000 * X) by (split; [apply Rmult_le_pos; lra|apply Rmult_le_compat_r; lra]).
  assert (uY : 0 <= uro * Y <= / 1000000000 * Y) by (split; [apply Rmult_le_pos; lra|apply Rmult_le_compat_r; lra]).
  assert (uZ : 0 <= uro * Z <= / 1000000000 * Z) by (split; [apply Rmult_le_pos; lra|apply Rmult_le_compat_r; lra]).
  assert (uW : 0 <= uro * W <= / 1000000000 * W) by (split; [apply Rmult_le_pos; lra|apply Rmult_le_compat_r; lra]).
  assert (SUM : uro * X + uro * Y + uro * Z + uro * W <= uro * 1) by (rewrite <- !Rmult_plus_distr_l; apply Rmult_le_compat_l; lra).
  destruct (plus_E 2 _ _ Kw Kx ltac:(lia)) as (K1 & _ & E1). destruct (plus_E 3 _ _ K1 (okf_le 2 3 _ Ky ltac:(lia)) ltac:(lia)) as (K2 & _ & E2).
  destruct (plus_E 4 _ _ K2 (okf_le 2 4 _ Kz ltac:(lia)) ltac:(lia)) as (K3 & _ & E3).
  apply abs_le_inv in Ex, Ey, Ez, Ew.
  assert (B1 : Rabs (val (w *' w') + val (x *' x')) <= 101 / 100) by (apply Rabs_le; lra).
  assert (F1 : uro * Rabs (val (w *' w') + val (x *' x')) <= uro * (101 / 100)) by (apply Rmult_le_compat_l; lra).
  assert (E1' : Rabs (val (w *' w' +' x *' x') - (val (w *' w') + val (x *' x'))) <= 101 / 100 * uro) by lra. apply abs_le_inv in E1'.
  set (s1 := w *' w' +' x *' x') in *.
  assert (B2 : Rabs (val s1 + val (y *' y')) <= 101 / 100) by (apply Rabs_le; lra).
  assert (F2 : uro * Rabs (val s1 + val (y *' y')) <= uro * (101 / 100)) by (apply Rmult_le_compat_l; lra).
  assert (E2' : Rabs (val (s1 +' y *' y') - (val s1 + val (y *' y'))) <= 101 / 100 * uro) by lra. apply abs_le_inv in E2'.
  set (s2 := s1 +' y *' y') in *.
  assert (B3 : Rabs (val s2 + val (z *' z')) <= 101 / 100) by (apply Rabs_le; lra).
  assert (F3 : uro * Rabs (val s2 + val (z *' z')) <= uro * (101 / 100)) by (apply Rmult_le_compat_l; lra).
  assert (E3' : Rabs (val (s2 +' z *' z') - (val s2 + val (z *' z'))) <= 101 / 100 * uro) by lra. apply abs_le_inv in E3'.
  split; [apply K3|]. apply Rabs_le. lra.
Qed.
(** ** The normalised operands *)
Definition qunit (q : dquat) : Quat := qscaleR (/ qabsR (qv q)) (qv q).
Lemma unit_unit (q : dquat) : 0 < qabsR (qv q) -> qdotR (qunit q) (qunit q) = 1.
Proof.
  intros H. pose proof (qabs_sq (qv q)) as E. unfold qunit. set (L := qabsR (qv q)) in *. replace (qdotR (qscaleR (/ L) (qv q)) (qscaleR (/ L) (qv q))) with (/ L * / L * qdotR (qv q) (qv q)).
  - rewrite <- E. field. lra.
  - destruct (qv q) as [[[a b] c] d]. cbn [qdotR qscaleR]. ring.
Qed.
Lemma unit_comp (p : Quat) : qdotR p p = 1 -> let '(x, y, z, w) := p in Rabs x <= 1 /\ Rabs y <= 1 /\ Rabs z <= 1 /\ Rabs w <= 1.
Proof. intros H. pose proof (comp_le p) as C. rewrite (qabs_unit p H) in C. exact C. Qed.
Lemma nquat_of (n : dquat) (p : Quat) : qeach fin n -> qdotR p p = 1 -> qrel n p (7 / 2 ^ 52) -> nquat n p.
Proof.
  intros F U. pose proof (unit_comp p U) as C. destruct n as [[[x y] z] w], p as [[[px py] pz] pw]. destruct F as (F0 & F1 & F2 & F3), C as (C0 & C1 & C2 & C3). cbv zeta.
  replace (7 / 2 ^ 52) with (14 * uro) by (rewrite uro_val; cbn; lra). change (/ 2 ^ 1075) with eta. intros (R0 & R1 & R2 & R3). cbn [nquat]. unfold ncomp. auto 20.
Qed.
(** ** The side of the sphere *)
Lemma val_opp (x : f64) : fin x -> fin (b64_opp x) /\ val (b64_opp x) = - val x.
Proof. intros F. split; [unfold fin, b64_opp in *; rewrite is_finite_Bopp; exact F|unfold val, b64_opp; apply B2R_Bopp]. Qed.
Lemma ncomp_opp (x : f64) (c : R) : ncomp x c -> ncomp (b64_opp x) (- 1 * c).
Proof.
  intros (F & B & E). destruct (val_opp x F) as (Fo & Vo). split; [exact Fo|]. replace (- 1 * c) with (- c) by ring. rewrite Rabs_Ropp. split; [exact B|].
  rewrite Vo. replace (- val x - - c) with (- (val x - c)) by ring. rewrite Rabs_Ropp. exact E.
Qed.
Lemma dot_scale_r (k : R) (p q : Quat) : qdotR p (qscaleR k q) = k * qdotR p q.
Proof. destruct p as [[[? ?] ?] ?], q as [[[? ?] ?] ?]. cbn [qdotR qscaleR]. ring. Qed.
Lemma scale_unit (k : R) (q : Quat) : k = 1 \/ k = -1 -> qdotR q q = 1 -> qdotR (qscaleR k q) (qscaleR k q) = 1.
Proof. intros H E. destruct q as [[[? ?] ?] ?]. cbn [qdotR qscaleR] in *. destruct H as [->| ->]; lra. Qed.
Lemma side (n m : dquat) (p q : Quat) : nquat n p -> nquat m q -> qdotR p p = 1 -> qdotR q q = 1 ->
  exists (s : R) (c : f64) (m' : dquat), (s = 1 \/ s = -1) /\
  (if sltb (dot64 n m) szero then qx <- q_neg (arr m) ;; Ok (sopp (dot64 n m), qx) else Ok (dot64 n m, arr m)) = Ok (c, arr m') /\
  nquat m' (qscaleR s q) /\ fin c /\ 0 <= val c /\ Rabs (val c - qdotR p (qscaleR s q)) <= 33 * uro /\ Rabs (val c - Rabs (qdotR p q)) <= 33 * uro.
Proof.
  intros Hn Hm Up Uq. destruct (dot_E n m p q Hn Hm Up Uq) as (Fc & Ec). set (c := dot64 n m) in *.
  assert (AA : forall x y e, Rabs (x - y) <= e -> Rabs (Rabs x - Rabs y) <= e) by (intros x y e H; eapply Rle_trans; [apply Rabs_triang_inv2|exact H]).
  pose proof (AA _ _ _ Ec) as Ea. cbn [sltb szero sopp F64Scalar].
  destruct (Bltb c f64_zero) eqn:B.
  - apply (Bltb_fin c f64_zero Fc eq_refl) in B. change (val f64_zero) with 0 in B. destruct (val_opp c Fc) as (Fo & Vo).
    exists (-1), (b64_opp c). destruct m as [[[x y] z] w], q as [[[qx qy] qz] qw]. exists (b64_opp x, b64_opp y, b64_opp z, b64_opp w). destruct Hm as (M0 & M1 & M2 & M3).
    split; [right; reflexivity|]. split; [reflexivity|]. split; [exact (conj (ncomp_opp _ _ M0) (conj (ncomp_opp _ _ M1) (conj (ncomp_opp _ _ M2) (ncomp_opp _ _ M3))))|]. split; [exact Fo|]. rewrite Vo. split; [lra|].
    rewrite dot_scale_r. split.
    + match goal with |- Rabs (- val c - -1 * ?d) <= _ => replace (- val c - -1 * d) with (- (val c - d)) by ring end. rewrite Rabs_Ropp. exact Ec.
    + rewrite (Rabs_left (val c) B) in Ea. exact Ea.
  - apply (Bltb_fin_false c f64_zero Fc eq_refl) in B. change (val f64_zero) with 0 in B.
    exists 1, c, m. split; [left; reflexivity|]. split; [reflexivity|]. assert (E1 : qscaleR 1 q = q) by (destruct q as [[[? ?] ?] ?]; cbn [qscaleR]; rewrite !Rmult_1_l; reflexivity). rewrite E1.
    split; [exact Hm|]. split; [exact Fc|]. split; [exact B|]. split; [exact Ec|]. rewrite (Rabs_pos_eq (val c) B) in Ea. exact Ea.
Qed.

(** ** The sine *)
Lemma fmt_below1 (x : f64) : fin x -> val x < 1 -> val x <= 1 - uro.
Proof.
  intros F H. assert (Fx : generic_format radix2 (FLT_exp (-1074) 53) (val x)) by apply (generic_format_B2R 53 1024).
  assert (F1 : generic_format radix2 (FLT_exp (-1074) 53) 1) by (replace 1 with (bp 0) by reflexivity; apply generic_format_bpow; cbn; lia).
  assert (VE : Valid_exp (FLT_exp (-1074) 53)) by (apply FLT_exp_valid; reflexivity).
  pose proof (pred_ge_gt radix2 (FLT_exp (-1074) 53) _ _ Fx F1 H) as P. eapply Rle_trans; [exact P|]. right.
  replace 1 with (bp 0) by reflexivity. rewrite pred_bpow. replace (FLT_exp (-1074) 53 0) with (-53)%Z by reflexivity. f_equal. f_equal. rewrite uro_val. cbn. lra.
Qed.
Lemma rnd_small (x b : R) : generic_format radix2 (FLT_exp (-1074) 53) b -> (x <= b -> rnd x <= b) /\ (b <= x -> b <= rnd x).
Proof.
  intros F. assert (E : rnd b = b) by (apply round_generic; [apply valid_rnd_N|exact F]). split; intros H; [rewrite <- E; apply rnd_mono, H|rewrite <- E; apply rnd_mono, H].
Qed.
Lemma fmt_bp (e : Z) : (-1074 <= e <= 1000)%Z -> generic_format radix2 (FLT_exp (-1074) 53) (bp e).
Proof. intros H. apply generic_format_bpow. unfold FLT_exp. lia. Qed.
Definition sine64 (c : f64) : f64 := b64_sqrt mode_NE (f64_one -' c *' c).
Lemma sine_E (c : f64) : fin c -> 0 <= val c < 1 -> let s := sine64 c in
  fin s /\ bp (-27) <= val s <= 1 /\ Rabs (val s * val s + val c * val c - 1) <= 45 / 10 * uro.
Proof.
  intros Fc Bc s. pose proof us2 as U. pose proof es2 as ES. assert (B1 := fmt_below1 c Fc (proj2 Bc)).
  assert (Kc : okf 0 c) by (split; [exact Fc|]; change (bp 0) with 1; rewrite Rabs_pos_eq; lra).
  destruct (mult_E 0 0 c c Kc Kc ltac:(lia)) as (Kp & Vp & Ep). change (0 + 0)%Z with 0%Z in Kp.
  set (x := val c) in *. assert (X2 : 0 <= x * x <= 1 - uro).
  { split; [apply Rle_0_sqr|]. apply Rle_trans with ((1 - uro) * (1 - uro)); [apply Rmult_le_compat; lra|]. assert (uro * uro <= uro * 1) by (apply Rmult_le_compat_l; lra). lra. }
  rewrite (Rabs_pos_eq (x * x)) in Ep by lra. assert (uX : uro * (x * x) <= uro * 1) by (apply Rmult_le_compat_l; lra). apply abs_le_inv in Ep.
  assert (F1u : generic_format radix2 (FLT_exp (-1074) 53) (1 - uro)).
  { replace (1 - uro) with (pred radix2 (FLT_exp (-1074) 53) 1).
    - assert (VE : Valid_exp (FLT_exp (-1074) 53)) by (apply FLT_exp_valid; reflexivity). apply generic_format_pred; [exact VE|]. replace 1 with (bp 0) by reflexivity. apply fmt_bp. lia.
    - replace 1 with (bp 0) by reflexivity. rewrite pred_bpow. replace (FLT_exp (-1074) 53 0) with (-53)%Z by reflexivity. f_equal. f_equal. rewrite uro_val. cbn. lra. }
  assert (SQ : 0 <= val (c *' c) <= 1 - uro) by (rewrite Vp; split; [apply rnd_nonneg; lra|apply (rnd_small _ _ F1u), X2]).
  assert (K1 : okf 0 f64_one) by (split; [reflexivity|rewrite val_one; change (bp 0) with 1; rewrite Rabs_R1; lra]).
  destruct (minus_E 0 f64_one (c *' c) K1 Kp ltac:(lia)) as (Kw & Vw & Ew). rewrite val_one in Vw, Ew. set (w := f64_one -' c *' c) in *. set (q := val (c *' c)) in *.
  rewrite (Rabs_pos_eq (1 - q)) in Ew by lra. assert (uQ : uro * (1 - q) <= uro * 1) by (apply Rmult_le_compat_l; lra). apply abs_le_inv in Ew.
  assert (F53 : bp (-53) = uro) by (rewrite uro_val; cbn; lra).
  assert (WB : uro <= val w <= 1).
  { rewrite Vw. split; [rewrite <- F53; apply (rnd_small _ _ (fmt_bp (-53) ltac:(lia))); rewrite F53; lra|].
    replace 1 with (bp 0) at 2 by reflexivity. apply (rnd_small _ _ (fmt_bp 0 ltac:(lia))). change (bp 0) with 1. lra. }
  destruct (sqrt_fin w (proj1 Kw) ltac:(lra)) as (Fs & Vs). change (b64_sqrt mode_NE w) with s in Fs, Vs.
  assert (SW : sqrt (val w) * sqrt (val w) = val w) by (apply sqrt_sqrt; lra). assert (S0 : 0 <= sqrt (val w)) by apply sqrt_pos.
  assert (SL : bp (-27) <= sqrt (val w) <= 1).
  { split.
    - rewrite <- (sqrt_square (bp (-27))) by apply bpow_ge_0. apply sqrt_le_1_alt. rewrite <- bpow_plus. change (-27 + -27)%Z with (-54)%Z. eapply Rle_trans; [apply (bpow_le radix2 (-54) (-53)); lia|]. rewrite F53. lra.
    - rewrite <- sqrt_1. apply sqrt_le_1_alt. lra. }
  split; [exact Fs|].
  assert (SB : bp (-27) <= val s <= 1).
  { rewrite Vs. split; [apply (rnd_small _ _ (fmt_bp (-27) ltac:(lia))), SL|]. replace 1 with (bp 0) by reflexivity. apply (rnd_small _ _ (fmt_bp 0 ltac:(lia))). apply SL. }
  split; [exact SB|].
  destruct (rnd_rel (sqrt (val w))) as (d & Hd & Er). { rewrite Rabs_pos_eq by lra. eapply Rle_trans; [apply (bpow_le radix2 (-1022) (-27)); lia|apply SL]. }
  rewrite Vs, Er. replace (sqrt (val w) * (1 + d) * (sqrt (val w) * (1 + d))) with (sqrt (val w) * sqrt (val w) * (1 + 2 * d + d * d)) by ring. rewrite SW.
  apply abs_le_inv in Hd. assert (dd : 0 <= d * d <= / 1000000000 * uro) by (split; [apply Rle_0_sqr|]; replace (d * d) with (Rabs d * Rabs d) by (rewrite <- Rabs_mult; apply Rabs_pos_eq, Rle_0_sqr); apply Rmult_le_compat; try apply Rabs_pos; apply Rabs_le; lra).
  assert (WD : - (21 / 10 * uro) <= val w * (2 * d + d * d) <= 21 / 10 * uro).
  { apply abs_le_inv. rewrite Rabs_mult, (Rabs_pos_eq (val w)) by lra. apply Rle_trans with (1 * (21 / 10 * uro)); [|lra]. apply Rmult_le_compat; [lra|apply Rabs_pos|lra|apply Rabs_le; lra]. }
  apply Rabs_le. lra.
Qed.
(** ** The angle and the coefficients *)
Lemma angle_E (c : f64) : fin c -> 0 <= val c < 1 -> let s := val (sine64 c) in let t := satan2 s (val c) in exists rho,
  Rabs (rho - 1) <= 45 / 10 * uro /\ 0 < t <= PI / 2 /\ bp (-28) <= t /\ s = rho * sin t /\ Rabs (val c - cos t) <= 46 / 10 * uro.
Proof.
  intros Fc Bc s t. destruct (sine_E c Fc Bc) as (Fs & Bs & Es). fold s in Fs, Bs, Es. cbv zeta in *. fold s in Bs, Es.
  pose proof us2 as U. pose proof (bpow_gt_0 radix2 (-27)) as G.
  destruct (atan2_pos s (val c) ltac:(lra) ltac:(lra)) as (R0 & Bt & Ct & St). fold t in Bt, Ct, St. set (r := sqrt (val c * val c + s * s)) in *.
  assert (SP : 0 < val c * val c + s * s) by (pose proof (Rle_0_sqr (val c)); pose proof (Rmult_lt_0_compat s s ltac:(lra) ltac:(lra)); unfold Rsqr in *; lra).
  assert (RN : Rabs (r - 1) <= 45 / 10 * uro) by (apply sqrt_near; [exact SP|lra|]; replace (val c * val c + s * s - 1) with (s * s + val c * val c - 1) by ring; exact Es).
  exists r. split; [exact RN|]. split; [exact Bt|]. apply abs_le_inv in RN.
  assert (SR : s = r * sin t) by (rewrite St; field; lra).
  split; [|split; [exact SR|]].
  - assert (SL : sin t <= t) by (pose proof (sin_lip t 0) as L; rewrite sin_0, !Rminus_0_r, (Rabs_pos_eq t) in L by lra; pose proof (Rle_abs (sin t)); lra).
    assert (T0 : 0 <= sin t) by (rewrite St; apply Rmult_le_pos; [lra|left; apply Rinv_0_lt_compat; lra]).
    assert (r * sin t <= 2 * sin t) by (apply Rmult_le_compat_r; lra). change (-28)%Z with (-1 + -27)%Z. rewrite bpow_plus. change (bp (-1)) with (/ 2). lra.
  - rewrite Ct. replace (val c - val c / r) with (val c * ((r - 1) * / r)) by (field; lra).
    assert (IR : / r <= 102 / 100) by (apply (Rmult_le_reg_r r); [lra|]; rewrite Rinv_l by lra; lra). assert (I0 : 0 < / r) by (apply Rinv_0_lt_compat; lra).
    assert (Q : Rabs ((r - 1) * / r) <= 46 / 10 * uro).
    { rewrite Rabs_mult, (Rabs_pos_eq (/ r)) by lra. apply Rle_trans with (45 / 10 * uro * (102 / 100)); [apply Rmult_le_compat; [apply Rabs_pos|lra|apply Rabs_le; lra|exact IR]|lra]. }
    rewrite Rabs_mult, (Rabs_pos_eq (val c)) by lra. apply Rle_trans with (1 * (46 / 10 * uro)); [apply Rmult_le_compat; [lra|apply Rabs_pos|lra|exact Q]|lra].
Qed.
Section Coef.
Context (TT : Trig f64) (AT : Atan2 f64) (d : R) (c : f64).
Hypotheses (Hd : 0 <= d <= / 1000) (GS : good_sin TT d) (GA : good_atan2 AT d) (Fc : fin c) (Bc : 0 <= val c < 1).
Definition th := satan2 (val (sine64 c)) (val c).
Definition coef (b : f64) : f64 := ssin (b *' satan2 (sine64 c) c) /' sine64 c.
Lemma coef_E (b : f64) (be : R) : fin b -> (be = 0 \/ / 2 ^ 600 <= be <= 1) -> Rabs (val b - be) <= uro * be ->
  okf 1 (coef b) /\ Rabs (val (coef b) - sin (be * th) / sin th) <= 28 / 10 * d + 10 * uro.
Proof.
  intros Fb Hbe Eb. pose proof us2 as U. pose proof es2 as ES. pose proof pi_bounds as P.
  destruct (angle_E c Fc Bc) as (rho & Hr & Bt & Lt & Es & _). destruct (sine_E c Fc Bc) as (Fs & Bs & _). cbv zeta in *. fold th in Bt, Lt, Es.
  pose proof (bpow_gt_0 radix2 (-27)) as G27. pose proof (bpow_gt_0 radix2 (-28)) as G28.
  destruct (GA (sine64 c) c Fs Fc) as (FA & EA); [split; [|lra]; rewrite <- (bpm 30); eapply Rle_trans; [apply (bpow_le radix2 (-30) (-27)); lia|apply Bs]|lra|].
  fold th in EA. set (A := satan2 (sine64 c) c) in *. set (t := th) in *. set (s := sine64 c) in *.
  assert (dt : 0 <= d * t <= / 1000 * t) by (split; [apply Rmult_le_pos; lra|apply Rmult_le_compat_r; lra]).
  match type of EA with Rabs (?x - _) <= _ => change x with (val A) in EA end. change (fin A) in FA.
  assert (Be0 : 0 <= be <= 1).
  { destruct Hbe as [->|Hb]; [lra|]. pose proof (Rinv_0_lt_compat (2 ^ 600) ltac:(apply pow_lt; lra)). lra. }
  (* the argument of the sine *)
  assert (XE : fin (b *' A) /\ Rabs (val (b *' A) - be * t) <= (1002 / 1000 * d + 22 / 10 * uro) * (be * t) /\ (val (b *' A) = 0 \/ / 2 ^ 700 <= val (b *' A) <= 16 / 10)).
  { apply abs_le_inv in EA. destruct Hbe as [->|Hb].
    - assert (Vb : val b = 0) by (rewrite Rmult_0_r, Rminus_0_r in Eb; destruct (Req_dec (val b) 0) as [E|E]; [exact E|apply Rabs_pos_lt in E; lra]).
      assert (Kb : okf 0 b) by (split; [exact Fb|rewrite Vb, Rabs_R0; apply bpow_ge_0]).
      assert (KA : okf 1 A) by (split; [exact FA|change (bp 1) with 2; apply Rabs_le; lra]).
      destruct (mult_E 0 1 b A Kb KA ltac:(lia)) as (K & V & _). rewrite Vb, Rmult_0_l, rnd_0 in V. split; [apply K|]. rewrite V. split; [|left; reflexivity]. rewrite !Rmult_0_l, Rmult_0_r, Rminus_0_r, Rabs_R0. lra.
    - rewrite <- (bpm 600) in Hb. change (- Z.of_nat 600)%Z with (-600)%Z in Hb. pose proof (bpow_gt_0 radix2 (-600)) as G6.
      assert (ub : 0 <= uro * be <= / 1000000000 * be) by (split; [apply Rmult_le_pos; lra|apply Rmult_le_compat_r; lra]). apply abs_le_inv in Eb.
      set (X := be * t). assert (X0 : 0 <= X) by (apply Rmult_le_pos; lra).
      assert (uX : 0 <= uro * X <= / 1000000000 * X) by (split; [apply Rmult_le_pos; lra|apply Rmult_le_compat_r; lra]).
      assert (dX : 0 <= d * X <= / 1000 * X) by (split; [apply Rmult_le_pos; lra|apply Rmult_le_compat_r; lra]).
      assert (udX : 0 <= uro * (d * X) <= / 1000000000 * (d * X)) by (split; [apply Rmult_le_pos; lra|apply Rmult_le_compat_r; lra]).
      assert (PE : Rabs (val b * val A - X) <= 1001 / 1000 * (d * X) + uro * X).
      { replace (val b * val A - X) with (val b * (val A - t) + (val b - be) * t) by (unfold X; ring). eapply Rle_trans; [apply Rabs_triang|]. rewrite !Rabs_mult, (Rabs_pos_eq (val b)), (Rabs_pos_eq t) by lra.
        assert (T1 : val b * Rabs (val A - t) <= (be + uro * be) * (d * t)) by (apply Rmult_le_compat; [lra|apply Rabs_pos|lra|apply Rabs_le; lra]).
        assert (T2 : Rabs (val b - be) * t <= uro * be * t) by (apply Rmult_le_compat_r; [lra|apply Rabs_le; lra]).
        replace ((be + uro * be) * (d * t)) with (d * X + uro * (d * X)) in T1 by (unfold X; ring). replace (uro * be * t) with (uro * X) in T2 by (unfold X; ring). lra. }
      apply abs_le_inv in PE.
      assert (XL : bp (-628) <= X) by (unfold X; change (-628)%Z with (-600 + -28)%Z; rewrite bpow_plus; apply Rmult_le_compat; lra).
      assert (XU : X <= t) by (unfold X; rewrite <- (Rmult_1_l t) at 2; apply Rmult_le_compat_r; lra). pose proof (bpow_gt_0 radix2 (-628)) as G62.
      assert (PB : bp (-629) <= val b * val A <= bp 1) by (split; [change (-629)%Z with (-1 + -628)%Z; rewrite bpow_plus; change (bp (-1)) with (/ 2); lra|change (bp 1) with 2; lra]).
      pose proof (bpow_gt_0 radix2 (-629)) as G63.
      destruct (PPersp.mult_rel b A 1 Fb FA) as (FX & _ & dl & Hdl & VX); [rewrite Rabs_pos_eq by lra; split; [eapply Rle_trans; [apply (bpow_le radix2 (-1022) (-629)); lia|apply PB]|apply PB]|lia|].
      split; [exact FX|].
      assert (RE : Rabs (val b * val A * dl) <= (1002 / 1000 * X) * uro) by (rewrite Rabs_mult, (Rabs_pos_eq (val b * val A)) by lra; apply Rmult_le_compat; [lra|apply Rabs_pos|lra|exact Hdl]).
      apply abs_le_inv in RE. assert (VX' : val (b *' A) = val b * val A + val b * val A * dl) by (rewrite VX; ring).
      split; [apply Rabs_le; lra|]. right. split; [|lra]. rewrite <- (bpm 700). apply Rle_trans with (bp (-630)); [apply bpow_le; lia|]. change (-630)%Z with (-1 + -629)%Z. rewrite bpow_plus. change (bp (-1)) with (/ 2).
      assert (bp (-628) = 2 * bp (-629)) by (change (-628)%Z with (1 + -629)%Z; rewrite bpow_plus; reflexivity). lra. }
  destruct XE as (FX & EX & RX). set (x := b *' A) in *. destruct (GS x FX RX) as (FS & ESn). match type of ESn with Rabs (?y - _) <= _ => set (S1 := y) in * end.
  assert (BT : 0 <= be * t <= PI / 2).
  { split; [apply Rmult_le_pos; lra|]. apply Rle_trans with (1 * t); [apply Rmult_le_compat_r; lra|lra]. }
  pose proof (sin_rel (val x) (be * t) (1002 / 1000 * d + 22 / 10 * uro) BT ltac:(lra) EX) as SR.
  destruct (sin_part be t Be0 ltac:(lra)) as (N0 & N1). set (N := sin (be * t)) in *. set (T := sin t) in *.
  assert (TP : 0 < T) by (apply sin_gt_0; lra).
  assert (dN : 0 <= d * N <= / 1000 * N) by (split; [apply Rmult_le_pos; lra|apply Rmult_le_compat_r; lra]).
  assert (uN : 0 <= uro * N <= / 1000000000 * N) by (split; [apply Rmult_le_pos; lra|apply Rmult_le_compat_r; lra]).
  replace (173 / 100 * (1002 / 1000 * d + 22 / 10 * uro) * N) with (173 / 100 * (1002 / 1000) * (d * N) + 173 / 100 * (22 / 10) * (uro * N)) in SR by ring.
  apply abs_le_inv in SR.
  assert (DS : d * sin (val x) <= d * (1002 / 1000 * N)) by (apply Rmult_le_compat_l; lra). replace (d * (1002 / 1000 * N)) with (1002 / 1000 * (d * N)) in DS by ring.
  assert (S1E : Rabs (S1 - N) <= 274 / 100 * (d * N) + 39 / 10 * (uro * N)) by (apply abs_le_inv in ESn; apply Rabs_le; lra).
  apply abs_le_inv in S1E. apply abs_le_inv in Hr.
  (* the quotient *)
  assert (VS : val s = rho * T) by exact Es. assert (SP : 0 < rho * T) by (apply Rmult_lt_0_compat; lra).
  set (K := N / T). assert (KB : 0 <= K <= 1).
  { unfold K. split; [apply Rmult_le_pos; [exact N0|left; apply Rinv_0_lt_compat, TP]|]. apply (Rmult_le_reg_r T); [exact TP|]. unfold Rdiv. rewrite Rmult_assoc, Rinv_l, Rmult_1_r by lra. lra. }
  assert (IR : / rho <= 1001 / 1000) by (apply (Rmult_le_reg_r rho); [lra|]; rewrite Rinv_l by lra; lra). assert (I0 : 0 < / rho) by (apply Rinv_0_lt_compat; lra).
  assert (NE : Rabs (S1 - rho * N) <= 274 / 100 * (d * N) + 84 / 10 * (uro * N)).
  { assert (RR : - (45 / 10 * uro * N) <= (rho - 1) * N <= 45 / 10 * uro * N) by (split; [replace (- (45 / 10 * uro * N)) with (- (45 / 10 * uro) * N) by ring|]; apply Rmult_le_compat_r; lra). apply Rabs_le. lra. }
  assert (KE : Rabs (S1 / (rho * T) - K) <= 276 / 100 * d + 85 / 10 * uro).
  { replace (S1 / (rho * T) - K) with ((S1 - rho * N) * (/ rho * / T)) by (unfold K; field; split; lra).
    rewrite Rabs_mult, (Rabs_pos_eq (/ rho * / T)) by (apply Rmult_le_pos; left; [exact I0|apply Rinv_0_lt_compat, TP]).
    apply Rle_trans with ((274 / 100 * (d * N) + 84 / 10 * (uro * N)) * (/ rho * / T)); [apply Rmult_le_compat_r; [apply Rmult_le_pos; left; [exact I0|apply Rinv_0_lt_compat, TP]|exact NE]|].
    replace ((274 / 100 * (d * N) + 84 / 10 * (uro * N)) * (/ rho * / T)) with ((274 / 100 * d + 84 / 10 * uro) * (K * / rho)) by (unfold K; field; split; lra).
    apply Rle_trans with ((274 / 100 * d + 84 / 10 * uro) * (1001 / 1000)); [|lra]. apply Rmult_le_compat_l; [lra|]. apply Rle_trans with (1 * (1001 / 1000)); [apply Rmult_le_compat; lra|lra]. }
  apply abs_le_inv in KE.
  assert (QB : Rabs (val (ssin x) / val s) <= 101 / 100) by (change (val (ssin x)) with S1; rewrite VS; apply Rabs_le; lra).
  destruct (div_E (ssin x) s 1 FS ltac:(lra) ltac:(change (bp 1) with 2; lra) ltac:(lia)) as (Kk & _ & Ek).
  change (val (ssin x)) with S1 in Ek, QB. rewrite VS in Ek, QB. change (ssin x /' s) with (coef b) in Kk, Ek. split; [exact Kk|].
  assert (uQ : uro * Rabs (S1 / (rho * T)) <= uro * (101 / 100)) by (apply Rmult_le_compat_l; lra).
  assert (Ek' : Rabs (val (coef b) - S1 / (rho * T)) <= uro * (101 / 100) + eta) by lra. apply abs_le_inv in Ek'. fold K. apply Rabs_le. lra.
Qed.
End Coef.
(** ** The combination *)
Lemma comb_E (x y k1 k2 : f64) (p q K1 K2 e : R) : ncomp x p -> ncomp y q -> okf 1 k1 -> okf 1 k2 -> 0 <= K1 <= 1 -> 0 <= K2 <= 1 -> 0 <= e <= / 100 ->
  Rabs (val k1 - K1) <= e -> Rabs (val k2 - K2) <= e ->
  okf 3 (x *' k1 +' y *' k2) /\ Rabs (val (x *' k1 +' y *' k2) - (K1 * p + K2 * q)) <= (1001 / 1000 * e + 162 / 10 * uro) * (Rabs p + Rabs q) + 5 * eta.
Proof.
  intros Hx Hy Ok1 Ok2 B1 B2 He E1 E2. pose proof us2 as U. pose proof es2 as ES.
  assert (HALF : forall (x k : f64) (p K : R), ncomp x p -> okf 1 k -> 0 <= K <= 1 -> Rabs (val k - K) <= e ->
    okf 2 (x *' k) /\ Rabs (val (x *' k) - K * p) <= (1001 / 1000 * e + 1505 / 100 * uro) * Rabs p + 22 / 10 * eta /\ Rabs (val (x *' k)) <= 102 / 100 * Rabs p + 22 / 10 * eta).
  { clear - He U ES. intros x k p K Hx Ok B E. destruct (ncomp_abs x p Hx) as (Ax & Kx). destruct Hx as (_ & Bp & Ex). destruct (mult_E 1 1 x k Kx Ok ltac:(lia)) as (Kp & _ & Ep). split; [exact Kp|].
    pose proof (Rabs_pos p) as P0. set (P := Rabs p) in *.
    assert (uP : 0 <= uro * P <= / 1000000000 * P) by (split; [apply Rmult_le_pos; lra|apply Rmult_le_compat_r; lra]).
    assert (eP : 0 <= e * P <= / 100 * P) by (split; [apply Rmult_le_pos; lra|apply Rmult_le_compat_r; lra]).
    assert (ueP : 0 <= uro * (e * P) <= / 1000000000 * (e * P)) by (split; [apply Rmult_le_pos; lra|apply Rmult_le_compat_r; lra]).
    assert (ee : 0 <= e * eta <= / 100 * eta) by (split; [apply Rmult_le_pos; lra|apply Rmult_le_compat_r; lra]).
    assert (D : Rabs (val x * val k - K * p) <= 10001 / 10000 * (e * P) + 14 * (uro * P) + 11 / 10 * eta).
    { replace (val x * val k - K * p) with (val x * (val k - K) + (val x - p) * K) by ring. eapply Rle_trans; [apply Rabs_triang|]. rewrite !Rabs_mult, (Rabs_pos_eq K) by lra.
      assert (T1 : Rabs (val x) * Rabs (val k - K) <= ((1 + 14 * uro) * P + eta) * e) by (apply Rmult_le_compat; try apply Rabs_pos; assumption).
      assert (T2 : Rabs (val x - p) * K <= (14 * uro * P + eta) * 1) by (apply Rmult_le_compat; [apply Rabs_pos|lra|exact Ex|lra]).
      replace (((1 + 14 * uro) * P + eta) * e) with (e * P + 14 * (uro * (e * P)) + e * eta) in T1 by ring. replace ((14 * uro * P + eta) * 1) with (14 * (uro * P) + eta) in T2 by ring. lra. }
    assert (KP : Rabs (K * p) <= P).
    { rewrite Rabs_mult, (Rabs_pos_eq K) by lra. fold P. rewrite <- (Rmult_1_l P) at 2. apply Rmult_le_compat_r; lra. }
    assert (M : Rabs (val x * val k) <= 1011 / 1000 * P + 11 / 10 * eta).
    { replace (val x * val k) with (val x * val k - K * p + K * p) by ring. eapply Rle_trans; [apply Rabs_triang|]. lra. }
    assert (uM : uro * Rabs (val x * val k) <= uro * (1011 / 1000 * P + 11 / 10 * eta)) by (apply Rmult_le_compat_l; lra).
    assert (ue : uro * eta <= / 1000000000 * eta) by (apply Rmult_le_compat_r; lra).
    assert (Q : Rabs (val (x *' k) - K * p) <= (1001 / 1000 * e + 1505 / 100 * uro) * P + 22 / 10 * eta).
    { replace (val (x *' k) - K * p) with (val (x *' k) - val x * val k + (val x * val k - K * p)) by ring. eapply Rle_trans; [apply Rabs_triang|]. lra. }
    split; [exact Q|]. replace (val (x *' k)) with (val (x *' k) - K * p + K * p) by ring. eapply Rle_trans; [apply Rabs_triang|]. lra. }
  destruct (HALF x k1 p K1 Hx Ok1 B1 E1) as (Kx & Ex & Mx). destruct (HALF y k2 q K2 Hy Ok2 B2 E2) as (Ky & Ey & My).
  destruct (plus_E 2 _ _ Kx Ky ltac:(lia)) as (Kr & _ & Er). split; [exact Kr|].
  set (P := Rabs p) in *. set (Q := Rabs q) in *. assert (P0 : 0 <= P) by apply Rabs_pos. assert (Q0 : 0 <= Q) by apply Rabs_pos.
  assert (uP : 0 <= uro * P) by (apply Rmult_le_pos; lra). assert (uQ : 0 <= uro * Q) by (apply Rmult_le_pos; lra).
  assert (ue : uro * eta <= / 1000000000 * eta) by (apply Rmult_le_compat_r; lra).
  assert (S : Rabs (val (x *' k1) + val (y *' k2)) <= 102 / 100 * P + 102 / 100 * Q + 44 / 10 * eta) by (eapply Rle_trans; [apply Rabs_triang|lra]).
  assert (uS : uro * Rabs (val (x *' k1) + val (y *' k2)) <= uro * (102 / 100 * P + 102 / 100 * Q + 44 / 10 * eta)) by (apply Rmult_le_compat_l; lra).
  assert (Er' : Rabs (val (x *' k1 +' y *' k2) - (val (x *' k1) + val (y *' k2))) <= 102 / 100 * (uro * P) + 102 / 100 * (uro * Q) + 44 / 10 * (uro * eta)) by lra.
  apply abs_le_inv in Ex, Ey, Er'. apply Rabs_le. lra.
Qed.
(** ** The whole function *)
Definition comb (n m : dquat) (k1 k2 : f64) : dquat :=
  let '(x, y, z, w) := n in let '(x', y', z', w') := m in (x *' k1 +' x' *' k2, y *' k1 +' y' *' k2, z *' k1 +' z' *' k2, w *' k1 +' w' *' k2).
Lemma comb_q (n m : dquat) (p q : Quat) (k1 k2 : f64) (K1 K2 e : R) : nquat n p -> nquat m q -> qdotR p p = 1 -> qdotR q q = 1 ->
  okf 1 k1 -> okf 1 k2 -> 0 <= K1 <= 1 -> 0 <= K2 <= 1 -> 0 <= e <= / 100 -> Rabs (val k1 - K1) <= e -> Rabs (val k2 - K2) <= e ->
  qeach (okf 3) (comb n m k1 k2) /\ qabsR (qsubR (qv (comb n m k1 k2)) (qaddR (qscaleR K1 p) (qscaleR K2 q))) <= 2002 / 1000 * e + 325 / 10 * uro.
Proof.
  intros Hn Hm Up Uq O1 O2 B1 B2 He E1 E2. pose proof us2 as U. pose proof es2 as ES.
  pose proof (qsmall_abs (qsubR (qv (comb n m k1 k2)) (qaddR (qscaleR K1 p) (qscaleR K2 q))) p q (1001 / 1000 * e + 162 / 10 * uro) (5 * eta) ltac:(lra) ltac:(lra) Up Uq) as QS.
  destruct n as [[[x y] z] w], m as [[[x' y'] z'] w'], p as [[[px py] pz] pw], q as [[[qx qy] qz] qw]. destruct Hn as (N0 & N1 & N2 & N3), Hm as (M0 & M1 & M2 & M3).
  destruct (comb_E _ _ _ _ _ _ _ _ _ N0 M0 O1 O2 B1 B2 He E1 E2) as (C0 & D0). destruct (comb_E _ _ _ _ _ _ _ _ _ N1 M1 O1 O2 B1 B2 He E1 E2) as (C1 & D1).
  destruct (comb_E _ _ _ _ _ _ _ _ _ N2 M2 O1 O2 B1 B2 He E1 E2) as (C2 & D2). destruct (comb_E _ _ _ _ _ _ _ _ _ N3 M3 O1 O2 B1 B2 He E1 E2) as (C3 & D3).
  split; [exact (conj C0 (conj C1 (conj C2 C3)))|]. eapply Rle_trans; [apply QS; exact (conj D0 (conj D1 (conj D2 D3)))|]. lra.
Qed.
Lemma one_minus (a : f64) : fin a -> 0 <= val a <= 1 -> okf 1 (f64_one -' a) /\ Rabs (val (f64_one -' a) - (1 - val a)) <= uro * (1 - val a) /\
  (1 - val a = 0 \/ / 2 ^ 600 <= 1 - val a <= 1) /\ val (f64_one -' a) <= 1.
Proof.
  intros Fa Ba. pose proof us2 as U. assert (K1 : okf 0 f64_one) by (split; [reflexivity|rewrite val_one; change (bp 0) with 1; rewrite Rabs_R1; lra]).
  assert (Ka : okf 0 a) by (split; [exact Fa|]; change (bp 0) with 1; rewrite Rabs_pos_eq; lra).
  destruct (minus_E 0 f64_one a K1 Ka ltac:(lia)) as (K & V & E). rewrite val_one in V, E. rewrite (Rabs_pos_eq (1 - val a)) in E by lra. split; [exact K|]. split; [exact E|]. split.
  - destruct (Req_dec (val a) 1) as [->|N]; [left; lra|right]. pose proof (fmt_below1 a Fa ltac:(lra)) as B. split; [|lra]. apply Rle_trans with uro; [|lra].
    unfold uro. apply Rinv_le_contravar; [apply pow_lt; lra|apply Rle_pow; [lra|lia]].
  - rewrite V. replace 1 with (bp 0) at 2 by reflexivity. apply (rnd_small _ _ (fmt_bp 0 ltac:(lia))). change (bp 0) with 1. lra.
Qed.
Lemma wide_okf (i : Z) (n : dquat) : (i <= 500)%Z -> qeach (okf i) n -> qeach wide n.
Proof.
  intros Hi. assert (L : bp i <= 2 ^ 500) by (rewrite E500; apply bpow_le; exact Hi). destruct n as [[[x y] z] w]. intros ((F0 & B0) & (F1 & B1) & (F2 & B2) & (F3 & B3)). unfold qeach, wide.
  repeat apply conj; assumption || lra.
Qed.
Lemma qeach_fin (i : Z) (n : dquat) : qeach (okf i) n -> qeach fin n.
Proof. destruct n as [[[x y] z] w]. intros ((F0 & _) & (F1 & _) & (F2 & _) & (F3 & _)). exact (conj F0 (conj F1 (conj F2 F3))). Qed.

(** C205: slerp( a, p, q, epsilon ) in double: a point of the arc between p / |p| and
    q / |q| or its negative, at the fraction a of the angle th between the lines
    of p and q. *)
Theorem C205_slerp (cfg : Cfg) (TT : Trig f64) (AT : Atan2 f64) (d : R) (a eps : f64) (p q : dquat) :
  0 <= d <= / 1000 -> good_sin TT d -> good_atan2 AT d ->
  qeach wide p -> / 2 ^ 450 <= qabsR (qv p) -> qeach wide q -> / 2 ^ 450 <= qabsR (qv q) ->
  fin a -> (val a = 0 \/ / 2 ^ 600 <= val a <= 1) -> fin eps -> 0 <= val eps <= / 10 ->
  exists (s : R) (r : dquat), (s = 1 \/ s = -1) /\ q_slerp a (arr p) (arr q) eps = Ok (arr r) /\ qeach fin r /\
  let P := qunit p in let Q := qscaleR s (qunit q) in let tol := 6 * d + 70 / 2 ^ 52 in
  - (17 / 2 ^ 52) <= qdotR P Q /\ Rabs (qabsR (qv r) - 1) <= tol /\
  forall th, 0 <= th <= PI / 2 -> cos th = Rabs (qdotR (qunit p) (qunit q)) ->
  Rabs (qdotR (qv r) P - cos (val a * th)) <= tol + val eps /\ Rabs (qdotR (qv r) Q - cos ((1 - val a) * th)) <= tol + val eps /\
  (cos th < 1 - val eps - 20 / 2 ^ 52 -> Rabs (qdotR (qv r) P - cos (val a * th)) <= tol /\ Rabs (qdotR (qv r) Q - cos ((1 - val a) * th)) <= tol).
Proof.
  intros Hd GS GA Wp Lp Wq Lq Fa Ha Fe He. pose proof us2 as U. pose proof es2 as ES. pose proof pi_bounds as HPI.
  assert (U52 : forall k, k / 2 ^ 52 = 2 * k * uro) by (intros k; rewrite uro_val; cbn; lra).
  assert (I450 : 0 < / 2 ^ 450) by (apply Rinv_0_lt_compat, pow_lt; lra).
  assert (Ba : 0 <= val a <= 1) by (destruct Ha as [->|Ha]; [lra|pose proof (Rinv_0_lt_compat (2 ^ 600) ltac:(apply pow_lt; lra)); lra]).
  assert (Ba' : val a = 0 \/ / 2 ^ 600 <= val a <= 1) by exact Ha.
  assert (Up := unit_unit p ltac:(lra)). assert (Uq := unit_unit q ltac:(lra)).
  destruct (C177_normalize cfg p Wp Lp) as (_ & _ & n & _ & _ & Gn & _ & _ & _ & _ & Fn & Rn & _). destruct (C177_normalize cfg q Wq Lq) as (_ & _ & m & _ & _ & Gm & _ & _ & _ & _ & Fm & Rm & _).
  pose proof (nquat_of n (qunit p) Fn Up Rn) as Nn. pose proof (nquat_of m (qunit q) Fm Uq Rm) as Nm.
  destruct (side n m (qunit p) (qunit q) Nn Nm Up Uq) as (s & c & m' & Hs & Eside & Nm' & Fc & C0 & EC & EA).
  assert (Us := scale_unit s (qunit q) Hs Uq).
  unfold q_slerp. rewrite Gn, Gm. cbn [bind]. rewrite q_dot_64. cbn [bind]. rewrite Eside. cbn [bind]. clear Eside Gn Gm.
  set (P := qunit p) in *. set (Q := qscaleR s (qunit q)) in *. set (C := qdotR P Q) in *. set (B := Rabs (qdotR P (qunit q))) in *.
  destruct (one_minus eps Fe ltac:(lra)) as (K1x & E1x & _ & L1x). apply abs_le_inv in E1x.
  assert (u1 : uro * (1 - val eps) <= uro * 1) by (apply Rmult_le_compat_l; lra).
  assert (KC : fin (b64_abs c) /\ val (b64_abs c) = val c).
  { split; [unfold fin, b64_abs in *; rewrite is_finite_Babs; exact Fc|unfold val, b64_abs; rewrite B2R_Babs; apply Rabs_pos_eq, C0]. }
  destruct KC as (Fab & Vab).
  cbn [sltb sabs ssub sone F64Scalar]. 
  destruct (one_minus a Fa Ba) as (K1 & E1 & R1 & _). assert (Ka : okf 1 a) by (split; [exact Fa|]; change (bp 1) with 2; rewrite Rabs_pos_eq; lra).
  assert (Ea : Rabs (val a - val a) <= uro * val a) by (replace (val a - val a) with 0 by ring; rewrite Rabs_R0; apply Rmult_le_pos; lra).
  apply abs_le_inv in EC, EA.
  destruct (Bltb (b64_abs c) (f64_one -' eps)) eqn:BR.
  - (* the standard branch *)
    apply (Bltb_fin _ _ Fab (proj1 K1x)) in BR. rewrite Vab in BR. assert (BC : 0 <= val c < 1) by lra.
    destruct (angle_E c Fc BC) as (rho & _ & Bt & _ & _ & Ct). cbv zeta in Bt, Ct. change (satan2 (val (sine64 c)) (val c)) with (th c) in Bt, Ct.
    destruct (coef_E TT AT d c Hd GS GA Fc BC (f64_one -' a) (1 - val a) (proj1 K1) R1 E1) as (O1 & D1).
    destruct (coef_E TT AT d c Hd GS GA Fc BC a (val a) Fa Ba' Ea) as (O2 & D2). set (t := th c) in *.
    destruct (cf_range (val a) t Ba Bt) as (G1 & G2).
    destruct (comb_q n m' P Q (coef TT AT c (f64_one -' a)) (coef TT AT c a) (cf1 (val a) t) (cf2 (val a) t) (28 / 10 * d + 10 * uro) Nn Nm' Up Us O1 O2 G1 G2 ltac:(lra) D1 D2) as (Kr & Dr).
    exists s, (comb n m' (coef TT AT c (f64_one -' a)) (coef TT AT c a)). split; [exact Hs|]. split; [destruct n as [[[? ?] ?] ?], m' as [[[? ?] ?] ?]; reflexivity|]. split; [apply (qeach_fin 3), Kr|]. cbv zeta. change (qscaleR s (qunit q)) with Q. change (qunit p) with P. change (qdotR P Q) with C at 1. rewrite !U52.
    split; [lra|]. apply abs_le_inv in Ct.
    assert (Gc : Rabs (qdotR P Q - cos t) <= 376 / 10 * uro) by (fold C; apply Rabs_le; lra).
    set (r := qv (comb n m' (coef TT AT c (f64_one -' a)) (coef TT AT c a))) in *.
    split.
    { destruct (slerp_std (val a) t t _ 0 _ P Q r Ba Bt ltac:(lra) Up Us Gc ltac:(replace (cos t - cos t) with 0 by ring; rewrite Rabs_R0; lra) Dr) as (_ & _ & L). lra. }
    intros z Hz Ez. assert (G2z : Rabs (cos t - cos z) <= 376 / 10 * uro) by (rewrite Ez; fold B; apply Rabs_le; lra).
    destruct (slerp_std (val a) t z _ _ _ P Q r Ba Bt Hz Up Us Gc G2z Dr) as (A1 & A2 & _).
    split; [lra|]. split; [lra|]. intros _. split; lra.
  - (* the linear branch *)
    apply (Bltb_fin_false _ _ Fab (proj1 K1x)) in BR. rewrite Vab in BR.
    assert (u1a : uro * (1 - val a) <= uro * 1) by (apply Rmult_le_compat_l; lra).
    assert (D2 : Rabs (val a - val a) <= uro) by (replace (val a - val a) with 0 by ring; rewrite Rabs_R0; lra).
    destruct (comb_q n m' P Q (f64_one -' a) a (1 - val a) (val a) uro Nn Nm' Up Us K1 Ka ltac:(lra) Ba ltac:(lra) ltac:(lra) D2) as (Kr & Dr).
    set (w := comb n m' (f64_one -' a) a) in *.
    assert (HC : 1 - (val eps + 34 * uro) <= C) by lra. assert (HB : 1 - (val eps + 34 * uro) <= B) by lra.
    assert (B1 : B <= 1).
    { unfold B. eapply Rle_trans; [apply dq_cauchy|]. rewrite (qabs_unit P Up), (qabs_unit (qunit q) Uq). lra. }
    (* an angle with this cosine, to bound the length *)
    assert (TZ : 0 <= acos B <= PI / 2 /\ cos (acos B) = B).
    { assert (CA : cos (acos B) = B) by (apply cos_acos; lra). split; [|exact CA]. pose proof (acos_bound B) as AB. split; [lra|].
      destruct (Rle_dec (acos B) (PI / 2)) as [L|L]; [exact L|exfalso]. assert (cos (acos B) < cos (PI / 2)) by (apply cos_decreasing_1; lra). rewrite cos_PI2 in H. lra. }
    destruct (slerp_lin (val a) (acos B) (val eps + 34 * uro) (2002 / 1000 * uro + 325 / 10 * uro) 0 P Q (qv w) (qv w) Ba (proj1 TZ) Up Us ltac:(lra) ltac:(lra) HC ltac:(rewrite (proj2 TZ); exact HB) Dr) as (LW & _).
    assert (L450 : / 2 ^ 450 <= qabsR (qv w)).
    { apply Rle_trans with (/ 2); [|lra]. apply Rinv_le_contravar; [lra|]. rewrite <- (pow_1 2) at 1. apply Rle_pow; [lra|lia]. }
    destruct (C177_normalize cfg w (wide_okf 3 w ltac:(lia) Kr) L450) as (_ & rl & r & _ & Er & _ & _ & _ & _ & _ & Fr & Rr & _).
    exists s, r. split; [exact Hs|]. split.
    { transitivity (ret <- q_normalize (arr w) ;; (let '(_, px) := ret in Ok px)); [|rewrite Er; reflexivity]. unfold w. destruct n as [[[? ?] ?] ?], m' as [[[? ?] ?] ?]. reflexivity. }
    split; [exact Fr|]. cbv zeta. change (qscaleR s (qunit q)) with Q. change (qunit p) with P. change (qdotR P Q) with C at 1. rewrite !U52. split; [lra|].
    assert (UW : qabsR (qscaleR (/ qabsR (qv w)) (qv w)) = 1) by (rewrite qabs_scale by (left; apply Rinv_0_lt_compat; lra); field; lra).
    assert (DR : qabsR (qsubR (qv r) (qscaleR (/ qabsR (qv w)) (qv w))) <= 29 * uro).
    { assert (P7 : 0 <= 7 / 2 ^ 52) by (rewrite U52; lra). pose proof (qrel_near r _ _ P7 Rr) as QN. rewrite UW in QN. change (/ 2 ^ 1075) with eta in QN. rewrite U52 in QN.
      apply near_abs in QN; lra. }
    split.
    { pose proof (qabs_diff (qv r) (qscaleR (/ qabsR (qv w)) (qv w))) as T. rewrite UW in T. lra. }
    intros z Hz Ez.
    destruct (slerp_lin (val a) z (val eps + 34 * uro) (2002 / 1000 * uro + 325 / 10 * uro) (29 * uro) P Q (qv w) (qv r) Ba Hz Up Us ltac:(lra) ltac:(lra) HC ltac:(rewrite Ez; exact HB) Dr) as (_ & L).
    destruct (L DR) as (A1 & A2 & _). split; [lra|]. split; [lra|]. intros F. exfalso. rewrite Ez in F. fold B in F. lra.
Qed.
Print Assumptions C205_slerp.
(** ** A library with correctly rounded functions meets the hypotheses *)
Lemma rounded_rel (x : R) : 0 <= x <= 2 -> (x = 0 \/ bp (-1000) <= x) -> fin (PPersp.f64_of_R x) /\ Rabs (val (PPersp.f64_of_R x) - x) <= uro * x.
Proof.
  intros Hx HL. assert (TA : Rabs x = x) by (apply Rabs_pos_eq; lra).
  destruct (PPersp.f64_of_R_E x) as (F & V). { eapply Rle_lt_trans; [apply (rnd_le _ 1); [lia|rewrite TA; change (bp 1) with 2; lra]|apply bpow_lt; lia]. }
  split; [exact F|]. rewrite V. destruct HL as [->|HL]; [rewrite rnd_0, Rminus_0_r, Rabs_R0; lra|].
  destruct (rnd_rel x) as (d & Hd & E). { rewrite TA. eapply Rle_trans; [apply (bpow_le radix2 (-1022) (-1000)); lia|exact HL]. }
  rewrite E. replace (x * (1 + d) - x) with (d * x) by ring. rewrite Rabs_mult, TA. apply Rmult_le_compat_r; [lra|exact Hd].
Qed.
Definition rounded_trig : Trig f64 := {| ssin := fun t => PPersp.f64_of_R (sin (val t)); scos := fun t => PPersp.f64_of_R (cos (val t)); stan := fun t => t |}.
Definition rounded_atan2 : Atan2 f64 := {| satan2 := fun y x => PPersp.f64_of_R (satan2 (val y) (val x)) |}.
Lemma rounded_sin_good : good_sin rounded_trig uro.
Proof.
  intros x Fx Bx. cbn [ssin rounded_trig]. pose proof pi_bounds as P. apply rounded_rel.
  - pose proof (SIN_bound (val x)). split; [|lra]. destruct Bx as [->|Bx]; [rewrite sin_0; lra|]. pose proof (Rinv_0_lt_compat (2 ^ 700) ltac:(apply pow_lt; lra)). apply sin_ge_0; lra.
  - destruct Bx as [->|Bx]; [left; apply sin_0|right]. rewrite <- (bpm 700) in Bx. change (- Z.of_nat 700)%Z with (-700)%Z in Bx. pose proof (bpow_gt_0 radix2 (-700)) as G.
    destruct (pre_sin_bound (val x) 0 ltac:(lra) ltac:(lra)) as (L & _). unfold sin_approx, sin_term in L. cbn in L.
    assert (Q : val x * val x <= 256 / 100) by (apply Rle_trans with (16 / 10 * (16 / 10)); [apply Rmult_le_compat; lra|lra]).
    assert (Q2 : val x * (val x * val x) <= val x * (256 / 100)) by (apply Rmult_le_compat_l; lra).
    apply Rle_trans with (/ 2 * bp (-700)); [|lra]. change (/ 2) with (bp (-1)). rewrite <- bpow_plus. apply bpow_le. lia.
Qed.
Lemma rounded_atan2_good : good_atan2 rounded_atan2 uro.
Proof.
  intros y x Fy Fx By Bx. cbn [satan2 rounded_atan2]. pose proof pi_bounds as P. rewrite <- (bpm 30) in By. change (- Z.of_nat 30)%Z with (-30)%Z in By. pose proof (bpow_gt_0 radix2 (-30)) as G.
  destruct (atan2_pos (val y) (val x) ltac:(lra) ltac:(lra)) as (R0 & Bt & _ & St). change (@satan2 R RAtan2) with (@satan2 R _) in *.
  apply rounded_rel; [lra|]. right. set (t := satan2 (val y) (val x)) in *. set (r := sqrt _) in *.
  assert (R2 : r <= 2).
  { unfold r. rewrite <- (sqrt_square 2) by lra. apply sqrt_le_1_alt. assert (val x * val x <= 1 * 1) by (apply Rmult_le_compat; lra). assert (val y * val y <= 1 * 1) by (apply Rmult_le_compat; lra). lra. }
  assert (SL : sin t <= t) by (pose proof (sin_lip t 0) as L; rewrite sin_0, !Rminus_0_r, (Rabs_pos_eq t) in L by lra; pose proof (Rle_abs (sin t)); lra).
  assert (SY : val y = r * sin t) by (rewrite St; field; lra). assert (r * sin t <= 2 * t) by (apply Rmult_le_compat; try lra; rewrite St; apply Rmult_le_pos; [lra|left; apply Rinv_0_lt_compat; lra]).
  apply Rle_trans with (/ 2 * bp (-30)); [|lra]. change (/ 2) with (bp (-1)). rewrite <- bpow_plus. apply bpow_le. lia.
Qed.
Definition qi64 : dquat := (f64_one, f64_zero, f64_zero, f64_zero).
Definition qw64 : dquat := (f64_zero, f64_zero, f64_zero, f64_two).
Example C205_hypotheses_met : good_sin rounded_trig uro /\ good_atan2 rounded_atan2 uro /\ 0 <= uro <= / 1000 /\
  (qeach wide qi64 /\ / 2 ^ 450 <= qabsR (qv qi64)) /\ (qeach wide qw64 /\ / 2 ^ 450 <= qabsR (qv qw64)) /\ (fin f64_half /\ / 2 ^ 600 <= val f64_half <= 1).
Proof.
  pose proof us2 as U. split; [exact rounded_sin_good|]. split; [exact rounded_atan2_good|]. split; [lra|].
  assert (G1 : 2 <= 2 ^ 500) by (rewrite <- (pow_1 2) at 1; apply Rle_pow; [lra|lia]).
  assert (G2 : / 2 ^ 450 <= 1) by (rewrite <- Rinv_1; apply Rinv_le_contravar; [lra|apply pow_R1_Rle; lra]).
  assert (G3 : / 2 ^ 600 <= / 2) by (apply Rinv_le_contravar; [lra|]; rewrite <- (pow_1 2) at 1; apply Rle_pow; [lra|lia]).
  assert (V0 : val f64_zero = 0) by reflexivity.
  assert (W0 : wide f64_zero) by (split; [reflexivity|rewrite V0, Rabs_R0; lra]). assert (W1 : wide f64_one) by (split; [reflexivity|rewrite val_one, Rabs_R1; lra]). assert (W2 : wide f64_two) by (split; [reflexivity|rewrite val_two, Rabs_pos_eq; lra]).
  split; [split; [exact (conj W1 (conj W0 (conj W0 W0)))|]|split; [split; [exact (conj W0 (conj W0 (conj W0 W2)))|]|split; [reflexivity|rewrite val_half; lra]]].
  - unfold qabsR, qi64. cbn [qv qdotR]. rewrite V0, val_one. replace (1 * 1 + 0 * 0 + 0 * 0 + 0 * 0) with 1 by ring. rewrite sqrt_1. exact G2.
  - unfold qabsR, qw64. cbn [qv qdotR]. rewrite V0, val_two. replace (0 * 0 + 0 * 0 + 0 * 0 + 2 * 2) with (2 * 2) by ring. rewrite sqrt_square by lra. lra.
Qed.
