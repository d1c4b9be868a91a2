(** Property C206: Quaternion< float >::slerp. *)
From Coq Require Import ZArith Reals Lra Psatz List.
From Flocq Require Import Core.Core IEEE754.BinarySingleNaN IEEE754.Binary IEEE754.Bits.
From Verif Require Import InstF InstF32 MVector MQuaternion MLit MFloat MSlerpF Spec Spec3 LPersp LSlerp PF32 LF32 PF32b LExprF PCullF Spec10f LExt32 LRot LDist PDist32 PQuatF32 PQuatN32 PQuantF32.
From Verif Require PFloat LFloat PFloat2 LErr LExt PAdjust PPersp PPersp32 PSlerpF PQuantF.
Import ListNotations.
Local Open Scope R_scope.
Local Open Scope list_scope.
Local Existing Instance F32Scalar.
Local Notation bp := (bpow radix2).
Local Notation val64 := PFloat.val.
Local Notation u64 := PFloat.uro.
Local Notation rnd64 := (round radix2 (FLT_exp (-1074) 53) (Znearest (fun x => negb (Z.even x)))).
Local Notation rnd := (round radix2 (FLT_exp (-149) 24) (Znearest (fun x => negb (Z.even x)))).
Local Notation "a +' b" := (b32_plus mode_NE a b) (at level 50, left associativity).
Local Notation "a -' b" := (b32_minus mode_NE a b) (at level 50, left associativity).
Local Notation "a *' b" := (b32_mult mode_NE a b) (at level 40, left associativity).
Local Notation "a /' b" := (b32_div mode_NE a b) (at level 40, left associativity).

(** The C library: sin on [0, 1.6] and atan2 in the first quadrant have relative
    error d. *)
Definition good_sin (TT : Trig f32) (d : R) : Prop :=
  forall x : f32, fin x -> (val x = 0 \/ / 2 ^ 80 <= val x <= 16 / 10) -> fin (ssin x) /\ Rabs (val (ssin x) - sin (val x)) <= d * sin (val x).
Definition good_atan2 (AT : Atan2 f32) (d : R) : Prop :=
  forall y x : f32, fin y -> fin x -> / 2 ^ 13 <= val y <= 1 -> 0 <= val x <= 1 ->
  fin (satan2 y x) /\ Rabs (val (satan2 y x) - satan2 (val y) (val x)) <= d * satan2 (val y) (val x).

Lemma us2 : 0 < uro <= / 1000000. Proof. rewrite uro_val. lra. Qed.
Lemma es2 : 0 <= eta <= uro / 1000000.
Proof.
  split; [left; apply eta_pos|]. unfold eta. rewrite uro_val. apply Rle_trans with (/ 2 ^ 100); [apply Rinv_le_contravar; [apply pow_lt; lra|apply Rle_pow; [lra|lia]]|].
  cbn. lra.
Qed.
(** ** Components *)
(** x is c up to 14 u |c| + eta, and |c| <= 1. *)
Definition ncomp (x : f32) (c : R) : Prop := fin x /\ Rabs c <= 1 /\ Rabs (val x - c) <= 14 * uro * Rabs c + eta.
Lemma ncomp_abs (x : f32) (c : R) : ncomp x c -> Rabs (val x) <= (1 + 14 * uro) * Rabs c + eta /\ okf32 1 x.
Proof.
  intros (F & B & E). pose proof us2 as U. pose proof es2 as ES. pose proof (Rabs_pos c) as C0.
  assert (T : Rabs (val x) <= Rabs (val x - c) + Rabs c) by (replace (val x) with (val x - c + c) at 1 by ring; apply Rabs_triang).
  split; [lra|]. split; [exact F|]. change (bp 1) with 2. assert (uro * Rabs c <= uro * 1) by (apply Rmult_le_compat_l; lra). lra.
Qed.
(** One product of the dot product. *)
Lemma prod_E (x y : f32) (p q : R) : ncomp x p -> ncomp y q ->
  okf32 2 (x *' y) /\ Rabs (val (x *' y) - p * q) <= 292 / 10 * uro * (Rabs p * Rabs q) + 5 * eta.
Proof.
  intros Hx Hy. destruct (ncomp_abs x p Hx) as (Ax & Kx). destruct (ncomp_abs y q Hy) as (Ay & Ky).
  destruct Hx as (_ & Bp & Ex), Hy as (_ & Bq & Ey). destruct (mult_E 1 1 x y Kx Ky ltac:(lia)) as (K & _ & E). split; [exact K|].
  pose proof us2 as U. pose proof es2 as ES. pose proof (Rabs_pos p) as P0. pose proof (Rabs_pos q) as Q0.
  set (P := Rabs p) in *. set (Q := Rabs q) in *. set (A := P * Q) in *. assert (A0 : 0 <= A) by (apply Rmult_le_pos; assumption).
  assert (uA : 0 <= uro * A <= / 1000000 * A) by (split; [apply Rmult_le_pos; lra|apply Rmult_le_compat_r; lra]).
  assert (uuA : 0 <= uro * (uro * A) <= / 1000000 * (uro * A)) by (split; [apply Rmult_le_pos; lra|apply Rmult_le_compat_r; lra]).
  assert (eP : 0 <= eta * P <= eta) by (split; [apply Rmult_le_pos; lra|rewrite <- (Rmult_1_r eta) at 2; apply Rmult_le_compat_l; lra]).
  assert (eQ : 0 <= eta * Q <= eta) by (split; [apply Rmult_le_pos; lra|rewrite <- (Rmult_1_r eta) at 2; apply Rmult_le_compat_l; lra]).
  assert (ueP : 0 <= uro * (eta * P) <= / 1000000 * eta) by (split; [apply Rmult_le_pos; lra|apply Rmult_le_compat; lra]).
  assert (ueQ : 0 <= uro * (eta * Q) <= / 1000000 * eta) by (split; [apply Rmult_le_pos; lra|apply Rmult_le_compat; lra]).
  assert (ee : 0 <= eta * eta <= / 1000000 * eta) by (split; [apply Rmult_le_pos; lra|apply Rmult_le_compat_r; lra]).
  (* the exact product *)
  assert (D1 : Rabs (val x * val y - p * q) <= 281 / 10 * uro * A + 3 * eta).
  { replace (val x * val y - p * q) with (val x * (val y - q) + (val x - p) * q) by ring. eapply Rle_trans; [apply Rabs_triang|]. rewrite !Rabs_mult. fold Q.
    assert (T1 : Rabs (val x) * Rabs (val y - q) <= ((1 + 14 * uro) * P + eta) * (14 * uro * Q + eta)) by (apply Rmult_le_compat; try apply Rabs_pos; assumption).
    assert (T2 : Rabs (val x - p) * Q <= (14 * uro * P + eta) * Q) by (apply Rmult_le_compat_r; assumption).
    replace (((1 + 14 * uro) * P + eta) * (14 * uro * Q + eta)) with (14 * (uro * A) + eta * P + 196 * (uro * (uro * A)) + 14 * (uro * (eta * P)) + 14 * (uro * (eta * Q)) + eta * eta) in T1 by (unfold A; ring).
    replace ((14 * uro * P + eta) * Q) with (14 * (uro * A) + eta * Q) in T2 by (unfold A; ring). lra. }
  assert (D2 : Rabs (val x * val y) <= A + 281 / 10 * uro * A + 3 * eta).
  { replace (val x * val y) with (val x * val y - p * q + p * q) by ring. eapply Rle_trans; [apply Rabs_triang|]. rewrite (Rabs_mult p q). fold P Q A. lra. }
  assert (D3 : uro * Rabs (val x * val y) <= uro * (A + 281 / 10 * uro * A + 3 * eta)) by (apply Rmult_le_compat_l; lra).
  assert (ue : uro * eta <= / 1000000 * eta) by (apply Rmult_le_compat_r; lra).
  replace (val (x *' y) - p * q) with (val (x *' y) - val x * val y + (val x * val y - p * q)) by ring. eapply Rle_trans; [apply Rabs_triang|]. lra.
Qed.
(** ** The dot product *)
Definition nquat (n : dquat) (r : Quat) : Prop :=
  let '(x, y, z, w) := n in let '(x', y', z', w') := r in ncomp x x' /\ ncomp y y' /\ ncomp z z' /\ ncomp w w'.
Definition dotF (p q : dquat) : f32 := let '(x, y, z, w) := p in let '(x', y', z', w') := q in w *' w' +' x *' x' +' y *' y' +' z *' z'.
Lemma q_dot_F p q : q_dot (arr p) (arr q) = Ok (dotF p q).
Proof. destruct p as [[[? ?] ?] ?], q as [[[? ?] ?] ?]. reflexivity. Qed.
Lemma half_sum (a b : R) : Rabs a * Rabs b <= (a * a + b * b) / 2.
Proof.
  pose proof (Rle_0_sqr (Rabs a - Rabs b)) as H. unfold Rsqr in H.
  assert (A : Rabs a * Rabs a = a * a) by (rewrite <- Rabs_mult; apply Rabs_pos_eq, Rle_0_sqr).
  assert (B : Rabs b * Rabs b = b * b) by (rewrite <- Rabs_mult; apply Rabs_pos_eq, Rle_0_sqr). lra.
Qed.
Lemma dot_E (n m : dquat) (p q : Quat) : nquat n p -> nquat m q -> qdotR p p = 1 -> qdotR q q = 1 ->
  fin (dotF n m) /\ Rabs (val (dotF n m) - qdotR p q) <= 33 * uro.
Proof.
  destruct n as [[[x y] z] w], m as [[[x' y'] z'] w'], p as [[[px py] pz] pw], q as [[[qx qy] qz] qw]. cbn [nquat dotF qdotR].
  intros (Nx & Ny & Nz & Nw) (Mx & My & Mz & Mw) Hp Hq.
  destruct (prod_E _ _ _ _ Nx Mx) as (Kx & Ex). destruct (prod_E _ _ _ _ Ny My) as (Ky & Ey). destruct (prod_E _ _ _ _ Nz Mz) as (Kz & Ez). destruct (prod_E _ _ _ _ Nw Mw) as (Kw & Ew).
  pose proof (half_sum px qx) as Hx. pose proof (half_sum py qy) as Hy. pose proof (half_sum pz qz) as Hz. pose proof (half_sum pw qw) as Hw.
  assert (AB : forall a b, 0 <= Rabs a * Rabs b) by (intros; apply Rmult_le_pos; apply Rabs_pos).
  pose proof (AB px qx) as A0. pose proof (AB py qy) as A1. pose proof (AB pz qz) as A2. pose proof (AB pw qw) as A3. clear AB.
  assert (L : forall a b, - (Rabs a * Rabs b) <= a * b <= Rabs a * Rabs b) by (intros a b; rewrite <- Rabs_mult; apply abs_le_inv; lra).
  pose proof (L px qx) as L0. pose proof (L py qy) as L1. pose proof (L pz qz) as L2. pose proof (L pw qw) as L3. clear L.
  set (X := Rabs px * Rabs qx) in *. set (Y := Rabs py * Rabs qy) in *. set (Z := Rabs pz * Rabs qz) in *. set (W := Rabs pw * Rabs qw) in *.
  pose proof us2 as U. pose proof es2 as ES.
  assert (uX : 0 <= uro * X <= / 1000000 * X) by (split; [apply Rmult_le_pos; lra|apply Rmult_le_compat_r; lra]).
  assert (uY : 0 <= uro * Y <= / 1000000 * Y) by (split; [apply Rmult_le_pos; lra|apply Rmult_le_compat_r; lra]).
  assert (uZ : 0 <= uro * Z <= / 1000000 * Z) by (split; [apply Rmult_le_pos; lra|apply Rmult_le_compat_r; lra]).
  assert (uW : 0 <= uro * W <= / 1000000 * W) by (split; [apply Rmult_le_pos; lra|apply Rmult_le_compat_r; lra]).
  assert (SUM : uro * X + uro * Y + uro * Z + uro * W <= uro * 1) by (rewrite <- !Rmult_plus_distr_l; apply Rmult_le_compat_l; lra).
  destruct (plus_E 2 _ _ Kw Kx ltac:(lia)) as (K1 & _ & E1). destruct (plus_E 3 _ _ K1 (okf32_le 2 3 _ Ky ltac:(lia)) ltac:(lia)) as (K2 & _ & E2).
  destruct (plus_E 4 _ _ K2 (okf32_le 2 4 _ Kz ltac:(lia)) ltac:(lia)) as (K3 & _ & E3).
  apply abs_le_inv in Ex, Ey, Ez, Ew.
  assert (B1 : Rabs (val (w *' w') + val (x *' x')) <= 101 / 100) by (apply Rabs_le; lra).
  assert (F1 : uro * Rabs (val (w *' w') + val (x *' x')) <= uro * (101 / 100)) by (apply Rmult_le_compat_l; lra).
  assert (E1' : Rabs (val (w *' w' +' x *' x') - (val (w *' w') + val (x *' x'))) <= 101 / 100 * uro) by lra. apply abs_le_inv in E1'.
  set (s1 := w *' w' +' x *' x') in *.
  assert (B2 : Rabs (val s1 + val (y *' y')) <= 101 / 100) by (apply Rabs_le; lra).
  assert (F2 : uro * Rabs (val s1 + val (y *' y')) <= uro * (101 / 100)) by (apply Rmult_le_compat_l; lra).
  assert (E2' : Rabs (val (s1 +' y *' y') - (val s1 + val (y *' y'))) <= 101 / 100 * uro) by lra. apply abs_le_inv in E2'.
  set (s2 := s1 +' y *' y') in *.
  assert (B3 : Rabs (val s2 + val (z *' z')) <= 101 / 100) by (apply Rabs_le; lra).
  assert (F3 : uro * Rabs (val s2 + val (z *' z')) <= uro * (101 / 100)) by (apply Rmult_le_compat_l; lra).
  assert (E3' : Rabs (val (s2 +' z *' z') - (val s2 + val (z *' z'))) <= 101 / 100 * uro) by lra. apply abs_le_inv in E3'.
  split; [apply K3|]. apply Rabs_le. lra.
Qed.
(** ** The normalised operands *)
Definition qunit (q : dquat) : Quat := qscaleR (/ qabsR (qv q)) (qv q).
Lemma unit_unit (q : dquat) : 0 < qabsR (qv q) -> qdotR (qunit q) (qunit q) = 1.
Proof.
  intros H. pose proof (qabs_sq (qv q)) as E. unfold qunit. set (L := qabsR (qv q)) in *. replace (qdotR (qscaleR (/ L) (qv q)) (qscaleR (/ L) (qv q))) with (/ L * / L * qdotR (qv q) (qv q)).
  - rewrite <- E. field. lra.
  - destruct (qv q) as [[[a b] c] d]. cbn [qdotR qscaleR]. ring.
Qed.
Lemma unit_comp (p : Quat) : qdotR p p = 1 -> let '(x, y, z, w) := p in Rabs x <= 1 /\ Rabs y <= 1 /\ Rabs z <= 1 /\ Rabs w <= 1.
Proof. intros H. pose proof (comp_le p) as C. rewrite (qabs_unit p H) in C. exact C. Qed.
Lemma nquat_of (n : dquat) (p : Quat) : qeach fin n -> qdotR p p = 1 -> qrel n p (7 / 2 ^ 23) -> nquat n p.
Proof.
  intros F U. pose proof (unit_comp p U) as C. destruct n as [[[x y] z] w], p as [[[px py] pz] pw]. destruct F as (F0 & F1 & F2 & F3), C as (C0 & C1 & C2 & C3). cbv zeta.
  replace (7 / 2 ^ 23) with (14 * uro) by (rewrite uro_val; cbn; lra). change (/ 2 ^ 150) with eta. intros (R0 & R1 & R2 & R3). cbn [nquat]. unfold ncomp. auto 20.
Qed.
(** ** The side of the sphere *)
Lemma val_opp (x : f32) : fin x -> fin (b32_opp x) /\ val (b32_opp x) = - val x.
Proof. intros F. split; [unfold fin, b32_opp in *; rewrite is_finite_Bopp; exact F|unfold val, b32_opp; apply B2R_Bopp]. Qed.
Lemma ncomp_opp (x : f32) (c : R) : ncomp x c -> ncomp (b32_opp x) (- 1 * c).
Proof.
  intros (F & B & E). destruct (val_opp x F) as (Fo & Vo). split; [exact Fo|]. replace (- 1 * c) with (- c) by ring. rewrite Rabs_Ropp. split; [exact B|].
  rewrite Vo. replace (- val x - - c) with (- (val x - c)) by ring. rewrite Rabs_Ropp. exact E.
Qed.
Lemma dot_scale_r (k : R) (p q : Quat) : qdotR p (qscaleR k q) = k * qdotR p q.
Proof. destruct p as [[[? ?] ?] ?], q as [[[? ?] ?] ?]. cbn [qdotR qscaleR]. ring. Qed.
Lemma scale_unit (k : R) (q : Quat) : k = 1 \/ k = -1 -> qdotR q q = 1 -> qdotR (qscaleR k q) (qscaleR k q) = 1.
Proof. intros H E. destruct q as [[[? ?] ?] ?]. cbn [qdotR qscaleR] in *. destruct H as [->| ->]; lra. Qed.
Lemma side (n m : dquat) (p q : Quat) : nquat n p -> nquat m q -> qdotR p p = 1 -> qdotR q q = 1 ->
  exists (s : R) (c : f32) (m' : dquat), (s = 1 \/ s = -1) /\
  (if sltb (dotF n m) szero then qx <- q_neg (arr m) ;; Ok (sopp (dotF n m), qx) else Ok (dotF n m, arr m)) = Ok (c, arr m') /\
  nquat m' (qscaleR s q) /\ fin c /\ 0 <= val c /\ Rabs (val c - qdotR p (qscaleR s q)) <= 33 * uro /\ Rabs (val c - Rabs (qdotR p q)) <= 33 * uro.
Proof.
  intros Hn Hm Up Uq. destruct (dot_E n m p q Hn Hm Up Uq) as (Fc & Ec). set (c := dotF n m) in *.
  assert (AA : forall x y e, Rabs (x - y) <= e -> Rabs (Rabs x - Rabs y) <= e) by (intros x y e H; eapply Rle_trans; [apply Rabs_triang_inv2|exact H]).
  pose proof (AA _ _ _ Ec) as Ea. cbn [sltb szero sopp F32Scalar].
  destruct (Bltb32 c f32_zero) eqn:B.
  - apply (Bltb32_fin c f32_zero Fc eq_refl) in B. change (val f32_zero) with 0 in B. destruct (val_opp c Fc) as (Fo & Vo).
    exists (-1), (b32_opp c). destruct m as [[[x y] z] w], q as [[[qx qy] qz] qw]. exists (b32_opp x, b32_opp y, b32_opp z, b32_opp w). destruct Hm as (M0 & M1 & M2 & M3).
    split; [right; reflexivity|]. split; [reflexivity|]. split; [exact (conj (ncomp_opp _ _ M0) (conj (ncomp_opp _ _ M1) (conj (ncomp_opp _ _ M2) (ncomp_opp _ _ M3))))|]. split; [exact Fo|]. rewrite Vo. split; [lra|].
    rewrite dot_scale_r. split.
    + match goal with |- Rabs (- val c - -1 * ?d) <= _ => replace (- val c - -1 * d) with (- (val c - d)) by ring end. rewrite Rabs_Ropp. exact Ec.
    + rewrite (Rabs_left (val c) B) in Ea. exact Ea.
  - apply (Bltb32_fin_false c f32_zero Fc eq_refl) in B. change (val f32_zero) with 0 in B.
    exists 1, c, m. split; [left; reflexivity|]. split; [reflexivity|]. assert (E1 : qscaleR 1 q = q) by (destruct q as [[[? ?] ?] ?]; cbn [qscaleR]; rewrite !Rmult_1_l; reflexivity). rewrite E1.
    split; [exact Hm|]. split; [exact Fc|]. split; [exact B|]. split; [exact Ec|]. rewrite (Rabs_pos_eq (val c) B) in Ea. exact Ea.
Qed.

(** ** The sine *)
Lemma fmt_below1 (x : f32) : fin x -> val x < 1 -> val x <= 1 - uro.
Proof.
  intros F H. assert (Fx : generic_format radix2 (FLT_exp (-149) 24) (val x)) by apply (generic_format_B2R 24 128).
  assert (F1 : generic_format radix2 (FLT_exp (-149) 24) 1) by (replace 1 with (bp 0) by reflexivity; apply generic_format_bpow; cbn; lia).
  assert (VE : Valid_exp (FLT_exp (-149) 24)) by (apply FLT_exp_valid; reflexivity).
  pose proof (pred_ge_gt radix2 (FLT_exp (-149) 24) _ _ Fx F1 H) as P. eapply Rle_trans; [exact P|]. right.
  replace 1 with (bp 0) by reflexivity. rewrite pred_bpow. replace (FLT_exp (-149) 24 0) with (-24)%Z by reflexivity. f_equal. f_equal. rewrite uro_val. cbn. lra.
Qed.
Lemma rnd_small (x b : R) : generic_format radix2 (FLT_exp (-149) 24) b -> (x <= b -> rnd x <= b) /\ (b <= x -> b <= rnd x).
Proof.
  intros F. assert (E : rnd b = b) by (apply round_generic; [apply valid_rnd_N|exact F]). split; intros H; [rewrite <- E; apply rnd_mono, H|rewrite <- E; apply rnd_mono, H].
Qed.
Lemma fmt_bp (e : Z) : (-149 <= e <= 100)%Z -> generic_format radix2 (FLT_exp (-149) 24) (bp e).
Proof. intros H. apply generic_format_bpow. unfold FLT_exp. lia. Qed.
(** Storing a double in a float. *)
Lemma narrow_E (d : f64) (i : Z) : PFloat.fin d -> Rabs (val64 d) <= bp i -> (0 <= i < 128)%Z ->
  okf32 i (f32_of_f64 d) /\ val (f32_of_f64 d) = rnd (val64 d) /\ Rabs (val (f32_of_f64 d) - val64 d) <= uro * Rabs (val64 d) + eta.
Proof.
  intros Fd HB Hi. destruct (LF32d.narrow d Fd) as (N1 & _). change (B2R 53 1024 d) with (val64 d) in N1. set (r := f32_of_f64 d) in *.
  pose proof (rnd_le (val64 d) i ltac:(lia) HB) as RB.
  unfold rnx in N1. rewrite Rlt_bool_true in N1 by (eapply Rle_lt_trans; [exact RB|apply bpow_lt; lia]).
  assert (Er : fin r /\ val r = rnd (val64 d)).
  { destruct r; try discriminate N1; cbn [Spec10f.value] in N1; injection N1 as N1; split; try reflexivity; exact N1. }
  destruct Er as (Fr & Er). split; [split; [exact Fr|change (PF32.val r) with (val r); rewrite Er; exact RB]|]. split; [exact Er|]. rewrite Er.
  destruct (Rle_or_lt (bp (-126)) (Rabs (val64 d))) as [L|L].
  - destruct (rnd_rel _ L) as (e & He & E). rewrite E. replace (val64 d * (1 + e) - val64 d) with (val64 d * e) by ring. rewrite Rabs_mult. pose proof (Rabs_pos (val64 d)). pose proof eta_pos.
    assert (Rabs (val64 d) * Rabs e <= Rabs (val64 d) * uro) by (apply Rmult_le_compat_l; assumption). lra.
  - assert (VE : Valid_exp (FLT_exp (-149) 24)) by (apply FLT_exp_valid; reflexivity). assert (PG : Prec_gt_0 24) by reflexivity.
    pose proof (error_le_half_ulp radix2 (FLT_exp (-149) 24) (fun x => negb (Z.even x)) (val64 d)) as H.
    assert (UL : ulp radix2 (FLT_exp (-149) 24) (val64 d) = bp (-149)).
    { apply ulp_FLT_small; [exact PG|]. eapply Rlt_le_trans; [exact L|]. apply bpow_le. lia. }
    rewrite UL in H. assert (HE : / 2 * bp (-149) = eta) by (unfold eta; change (/ 2) with (bp (-1)); rewrite <- bpow_plus; change (-1 + -149)%Z with (- Z.of_nat 150)%Z; apply PAdjust.bpm).
    pose proof us2 as U. assert (0 <= uro * Rabs (val64 d)) by (apply Rmult_le_pos; [lra|apply Rabs_pos]). lra.
Qed.
Lemma u64_small : 0 < u64 <= / 1000000 * uro. Proof. rewrite PFloat2.uro_val, uro_val. lra. Qed.
Lemma widen_E (x : f32) : fin x -> PFloat.fin (f64_of_f32 x) /\ val64 (f64_of_f32 x) = val x.
Proof. intros F. destruct (LF32d.widen x F) as (W1 & W2 & _). split; [exact W1|exact W2]. Qed.
(** 1. - x in double, for x in [0, 1]. *)
Lemma omd_E (x : f32) : fin x -> 0 <= val x <= 1 ->
  PFloat.fin (one_minus_d x) /\ val64 (one_minus_d x) = rnd64 (1 - val x) /\ Rabs (val64 (one_minus_d x) - (1 - val x)) <= u64 * (1 - val x) /\ 0 <= val64 (one_minus_d x) <= 1.
Proof.
  intros F B. destruct (widen_E x F) as (Fw & Vw). assert (K1 : LErr.okf 0 f64_one) by (split; [reflexivity|rewrite LFloat.val_one; change (bp 0) with 1; rewrite Rabs_R1; lra]).
  assert (Ka : LErr.okf 0 (f64_of_f32 x)) by (split; [exact Fw|]; rewrite Vw; change (bp 0) with 1; rewrite Rabs_pos_eq; lra).
  destruct (PQuantF.minus_E 0 f64_one (f64_of_f32 x) K1 Ka ltac:(lia)) as (K & V & E). rewrite LFloat.val_one, Vw in V, E. rewrite (Rabs_pos_eq (1 - val x)) in E by lra.
  fold (one_minus_d x) in *. split; [apply K|]. split; [exact V|]. split; [exact E|]. rewrite V. split; [apply LExt.rnd_nonneg; lra|].
  replace 1 with (bp 0) at 2 by reflexivity. apply (PSlerpF.rnd_small _ _ (PSlerpF.fmt_bp 0 ltac:(lia))). change (bp 0) with 1. lra.
Qed.
Lemma sine_E (c : f32) : fin c -> 0 <= val c < 1 -> let s := qf_sine c in
  fin s /\ bp (-12) <= val s <= 1 /\ Rabs (val s * val s + val c * val c - 1) <= 45 / 10 * uro.
Proof.
  intros Fc Bc s. pose proof us2 as U. pose proof es2 as ES. pose proof u64_small as U6. assert (B1 := fmt_below1 c Fc (proj2 Bc)).
  assert (Kc : okf32 0 c) by (split; [exact Fc|]; change (bp 0) with 1; rewrite Rabs_pos_eq; lra).
  destruct (mult_E 0 0 c c Kc Kc ltac:(lia)) as (Kp & Vp & Ep). change (0 + 0)%Z with 0%Z in Kp.
  set (x := val c) in *. assert (X2 : 0 <= x * x <= 1 - uro).
  { split; [apply Rle_0_sqr|]. apply Rle_trans with ((1 - uro) * (1 - uro)); [apply Rmult_le_compat; lra|]. assert (uro * uro <= uro * 1) by (apply Rmult_le_compat_l; lra). lra. }
  rewrite (Rabs_pos_eq (x * x)) in Ep by lra. assert (uX : uro * (x * x) <= uro * 1) by (apply Rmult_le_compat_l; lra). apply abs_le_inv in Ep.
  assert (F1u : generic_format radix2 (FLT_exp (-149) 24) (1 - uro)).
  { replace (1 - uro) with (pred radix2 (FLT_exp (-149) 24) 1).
    - assert (VE : Valid_exp (FLT_exp (-149) 24)) by (apply FLT_exp_valid; reflexivity). apply generic_format_pred; [exact VE|]. replace 1 with (bp 0) by reflexivity. apply fmt_bp. lia.
    - replace 1 with (bp 0) by reflexivity. rewrite pred_bpow. replace (FLT_exp (-149) 24 0) with (-24)%Z by reflexivity. f_equal. f_equal. rewrite uro_val. cbn. lra. }
  assert (SQ : 0 <= val (c *' c) <= 1 - uro) by (rewrite Vp; split; [apply rnd_nonneg; lra|apply (rnd_small _ _ F1u), X2]).
  destruct (omd_E (c *' c) (proj1 Kp) ltac:(lra)) as (Fw & Vw & Ew & W1). set (w := one_minus_d (c *' c)) in *. set (q := val (c *' c)) in *.
  assert (uQ : u64 * (1 - q) <= u64 * 1) by (apply Rmult_le_compat_l; lra). apply abs_le_inv in Ew.
  assert (F24 : bp (-24) = uro) by (rewrite uro_val; cbn; lra).
  assert (WB : uro <= val64 w).
  { rewrite Vw. rewrite <- F24. apply (PSlerpF.rnd_small _ _ (PSlerpF.fmt_bp (-24) ltac:(lia))). rewrite F24. lra. }
  destruct (LFloat.sqrt_fin w Fw ltac:(lra)) as (Fs & Vs). set (g := b64_sqrt mode_NE w) in *.
  assert (SW : sqrt (val64 w) * sqrt (val64 w) = val64 w) by (apply sqrt_sqrt; lra). assert (S0 : 0 <= sqrt (val64 w)) by apply sqrt_pos.
  assert (SL : bp (-12) <= sqrt (val64 w) <= 1).
  { split.
    - rewrite <- (sqrt_square (bp (-12))) by apply bpow_ge_0. apply sqrt_le_1_alt. rewrite <- bpow_plus. change (-12 + -12)%Z with (-24)%Z. rewrite F24. lra.
    - rewrite <- sqrt_1. apply sqrt_le_1_alt. lra. }
  assert (GB : bp (-12) <= val64 g <= 1).
  { rewrite Vs. split; [apply (PSlerpF.rnd_small _ _ (PSlerpF.fmt_bp (-12) ltac:(lia))), SL|]. replace 1 with (bp 0) by reflexivity. apply (PSlerpF.rnd_small _ _ (PSlerpF.fmt_bp 0 ltac:(lia))). apply SL. }
  pose proof (bpow_gt_0 radix2 (-12)) as G12.
  destruct (narrow_E g 0 Fs ltac:(change (bp 0) with 1; rewrite Rabs_pos_eq; lra) ltac:(lia)) as (Ks & Vg & _). change (f32_of_f64 g) with s in Ks, Vg.
  split; [apply Ks|].
  assert (SB : bp (-12) <= val s <= 1).
  { rewrite Vg. split; [apply (rnd_small _ _ (fmt_bp (-12) ltac:(lia))), GB|]. replace 1 with (bp 0) by reflexivity. apply (rnd_small _ _ (fmt_bp 0 ltac:(lia))). apply GB. }
  split; [exact SB|].
  destruct (LFloat.rnd_rel (sqrt (val64 w))) as (d & Hd & Er). { rewrite Rabs_pos_eq by lra. eapply Rle_trans; [apply (bpow_le radix2 (-1022) (-12)); lia|apply SL]. }
  destruct (rnd_rel (val64 g)) as (d' & Hd' & Er'). { rewrite Rabs_pos_eq by lra. eapply Rle_trans; [apply (bpow_le radix2 (-126) (-12)); lia|apply GB]. }
  rewrite Vg, Er', Vs, Er. set (e := d + d' + d * d').
  replace (sqrt (val64 w) * (1 + d) * (1 + d') * (sqrt (val64 w) * (1 + d) * (1 + d'))) with (sqrt (val64 w) * sqrt (val64 w) * (1 + 2 * e + e * e)) by (unfold e; ring). rewrite SW.
  assert (He : Rabs e <= 101 / 100 * uro).
  { assert (DD : Rabs (d * d') <= / 1000000 * uro) by (rewrite Rabs_mult; apply Rmult_le_compat; try apply Rabs_pos; lra). apply abs_le_inv in DD, Hd, Hd'. unfold e. apply Rabs_le. lra. }
  assert (ee : 0 <= e * e <= 2 / 1000000 * uro) by (split; [apply Rle_0_sqr|]; replace (e * e) with (Rabs e * Rabs e) by (rewrite <- Rabs_mult; apply Rabs_pos_eq, Rle_0_sqr); apply Rle_trans with (101 / 100 * uro * (101 / 100 * uro)); [apply Rmult_le_compat; try apply Rabs_pos; assumption|assert (uro * uro <= / 1000000 * uro) by (apply Rmult_le_compat_r; lra); lra]).
  apply abs_le_inv in He.
  assert (WD : - (21 / 10 * uro) <= val64 w * (2 * e + e * e) <= 21 / 10 * uro).
  { apply abs_le_inv. rewrite Rabs_mult, (Rabs_pos_eq (val64 w)) by lra. apply Rle_trans with (1 * (21 / 10 * uro)); [|lra]. apply Rmult_le_compat; [lra|apply Rabs_pos|lra|apply Rabs_le; lra]. }
  apply Rabs_le. lra.
Qed.
(** ** The angle and the coefficients *)
Lemma angle_E (c : f32) : fin c -> 0 <= val c < 1 -> let s := val (qf_sine c) in let t := satan2 s (val c) in exists rho,
  Rabs (rho - 1) <= 45 / 10 * uro /\ 0 < t <= PI / 2 /\ bp (-13) <= t /\ s = rho * sin t /\ Rabs (val c - cos t) <= 46 / 10 * uro.
Proof.
  intros Fc Bc s t. destruct (sine_E c Fc Bc) as (Fs & Bs & Es). fold s in Fs, Bs, Es. cbv zeta in *. fold s in Bs, Es.
  pose proof us2 as U. pose proof (bpow_gt_0 radix2 (-12)) as G.
  destruct (atan2_pos s (val c) ltac:(lra) ltac:(lra)) as (R0 & Bt & Ct & St). fold t in Bt, Ct, St. set (r := sqrt (val c * val c + s * s)) in *.
  assert (SP : 0 < val c * val c + s * s) by (pose proof (Rle_0_sqr (val c)); pose proof (Rmult_lt_0_compat s s ltac:(lra) ltac:(lra)); unfold Rsqr in *; lra).
  assert (RN : Rabs (r - 1) <= 45 / 10 * uro) by (apply sqrt_near; [exact SP|lra|]; replace (val c * val c + s * s - 1) with (s * s + val c * val c - 1) by ring; exact Es).
  exists r. split; [exact RN|]. split; [exact Bt|]. apply abs_le_inv in RN.
  assert (SR : s = r * sin t) by (rewrite St; field; lra).
  split; [|split; [exact SR|]].
  - assert (SL : sin t <= t) by (pose proof (sin_lip t 0) as L; rewrite sin_0, !Rminus_0_r, (Rabs_pos_eq t) in L by lra; pose proof (Rle_abs (sin t)); lra).
    assert (T0 : 0 <= sin t) by (rewrite St; apply Rmult_le_pos; [lra|left; apply Rinv_0_lt_compat; lra]).
    assert (r * sin t <= 2 * sin t) by (apply Rmult_le_compat_r; lra). change (-13)%Z with (-1 + -12)%Z. rewrite bpow_plus. change (bp (-1)) with (/ 2). lra.
  - rewrite Ct. replace (val c - val c / r) with (val c * ((r - 1) * / r)) by (field; lra).
    assert (IR : / r <= 102 / 100) by (apply (Rmult_le_reg_r r); [lra|]; rewrite Rinv_l by lra; lra). assert (I0 : 0 < / r) by (apply Rinv_0_lt_compat; lra).
    assert (Q : Rabs ((r - 1) * / r) <= 46 / 10 * uro).
    { rewrite Rabs_mult, (Rabs_pos_eq (/ r)) by lra. apply Rle_trans with (45 / 10 * uro * (102 / 100)); [apply Rmult_le_compat; [apply Rabs_pos|lra|apply Rabs_le; lra|exact IR]|lra]. }
    rewrite Rabs_mult, (Rabs_pos_eq (val c)) by lra. apply Rle_trans with (1 * (46 / 10 * uro)); [apply Rmult_le_compat; [lra|apply Rabs_pos|lra|exact Q]|lra].
Qed.
(** ** Real parts of the coefficients *)
Lemma arg_core (d b A be t dl : R) : 0 <= d <= / 1000 -> 0 <= be -> 0 <= t -> Rabs (A - t) <= d * t -> Rabs (b - be) <= uro * be -> Rabs dl <= uro ->
  Rabs (b * A * (1 + dl) - be * t) <= (1002 / 1000 * d + 22 / 10 * uro) * (be * t) /\ 998 / 1000 * (be * t) <= b * A.
Proof.
  intros Hd Hbe Ht EA Eb Hdl. pose proof us2 as U.
  assert (ub : 0 <= uro * be <= / 1000000 * be) by (split; [apply Rmult_le_pos; lra|apply Rmult_le_compat_r; lra]). apply abs_le_inv in Eb.
  assert (dt : 0 <= d * t <= / 1000 * t) by (split; [apply Rmult_le_pos; lra|apply Rmult_le_compat_r; lra]).
  set (X := be * t). assert (X0 : 0 <= X) by (apply Rmult_le_pos; lra).
  assert (uX : 0 <= uro * X <= / 1000000 * X) by (split; [apply Rmult_le_pos; lra|apply Rmult_le_compat_r; lra]).
  assert (dX : 0 <= d * X <= / 1000 * X) by (split; [apply Rmult_le_pos; lra|apply Rmult_le_compat_r; lra]).
  assert (udX : 0 <= uro * (d * X) <= / 1000000 * (d * X)) by (split; [apply Rmult_le_pos; lra|apply Rmult_le_compat_r; lra]).
  assert (PE : Rabs (b * A - X) <= 1001 / 1000 * (d * X) + uro * X).
  { replace (b * A - X) with (b * (A - t) + (b - be) * t) by (unfold X; ring). eapply Rle_trans; [apply Rabs_triang|]. rewrite !Rabs_mult, (Rabs_pos_eq b), (Rabs_pos_eq t) by lra.
    assert (T1 : b * Rabs (A - t) <= (be + uro * be) * (d * t)) by (apply Rmult_le_compat; [lra|apply Rabs_pos|lra|exact EA]).
    assert (T2 : Rabs (b - be) * t <= uro * be * t) by (apply Rmult_le_compat_r; [lra|apply Rabs_le; lra]).
    replace ((be + uro * be) * (d * t)) with (d * X + uro * (d * X)) in T1 by (unfold X; ring). replace (uro * be * t) with (uro * X) in T2 by (unfold X; ring). lra. }
  apply abs_le_inv in PE. split; [|lra].
  assert (RE : Rabs (b * A * dl) <= (1002 / 1000 * X) * uro) by (rewrite Rabs_mult, (Rabs_pos_eq (b * A)) by lra; apply Rmult_le_compat; [lra|apply Rabs_pos|lra|exact Hdl]).
  apply abs_le_inv in RE. apply Rabs_le. lra.
Qed.
Lemma quot_core (d x S1 rho be t : R) : 0 <= d <= / 1000 -> 0 < t <= PI / 2 -> 0 <= be <= 1 -> Rabs (x - be * t) <= (1002 / 1000 * d + 22 / 10 * uro) * (be * t) ->
  Rabs (S1 - sin x) <= d * sin x -> Rabs (rho - 1) <= 45 / 10 * uro ->
  0 < rho * sin t /\ 0 <= sin (be * t) / sin t <= 1 /\ Rabs (S1 / (rho * sin t) - sin (be * t) / sin t) <= 276 / 100 * d + 85 / 10 * uro.
Proof.
  intros Hd Bt Be0 EX ESn Hr. pose proof us2 as U. pose proof pi_bounds as P.
  assert (BT : 0 <= be * t <= PI / 2).
  { split; [apply Rmult_le_pos; lra|]. apply Rle_trans with (1 * t); [apply Rmult_le_compat_r; lra|lra]. }
  pose proof (sin_rel x (be * t) (1002 / 1000 * d + 22 / 10 * uro) BT ltac:(lra) EX) as SR.
  destruct (sin_part be t Be0 ltac:(lra)) as (N0 & N1). set (N := sin (be * t)) in *. set (T := sin t) in *.
  assert (TP : 0 < T) by (apply sin_gt_0; lra).
  assert (dN : 0 <= d * N <= / 1000 * N) by (split; [apply Rmult_le_pos; lra|apply Rmult_le_compat_r; lra]).
  assert (uN : 0 <= uro * N <= / 1000000 * N) by (split; [apply Rmult_le_pos; lra|apply Rmult_le_compat_r; lra]).
  replace (173 / 100 * (1002 / 1000 * d + 22 / 10 * uro) * N) with (173 / 100 * (1002 / 1000) * (d * N) + 173 / 100 * (22 / 10) * (uro * N)) in SR by ring.
  apply abs_le_inv in SR.
  assert (DS : d * sin x <= d * (1002 / 1000 * N)) by (apply Rmult_le_compat_l; lra). replace (d * (1002 / 1000 * N)) with (1002 / 1000 * (d * N)) in DS by ring.
  assert (S1E : Rabs (S1 - N) <= 274 / 100 * (d * N) + 39 / 10 * (uro * N)) by (apply abs_le_inv in ESn; apply Rabs_le; lra).
  apply abs_le_inv in S1E. apply abs_le_inv in Hr.
  assert (SP : 0 < rho * T) by (apply Rmult_lt_0_compat; lra). split; [exact SP|].
  set (K := N / T). assert (KB : 0 <= K <= 1).
  { unfold K. split; [apply Rmult_le_pos; [exact N0|left; apply Rinv_0_lt_compat, TP]|]. apply (Rmult_le_reg_r T); [exact TP|]. unfold Rdiv. rewrite Rmult_assoc, Rinv_l, Rmult_1_r by lra. lra. }
  split; [exact KB|].
  assert (IR : / rho <= 1001 / 1000) by (apply (Rmult_le_reg_r rho); [lra|]; rewrite Rinv_l by lra; lra). assert (I0 : 0 < / rho) by (apply Rinv_0_lt_compat; lra).
  assert (NE : Rabs (S1 - rho * N) <= 274 / 100 * (d * N) + 84 / 10 * (uro * N)).
  { assert (RR : - (45 / 10 * uro * N) <= (rho - 1) * N <= 45 / 10 * uro * N) by (split; [replace (- (45 / 10 * uro * N)) with (- (45 / 10 * uro) * N) by ring|]; apply Rmult_le_compat_r; lra). apply Rabs_le. lra. }
  replace (S1 / (rho * T) - K) with ((S1 - rho * N) * (/ rho * / T)) by (unfold K; field; split; lra).
  rewrite Rabs_mult, (Rabs_pos_eq (/ rho * / T)) by (apply Rmult_le_pos; left; [exact I0|apply Rinv_0_lt_compat, TP]).
  apply Rle_trans with ((274 / 100 * (d * N) + 84 / 10 * (uro * N)) * (/ rho * / T)); [apply Rmult_le_compat_r; [apply Rmult_le_pos; left; [exact I0|apply Rinv_0_lt_compat, TP]|exact NE]|].
  replace ((274 / 100 * (d * N) + 84 / 10 * (uro * N)) * (/ rho * / T)) with ((274 / 100 * d + 84 / 10 * uro) * (K * / rho)) by (unfold K; field; split; lra).
  apply Rle_trans with ((274 / 100 * d + 84 / 10 * uro) * (1001 / 1000)); [|lra]. apply Rmult_le_compat_l; [lra|]. apply Rle_trans with (1 * (1001 / 1000)); [apply Rmult_le_compat; lra|lra].
Qed.
Section Coef.
Context (TF : Trig f32) (TD : Trig f64) (AT : Atan2 f32) (d : R) (c : f32).
Hypotheses (Hd : 0 <= d <= / 1000) (GS : good_sin TF d) (GD : PSlerpF.good_sin TD d) (GA : good_atan2 AT d) (Fc : fin c) (Bc : 0 <= val c < 1).
Definition th := satan2 (val (qf_sine c)) (val c).
Definition ang : f32 := satan2 (qf_sine c) c.
Lemma ang_E : fin ang /\ Rabs (val ang - th) <= d * th.
Proof.
  destruct (sine_E c Fc Bc) as (Fs & Bs & _). cbv zeta in *.
  apply (GA (qf_sine c) c Fs Fc); [split; [|lra]; rewrite <- (PAdjust.bpm 13); eapply Rle_trans; [apply (bpow_le radix2 (-13) (-12)); lia|apply Bs]|lra].
Qed.
(** std::sin( a * angle ) / sine in float. *)
Lemma coef2_E (a : f32) : fin a -> (val a = 0 \/ / 2 ^ 60 <= val a <= 1) ->
  okf32 1 (qf_coeff2 a ang (qf_sine c)) /\ Rabs (val (qf_coeff2 a ang (qf_sine c)) - sin (val a * th) / sin th) <= 28 / 10 * d + 10 * uro.
Proof.
  intros Fa Ha. pose proof us2 as U. pose proof es2 as ES. pose proof pi_bounds as P.
  destruct (angle_E c Fc Bc) as (rho & Hr & Bt & Lt & Es & _). destruct (sine_E c Fc Bc) as (Fs & Bs & _). cbv zeta in *. fold th in Bt, Lt, Es.
  pose proof (bpow_gt_0 radix2 (-13)) as G28. destruct ang_E as (FA & EA).
  assert (dt : 0 <= d * th <= / 1000 * th) by (split; [apply Rmult_le_pos; lra|apply Rmult_le_compat_r; lra]).
  assert (Be0 : 0 <= val a <= 1).
  { destruct Ha as [->|Hb]; [lra|]. pose proof (Rinv_0_lt_compat (2 ^ 60) ltac:(apply pow_lt; lra)). lra. }
  assert (Eb : Rabs (val a - val a) <= uro * val a) by (replace (val a - val a) with 0 by ring; rewrite Rabs_R0; apply Rmult_le_pos; lra).
  assert (XE : fin (a *' ang) /\ Rabs (val (a *' ang) - val a * th) <= (1002 / 1000 * d + 22 / 10 * uro) * (val a * th) /\ (val (a *' ang) = 0 \/ / 2 ^ 80 <= val (a *' ang) <= 16 / 10)).
  { pose proof EA as EA0. apply abs_le_inv in EA0. destruct Ha as [Va|Hb].
    - assert (Kb : okf32 0 a) by (split; [exact Fa|rewrite Va, Rabs_R0; apply bpow_ge_0]).
      assert (KA : okf32 1 ang) by (split; [exact FA|change (bp 1) with 2; apply Rabs_le; lra]).
      destruct (mult_E 0 1 a ang Kb KA ltac:(lia)) as (K & V & _). rewrite Va, Rmult_0_l, rnd_0 in V. split; [apply K|]. rewrite V, Va. split; [|left; reflexivity]. rewrite !Rmult_0_l, Rmult_0_r, Rminus_0_r, Rabs_R0. lra.
    - rewrite <- (PAdjust.bpm 60) in Hb. change (- Z.of_nat 60)%Z with (-60)%Z in Hb. pose proof (bpow_gt_0 radix2 (-60)) as G6.
      set (X := val a * th). assert (XL : bp (-73) <= X) by (unfold X; change (-73)%Z with (-60 + -13)%Z; rewrite bpow_plus; apply Rmult_le_compat; lra).
      assert (XU : X <= th) by (unfold X; rewrite <- (Rmult_1_l th) at 2; apply Rmult_le_compat_r; lra). pose proof (bpow_gt_0 radix2 (-73)) as G62.
      destruct (arg_core d (val a) (val ang) (val a) th 0 Hd ltac:(lra) ltac:(lra) EA Eb ltac:(rewrite Rabs_R0; lra)) as (AC0 & PL). rewrite Rplus_0_r, Rmult_1_r in AC0. fold X in AC0, PL.
      assert (dX : 0 <= d * X <= / 1000 * X) by (split; [apply Rmult_le_pos; lra|apply Rmult_le_compat_r; lra]).
      assert (uX : 0 <= uro * X <= / 1000000 * X) by (split; [apply Rmult_le_pos; lra|apply Rmult_le_compat_r; lra]). apply abs_le_inv in AC0.
      assert (B74 : bp (-73) = 2 * bp (-74)) by (change (-73)%Z with (1 + -74)%Z; rewrite bpow_plus; reflexivity). pose proof (bpow_gt_0 radix2 (-74)) as G63.
      assert (PB : bp (-74) <= val a * val ang <= bp 1) by (split; [lra|change (bp 1) with 2; lra]).
      destruct (PPersp32.mult_rel32 a ang 1 Fa FA) as (FX & _ & dl & Hdl & VX); [rewrite Rabs_pos_eq by lra; split; [eapply Rle_trans; [apply (bpow_le radix2 (-126) (-74)); lia|apply PB]|apply PB]|lia|].
      destruct (arg_core d (val a) (val ang) (val a) th dl Hd ltac:(lra) ltac:(lra) EA Eb Hdl) as (AC & _). fold X in AC. rewrite <- VX in AC.
      split; [exact FX|]. split; [exact AC|]. apply abs_le_inv in AC. right. split; [|lra]. rewrite <- (PAdjust.bpm 80). apply Rle_trans with (bp (-74)); [apply bpow_le; lia|]. lra. }
  destruct XE as (FX & EX & RX). set (x := a *' ang) in *. destruct (GS x FX RX) as (FS & ESn). match type of ESn with Rabs (?y - _) <= _ => set (S1 := y) in * end.
  destruct (quot_core d (val x) S1 rho (val a) th Hd Bt Be0 EX ESn Hr) as (SP & KB & KE). set (K := sin (val a * th) / sin th) in *.
  assert (VS : val (qf_sine c) = rho * sin th) by exact Es. rewrite <- VS in SP, KE. apply abs_le_inv in KE.
  assert (QB : Rabs (S1 / val (qf_sine c)) <= 101 / 100) by (apply Rabs_le; lra).
  destruct (div_E (ssin x) (qf_sine c) 1 FS ltac:(lra) ltac:(change (val (ssin x)) with S1; change (bp 1) with 2; lra) ltac:(lia)) as (Kk & _ & Ek).
  change (val (ssin x)) with S1 in Ek. change (ssin x /' qf_sine c) with (qf_coeff2 a ang (qf_sine c)) in Kk, Ek. split; [exact Kk|].
  assert (uQ : uro * Rabs (S1 / val (qf_sine c)) <= uro * (101 / 100)) by (apply Rmult_le_compat_l; lra).
  assert (Ek' : Rabs (val (qf_coeff2 a ang (qf_sine c)) - S1 / val (qf_sine c)) <= uro * (101 / 100) + eta) by lra. apply abs_le_inv in Ek'. apply Rabs_le. lra.
Qed.
(** std::sin( ( 1.0 - a ) * angle ) / sine in double, stored in a float. *)
Lemma coef1_E (a : f32) : fin a -> 0 <= val a <= 1 ->
  okf32 1 (qf_coeff1 a ang (qf_sine c)) /\ Rabs (val (qf_coeff1 a ang (qf_sine c)) - sin ((1 - val a) * th) / sin th) <= 28 / 10 * d + 10 * uro.
Proof.
  intros Fa Ba. pose proof us2 as U. pose proof es2 as ES. pose proof u64_small as U6. pose proof PSlerpF.es2 as ES6. pose proof pi_bounds as P.
  destruct (angle_E c Fc Bc) as (rho & Hr & Bt & Lt & Es & _). destruct (sine_E c Fc Bc) as (Fs & Bs & _). cbv zeta in *. fold th in Bt, Lt, Es.
  pose proof (bpow_gt_0 radix2 (-13)) as G28. pose proof (bpow_gt_0 radix2 (-12)) as G12. destruct ang_E as (FA & EA).
  assert (dt : 0 <= d * th <= / 1000 * th) by (split; [apply Rmult_le_pos; lra|apply Rmult_le_compat_r; lra]).
  destruct (omd_E a Fa Ba) as (Fb & Vb & Eb & Bb). set (b := one_minus_d a) in *. set (be := 1 - val a) in *.
  assert (ube : u64 * be <= uro * be) by (apply Rmult_le_compat_r; [unfold be; lra|lra]). assert (Eb' : Rabs (val64 b - be) <= uro * be) by lra.
  assert (HL : be = 0 \/ bp (-24) <= be).
  { unfold be. destruct (Req_dec (val a) 1) as [->|N]; [left; ring|right]. pose proof (fmt_below1 a Fa ltac:(lra)) as B1. replace (bp (-24)) with uro by (rewrite uro_val; cbn; lra). lra. }
  destruct (widen_E ang FA) as (FA6 & VA6). destruct (widen_E (qf_sine c) Fs) as (Fs6 & Vs6).
  set (A6 := f64_of_f32 ang) in *. set (s6 := f64_of_f32 (qf_sine c)) in *. rewrite <- VA6 in EA.
  assert (Be0 : 0 <= be <= 1) by (unfold be; lra).
  assert (XE : PFloat.fin (b64_mult mode_NE b A6) /\ Rabs (val64 (b64_mult mode_NE b A6) - be * th) <= (1002 / 1000 * d + 22 / 10 * uro) * (be * th) /\
    (val64 (b64_mult mode_NE b A6) = 0 \/ / 2 ^ 700 <= val64 (b64_mult mode_NE b A6) <= 16 / 10)).
  { pose proof EA as EA0. apply abs_le_inv in EA0. destruct HL as [Z0|Hb].
    - assert (V0 : val64 b = 0) by (rewrite Vb; fold be; rewrite Z0; apply round_0, valid_rnd_N).
      assert (Kb : LErr.okf 0 b) by (split; [exact Fb|rewrite V0, Rabs_R0; apply bpow_ge_0]).
      assert (KA : LErr.okf 1 A6) by (split; [exact FA6|change (bp 1) with 2; apply Rabs_le; lra]).
      destruct (PQuantF.mult_E 0 1 b A6 Kb KA ltac:(lia)) as (K & V & _). rewrite V0, Rmult_0_l in V. assert (V' : val64 (b64_mult mode_NE b A6) = 0) by (rewrite V; apply round_0, valid_rnd_N).
      split; [apply K|]. rewrite V', Z0. split; [|left; reflexivity]. rewrite !Rmult_0_l, Rmult_0_r, Rminus_0_r, Rabs_R0. lra.
    - pose proof (bpow_gt_0 radix2 (-24)) as G6.
      set (X := be * th). assert (XL : bp (-37) <= X) by (unfold X; change (-37)%Z with (-24 + -13)%Z; rewrite bpow_plus; apply Rmult_le_compat; lra).
      assert (XU : X <= th) by (unfold X; rewrite <- (Rmult_1_l th) at 2; apply Rmult_le_compat_r; lra). pose proof (bpow_gt_0 radix2 (-37)) as G62.
      destruct (arg_core d (val64 b) (val64 A6) be th 0 Hd ltac:(lra) ltac:(lra) EA Eb' ltac:(rewrite Rabs_R0; lra)) as (AC0 & PL). rewrite Rplus_0_r, Rmult_1_r in AC0. fold X in AC0, PL.
      assert (dX : 0 <= d * X <= / 1000 * X) by (split; [apply Rmult_le_pos; lra|apply Rmult_le_compat_r; lra]).
      assert (uX : 0 <= uro * X <= / 1000000 * X) by (split; [apply Rmult_le_pos; lra|apply Rmult_le_compat_r; lra]). apply abs_le_inv in AC0.
      assert (B74 : bp (-37) = 2 * bp (-38)) by (change (-37)%Z with (1 + -38)%Z; rewrite bpow_plus; reflexivity). pose proof (bpow_gt_0 radix2 (-38)) as G63.
      assert (PB : bp (-38) <= val64 b * val64 A6 <= bp 1) by (split; [lra|change (bp 1) with 2; lra]).
      destruct (PPersp.mult_rel b A6 1 Fb FA6) as (FX & _ & dl & Hdl & VX); [rewrite Rabs_pos_eq by lra; split; [eapply Rle_trans; [apply (bpow_le radix2 (-1022) (-38)); lia|apply PB]|apply PB]|lia|].
      destruct (arg_core d (val64 b) (val64 A6) be th dl Hd ltac:(lra) ltac:(lra) EA Eb' ltac:(lra)) as (AC & _). fold X in AC. rewrite <- VX in AC.
      split; [exact FX|]. split; [exact AC|]. apply abs_le_inv in AC. right. split; [|lra]. rewrite <- (PAdjust.bpm 700). apply Rle_trans with (bp (-38)); [apply bpow_le; lia|]. lra. }
  destruct XE as (FX & EX & RX). set (x := b64_mult mode_NE b A6) in *. destruct (GD x FX RX) as (FS & ESn). match type of ESn with Rabs (?y - _) <= _ => set (S1 := y) in * end.
  destruct (quot_core d (val64 x) S1 rho be th Hd Bt Be0 EX ESn Hr) as (SP & KB & KE). set (K := sin (be * th) / sin th) in *.
  assert (VS : val64 s6 = rho * sin th) by (rewrite Vs6; exact Es). rewrite <- VS in SP, KE. apply abs_le_inv in KE.
  assert (QB : Rabs (S1 / val64 s6) <= 101 / 100) by (apply Rabs_le; lra).
  destruct (PQuantF.div_E (ssin x) s6 1 FS ltac:(lra) ltac:(change (val64 (ssin x)) with S1; change (bp 1) with 2; lra) ltac:(lia)) as (Kk & _ & Ek).
  change (val64 (ssin x)) with S1 in Ek.
  assert (uQ : u64 * Rabs (S1 / val64 s6) <= u64 * (101 / 100)) by (apply Rmult_le_compat_l; lra).
  set (g := b64_div mode_NE (ssin x) s6) in *.
  assert (Ek' : Rabs (val64 g - S1 / val64 s6) <= u64 * (102 / 100)) by lra. apply abs_le_inv in Ek'.
  assert (GB : Rabs (val64 g) <= 102 / 100) by (apply Rabs_le; lra).
  destruct (narrow_E g 1 (proj1 Kk) ltac:(change (bp 1) with 2; lra) ltac:(lia)) as (Kg & _ & Eg).
  change (f32_of_f64 g) with (qf_coeff1 a ang (qf_sine c)) in Kg, Eg. split; [exact Kg|].
  assert (uG : uro * Rabs (val64 g) <= uro * (102 / 100)) by (apply Rmult_le_compat_l; lra).
  assert (Eg' : Rabs (val (qf_coeff1 a ang (qf_sine c)) - val64 g) <= uro * (102 / 100) + eta) by lra. apply abs_le_inv in Eg'. apply Rabs_le. lra.
Qed.
End Coef.
(** ** The combination *)
Lemma comb_E (x y k1 k2 : f32) (p q K1 K2 e : R) : ncomp x p -> ncomp y q -> okf32 1 k1 -> okf32 1 k2 -> 0 <= K1 <= 1 -> 0 <= K2 <= 1 -> 0 <= e <= / 100 ->
  Rabs (val k1 - K1) <= e -> Rabs (val k2 - K2) <= e ->
  okf32 3 (x *' k1 +' y *' k2) /\ Rabs (val (x *' k1 +' y *' k2) - (K1 * p + K2 * q)) <= (1001 / 1000 * e + 162 / 10 * uro) * (Rabs p + Rabs q) + 5 * eta.
Proof.
  intros Hx Hy Ok1 Ok2 B1 B2 He E1 E2. pose proof us2 as U. pose proof es2 as ES.
  assert (HALF : forall (x k : f32) (p K : R), ncomp x p -> okf32 1 k -> 0 <= K <= 1 -> Rabs (val k - K) <= e ->
    okf32 2 (x *' k) /\ Rabs (val (x *' k) - K * p) <= (1001 / 1000 * e + 1505 / 100 * uro) * Rabs p + 22 / 10 * eta /\ Rabs (val (x *' k)) <= 102 / 100 * Rabs p + 22 / 10 * eta).
  { clear - He U ES. intros x k p K Hx Ok B E. destruct (ncomp_abs x p Hx) as (Ax & Kx). destruct Hx as (_ & Bp & Ex). destruct (mult_E 1 1 x k Kx Ok ltac:(lia)) as (Kp & _ & Ep). split; [exact Kp|].
    pose proof (Rabs_pos p) as P0. set (P := Rabs p) in *.
    assert (uP : 0 <= uro * P <= / 1000000 * P) by (split; [apply Rmult_le_pos; lra|apply Rmult_le_compat_r; lra]).
    assert (eP : 0 <= e * P <= / 100 * P) by (split; [apply Rmult_le_pos; lra|apply Rmult_le_compat_r; lra]).
    assert (ueP : 0 <= uro * (e * P) <= / 1000000 * (e * P)) by (split; [apply Rmult_le_pos; lra|apply Rmult_le_compat_r; lra]).
    assert (ee : 0 <= e * eta <= / 100 * eta) by (split; [apply Rmult_le_pos; lra|apply Rmult_le_compat_r; lra]).
    assert (D : Rabs (val x * val k - K * p) <= 10001 / 10000 * (e * P) + 14 * (uro * P) + 11 / 10 * eta).
    { replace (val x * val k - K * p) with (val x * (val k - K) + (val x - p) * K) by ring. eapply Rle_trans; [apply Rabs_triang|]. rewrite !Rabs_mult, (Rabs_pos_eq K) by lra.
      assert (T1 : Rabs (val x) * Rabs (val k - K) <= ((1 + 14 * uro) * P + eta) * e) by (apply Rmult_le_compat; try apply Rabs_pos; assumption).
      assert (T2 : Rabs (val x - p) * K <= (14 * uro * P + eta) * 1) by (apply Rmult_le_compat; [apply Rabs_pos|lra|exact Ex|lra]).
      replace (((1 + 14 * uro) * P + eta) * e) with (e * P + 14 * (uro * (e * P)) + e * eta) in T1 by ring. replace ((14 * uro * P + eta) * 1) with (14 * (uro * P) + eta) in T2 by ring. lra. }
    assert (KP : Rabs (K * p) <= P).
    { rewrite Rabs_mult, (Rabs_pos_eq K) by lra. fold P. rewrite <- (Rmult_1_l P) at 2. apply Rmult_le_compat_r; lra. }
    assert (M : Rabs (val x * val k) <= 1011 / 1000 * P + 11 / 10 * eta).
    { replace (val x * val k) with (val x * val k - K * p + K * p) by ring. eapply Rle_trans; [apply Rabs_triang|]. lra. }
    assert (uM : uro * Rabs (val x * val k) <= uro * (1011 / 1000 * P + 11 / 10 * eta)) by (apply Rmult_le_compat_l; lra).
    assert (ue : uro * eta <= / 1000000 * eta) by (apply Rmult_le_compat_r; lra).
    assert (Q : Rabs (val (x *' k) - K * p) <= (1001 / 1000 * e + 1505 / 100 * uro) * P + 22 / 10 * eta).
    { replace (val (x *' k) - K * p) with (val (x *' k) - val x * val k + (val x * val k - K * p)) by ring. eapply Rle_trans; [apply Rabs_triang|]. lra. }
    split; [exact Q|]. replace (val (x *' k)) with (val (x *' k) - K * p + K * p) by ring. eapply Rle_trans; [apply Rabs_triang|]. lra. }
  destruct (HALF x k1 p K1 Hx Ok1 B1 E1) as (Kx & Ex & Mx). destruct (HALF y k2 q K2 Hy Ok2 B2 E2) as (Ky & Ey & My).
  destruct (plus_E 2 _ _ Kx Ky ltac:(lia)) as (Kr & _ & Er). split; [exact Kr|].
  set (P := Rabs p) in *. set (Q := Rabs q) in *. assert (P0 : 0 <= P) by apply Rabs_pos. assert (Q0 : 0 <= Q) by apply Rabs_pos.
  assert (uP : 0 <= uro * P) by (apply Rmult_le_pos; lra). assert (uQ : 0 <= uro * Q) by (apply Rmult_le_pos; lra).
  assert (ue : uro * eta <= / 1000000 * eta) by (apply Rmult_le_compat_r; lra).
  assert (S : Rabs (val (x *' k1) + val (y *' k2)) <= 102 / 100 * P + 102 / 100 * Q + 44 / 10 * eta) by (eapply Rle_trans; [apply Rabs_triang|lra]).
  assert (uS : uro * Rabs (val (x *' k1) + val (y *' k2)) <= uro * (102 / 100 * P + 102 / 100 * Q + 44 / 10 * eta)) by (apply Rmult_le_compat_l; lra).
  assert (Er' : Rabs (val (x *' k1 +' y *' k2) - (val (x *' k1) + val (y *' k2))) <= 102 / 100 * (uro * P) + 102 / 100 * (uro * Q) + 44 / 10 * (uro * eta)) by lra.
  apply abs_le_inv in Ex, Ey, Er'. apply Rabs_le. lra.
Qed.
(** ** The whole function *)
Definition comb (n m : dquat) (k1 k2 : f32) : dquat :=
  let '(x, y, z, w) := n in let '(x', y', z', w') := m in (x *' k1 +' x' *' k2, y *' k1 +' y' *' k2, z *' k1 +' z' *' k2, w *' k1 +' w' *' k2).
Lemma comb_q (n m : dquat) (p q : Quat) (k1 k2 : f32) (K1 K2 e : R) : nquat n p -> nquat m q -> qdotR p p = 1 -> qdotR q q = 1 ->
  okf32 1 k1 -> okf32 1 k2 -> 0 <= K1 <= 1 -> 0 <= K2 <= 1 -> 0 <= e <= / 100 -> Rabs (val k1 - K1) <= e -> Rabs (val k2 - K2) <= e ->
  qeach (okf32 3) (comb n m k1 k2) /\ qabsR (qsubR (qv (comb n m k1 k2)) (qaddR (qscaleR K1 p) (qscaleR K2 q))) <= 2002 / 1000 * e + 325 / 10 * uro.
Proof.
  intros Hn Hm Up Uq O1 O2 B1 B2 He E1 E2. pose proof us2 as U. pose proof es2 as ES.
  pose proof (qsmall_abs (qsubR (qv (comb n m k1 k2)) (qaddR (qscaleR K1 p) (qscaleR K2 q))) p q (1001 / 1000 * e + 162 / 10 * uro) (5 * eta) ltac:(lra) ltac:(lra) Up Uq) as QS.
  destruct n as [[[x y] z] w], m as [[[x' y'] z'] w'], p as [[[px py] pz] pw], q as [[[qx qy] qz] qw]. destruct Hn as (N0 & N1 & N2 & N3), Hm as (M0 & M1 & M2 & M3).
  destruct (comb_E _ _ _ _ _ _ _ _ _ N0 M0 O1 O2 B1 B2 He E1 E2) as (C0 & D0). destruct (comb_E _ _ _ _ _ _ _ _ _ N1 M1 O1 O2 B1 B2 He E1 E2) as (C1 & D1).
  destruct (comb_E _ _ _ _ _ _ _ _ _ N2 M2 O1 O2 B1 B2 He E1 E2) as (C2 & D2). destruct (comb_E _ _ _ _ _ _ _ _ _ N3 M3 O1 O2 B1 B2 He E1 E2) as (C3 & D3).
  split; [exact (conj C0 (conj C1 (conj C2 C3)))|]. eapply Rle_trans; [apply QS; exact (conj D0 (conj D1 (conj D2 D3)))|]. lra.
Qed.
(** 1. - a stored in a float. *)
Lemma one_minus (a : f32) : fin a -> 0 <= val a <= 1 -> let k := f32_of_f64 (one_minus_d a) in okf32 1 k /\ Rabs (val k - (1 - val a)) <= 102 / 100 * uro /\ val k <= 1.
Proof.
  intros Fa Ba k. pose proof us2 as U. pose proof es2 as ES. pose proof u64_small as U6. destruct (omd_E a Fa Ba) as (Fb & Vb & Eb & Bb).
  destruct (narrow_E (one_minus_d a) 0 Fb ltac:(change (bp 0) with 1; rewrite Rabs_pos_eq; lra) ltac:(lia)) as (K & V & E). fold k in K, V, E.
  split; [apply (okf32_le 0 1 _ K); lia|]. rewrite (Rabs_pos_eq (val64 (one_minus_d a))) in E by lra.
  assert (u1 : uro * val64 (one_minus_d a) <= uro * 1) by (apply Rmult_le_compat_l; lra). assert (u2 : u64 * (1 - val a) <= u64 * 1) by (apply Rmult_le_compat_l; lra).
  split; [apply abs_le_inv in E, Eb; apply Rabs_le; lra|]. rewrite V. replace 1 with (bp 0) by reflexivity. apply (rnd_small _ _ (fmt_bp 0 ltac:(lia))). change (bp 0) with 1. lra.
Qed.
Lemma wide_okf (i : Z) (n : dquat) : (i <= 50)%Z -> qeach (okf32 i) n -> qeach wide n.
Proof.
  intros Hi. assert (L : bp i <= 2 ^ 50) by (rewrite <- (PAdjust.bpn 50); apply bpow_le; exact Hi). destruct n as [[[x y] z] w]. intros ((F0 & B0) & (F1 & B1) & (F2 & B2) & (F3 & B3)). unfold qeach, wide.
  repeat apply conj; assumption || lra.
Qed.
Lemma qeach_fin (i : Z) (n : dquat) : qeach (okf32 i) n -> qeach fin n.
Proof. destruct n as [[[x y] z] w]. intros ((F0 & _) & (F1 & _) & (F2 & _) & (F3 & _)). exact (conj F0 (conj F1 (conj F2 F3))). Qed.

(** C206: slerp( a, p, q, epsilon ) for T = float: a point of the arc between p / |p| and
    q / |q| or its negative, at the fraction a of the angle th between the lines
    of p and q. *)
Theorem C206_slerp (cfg : Cfg) (TF : Trig f32) (TD : Trig f64) (AT : Atan2 f32) (d : R) (a eps : f32) (p q : dquat) :
  0 <= d <= / 1000 -> good_sin TF d -> PSlerpF.good_sin TD d -> good_atan2 AT d ->
  qeach wide p -> / 2 ^ 50 <= qabsR (qv p) -> qeach wide q -> / 2 ^ 50 <= qabsR (qv q) ->
  fin a -> (val a = 0 \/ / 2 ^ 60 <= val a <= 1) -> fin eps -> 0 <= val eps <= / 10 ->
  exists (s : R) (r : dquat), (s = 1 \/ s = -1) /\ qf_slerp a (arr p) (arr q) eps = Ok (arr r) /\ qeach fin r /\
  let P := qunit p in let Q := qscaleR s (qunit q) in let tol := 6 * d + 70 / 2 ^ 23 in
  - (17 / 2 ^ 23) <= qdotR P Q /\ Rabs (qabsR (qv r) - 1) <= tol /\
  forall th, 0 <= th <= PI / 2 -> cos th = Rabs (qdotR (qunit p) (qunit q)) ->
  Rabs (qdotR (qv r) P - cos (val a * th)) <= tol + val eps /\ Rabs (qdotR (qv r) Q - cos ((1 - val a) * th)) <= tol + val eps /\
  (cos th < 1 - val eps - 20 / 2 ^ 23 -> Rabs (qdotR (qv r) P - cos (val a * th)) <= tol /\ Rabs (qdotR (qv r) Q - cos ((1 - val a) * th)) <= tol).
Proof.
  intros Hd GS GD GA Wp Lp Wq Lq Fa Ha Fe He. pose proof us2 as U. pose proof es2 as ES. pose proof pi_bounds as HPI.
  assert (U52 : forall k, k / 2 ^ 23 = 2 * k * uro) by (intros k; rewrite uro_val; cbn; lra).
  assert (I450 : 0 < / 2 ^ 50) by (apply Rinv_0_lt_compat, pow_lt; lra).
  assert (Ba : 0 <= val a <= 1) by (destruct Ha as [->|Ha]; [lra|pose proof (Rinv_0_lt_compat (2 ^ 60) ltac:(apply pow_lt; lra)); lra]).
  assert (Ba' : val a = 0 \/ / 2 ^ 60 <= val a <= 1) by exact Ha.
  assert (Up := unit_unit p ltac:(lra)). assert (Uq := unit_unit q ltac:(lra)).
  destruct (C178_normalize cfg p Wp Lp) as (_ & _ & n & _ & _ & Gn & _ & _ & _ & _ & Fn & Rn & _). destruct (C178_normalize cfg q Wq Lq) as (_ & _ & m & _ & _ & Gm & _ & _ & _ & _ & Fm & Rm & _).
  pose proof (nquat_of n (qunit p) Fn Up Rn) as Nn. pose proof (nquat_of m (qunit q) Fm Uq Rm) as Nm.
  destruct (side n m (qunit p) (qunit q) Nn Nm Up Uq) as (s & c & m' & Hs & Eside & Nm' & Fc & C0 & EC & EA).
  assert (Us := scale_unit s (qunit q) Hs Uq).
  unfold qf_slerp. rewrite Gn, Gm. cbn [bind]. rewrite q_dot_F. cbn [bind]. rewrite Eside. cbn [bind]. clear Eside Gn Gm.
  set (P := qunit p) in *. set (Q := qscaleR s (qunit q)) in *. set (C := qdotR P Q) in *. set (B := Rabs (qdotR P (qunit q))) in *.
  destruct (one_minus eps Fe ltac:(lra)) as (K1x & E1x & L1x). set (ox := f32_of_f64 (one_minus_d eps)) in *. apply abs_le_inv in E1x.
  assert (KC : fin (b32_abs c) /\ val (b32_abs c) = val c).
  { split; [unfold fin, b32_abs in *; rewrite is_finite_Babs; exact Fc|unfold val, b32_abs; rewrite B2R_Babs; apply Rabs_pos_eq, C0]. }
  destruct KC as (Fab & Vab).
  cbn [sltb sabs ssub sone F32Scalar]. 
  destruct (one_minus a Fa Ba) as (K1 & E1 & _). set (oa := f32_of_f64 (one_minus_d a)) in *. assert (Ka : okf32 1 a) by (split; [exact Fa|]; change (bp 1) with 2; rewrite Rabs_pos_eq; lra).
  apply abs_le_inv in EC, EA.
  destruct (Bltb32 (b32_abs c) (ox)) eqn:BR.
  - (* the standard branch *)
    apply (Bltb32_fin _ _ Fab (proj1 K1x)) in BR. rewrite Vab in BR. assert (BC : 0 <= val c < 1) by lra.
    destruct (angle_E c Fc BC) as (rho & _ & Bt & _ & _ & Ct). cbv zeta in Bt, Ct. change (satan2 (val (qf_sine c)) (val c)) with (th c) in Bt, Ct.
    destruct (coef1_E TD AT d c Hd GD GA Fc BC a Fa Ba) as (O1 & D1).
    destruct (coef2_E TF AT d c Hd GS GA Fc BC a Fa Ba') as (O2 & D2). set (k1 := qf_coeff1 a (ang AT c) (qf_sine c)) in *. set (k2 := qf_coeff2 a (ang AT c) (qf_sine c)) in *. set (t := th c) in *.
    destruct (cf_range (val a) t Ba Bt) as (G1 & G2).
    destruct (comb_q n m' P Q k1 k2 (cf1 (val a) t) (cf2 (val a) t) (28 / 10 * d + 10 * uro) Nn Nm' Up Us O1 O2 G1 G2 ltac:(lra) D1 D2) as (Kr & Dr).
    exists s, (comb n m' k1 k2). split; [exact Hs|]. split; [destruct n as [[[? ?] ?] ?], m' as [[[? ?] ?] ?]; reflexivity|]. split; [apply (qeach_fin 3), Kr|]. cbv zeta. change (qscaleR s (qunit q)) with Q. change (qunit p) with P. change (qdotR P Q) with C at 1. rewrite !U52.
    split; [lra|]. apply abs_le_inv in Ct.
    assert (Gc : Rabs (qdotR P Q - cos t) <= 376 / 10 * uro) by (fold C; apply Rabs_le; lra).
    set (r := qv (comb n m' k1 k2)) in *.
    split.
    { destruct (slerp_std (val a) t t _ 0 _ P Q r Ba Bt ltac:(lra) Up Us Gc ltac:(replace (cos t - cos t) with 0 by ring; rewrite Rabs_R0; lra) Dr) as (_ & _ & L). lra. }
    intros z Hz Ez. assert (G2z : Rabs (cos t - cos z) <= 376 / 10 * uro) by (rewrite Ez; fold B; apply Rabs_le; lra).
    destruct (slerp_std (val a) t z _ _ _ P Q r Ba Bt Hz Up Us Gc G2z Dr) as (A1 & A2 & _).
    split; [lra|]. split; [lra|]. intros _. split; lra.
  - (* the linear branch *)
    apply (Bltb32_fin_false _ _ Fab (proj1 K1x)) in BR. rewrite Vab in BR.
    assert (D2 : Rabs (val a - val a) <= 102 / 100 * uro) by (replace (val a - val a) with 0 by ring; rewrite Rabs_R0; lra).
    destruct (comb_q n m' P Q (oa) a (1 - val a) (val a) (102 / 100 * uro) Nn Nm' Up Us K1 Ka ltac:(lra) Ba ltac:(lra) ltac:(lra) D2) as (Kr & Dr).
    set (w := comb n m' oa a) in *.
    assert (HC : 1 - (val eps + 342 / 10 * uro) <= C) by lra. assert (HB : 1 - (val eps + 342 / 10 * uro) <= B) by lra.
    assert (B1 : B <= 1).
    { unfold B. eapply Rle_trans; [apply dq_cauchy|]. rewrite (qabs_unit P Up), (qabs_unit (qunit q) Uq). lra. }
    (* an angle with this cosine, to bound the length *)
    assert (TZ : 0 <= acos B <= PI / 2 /\ cos (acos B) = B).
    { assert (CA : cos (acos B) = B) by (apply cos_acos; lra). split; [|exact CA]. pose proof (acos_bound B) as AB. split; [lra|].
      destruct (Rle_dec (acos B) (PI / 2)) as [L|L]; [exact L|exfalso]. assert (cos (acos B) < cos (PI / 2)) by (apply cos_decreasing_1; lra). rewrite cos_PI2 in H. lra. }
    destruct (slerp_lin (val a) (acos B) (val eps + 342 / 10 * uro) (2002 / 1000 * (102 / 100 * uro) + 325 / 10 * uro) 0 P Q (qv w) (qv w) Ba (proj1 TZ) Up Us ltac:(lra) ltac:(lra) HC ltac:(rewrite (proj2 TZ); exact HB) Dr) as (LW & _).
    assert (L450 : / 2 ^ 50 <= qabsR (qv w)).
    { apply Rle_trans with (/ 2); [|lra]. apply Rinv_le_contravar; [lra|]. rewrite <- (pow_1 2) at 1. apply Rle_pow; [lra|lia]. }
    destruct (C178_normalize cfg w (wide_okf 3 w ltac:(lia) Kr) L450) as (_ & rl & r & _ & Er & _ & _ & _ & _ & _ & Fr & Rr & _).
    exists s, r. split; [exact Hs|]. split.
    { transitivity (ret <- q_normalize (arr w) ;; (let '(_, px) := ret in Ok px)); [|rewrite Er; reflexivity]. unfold w, oa. destruct n as [[[? ?] ?] ?], m' as [[[? ?] ?] ?]. reflexivity. }
    split; [exact Fr|]. cbv zeta. change (qscaleR s (qunit q)) with Q. change (qunit p) with P. change (qdotR P Q) with C at 1. rewrite !U52. split; [lra|].
    assert (UW : qabsR (qscaleR (/ qabsR (qv w)) (qv w)) = 1) by (rewrite qabs_scale by (left; apply Rinv_0_lt_compat; lra); field; lra).
    assert (DR : qabsR (qsubR (qv r) (qscaleR (/ qabsR (qv w)) (qv w))) <= 29 * uro).
    { assert (P7 : 0 <= 7 / 2 ^ 23) by (rewrite U52; lra). pose proof (qrel_near r _ _ P7 Rr) as QN. rewrite UW in QN. change (/ 2 ^ 150) with eta in QN. rewrite U52 in QN.
      apply near_abs in QN; lra. }
    split.
    { pose proof (qabs_diff (qv r) (qscaleR (/ qabsR (qv w)) (qv w))) as T. rewrite UW in T. lra. }
    intros z Hz Ez.
    destruct (slerp_lin (val a) z (val eps + 342 / 10 * uro) (2002 / 1000 * (102 / 100 * uro) + 325 / 10 * uro) (29 * uro) P Q (qv w) (qv r) Ba Hz Up Us ltac:(lra) ltac:(lra) HC ltac:(rewrite Ez; exact HB) Dr) as (_ & L).
    destruct (L DR) as (A1 & A2 & _). split; [lra|]. split; [lra|]. intros F. exfalso. rewrite Ez in F. fold B in F. lra.
Qed.
Print Assumptions C206_slerp.
(** ** A library with correctly rounded functions meets the hypotheses *)
Definition f32_of_R (x : R) : f32 := binary_normalize 24 128 eq_refl eq_refl mode_NE (Ztrunc (scaled_mantissa radix2 (FLT_exp (-149) 24) (rnd x))) (cexp radix2 (FLT_exp (-149) 24) (rnd x)) false.
Lemma f32_of_R_E (x : R) : Rabs (rnd x) < bp 128 -> fin (f32_of_R x) /\ val (f32_of_R x) = rnd x.
Proof.
  intros HB. unfold f32_of_R.
  assert (VE : Valid_exp (FLT_exp (-149) 24)) by (apply FLT_exp_valid; reflexivity).
  assert (GF : generic_format radix2 (FLT_exp (-149) 24) (rnd x)) by (apply generic_format_round; [exact VE|apply valid_rnd_N]).
  match goal with |- context [binary_normalize _ _ _ _ _ ?m ?e _] => pose proof (binary_normalize_correct 24 128 eq_refl eq_refl mode_NE m e false) as C; assert (EX : F2R (beta := radix2) {| Fnum := m; Fexp := e |} = rnd x) end.
  { symmetry. exact GF. }
  cbn [round_mode] in C. change (SpecFloat.fexp 24 128) with (FLT_exp (-149) 24) in C. rewrite EX in C.
  rewrite (round_generic radix2 (FLT_exp (-149) 24) _ (rnd x) GF) in C.
  rewrite Rlt_bool_true in C by exact HB. destruct C as (C1 & C2 & _). split; [exact C2|exact C1].
Qed.
Lemma rounded_rel (x : R) : 0 <= x <= 2 -> (x = 0 \/ bp (-100) <= x) -> fin (f32_of_R x) /\ Rabs (val (f32_of_R x) - x) <= uro * x.
Proof.
  intros Hx HL. assert (TA : Rabs x = x) by (apply Rabs_pos_eq; lra).
  destruct (f32_of_R_E x) as (F & V). { eapply Rle_lt_trans; [apply (rnd_le _ 1); [lia|rewrite TA; change (bp 1) with 2; lra]|apply bpow_lt; lia]. }
  split; [exact F|]. rewrite V. destruct HL as [->|HL]; [rewrite rnd_0, Rminus_0_r, Rabs_R0; lra|].
  destruct (rnd_rel x) as (d & Hd & E). { rewrite TA. eapply Rle_trans; [apply (bpow_le radix2 (-126) (-100)); lia|exact HL]. }
  rewrite E. replace (x * (1 + d) - x) with (d * x) by ring. rewrite Rabs_mult, TA. apply Rmult_le_compat_r; [lra|exact Hd].
Qed.
Definition rounded_trig : Trig f32 := {| ssin := fun t => f32_of_R (sin (val t)); scos := fun t => f32_of_R (cos (val t)); stan := fun t => t |}.
Definition rounded_atan2 : Atan2 f32 := {| satan2 := fun y x => f32_of_R (satan2 (val y) (val x)) |}.
Lemma rounded_sin_good : good_sin rounded_trig uro.
Proof.
  intros x Fx Bx. cbn [ssin rounded_trig]. pose proof pi_bounds as P. apply rounded_rel.
  - pose proof (SIN_bound (val x)). split; [|lra]. destruct Bx as [->|Bx]; [rewrite sin_0; lra|]. pose proof (Rinv_0_lt_compat (2 ^ 80) ltac:(apply pow_lt; lra)). apply sin_ge_0; lra.
  - destruct Bx as [->|Bx]; [left; apply sin_0|right]. rewrite <- (PAdjust.bpm 80) in Bx. change (- Z.of_nat 80)%Z with (-80)%Z in Bx. pose proof (bpow_gt_0 radix2 (-80)) as G.
    destruct (pre_sin_bound (val x) 0 ltac:(lra) ltac:(lra)) as (L & _). unfold sin_approx, sin_term in L. cbn in L.
    assert (Q : val x * val x <= 256 / 100) by (apply Rle_trans with (16 / 10 * (16 / 10)); [apply Rmult_le_compat; lra|lra]).
    assert (Q2 : val x * (val x * val x) <= val x * (256 / 100)) by (apply Rmult_le_compat_l; lra).
    apply Rle_trans with (/ 2 * bp (-80)); [|lra]. change (/ 2) with (bp (-1)). rewrite <- bpow_plus. apply bpow_le. lia.
Qed.
Lemma rounded_atan2_good : good_atan2 rounded_atan2 uro.
Proof.
  intros y x Fy Fx By Bx. cbn [satan2 rounded_atan2]. pose proof pi_bounds as P. rewrite <- (PAdjust.bpm 13) in By. change (- Z.of_nat 13)%Z with (-13)%Z in By. pose proof (bpow_gt_0 radix2 (-13)) as G.
  destruct (atan2_pos (val y) (val x) ltac:(lra) ltac:(lra)) as (R0 & Bt & _ & St).
  apply rounded_rel; [lra|]. right. set (t := satan2 (val y) (val x)) in *. set (r := sqrt _) in *.
  assert (R2 : r <= 2).
  { unfold r. rewrite <- (sqrt_square 2) by lra. apply sqrt_le_1_alt. assert (val x * val x <= 1 * 1) by (apply Rmult_le_compat; lra). assert (val y * val y <= 1 * 1) by (apply Rmult_le_compat; lra). lra. }
  assert (SL : sin t <= t) by (pose proof (sin_lip t 0) as L; rewrite sin_0, !Rminus_0_r, (Rabs_pos_eq t) in L by lra; pose proof (Rle_abs (sin t)); lra).
  assert (SY : val y = r * sin t) by (rewrite St; field; lra). assert (r * sin t <= 2 * t) by (apply Rmult_le_compat; try lra; rewrite St; apply Rmult_le_pos; [lra|left; apply Rinv_0_lt_compat; lra]).
  apply Rle_trans with (/ 2 * bp (-13)); [|lra]. change (/ 2) with (bp (-1)). rewrite <- bpow_plus. apply bpow_le. lia.
Qed.
Definition qi32 : dquat := (f32_one, f32_zero, f32_zero, f32_zero).
Definition qw32 : dquat := (f32_zero, f32_zero, f32_zero, f32_two).
Lemma good_sin_d (d : R) : u64 <= d -> PSlerpF.good_sin PSlerpF.rounded_trig d.
Proof.
  intros Hd x Fx Bx. destruct (PSlerpF.rounded_sin_good x Fx Bx) as (F & E). split; [exact F|]. eapply Rle_trans; [exact E|]. apply Rmult_le_compat_r; [|exact Hd].
  destruct (Rle_dec 0 (sin (val64 x))) as [L|L]; [exact L|]. exfalso. pose proof u64_small as U. assert (u64 * sin (val64 x) < 0) by (replace 0 with (u64 * 0) by ring; apply Rmult_lt_compat_l; lra).
  match type of E with Rabs ?y <= _ => pose proof (Rabs_pos y) end. lra.
Qed.
Example C206_hypotheses_met : good_sin rounded_trig uro /\ PSlerpF.good_sin PSlerpF.rounded_trig uro /\ good_atan2 rounded_atan2 uro /\ 0 <= uro <= / 1000 /\
  (qeach wide qi32 /\ / 2 ^ 50 <= qabsR (qv qi32)) /\ (qeach wide qw32 /\ / 2 ^ 50 <= qabsR (qv qw32)) /\ (fin f32_half /\ / 2 ^ 60 <= val f32_half <= 1).
Proof.
  pose proof us2 as U. pose proof u64_small as U6. split; [exact rounded_sin_good|]. split; [apply good_sin_d; lra|]. split; [exact rounded_atan2_good|]. split; [lra|].
  assert (G1 : 2 <= 2 ^ 50) by (rewrite <- (pow_1 2) at 1; apply Rle_pow; [lra|lia]).
  assert (G2 : / 2 ^ 50 <= 1) by (rewrite <- Rinv_1; apply Rinv_le_contravar; [lra|apply pow_R1_Rle; lra]).
  assert (G3 : / 2 ^ 60 <= / 2) by (apply Rinv_le_contravar; [lra|]; rewrite <- (pow_1 2) at 1; apply Rle_pow; [lra|lia]).
  assert (V0 : val f32_zero = 0) by reflexivity.
  assert (W0 : wide f32_zero) by (split; [reflexivity|rewrite V0, Rabs_R0; lra]). assert (W1 : wide f32_one) by (split; [reflexivity|rewrite val_one, Rabs_R1; lra]). assert (W2 : wide f32_two) by (split; [reflexivity|rewrite val_two, Rabs_pos_eq; lra]).
  split; [split; [exact (conj W1 (conj W0 (conj W0 W0)))|]|split; [split; [exact (conj W0 (conj W0 (conj W0 W2)))|]|split; [reflexivity|assert (VH : val f32_half = / 2) by (unfold val; rewrite <- FF2R_B2FF; replace (B2FF 24 128 f32_half) with (F754_finite false 8388608 (-24)) by (vm_compute; reflexivity); unfold FF2R, F2R; cbn; lra); rewrite VH; lra]]].
  - unfold qabsR, qi32. cbn [qv qdotR]. rewrite V0, val_one. replace (1 * 1 + 0 * 0 + 0 * 0 + 0 * 0) with 1 by ring. rewrite sqrt_1. exact G2.
  - unfold qabsR, qw32. cbn [qv qdotR]. rewrite V0, val_two. replace (0 * 0 + 0 * 0 + 0 * 0 + 2 * 2) with (2 * 2) by ring. rewrite sqrt_square by lra. lra.
Qed.
