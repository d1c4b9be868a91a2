(** Property C211: set_dct in double and float with an inexact cosine. *)
From Coq Require Import ZArith Reals Lra Psatz List.
From Flocq Require Import Core.Core IEEE754.BinarySingleNaN IEEE754.Binary IEEE754.Bits.
From Verif Require Import InstF InstF32 MMatrix MNum MLit MFloat MPersp MDctF LBase LVector LMatrix Spec LSum PNum PFloat LFloat PFloat2 LErr LExt LRot LDist PDist PFrustumF PQuantF PAdjust LPersp.
From Verif Require PPersp LSlerp PSlerpF PSlerpF32 PF32 LF32 PF32b LExprF.
Import ListNotations.
Local Open Scope R_scope.
Local Open Scope list_scope.
Local Notation bp := (bpow radix2).
Local Notation rnd := (round radix2 (FLT_exp (-1074) 53) (Znearest (fun x => negb (Z.even x)))).
Local Notation "a *' b" := (b64_mult mode_NE a b) (at level 40, left associativity).
Local Notation "a /' b" := (b64_div mode_NE a b) (at level 40, left associativity).

(** cos of the C library: absolute error d on [0, 2^22]. *)
Definition good_cos (TT : Trig f64) (d : R) : Prop :=
  forall x : f64, fin x -> 0 <= val x <= 2 ^ 22 -> fin (scos x) /\ Rabs (val (scos x) - cos (val x)) <= d.
(** The exact value of a cell, and its weight. *)
Definition dctW (M i : nat) : R := sqrt ((if (i =? 0)%nat then 1 else 2) / INR M).
Definition dctR (M i j : nat) : R := cos (INR ((2 * j + 1) * i) * PI / INR (2 * M)) * dctW M i.

Lemma cos_lipR (x y : R) : Rabs (cos x - cos y) <= Rabs (x - y).
Proof.
  rewrite <- !sin_shift. eapply Rle_trans; [apply LSlerp.sin_lip|]. replace (PI / 2 - x - (PI / 2 - y)) with (y - x) by ring. rewrite Rabs_minus_sym. lra.
Qed.
Lemma of_size (k : nat) : (Z.of_nat k < 2 ^ 53)%Z -> fin (f64_of_size k) /\ val (f64_of_size k) = INR k.
Proof.
  intros H. unfold f64_of_size. rewrite Z.mod_small by lia. rewrite INR_IZR_INZ. apply (of_Z_exact (Z.of_nat k)). lia.
Qed.
Lemma INR_le_bp (k : nat) (i : Z) : (0 <= i)%Z -> (Z.of_nat k <= 2 ^ i)%Z -> INR k <= bp i.
Proof. intros Hi H. rewrite INR_IZR_INZ, <- (IZR_Zpower radix2) by exact Hi. apply IZR_le. exact H. Qed.
Lemma eta_tiny : 0 < eta <= uro * / 1000000.
Proof.
  split; [apply eta_pos|]. unfold eta. rewrite uro_val. 
  rewrite <- Rinv_mult. apply Rinv_le_contravar; [lra|]. apply Rle_trans with (2 ^ 80); [lra|]. apply Rle_pow; [lra|lia].
Qed.

(** The angle. *)
Lemma angle_E (M N i j : nat) : (0 < M)%nat -> (Z.of_nat M <= 2 ^ 20)%Z -> (Z.of_nat N <= 2 ^ 20)%Z -> (i < M)%nat -> (j < N)%nat ->
  let a := (f64_of_size ((2 * j + 1) * i) *' f64_pi) /' f64_of_size (2 * M) in let A := INR ((2 * j + 1) * i) * PI / INR (2 * M) in
  fin a /\ 0 <= val a <= 2 ^ 22 /\ Rabs (val a - A) <= 10 * INR N * uro.
Proof.
  intros HM M20 N20 Hi Hj a A. set (k := ((2 * j + 1) * i)%nat) in *.
  assert (K42 : (Z.of_nat k <= 2 ^ 42)%Z).
  { unfold k. rewrite Nat2Z.inj_mul. apply Z.le_trans with (2 ^ 21 * 2 ^ 20)%Z; [|reflexivity||lia]. apply Z.mul_le_mono_nonneg; lia. }
  destruct (of_size k ltac:(lia)) as (Fk & Vk). destruct (of_size (2 * M) ltac:(lia)) as (Fm & Vm).
  assert (KB := INR_le_bp k 42 ltac:(lia) K42). pose proof (pos_INR k) as K0.
  assert (M2 : 2 <= INR (2 * M)) by (apply (le_INR 2); lia).
  assert (Np : 1 <= INR N) by (apply (le_INR 1); lia).
  assert (NB : INR N <= 1048576) by (pose proof (INR_le_bp N 20 ltac:(lia) N20) as B; exact B).
  assert (KN : INR k <= INR N * INR (2 * M)).
  { rewrite <- mult_INR. apply le_INR. unfold k. nia. }
  pose proof PPersp.val_pi as VP. pose proof pi_bounds as HPI. pose proof eta_tiny as ET. pose proof uro_val as UV.
  assert (OK : okf 42 (f64_of_size k)) by (split; [exact Fk|rewrite Vk, Rabs_pos_eq; assumption]).
  assert (OP : okf 2 f64_pi) by (split; [vm_compute; reflexivity|rewrite VP; change (bp 2) with 4; rewrite Rabs_pos_eq by lra; lra]).
  destruct (mult_E 42 2 _ _ OK OP ltac:(lia)) as (O1 & V1 & E1). rewrite Vk in E1, V1. set (p := f64_of_size k *' f64_pi) in *.
  assert (P0 : 0 <= INR k * val f64_pi) by (apply Rmult_le_pos; [exact K0|rewrite VP; lra]). rewrite (Rabs_pos_eq (INR k * val f64_pi)) in E1 by exact P0.
  assert (Pp : 0 <= val p).
  { rewrite V1. rewrite <- (round_0 radix2 (FLT_exp (-1074) 53) (Znearest (fun x => negb (Z.even x)))). apply round_le; [apply FLT_exp_valid; reflexivity|apply valid_rnd_N|exact P0]. }
  set (X := INR (2 * M)) in *. set (B := INR k * val f64_pi / X).
  assert (BX : B * X = INR k * val f64_pi) by (unfold B; field; lra).
  assert (AX : A * X = INR k * PI) by (unfold A; field; lra).
  assert (A0 : 0 <= A <= INR N * PI).
  { split; [unfold A; apply Rmult_le_pos; [apply Rmult_le_pos; lra|left; apply Rinv_0_lt_compat; lra]|]. apply (Rmult_le_reg_r X); [lra|]. rewrite AX. replace (INR N * PI * X) with (INR N * X * PI) by ring. apply Rmult_le_compat_r; lra. }
  destruct PPersp.pi_rel as (dp & Hdp & Edp). assert (BA : B = A * (1 + dp)) by (unfold B, A; rewrite Edp; field; lra).
  apply Rabs_le_inv in Hdp. assert (U0 : 0 < uro <= / 1000000) by (rewrite UV; lra).
  assert (Bd : Rabs (B - A) <= uro * A).
  { rewrite BA. replace (A * (1 + dp) - A) with (dp * A) by ring. rewrite Rabs_mult, (Rabs_pos_eq A) by lra. apply Rmult_le_compat_r; [lra|apply Rabs_le; lra]. }
  apply Rabs_le_inv in Bd. apply Rabs_le_inv in E1.
  assert (Q1 : Rabs (val p / X - B) <= uro * B + eta).
  { replace (val p / X - B) with ((val p - INR k * val f64_pi) * / X) by (unfold B; field; lra). rewrite Rabs_mult, (Rabs_pos_eq (/ X)) by (left; apply Rinv_0_lt_compat; lra).
    apply (Rmult_le_reg_r X); [lra|]. rewrite Rmult_assoc, Rinv_l, Rmult_1_r by lra. apply Rle_trans with (uro * (INR k * val f64_pi) + eta); [apply Rabs_le; lra|].
    rewrite Rmult_plus_distr_r, Rmult_assoc, BX. apply Rplus_le_compat_l. rewrite <- (Rmult_1_r eta) at 1. apply Rmult_le_compat_l; lra. }
  apply Rabs_le_inv in Q1.
  assert (UA : 0 <= uro * A <= / 1000000 * A) by (split; [apply Rmult_le_pos; lra|apply Rmult_le_compat_r; lra]).
  assert (B2 : 0 <= B <= 1000001 / 1000000 * A) by (split; [rewrite BA; apply Rmult_le_pos; lra|lra]).
  assert (UB : 0 <= uro * B <= 1000001 / 1000000 * (uro * A)).
  { split; [apply Rmult_le_pos; lra|]. apply Rle_trans with (uro * (1000001 / 1000000 * A)); [apply Rmult_le_compat_l; lra|lra]. }
  assert (AN : A <= 3142 / 1000 * INR N) by (assert (INR N * PI <= INR N * (3142 / 1000)) by (apply Rmult_le_compat_l; lra); lra).
  assert (Y0 : 0 <= val p / X) by (apply Rmult_le_pos; [exact Pp|left; apply Rinv_0_lt_compat; lra]).
  assert (YB : val p / X <= bp 22) by (change (bp 22) with 4194304; lra).
  destruct (div_E p (f64_of_size (2 * M)) 22) as (O2 & V2 & E2); [apply O1|rewrite Vm; fold X; lra|rewrite Vm; fold X; rewrite Rabs_pos_eq by exact Y0; exact YB|lia|].
  rewrite Vm in V2, E2. fold X in V2, E2. rewrite (Rabs_pos_eq (val p / X)) in E2 by exact Y0. fold a in O2, V2, E2. split; [apply O2|].
  assert (a0 : 0 <= val a).
  { rewrite V2. rewrite <- (round_0 radix2 (FLT_exp (-1074) 53) (Znearest (fun x => negb (Z.even x)))). apply round_le; [apply FLT_exp_valid; reflexivity|apply valid_rnd_N|exact Y0]. }
  split; [split; [exact a0|]|].
  - destruct O2 as (_ & O2). rewrite Rabs_pos_eq in O2 by exact a0. change (bp 22) with 4194304 in O2. lra.
  - apply Rabs_le_inv in E2. set (y := val p / X) in *.
    assert (UY : 0 <= uro * y <= 101 / 100 * (uro * A) + eta).
    { split; [apply Rmult_le_pos; lra|]. apply Rle_trans with (uro * (B + uro * B + eta)); [apply Rmult_le_compat_l; lra|].
      assert (uro * (uro * B) <= / 1000000 * (uro * B)) by (apply Rmult_le_compat_r; lra). assert (uro * eta <= / 1000000 * eta) by (apply Rmult_le_compat_r; lra). lra. }
    assert (UN : uro * A <= 3142 / 1000 * (INR N * uro)) by (apply Rle_trans with (uro * (3142 / 1000 * INR N)); [apply Rmult_le_compat_l; lra|lra]).
    assert (NU : uro <= INR N * uro) by (rewrite <- (Rmult_1_l uro) at 1; apply Rmult_le_compat_r; lra).
    apply Rabs_le. lra.
Qed.

(** The weight. *)
Lemma weight_E (M i : nat) : (0 < M)%nat -> (Z.of_nat M <= 2 ^ 20)%Z ->
  okf 2 (dct_weight M i) /\ Rabs (val (dct_weight M i) - dctW M i) <= 21 / 10 * uro * dctW M i /\ / 1024 <= dctW M i <= 2.
Proof.
  intros HM M20. destruct (of_size M ltac:(lia)) as (Fm & Vm).
  assert (M1 : 1 <= INR M) by (apply (le_INR 1); lia). assert (MB : INR M <= 1048576) by exact (INR_le_bp M 20 ltac:(lia) M20).
  assert (U0 : 0 < uro <= / 1000000) by (rewrite uro_val; lra).
  assert (G : forall z : Z, (z = 1 \/ z = 2)%Z -> okf 2 (b64_sqrt mode_NE (f64_of_Z z /' f64_of_size M)) /\
    Rabs (val (b64_sqrt mode_NE (f64_of_Z z /' f64_of_size M)) - sqrt (IZR z / INR M)) <= 21 / 10 * uro * sqrt (IZR z / INR M) /\ / 1024 <= sqrt (IZR z / INR M) <= 2).
  { intros z Hz. assert (Z12 : 1 <= IZR z <= 2) by (destruct Hz as [-> | ->]; lra).
    destruct (of_Z_exact z ltac:(destruct Hz as [-> | ->]; reflexivity)) as (Fz & Vz).
    set (q := IZR z / INR M).
    assert (QL : / 1048576 <= q).
    { unfold q. apply (Rmult_le_reg_r (INR M)); [lra|]. unfold Rdiv. rewrite Rmult_assoc, Rinv_l by lra. lra. }
    assert (QU : q <= 2).
    { unfold q. apply (Rmult_le_reg_r (INR M)); [lra|]. unfold Rdiv. rewrite Rmult_assoc, Rinv_l by lra. lra. }
    destruct (PPersp.div_rel (f64_of_Z z) (f64_of_size M) 1 Fz) as (F1 & d1 & Hd1 & E1); [rewrite Vm; lra|rewrite Vz, Vm; fold q|lia|].
    { rewrite Rabs_pos_eq by lra. split; [|exact QU]. apply Rle_trans with (bp (-20)); [apply bpow_le; lia|exact QL]. }
    rewrite Vz, Vm in E1. fold q in E1. set (x := f64_of_Z z /' f64_of_size M) in *. apply Rabs_le_inv in Hd1.
    assert (X0 : 0 < val x) by (rewrite E1; apply Rmult_lt_0_compat; lra).
    destruct (sqrt_fin x F1 X0) as (F2 & E2).
    assert (SX : sqrt (val x) = sqrt q * sqrt (1 + d1)) by (rewrite E1; apply sqrt_mult; lra).
    assert (N1 := sqrt_near (1 + d1) uro ltac:(lra) ltac:(lra)). specialize (N1 ltac:(apply Rabs_le; lra)). apply Rabs_le_inv in N1. set (s := sqrt (1 + d1)) in *.
    assert (WL : / 1024 <= sqrt q).
    { replace (/ 1024) with (sqrt (/ 1048576)); [apply sqrt_le_1_alt; exact QL|]. replace (/ 1048576) with (/ 1024 * / 1024) by lra. apply sqrt_square. lra. }
    assert (WU : sqrt q <= 15 / 10).
    { replace (15 / 10) with (sqrt (15 / 10 * (15 / 10))) by (apply sqrt_square; lra). apply sqrt_le_1_alt. lra. }
    set (w := sqrt q) in *. assert (WS : / 2048 <= w * s <= 16 / 10) by (split; [apply Rle_trans with (/ 1024 * (/ 2))|apply Rle_trans with (15 / 10 * (101 / 100))]; [lra|apply Rmult_le_compat; lra|apply Rmult_le_compat; lra|lra]).
    destruct (rnd_rel (sqrt (val x))) as (d2 & Hd2 & E3).
    { rewrite SX, Rabs_pos_eq by lra. apply Rle_trans with (bp (-11)); [apply bpow_le; lia|]. change (bp (-11)) with (/ 2048). apply WS. }
    apply Rabs_le_inv in Hd2. assert (R1 : Rabs (val (b64_sqrt mode_NE x) - w) <= 21 / 10 * uro * w).
    { rewrite E2, E3, SX. replace (w * s * (1 + d2) - w) with ((s * (1 + d2) - 1) * w) by ring. rewrite Rabs_mult, (Rabs_pos_eq w) by lra. apply Rmult_le_compat_r; [lra|].
      replace (s * (1 + d2) - 1) with ((s - 1) + d2 + (s - 1) * d2) by ring. assert (Z := Rabs_le (s - 1) uro ltac:(lra)). assert (Z2 := Rabs_le d2 uro ltac:(lra)).
      assert (Rabs ((s - 1) * d2) <= / 10 * uro) by (rewrite Rabs_mult; apply Rmult_le_compat; try apply Rabs_pos; lra).
      eapply Rle_trans; [apply Rabs_triang|]. pose proof (Rabs_triang (s - 1) d2). lra. }
    split; [split; [exact F2|]|split; [exact R1|lra]].
    apply Rabs_le_inv in R1. change (bp 2) with 4. assert (21 / 10 * uro * w <= 1) by (apply Rle_trans with (/ 2 * w); [apply Rmult_le_compat_r; lra|lra]). apply Rabs_le. lra. }
  unfold dct_weight, dctW. destruct (i =? 0)%nat; [exact (G 1%Z (or_introl eq_refl))|exact (G 2%Z (or_intror eq_refl))].
Qed.

(** A cell, in double. *)
Lemma value_E (TT : Trig f64) (d : R) (M N i j : nat) : 0 <= d <= / 100 -> good_cos TT d ->
  (0 < M)%nat -> (Z.of_nat M <= 2 ^ 20)%Z -> (Z.of_nat N <= 2 ^ 20)%Z -> (i < M)%nat -> (j < N)%nat ->
  fin (dct_value M i j) /\ Rabs (val (dct_value M i j) - dctR M i j) <= (101 / 100 * d + 14 * INR N * uro) * dctW M i.
Proof.
  intros Hd GC HM M20 N20 Hi Hj. destruct (angle_E M N i j HM M20 N20 Hi Hj) as (Fa & Ba & Ea). destruct (weight_E M i HM M20) as (Ow & Ew & Bw).
  unfold dct_value, dctR. set (a := (f64_of_size ((2 * j + 1) * i) *' f64_pi) /' f64_of_size (2 * M)) in *. set (A := INR ((2 * j + 1) * i) * PI / INR (2 * M)) in *.
  destruct (GC a Fa Ba) as (Fc & Ec). set (c := @scos f64 TT a : f64) in *. change (@scos binary64 TT a) with c in *. set (w64 := dct_weight M i) in *. set (w := dctW M i) in *.
  assert (Np : 1 <= INR N) by (apply (le_INR 1); lia). assert (NB : INR N <= 1048576) by exact (INR_le_bp N 20 ltac:(lia) N20).
  pose proof uro_val as UV. pose proof eta_tiny as ET. assert (U0 : 0 < uro <= / 1000000) by (rewrite UV; lra).
  assert (NU : uro <= INR N * uro) by (rewrite <- (Rmult_1_l uro) at 1; apply Rmult_le_compat_r; lra).
  assert (NS : INR N * uro <= / 1000000) by (rewrite UV; lra).
  assert (EC : Rabs (val c - cos A) <= d + 10 * (INR N * uro)).
  { replace (val c - cos A) with ((val c - cos (val a)) + (cos (val a) - cos A)) by ring. eapply Rle_trans; [apply Rabs_triang|]. pose proof (cos_lipR (val a) A). lra. }
  assert (CA : Rabs (cos A) <= 1) by (pose proof (COS_bound A); apply Rabs_le; lra).
  assert (CB : Rabs (val c) <= 11 / 10).
  { replace (val c) with ((val c - cos A) + cos A) by ring. eapply Rle_trans; [apply Rabs_triang|]. lra. }
  destruct (mult_E 1 2 c w64) as (Ov & _ & Ev); [split; [exact Fc|change (bp 1) with 2; lra]|exact Ow|lia|]. split; [apply Ov|].
  set (e := d + 10 * (INR N * uro)) in *. set (x := val c) in *. set (y := val w64) in *. set (v := val (c *' w64)) in *. set (C := cos A) in *.
  replace (v - C * w) with ((v - x * y) + (x - C) * w + x * (y - w)) by ring.
  assert (T1 : Rabs ((x - C) * w) <= e * w) by (rewrite Rabs_mult, (Rabs_pos_eq w) by lra; apply Rmult_le_compat_r; lra).
  assert (T2 : Rabs (x * (y - w)) <= 11 / 10 * (21 / 10 * uro * w)) by (rewrite Rabs_mult; apply Rmult_le_compat; try apply Rabs_pos; lra).
  assert (UW : 0 <= uro * w) by (apply Rmult_le_pos; lra).
  assert (XY : Rabs (x * y) <= 12 / 10 * w).
  { rewrite Rabs_mult. apply Rle_trans with (11 / 10 * (101 / 100 * w)); [|lra]. apply Rmult_le_compat; try apply Rabs_pos; [exact CB|].
    replace y with ((y - w) + w) by ring. eapply Rle_trans; [apply Rabs_triang|]. rewrite (Rabs_pos_eq w) by lra. assert (21 / 10 * uro * w <= / 100 * w) by (apply Rmult_le_compat_r; lra). lra. }
  assert (T3 : Rabs (v - x * y) <= 13 / 10 * (uro * w)).
  { eapply Rle_trans; [exact Ev|]. assert (uro * Rabs (x * y) <= uro * (12 / 10 * w)) by (apply Rmult_le_compat_l; lra).
    assert (uro * / 1000000 <= uro * (/ 100 * w)) by (apply Rmult_le_compat_l; lra). lra. }
  assert (NW : uro * w <= INR N * uro * w) by (apply Rmult_le_compat_r; lra).
  eapply Rle_trans; [apply Rabs_triang|]. pose proof (Rabs_triang (v - x * y) ((x - C) * w)) as T. 
  assert (0 <= d * w) by (apply Rmult_le_pos; lra). unfold e in T1. lra.
Qed.

(** Orthonormality of a perturbed basis. *)
Definition someLim : RLim := {| rmax := 1; reps := 1; rmax_pos := Rlt_0_1; reps_pos := Rlt_0_1 |}.
Lemma dct_exact (cfg : Cfg) (n : nat) : (0 < n)%nat -> forall r s, (r < n)%nat -> (s < n)%nat -> dotR n (fun c => dctR n r c) (fun c => dctR n s c) = idR r s.
Proof.
  intros Hn r s Hr Hs. pose (lim := someLim). assert (L : length (repeat 0 (n * n)) = (n * n)%nat) by apply repeat_length.
  destruct (C32_dct_orthonormal n _ Hn L) as (m1 & f & E1 & H1 & O). destruct (mat_set_dct_spec n n _ Hn L) as (m2 & E2 & H2).
  assert (m1 = m2) by congruence. subst m2. rewrite <- (O r s Hr Hs). unfold dotR. apply rsum_ext. intros c Hc.
  assert (G : forall i, (i < n)%nat -> dctR n i c = f i c).
  { intros i Hi. rewrite (repM_fun n n m1 f _ H1 H2 i c Hi Hc). unfold dctR, dctW, dct_cell. destruct (i =? 0)%nat; reflexivity. }
  rewrite !G by assumption. reflexivity.
Qed.
Lemma dctR_abs (n i j : nat) : Rabs (dctR n i j) <= dctW n i.
Proof.
  unfold dctR. rewrite Rabs_mult, (Rabs_pos_eq (dctW n i)) by apply sqrt_pos. rewrite <- (Rmult_1_l (dctW n i)) at 2. apply Rmult_le_compat_r; [apply sqrt_pos|].
  pose proof (COS_bound (INR ((2 * j + 1) * i) * PI / INR (2 * n))). apply Rabs_le. lra.
Qed.
Lemma dctW_max (n i : nat) : (0 < n)%nat -> 0 <= dctW n i <= sqrt (2 / INR n).
Proof.
  intros Hn. assert (0 < INR n) by (apply (lt_INR 0); lia). split; [apply sqrt_pos|]. unfold dctW. apply sqrt_le_1_alt. apply Rmult_le_compat_r; [left; apply Rinv_0_lt_compat; lra|]. destruct (i =? 0)%nat; lra.
Qed.
Lemma near_orthonormal (cfg : Cfg) (n : nat) (e : R) (g : nat -> nat -> R) : (0 < n)%nat -> 0 <= e <= / 10 ->
  (forall i j, (i < n)%nat -> (j < n)%nat -> Rabs (g i j - dctR n i j) <= e * dctW n i) ->
  forall r s, (r < n)%nat -> (s < n)%nat -> Rabs (dotR n (fun c => g r c) (fun c => g s c) - idR r s) <= 5 * e.
Proof.
  intros Hn He H r s Hr Hs. rewrite <- (dct_exact cfg n Hn r s Hr Hs). unfold dotR.
  assert (P : 0 < INR n) by (apply (lt_INR 0); lia). assert (Q : 0 < 2 / INR n) by (apply Rdiv_lt_0_compat; lra).
  set (W := sqrt (2 / INR n)) in *. assert (WW : W * W = 2 / INR n) by (apply sqrt_sqrt; lra). assert (W0 : 0 <= W) by apply sqrt_pos.
  assert (B : forall i j, (i < n)%nat -> (j < n)%nat -> Rabs (g i j - dctR n i j) <= e * W /\ Rabs (dctR n i j) <= W).
  { intros i j Hi Hj. pose proof (dctW_max n i Hn) as M. fold W in M. split; [eapply Rle_trans; [apply H; assumption|apply Rmult_le_compat_l; lra]|eapply Rle_trans; [apply dctR_abs|apply M]]. }
  rewrite <- rsum_minus. eapply Rle_trans; [apply rsum_abs|]. apply Rle_trans with (rsum n (fun _ => (2 * e + e * e) * (W * W))).
  - apply rsum_le. intros c Hc. destruct (B r c Hr Hc) as (E1 & F1). destruct (B s c Hs Hc) as (E2 & F2).
    set (x := dctR n r c) in *. set (y := dctR n s c) in *. set (a := g r c - x) in *. set (b := g s c - y) in *.
    replace (g r c * g s c - x * y) with (a * y + x * b + a * b) by (unfold a, b; ring).
    assert (0 <= e * W) by (apply Rmult_le_pos; lra).
    assert (Rabs (a * y) <= e * W * W) by (rewrite Rabs_mult; apply Rmult_le_compat; try apply Rabs_pos; assumption).
    assert (Rabs (x * b) <= W * (e * W)) by (rewrite Rabs_mult; apply Rmult_le_compat; try apply Rabs_pos; assumption).
    assert (Rabs (a * b) <= e * W * (e * W)) by (rewrite Rabs_mult; apply Rmult_le_compat; try apply Rabs_pos; assumption).
    eapply Rle_trans; [apply Rabs_triang|]. pose proof (Rabs_triang (a * y) (x * b)). lra.
  - rewrite rsum_const, WW. replace (INR n * ((2 * e + e * e) * (2 / INR n))) with (4 * e + 2 * (e * e)) by (field; lra). assert (e * e <= / 10 * e) by (apply Rmult_le_compat_r; lra). lra.
Qed.

(** C211, double: every cell of set_dct() is within (1.01 d + 14 N / 2^53) of the
    exact one relative to the weight of its row, if the cosine of the C library has
    an absolute error of at most d; a square one is orthonormal up to 5 times that. *)
Theorem C211_set_dct (cfg : Cfg) (TT : Trig f64) (d : R) (M N : nat) (m : list f64) : 0 <= d <= / 100 -> good_cos TT d ->
  (0 < M)%nat -> (Z.of_nat M <= 2 ^ 20)%Z -> (Z.of_nat N <= 2 ^ 20)%Z -> length m = (M * N)%nat ->
  let e := 101 / 100 * d + 14 * INR N * / 2 ^ 53 in
  returns (matd_set_dct M N m) (fun r => exists g, repM M N r g /\
    (forall i j, (i < M)%nat -> (j < N)%nat -> fin (g i j) /\
      Rabs (val (g i j) - cos (INR ((2 * j + 1) * i) * PI / INR (2 * M)) * sqrt ((if (i =? 0)%nat then 1 else 2) / INR M)) <= e * sqrt ((if (i =? 0)%nat then 1 else 2) / INR M)) /\
    (M = N -> forall i k, (i < M)%nat -> (k < M)%nat -> Rabs (dotR N (fun j => val (g i j)) (fun j => val (g k j)) - idR i k) <= 5 * e)).
Proof.
  intros Hd GC HM M20 N20 Lm e. destruct (mat_rep (ST := F64Scalar) M N m Lm) as (f & Hm). unfold matd_set_dct.
  eapply returns_impl; [apply (fill2_rc_all M N m f (fun i j => dct_value M i j)); [exact Hm|]; intros i j l' Hi Hj Hl'; rewrite mat_put_ok by assumption; reflexivity|].
  intros r Hr. eexists. split; [exact Hr|].
  assert (C : forall i j, (i < M)%nat -> (j < N)%nat -> fin (dct_value M i j) /\ Rabs (val (dct_value M i j) - dctR M i j) <= e * dctW M i) by (intros i j Hi Hj; exact (value_E TT d M N i j Hd GC HM M20 N20 Hi Hj)).
  split; [exact C|]. intros <- i k Hi Hk. assert (NB : INR M <= 1048576) by exact (INR_le_bp M 20 ltac:(lia) M20). pose proof (pos_INR M).
  apply (near_orthonormal cfg M e (fun i j => val (dct_value M i j)) HM); [|intros a b Ha Hb; apply C; assumption|assumption|assumption].
  unfold e. change (/ 2 ^ 53) with uro. rewrite uro_val. lra.
Qed.
Print Assumptions C211_set_dct.

(** C211, float: the doubles are narrowed, which adds at most 2 / 2^24. *)
Theorem C211_set_dct_float (cfg : Cfg) (TT : Trig f64) (d : R) (M N : nat) (m : list f32) : 0 <= d <= / 100 -> good_cos TT d ->
  (0 < M)%nat -> (Z.of_nat M <= 2 ^ 20)%Z -> (Z.of_nat N <= 2 ^ 20)%Z -> length m = (M * N)%nat ->
  let e := 101 / 100 * d + 14 * INR N * / 2 ^ 53 + 2 / 2 ^ 24 in
  returns (matf_set_dct M N m) (fun r => exists g, repM M N r g /\
    (forall i j, (i < M)%nat -> (j < N)%nat -> PF32.fin (g i j) /\
      Rabs (PF32.val (g i j) - cos (INR ((2 * j + 1) * i) * PI / INR (2 * M)) * sqrt ((if (i =? 0)%nat then 1 else 2) / INR M)) <= e * sqrt ((if (i =? 0)%nat then 1 else 2) / INR M)) /\
    (M = N -> forall i k, (i < M)%nat -> (k < M)%nat -> Rabs (dotR N (fun j => PF32.val (g i j)) (fun j => PF32.val (g k j)) - idR i k) <= 5 * e)).
Proof.
  intros Hd GC HM M20 N20 Lm e. destruct (mat_rep (ST := F32Scalar) M N m Lm) as (f & Hm). unfold matf_set_dct.
  eapply returns_impl; [apply (fill2_rc_all M N m f (fun i j => f32_of_f64 (dct_value M i j))); [exact Hm|]; intros i j l' Hi Hj Hl'; rewrite mat_put_ok by assumption; reflexivity|].
  intros r Hr. eexists. split; [exact Hr|]. assert (NB : INR N <= 1048576) by exact (INR_le_bp N 20 ltac:(lia) N20). pose proof (pos_INR N) as N0.
  assert (C : forall i j, (i < M)%nat -> (j < N)%nat -> PF32.fin (f32_of_f64 (dct_value M i j)) /\ Rabs (PF32.val (f32_of_f64 (dct_value M i j)) - dctR M i j) <= e * dctW M i).
  { intros i j Hi Hj. destruct (value_E TT d M N i j Hd GC HM M20 N20 Hi Hj) as (F & E). destruct (weight_E M i HM M20) as (_ & _ & Bw). pose proof (dctR_abs M i j) as DA.
    set (v := dct_value M i j) in *. set (w := dctW M i) in *. set (x := dctR M i j) in *.
    assert (S1 : 101 / 100 * d + 14 * INR N * uro <= / 10) by (rewrite uro_val; lra).
    assert (S2 : (101 / 100 * d + 14 * INR N * uro) * w <= / 10 * w) by (apply Rmult_le_compat_r; lra).
    assert (VB : Rabs (val v) <= 11 / 10 * w) by (replace (val v) with ((val v - x) + x) by ring; eapply Rle_trans; [apply Rabs_triang|]; lra).
    destruct (PSlerpF32.narrow_E v 2 F) as ((Fn & _) & _ & En); [change (bp 2) with 4; lra|lia|]. split; [exact Fn|].
    assert (ET : PF32.eta <= / 1000 * (PF32.uro * w)).
    { pose proof PF32b.uro_val as UV. apply Rle_trans with (/ 1000 * (PF32.uro * / 1024)); [|apply Rmult_le_compat_l; [lra|apply Rmult_le_compat_l; [rewrite UV; lra|lra]]].
      rewrite UV. unfold PF32.eta. apply Rle_trans with (/ 2 ^ 60); [apply Rinv_le_contravar; [apply pow_lt; lra|apply Rle_pow; [lra|lia]]|lra]. }
    assert (UV : 0 < PF32.uro) by (rewrite PF32b.uro_val; lra). assert (U1 : PF32.uro * Rabs (val v) <= PF32.uro * (11 / 10 * w)) by (apply Rmult_le_compat_l; lra).
    assert (UW : 0 <= PF32.uro * w) by (apply Rmult_le_pos; lra).
    replace (PF32.val (f32_of_f64 v) - x) with ((PF32.val (f32_of_f64 v) - val v) + (val v - x)) by ring. eapply Rle_trans; [apply Rabs_triang|].
    unfold e. change (2 / 2 ^ 24) with (2 * PF32.uro). change (/ 2 ^ 53) with uro. lra. }
  split; [exact C|]. intros <- i k Hi Hk.
  apply (near_orthonormal cfg M e (fun i j => PF32.val (f32_of_f64 (dct_value M i j))) HM); [|intros a b Ha Hb; apply C; assumption|assumption|assumption].
  unfold e. change (/ 2 ^ 53) with uro. rewrite uro_val. lra.
Qed.
Print Assumptions C211_set_dct_float.

(** A correctly rounded cosine has d = 2^-53 + 2^-1075. *)
Definition rounded_cos : Trig f64 := {| ssin := fun x => x; scos := fun x => PPersp.f64_of_R (cos (val x)); stan := fun x => x |}.
Lemma rounded_cos_good : good_cos rounded_cos (uro + eta).
Proof.
  intros a Fa Ba. cbn [scos rounded_cos]. pose proof (COS_bound (val a)) as CB. assert (B : Rabs (cos (val a)) <= 1) by (apply Rabs_le; lra).
  destruct (PPersp.f64_of_R_E (cos (val a))) as (F & V). { eapply Rle_lt_trans; [apply (rnd_le _ 0); [lia|exact B]|apply bpow_lt; lia]. }
  split; [exact F|]. rewrite V. destruct (PFloat.mult_error (cos (val a)) 1) as (d1 & e1 & Hd & He & E). rewrite Rmult_1_r in E. rewrite E.
  replace (cos (val a) * (1 + d1) + e1 - cos (val a)) with (cos (val a) * d1 + e1) by ring. eapply Rle_trans; [apply Rabs_triang|]. rewrite Rabs_mult.
  apply Rplus_le_compat; [|exact He]. rewrite <- (Rmult_1_l uro). apply Rmult_le_compat; try apply Rabs_pos; assumption.
Qed.
Example C211_hypotheses_met : good_cos rounded_cos (uro + eta) /\ 0 <= uro + eta <= / 100 /\ (0 < 8)%nat /\ (Z.of_nat 8 <= 2 ^ 20)%Z /\ length (repeat f64_one 64) = (8 * 8)%nat.
Proof.
  split; [exact rounded_cos_good|]. split; [pose proof eta_tiny as ET; rewrite uro_val in *; lra|]. split; [lia|]. split; [lia|reflexivity].
Qed.
