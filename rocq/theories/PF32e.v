(** C124: norm() of a float vector. *)
From Coq Require Import ZArith Reals Lra Psatz Bool.
From Flocq Require Import Core.Core IEEE754.BinarySingleNaN IEEE754.Binary IEEE754.Bits.
From Verif Require Import InstF InstF32 MFloat LVector LMatrix Spec LSum PF32 LF32 PF32b Spec10f LExt32 LF32d.
From Verif Require PFloat LFloat PFloat2.
Local Open Scope R_scope.
Local Existing Instance F32Scalar.

Notation u64 := PFloat.uro.
Lemma u64_val : u64 = / 9007199254740992.
Proof. exact PFloat2.uro_val. Qed.

(** A double sum of non-negative doubles. *)
Fixpoint dsum (n : nat) (x : nat -> f64) : f64 := match n with O => f64_zero | S k => b64_plus mode_NE (dsum k x) (x k) end.
Lemma dsum_rel (x : nat -> f64) (n : nat) :
  (Z.of_nat n <= 2 ^ 10)%Z ->
  (forall i, (i < n)%nat -> PFloat.fin (x i) /\ 0 <= PFloat.val (x i) <= bpow radix2 101) ->
  PFloat.fin (dsum n x) /\ 0 <= PFloat.val (dsum n x) <= INR n * bpow radix2 101 /\
  Rabs (PFloat.val (dsum n x) - rsum n (fun i => PFloat.val (x i))) <= ((1 + u64) ^ n - 1) * rsum n (fun i => PFloat.val (x i)).
Proof.
  pose proof PFloat.uro_pos as UP.
  induction n as [|n IH]; intros Hn H.
  - cbn [dsum rsum INR pow]. assert (E : PFloat.val f64_zero = 0) by reflexivity. rewrite E. split; [reflexivity|]. split; [lra|]. rewrite Rabs_pos_eq; lra.
  - destruct IH as (F & B & R0); [lia|intros; apply H; lia|]. destruct (H n ltac:(lia)) as (Fx & Bx). cbn [dsum rsum].
    set (s := dsum n x) in *. set (S0 := rsum n (fun i => PFloat.val (x i))) in *.
    assert (SP : 0 <= S0) by (apply rsum_nonneg; intros; apply H; lia).
    assert (Hb : Rabs (PFloat.val s + PFloat.val (x n)) <= INR (S n) * bpow radix2 101) by (rewrite S_INR, Rabs_pos_eq; lra).
    pose proof (LFloat.rnd_le_scaled _ (S n) 101 ltac:(lia) ltac:(lia) Hb) as RB.
    destruct (LFloat.plus_fin s (x n) F Fx) as (F2 & E2).
    { eapply Rle_lt_trans; [exact RB|]. apply Rle_lt_trans with (bpow radix2 11 * bpow radix2 101); [|rewrite <- bpow_plus; apply bpow_lt; lia].
      apply Rmult_le_compat_r; [apply bpow_ge_0|]. change (bpow radix2 11) with 2048. rewrite INR_IZR_INZ. apply IZR_le. lia. }
    destruct (PFloat.plus_error s (x n)) as (d & Hd & Ed). rewrite E2. apply Rabs_le_inv in Hd as Hd'.
    split; [exact F2|].
    assert (U1 : u64 <= / 2) by (rewrite u64_val; lra).
    split.
    + split; [rewrite Ed; apply Rmult_le_pos; lra|]. eapply Rle_trans; [apply Rle_abs|exact RB].
    + rewrite Ed. set (v := PFloat.val (x n)) in *. set (w := PFloat.val s) in *.
      replace ((w + v) * (1 + d) - (S0 + v)) with ((w - S0) * (1 + d) + (S0 + v) * d) by ring.
      eapply Rle_trans; [apply Rabs_triang|]. rewrite !Rabs_mult, (Rabs_pos_eq (1 + d)), (Rabs_pos_eq (S0 + v)) by lra.
      set (q := (1 + u64) ^ n) in *. assert (Q : 1 <= q) by (apply pow_R1_Rle; lra). change ((1 + u64) ^ S n) with ((1 + u64) * q).
      assert (A1 : Rabs (w - S0) * (1 + d) <= ((q - 1) * S0) * (1 + u64)) by (apply Rmult_le_compat; [apply Rabs_pos|lra|exact R0|lra]).
      assert (A2 : (S0 + v) * Rabs d <= (S0 + v) * u64) by (apply Rmult_le_compat_l; lra).
      assert (A3 : 0 <= (q - 1) * (1 + u64) * v) by (apply Rmult_le_pos; [apply Rmult_le_pos|]; lra).
      nra.
Qed.

Lemma norm_is_dsum (cfg : Cfg) n v (a : nat -> f32) : repV n v a ->
  vecf_norm n v = Ok (b64_sqrt mode_NE (dsum n (fun i => f64_of_f32 (b32_mult mode_NE (a i) (a i))))).
Proof.
  intros (L & H). unfold vecf_norm.
  assert (E : forall k, (k <= n)%nat -> for_ 0 k (fun i acc => a0 <- rd v i ;; Ok (b64_plus mode_NE acc (f64_of_f32 (b32_mult mode_NE a0 a0)))) f64_zero = Ok (dsum k (fun i => f64_of_f32 (b32_mult mode_NE (a i) (a i))))).
  { induction k as [|k IH]; intros Hk; [reflexivity|]. rewrite for_last by lia. rewrite IH by lia. cbn [bind dsum].
    rewrite (rd_ok _ _ _ (H k ltac:(lia))). reflexivity. }
  rewrite E by lia. reflexivity.
Qed.

(** C124: norm() squares in float but adds and takes the root in double: its
    error does not grow with the size of the vector (up to 1024 components), it
    stays below 2^-23 relative. *)
Theorem C124_float_norm_error :
  forall (cfg : Cfg) (n : nat) (v : list f32) (a : nat -> f32),
  repV n v a -> (Z.of_nat n <= 2 ^ 10)%Z ->
  (forall i, (i < n)%nat -> fin (a i) /\ Rabs (val (a i)) <= 2 ^ 50) ->
  / 2 ^ 50 <= lenR n (fun i => val (a i)) ->
  exists r : f64, vecf_norm n v = Ok r /\ is_finite 53 1024 r = true /\
    Rabs (B2R 53 1024 r - lenR n (fun i => val (a i))) <= / 2 ^ 23 * lenR n (fun i => val (a i)).
Proof.
  intros cfg n v a Hv Hn Ha HL. rewrite (norm_is_dsum cfg n v a Hv). eexists. split; [reflexivity|].
  rewrite Em50 in HL. assert (Ha' : forall i, (i < n)%nat -> fin (a i) /\ Rabs (val (a i)) <= bpow radix2 50) by (intros i Hi; rewrite <- E50; apply Ha; exact Hi).
  pose proof (L_pos n a HL) as LP. pose proof (LL_low n a HL) as LW. pose proof (LL n a) as ELL.
  set (L := lenR n (fun i => val (a i))) in *. pose proof (INR_bound n Hn) as NB. pose proof uro_pos as UP. pose proof uro_val as UV. pose proof PFloat.uro_pos as UP6. pose proof u64_val as UV6.
  set (x := fun i => f64_of_f32 (b32_mult mode_NE (a i) (a i))).
  assert (X : forall i, (i < n)%nat -> PFloat.fin (x i) /\ 0 <= PFloat.val (x i) <= bpow radix2 101 /\
    Rabs (PFloat.val (x i) - val (a i) * val (a i)) <= uro * (val (a i) * val (a i)) + eta).
  { intros i Hi. destruct (Ha' i Hi) as (Fa & Ba).
    assert (P : Rabs (val (a i) * val (a i)) <= bpow radix2 100).
    { change 100%Z with (50 + 50)%Z. rewrite bpow_plus, Rabs_mult. apply Rmult_le_compat; try apply Rabs_pos; exact Ba. }
    pose proof (rnd_le _ 100 ltac:(lia) P) as RB.
    destruct (mult_fin (a i) (a i) Fa Fa) as (Fm & Em). { eapply Rle_lt_trans; [exact RB|]. apply bpow_lt. lia. }
    destruct (widen _ Fm) as (W1 & W2 & _). unfold x, PFloat.fin, PFloat.val. rewrite W2. change (B2R 24 128) with val. rewrite Em.
    split; [exact W1|]. split.
    - split; [apply rnd_nonneg; nra|]. eapply Rle_trans; [apply Rle_abs|]. eapply Rle_trans; [exact RB|]. apply bpow_le. lia.
    - destruct (mult_error (val (a i)) (val (a i))) as (d & e & Hd & He & ->). set (t := val (a i) * val (a i)). assert (0 <= t) by (unfold t; nra).
      replace (t * (1 + d) + e - t) with (d * t + e) by ring. eapply Rle_trans; [apply Rabs_triang|]. rewrite Rabs_mult, (Rabs_pos_eq t) by assumption.
      apply Rplus_le_compat; [apply Rmult_le_compat_r; assumption|exact He]. }
  destruct (dsum_rel x n Hn) as (F & B & R0). { intros i Hi. destruct (X i Hi) as (A1 & A2 & _). split; assumption. }
  set (s := dsum n x) in *. set (S1 := rsum n (fun i => PFloat.val (x i))) in *.
  assert (D1 : Rabs (S1 - L * L) <= uro * (L * L) + INR n * eta).
  { rewrite ELL. unfold S1. rewrite <- rsum_minus. eapply Rle_trans; [apply rsum_abs|].
    eapply Rle_trans; [apply rsum_le with (g := fun i => uro * (val (a i) * val (a i)) + eta); intros i Hi; apply X; exact Hi|].
    rewrite rsum_plus, rsum_scal, rsum_const. lra. }
  assert (NE : INR n * eta <= uro / 1000 * (L * L)).
  { apply Rle_trans with (uro / 1000 * bpow radix2 (-100)); [|apply Rmult_le_compat_l; [lra|exact LW]].
    rewrite <- eta_bpow. apply Rle_trans with (bpow radix2 10 * bpow radix2 (-149)).
    - apply Rmult_le_compat; [lra|apply Rmult_le_pos; [lra|apply bpow_ge_0]|change (bpow radix2 10) with 1024; lra|]. pose proof (bpow_ge_0 radix2 (-149)). lra.
    - rewrite <- bpow_plus. change (10 + -149)%Z with (-39 + -100)%Z. rewrite bpow_plus. apply Rmult_le_compat_r; [apply bpow_ge_0|]. rewrite UV. cbn. lra. }
  assert (PB : (1 + u64) ^ n - 1 <= uro / 1000).
  { pose proof (pow_bern u64 n ltac:(lra)) as PBn. assert (2 * INR n * u64 <= 1) by (rewrite UV6; lra). specialize (PBn H). rewrite UV. rewrite UV6 in PBn |- *. lra. }
  set (Q := L * L) in *. assert (Qp : 0 < Q) by (unfold Q; nra).
  assert (S1b : 0 <= S1 <= 2 * Q).
  { split; [apply rsum_nonneg; intros; apply X; assumption|]. apply Rabs_le_inv in D1. rewrite UV in *. nra. }
  assert (D2 : Rabs (PFloat.val s - Q) <= (uro + uro / 100) * Q).
  { replace (PFloat.val s - Q) with ((PFloat.val s - S1) + (S1 - Q)) by ring. eapply Rle_trans; [apply Rabs_triang|].
    assert (((1 + u64) ^ n - 1) * S1 <= uro / 1000 * (2 * Q)).
    { apply Rmult_le_compat; [|lra|exact PB|lra]. assert (1 <= (1 + u64) ^ n) by (apply pow_R1_Rle; lra). lra. }
    nra. }
  assert (Sp : 0 < PFloat.val s). { apply Rabs_le_inv in D2. rewrite UV in D2. nra. }
  destruct (LFloat.sqrt_fin s F Sp) as (Fr & Er). split; [exact Fr|]. change (B2R 53 1024) with PFloat.val. rewrite Er.
  set (z := PFloat.val s / Q). assert (Ez : PFloat.val s = Q * z) by (unfold z; field; lra).
  assert (Hz : Rabs (z - 1) <= uro + uro / 100).
  { replace (z - 1) with ((PFloat.val s - Q) / Q) by (unfold z; field; lra). unfold Rdiv at 1. rewrite Rabs_mult, Rabs_inv, (Rabs_pos_eq Q) by lra.
    apply (Rmult_le_reg_r Q); [lra|]. rewrite Rmult_assoc, Rinv_l, Rmult_1_r by lra. exact D2. }
  assert (Zp : 0 < z) by (apply Rabs_le_inv in Hz; rewrite UV in Hz; lra).
  assert (U0 : 0 <= uro + uro / 100) by lra. pose proof (sqrt_near z _ Zp U0 Hz) as SN. assert (SQ : sqrt (PFloat.val s) = L * sqrt z).
  { rewrite Ez, sqrt_mult by lra. unfold Q. rewrite sqrt_square by lra. reflexivity. }
  set (y := sqrt z) in *. apply Rabs_le_inv in SN as SN'.
  destruct (LFloat.rnd_rel (sqrt (PFloat.val s))) as (d & Hd & Ed).
  { rewrite SQ, Rabs_pos_eq by (apply Rmult_le_pos; [lra|rewrite UV in SN'; lra]).
    apply Rle_trans with (bpow radix2 (-50) * / 2).
    - change (/ 2) with (bpow radix2 (-1)). rewrite <- bpow_plus. apply bpow_le. lia.
    - apply Rmult_le_compat; [apply bpow_ge_0|lra|exact HL|rewrite UV in SN'; lra]. }
  rewrite Ed, SQ. replace (L * y * (1 + d) - L) with (L * ((y - 1) + y * d)) by ring. rewrite Rabs_mult, (Rabs_pos_eq L) by lra.
  rewrite (Rmult_comm (/ 2 ^ 23)). apply Rmult_le_compat_l; [lra|]. eapply Rle_trans; [apply Rabs_triang|]. rewrite Rabs_mult.
  assert (Y2 : Rabs y * Rabs d <= 2 * u64). { apply Rmult_le_compat; try apply Rabs_pos; [|exact Hd]. apply Rabs_le. rewrite UV in SN'. lra. }
  rewrite UV6 in Y2. rewrite UV in SN. lra.
Qed.
Print Assumptions C124_float_norm_error.
(** The vector (1, 2) of C122_hypotheses_met_116 satisfies the hypotheses; here
    its norm, sqrt 5 in double. *)
Example C124_hypotheses_met :
  vecf_norm 2 [f32_one; f32_two] = Ok (b64_sqrt mode_NE (dsum 2 (fun i => f64_of_f32 (b32_mult mode_NE (nth i [f32_one; f32_two] f32_zero) (nth i [f32_one; f32_two] f32_zero))))) /\
  bits_of_b64 (b64_sqrt mode_NE (dsum 2 (fun i => f64_of_f32 (b32_mult mode_NE (nth i [f32_one; f32_two] f32_zero) (nth i [f32_one; f32_two] f32_zero))))) = 0x4001E3779B97F4A8%Z.
Proof. split; [apply (norm_is_dsum {| safe := true |} 2 _ _ (repV_nth 2 [f32_one; f32_two] f32_zero eq_refl))|vm_compute; reflexivity]. Qed.
