(** Property C210: columnwise_sum() and product() in float. *)
From Coq Require Import ZArith Reals Lra Psatz List.
From Flocq Require Import Core.Core IEEE754.BinarySingleNaN IEEE754.Binary IEEE754.Bits.
From Verif Require Import InstF InstF32 MVector MMatrix LVector LMatrix LMatrixR LVector2 LVecProps2 Spec Spec2 LSum PMatrix4 PMatrix5 PF32 LF32 PF32b LExprF.
From Verif Require PPersp32 PMixed.
Import ListNotations.
Local Open Scope R_scope.
Local Existing Instance F32Scalar.
Local Notation bp := (bpow radix2).

(** Sums of terms of either sign. *)
Lemma ssum_err (x : nat -> f32) (n : nat) : (Z.of_nat n <= 2 ^ 10)%Z -> (forall i, (i < n)%nat -> okf32 100 (x i)) ->
  fin (ssum n x) /\ Rabs (val (ssum n x)) <= INR n * bp 100 /\
  Rabs (val (ssum n x) - rsum n (fun i => val (x i))) <= ((1 + uro) ^ n - 1) * rsum n (fun i => Rabs (val (x i))).
Proof.
  pose proof uro_pos as UP.
  induction n as [|n IH]; intros Hn H.
  - cbn [ssum rsum INR pow]. assert (E : val (szero (T := f32)) = 0) by reflexivity. rewrite E. split; [reflexivity|]. rewrite Rminus_0_r, Rabs_R0. lra.
  - destruct IH as (F & B & R0); [lia|intros; apply H; lia|]. destruct (H n ltac:(lia)) as (Fx & Bx). cbn [ssum rsum].
    set (s := ssum n x) in *. set (S0 := rsum n (fun i => val (x i))) in *. set (A0 := rsum n (fun i => Rabs (val (x i)))) in *.
    assert (SA : Rabs S0 <= A0) by apply rsum_abs.
    assert (Hb : Rabs (val s + val (x n)) <= INR (S n) * bp 100).
    { eapply Rle_trans; [apply Rabs_triang|]. rewrite S_INR. lra. }
    pose proof (rnd_le_scaled _ (S n) 100 ltac:(lia) ltac:(lia) Hb) as RB.
    destruct (plus_fin s (x n) F Fx) as (F2 & E2).
    { eapply Rle_lt_trans; [exact RB|]. apply Rle_lt_trans with (bp 11 * bp 100); [|rewrite <- bpow_plus; apply bpow_lt; lia].
      apply Rmult_le_compat_r; [apply bpow_ge_0|]. change (bp 11) with (IZR (2 ^ 11)). rewrite INR_IZR_INZ. apply IZR_le. lia. }
    cbn [sadd F32Scalar]. destruct (plus_error s (x n)) as (d & Hd & Ed). rewrite E2. split; [exact F2|]. split; [exact RB|].
    rewrite Ed. set (v := val (x n)) in *. set (w := val s) in *.
    replace ((w + v) * (1 + d) - (S0 + v)) with ((w - S0) * (1 + d) + (S0 + v) * d) by ring.
    eapply Rle_trans; [apply Rabs_triang|]. rewrite !Rabs_mult.
    set (q := (1 + uro) ^ n) in *. assert (Q : 1 <= q) by (apply pow_R1_Rle; lra). change ((1 + uro) ^ S n) with ((1 + uro) * q).
    assert (D1 : Rabs (1 + d) <= 1 + uro) by (eapply Rle_trans; [apply Rabs_triang|]; rewrite Rabs_R1; lra).
    assert (A1 : Rabs (w - S0) * Rabs (1 + d) <= ((q - 1) * A0) * (1 + uro)) by (apply Rmult_le_compat; try apply Rabs_pos; assumption).
    assert (A2 : Rabs (S0 + v) * Rabs d <= (A0 + Rabs v) * uro).
    { apply Rmult_le_compat; try apply Rabs_pos; [|exact Hd]. eapply Rle_trans; [apply Rabs_triang|]. lra. }
    assert (A3 : 0 <= (q - 1) * (1 + uro) * Rabs v) by (apply Rmult_le_pos; [apply Rmult_le_pos; lra|apply Rabs_pos]).
    nra.
Qed.
Lemma gamma (n : nat) : (Z.of_nat n <= 2 ^ 10)%Z -> 0 <= (1 + uro) ^ n - 1 <= 2 * INR n * uro.
Proof.
  intros Hn. pose proof (INR_bound n Hn) as NB. pose proof uro_val as UV. pose proof uro_pos. split.
  - assert (1 <= (1 + uro) ^ n) by (apply pow_R1_Rle; lra). lra.
  - pose proof (pow_bern uro n ltac:(lra)) as P. assert (Q : 2 * INR n * uro <= 1) by (rewrite UV; lra). specialize (P Q). lra.
Qed.
Lemma idx (M N k : nat) : (k < M * N)%nat -> (k mod M < M)%nat /\ (k / M < N)%nat.
Proof. intros Hk. assert (M <> 0)%nat by nia. split; [apply Nat.mod_upper_bound; assumption|apply Nat.div_lt_upper_bound; [assumption|exact Hk]]. Qed.
Lemma okf1000 (x : f32) : fin x /\ Rabs (val x) <= 2 ^ 100 -> okf32 100 x.
Proof. intros (F & B). split; [exact F|]. rewrite (bpow_pow 100). exact B. Qed.

(** C210: columnwise_sum(). *)
Theorem C210_columnwise_sum :
  forall (cfg : Cfg) (M N : nat) (m out : list f32) (f : nat -> nat -> f32), repM M N m f -> length out = N -> (Z.of_nat M <= 2 ^ 10)%Z ->
  (forall i j, (i < M)%nat -> (j < N)%nat -> fin (f i j) /\ Rabs (val (f i j)) <= 2 ^ 100) ->
  returns (mat_columnwise_sum M N m out) (fun r => exists s, repV N r s /\ forall j, (j < N)%nat -> fin (s j) /\
    Rabs (val (s j) - rsum M (fun i => val (f i j))) <= 2 * INR M * / 2 ^ 24 * rsum M (fun i => Rabs (val (f i j)))).
Proof.
  intros cfg M N m out f Hm Ho Hn HF.
  eapply returns_impl; [apply (mat_columnwise_sum_spec M N m f out _ Hm (repV_nth N out szero Ho))|].
  intros r Hr. eexists. split; [exact Hr|]. intros j Hj. cbv beta.
  destruct (ssum_err (fun i => f i j) M Hn) as (F & _ & E); [intros i Hi; apply okf1000, HF; assumption|]. split; [exact F|].
  change (/ 2 ^ 24) with uro. eapply Rle_trans; [exact E|]. apply Rmult_le_compat_r; [apply rsum_nonneg; intros; apply Rabs_pos|]. apply (gamma M Hn).
Qed.
Print Assumptions C210_columnwise_sum.

(** C210: product() of at least one component, all of magnitude 2^-k .. 2^k with
    M k <= 120. *)
Lemma sprod_err (x : nat -> f32) (k : nat) (n : nat) : (forall i, (i <= n)%nat -> fin (x i) /\ bp (- Z.of_nat k) <= Rabs (val (x i)) <= bp (Z.of_nat k)) ->
  (Z.of_nat (S n * k) <= 120)%Z -> (Z.of_nat n <= 120)%Z ->
  let P := rprod (S n) (fun i => val (x i)) in
  fin (sprod n x) /\ bp (- Z.of_nat (S n * k)) <= Rabs P <= bp (Z.of_nat (S n * k)) /\
  exists F, (1 - uro) ^ n <= F <= (1 + uro) ^ n /\ val (sprod n x) = P * F.
Proof.
  intros H. assert (U := uro_val). assert (U0 : 0 < uro <= / 1000000) by (rewrite U; lra).
  induction n as [|n IH]; intros Hk Hn P.
  - destruct (H 0%nat ltac:(lia)) as (F & B). cbn [sprod]. unfold P. cbn [rprod]. rewrite !Rmult_1_l. rewrite Nat.mul_1_l. split; [exact F|]. split; [exact B|]. exists 1. cbn [pow]. split; lra.
  - destruct IH as (F & B & G & HG & E); [intros i Hi; apply H; lia|lia|lia|]. destruct (H (S n) ltac:(lia)) as (Fx & Bx). cbn [sprod].
    assert (EP : P = rprod (S n) (fun i => val (x i)) * val (x (S n))) by reflexivity. clearbody P. set (Q := rprod (S n) (fun i => val (x i))) in *. subst P.
    assert (EQ1 : Z.of_nat (S (S n) * k) = (Z.of_nat (S n * k) + Z.of_nat k)%Z) by lia.
    assert (PB : bp (- Z.of_nat (S (S n) * k)) <= Rabs (Q * val (x (S n))) <= bp (Z.of_nat (S (S n) * k))).
    { rewrite Rabs_mult, EQ1, Z.opp_add_distr, !bpow_plus. split; apply Rmult_le_compat; try apply Rabs_pos; try apply bpow_ge_0; apply B || apply Bx. }
    assert (G2 : / 2 <= G <= 2).
    { assert (A : (1 + uro) ^ n <= 2) by (pose proof (gamma n ltac:(lia)) as GM; pose proof (INR_bound n ltac:(lia)); rewrite U in GM at 3; lra).
      assert (Bn : 1 - INR n * uro <= (1 - uro) ^ n).
      { clear - U0. induction n as [|n IH]; [cbn; lra|]. rewrite S_INR. cbn [pow]. assert (0 <= (1 - uro) ^ n <= 1) by (split; [apply pow_le; lra|apply Rle_trans with (1 ^ n); [apply pow_incr; lra|rewrite pow1; lra]]). pose proof (Rmult_le_pos uro (1 - (1 - uro) ^ n) ltac:(lra) ltac:(lra)). lra. }
      pose proof (INR_bound n ltac:(lia)) as IB. rewrite U in Bn at 1. split; [|lra]. assert (INR n * / 16777216 <= / 2) by lra. lra. }
    assert (VB : Rabs (val (sprod n x) * val (x (S n))) = G * Rabs (Q * val (x (S n)))).
    { rewrite E, !Rabs_mult, (Rabs_pos_eq G) by lra. ring. }
    destruct (PPersp32.mult_rel32 (sprod n x) (x (S n)) 121 F Fx) as (F2 & _ & d & Hd & E2); [rewrite VB|lia|].
    { split.
      - apply Rle_trans with (/ 2 * bp (-120)).
        + change (/ 2) with (bp (-1)). rewrite <- bpow_plus. apply bpow_le. lia.
        + apply Rmult_le_compat; [lra|apply bpow_ge_0|lra|]. eapply Rle_trans; [|apply PB]. apply bpow_le. lia.
      - change (121)%Z with (1 + 120)%Z. rewrite bpow_plus. change (bp 1) with 2. apply Rmult_le_compat; [lra|apply Rabs_pos|lra|]. eapply Rle_trans; [apply PB|]. apply bpow_le. lia. }
    split; [exact F2|]. split; [exact PB|]. exists (G * (1 + d)). split.
    + apply Rabs_le_inv in Hd. cbn [pow]. rewrite (Rmult_comm (1 - uro)), (Rmult_comm (1 + uro)). pose proof (pow_le (1 - uro) n ltac:(lra)). split; apply Rmult_le_compat; lra.
    + cbn [smul F32Scalar]. rewrite E2, E. ring.
Qed.
Theorem C210_product :
  forall (cfg : Cfg) (M k : nat) (v : list f32) (a : nat -> f32), repV M v a -> (0 < M)%nat -> (Z.of_nat (M * k) <= 120)%Z -> (Z.of_nat M <= 120)%Z ->
  (forall i, (i < M)%nat -> fin (a i) /\ bpow radix2 (- Z.of_nat k) <= Rabs (val (a i)) <= bpow radix2 (Z.of_nat k)) ->
  let P := rprod M (fun i => val (a i)) in
  exists r, vec_product M v = Ok r /\ fin r /\ Rabs (val r - P) <= 2 * (INR M - 1) * / 2 ^ 24 * Rabs P.
Proof.
  intros cfg M k v a Hv HM Hk H1000 HA P. rewrite (vec_product_spec M v a HM Hv). exists (sprod (M - 1) a). split; [reflexivity|].
  destruct M as [|n]; [lia|]. replace (S n - 1)%nat with n by lia.
  destruct (sprod_err a k n ltac:(intros i Hi; apply HA; lia) Hk ltac:(lia)) as (F & B & G & HG & E). fold P in B, E. split; [exact F|].
  rewrite E. replace (P * G - P) with ((G - 1) * P) by ring. rewrite Rabs_mult. apply Rmult_le_compat_r; [apply Rabs_pos|]. rewrite S_INR. replace (INR n + 1 - 1) with (INR n) by ring. change (/ 2 ^ 24) with uro.
  pose proof (gamma n ltac:(lia)) as GA. assert (U0 : 0 < uro <= / 1000000) by (rewrite uro_val; lra).
  assert (Bn : 1 - INR n * uro <= (1 - uro) ^ n).
  { clear - U0. induction n as [|n IH]; [cbn; lra|]. rewrite S_INR. cbn [pow]. assert (0 <= (1 - uro) ^ n <= 1) by (split; [apply pow_le; lra|apply Rle_trans with (1 ^ n); [apply pow_incr; lra|rewrite pow1; lra]]). pose proof (Rmult_le_pos uro (1 - (1 - uro) ^ n) ltac:(lra) ltac:(lra)). lra. }
  assert (0 <= INR n * uro) by (apply Rmult_le_pos; [apply pos_INR|lra]). apply Rabs_le. lra.
Qed.
Print Assumptions C210_product.

(** The 1 x 2 matrix (1 2). *)
Example C210_hypotheses_met :
  repM 1 2 [f32_one; f32_two] (fun i j => nth (j * 1 + i) [f32_one; f32_two] f32_zero) /\
  (fin f32_one /\ fin f32_two /\ Rabs (val f32_one) <= 2 ^ 100 /\ Rabs (val f32_two) <= 2 ^ 100) /\
  (bpow radix2 (- Z.of_nat 1) <= Rabs (val f32_one) <= bpow radix2 (Z.of_nat 1)) /\ (bpow radix2 (- Z.of_nat 1) <= Rabs (val f32_two) <= bpow radix2 (Z.of_nat 1)).
Proof.
  split; [apply (repM_nth 1 2 [f32_one; f32_two] f32_zero); reflexivity|].
  assert (G1 : 2 <= 2 ^ 100) by (rewrite <- (pow_1 2) at 1; apply Rle_pow; [lra|lia]).
  rewrite val_one, val_two, Rabs_R1, (Rabs_pos_eq 2) by lra. change (- Z.of_nat 1)%Z with (-1)%Z. change (Z.of_nat 1) with 1%Z. change (bpow radix2 (-1)) with (/ 2). change (bpow radix2 1) with 2.
  split; [refine (conj eq_refl (conj eq_refl (conj _ G1))); apply Rle_trans with 2; [lra|exact G1]|]. split; lra.
Qed.
