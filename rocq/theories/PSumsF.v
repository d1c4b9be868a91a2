(** Property C209: sums, norms, products and convolutions in double. *)
From Coq Require Import ZArith Reals Lra Psatz List.
From Flocq Require Import Core.Core IEEE754.BinarySingleNaN IEEE754.Binary IEEE754.Bits.
From Verif Require Import InstF InstF32 MVector MMatrix LVector LMatrix LMatrixR LVector2 LVecProps2 Spec Spec2 LSum PMatrix4 PMatrix5 PFloat LFloat PFloat2 LErr.
From Verif Require PPersp PMixed PF32e.
Import ListNotations.
Local Open Scope R_scope.
Local Existing Instance F64Scalar.
Local Notation bp := (bpow radix2).

(** Sums of terms of either sign. *)
Lemma ssum_err (x : nat -> f64) (n : nat) : (Z.of_nat n <= 2 ^ 20)%Z -> (forall i, (i < n)%nat -> okf 1000 (x i)) ->
  fin (ssum n x) /\ Rabs (val (ssum n x)) <= INR n * bp 1000 /\
  Rabs (val (ssum n x) - rsum n (fun i => val (x i))) <= ((1 + uro) ^ n - 1) * rsum n (fun i => Rabs (val (x i))).
Proof.
  pose proof uro_pos as UP.
  induction n as [|n IH]; intros Hn H.
  - cbn [ssum rsum INR pow]. assert (E : val (szero (T := f64)) = 0) by reflexivity. rewrite E. split; [reflexivity|]. rewrite Rminus_0_r, Rabs_R0. lra.
  - destruct IH as (F & B & R0); [lia|intros; apply H; lia|]. destruct (H n ltac:(lia)) as (Fx & Bx). cbn [ssum rsum].
    set (s := ssum n x) in *. set (S0 := rsum n (fun i => val (x i))) in *. set (A0 := rsum n (fun i => Rabs (val (x i)))) in *.
    assert (SA : Rabs S0 <= A0) by apply rsum_abs.
    assert (Hb : Rabs (val s + val (x n)) <= INR (S n) * bp 1000).
    { eapply Rle_trans; [apply Rabs_triang|]. rewrite S_INR. lra. }
    pose proof (rnd_le_scaled _ (S n) 1000 ltac:(lia) ltac:(lia) Hb) as RB.
    destruct (plus_fin s (x n) F Fx) as (F2 & E2).
    { eapply Rle_lt_trans; [exact RB|]. apply Rle_lt_trans with (bp 21 * bp 1000); [|rewrite <- bpow_plus; apply bpow_lt; lia].
      apply Rmult_le_compat_r; [apply bpow_ge_0|]. change (bp 21) with (IZR (2 ^ 21)). rewrite INR_IZR_INZ. apply IZR_le. lia. }
    cbn [sadd F64Scalar]. destruct (plus_error s (x n)) as (d & Hd & Ed). rewrite E2. split; [exact F2|]. split; [exact RB|].
    rewrite Ed. set (v := val (x n)) in *. set (w := val s) in *.
    replace ((w + v) * (1 + d) - (S0 + v)) with ((w - S0) * (1 + d) + (S0 + v) * d) by ring.
    eapply Rle_trans; [apply Rabs_triang|]. rewrite !Rabs_mult.
    set (q := (1 + uro) ^ n) in *. assert (Q : 1 <= q) by (apply pow_R1_Rle; lra). change ((1 + uro) ^ S n) with ((1 + uro) * q).
    assert (D1 : Rabs (1 + d) <= 1 + uro) by (eapply Rle_trans; [apply Rabs_triang|]; rewrite Rabs_R1; lra).
    assert (A1 : Rabs (w - S0) * Rabs (1 + d) <= ((q - 1) * A0) * (1 + uro)) by (apply Rmult_le_compat; try apply Rabs_pos; assumption).
    assert (A2 : Rabs (S0 + v) * Rabs d <= (A0 + Rabs v) * uro).
    { apply Rmult_le_compat; try apply Rabs_pos; [|exact Hd]. eapply Rle_trans; [apply Rabs_triang|]. lra. }
    assert (A3 : 0 <= (q - 1) * (1 + uro) * Rabs v) by (apply Rmult_le_pos; [apply Rmult_le_pos; lra|apply Rabs_pos]).
    nra.
Qed.
Lemma gamma (n : nat) : (Z.of_nat n <= 2 ^ 20)%Z -> 0 <= (1 + uro) ^ n - 1 <= 2 * INR n * uro.
Proof. exact (PMixed.gamma_small n). Qed.
Lemma idx (M N k : nat) : (k < M * N)%nat -> (k mod M < M)%nat /\ (k / M < N)%nat.
Proof. intros Hk. assert (M <> 0)%nat by nia. split; [apply Nat.mod_upper_bound; assumption|apply Nat.div_lt_upper_bound; [assumption|exact Hk]]. Qed.
Lemma ssum_dsum (n : nat) (x : nat -> f64) : ssum n x = PF32e.dsum n x.
Proof. induction n as [|n IH]; [reflexivity|]. cbn [ssum PF32e.dsum]. rewrite IH. reflexivity. Qed.
Lemma okf1000 (x : f64) : fin x /\ Rabs (val x) <= 2 ^ 1000 -> okf 1000 x.
Proof. intros (F & B). split; [exact F|]. rewrite (bpow_pow 1000). exact B. Qed.

(** C209: sum_elements() and columnwise_sum(): the error is at most 2n half-ulps of
    the sum of the magnitudes, and no error for integer multiples of a power of
    two (integers, pixel counts) whose magnitudes sum up to less than 2^53. *)
Theorem C209_sum_elements :
  forall (cfg : Cfg) (M N : nat) (m : list f64) (f : nat -> nat -> f64), repM M N m f -> (Z.of_nat (M * N) <= 2 ^ 20)%Z ->
  (forall i j, (i < M)%nat -> (j < N)%nat -> fin (f i j) /\ Rabs (val (f i j)) <= 2 ^ 1000) ->
  exists s : f64, mat_sum_elements M N m = Ok s /\ fin s /\
  Rabs (val s - rsumM M N (fun i j => val (f i j))) <= 2 * INR (M * N) * / 2 ^ 53 * rsumM M N (fun i j => Rabs (val (f i j))) /\
  (forall (e : Z) (z : nat -> nat -> Z), (-1074 <= e <= 900)%Z -> (forall i j, (i < M)%nat -> (j < N)%nat -> val (f i j) = IZR (z i j) * bpow radix2 e) ->
    rsumM M N (fun i j => IZR (Z.abs (z i j))) < 2 ^ 53 -> val s = rsumM M N (fun i j => val (f i j))).
Proof.
  intros cfg M N m f Hm Hn HF. pose proof (repM_repV_cell M N m f Hm) as Hv. set (x := fun k => f (k mod M)%nat (k / M)%nat) in Hv.
  assert (X : forall k, (k < M * N)%nat -> okf 1000 (x k)) by (intros k Hk; apply okf1000, HF; apply (idx M N k Hk)).
  exists (ssum (M * N) x). split.
  { unfold mat_sum_elements. apply for_sum. intros i a Hi. rewrite (repV_rd _ _ _ _ Hv Hi). reflexivity. }
  destruct (ssum_err x (M * N) Hn X) as (F & _ & E). split; [exact F|]. split.
  - rewrite <- !rsum_cells. change (/ 2 ^ 53) with uro. eapply Rle_trans; [exact E|]. apply Rmult_le_compat_r; [apply rsum_nonneg; intros; apply Rabs_pos|]. apply (gamma (M * N) Hn).
  - intros e z He Hz HB. rewrite ssum_dsum. destruct (PMixed.dsum_exact x (fun k => z (k mod M)%nat (k / M)%nat) e (M * N) He) as (_ & G).
    + intros k Hk. split; [apply (X k Hk)|]. apply Hz; apply (idx M N k Hk).
    + rewrite (rsum_cells M N (fun i j => IZR (Z.abs (z i j)))). eapply Rlt_le_trans; [exact HB|]. rewrite pow_IZR. apply Rle_refl.
    + change (PFloat.val (PF32e.dsum (M * N) x)) with (val (PF32e.dsum (M * N) x)) in G. rewrite G, PMixed.zsum_IZR, <- rsum_scal_r, (rsum_cells M N (fun i j => IZR (z i j) * bpow radix2 e)).
      unfold rsumM. apply rsum_ext. intros i Hi. apply rsum_ext. intros j Hj. symmetry. apply Hz; assumption.
Qed.
Print Assumptions C209_sum_elements.
Theorem C209_columnwise_sum :
  forall (cfg : Cfg) (M N : nat) (m out : list f64) (f : nat -> nat -> f64), repM M N m f -> length out = N -> (Z.of_nat M <= 2 ^ 20)%Z ->
  (forall i j, (i < M)%nat -> (j < N)%nat -> fin (f i j) /\ Rabs (val (f i j)) <= 2 ^ 1000) ->
  returns (mat_columnwise_sum M N m out) (fun r => exists s, repV N r s /\ forall j, (j < N)%nat -> fin (s j) /\
    Rabs (val (s j) - rsum M (fun i => val (f i j))) <= 2 * INR M * / 2 ^ 53 * rsum M (fun i => Rabs (val (f i j)))).
Proof.
  intros cfg M N m out f Hm Ho Hn HF.
  eapply returns_impl; [apply (mat_columnwise_sum_spec M N m f out _ Hm (repV_nth N out szero Ho))|].
  intros r Hr. eexists. split; [exact Hr|]. intros j Hj. cbv beta.
  destruct (ssum_err (fun i => f i j) M Hn) as (F & _ & E); [intros i Hi; apply okf1000, HF; assumption|]. split; [exact F|].
  change (/ 2 ^ 53) with uro. eapply Rle_trans; [exact E|]. apply Rmult_le_compat_r; [apply rsum_nonneg; intros; apply Rabs_pos|]. apply (gamma M Hn).
Qed.
Print Assumptions C209_columnwise_sum.

(** C209: norm() of a vector is its length(), frobenius_norm() the length of all
    cells: relative error n + 1 ulps. *)
Theorem C209_norms :
  forall (cfg : Cfg) (M N : nat) (m : list f64) (f : nat -> nat -> f64), repM M N m f -> (Z.of_nat (M * N) <= 2 ^ 20)%Z ->
  (forall i j, (i < M)%nat -> (j < N)%nat -> fin (f i j) /\ Rabs (val (f i j)) <= 2 ^ 500) ->
  let F := sqrt (rsumM M N (fun i j => val (f i j) * val (f i j))) in
  / 2 ^ 450 <= F ->
  exists r : f64, mat_frobenius M N m = Ok r /\ vec_norm (M * N) m = Ok r /\ vec_length (M * N) m = Ok r /\ fin r /\ Rabs (val r - F) <= (INR (M * N) + 1) / 2 ^ 52 * F.
Proof.
  intros cfg M N m f Hm Hn HF F HL. pose proof (repM_repV_cell M N m f Hm) as Hv.
  assert (EF : lenR (M * N) (fun k => val (f (k mod M)%nat (k / M)%nat)) = F).
  { unfold lenR, F. f_equal. unfold dotR. exact (rsum_cells M N (fun i j => val (f i j) * val (f i j))). }
  rewrite <- EF in *. destruct (C116_length_error cfg (M * N) m _ Hv Hn) as (r & E & B); [|exact HL|exists r; exact (conj E (conj E (conj E B)))].
  intros k Hk. apply HF; apply (idx M N k Hk).
Qed.
Print Assumptions C209_norms.

(** C209: product() of at least one component, all of magnitude 2^-k .. 2^k with
    M k <= 1000. *)
Lemma sprod_err (x : nat -> f64) (k : nat) (n : nat) : (forall i, (i <= n)%nat -> fin (x i) /\ bp (- Z.of_nat k) <= Rabs (val (x i)) <= bp (Z.of_nat k)) ->
  (Z.of_nat (S n * k) <= 1000)%Z -> (Z.of_nat n <= 1000)%Z ->
  let P := rprod (S n) (fun i => val (x i)) in
  fin (sprod n x) /\ bp (- Z.of_nat (S n * k)) <= Rabs P <= bp (Z.of_nat (S n * k)) /\
  exists F, (1 - uro) ^ n <= F <= (1 + uro) ^ n /\ val (sprod n x) = P * F.
Proof.
  intros H. assert (U := uro_val). assert (U0 : 0 < uro <= / 1000000) by (rewrite U; lra).
  induction n as [|n IH]; intros Hk Hn P.
  - destruct (H 0%nat ltac:(lia)) as (F & B). cbn [sprod]. unfold P. cbn [rprod]. rewrite !Rmult_1_l. rewrite Nat.mul_1_l. split; [exact F|]. split; [exact B|]. exists 1. cbn [pow]. split; lra.
  - destruct IH as (F & B & G & HG & E); [intros i Hi; apply H; lia|lia|lia|]. destruct (H (S n) ltac:(lia)) as (Fx & Bx). cbn [sprod].
    assert (EP : P = rprod (S n) (fun i => val (x i)) * val (x (S n))) by reflexivity. clearbody P. set (Q := rprod (S n) (fun i => val (x i))) in *. subst P.
    assert (EQ1 : Z.of_nat (S (S n) * k) = (Z.of_nat (S n * k) + Z.of_nat k)%Z) by lia.
    assert (PB : bp (- Z.of_nat (S (S n) * k)) <= Rabs (Q * val (x (S n))) <= bp (Z.of_nat (S (S n) * k))).
    { rewrite Rabs_mult, EQ1, Z.opp_add_distr, !bpow_plus. split; apply Rmult_le_compat; try apply Rabs_pos; try apply bpow_ge_0; apply B || apply Bx. }
    assert (G2 : / 2 <= G <= 2).
    { assert (A : (1 + uro) ^ n <= 2) by (pose proof (gamma n ltac:(lia)) as GM; pose proof (INR_bound n ltac:(lia)); rewrite U in GM at 3; lra).
      assert (Bn : 1 - INR n * uro <= (1 - uro) ^ n).
      { clear - U0. induction n as [|n IH]; [cbn; lra|]. rewrite S_INR. cbn [pow]. assert (0 <= (1 - uro) ^ n <= 1) by (split; [apply pow_le; lra|apply Rle_trans with (1 ^ n); [apply pow_incr; lra|rewrite pow1; lra]]). pose proof (Rmult_le_pos uro (1 - (1 - uro) ^ n) ltac:(lra) ltac:(lra)). lra. }
      pose proof (INR_bound n ltac:(lia)) as IB. rewrite U in Bn at 1. split; [|lra]. assert (INR n * / 9007199254740992 <= / 2) by lra. lra. }
    assert (VB : Rabs (val (sprod n x) * val (x (S n))) = G * Rabs (Q * val (x (S n)))).
    { rewrite E, !Rabs_mult, (Rabs_pos_eq G) by lra. ring. }
    destruct (PPersp.mult_rel (sprod n x) (x (S n)) 1001 F Fx) as (F2 & _ & d & Hd & E2); [rewrite VB|lia|].
    { split.
      - apply Rle_trans with (/ 2 * bp (-1000)).
        + change (/ 2) with (bp (-1)). rewrite <- bpow_plus. apply bpow_le. lia.
        + apply Rmult_le_compat; [lra|apply bpow_ge_0|lra|]. eapply Rle_trans; [|apply PB]. apply bpow_le. lia.
      - change (1001)%Z with (1 + 1000)%Z. rewrite bpow_plus. change (bp 1) with 2. apply Rmult_le_compat; [lra|apply Rabs_pos|lra|]. eapply Rle_trans; [apply PB|]. apply bpow_le. lia. }
    split; [exact F2|]. split; [exact PB|]. exists (G * (1 + d)). split.
    + apply Rabs_le_inv in Hd. cbn [pow]. rewrite (Rmult_comm (1 - uro)), (Rmult_comm (1 + uro)). pose proof (pow_le (1 - uro) n ltac:(lra)). split; apply Rmult_le_compat; lra.
    + cbn [smul F64Scalar]. rewrite E2, E. ring.
Qed.
Theorem C209_product :
  forall (cfg : Cfg) (M k : nat) (v : list f64) (a : nat -> f64), repV M v a -> (0 < M)%nat -> (Z.of_nat (M * k) <= 1000)%Z -> (Z.of_nat M <= 1000)%Z ->
  (forall i, (i < M)%nat -> fin (a i) /\ bpow radix2 (- Z.of_nat k) <= Rabs (val (a i)) <= bpow radix2 (Z.of_nat k)) ->
  let P := rprod M (fun i => val (a i)) in
  exists r, vec_product M v = Ok r /\ fin r /\ Rabs (val r - P) <= 2 * (INR M - 1) * / 2 ^ 53 * Rabs P.
Proof.
  intros cfg M k v a Hv HM Hk H1000 HA P. rewrite (vec_product_spec M v a HM Hv). exists (sprod (M - 1) a). split; [reflexivity|].
  destruct M as [|n]; [lia|]. replace (S n - 1)%nat with n by lia.
  destruct (sprod_err a k n ltac:(intros i Hi; apply HA; lia) Hk ltac:(lia)) as (F & B & G & HG & E). fold P in B, E. split; [exact F|].
  rewrite E. replace (P * G - P) with ((G - 1) * P) by ring. rewrite Rabs_mult. apply Rmult_le_compat_r; [apply Rabs_pos|]. rewrite S_INR. replace (INR n + 1 - 1) with (INR n) by ring. change (/ 2 ^ 53) with uro.
  pose proof (gamma n ltac:(lia)) as GA. assert (U0 : 0 < uro <= / 1000000) by (rewrite uro_val; lra).
  assert (Bn : 1 - INR n * uro <= (1 - uro) ^ n).
  { clear - U0. induction n as [|n IH]; [cbn; lra|]. rewrite S_INR. cbn [pow]. assert (0 <= (1 - uro) ^ n <= 1) by (split; [apply pow_le; lra|apply Rle_trans with (1 ^ n); [apply pow_incr; lra|rewrite pow1; lra]]). pose proof (Rmult_le_pos uro (1 - (1 - uro) ^ n) ltac:(lra) ltac:(lra)). lra. }
  assert (0 <= INR n * uro) by (apply Rmult_le_pos; [apply pos_INR|lra]). apply Rabs_le. lra.
Qed.
Print Assumptions C209_product.

(** C209: convolve() of a square matrix with a square kernel, borders repeated. *)
Lemma for_ssum2 (V U : nat) (x : nat -> nat -> f64) (body : nat -> nat -> f64 -> res f64) :
  (forall j i a, (j < V)%nat -> (i < U)%nat -> body j i a = Ok (sadd a (x j i))) ->
  for_ 0 V (fun j => for_ 0 U (body j)) szero = Ok (ssum (V * U) (fun t => x (t / U)%nat (t mod U)%nat)).
Proof.
  intros Hb. rewrite ssum_dsum. apply (PMixed.for_dsum2 V U x body). exact Hb.
Qed.
Theorem C209_convolve :
  forall (cfg : Cfg) (n u : nat) (m kernel : list f64) (img ker : nat -> nat -> f64),
  repM n n m img -> repM u u kernel ker -> (Z.of_nat (u * u) <= 2 ^ 20)%Z ->
  (forall i j, (i < n)%nat -> (j < n)%nat -> fin (img i j) /\ Rabs (val (img i j)) <= 2 ^ 500) ->
  (forall i j, (i < u)%nat -> (j < u)%nat -> fin (ker i j) /\ Rabs (val (ker i j)) <= 2 ^ 500) ->
  returns (mat_convolve n n u u m kernel) (fun r => exists g, repM n n r g /\ forall y x, (y < n)%nat -> (x < n)%nat ->
    fin (g y x) /\
    Rabs (val (g y x) - convR n u (fun i j => val (img i j)) (fun i j => val (ker i j)) y x) <=
      2 * INR (u * u) * / 2 ^ 53 * convR n u (fun i j => Rabs (val (img i j))) (fun i j => Rabs (val (ker i j))) y x + 2 * INR (u * u) * / 2 ^ 1075).
Proof.
  intros cfg n u m kernel img ker Hm Hk Hu HI HK.
  set (cy := fun (y j : nat) => clampI n (Z.of_nat y - Z.of_nat (u / 2) + Z.of_nat j)).
  set (ka := fun t => ker (t / u)%nat (t mod u)%nat). set (ia := fun y x t => img (cy y (t / u)%nat) (cy x (t mod u)%nat)).
  set (g := fun y x => ssum (u * u) (fun t => smul (ka t) (ia y x t))).
  assert (CY : forall y j, (y < n)%nat -> (cy y j < n)%nat) by (intros y j Hy; unfold cy, clampI; lia).
  assert (FL : forall h : nat -> nat -> R, rsum (u * u) (fun t => h (t / u)%nat (t mod u)%nat) = rsum u (fun j => rsum u (fun i => h j i))).
  { intros h. rewrite (rsum_cells u u (fun i j => h j i)). unfold rsumM. apply rsum_swap. }
  pose proof (gamma (u * u) Hu) as GS. pose proof eta_pos as EP.
  assert (CELL : forall y x, (y < n)%nat -> (x < n)%nat -> fin (g y x) /\
    Rabs (val (g y x) - convR n u (fun i j => val (img i j)) (fun i j => val (ker i j)) y x) <=
      2 * INR (u * u) * / 2 ^ 53 * convR n u (fun i j => Rabs (val (img i j))) (fun i j => Rabs (val (ker i j))) y x + 2 * INR (u * u) * / 2 ^ 1075).
  { intros y x Hy Hx.
    assert (FG : fin (g y x)).
    { apply (ssum_err (fun t => smul (ka t) (ia y x t)) (u * u) Hu). intros t Ht. destruct (idx u u t Ht) as (I1 & I2).
      destruct (HK _ _ I2 I1) as (Fa & Ba). destruct (HI (cy y (t / u)%nat) (cy x (t mod u)%nat) (CY _ _ Hy) (CY _ _ Hx)) as (Fb & Bb). rewrite E500 in Ba, Bb.
      apply (okf_mult 500 500 1000 (ka t) (ia y x t) (conj Fa Ba) (conj Fb Bb) eq_refl ltac:(lia)). }
    split; [exact FG|].
    pose proof (ssum_error ka (ia y x) (u * u) FG) as E. fold (g y x) in E. unfold dot_bound in E.
    replace (rsum (u * u) (fun i => val (ka i) * val (ia y x i))) with (convR n u (fun i j => val (img i j)) (fun i j => val (ker i j)) y x) in E.
    2:{ unfold convR. symmetry. exact (FL (fun j i => val (ker j i) * val (img (cy y j) (cy x i)))). }
    replace (rsum (u * u) (fun i => Rabs (val (ka i) * val (ia y x i)))) with (convR n u (fun i j => Rabs (val (img i j))) (fun i j => Rabs (val (ker i j))) y x) in E.
    2:{ unfold convR. symmetry. eapply eq_trans; [exact (FL (fun j i => Rabs (val (ker j i) * val (img (cy y j) (cy x i)))))|]. apply rsum_ext. intros j Hj. apply rsum_ext. intros i Hi. apply Rabs_mult. }
    set (A := convR n u (fun i j => Rabs (val (img i j))) (fun i j => Rabs (val (ker i j))) y x) in *.
    assert (A0 : 0 <= A) by (unfold A, convR; apply rsum_nonneg; intros j Hj; apply rsum_nonneg; intros i Hi; apply Rmult_le_pos; apply Rabs_pos).
    eapply Rle_trans; [exact E|]. change (/ 2 ^ 53) with uro. change (/ 2 ^ 1075) with eta. apply Rplus_le_compat.
    - apply Rmult_le_compat_r; [exact A0|apply GS].
    - assert (G2 : (1 + uro) ^ (u * u) <= 2) by (pose proof (INR_bound (u * u) Hu); pose proof uro_val as UV; rewrite UV in GS at 3; lra).
      assert (N0 : 0 <= INR (u * u) * eta) by (apply Rmult_le_pos; [apply pos_INR|lra]).
      apply Rle_trans with (INR (u * u) * eta * 2); [apply Rmult_le_compat_l; assumption|lra]. }
  unfold mat_convolve.
  eapply returns_bind; [apply mat_default_spec|]. intros d0 Hd.
  eapply returns_bind.
  - apply (fill2_rc_all n n d0 _ g (fun y x temp =>
      sum <- for_ 0 u (fun j sum =>
        let srcy := clampZ (Z.of_nat y - Z.of_nat (u / 2) + Z.of_nat j) n in
        for_ 0 u (fun i sum =>
          let srcx := clampZ (Z.of_nat x - Z.of_nat (u / 2) + Z.of_nat i) n in
          k <- mat_at u u kernel j i ;; a <- mat_at n n m srcy srcx ;;
          Ok (sadd sum (smul k a))) sum) szero ;;
      mat_put n n temp y x sum) Hd).
    intros y x l' Hy Hx Hl'. cbv zeta.
    rewrite (for_ssum2 u u (fun j i => smul (ker j i) (img (cy y j) (cy x i))) (fun j i sum => k <- mat_at u u kernel j i ;;
         a <- mat_at n n m (clampZ (Z.of_nat y - Z.of_nat (u / 2) + Z.of_nat j) n)
                           (clampZ (Z.of_nat x - Z.of_nat (u / 2) + Z.of_nat i) n) ;;
         Ok (sadd sum (smul k a)))).
    + cbn [bind]. apply mat_put_ok; auto.
    + intros j i a Hj Hi. rewrite (mat_at_ok u u kernel ker) by auto. cbn [bind].
      destruct (clampZ_spec (Z.of_nat y - Z.of_nat (u / 2) + Z.of_nat j) n ltac:(lia)) as [-> ?].
      destruct (clampZ_spec (Z.of_nat x - Z.of_nat (u / 2) + Z.of_nat i) n ltac:(lia)) as [-> ?].
      rewrite (mat_at_ok n n m img) by auto. reflexivity.
  - intros t Ht. destruct (mat_assign_spec n n m t img _ Hm Ht) as [E _]. rewrite E. apply returns_ok. exists g. split; [exact Ht|exact CELL].
Qed.
Print Assumptions C209_convolve.
(** The 1 x 2 matrix (1 2). *)
Example C209_hypotheses_met :
  repM 1 2 [f64_one; f64_two] (fun i j => nth (j * 1 + i) [f64_one; f64_two] f64_zero) /\
  (fin f64_one /\ fin f64_two /\ Rabs (val f64_one) <= 2 ^ 500 /\ Rabs (val f64_two) <= 2 ^ 500) /\ val f64_one = IZR 1 * bpow radix2 0 /\ val f64_two = IZR 2 * bpow radix2 0 /\
  (bpow radix2 (- Z.of_nat 1) <= Rabs (val f64_one) <= bpow radix2 (Z.of_nat 1)) /\ (bpow radix2 (- Z.of_nat 1) <= Rabs (val f64_two) <= bpow radix2 (Z.of_nat 1)) /\
  / 2 ^ 450 <= sqrt (rsumM 1 2 (fun i j => val (nth (j * 1 + i) [f64_one; f64_two] f64_zero) * val (nth (j * 1 + i) [f64_one; f64_two] f64_zero))).
Proof.
  split; [apply (repM_nth 1 2 [f64_one; f64_two] f64_zero); reflexivity|].
  assert (G1 : 2 <= 2 ^ 500) by (rewrite <- (pow_1 2) at 1; apply Rle_pow; [lra|lia]).
  rewrite val_one, val_two, Rabs_R1, (Rabs_pos_eq 2) by lra. change (- Z.of_nat 1)%Z with (-1)%Z. change (Z.of_nat 1) with 1%Z. change (bpow radix2 (-1)) with (/ 2). change (bpow radix2 1) with 2. change (bpow radix2 0) with 1.
  split; [refine (conj eq_refl (conj eq_refl (conj _ G1))); apply Rle_trans with 2; [lra|exact G1]|]. split; [lra|]. split; [lra|]. split; [lra|]. split; [lra|].
  unfold rsumM. cbn [rsum nth Nat.mul Nat.add]. rewrite val_one, val_two.
  apply Rle_trans with 1; [rewrite <- Rinv_1; apply Rinv_le_contravar; [lra|apply pow_R1_Rle; lra]|]. rewrite <- sqrt_1 at 1. apply sqrt_le_1_alt. lra.
Qed.
